.lia.cache
*.vo
*.vos
*.vok
*.glob
*.aux
