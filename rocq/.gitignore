*.vo
*.vok
*.vos
*.glob
*.aux
.*.aux
.lia.cache
.nra.cache
.nia.cache
.Makefile.d
Makefile.conf
Makefile
