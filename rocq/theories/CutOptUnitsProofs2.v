(** * CutOptUnitsProofs2: assembling the best rows in any units *)
From Coq Require Import String Reals List Bool ZArith Arith Lia Lra.
From Verif Require Import Num Numpy Table Binning Percentile Cuts CutUnits Utils Sensitivity CutOptimization Quantities SpectralUnits SimulationUnits IRFUnits
  SensitivityUnits CutOptimizationUnits SpecUnits SpecIRFUnits SpecSensUnits SpecCutUnits SpecCutOptUnits IRFUnitsProofs CutUnitsProofs SensUnitsProofs SensUnitsProofs2 SensUnitsProofs3
  CutOptUnitsProofs.
Import ListNotations.
Open Scope R_scope.
Notation sc := IRFUnitsProofs.sc.

(** ** the columns of a sensitivity table: the edges first *)
Definition laid (t : table) : Prop := exists r, colnames t = edges3 ++ r /\ NoDup (edges3 ++ r).
Lemma names_set {A} (t : list (string * A)) k c : In k (colnames t) /\ colnames (setitem t k c) = colnames t \/ ~ In k (colnames t) /\ colnames (setitem t k c) = colnames t ++ [k].
Proof.
  induction t as [|[n x] t IH]; cbn.
  - right. split; [tauto|reflexivity].
  - destruct (String.eqb_spec k n) as [->|N]; cbn.
    + left. split; [now left|reflexivity].
    + destruct IH as [(I & E)|(I & E)].
      * left. split; [now right|]. unfold colnames in *. now rewrite E.
      * right. split; [intros [->|I']; tauto|]. unfold colnames in *. now rewrite E.
Qed.
Lemma laid_set t k c : laid t -> laid (setitem t k c).
Proof.
  intros (r & E & N). unfold laid. destruct (names_set t k c) as [(I & E')|(I & E')]; rewrite E'; [now exists r|].
  exists (r ++ [k]). rewrite E, app_assoc in *. split; [reflexivity|].
  rewrite <- (rev_involutive ((edges3 ++ r) ++ [k])). apply NoDup_rev. rewrite rev_app_distr. cbn [rev app]. constructor.
  - rewrite <- in_rev. exact I.
  - now apply NoDup_rev.
Qed.
Lemma laid_copy bkg names : forall s t, copy_columns bkg names s = Ok t -> laid s -> laid t.
Proof.
  induction names as [|k names IH]; intros s t E L; cbn in E; [inversion E; subst; auto|].
  destruct (get_col bkg k); cbn in E; [|discriminate]. eapply IH; eauto. now apply laid_set.
Qed.
Lemma laid_edges sig t : copy_edges sig ["low"; "high"; "center"]%string [] = Ok t -> laid t.
Proof.
  cbn [copy_edges append]. destruct (get_col sig "reco_energy_low"); cbn; [|discriminate]. destruct (get_col sig "reco_energy_high"); cbn; [|discriminate].
  destruct (get_col sig "reco_energy_center"); cbn; [|discriminate]. intros E. inversion E. exists []. split; [reflexivity|]. cbn.
  repeat constructor; cbn; intuition discriminate.
Qed.
Lemma laid_sens br sf sa s b alpha ms me mx t : calculate_sensitivity br sf sa s b alpha ms me mx = Ok t -> laid t.
Proof.
  unfold calculate_sensitivity. intros E.
  repeat match type of E with rbind ?r _ = _ => let H := fresh "H" in destruct r eqn:H; cbn [rbind] in E; [|discriminate] end.
  inversion E; subst. apply laid_set, laid_set.
  match goal with H : copy_columns _ _ _ = Ok ?x |- laid ?x => apply (laid_copy _ _ _ _ H) end.
  do 4 apply laid_set. eapply laid_edges; eauto.
Qed.
(** ** tables that differ in the numbers of the edges *)
Definition prel (c : R) (t t' : table) : Prop :=
  exists l h m r, t = (("reco_energy_low", CN l) :: ("reco_energy_high", CN h) :: ("reco_energy_center", CN m) :: r)%string /\
    t' = (("reco_energy_low", CN (map (sc c) l)) :: ("reco_energy_high", CN (map (sc c) h)) :: ("reco_energy_center", CN (map (sc c) m)) :: r)%string /\
    forall n, In n edges3 -> ~ In n (colnames r).
Lemma tables_eq {A} (l l' : list (string * A)) : colnames l = colnames l' -> NoDup (colnames l) -> (forall n, In n (colnames l) -> getitem l n = getitem l' n) -> l = l'.
Proof.
  revert l'. induction l as [|[n x] l IH]; intros [|[n' x'] l'] E N G; try discriminate; [reflexivity|].
  cbn in E. injection E as <- E. inversion N as [|? ? N1 N2]; subst. f_equal.
  - specialize (G n (or_introl eq_refl)). cbn in G. rewrite String.eqb_refl in G. now inversion G.
  - apply IH; auto. intros m I. specialize (G m (or_intror I)). cbn in G.
    destruct (String.eqb_spec m n) as [D|D]; [subst; contradiction|exact G].
Qed.
Lemma rel_prel c t t' : rel c t t' -> laid t -> prel c t t'.
Proof.
  intros (C & G) (r & E & N). unfold edges3 in E. cbn [app] in E.
  destruct t as [|[n1 c1] [|[n2 c2] [|[n3 c3] t]]]; try discriminate. destruct t' as [|[m1 d1] [|[m2 d2] [|[m3 d3] t']]]; try discriminate.
  cbn in E, C. injection E as -> -> -> E. injection C as <- <- <- C.
  assert (NE : forall n, In n edges3 -> ~ In n r).
  { intros n I J. unfold edges3 in N, I. cbn [app] in N. cbn in I. inversion N as [|? ? X1 N1]; subst. inversion N1 as [|? ? X2 N2]; subst. inversion N2 as [|? ? X3 N3]; subst.
    cbn in X1, X2, X3. destruct I as [<-|[<-|[<-|[]]]]; tauto. }
  pose proof (G "reco_energy_low"%string) as G1. pose proof (G "reco_energy_high"%string) as G2. pose proof (G "reco_energy_center"%string) as G3.
  destruct (in_dec string_dec "reco_energy_low"%string edges3) as [_|X]; [|exfalso; apply X; cbn; auto].
  destruct (in_dec string_dec "reco_energy_high"%string edges3) as [_|X]; [|exfalso; apply X; cbn; auto].
  destruct (in_dec string_dec "reco_energy_center"%string edges3) as [_|X]; [|exfalso; apply X; cbn; auto].
  cbn in G1, G2, G3. destruct c1 as [l| | |], d1 as [l'| | |]; try tauto. destruct c2 as [h| | |], d2 as [h'| | |]; try tauto. destruct c3 as [m| | |], d3 as [m'| | |]; try tauto. subst l' h' m'.
  exists l, h, m, t. split; [reflexivity|]. split.
  - do 3 f_equal. symmetry. apply tables_eq; auto.
    + fold (colnames t). change (map fst t) with (colnames t) in E. rewrite E. unfold edges3 in N. cbn [app] in N. inversion N as [|? ? _ N1]; subst. inversion N1 as [|? ? _ N2]; subst. inversion N2; auto.
    + intros n I. change (map fst t) with (colnames t) in E. assert (J : ~ In n edges3) by (intros J; apply (NE n J); rewrite <- E; exact I).
      specialize (G n). destruct (in_dec string_dec n edges3); [contradiction|]. cbn in G.
      destruct (String.eqb_spec n "reco_energy_low"); [exfalso; apply J; cbn; auto|]. destruct (String.eqb_spec n "reco_energy_high"); [exfalso; apply J; cbn; auto|].
      destruct (String.eqb_spec n "reco_energy_center"); [exfalso; apply J; cbn; auto|]. exact G.
  - change (map fst t) with (colnames t) in E. rewrite E. exact NE.
Qed.
Lemma prel_rel c t t' : prel c t t' -> rel c t t'.
Proof.
  intros (l & h & m & r & -> & -> & N). split; [reflexivity|]. intros n. destruct (in_dec string_dec n edges3) as [I|I].
  - cbn in I. destruct I as [<-|[<-|[<-|[]]]]; reflexivity.
  - cbn. destruct (String.eqb_spec n "reco_energy_low"); [exfalso; apply I; cbn; auto|]. destruct (String.eqb_spec n "reco_energy_high"); [exfalso; apply I; cbn; auto|].
    destruct (String.eqb_spec n "reco_energy_center"); [exfalso; apply I; cbn; auto|]. reflexivity.
Qed.
(** rows *)
Definition rowrel (c : R) (r r' : res (list num)) : Prop :=
  match r, r' with
  | Ok r, Ok r' => exists a b d x, r = a :: b :: d :: x /\ r' = sc c a :: sc c b :: sc c d :: x
  | Err e, Err e' => e = e'
  | _, _ => False
  end.
Lemma row_rel c t t' k : prel c t t' -> rowrel c (row_at t k) (row_at t' k).
Proof.
  intros (l & h & m & r & -> & -> & N). unfold row_at. cbn [rmap snd col_nums]. rewrite !np_index_map.
  destruct (np_index l _) as [a|e]; cbn [rbind rowrel]; auto. destruct (np_index h _) as [b|e]; cbn [rbind rowrel]; auto.
  destruct (np_index m _) as [d|e]; cbn [rbind rowrel]; auto. destruct (rmap _ r) as [x|e]; cbn [rbind rowrel]; auto. do 4 eexists. eauto.
Qed.
Definition prrel (c : R) (r r' : res table) : Prop :=
  match r, r' with Ok t, Ok t' => prel c t t' | Err e, Err e' => e = e' | _, _ => False end.
Lemma names_row k (r : table) (x : list num) : List.length r = List.length x -> colnames (zipwith (fun p v => (fst p, CN (list_set (col_nums (snd p)) k v))) r x) = colnames r.
Proof. revert x. induction r as [|p r IH]; intros [|v x] H; try discriminate; [reflexivity|]. cbn in *. injection H as H. f_equal. now apply IH. Qed.
Lemma set_rel c t t' k a b d x : prel c t t' -> prrel c (set_row t k (a :: b :: d :: x)) (set_row t' k (sc c a :: sc c b :: sc c d :: x)).
Proof.
  intros (l & h & m & r & -> & -> & N). unfold set_row. cbn [List.length forallb snd col_nums]. rewrite !map_length.
  destruct (negb _) eqn:L; cbn [prrel]; auto. destruct (_ && _)%bool; cbn [prrel]; auto.
  apply negb_false_iff, Nat.eqb_eq in L. injection L as L.
  cbn [zipwith fst snd col_nums]. rewrite !CutUnitsProofs.list_set_map. do 4 eexists. split; [reflexivity|]. split; [reflexivity|].
  rewrite names_row by auto. exact N.
Qed.
Lemma index_rel {A B} (R : A -> B -> Prop) l l' z : Forall2 R l l' ->
  match np_index l z, np_index l' z with Ok a, Ok b => R a b | Err e, Err e' => e = e' | _, _ => False end.
Proof.
  intros F. assert (L : List.length l = List.length l') by (induction F; cbn; congruence). unfold np_index. rewrite L. destruct (_ || _)%bool; auto.
  generalize (Z.to_nat (if Z.ltb z 0 then (z + Z.of_nat (List.length l'))%Z else z)). intros n. clear L.
  revert n. induction F; intros [|n]; cbn; auto. apply IHF.
Qed.
Lemma assemble_rel c sens sens' best : Forall2 (prel c) sens sens' -> forall k t t', prel c t t' -> prrel c (assemble sens best k t) (assemble sens' best k t').
Proof.
  intros F. induction best as [|b best IH]; intros k t t' T; [exact T|]. cbn [assemble].
  pose proof (index_rel _ _ _ (Z.of_nat b) F) as I. destruct (np_index sens _) as [s|e], (np_index sens' _) as [s'|e']; try tauto; cbn [rbind prrel]; auto.
  pose proof (row_rel _ _ _ k I) as J. destruct (row_at s k) as [r|e], (row_at s' k) as [r'|e']; cbn [rowrel] in J; try tauto; cbn [rbind prrel]; auto.
  destruct J as (x1 & x2 & x3 & x & -> & ->). pose proof (set_rel _ _ _ k x1 x2 x3 x T) as S.
  destruct (set_row t k _) as [t1|e], (set_row t' k _) as [t1'|e']; cbn [prrel] in S; try tauto; cbn [rbind prrel]; auto.
Qed.
Lemma best_rel c sens sens' k : Forall2 (prel c) sens sens' -> best_of_bin sens k = best_of_bin sens' k.
Proof.
  intros F. unfold best_of_bin.
  match goal with |- rbind ?a ?g = rbind ?b ?g => assert (E : a = b); [|now rewrite E] end.
  induction F as [|s s' l l' H F IH]; [reflexivity|]. cbn [rmap]. rewrite IH. apply prel_rel in H. apply (rel_get _ _ _ "relative_sensitivity") in H; [now rewrite H|cbn; intuition discriminate].
Qed.
