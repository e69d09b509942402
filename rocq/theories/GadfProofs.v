(** * Proofs about pyirf/io/gadf.py *)
From Coq Require Import String Ascii Reals List Bool ZArith Arith Lia Lra.
From Verif Require Import Num Numpy Table Tensor Binning BinningProofs2 Lists Cuts CutsProofs Benchmarks QuantileProofs3 BenchmarkProofs4 Gadf SpecGadf.
Import ListNotations.
Open Scope R_scope.
Open Scope string_scope.

(** *** headers *)
Definition apply_cards (h : header) (cards : list (string * hval)) : header := fold_left (fun h kv => setitem h (upper (fst kv)) (snd kv)) cards h.
Lemma nth_list_set {A} (l : list A) i v d : (i < List.length l)%nat -> nth i (list_set l i v) d = v.
Proof. intros H. apply nth_error_nth. apply list_set_eq; auto. Qed.
Lemma nth_list_set_neq {A} (l : list A) i j v d : i <> j -> nth j (list_set l i v) d = nth j l d.
Proof.
  intros H. destruct (nth_error l j) eqn:E.
  - rewrite (nth_error_nth _ _ _ E). apply nth_error_nth. rewrite list_set_neq; auto.
  - apply nth_error_None in E. rewrite !nth_overflow; auto. rewrite list_set_length; auto.
Qed.
Lemma set_cards_spec cards : forall hp loc, (loc < List.length hp)%nat ->
  List.length (set_cards hp loc cards) = List.length hp /\ nth loc (set_cards hp loc cards) [] = apply_cards (nth loc hp []) cards /\
  forall j, j <> loc -> nth j (set_cards hp loc cards) [] = nth j hp [].
Proof.
  induction cards as [|(k, v) cards IH]; intros hp loc Hl; [auto|]. change (set_cards hp loc ((k, v) :: cards)) with (set_cards (set_card hp loc k v) loc cards).
  assert (L : List.length (set_card hp loc k v) = List.length hp) by (unfold set_card; apply list_set_length). destruct (IH (set_card hp loc k v) loc ltac:(lia)) as (A & B & C).
  split; [lia|]. split.
  - rewrite B. unfold apply_cards. cbn [fold_left fst snd]. f_equal. unfold set_card. apply nth_list_set; auto.
  - intros j Hj. rewrite C by auto. unfold set_card. apply nth_list_set_neq; auto.
Qed.
Lemma apply_app h a b : apply_cards h (a ++ b) = apply_cards (apply_cards h a) b.
Proof. unfold apply_cards. apply fold_left_app. Qed.
Lemma copied hp : let '(hp1, loc) := copy_header hp DEFAULT in (loc < List.length hp1)%nat /\ loc = List.length hp /\ nth loc hp1 [] = nth 0 hp [] /\ (forall j, (j < List.length hp)%nat -> nth j hp1 [] = nth j hp []).
Proof.
  cbn. rewrite app_length. cbn. split; [lia|]. split; auto. split; [rewrite app_nth2, Nat.sub_diag; auto|]. intros j Hj. rewrite app_nth1; auto.
Qed.
(** the state after a call and its result *)
Lemma finish_spec hp t cards extname user : let r := finish hp t cards extname user in
  snd r = Ok (bin_table_hdu t (apply_cards (nth 0 hp []) (cards ++ user)) extname) /\ (List.length hp <= List.length (fst r))%nat /\
  forall j, (j < List.length hp)%nat -> nth j (fst r) [] = nth j hp [].
Proof.
  unfold finish. pose proof (copied hp) as C. destruct (copy_header hp DEFAULT) as (hp1, loc). destruct C as (Hl & El & E0 & Ho).
  destruct (set_cards_spec cards hp1 loc Hl) as (A1 & A2 & A3). destruct (set_cards_spec user (set_cards hp1 loc cards) loc ltac:(lia)) as (B1 & B2 & B3). cbn [fst snd]. unfold add_header_cards. split.
  - rewrite B2, A2, E0, apply_app. auto.
  - split; [lia|]. intros j Hj. rewrite B3 by lia. rewrite A3 by lia. auto.
Qed.
Lemma run_call_state hp c : (List.length hp <= List.length (fst (run_call hp c)))%nat /\ forall j, (j < List.length hp)%nat -> nth j (fst (run_call hp c)) [] = nth j hp [].
Proof.
  assert (W : forall t f, (forall t, (List.length hp <= List.length (fst (f t)))%nat /\ forall j, (j < List.length hp)%nat -> nth j (fst (f t)) [] = nth j hp []) ->
    (List.length hp <= List.length (fst (with_table hp t f)))%nat /\ forall j, (j < List.length hp)%nat -> nth j (fst (with_table hp t f)) [] = nth j hp []) by (intros [t|e] f H; cbn; auto).
  destruct c; cbn [run_call]; apply W; intros t; try (match goal with |- context [finish ?a ?b ?c ?d ?e] => destruct (finish_spec a b c d e) as (_ & ? & ?); auto end).
  destruct (existsb _ _).
  - match goal with |- context [finish ?a ?b ?c ?d ?e] => destruct (finish_spec a b c d e) as (_ & ? & ?); auto end.
  - pose proof (copied hp) as C. destruct (copy_header hp DEFAULT) as (hp1, loc). destruct C as (Hl & El & E0 & Ho). cbn [fst].
    destruct (set_cards_spec (clas "RESPONSE" "BKG" (HStr "FULL-ENCLOSURE") "BKG_3D") hp1 loc Hl) as (A1 & A2 & A3). split; [eapply Nat.le_trans; [|apply Nat.eq_le_incl; symmetry; exact A1]; rewrite El in Hl; apply Nat.lt_le_incl; exact Hl|]. intros j Hj. eapply eq_trans; [apply A3; rewrite El; apply Nat.lt_neq; exact Hj|]. auto.
Qed.
Lemma run_call_result hp c : snd (run_call hp c) = snd (run_call [nth 0 hp []] c).
Proof.
  assert (F : forall t a n u, snd (finish hp t a n u) = snd (finish [nth 0 hp []] t a n u)) by (intros; destruct (finish_spec hp t a n u) as (-> & _); destruct (finish_spec [nth 0 hp []] t a n u) as (-> & _); auto).
  assert (W : forall t f g, (forall t, snd (f t) = snd (g t)) -> snd (with_table hp t f) = snd (with_table [nth 0 hp []] t g)) by (intros [t|e] f g H; cbn; auto).
  destruct c; cbn [run_call]; apply W; intros t; try apply F. destruct (existsb _ _); [apply F|].
  destruct (copy_header hp DEFAULT), (copy_header [nth 0 hp []] DEFAULT). auto.
Qed.
Lemma run_calls_state cs : forall hp, (1 <= List.length hp)%nat -> nth 0 (fst (run_calls hp cs)) [] = nth 0 hp [] /\ (1 <= List.length (fst (run_calls hp cs)))%nat.
Proof.
  induction cs as [|c cs IH]; intros hp Hl; cbn [run_calls]; auto. destruct (run_call_state hp c) as (A & B). destruct (run_call hp c) as (h1, r). cbn [fst] in A, B.
  destruct (IH h1 ltac:(lia)) as (C & D). destruct (run_calls h1 cs) as (h2, rs). cbn [fst] in *. split; [rewrite C; apply B; lia|lia].
Qed.
(** DEFAULT_HEADER after any calls; results do not depend on earlier calls *)
Lemma default_untouched version cs : nth_error (fst (run_calls [default_header version] cs)) DEFAULT = Some (default_header version).
Proof.
  destruct (run_calls_state cs [default_header version] ltac:(cbn; lia)) as (A & B). cbn [nth] in A. unfold DEFAULT. eapply eq_trans; [exact (nth_error_nth' _ [] B)|]. f_equal. exact A.
Qed.
Lemma history_independent version cs c : snd (run_call (fst (run_calls [default_header version] cs)) c) = snd (run_call [default_header version] c).
Proof.
  rewrite run_call_result. destruct (run_calls_state cs [default_header version] ltac:(cbn; lia)) as (A & B). cbn [nth] in A. exact (f_equal (fun x => snd (run_call [x] c)) A).
Qed.

(** look up *)
Lemma apply_last h cards k v : last_card cards k v -> getitem (apply_cards h cards) k = Some v.
Proof.
  intros (pre & k' & post & -> & Ek & Hp). rewrite apply_app. unfold apply_cards at 1. cbn [fold_left fst snd]. fold (apply_cards (setitem (apply_cards h pre) (upper k') v) post). rewrite Ek.
  assert (G : forall h, getitem h k = Some v -> getitem (apply_cards h post) k = Some v).
  { induction post as [|(a, b) post IH]; intros h0 H0; [auto|]. unfold apply_cards. cbn [fold_left fst snd]. apply IH; [intros kv Hkv; apply Hp; right; auto|].
    rewrite getitem_setitem_neq; auto. intros ->. apply (Hp (a, b)); [left; auto|auto]. }
  apply G. apply getitem_setitem_eq.
Qed.
Lemma apply_none cards : forall h k, no_card cards k -> getitem (apply_cards h cards) k = getitem h k.
Proof.
  induction cards as [|(a, b) cards IH]; intros h k H; auto. unfold apply_cards. cbn [fold_left fst snd]. fold (apply_cards (setitem h (upper a) b) cards). rewrite IH by (intros kv Hkv; apply H; right; auto).
  apply getitem_setitem_neq. intros ->. apply (H (a, b)); [left; auto|auto].
Qed.
Lemma getitem_filter (h : header) k : structural k = false -> getitem (filter (fun kv => negb (structural (fst kv))) h) k = getitem h k.
Proof.
  intros Hk. induction h as [|(a, b) h IH]; auto. cbn [filter fst]. destruct (structural a) eqn:E; cbn [negb].
  - cbn [getitem]. destruct (String.eqb_spec k a); [congruence|auto].
  - cbn [getitem]. destruct (String.eqb k a); auto.
Qed.
Lemma hdu_lookup t h n k : structural k = false -> k <> "EXTNAME" -> getitem (hdu_header (bin_table_hdu t h n)) k = getitem h k.
Proof.
  intros Hs Hk. unfold bin_table_hdu. cbn [hdu_header]. destruct (String.eqb n ""); [apply getitem_filter; auto|]. rewrite getitem_setitem_neq by auto. apply getitem_filter; auto.
Qed.
Lemma hdu_extname t h n : n <> "" -> getitem (hdu_header (bin_table_hdu t h n)) "EXTNAME" = Some (HStr (upper n)).
Proof. intros H. unfold bin_table_hdu. cbn [hdu_header]. destruct (String.eqb_spec n ""); [congruence|]. apply getitem_setitem_eq. Qed.

(** the header of the result of a call: default, then the cards of the function, then the ones of the user *)
Lemma call_shape version c h : snd (run_call [default_header version] c) = Ok h ->
  exists t cards, h = bin_table_hdu t (apply_cards (default_header version) (cards ++ call_cards c)) (call_extname c) /\
    exists c2 c3 c4 rest, gadf_class c = (c2, c3, c4) /\
    cards = (("HDUCLAS1", HStr "RESPONSE") :: ("HDUCLAS2", HStr c2) :: ("HDUCLAS3", HStr c3) :: ("HDUCLAS4", HStr c4) :: rest)%list /\
    exists n x al, rest = (al ++ [("DATE", HStr (call_now c)); (("CREF" ++ decimal n)%string, HStr x)])%list /\ (al = [] \/ exists y, al = [("FOVALIGN", HStr y)]).
Proof.
  intros H. assert (W : forall (t : res fits_table) f, snd (with_table [default_header version] t f) = Ok h -> exists t0, snd (f t0) = Ok h) by (intros [t|e] f E; cbn in E; [eauto|discriminate]).
  destruct c; cbn [run_call] in H; apply W in H; destruct H as (t0 & H);
    try (match type of H with snd (finish ?a ?b ?c ?d ?e) = _ => destruct (finish_spec a b c d e) as (E & _); rewrite E in H; injection H as <-; cbn [nth];
      exists t0, c; split; [reflexivity|]; do 4 eexists; split; [reflexivity|]; split; [unfold clas, enclosure; cbn [app]; reflexivity|]; eexists; eexists; exists []; split; [reflexivity|auto] end).
  destruct (existsb _ _).
  - match type of H with snd (finish ?a ?b ?c ?d ?e) = _ => destruct (finish_spec a b c d e) as (E & _); rewrite E in H; injection H as <-; cbn [nth];
      exists t0, c; split; [reflexivity|]; do 4 eexists; split; [reflexivity|]; split; [unfold clas, enclosure; cbn [app]; reflexivity|]; eexists; eexists; eexists [_]; split; [cbn [app]; reflexivity|eauto] end.
  - destruct (copy_header _ _). discriminate.
Qed.
Lemma upper_app a b : upper (a ++ b) = (upper a ++ upper b)%string.
Proof. induction a as [|c a IH]; cbn; auto. rewrite IH; auto. Qed.
Lemma last_card_app a b k v : last_card b k v -> last_card (a ++ b) k v.
Proof. intros (pre & k' & post & -> & E & H). exists (a ++ pre)%list, k', post. rewrite <- app_assoc. auto. Qed.
Lemma structural_keyword k : structural k = true <-> table_keyword k.
Proof.
  unfold structural, table_keyword. rewrite existsb_exists. split.
  - intros (x & I & E). apply String.eqb_eq in E. now subst.
  - intros I. exists k. split; auto. apply String.eqb_refl.
Qed.
Lemma header_user version c h k v : snd (run_call [default_header version] c) = Ok h -> last_card (call_cards c) k v -> ~ table_keyword k -> k <> "EXTNAME" ->
  getitem (hdu_header h) k = Some v.
Proof.
  intros H Hl Hs Hk. assert (S : structural k = false) by (destruct (structural k) eqn:E; auto; exfalso; apply Hs, structural_keyword; auto).
  destruct (call_shape version c h H) as (t & cards & -> & _). rewrite hdu_lookup by auto. apply apply_last. apply last_card_app. auto.
Qed.
Lemma filter_structural (h : header) k : structural k = true -> getitem (filter (fun kv => negb (structural (fst kv))) h) k = None.
Proof.
  intros Hk. induction h as [|(a, b) h IH]; auto. cbn [filter fst]. destruct (structural a) eqn:E; cbn [negb]; auto.
  cbn [getitem]. destruct (String.eqb_spec k a); [congruence|auto].
Qed.
Lemma header_table version c h k : snd (run_call [default_header version] c) = Ok h -> table_keyword k -> getitem (hdu_header h) k = None.
Proof.
  intros H Hk. apply structural_keyword in Hk. destruct (call_shape version c h H) as (t & cards & -> & _). unfold bin_table_hdu. cbn [hdu_header].
  destruct (String.eqb _ ""); [apply filter_structural; auto|]. rewrite getitem_setitem_neq; [apply filter_structural; auto|]. intros ->. discriminate.
Qed.
Lemma header_extname version c h : snd (run_call [default_header version] c) = Ok h -> call_extname c <> "" -> getitem (hdu_header h) "EXTNAME" = Some (HStr (upper (call_extname c))).
Proof. intros H Hn. destruct (call_shape version c h H) as (t & cards & -> & _). apply hdu_extname; auto. Qed.
Lemma no_card_app a b k : no_card a k -> no_card b k -> no_card (a ++ b) k.
Proof. intros Ha Hb kv H. apply in_app_iff in H. destruct H; [apply Ha|apply Hb]; auto. Qed.
Lemma header_required version c h k v : snd (run_call [default_header version] c) = Ok h -> gadf_keyword version c k v -> no_card (call_cards c) k -> getitem (hdu_header h) k = Some (HStr v).
Proof.
  intros H Hk Hno. destruct (call_shape version c h H) as (t & cards & -> & c2 & c3 & c4 & rest & Ec & -> & n & x & al & -> & Hal). unfold gadf_keyword in Hk. rewrite Ec in Hk.
  assert (Hs : structural k = false /\ k <> "EXTNAME").
  { repeat (destruct Hk as [(-> & _)|Hk]; [split; [reflexivity|discriminate]|]). destruct Hk as (-> & _). split; [reflexivity|discriminate]. }
  rewrite hdu_lookup by apply Hs. rewrite apply_app. rewrite (apply_none (call_cards c)) by auto. clear Hs Hno H.
  set (tail := (al ++ _)%list).
  assert (NR : forall k, k <> "DATE" -> k <> "FOVALIGN" -> (forall s, k <> ("CREF" ++ s)%string) -> no_card tail k).
  { intros q H1 H2 H3. unfold tail. apply no_card_app.
    - destruct Hal as [->|(y & ->)]; [intros kv []|]. intros kv [<-|[]] E. apply H2. rewrite <- E. reflexivity.
    - intros kv [<-|[<-|[]]]; [intros E; apply H1; rewrite <- E; reflexivity|]. cbn [fst]. rewrite upper_app. intros E. apply (H3 (upper (decimal n))). rewrite <- E. reflexivity. }
  assert (STEP : forall h, apply_cards h (("HDUCLAS1", HStr "RESPONSE") :: ("HDUCLAS2", HStr c2) :: ("HDUCLAS3", HStr c3) :: ("HDUCLAS4", HStr c4) :: tail)%list =
     apply_cards (apply_cards h [("HDUCLAS1", HStr "RESPONSE"); ("HDUCLAS2", HStr c2); ("HDUCLAS3", HStr c3); ("HDUCLAS4", HStr c4)]) tail) by reflexivity.
  rewrite STEP. clear STEP.
  repeat (destruct Hk as [(-> & ->)|Hk]; [rewrite apply_none by (apply NR; [discriminate|discriminate|intros s E; cbn in E; discriminate]); reflexivity|]).
  destruct Hk as (-> & ->). apply apply_last. unfold tail. exists al, "DATE", [(("CREF" ++ decimal n)%string, HStr x)]. split; auto. split; auto.
  intros kv [<-|[]]. cbn [fst]. rewrite upper_app. change (upper "CREF") with "CREF". cbn. discriminate.
Qed.

(** *** tables *)
Lemma convert_in_unit from to x : 0 < u_scale from -> 0 < u_scale to -> in_unit from to x (convert_val from to x).
Proof.
  intros H1 H2. assert (P : 0 < u_scale from / u_scale to) by (apply Rdiv_lt_0_compat; auto). unfold in_unit, convert_val. destruct x; cbn; try reflexivity.
  - f_equal. field. lra.
  - unfold inf_signed. repeat match goal with |- context [if ?b then _ else _] => let E := fresh in destruct b eqn:E; try apply Reqb_true in E; try apply Reqb_false in E; try apply Rltb_true in E; try apply Rltb_false in E; try lra end; auto.
  - unfold inf_signed. repeat match goal with |- context [if ?b then _ else _] => let E := fresh in destruct b eqn:E; try apply Reqb_true in E; try apply Reqb_false in E; try apply Rltb_true in E; try apply Rltb_false in E; try lra end; auto.
Qed.
Lemma axis_of t name unit (f : num -> num) l : getitem t (name ++ "_LO") = Some (fst (split_last (tmap f (newaxis 0 (vec l)))), unit) ->
  getitem t (name ++ "_HI") = Some (snd (split_last (tmap f (newaxis 0 (vec l)))), unit) -> axis t name unit (map f l).
Proof.
  intros H1 H2. eexists. eexists. split; [exact H1|]. split; [exact H2|]. split; [cbn; rewrite map_length; auto|]. split; [cbn; rewrite map_length; auto|]. rewrite map_length. intros i Hi.
  assert (V : forall j, (j < List.length l)%nat -> nth_error (map f l) j = Some (f (nth j l NaN))) by (intros j Hj; apply map_nth_error, nth_error_nth'; auto).
  split; [exact (V i ltac:(lia))|exact (V (S i) ltac:(lia))].
Qed.
Lemma axis_in_of t name to (edges : arr) u : a_unit edges = Some u -> 0 < u_scale u -> 0 < u_scale to ->
  getitem t (name ++ "_LO") = Some (fst (split_last (tmap (convert_val u to) (newaxis 0 (vec (a_val edges))))), Some to) ->
  getitem t (name ++ "_HI") = Some (snd (split_last (tmap (convert_val u to) (newaxis 0 (vec (a_val edges))))), Some to) -> axis_in t name to edges.
Proof.
  intros Hu Hp Ht H1 H2. exists u, (map (convert_val u to) (a_val edges)). split; auto. split; [|apply axis_of; auto].
  clear -Hp Ht. induction (a_val edges) as [|x l IH]; cbn [map]; [constructor|constructor; [apply convert_in_unit; auto|exact IH]].
Qed.
Fixpoint prod (s : list nat) : nat := match s with [] => 1%nat | n :: s' => (n * prod s')%nat end.
Fixpoint c_pos (s ix : list nat) : nat := match s, ix with n :: s', i :: ix' => (i * prod s' + c_pos s' ix')%nat | _, _ => 0%nat end.
Lemma c_order_length s : forall f, List.length (c_order s f) = prod s.
Proof.
  induction s as [|n s IH]; intros f; cbn [c_order prod]; auto. assert (G : forall a, List.length (flat_map (fun i => c_order s (fun ix => f (i :: ix))) (seq a n)) = (n * prod s)%nat).
  { induction n as [|n IHn]; intros a; cbn [seq flat_map]; auto. rewrite app_length, IH, IHn. lia. }
  apply G.
Qed.
Lemma c_pos_lt s : forall ix, in_range s ix -> (c_pos s ix < prod s)%nat.
Proof. induction s as [|n s IH]; intros ix H; inversion H; subst; cbn; [lia|]. pose proof (IH _ H4). nia. Qed.
Lemma flat_nth {A} (F : nat -> list A) m : (forall i, List.length (F i) = m) -> forall n a i j, (i < n)%nat -> (j < m)%nat ->
  nth_error (flat_map F (seq a n)) (i * m + j) = nth_error (F (a + i)%nat) j.
Proof.
  intros HF. induction n as [|n IH]; intros a i j Hi Hj; [lia|]. cbn [seq flat_map]. destruct i as [|i].
  - cbn [Nat.mul Nat.add]. rewrite Nat.add_0_r. apply nth_error_app1. rewrite HF; auto.
  - rewrite nth_error_app2 by (rewrite HF; nia). rewrite HF. replace (S i * m + j - m)%nat with (i * m + j)%nat by nia. rewrite IH by lia. f_equal. f_equal. lia.
Qed.
Lemma c_order_nth s : forall f ix, in_range s ix -> nth_error (c_order s f) (c_pos s ix) = Some (f ix).
Proof.
  induction s as [|n s IH]; intros f ix H; inversion H; subst; [auto|]. cbn [c_order c_pos].
  rewrite (flat_nth (fun i => c_order s (fun ix => f (i :: ix))) (prod s)) by (auto using c_pos_lt || intros; apply c_order_length). exact (IH (fun ix => f (y :: ix)) l' H4).
Qed.
Lemma prod_snoc s n : prod (s ++ [n]) = (prod s * n)%nat.
Proof. induction s as [|m s IH]; cbn; [lia|]. rewrite IH. lia. Qed.
Lemma c_pos_snoc s : forall ix n i, List.length s = List.length ix -> c_pos (s ++ [n]) (ix ++ [i]) = (c_pos s ix * n + i)%nat.
Proof. induction s as [|m s IH]; intros [|j ix] n i H; cbn in H; try lia; cbn [app c_pos]; [cbn; lia|]. rewrite IH by lia. rewrite prod_snoc. nia. Qed.
Lemma range_length dims ix : in_range dims ix -> List.length dims = List.length ix.
Proof. induction 1; cbn; auto. Qed.
Lemma fits_c dims : forall ix, in_range dims ix -> fits_position dims ix = c_pos (rev dims) (rev ix).
Proof.
  induction dims as [|n dims IH]; intros ix H; inversion H; subst; [auto|]. cbn [fits_position rev]. rewrite c_pos_snoc by (rewrite !rev_length; apply range_length; auto). rewrite <- IH by auto. lia.
Qed.
Lemma range_rev dims ix : in_range dims ix -> in_range (rev dims) (rev ix).
Proof. induction 1; cbn; [constructor|]. apply Forall2_app; auto. Qed.
Lemma stored_of t name to from x : 0 < u_scale from -> 0 < u_scale to -> getitem t name = Some (tmap (convert_val from to) (newaxis 0 (transpose2 x)), Some to) -> stored t name to from x.
Proof.
  intros Hf Ht H. eexists. split; [exact H|]. split; [reflexivity|]. intros ix Hix. split.
  - cbn. rewrite rev_involutive. apply convert_in_unit; auto.
  - set (col := tmap _ _). change (shape col) with (1 :: rev (shape x))%nat. rewrite fits_c by auto. assert (R : in_range (1 :: rev (shape x))%nat (0 :: rev ix)%nat) by (constructor; [lia|apply range_rev; auto]).
    rewrite <- (c_order_nth _ (at_ col) _ R). reflexivity.
Qed.
(** the edges again *)
Lemma axis_join t name unit edges lo hi : axis t name unit edges -> getitem t (name ++ "_LO") = Some (lo, unit) -> getitem t (name ++ "_HI") = Some (hi, unit) ->
  (2 <= List.length edges)%nat -> (forall e, In e edges -> is_nan e = false) -> join_bin_lo_hi (row_values lo) (row_values hi) = Ok edges.
Proof.
  intros (lo' & hi' & H1 & H2 & S1 & S2 & Hi) G1 G2 Hl Hn. rewrite H1 in G1. injection G1 as <-. rewrite H2 in G2. injection G2 as <-. rewrite <- (join_split edges Hl Hn). unfold split_bin_lo_hi. cbn [fst snd].
  assert (E1 : row_values lo' = but_last edges).
  { unfold row_values. rewrite S1. cbn [nth]. apply nth_ext_eq; [rewrite map_length, seq_length, but_last_length; auto|]. intros i a b Ha Hb.
    assert (Hlt : (i < List.length edges - 1)%nat) by (apply nth_some_lt in Hb; rewrite but_last_length in Hb; auto). rewrite map_seq_at in Ha by auto. rewrite but_last_nth in Hb by lia. destruct (Hi i Hlt) as (X & _). congruence. }
  assert (E2 : row_values hi' = tl edges).
  { unfold row_values. rewrite S2. cbn [nth]. apply nth_ext_eq; [rewrite map_length, seq_length; destruct edges; cbn; lia|]. intros i a b Ha Hb.
    assert (Hlt : (i < List.length edges - 1)%nat) by (apply nth_some_lt in Ha; rewrite map_length, seq_length in Ha; auto). rewrite map_seq_at in Ha by auto. destruct (Hi i Hlt) as (_ & X). destruct edges; [discriminate|]. cbn in X, Hb. congruence. }
  rewrite E1, E2. auto.
Qed.
