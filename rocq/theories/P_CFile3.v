From Coq Require Import Ascii String Sorting.Sorted.
From Verif Require Import Base ListLib QcTac M_COpt M_CUtil M_CCal M_CDown M_CFile S_CUtil S_CCal S_CFile P_COpt P_CUtil P_CDown P_CCal P_CFile P_CFile2.
Local Open Scope Z_scope.

(** ** insertion into a set *)
Section Insert.
  Context {A : Type} (P : A -> Prop) (lt : A -> A -> bool).
  Hypothesis tri : forall a b, P a -> P b -> lt a b = false -> lt b a = false -> a = b.
  Hypothesis tr : forall a b c, P a -> P b -> P c -> lt a b = true -> lt b c = true -> lt a c = true.
  Lemma insert_In x l : P x -> Forall P l -> forall y, In y (insert_by lt x l) <-> y = x \/ In y l.
  Proof.
    intros PX. induction l as [|a l IH]; intros F y; cbn [insert_by In]; [intuition|]. inversion F as [|? ? PA FL]; subst. specialize (IH FL y).
    destruct (lt x a) eqn:E1; [cbn [In]; intuition|]. destruct (lt a x) eqn:E2; cbn [In].
    - rewrite IH. intuition.
    - rewrite (tri x a PX PA E1 E2). intuition.
  Qed.
  Lemma insert_P x l : P x -> Forall P l -> Forall P (insert_by lt x l).
  Proof. intros PX F. apply Forall_forall. intros y IN. apply (insert_In x l PX F) in IN. rewrite Forall_forall in F. destruct IN as [->|]; auto. Qed.
  Lemma insert_sorted x l : P x -> Forall P l -> StronglySorted (fun a b => lt a b = true) l -> StronglySorted (fun a b => lt a b = true) (insert_by lt x l).
  Proof.
    intros PX. induction l as [|a l IH]; intros F S; cbn [insert_by]; [constructor; [constructor|constructor]|]. inversion F as [|? ? PA FL]; subst. inversion S as [|? ? SL SA]; subst.
    destruct (lt x a) eqn:E1.
    - constructor; [exact S|]. constructor; [exact E1|]. apply Forall_forall. intros y IN. rewrite Forall_forall in SA, FL. apply (tr x a y); auto.
    - destruct (lt a x) eqn:E2; [|exact S]. constructor; [exact (IH FL SL)|]. apply Forall_forall. intros y IN. apply (insert_In x l PX FL) in IN. rewrite Forall_forall in SA. destruct IN as [->|IN]; auto.
  Qed.
End Insert.
(** the values of a line are given to a place *)
Lemma row_set d f i vs n : of_size d f -> 0 <= i < d_y d -> d_x d = 1 -> n = d_e d -> zlen vs = n ->
  exists g, foldM (fun f e => v <- znth vs e ;; f_set f i 0 e v) f (zrange 0 n) = Ok g /\ of_size d g /\ (forall e, 0 <= e < n -> f_get g i 0 e = znth vs e) /\
    (forall j e, 0 <= j < d_y d -> 0 <= e < n -> j <> i -> f_get g j 0 e = f_get f j 0 e).
Proof.
  intros OS R DX -> L.
  assert (N : 0 <= d_e d) by (rewrite <- L; apply zlen_nonneg).
  destruct (foldM_range (fun f e => v <- znth vs e ;; f_set f i 0 e v) (fun k g => of_size d g /\ (forall e, 0 <= e < k -> f_get g i 0 e = znth vs e) /\ (forall j e, 0 <= j < d_y d -> 0 <= e < d_e d -> j <> i -> f_get g j 0 e = f_get f j 0 e)) 0 (d_e d) f N) as (g & E & H).
  - split; [exact OS|]. split; [intros; lia|auto].
  - intros k g K (OG & A & B). destruct (znth_some vs k) as (v & V); [lia|]. rewrite V. cbn [bind].
    destruct (f_set_size d g i 0 k v OG) as (g' & E & OG' & G1 & G2); [unfold within; lia|]. exists g'. split; [exact E|]. split; [exact OG'|]. split.
    + intros e He. destruct (Z.eq_dec e k) as [->|NE]; [congruence|]. rewrite G2; [apply A; lia|unfold within; lia|congruence].
    + intros j e Hj He NE. rewrite G2; [apply B; assumption|unfold within; lia|congruence].
  - exists g. split; [exact E|exact H].
Qed.
Lemma text_field_spec st d t : d_y d = zlen (tx_locs st) -> d_x d = 1 -> d_e d = tx_ens st -> 0 <= tx_ens st -> (forall l vs, row_of (tx_rows st) t l = Some vs -> zlen vs = tx_ens st) ->
  exists f, text_field st d t = Ok f /\ of_size d f /\ forall j l, znth (tx_locs st) j = Ok l -> forall e, 0 <= e < d_e d -> f_get f j 0 e = match row_of (tx_rows st) t l with Some vs => znth vs e | None => Ok CMV end.
Proof.
  intros DY DX DE PE RL. unfold text_field. pose proof (zlen_nonneg (tx_locs st)) as PL. destruct (empty_made d) as (f0 & E0 & O0 & M0); [lia|lia|lia|]. rewrite E0. cbn [bind].
  match goal with |- context [foldM ?F0 _ _] => set (body := F0) end.
  destruct (foldM_range body (fun k g => of_size d g /\ (forall j l, znth (tx_locs st) j = Ok l -> forall e, 0 <= e < d_e d -> f_get g j 0 e = if j <? k then match row_of (tx_rows st) t l with Some vs => znth vs e | None => Ok CMV end else Ok CMV)) 0 (zlen (tx_locs st)) f0 PL) as (g & E & OG & H).
  - split; [exact O0|]. intros j l Hj e He. pose proof (znth_range _ _ _ Hj). destruct (Z.ltb_spec j 0); [lia|]. apply M0; lia.
  - intros k g K (OG & H). destruct (znth_some (tx_locs st) k K) as (lk & Hk). unfold body. rewrite Hk. cbn [bind]. destruct (row_of (tx_rows st) t lk) as [vs|] eqn:RO.
    + destruct (row_set d g k vs (tx_ens st) OG) as (g' & E & OG' & G1 & G2); [lia|exact DX|congruence|exact (RL _ _ RO)|]. exists g'. split; [exact E|]. split; [exact OG'|]. intros j l Hj e He. pose proof (znth_range _ _ _ Hj).
      destruct (Z.eq_dec j k) as [->|NE].
      * destruct (Z.ltb_spec k (k + 1)); [|lia]. assert (l = lk) as -> by congruence. rewrite RO. apply G1. lia.
      * rewrite G2 by lia. rewrite (H j l Hj e He). destruct (Z.ltb_spec j k), (Z.ltb_spec j (k + 1)); try lia; reflexivity.
    + exists g. split; [reflexivity|]. split; [exact OG|]. intros j l Hj e He. rewrite (H j l Hj e He). destruct (Z.eq_dec j k) as [->|NE].
      * assert (l = lk) as -> by congruence. rewrite RO. destruct (k <? k), (k <? k + 1); reflexivity.
      * destruct (Z.ltb_spec j k), (Z.ltb_spec j (k + 1)); try lia; reflexivity.
  - exists g. split; [exact E|]. split; [exact OG|]. intros j l Hj e He. rewrite (H j l Hj e He). pose proof (znth_range _ _ _ Hj). destruct (Z.ltb_spec j (zlen (tx_locs st))); [reflexivity|lia].
Qed.
(** what is known after some lines *)
Definition row_is (line : Z * vec) (r : Z * location * vec) : Prop := snd line = l_lat (snd (fst r)) :: l_lon (snd (fst r)) :: l_elev (snd (fst r)) :: snd r /\ fst (fst r) = fst line.
Definition TI (pre : list (Z * vec)) (st : text_file) : Prop :=
  Forall2 row_is pre (tx_rows st) /\ (forall t, In t (tx_times st) <-> exists x, In x pre /\ fst x = t) /\ StronglySorted (fun a b => (a <? b) = true) (tx_times st) /\
  (forall l, In l (tx_locs st) <-> exists x, In x pre /\ place l x) /\ StronglySorted (fun a b => loc_ltb a b = true) (tx_locs st) /\ Forall proper (tx_locs st) /\
  (forall x, In x pre -> zlen (snd x) = tx_ens st + 3) /\ (pre = [] -> tx_ens st = -999) /\ (pre <> [] -> 0 <= tx_ens st).
Lemma place_proper l line : finite_line line -> place l line -> proper l.
Proof.
  intros FL (vs & E). unfold finite_line in FL. rewrite E in FL. split; [|split]; unfold number.
  - destruct (FL (l_lat l)) as (q & ->); [cbn; auto|discriminate].
  - destruct (FL (l_lon l)) as (q & ->); [cbn; auto|discriminate].
  - destruct (FL (l_elev l)) as (q & ->); [cbn; auto|discriminate].
Qed.
Lemma loc_tri a b : proper a -> proper b -> loc_ltb a b = false -> loc_ltb b a = false -> a = b.
Proof. intros A B E1 E2. destruct c146_order as [_ H]. destruct (H a b A B) as [H1 H2]. destruct a, b. cbn in *. destruct (proj1 H2 (proj1 H1 (conj E1 E2))) as (-> & -> & ->). reflexivity. Qed.
Lemma loc_irr a : proper a -> loc_ltb a a = false.
Proof. intros A. exact (proj1 (proj1 c146_order) a A). Qed.
Lemma text_row_step pre st line st' : finite_line line -> TI pre st -> text_row st line = Ok st' -> TI (pre ++ [line]) st'.
Proof.
  intros FL (T1 & T2 & T3 & T4 & T5 & T6 & T7 & T8 & T9) E. unfold text_row in E. destruct (snd line) as [|lat [|lon [|elev vs]]] eqn:SL; try discriminate.
  set (l := {| l_lat := lat; l_lon := lon; l_elev := elev |}) in *. destruct (negb (zlen vs =? (if tx_ens st =? -999 then zlen vs else tx_ens st))) eqn:EN; [discriminate|]. injection E as <-.
  assert (PL : place l line) by (exists vs; exact SL). pose proof (place_proper l line FL PL) as PP.
  apply negb_false_iff, Z.eqb_eq in EN. set (n := if tx_ens st =? -999 then zlen vs else tx_ens st) in *.
  assert (ON : pre <> [] -> n = tx_ens st). { intros NE. unfold n. destruct (Z.eqb_spec (tx_ens st) (-999)); [specialize (T9 NE); lia|reflexivity]. }
  unfold TI. cbn [tx_rows tx_times tx_locs tx_ens]. repeat match goal with |- _ /\ _ => split end.
  - apply Forall2_app; [exact T1|]. constructor; [|constructor]. split; [exact SL|reflexivity].
  - intros t. rewrite (insert_In (fun _ => True) Z.ltb); [|intros a b _ _ X Y; apply Z.ltb_ge in X, Y; lia|exact Logic.I|apply Forall_forall; auto].
    rewrite T2. split.
    + intros [->|(x & IN & <-)]; [exists line|exists x]; (split; [apply in_or_app|]); auto. right; left; reflexivity.
    + intros (x & IN & <-). apply in_app_or in IN. destruct IN as [IN|[<-|[]]]; [right; eauto|left; reflexivity].
  - apply (insert_sorted (fun _ => True) Z.ltb); auto; try (apply Forall_forall; auto).
    + intros a b _ _ X Y. apply Z.ltb_ge in X, Y. lia.
    + intros a b c _ _ _ X Y. apply Z.ltb_lt in X, Y. apply Z.ltb_lt. lia.
  - intros m. rewrite (insert_In proper loc_ltb loc_tri l (tx_locs st) PP T6 m). rewrite T4. split.
    + intros [->|(x & IN & P)]; [exists line|exists x]; (split; [apply in_or_app|]); auto. right; left; reflexivity.
    + intros (x & IN & P). apply in_app_or in IN. destruct IN as [IN|[<-|[]]]; [right; eauto|left]. destruct P as (ws & P). rewrite SL in P. injection P as -> -> -> _. destruct m; reflexivity.
  - apply (insert_sorted proper loc_ltb loc_tri (proj1 (proj2 (proj1 c146_order))) l (tx_locs st) PP T6 T5).
  - apply (insert_P proper loc_ltb loc_tri l (tx_locs st) PP T6).
  - intros x IN. apply in_app_or in IN. destruct IN as [IN|[<-|[]]]; [|rewrite SL, !zlen_cons; lia]. rewrite ON; [apply T7, IN|]. destruct pre; [destruct IN|discriminate].
  - intros X. destruct pre; discriminate.
  - intros _. rewrite <- EN. apply zlen_nonneg.
Qed.
Lemma text_rows lines st : (forall x, In x lines -> finite_line x) -> foldM text_row {| tx_times := []; tx_locs := []; tx_ens := -999; tx_rows := [] |} lines = Ok st -> TI lines st.
Proof.
  intros FL. rewrite <- (app_nil_l lines) at 2. assert (G : forall post pre s, (forall x, In x post -> finite_line x) -> TI pre s -> foldM text_row s post = Ok st -> TI (pre ++ post) st).
  { induction post as [|x post IH]; intros pre s F T E; cbn [foldM] in E; [injection E as <-; rewrite app_nil_r; exact T|]. apply bind_Ok in E. destruct E as (s' & E1 & E).
    replace (pre ++ x :: post) with ((pre ++ [x]) ++ post) by (rewrite <- app_assoc; reflexivity). apply (IH _ s'); [intros y IN; apply F; right; exact IN| |exact E]. apply (text_row_step pre s x s' (F x (or_introl eq_refl)) T E1). }
  apply (G lines [] _ FL). split; [constructor|]. split; [intros t; split; [intros []|intros (x & [] & _)]|]. split; [constructor|]. split; [intros l; split; [intros []|intros (x & [] & _)]|]. split; [constructor|]. split; [constructor|].
  split; [intros x []|]. split; [reflexivity|]. intros X. exfalso. apply X. reflexivity.
Qed.
Lemma find_app_ {A} (f : A -> bool) a b : List.find f (a ++ b) = match List.find f a with Some x => Some x | None => List.find f b end.
Proof. induction a as [|x a IH]; cbn; [reflexivity|]. destruct (f x); auto. Qed.
Lemma row_of_lines lines rows t l : Forall2 row_is lines rows -> (forall x, In x lines -> finite_line x) -> proper l ->
  (forall vs, last_line lines t l vs -> row_of rows t l = Some vs) /\ ((forall x, In x lines -> fst x = t -> ~ place l x) -> row_of rows t l = None) /\
  (forall vs, row_of rows t l = Some vs -> exists x, In x lines /\ zlen (snd x) = zlen vs + 3).
Proof.
  intros F FL PP.
  assert (SAME : forall x r, In x lines -> row_is x r -> ((fst (fst r) =? t) && same_loc (snd (fst r)) l = true <-> fst x = t /\ place l x)).
  { intros x r IN (R1 & R2). assert (PR : proper (snd (fst r))) by (apply (place_proper _ x (FL x IN)); exists (snd r); exact R1). rewrite andb_true_iff, Z.eqb_eq, R2. unfold same_loc. rewrite andb_true_iff, !negb_true_iff. split.
    - intros (A & B & C). split; [exact A|]. rewrite <- (loc_tri _ _ PR PP B C). exists (snd r). exact R1.
    - intros (A & ws & P). split; [exact A|]. rewrite R1 in P. injection P as P1 P2 P3 _. assert (E : snd (fst r) = l) by (destruct (snd (fst r)), l; cbn in *; congruence). rewrite E. split; apply loc_irr, PP. }
  unfold row_of. split; [|split].
  - intros vs (a & b & -> & NB). apply Forall2_app_inv_l in F. destruct F as (ra & rb & Fa & Fb & ->). inversion Fb as [|x r ? rb' R Fb']; subst. rewrite rev_app_distr. cbn [rev]. rewrite <- app_assoc, find_app_.
    assert (NO : List.find (fun r0 => (fst (fst r0) =? t) && same_loc (snd (fst r0)) l) (rev rb') = None).
    { destruct (List.find _ (rev rb')) as [y|] eqn:FD; [|reflexivity]. exfalso. apply find_some in FD. destruct FD as [IN C]. apply in_rev in IN. apply In_nth_error in IN. destruct IN as (k & IN).
      assert (EX : exists z, In z b /\ row_is z y). { clear -Fb' IN. revert k IN. induction Fb' as [|z r lb rb0 R _ IH]; intros k IN; [destruct k; discriminate|]. destruct k; cbn in IN; [injection IN as ->; exists z; split; [left; reflexivity|exact R]|]. destruct (IH _ IN) as (z' & I1 & I2). exists z'. split; [right; exact I1|exact I2]. }
      destruct EX as (z & IZ & RZ). destruct (proj1 (SAME z y ltac:(apply in_or_app; right; right; exact IZ) RZ) C) as [A P]. exact (NB z IZ A P). }
    rewrite NO. cbn [app List.find]. assert (C : (fst (fst r) =? t) && same_loc (snd (fst r)) l = true). { apply (SAME _ r ltac:(apply in_or_app; right; left; reflexivity) R). split; [reflexivity|]. exists vs. reflexivity. }
    rewrite C. destruct R as [R1 _]. cbn in R1. injection R1 as _ _ _ <-. reflexivity.
  - intros N. destruct (List.find _ (rev rows)) as [y|] eqn:FD; [|reflexivity]. exfalso. apply find_some in FD. destruct FD as [IN C]. apply in_rev in IN.
    assert (EX : exists z, In z lines /\ row_is z y). { clear -F IN. induction F as [|z r lb rb0 R _ IH]; [destruct IN|]. destruct IN as [->|IN]; [exists z; split; [left; reflexivity|exact R]|]. destruct (IH IN) as (z' & I1 & I2). exists z'. split; [right; exact I1|exact I2]. }
    destruct EX as (z & IZ & RZ). destruct (proj1 (SAME z y IZ RZ) C) as [A P]. exact (N z IZ A P).
  - intros vs E. destruct (List.find _ (rev rows)) as [y|] eqn:FD; [|discriminate]. injection E as <-. apply find_some in FD. destruct FD as [IN C]. apply in_rev in IN.
    assert (EX : exists z, In z lines /\ row_is z y). { clear -F IN. induction F as [|z r lb rb0 R _ IH]; [destruct IN|]. destruct IN as [->|IN]; [exists z; split; [left; reflexivity|exact R]|]. destruct (IH IN) as (z' & I1 & I2). exists z'. split; [right; exact I1|exact I2]. }
    destruct EX as (z & IZ & RZ & _). exists z. split; [exact IZ|]. rewrite RZ, !zlen_cons. lia.
Qed.
Lemma sorted_NoDup {A} (P : A -> Prop) (lt : A -> A -> bool) l : (forall a, P a -> lt a a = false) -> Forall P l -> StronglySorted (fun a b => lt a b = true) l -> NoDup l.
Proof.
  intros IR F S. induction S as [|a l S IH FA]; [constructor|]. inversion F as [|? ? PA FL]; subst. constructor; [|exact (IH FL)]. intros IN. rewrite Forall_forall in FA. specialize (FA a IN). rewrite (IR a PA) in FA. discriminate.
Qed.
Lemma c240 lines d times lats lons elevs fields : (forall x, In x lines -> finite_line x) -> text_open lines = Ok (d, times, lats, lons, elevs, fields) ->
  exists locs, (forall t, In t times <-> exists x, In x lines /\ fst x = t) /\ StronglySorted Z.lt times /\
    (forall l, In l locs <-> exists x, In x lines /\ place l x) /\ NoDup locs /\
    d_y d = zlen locs /\ d_x d = 1 /\ d_t d = zlen times /\ zlen fields = d_t d /\ (forall x, In x lines -> zlen (snd x) = d_e d + 3) /\
    lats = map (fun l => [l_lat l]) locs /\ elevs = map (fun l => [l_elev l]) locs /\ (forall j l, znth locs j = Ok l -> exists x, norm_lon (l_lon l) = Ok x /\ znth lons j = Ok [x]) /\
    (forall i t j l, znth times i = Ok t -> znth locs j = Ok l -> exists f, znth fields i = Ok f /\ of_size d f /\ forall e, 0 <= e < d_e d ->
       (forall vs, last_line lines t l vs -> f_get f j 0 e = znth vs e) /\ ((forall x, In x lines -> fst x = t -> ~ place l x) -> f_get f j 0 e = Ok CMV)).
Proof.
  intros FL E. unfold text_open in E. apply bind_Ok in E. destruct E as (st & ER & E). pose proof (text_rows lines st FL ER) as (T1 & T2 & T3 & T4 & T5 & T6 & T7 & T8 & T9).
  apply bind_Ok in E. destruct E as (l0 & E0 & E). destruct (existsb (existsb lat_bad) _); [discriminate|]. destruct (existsb (existsb lon_bad) _); [discriminate|].
  apply bind_Ok in E. destruct E as (lons' & EL & E). apply bind_Ok in E. destruct E as (fs & EF & E). injection E as <- <- <- <- <- <-. cbn [d_y d_x d_e d_t].
  assert (NE : lines <> []). { intros ->. inversion T1 as [HR|]. apply znth_In in E0. apply T4 in E0. destruct E0 as (x & [] & _). }
  exists (tx_locs st). split; [exact T2|]. split.
  { clear -T3. induction T3 as [|a l S IH FA]; constructor; [exact IH|]. apply Forall_forall. intros y IN. rewrite Forall_forall in FA. apply Z.ltb_lt, FA, IN. }
  split; [exact T4|]. split; [exact (sorted_NoDup proper loc_ltb _ loc_irr T6 T5)|]. split; [reflexivity|]. split; [reflexivity|]. split; [reflexivity|]. destruct (mapM_inv _ _ _ EF) as [LF HF]. split; [exact LF|]. split; [exact T7|]. split; [reflexivity|]. split; [reflexivity|]. split.
  - intros j l Hj. destruct (mapM_inv _ _ _ EL) as [_ HL]. destruct (HL j [l_lon l]) as (r & Hr & Er); [rewrite znth_map, Hj; reflexivity|]. cbn [mapM] in Er. apply bind_Ok in Er. destruct Er as (x & Ex & Er). cbn in Er. injection Er as <-. eauto.
  - intros i t j l Hi Hj. destruct (HF i t Hi) as (f & Hf & Ef). exists f. split; [exact Hf|].
    assert (PP : proper l) by (rewrite Forall_forall in T6; exact (T6 l (znth_In _ _ _ Hj))). pose proof (row_of_lines lines (tx_rows st) t l T1 FL PP) as (R1 & R2 & _).
    match type of Ef with text_field st ?dd t = _ => set (d := dd) in * end. destruct (text_field_spec st d t) as (f' & Ef' & OS & HG); [reflexivity|reflexivity|reflexivity|exact (T9 NE)| |].
    { intros m vs RO. unfold row_of in RO. destruct (List.find _ (rev (tx_rows st))) as [y|] eqn:FD; [|discriminate]. injection RO as <-. apply find_some in FD. destruct FD as [IN _]. apply in_rev in IN.
      assert (EX : exists z, In z lines /\ row_is z y). { clear -T1 IN. induction T1 as [|z r lb rb0 R _ IH]; [destruct IN|]. destruct IN as [->|IN]; [exists z; split; [left; reflexivity|exact R]|]. destruct (IH IN) as (z' & I1 & I2). exists z'. split; [right; exact I1|exact I2]. }
      destruct EX as (z & IZ & RZ & _). pose proof (T7 z IZ) as W. rewrite RZ, !zlen_cons in W. lia. }
    rewrite Ef in Ef'. injection Ef' as <-. split; [exact OS|]. intros e He. rewrite (HG j l Hj e He). split.
    + intros vs LL. rewrite (R1 vs LL). reflexivity.
    + intros N. rewrite (R2 N). reflexivity.
Qed.
Lemma norm_ok l : (qz (-180) <= l <= qz 180)%Qc -> l <> 0%Qc -> norm_lon (Fin l) = Ok (Fin l).
Proof.
  intros [H1 H2] NZ. unfold norm_lon. destruct (cvalid (Fin l)); [|reflexivity]. destruct (qeqb_spec l 0); [contradiction|]. cbv zeta.
  assert (K1 : (qz (-180) + qz 180 = 0)%Qc) by (apply Qc_is_canon; reflexivity). assert (K2 : (qz 180 < qz 360)%Qc) by (apply qz_lt; lia).
  assert (E : (if qltb l 0 then (- fmod360 (- l))%Qc else fmod360 l) = l). { destruct (qltb_spec l 0); rewrite fmod_small; try ring; split; qlra. }
  rewrite E. destruct (qltb_spec (qz 180) l); [exfalso; qlra|]. destruct (qltb_spec l (qz (-180))); [exfalso; qlra|]. destruct (qleb_spec (qz (-180)) l); [|contradiction]. destruct (qleb_spec l (qz 180)); [|contradiction]. reflexivity.
Qed.
Lemma c240_opens lines n : lines <> [] -> 0 <= n -> (forall x, In x lines -> finite_line x /\ zlen (snd x) = n + 3 /\
    exists lat lon, znth (snd x) 0 = Ok (Fin lat) /\ znth (snd x) 1 = Ok (Fin lon) /\ (qz (-90) <= lat <= qz 90)%Qc /\ (qz (-180) <= lon <= qz 180)%Qc /\ lon <> 0%Qc) ->
  exists d times lats lons elevs fields, text_open lines = Ok (d, times, lats, lons, elevs, fields) /\ d_e d = n.
Proof.
  intros NE PN H. assert (FL : forall x, In x lines -> finite_line x) by (intros x IN; apply H, IN).
  assert (FOLD : exists st, foldM text_row {| tx_times := []; tx_locs := []; tx_ens := -999; tx_rows := [] |} lines = Ok st).
  { assert (G : forall post s, (forall x, In x post -> zlen (snd x) = n + 3) -> (tx_ens s = -999 \/ tx_ens s = n) -> exists st, foldM text_row s post = Ok st).
    { induction post as [|x post IH]; intros s W C; cbn [foldM]; [eauto|]. pose proof (W x (or_introl eq_refl)) as WX. unfold text_row at 1. destruct (snd x) as [|a [|b [|c vs]]]; rewrite ?zlen_cons in WX; try (change (zlen (@nil val)) with 0 in WX; lia).
      assert (EN : zlen vs = (if tx_ens s =? -999 then zlen vs else tx_ens s)). { destruct C as [-> | ->]; [reflexivity|]. destruct (n =? -999) eqn:Q; [reflexivity|lia]. }
      rewrite <- EN, Z.eqb_refl. cbn [negb bind]. apply IH; [intros y IN; apply W; right; exact IN|]. right. cbn. lia. }
    apply G; [intros x IN; apply H, IN|left; reflexivity]. }
  destruct FOLD as (st & ER). pose proof (text_rows lines st FL ER) as (T1 & T2 & T3 & T4 & T5 & T6 & T7 & T8 & T9).
  assert (PT : forall l, In l (tx_locs st) -> exists lat lon, l_lat l = Fin lat /\ l_lon l = Fin lon /\ (qz (-90) <= lat <= qz 90)%Qc /\ (qz (-180) <= lon <= qz 180)%Qc /\ lon <> 0%Qc).
  { intros l IN. apply T4 in IN. destruct IN as (x & IN & vs & P). destruct (H x IN) as (_ & _ & lat & lon & A & B & C). rewrite P in A, B. injection A as A. injection B as B. exists lat, lon. auto. }
  assert (E0 : exists l0, znth (tx_locs st) 0 = Ok l0). { apply znth_some. destruct lines as [|x lines]; [contradiction|]. destruct (tx_locs st) as [|l ls] eqn:LS; [|rewrite zlen_cons; pose proof (zlen_nonneg ls); lia].
    exfalso. assert (IN : In x (x :: lines)) by (left; reflexivity). destruct (H x IN) as (_ & W & _). destruct (snd x) as [|a [|b [|c vs]]] eqn:SX; rewrite ?zlen_cons in W; try (change (zlen (@nil val)) with 0 in W; lia).
    apply (T4 {| l_lat := a; l_lon := b; l_elev := c |}). exists x. split; [exact IN|]. exists vs. exact SX. }
  destruct E0 as (l0 & E0).
  assert (BL : existsb (existsb lat_bad) (map (fun l => [l_lat l]) (tx_locs st)) = false).
  { apply not_true_iff_false. intros B. apply existsb_exists in B. destruct B as (r & IN & B). apply in_map_iff in IN. destruct IN as (l & <- & IN). destruct (PT l IN) as (lat & lon & A & _ & C & _). cbn in B. rewrite A in B. unfold lat_bad, fz in B. cbn [vltb] in B.
    destruct (qltb_spec lat (qz (-90))); [qlra|]. destruct (qltb_spec (qz 90) lat); [qlra|discriminate]. }
  assert (BO : existsb (existsb lon_bad) (map (fun l => [l_lon l]) (tx_locs st)) = false).
  { apply not_true_iff_false. intros B. apply existsb_exists in B. destruct B as (r & IN & B). apply in_map_iff in IN. destruct IN as (l & <- & IN). destruct (PT l IN) as (lat & lon & _ & A & _ & C & _). cbn in B. rewrite A in B. unfold lon_bad, fz in B. cbn [vltb] in B.
    assert (K1 : (qz (-360) < qz (-180))%Qc) by (apply qz_lt; lia). assert (K2 : (qz 180 < qz 360)%Qc) by (apply qz_lt; lia). destruct (qltb_spec lon (qz (-360))); [qlra|]. destruct (qltb_spec (qz 360) lon); [qlra|discriminate]. }
  assert (NL : mapM (mapM norm_lon) (map (fun l => [l_lon l]) (tx_locs st)) = Ok (map (fun x => x) (map (fun l => [l_lon l]) (tx_locs st)))).
  { apply mapM_ok. intros r IN. apply in_map_iff in IN. destruct IN as (l & <- & IN). destruct (PT l IN) as (lat & lon & _ & A & _ & C & NZ). cbn [mapM]. rewrite A, (norm_ok lon C NZ). reflexivity. }
  assert (EN : tx_ens st = n). { destruct lines as [|x lines]; [contradiction|]. assert (IN : In x (x :: lines)) by (left; reflexivity). pose proof (T7 x IN). destruct (H x IN) as (_ & W & _). lia. }
  set (d := {| d_y := zlen (tx_locs st); d_x := 1; d_e := tx_ens st; d_t := zlen (tx_times st) |}).
  assert (FS : exists fs, mapM (text_field st d) (tx_times st) = Ok fs).
  { destruct (mapM_total (text_field st d) (fun _ _ => True) (tx_times st)) as (fs & E & _); [|eauto]. intros t _. destruct (text_field_spec st d t) as (f & E & _); [reflexivity|reflexivity|reflexivity|lia| |eauto].
    intros m vs RO. unfold row_of in RO. destruct (List.find _ (rev (tx_rows st))) as [y|] eqn:FD; [|discriminate]. injection RO as <-. apply find_some in FD. destruct FD as [IN _]. apply in_rev in IN.
    assert (EX : exists z, In z lines /\ row_is z y). { clear -T1 IN. induction T1 as [|z r lb rb0 R _ IH]; [destruct IN|]. destruct IN as [->|IN]; [exists z; split; [left; reflexivity|exact R]|]. destruct (IH IN) as (z' & I1 & I2). exists z'. split; [right; exact I1|exact I2]. }
    destruct EX as (z & IZ & RZ & _). pose proof (T7 z IZ) as W. rewrite RZ, !zlen_cons in W. lia. }
  destruct FS as (fs & EF). do 6 eexists. split; [unfold text_open; rewrite ER; cbn [bind]; rewrite E0; cbn [bind]; cbv zeta; rewrite BL, BO, NL; cbn [bind]; fold d; rewrite EF; reflexivity|]. exact EN.
Qed.
(** what is written has no places *)
Lemma row_widths lines : forall s st, foldM text_row s lines = Ok st -> (tx_ens s = -999 \/ 0 <= tx_ens s) -> (lines = [] /\ st = s) \/ (0 <= tx_ens st /\ (tx_ens s = -999 \/ tx_ens st = tx_ens s) /\ forall x, In x lines -> zlen (snd x) = tx_ens st + 3).
Proof.
  induction lines as [|x lines IH]; intros s st E C; cbn [foldM] in E; [injection E as <-; left; auto|]. right. apply bind_Ok in E. destruct E as (s' & E1 & E). unfold text_row in E1. destruct (snd x) as [|a [|b [|c vs]]] eqn:SX; try discriminate.
  destruct (negb _) eqn:EN in E1; [discriminate|]. injection E1 as <-. apply negb_false_iff, Z.eqb_eq in EN. set (n := if tx_ens s =? -999 then zlen vs else tx_ens s) in *. pose proof (zlen_nonneg vs).
  assert (NS : tx_ens s = -999 \/ n = tx_ens s). { unfold n. destruct (Z.eqb_spec (tx_ens s) (-999)); auto. }
  destruct (IH _ _ E) as [[-> ->]|(A & B & D)]; [right; cbn; lia| |].
  - cbn. split; [lia|]. split; [exact NS|]. intros y [<-|[]]. rewrite SX, !zlen_cons. lia.
  - cbn in B. split; [exact A|]. split; [lia|]. intros y [<-|IN]; [rewrite SX, !zlen_cons; lia|exact (D y IN)].
Qed.
Lemma c241 rd d times fields lines d' times' lats lons elevs fields' : point_write rd d times fields = Ok lines -> text_open lines = Ok (d', times', lats, lons, elevs, fields') -> d_e d' = d_e d - 3.
Proof.
  intros W E. unfold text_open in E. apply bind_Ok in E. destruct E as (st & ER & E). apply bind_Ok in E. destruct E as (l0 & E0 & E). destruct (existsb _ _); [discriminate|]. destruct (existsb _ _); [discriminate|].
  apply bind_Ok in E. destruct E as (lons' & EL & E). apply bind_Ok in E. destruct E as (fs & EF & E). injection E as <- _ _ _ _ _. cbn [d_e].
  destruct (row_widths _ _ _ ER) as [[-> ->]|(A & _ & D)]; [left; reflexivity|cbn in E0; discriminate|].
  unfold point_write in W. destruct (mapM_inv _ _ _ W) as [LW HW]. destruct lines as [|x lines]; [cbn in ER; injection ER as <-; cbn in E0; discriminate|].
  assert (R : 0 <= 0 < zlen (zrange 0 (d_t d))). { rewrite <- LW, zlen_cons. pose proof (zlen_nonneg lines). lia. }
  destruct (znth_some _ _ R) as (i & Hi). destruct (HW 0 i Hi) as (y & Hy & Ey). cbn in Hy. injection Hy as <-. pose proof (D x (or_introl eq_refl)) as WX.
  apply bind_Ok in Ey. destruct Ey as (f & _ & Ey). apply bind_Ok in Ey. destruct Ey as (t & _ & Ey). apply bind_Ok in Ey. destruct Ey as (vs & EV & Ey). injection Ey as <-. cbn [snd] in WX. destruct (mapM_inv _ _ _ EV) as [LV _].
  rewrite LV in WX. destruct (Z_le_dec 0 (d_e d)); [rewrite zlen_zrange in WX by lia; lia|]. rewrite zrange_nil in WX by lia. change (zlen (@nil Z)) with 0 in WX. lia.
Qed.
(** point files *)
Lemma point_rows d t lines : d_y d = 1 -> d_x d = 1 -> 0 <= d_e d -> (forall x, In x lines -> fst x = t -> zlen (snd x) = d_e d) -> forall f0, of_size d f0 ->
  exists f, foldM (fun f line => if fst line =? t then if negb (zlen (snd line) =? d_e d) then Abort else foldM (fun f e => v <- znth (snd line) e ;; f_set f 0 0 e v) f (zrange 0 (d_e d)) else Ok f) f0 lines = Ok f /\ of_size d f /\
    (forall vs e, last_row lines t vs -> 0 <= e < d_e d -> f_get f 0 0 e = znth vs e) /\ ((forall x, In x lines -> fst x <> t) -> f = f0).
Proof.
  intros DY DX DE. induction lines as [|x lines IH]; intros W f0 O0; cbn [foldM].
  - exists f0. split; [reflexivity|]. split; [exact O0|]. split; [|auto]. intros vs e (a & b & X & _). destruct a; discriminate.
  - specialize (IH (fun y IN => W y (or_intror IN))). destruct (Z.eqb_spec (fst x) t) as [EQ|NE].
    + rewrite (W x (or_introl eq_refl) EQ), Z.eqb_refl. cbn [negb]. destruct (row_set d f0 0 (snd x) (d_e d) O0) as (g & -> & OG & G1 & _); [lia|exact DX|reflexivity|exact (W x (or_introl eq_refl) EQ)|]. cbn [bind].
      destruct (IH g OG) as (f & E & OF & F1 & F2). exists f. split; [exact E|]. split; [exact OF|]. split; [|intros N; exfalso; exact (N x (or_introl eq_refl) EQ)].
      intros vs e (a & b & X & NB) He. destruct a as [|y a]; cbn in X.
      * injection X as -> ->. rewrite (F2 NB). apply G1, He.
      * injection X as -> ->. apply F1; [exists a, b; auto|exact He].
    + cbn [bind]. destruct (IH f0 O0) as (f & E & OF & F1 & F2). exists f. split; [exact E|]. split; [exact OF|]. split; [|intros N; apply F2; intros y IN; apply N; right; exact IN].
      intros vs e (a & b & X & NB) He. destruct a as [|y a]; cbn in X; [injection X as -> ->; exfalso; apply NE; reflexivity|]. injection X as -> ->. apply F1; [exists a, b; auto|exact He].
Qed.
Lemma point_reads lines d t : d_y d = 1 -> d_x d = 1 -> 0 <= d_e d -> (forall x, In x lines -> fst x = t -> zlen (snd x) = d_e d) ->
  exists f, point_read lines d t = Ok f /\ of_size d f /\ forall e, 0 <= e < d_e d -> (forall vs, last_row lines t vs -> f_get f 0 0 e = znth vs e) /\ ((forall x, In x lines -> fst x <> t) -> f_get f 0 0 e = Ok CMV).
Proof.
  intros DY DX DE W. destruct (empty_made d) as (f0 & E0 & O0 & M0); [lia|lia|lia|]. destruct (point_rows d t lines DY DX DE W f0 O0) as (f & E & OF & F1 & F2).
  exists f. split; [unfold point_read; rewrite E0; exact E|]. split; [exact OF|]. intros e He. split; [intros vs L; exact (F1 vs e L He)|]. intros N. rewrite (F2 N). apply M0; lia.
Qed.
Lemma c242 rd d times fields lines t i : d_y d = 1 -> d_x d = 1 -> 0 <= d_e d -> NoDup times -> zlen times = d_t d -> point_write rd d times fields = Ok lines -> 
  (znth times i = Ok t -> exists f, point_read lines d t = Ok f /\ forall e, 0 <= e < d_e d -> exists v, get4 fields i 0 0 e = Ok v /\ f_get f 0 0 e = Ok (rd v)) /\
  (~ In t times -> exists f, point_read lines d t = Ok f /\ forall e, 0 <= e < d_e d -> f_get f 0 0 e = Ok CMV) /\
  (forall u, 0 < d_t d -> u <> -999 -> d_e d <> -999 -> point_open lines None None u = Ok (d_e d, times)).
Proof.
  intros DY DX DE ND LT W. unfold point_write in W. destruct (mapM_inv _ _ _ W) as [LW HW]. pose proof (zlen_nonneg times) as PT. rewrite zlen_zrange in LW by lia. rewrite Z.sub_0_r in LW.
  assert (AT : forall k, 0 <= k < d_t d -> exists f tk vs, znth fields k = Ok f /\ znth times k = Ok tk /\ znth lines k = Ok (tk, vs) /\ zlen vs = d_e d /\ forall e, 0 <= e < d_e d -> exists v, f_get f 0 0 e = Ok v /\ znth vs e = Ok (rd v)).
  { intros k K. destruct (HW k k) as (y & Hy & Ey); [rewrite znth_zrange by lia; f_equal; lia|]. apply bind_Ok in Ey. destruct Ey as (f & Hf & Ey). apply bind_Ok in Ey. destruct Ey as (tk & Ht & Ey). apply bind_Ok in Ey. destruct Ey as (vs & EV & Ey). injection Ey as <-.
    destruct (mapM_inv _ _ _ EV) as [LV HV]. rewrite zlen_zrange in LV by lia. exists f, tk, vs. split; [exact Hf|]. split; [exact Ht|]. split; [exact Hy|]. split; [lia|]. intros e He. destruct (HV e e) as (w & Hw & Ew); [rewrite znth_zrange by lia; f_equal; lia|].
    apply bind_Ok in Ew. destruct Ew as (v & Ev & Ew). injection Ew as <-. eauto. }
  assert (FST : map fst lines = times). { apply znth_ext; [rewrite zlen_map; lia|]. intros k K. rewrite zlen_map in K. destruct (AT k ltac:(lia)) as (f & tk & vs & _ & Ht & Hl & _). rewrite znth_map, Hl, Ht. reflexivity. }
  assert (WD : forall x, In x lines -> zlen (snd x) = d_e d). { intros x IN. apply In_znth in IN. destruct IN as (k & Hk). destruct (AT k) as (f & tk & vs & _ & _ & Hl & LV & _); [pose proof (znth_range _ _ _ Hk); lia|]. rewrite Hk in Hl. injection Hl as ->. exact LV. }
  destruct (point_reads lines d t DY DX DE (fun x IN _ => WD x IN)) as (f & E & _ & H). split; [|split].
  - intros Hi. exists f. split; [exact E|]. intros e He. pose proof (znth_range _ _ _ Hi). destruct (AT i ltac:(lia)) as (g & tk & vs & Hg & Ht & Hl & LV & HV). assert (tk = t) as -> by congruence.
    destruct (HV e He) as (v & Hv & Hw). exists v. split; [unfold get4; rewrite Hg; exact Hv|]. rewrite <- Hw. apply (proj1 (H e He)).
    apply znth_In in Hl. apply in_split in Hl. destruct Hl as (a & b & ->). exists a, b. split; [reflexivity|]. intros x IN EQ. rewrite map_app in FST. cbn [map fst] in FST. rewrite <- FST in ND. apply NoDup_remove_2 in ND. apply ND. apply in_or_app. right. apply in_map_iff. exists x. auto.
  - intros N. exists f. split; [exact E|]. intros e He. apply (proj2 (H e He)). intros x IN EQ. apply N. rewrite <- FST. apply in_map_iff. exists x. auto.
  - intros u PT' U NE. unfold point_open. rewrite FST. destruct (rev lines) as [|x r] eqn:RV.
    + exfalso. assert (lines = []) by (rewrite <- (rev_involutive lines), RV; reflexivity). subst lines. change (zlen (@nil (Z * vec))) with 0 in LW. lia.
    + assert (IN : In x lines) by (apply in_rev; rewrite RV; left; reflexivity). rewrite (WD x IN). destruct (Z.eqb_spec u (-999)); [contradiction|]. destruct (Z.eqb_spec (d_e d) (-999)); [contradiction|]. reflexivity.
Qed.
Lemma c243 fields first last j (c : Z -> Z) : (forall t, first <= t <= last -> exists v, get4 fields t 0 j 0 = Ok v /\ to_int v = Ok (c t)) ->
  ((forall t, first <= t <= last -> c t = -999) -> norcom_value fields first last j = Abort) /\
  (forall t0, first <= t0 <= last -> c t0 <> -999 -> exists t1, first <= t1 <= last /\ c t1 <> -999 /\ (forall t, first <= t <= last -> c t <> -999 -> c t1 <= c t) /\ norcom_value fields first last j = Ok (Z.quot (c t1) 100)).
Proof.
  intros H. unfold norcom_value. match goal with |- context [foldM ?F0 _ _] => set (body := F0) end.
  assert (ST : forall t m, first <= t <= last -> body m t = Ok (if (m =? -999) || (negb (c t =? -999) && (c t <? m)) then c t else m)).
  { intros t m T. destruct (H t T) as (v & G & I0). unfold body. unfold get4 in G. apply bind_Ok in G. destruct G as (f & -> & G). cbn [bind]. rewrite G. cbn [bind]. rewrite I0. reflexivity. }
  assert (INV : first <= last + 1 -> exists m, foldM body (-999) (zrange first (last + 1)) = Ok m /\ ((m = -999 /\ forall t, first <= t <= last -> c t = -999) \/ exists t1, first <= t1 <= last /\ m = c t1 /\ c t1 <> -999 /\ forall t, first <= t <= last -> c t <> -999 -> c t1 <= c t)).
  { intros LE. destruct (foldM_range body (fun k m => (m = -999 /\ forall t, first <= t < k -> c t = -999) \/ exists t1, first <= t1 < k /\ m = c t1 /\ c t1 <> -999 /\ forall t, first <= t < k -> c t <> -999 -> c t1 <= c t) first (last + 1) (-999) LE) as (m & E & I1).
    - left. split; [reflexivity|]. intros; lia.
    - intros t m T I1. rewrite ST by lia. eexists. split; [reflexivity|]. destruct I1 as [[-> A]|(t1 & R & -> & N & A)].
      + cbn [Z.eqb orb]. change (-999 =? -999) with true. cbn [orb]. destruct (Z.eq_dec (c t) (-999)) as [e|NE].
        * left. split; [exact e|]. intros u U. destruct (Z.eq_dec u t) as [->|]; [exact e|apply A; lia].
        * right. exists t. split; [lia|]. split; [reflexivity|]. split; [exact NE|]. intros u U NU. destruct (Z.eq_dec u t) as [->|]; [lia|]. exfalso. apply NU, A. lia.
      + right. destruct (Z.eqb_spec (c t1) (-999)); [contradiction|]. cbn [orb]. destruct (Z.eqb_spec (c t) (-999)) as [e|NE]; cbn [negb andb].
        * exists t1. split; [lia|]. split; [reflexivity|]. split; [exact N|]. intros u U NU. destruct (Z.eq_dec u t) as [->|]; [contradiction|apply A; [lia|exact NU]].
        * destruct (Z.ltb_spec (c t) (c t1)).
          -- exists t. split; [lia|]. split; [reflexivity|]. split; [exact NE|]. intros u U NU. destruct (Z.eq_dec u t) as [->|]; [lia|]. specialize (A u ltac:(lia) NU). lia.
          -- exists t1. split; [lia|]. split; [reflexivity|]. split; [exact N|]. intros u U NU. destruct (Z.eq_dec u t) as [->|]; [lia|]. apply A; [lia|exact NU].
    - exists m. split; [exact E|]. destruct I1 as [[-> A]|(t1 & R & -> & N & A)]; [left; split; [reflexivity|]; intros; apply A; lia|right]. exists t1. split; [lia|]. split; [reflexivity|]. split; [exact N|]. intros; apply A; [lia|assumption]. }
  split.
  - intros N. destruct (Z_le_dec first (last + 1)) as [LE|LE].
    + destruct (INV LE) as (m & -> & [[-> _]|(t1 & R & -> & NE & _)]); cbn [bind]; [reflexivity|]. exfalso. apply NE, N, R.
    + rewrite zrange_nil by lia. reflexivity.
  - intros t0 R0 N0. destruct (INV ltac:(lia)) as (m & -> & [[-> A]|(t1 & R & -> & NE & A)]); [exfalso; apply N0, A, R0|]. cbn [bind]. exists t1. split; [exact R|]. split; [exact NE|]. split; [exact A|]. destruct (Z.eqb_spec (c t1) (-999)); [contradiction|reflexivity].
Qed.
