From Coq Require Import Ascii String Lia.
From Verif Require Import Base ListLib QcTac M_COpt P_COpt M_CUtil S_CUtil P_CUtil M_CCal S_CCal P_CCal M_CDown M_CFile P_CFile M_CNc S_CNc.
Local Open Scope Z_scope.

(** arrays *)
Lemma product_nonneg l : (forall c, In c l -> 0 <= c) -> 0 <= product l.
Proof. induction l as [|c l IH]; cbn [product]; intros H; [lia|]. specialize (H c (or_introl eq_refl)) as Hc. assert (0 <= product l) by (apply IH; intros; apply H; right; auto). nia. Qed.
Lemma zlen_flat_map {A} (f : Z -> list A) n c : (forall i, 0 <= i < c -> zlen (f i) = n) -> 0 <= c -> zlen (flat_map f (zrange 0 c)) = c * n.
Proof.
  intros H Hc. revert H. pattern c. apply natlike_ind; [intros _; reflexivity| |exact Hc]. intros k Hk IH H. rewrite (zrange_snoc 0 (Z.succ k)) by lia. rewrite flat_map_app, zlen_app. replace (Z.succ k - 1) with k by lia. rewrite IH by (intros; apply H; lia). cbn [flat_map]. rewrite app_nil_r, H by lia. lia.
Qed.
Lemma znth_flat_map {A} (f : Z -> list A) n c i j : (forall i, 0 <= i < c -> zlen (f i) = n) -> 0 <= i < c -> 0 <= j < n -> znth (flat_map f (zrange 0 c)) (i * n + j) = znth (f i) j.
Proof.
  intros H Hi Hj. rewrite (zrange_app 0 i c) by lia. rewrite flat_map_app. assert (zlen (flat_map f (zrange 0 i)) = i * n) as L by (apply zlen_flat_map; [intros; apply H; lia|lia]).
  rewrite znth_app_r by nia. rewrite L. rewrite (zrange_cons i c) by lia. cbn [flat_map]. rewrite znth_app_l by (rewrite H by lia; lia). f_equal. lia.
Qed.
Lemma zlen_indices count : (forall c, In c count -> 0 <= c) -> zlen (indices count) = product count.
Proof.
  induction count as [|c l IH]; cbn [indices product]; intros H; [reflexivity|]. apply zlen_flat_map; [|apply H; left; auto]. intros i Hi. rewrite zlen_map. apply IH. intros; apply H; right; auto.
Qed.
Definition fits_in (count idx : list Z) : Prop := Forall2 (fun c i => 0 <= i < c) count idx.
Lemma row_major_range count idx : fits_in count idx -> 0 <= row_major count idx < product count.
Proof. induction 1 as [|c i cs is Hc _ IH]; cbn [row_major product]; [lia|]. nia. Qed.
Lemma fits_pos count idx : fits_in count idx -> forall c, In c count -> 0 <= c.
Proof. induction 1; intros a; [intros []|intros [<-|Ha]; [lia|auto]]. Qed.
Lemma indices_at count idx : fits_in count idx -> znth (indices count) (row_major count idx) = Ok idx.
Proof.
  induction 1 as [|c i cs is Hc F IH]; cbn [indices row_major]; [reflexivity|]. pose proof (row_major_range _ _ F). pose proof (fits_pos _ _ F) as P.
  rewrite (znth_flat_map _ (product cs)) by (try lia; intros; rewrite zlen_map; apply zlen_indices; exact P). rewrite znth_map, IH. reflexivity.
Qed.
Lemma in_indices count idx : In idx (indices count) <-> fits_in count idx.
Proof.
  revert idx. induction count as [|c cs IH]; intros idx; cbn [indices].
  - split; [intros [<-|[]]; constructor|intros H; inversion H; left; auto].
  - rewrite in_flat_map. split.
    + intros (i & Hi & Ha). apply in_map_iff in Ha as (is & <- & Ha). apply in_zrange in Hi. constructor; [lia|apply IH; auto].
    + intros H. inversion H; subst. exists y. split; [apply in_zrange; lia|]. apply in_map. apply IH. auto.
Qed.
Lemma at_indices count k idx : (forall c, In c count -> 0 <= c) -> znth (indices count) k = Ok idx -> k = row_major count idx.
Proof.
  revert k idx. induction count as [|c cs IH]; intros k idx P H; cbn [indices] in H.
  - apply znth_range in H as H'. change (zlen [[]]) with 1 in H'. assert (k = 0) by lia. subst. cbn in H. inversion H. reflexivity.
  - assert (forall c, In c cs -> 0 <= c) as P' by (intros; apply P; right; auto). assert (0 <= c) as Hc by (apply P; left; auto).
    assert (zlen (flat_map (fun i => map (cons i) (indices cs)) (zrange 0 c)) = c * product cs) as L by (apply zlen_flat_map; [intros; rewrite zlen_map; apply zlen_indices; auto|auto]).
    pose proof (znth_range _ _ _ H) as Hr. rewrite L in Hr. assert (0 < product cs) as Hp by (pose proof (product_nonneg cs P'); nia).
    assert (0 <= k / product cs < c) as Hi by (split; [apply Z.div_pos; lia|apply Z.div_lt_upper_bound; lia]). assert (0 <= k mod product cs < product cs) as Hj by (apply Z.mod_pos_bound; lia).
    replace k with (k / product cs * product cs + k mod product cs) in H by (rewrite (Z.div_mod k (product cs)) at 3; lia).
    rewrite (znth_flat_map _ (product cs)) in H by (auto; intros; rewrite zlen_map; apply zlen_indices; auto). rewrite znth_map in H. destruct (znth (indices cs) (k mod product cs)) as [is| | |] eqn:E; try discriminate. injection H as <-. cbn [row_major]. apply IH in E; auto. rewrite <- E. rewrite (Z.div_mod k (product cs)) at 1 by lia. lia.
Qed.
(** getIndex *)
Lemma index_fold cs : forall is i s pre prei, zlen cs = zlen is -> zlen pre = zlen prei ->
  foldM (fun st k => let '(i, s) := st in j <- znth (prei ++ is) k ;; c <- znth (pre ++ cs) k ;; Ok (i + j * s, s * c)) (i, s) (rev (zrange (zlen pre) (zlen pre + zlen cs))) = Ok (i + row_major cs is * s, s * product cs).
Proof.
  induction cs as [|c cs IH]; intros [|j is] i s pre prei H1 H2; rewrite ?zlen_cons in *; [|change (zlen (@nil Z)) with 0 in H1; pose proof (zlen_nonneg is); lia|change (zlen (@nil Z)) with 0 in H1; pose proof (zlen_nonneg cs); lia|].
  - rewrite zrange_nil by (change (zlen (@nil Z)) with 0; lia). cbn [rev foldM row_major product]. repeat f_equal; lia.
  - rewrite zrange_cons by (pose proof (zlen_nonneg cs); lia). cbn [rev]. rewrite foldM_app.
    specialize (IH is i s (pre ++ [c]) (prei ++ [j])). rewrite !zlen_app in IH. change (zlen [c]) with 1 in IH. change (zlen [j]) with 1 in IH. rewrite <- !app_assoc in IH. cbn [app] in IH.
    replace (zlen pre + (zlen cs + 1)) with (zlen pre + 1 + zlen cs) by lia. rewrite IH by lia. cbn [bind foldM]. rewrite !znth_app_r by lia. rewrite H2, !Z.sub_diag, !znth_cons0. cbn [bind row_major product]. f_equal. f_equal; nia.
Qed.
Lemma nc_index_ok count idx : zlen count = zlen idx -> nc_index count idx = Ok (row_major count idx).
Proof. intros H. unfold nc_index. pose proof (index_fold count idx 0 1 [] [] H eq_refl) as E. cbn [app] in E. change (zlen (@nil Z)) with 0 in E. rewrite Z.add_0_l in E. rewrite E. cbn [bind fst]. f_equal. lia. Qed.

(** positions *)
Definition last_at (p : Z -> bool) (ds : list Z) (a : Z) : Prop := (a = -999 /\ forall k d, znth ds k = Ok d -> p d = false) \/ (exists d, znth ds a = Ok d /\ p d = true /\ forall k d', znth ds k = Ok d' -> p d' = true -> k <= a).
Lemma last_snoc p ds d a : last_at p ds a -> last_at p (ds ++ [d]) (if p d then zlen ds else a).
Proof.
  intros H. assert (forall k d', znth (ds ++ [d]) k = Ok d' -> (k < zlen ds /\ znth ds k = Ok d') \/ (k = zlen ds /\ d' = d)) as C.
  { intros k d' E. destruct (Z_lt_le_dec k (zlen ds)); [rewrite znth_app_l in E by lia; auto|]. apply znth_range in E as R. rewrite zlen_app in R. change (zlen [d]) with 1 in R. assert (k = zlen ds) by lia. subst. rewrite znth_app_r, Z.sub_diag in E by lia. cbn in E. inversion E. auto. }
  destruct (p d) eqn:Ep.
  - right. exists d. split; [rewrite znth_app_r, Z.sub_diag by lia; reflexivity|]. split; [auto|]. intros k d' E _. apply C in E. lia.
  - destruct H as [[-> H]|(d0 & E & P & H)].
    + left. split; [auto|]. intros k d' E. apply C in E as [[_ E]|[_ ->]]; eauto.
    + right. exists d0. split; [rewrite znth_app_l; auto; apply znth_range in E; lia|]. split; [auto|]. intros k d' E' P'. apply C in E' as [[_ E']|[_ ->]]; [eauto|congruence].
Qed.
Definition is_e (R : roles) (d : Z) : bool := negb (d =? r_t R) && (d =? r_e R).
Definition is_y (R : roles) (d : Z) : bool := negb (d =? r_t R) && negb (d =? r_e R) && (d =? r_y R).
Definition is_x (R : roles) (d : Z) : bool := negb (d =? r_t R) && negb (d =? r_e R) && negb (d =? r_y R) && (d =? r_x R).
Lemma combine_snoc {A B} (l : list A) (m : list B) a b : length l = length m -> combine (l ++ [a]) (m ++ [b]) = combine l m ++ [(a, b)].
Proof. revert m. induction l as [|x l IH]; intros [|y m] H; cbn in *; try discriminate; [auto|]. rewrite IH by lia. reflexivity. Qed.
Lemma combine_range {B} (m : list B) b : combine (zrange 0 (zlen (m ++ [b]))) (m ++ [b]) = combine (zrange 0 (zlen m)) m ++ [(zlen m, b)].
Proof.
  rewrite zlen_app. change (zlen [b]) with 1. pose proof (zlen_nonneg m). rewrite (zrange_snoc 0 (zlen m + 1)) by lia. replace (zlen m + 1 - 1) with (zlen m) by lia. apply combine_snoc.
  apply Nat2Z.inj. fold (zlen (zrange 0 (zlen m))). rewrite zlen_zrange. unfold zlen in *. lia.
Qed.
Lemma positions_spec R ds : last_at (is_e R) ds (fst (fst (positions R ds))) /\ last_at (is_y R) ds (snd (fst (positions R ds))) /\ last_at (is_x R) ds (snd (positions R ds)).
Proof.
  induction ds as [|d ds IH] using rev_ind.
  - cbn. repeat split; left; (split; [auto|intros k d E; apply znth_range in E; change (zlen (@nil Z)) with 0 in E; lia]).
  - unfold positions in *. rewrite combine_range, fold_left_app. cbn [fold_left]. destruct (fold_left _ (combine (zrange 0 (zlen ds)) ds) _) as [[e y] x] eqn:E. cbn [fst snd] in *. destruct IH as (I1 & I2 & I3).
    pose proof (last_snoc _ _ d _ I1) as L1. pose proof (last_snoc _ _ d _ I2) as L2. pose proof (last_snoc _ _ d _ I3) as L3. unfold is_e, is_y, is_x in L1, L2, L3 |- *.
    destruct (d =? r_t R); cbn [negb andb fst snd] in *; [auto|]. destruct (d =? r_e R); cbn [negb andb fst snd] in *; [auto|]. destruct (d =? r_y R); cbn [negb andb fst snd] in *; [auto|]. destruct (d =? r_x R); cbn [negb andb fst snd] in *; auto.
Qed.
Lemma time_spec R ds : last_at (fun d => d =? r_t R) ds (time_position R ds).
Proof.
  induction ds as [|d ds IH] using rev_ind.
  - cbn. left; (split; [auto|intros k d E; apply znth_range in E; change (zlen (@nil Z)) with 0 in E; lia]).
  - unfold time_position in *. rewrite combine_range, fold_left_app. cbn [fold_left]. pose proof (last_snoc _ _ d _ IH) as L. cbn beta in L. exact L.
Qed.
Lemma NoDup_znth {A} (l : list A) i j a : NoDup l -> znth l i = Ok a -> znth l j = Ok a -> i = j.
Proof.
  intros N Hi Hj. apply znth_Ok in Hi as [Pi Hi]. apply znth_Ok in Hj as [Pj Hj]. assert (Z.to_nat i = Z.to_nat j); [|lia]. rewrite NoDup_nth_error in N. apply N; [|congruence]. apply nth_error_Some. congruence.
Qed.
(** setting the index of a dimension *)
Lemma set_if_map p a ds (g : Z -> Z) i : last_at p ds a -> (forall k k' d d', znth ds k = Ok d -> znth ds k' = Ok d' -> p d = true -> p d' = true -> k = k') ->
  set_if a i (map g ds) = Ok (map (fun d => if p d then i else g d) ds).
Proof.
  intros [[-> H]|(d0 & E & P & _)] U; unfold set_if, ivalid.
  - cbn. f_equal. apply map_ext_in. intros d Hd. apply In_znth in Hd as [k Hk]. rewrite (H k d Hk). reflexivity.
  - pose proof (znth_range _ _ _ E) as Ra. replace (a =? -999) with false by (symmetry; apply Z.eqb_neq; lia). cbn [negb]. rewrite zset_Ok by (rewrite zlen_map; auto). f_equal. apply znth_ext; [rewrite zlen_lset, !zlen_map; auto|].
    intros k Hk. rewrite zlen_lset, zlen_map in Hk. rewrite znth_lset by (rewrite ?zlen_map; auto). rewrite !znth_map. destruct (znth_some ds k Hk) as [d Ed]. rewrite Ed.
    destruct (Z.eqb_spec k a) as [->|N].
    + assert (d = d0) by congruence. subst. rewrite P. reflexivity.
    + destruct (p d) eqn:Pd; [|reflexivity]. exfalso. apply N. eapply U; eauto.
Qed.
