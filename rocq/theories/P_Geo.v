(** Proofs about KDTree and the coordinate conversion. *)
From Verif Require Import Base ListLib M_Geo S_Geo.
From Coq Require Import Permutation Sorting.

(** ** the example rtree meets the contract *)
Lemma in_rt0_query pts f i : In i (rt0_query pts f) <-> sel pts f i.
Proof.
  unfold rt0_query, sel. rewrite filter_In, in_zrange. split.
  - intros [H1 H2]. destruct (znth pts i) as [q| | |]; try discriminate. eauto.
  - intros (q & Hq & Hf). rewrite Hq. split; [eapply znth_range; eauto|exact Hf].
Qed.
Lemma rt0_insert_perm key i l : Permutation (rt0_insert key i l) (i :: l).
Proof.
  induction l as [|j t IH]; cbn; [reflexivity|]. destruct (qleb (key i) (key j)); [reflexivity|].
  rewrite IH. apply perm_swap.
Qed.
Lemma rt0_sort_perm key l : Permutation (fold_right (rt0_insert key) [] l) l.
Proof. induction l as [|i l IH]; cbn; [reflexivity|]. rewrite rt0_insert_perm, IH. reflexivity. Qed.
Definition key_sorted (key : Z -> Qc) := StronglySorted (fun a b => (key a <= key b)%Qc).
Lemma rt0_insert_sorted key i l : key_sorted key l -> key_sorted key (rt0_insert key i l).
Proof.
  induction l as [|j t IH]; intros H; cbn.
  - constructor; constructor.
  - inversion H as [|? ? Hs Hf]; subst. destruct (qleb_spec (key i) (key j)) as [L|L].
    + constructor; [exact H|]. constructor; [exact L|].
      eapply Forall_impl; [|exact Hf]. cbn. intros a Ha. qlra.
    + constructor; [apply IH; exact Hs|].
      apply Forall_forall. intros a Ha. apply (Permutation_in _ (rt0_insert_perm key i t)) in Ha.
      destruct Ha as [<-|Ha]; [qlra|]. rewrite Forall_forall in Hf. apply Hf; exact Ha.
Qed.
Lemma rt0_sort_sorted key l : key_sorted key (fold_right (rt0_insert key) [] l).
Proof. induction l as [|i l IH]; cbn; [constructor|]. apply rt0_insert_sorted; exact IH. Qed.
Lemma sorted_firstn_rest key n l i j :
  key_sorted key l -> In i (firstn n l) -> In j l -> ~ In j (firstn n l) -> (key i <= key j)%Qc.
Proof.
  intros H. revert n. induction H as [|a l Hs IH Hf]; intros n Hi Hj Hn.
  - destruct Hj.
  - destruct n as [|n]; cbn in *; [destruct Hi|].
    destruct Hj as [<-|Hj]; [exfalso; apply Hn; left; reflexivity|].
    destruct Hi as [<-|Hi].
    + rewrite Forall_forall in Hf. apply Hf; exact Hj.
    + apply (IH n); auto.
Qed.
Lemma in_firstn {A} n (l : list A) x : In x (firstn n l) -> In x l.
Proof. revert n; induction l as [|a l IH]; intros [|n]; cbn; try tauto. intros [->|H]; [auto|right; eapply IH; eauto]. Qed.
Lemma NoDup_firstn {A} n (l : list A) : NoDup l -> NoDup (firstn n l).
Proof.
  intros H; revert n; induction H as [|a l Ha Hl IH]; intros [|n]; cbn; try constructor.
  - intros K; apply Ha; eapply in_firstn; eauto.
  - apply IH.
Qed.
Lemma geo_ok_G0 : geo_ok G0.
Proof.
  constructor; cbn [G0 rt_query rt_nearest].
  - intros. unfold rt0_query. apply NoDup_filter, NoDup_zrange.
  - intros. apply in_rt0_query.
  - intros pts p k f Hk. unfold rt0_nearest. apply NoDup_firstn.
    eapply Permutation_NoDup; [symmetry; apply rt0_sort_perm|]. apply NoDup_filter, NoDup_zrange.
  - intros pts p k f i Hk H. unfold rt0_nearest in H. apply in_firstn in H.
    apply (Permutation_in _ (rt0_sort_perm _ _)) in H. apply in_rt0_query; exact H.
  - intros pts p k f Hk. unfold rt0_nearest, zlen. pose proof (firstn_le_length (Z.to_nat k) (fold_right (rt0_insert (rt0_key pts p)) [] (rt0_query pts f))).
    rewrite firstn_length. lia.
  - intros pts p k f i Hk H Hs. unfold rt0_nearest in *.
    rewrite firstn_all2.
    + apply in_rt0_query in Hs. eapply Permutation_in; [symmetry; apply rt0_sort_perm|exact Hs].
    + unfold zlen in H. rewrite firstn_length in H. lia.
  - intros pts p k f i j qi qj Hk Hi Hs Hn Hqi Hqj. unfold rt0_nearest in *.
    assert (K : (rt0_key pts p i <= rt0_key pts p j)%Qc).
    { eapply sorted_firstn_rest; [apply rt0_sort_sorted|exact Hi| |exact Hn].
      apply in_rt0_query in Hs. eapply Permutation_in; [symmetry; apply rt0_sort_perm|exact Hs]. }
    unfold rt0_key in K. rewrite Hqi, Hqj in K. exact K.
Qed.

(** ** coordinates *)
Lemma convert_ok G t la lo : valid_loc t la -> convert_coordinates G (Fin la) (Fin lo) t = Ok (position G t la lo).
Proof.
  intros H. unfold convert_coordinates, is_valid_lat, is_valid_lon. destruct t; cbn; [|reflexivity].
  destruct H as [H1 H2]. unfold vleb, vltb, veqb, lat_limit, fq, vneg.
  set (L := Q2Qc (90001 # 1000)) in *. clearbody L.
  assert (qltb (- L) la || qeqb (- L) la = true)%bool as ->.
  { destruct (qltb_spec (- L) la); [reflexivity|]. destruct (qeqb_spec (- L) la); [reflexivity|].
    exfalso; apply n0. apply Qcle_antisym; qlra. }
  assert (qltb la L || qeqb la L = true)%bool as ->.
  { destruct (qltb_spec la L); [reflexivity|]. destruct (qeqb_spec la L); [reflexivity|].
    exfalso; apply n0. apply Qcle_antisym; qlra. }
  reflexivity.
Qed.
Lemma convert_inv G t lat lon p : convert_coordinates G lat lon t = Ok p ->
  exists la lo, lat = Fin la /\ lon = Fin lo /\ valid_loc t la /\ p = position G t la lo.
Proof.
  unfold convert_coordinates, is_valid_lat, is_valid_lon. intros H.
  destruct t; destruct lat as [| | |la]; cbn in H; try discriminate;
    destruct lon as [| | |lo]; cbn in H; rewrite ?orb_true_r in H; try discriminate.
  - destruct (_ || _)%bool eqn:E in H; [discriminate|]. injection H as <-.
    exists la, lo. repeat split; unfold vleb, vltb, veqb in E; cbn in E;
      set (L := Q2Qc (90001 # 1000)) in *; clearbody L.
    + destruct (qltb_spec (- L) la); [qlra|]. destruct (qeqb_spec (- L) la) as [K|]; [rewrite K; qlra|]. cbn in E. discriminate.
    + destruct (qltb_spec la L); [qlra|]. destruct (qeqb_spec la L) as [K|]; [rewrite K; qlra|].
      cbn in E. rewrite andb_false_r in E. cbn in E. discriminate.
  - injection H as <-. exists la, lo. repeat split.
Qed.
(** whatever is not a valid finite location is rejected *)
Lemma convert_cases G t lat lon :
  (exists la lo, lat = Fin la /\ lon = Fin lo /\ valid_loc t la /\ convert_coordinates G lat lon t = Ok (position G t la lo))
  \/ convert_coordinates G lat lon t = Throw InvalidArgument.
Proof.
  destruct (convert_coordinates G lat lon t) as [p|e| |] eqn:E.
  - left. destruct (convert_inv _ _ _ _ _ E) as (la & lo & -> & -> & V & ->). exists la, lo. auto.
  - right. unfold convert_coordinates in E. destruct (_ || _)%bool in E; [congruence|].
    destruct lat, lon, t; congruence.
  - unfold convert_coordinates in E. destruct (_ || _)%bool in E; [congruence|]. destruct lat, lon, t; congruence.
  - unfold convert_coordinates in E. destruct (_ || _)%bool in E; [congruence|]. destruct lat, lon, t; congruence.
Qed.

(** ** trees *)
Lemma mk_tree_inv G lats lons t T : mk_tree G lats lons t = Ok T ->
  t_lats T = lats /\ t_lons T = lons /\ t_type T = t /\ zlen (t_pts T) = zlen lats /\
  forall i, 0 <= i < zlen lats -> exists la lo, znth lats i = Ok (Fin la) /\ znth lons i = Ok (Fin lo) /\
     valid_loc t la /\ znth (t_pts T) i = Ok (position G t la lo).
Proof.
  unfold mk_tree, convert_all. intros H. apply bind_Ok in H as (pts & Hp & H). injection H as <-. cbn.
  apply mapM_inv in Hp as [HL Hp]. rewrite zlen_zrange in HL. pose proof (zlen_nonneg lats).
  repeat split; [lia|]. intros i Hi.
  destruct (Hp i i) as (q & Hq & Hc).
  { rewrite znth_zrange by lia. f_equal; lia. }
  apply bind_Ok in Hc as (lat & Hlat & Hc). apply bind_Ok in Hc as (lon & Hlon & Hc).
  apply convert_inv in Hc as (la & lo & -> & -> & V & ->). exists la, lo. auto.
Qed.
Lemma mk_tree_ok G las los t : zlen los = zlen las -> Forall (valid_loc t) las ->
  exists T, is_tree G t las los T.
Proof.
  intros HL HV. unfold is_tree, mk_tree, convert_all.
  assert (K : forall i, In i (zrange 0 (zlen (map Fin las))) ->
     (lat <- znth (map Fin las) i ;; lon <- znth (map Fin los) i ;; convert_coordinates G lat lon t)
     = Ok (match znth las i, znth los i with Ok la, Ok lo => position G t la lo | _, _ => mkxyz 0 0 0 end)).
  { intros i Hi. apply in_zrange in Hi. rewrite zlen_map in Hi. rewrite !znth_map.
    destruct (znth_some las i) as [la Hla]; [lia|]. destruct (znth_some los i) as [lo Hlo]; [lia|].
    rewrite Hla, Hlo. cbn. apply convert_ok. rewrite Forall_forall in HV. apply HV. eapply znth_In; eauto. }
  rewrite (mapM_ok _ _ _ K). cbn. eauto.
Qed.
Lemma is_tree_type G t las los T : is_tree G t las los T -> t_type T = t.
Proof. intros H. apply mk_tree_inv in H. tauto. Qed.
Lemma is_tree_pts G t las los T : is_tree G t las los T ->
  forall i q, znth (t_pts T) i = Ok q <-> point_at G t las los i q.
Proof.
  intros H i q. apply mk_tree_inv in H as (_ & _ & _ & HL & H). rewrite zlen_map in *. split.
  - intros Hq. pose proof (znth_range _ _ _ Hq). destruct (H i) as (la & lo & H1 & H2 & V & H3); [lia|].
    rewrite H3 in Hq. injection Hq as <-. exists la, lo. rewrite znth_map in H1, H2.
    destruct (znth las i); try discriminate. destruct (znth los i); try discriminate.
    injection H1 as <-. injection H2 as <-. auto.
  - intros (la & lo & H1 & H2 & ->). destruct (H i) as (la' & lo' & K1 & K2 & V & K3).
    { eapply znth_range; eauto. }
    rewrite znth_map, H1 in K1. rewrite znth_map, H2 in K2. injection K1 as <-. injection K2 as <-. exact K3.
Qed.
Lemma point_at_fun G t las los i q q' : point_at G t las los i q -> point_at G t las los i q' -> q = q'.
Proof. intros (a & b & H1 & H2 & ->) (c & d & H3 & H4 & ->). congruence. Qed.

Lemma dist2_sqdist p q : dist2 p q = sqdist p q.
Proof. unfold dist2, sqdist. ring. Qed.
Lemma dist2_sym p q : dist2 p q = dist2 q p.
Proof. unfold dist2. ring. Qed.
Lemma sq_nonneg (a : Qc) : (0 <= a * a)%Qc.
Proof. qnra. Qed.
Lemma dist2_nonneg p q : (0 <= dist2 p q)%Qc.
Proof.
  unfold dist2. pose proof (sq_nonneg (px p - px q)). pose proof (sq_nonneg (py p - py q)). pose proof (sq_nonneg (pz p - pz q)).
  set (a := ((px p - px q) * (px p - px q))%Qc) in *. set (b := ((py p - py q) * (py p - py q))%Qc) in *.
  set (c := ((pz p - pz q) * (pz p - pz q))%Qc) in *. clearbody a b c. qlra.
Qed.
