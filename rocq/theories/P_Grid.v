(** Proofs about Grid and Points. *)
From Verif Require Import Base ListLib M_Geo S_Geo P_Geo P_Neighbours.

Lemma zlen_concat {A} Y X (a : list (list A)) : rect Y X a -> zlen (concat a) = Y * X.
Proof.
  intros [H1 H2]. subst Y. induction a as [|r a IH]; cbn [concat]; [reflexivity|].
  rewrite zlen_app, zlen_cons, IH by (intros; apply H2; right; assumption).
  rewrite (H2 r) by (left; reflexivity). lia.
Qed.
Lemma znth_concat {A} Y X (a : list (list A)) k : rect Y X a -> 0 < X -> 0 <= k ->
  znth (concat a) k = get2 a (k / X) (k mod X).
Proof.
  intros [_ H2] HX. revert k. induction a as [|r a IH]; intros k Hk; cbn [concat].
  - unfold get2. rewrite !znth_out; [reflexivity| |]; change (zlen (@nil (list A))) with 0; change (zlen (@nil A)) with 0; lia.
  - assert (Hr : zlen r = X) by (apply H2; left; reflexivity).
    assert (IH' : forall k, 0 <= k -> znth (concat a) k = get2 a (k / X) (k mod X)) by (apply IH; intros; apply H2; right; assumption).
    destruct (Z_lt_dec k X).
    + rewrite znth_app_l by lia. unfold get2. rewrite Z.div_small, Z.mod_small by lia. reflexivity.
    + rewrite znth_app_r by lia. rewrite Hr, IH' by lia. unfold get2.
      assert (E1 : (k - X) / X = k / X - 1) by (replace (k - X) with (k + (-1) * X) by lia; rewrite Z.div_add by lia; lia).
      assert (E2 : (k - X) mod X = k mod X) by (replace (k - X) with (k + (-1) * X) by lia; rewrite Z.mod_add by lia; reflexivity).
      rewrite E1, E2. rewrite (znth_consS r a (k / X)); [reflexivity|].
      apply Z.div_str_pos; lia.
Qed.
Lemma get2_mapmap {A B} (f : A -> B) a i j :
  get2 (map (map f) a) i j = match get2 a i j with Ok v => Ok (f v) | Throw e => Throw e | Abort => Abort | UB => UB end.
Proof.
  unfold get2. rewrite znth_map. destruct (znth a i); cbn; try reflexivity. apply znth_map.
Qed.
Lemma rect_mapmap {A B} (f : A -> B) Y X a : rect Y X a -> rect Y X (map (map f) a).
Proof.
  intros [H1 H2]. split; [rewrite zlen_map; exact H1|]. intros r Hr. apply in_map_iff in Hr as (s & <- & Hs).
  rewrite zlen_map. apply H2; exact Hs.
Qed.
Lemma tab2_get2 {A} Y X (a : list (list A)) : 0 <= Y -> 0 <= X -> rect Y X a -> tab2 Y X (fun i j => get2 a i j) = Ok a.
Proof.
  intros HY HX Ha. destruct (tab2_total Y X (fun i j => get2 a i j) (fun i j v => get2 a i j = Ok v) HY HX) as (r & Hr & HR & HP).
  { intros i j Hi Hj. destruct (rect_get2 _ _ _ i j Ha Hi Hj) as [v Hv]. eauto. }
  rewrite Hr. f_equal. apply (rect_ext Y X); auto. intros i j Hi Hj.
  destruct (HP i j Hi Hj) as (v & Hv & K). rewrite Hv. symmetry. apply K.
Qed.
Lemma rect_row0 {A} Y X (a : list (list A)) : 0 < Y -> rect Y X a -> exists r, znth a 0 = Ok r /\ zlen r = X.
Proof. intros HY [H1 H2]. destruct (znth_some a 0) as [r Hr]; [lia|]. exists r. split; [exact Hr|]. apply H2. eapply znth_In; eauto. Qed.

Lemma grid_inv G t Y X lats lons g : is_grid G t Y X lats lons g ->
  g_lats g = mFin lats /\ g_lons g = mFin lons /\ g_X g = X /\
  is_tree G t (concat lats) (concat lons) (g_tree g) /\ rect Y X (g_elevs g) /\ rect Y X (g_lafs g).
Proof.
  intros (HY & HX & Rla & Rlo & elevs & lafs & He & Hf & H). unfold mk_grid in H.
  pose proof (rect_mapmap Fin _ _ _ Rla) as Rla'. pose proof (rect_mapmap Fin _ _ _ Rlo) as Rlo'.
  assert (E0 : zlen (mFin lats) = Y) by apply Rla'. rewrite E0 in H.
  rewrite (proj2 (Z.eqb_neq Y 0)) in H by lia.
  destruct (rect_row0 Y X _ HY Rla') as (r0 & Hr0 & Lr0). rewrite Hr0 in H. cbn [bind] in H. rewrite Lr0 in H.
  rewrite (tab2_get2 Y X (mFin lats)) in H by (lia || assumption). rewrite (tab2_get2 Y X (mFin lons)) in H by (lia || assumption).
  cbn [bind] in H. apply bind_Ok in H as (T & HT & H).
  assert (PAD : forall (v : vec2) w, (v = [] \/ rect Y X v) ->
     (if negb (zlen v =? Y) then Ok (init2 Y X MV)
      else v0 <- znth v 0 ;; Ok (if negb (zlen v0 =? X) then init2 Y X MV else v)) = Ok w -> rect Y X w).
  { intros v w Hv Hw. destruct (negb (zlen v =? Y)) eqn:E.
    - injection Hw as <-. apply rect_init2; lia.
    - apply bind_Ok in Hw as (v0 & Hv0 & Hw). injection Hw as <-.
      destruct (negb (zlen v0 =? X)); [apply rect_init2; lia|].
      destruct Hv as [->|Hv]; [|exact Hv]. change (zlen (@nil vec)) with 0 in E. apply negb_false_iff in E. lia. }
  apply bind_Ok in H as (e & He' & H). apply bind_Ok in H as (f & Hf' & H). injection H as <-. cbn.
  apply PAD in He'; [|exact He]. apply PAD in Hf'; [|exact Hf].
  repeat split; try assumption; try apply He'; try apply Hf'.
  unfold is_tree. rewrite !concat_map. exact HT.
Qed.
Lemma is_grid_pos G t Y X lats lons g : is_grid G t Y X lats lons g -> 0 < Y /\ 0 < X.
Proof. intros (HY & HX & _). auto. Qed.
Lemma is_grid_rect G t Y X lats lons g : is_grid G t Y X lats lons g -> rect Y X lats /\ rect Y X lons.
Proof. intros (HY & HX & R1 & R2 & _). auto. Qed.
Lemma grid_tree_size G t Y X lats lons g : is_grid G t Y X lats lons g -> tree_size (g_tree g) = Y * X.
Proof.
  intros H. pose proof (grid_inv _ _ _ _ _ _ _ H) as (_ & _ & _ & HT & _).
  unfold tree_size. destruct (mk_tree_inv _ _ _ _ _ HT) as (-> & _). rewrite zlen_map.
  apply zlen_concat. apply (is_grid_rect _ _ _ _ _ _ _ H).
Qed.
Lemma grid_size_ok G t Y X lats lons g : is_grid G t Y X lats lons g -> grid_size g = Ok (Y, X).
Proof.
  intros H. pose proof (is_grid_pos _ _ _ _ _ _ _ H) as [HY HX].
  pose proof (grid_inv _ _ _ _ _ _ _ H) as (_ & _ & EX & _). unfold grid_size.
  rewrite (grid_tree_size _ _ _ _ _ _ _ H). rewrite (proj2 (Z.ltb_lt 0 (Y * X))) by nia.
  unfold get_indices. rewrite EX, (proj2 (Z.eqb_neq X 0)) by lia. cbn [bind].
  rewrite Z.quot_div_nonneg, Z.rem_mod_nonneg by nia.
  replace (Y * X - 1) with ((X - 1) + (Y - 1) * X) by lia.
  rewrite Z.div_add, Z.mod_add by lia. rewrite Z.div_small, Z.mod_small by lia. f_equal. f_equal; lia.
Qed.
Lemma get_indices_ok G t Y X lats lons g k : is_grid G t Y X lats lons g -> 0 <= k ->
  get_indices g k = Ok (k / X, k mod X).
Proof.
  intros H Hk. pose proof (is_grid_pos _ _ _ _ _ _ _ H) as [HY HX].
  pose proof (grid_inv _ _ _ _ _ _ _ H) as (_ & _ & EX & _). unfold get_indices.
  rewrite EX, (proj2 (Z.eqb_neq X 0)) by lia. rewrite Z.quot_div_nonneg, Z.rem_mod_nonneg by lia. reflexivity.
Qed.
(** stored points of a grid *)
Lemma grid_point_at G t Y X lats lons g k q : is_grid G t Y X lats lons g ->
  point_at G t (concat lats) (concat lons) k q <-> (0 <= k < Y * X /\ grid_at G t lats lons (k / X) (k mod X) q).
Proof.
  intros H. pose proof (is_grid_pos _ _ _ _ _ _ _ H) as [HY HX]. destruct (is_grid_rect _ _ _ _ _ _ _ H) as [R1 R2].
  unfold point_at, grid_at. split.
  - intros (la & lo & H1 & H2 & ->). pose proof (znth_range _ _ _ H1) as R. rewrite (zlen_concat Y X) in R by assumption.
    split; [exact R|]. exists la, lo. rewrite (znth_concat Y X) in H1, H2 by (assumption || lia). auto.
  - intros (R & la & lo & H1 & H2 & ->). exists la, lo. rewrite !(znth_concat Y X) by (assumption || lia). auto.
Qed.
Lemma lin_div X y x : 0 <= x < X -> (y * X + x) / X = y.
Proof. intros H. rewrite Z.div_add_l, Z.div_small by lia. lia. Qed.
Lemma lin_mod X y x : 0 <= x < X -> (y * X + x) mod X = x.
Proof. intros H. rewrite Z.add_comm, Z.mod_add, Z.mod_small by lia. lia. Qed.
Lemma grid_at_lin G t Y X lats lons g y x q : is_grid G t Y X lats lons g ->
  grid_at G t lats lons y x q <-> (0 <= y < Y /\ 0 <= x < X /\ point_at G t (concat lats) (concat lons) (y * X + x) q).
Proof.
  intros H. pose proof (is_grid_pos _ _ _ _ _ _ _ H) as [HY HX]. destruct (is_grid_rect _ _ _ _ _ _ _ H) as [R1 R2].
  rewrite (grid_point_at _ _ _ _ _ _ _ _ _ H).
  split.
  - intros Hq. pose proof Hq as (la & lo & H1 & H2 & _). destruct (get2_range _ _ _ _ _ _ R1 H1) as [Ry Rx].
    repeat split; try lia; try nia. rewrite lin_div, lin_mod by lia. exact Hq.
  - intros (Ry & Rx & _ & Hq). rewrite lin_div, lin_mod in Hq by lia. exact Hq.
Qed.
Lemma grid_at_fun G t lats lons y x q q' : grid_at G t lats lons y x q -> grid_at G t lats lons y x q' -> q = q'.
Proof. intros (a & b & H1 & H2 & ->) (c & d & H3 & H4 & ->). congruence. Qed.
Lemma grid_at_some G t Y X lats lons g y x : is_grid G t Y X lats lons g -> 0 <= y < Y -> 0 <= x < X ->
  exists q, grid_at G t lats lons y x q.
Proof.
  intros H Hy Hx. destruct (is_grid_rect _ _ _ _ _ _ _ H) as [R1 R2].
  destruct (rect_get2 _ _ _ y x R1 Hy Hx) as [la Hla]. destruct (rect_get2 _ _ _ y x R2 Hy Hx) as [lo Hlo].
  exists (position G t la lo), la, lo. auto.
Qed.
Lemma get_indices_all_ok G t Y X lats lons g I : is_grid G t Y X lats lons g -> Forall (fun k => 0 <= k) I ->
  get_indices_all g I = Ok (map (fun k => (k / X, k mod X)) I).
Proof.
  intros H HI. apply mapM_ok. intros k Hk. rewrite Forall_forall in HI. eapply get_indices_ok; eauto.
Qed.
Lemma divmod_inj X a b : 0 < X -> (a / X, a mod X) = (b / X, b mod X) -> a = b.
Proof. intros HX E. injection E as E1 E2. rewrite (Z.div_mod a X), (Z.div_mod b X) by lia. rewrite E1, E2. reflexivity. Qed.

Lemma grid_neighbours_exact G t Y X lats lons g la lo r inc : geo_ok G -> is_grid G t Y X lats lons g -> valid_loc t la ->
  exists I, grid_neighbours G g (Fin la) (Fin lo) (Fin r) inc = Ok I /\ NoDup I /\
  forall y x, In (y, x) I <-> exists q, grid_at G t lats lons y x q /\
     near_axes (position G t la lo) q r /\ (sqdist (position G t la lo) q <= r * r)%Qc /\
     (inc = true \/ (0 < sqdist (position G t la lo) q)%Qc).
Proof.
  intros HG H HV. pose proof (is_grid_pos _ _ _ _ _ _ _ H) as [HY HX].
  pose proof (grid_inv _ _ _ _ _ _ _ H) as (_ & _ & EX & HT & _).
  destruct (neighbours_exact G t _ _ _ la lo r inc HG HT HV) as (I & HI & ND & HIn).
  unfold grid_neighbours. rewrite HI. cbn [bind].
  assert (HI0 : forall k, In k I -> 0 <= k < Y * X).
  { intros k Hk. apply HIn in Hk as (q & Hq & _). apply (grid_point_at _ _ _ _ _ _ _ _ _ H) in Hq. tauto. }
  rewrite (get_indices_all_ok _ _ _ _ _ _ _ _ H) by (apply Forall_forall; intros k Hk; apply HI0 in Hk; lia).
  eexists. split; [reflexivity|]. split.
  - clear - ND HX. induction ND as [|a l Ha ND IH]; cbn; constructor; [|exact IH].
    intros K. apply in_map_iff in K as (b & E & Hb). apply (divmod_inj X) in E; [|lia]. congruence.
  - intros y x. rewrite in_map_iff. split.
    + intros (k & E & Hk). injection E as <- <-. apply HIn in Hk as (q & Hq & K). exists q. split; [|exact K].
      apply (grid_point_at _ _ _ _ _ _ _ _ _ H) in Hq. tauto.
    + intros (q & Hq & K). apply (grid_at_lin _ _ _ _ _ _ _ _ _ _ H) in Hq as (Ry & Rx & Hq). exists (y * X + x). split.
      * rewrite lin_div, lin_mod by lia. reflexivity.
      * apply HIn. exists q. auto.
Qed.
Lemma grid_nearest_spec G t Y X lats lons g la lo inc : geo_ok G -> is_grid G t Y X lats lons g -> valid_loc t la ->
  (grid_nearest G g (Fin la) (Fin lo) inc = Ok None /\ none_qualifies (grid_at' G t lats lons) (position G t la lo) inc) \/
  (exists c, grid_nearest G g (Fin la) (Fin lo) inc = Ok (Some c) /\ closest (grid_at' G t lats lons) (position G t la lo) inc c).
Proof.
  intros HG H HV. pose proof (is_grid_pos _ _ _ _ _ _ _ H) as [HY HX].
  pose proof (grid_inv _ _ _ _ _ _ _ H) as (_ & _ & EX & HT & _).
  unfold grid_nearest, grid_closest.
  destruct (closest_one G t _ _ _ la lo inc HG HT HV) as (I & HI & [[-> HN]|(i & -> & HC)]); rewrite HI; cbn [bind].
  - left. cbn. split; [reflexivity|]. intros [y x] q Hq. apply (grid_at_lin _ _ _ _ _ _ _ _ _ _ H) in Hq as (_ & _ & Hq). eapply HN; eauto.
  - right. destruct HC as (q & Hq & Hf & HC). pose proof Hq as Hq'. apply (grid_point_at _ _ _ _ _ _ _ _ _ H) in Hq' as [Ri Hq'].
    rewrite (get_indices_all_ok _ _ _ _ _ _ _ _ H) by (constructor; [lia|constructor]). cbn [bind map].
    exists (i / X, i mod X). split; [reflexivity|]. exists q. split; [exact Hq'|]. split; [exact Hf|].
    intros [y x] q' Hq2 Hf'. apply (grid_at_lin _ _ _ _ _ _ _ _ _ _ H) in Hq2 as (_ & _ & Hq2). eapply HC; eauto.
Qed.
(** with include_match a grid always has a nearest point *)
Lemma grid_nearest_some G t Y X lats lons g la lo : geo_ok G -> is_grid G t Y X lats lons g -> valid_loc t la ->
  exists y x, grid_nearest G g (Fin la) (Fin lo) true = Ok (Some (y, x)) /\ 0 <= y < Y /\ 0 <= x < X /\
     closest (grid_at' G t lats lons) (position G t la lo) true (y, x).
Proof.
  intros HG H HV. pose proof (is_grid_pos _ _ _ _ _ _ _ H) as [HY HX].
  destruct (grid_nearest_spec G t Y X lats lons g la lo true HG H HV) as [[_ HN]|([y x] & E & HC)].
  - exfalso. destruct (grid_at_some _ _ _ _ _ _ _ 0 0 H) as [q Hq]; [lia|lia|]. apply (HN (0, 0) q Hq). left; reflexivity.
  - exists y, x. split; [exact E|]. pose proof HC as (q & Hq & _).
    apply (grid_at_lin _ _ _ _ _ _ _ _ _ _ H) in Hq as (? & ? & _). auto.
Qed.
Lemma points_nearest_spec G t las los P la lo inc : geo_ok G -> is_tree G t las los (s_tree P) -> valid_loc t la ->
  (points_nearest G P (Fin la) (Fin lo) inc = Ok (-1) /\ none_qualifies (point_at G t las los) (position G t la lo) inc) \/
  (exists i, 0 <= i < zlen las /\ points_nearest G P (Fin la) (Fin lo) inc = Ok i /\ closest (point_at G t las los) (position G t la lo) inc i).
Proof.
  intros HG HT HV. unfold points_nearest.
  destruct (closest_one G t _ _ _ la lo inc HG HT HV) as (I & HI & [[-> HN]|(i & -> & HC)]); rewrite HI; cbn [bind].
  - left. auto.
  - right. exists i. pose proof HC as (q & (a & b & Ha & _) & _). apply znth_range in Ha. auto.
Qed.
Lemma tree_nearest_spec G t las los T la lo inc : geo_ok G -> is_tree G t las los T -> valid_loc t la ->
  (tree_nearest G T (Fin la) (Fin lo) inc = UB /\ none_qualifies (point_at G t las los) (position G t la lo) inc) \/
  (exists i, tree_nearest G T (Fin la) (Fin lo) inc = Ok i /\ closest (point_at G t las los) (position G t la lo) inc i).
Proof.
  intros HG HT HV. unfold tree_nearest.
  destruct (closest_one G t _ _ _ la lo inc HG HT HV) as (I & HI & [[-> HN]|(i & -> & HC)]); rewrite HI; cbn [bind].
  - left. auto.
  - right. exists i. auto.
Qed.
