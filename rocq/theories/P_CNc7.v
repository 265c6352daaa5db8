From Coq Require Import Ascii String Lia.
From Verif Require Import Base ListLib QcTac M_COpt P_COpt M_CUtil S_CUtil P_CUtil M_CCal S_CCal P_CCal M_CDown M_CFile P_CFile M_CNc S_CNc P_CNc P_CNc2 P_CNc3 P_CNc4 P_CNc5 P_CNc6.
Local Open Scope Z_scope.

(** latitudes and longitudes *)
Definition yx (R : roles) (p : Z * Z) (kd : Z * Z) : Z * Z := let '(k, d) := kd in if d =? r_y R then (k, snd p) else if d =? r_x R then (fst p, k) else p.
Lemma combine_range_app (l m : list Z) a : combine (zrange a (a + zlen (l ++ m))) (l ++ m) = combine (zrange a (a + zlen l)) l ++ combine (zrange (a + zlen l) (a + zlen l + zlen m)) m.
Proof.
  revert a. induction l as [|x l IH]; intros a; cbn [app].
  - change (zlen (@nil Z)) with 0. rewrite Z.add_0_r, (zrange_nil a a) by lia. reflexivity.
  - rewrite !zlen_cons. pose proof (zlen_nonneg l). pose proof (zlen_nonneg (l ++ m)). rewrite !(zrange_cons a) by lia. cbn [combine app]. f_equal. replace (a + (zlen (l ++ m) + 1)) with (a + 1 + zlen (l ++ m)) by lia. rewrite IH. f_equal; f_equal; f_equal; lia.
Qed.
Definition outside (R : roles) (l : list Z) : Prop := forall k, In k l -> k <> r_y R /\ k <> r_x R.
Lemma yx_skip R l : forall a p, outside R l -> fold_left (yx R) (combine (zrange a (a + zlen l)) l) p = p.
Proof.
  induction l as [|x l IH]; intros a p H; [change (zlen (@nil Z)) with 0; rewrite zrange_nil by lia; reflexivity|]. rewrite zlen_cons. pose proof (zlen_nonneg l). rewrite zrange_cons by lia. cbn [combine fold_left]. replace (a + (zlen l + 1)) with (a + 1 + zlen l) by lia.
  destruct (H x (or_introl eq_refl)) as [N1 N2]. apply Z.eqb_neq in N1, N2. unfold yx at 2. rewrite N1, N2. apply IH. intros k Hk. apply H. right; auto.
Qed.
Lemma combine_cons_range a x (l : list Z) : combine (zrange a (a + zlen (x :: l))) (x :: l) = (a, x) :: combine (zrange (a + 1) (a + 1 + zlen l)) l.
Proof. rewrite zlen_cons. pose proof (zlen_nonneg l). rewrite zrange_cons by lia. cbn [combine]. replace (a + (zlen l + 1)) with (a + 1 + zlen l) by lia. reflexivity. Qed.
Definition yx_count (R : roles) (nY nX k : Z) : Z := if k =? r_y R then nY else if k =? r_x R then nX else 1.
Lemma product_skip R nY nX l m : outside R l -> product (map (yx_count R nY nX) (l ++ m)) = product (map (yx_count R nY nX) m).
Proof.
  intros H. induction l as [|k l IH]; cbn [app map product]; [reflexivity|]. destruct (H k (or_introl eq_refl)) as [N1 N2]. apply Z.eqb_neq in N1, N2. unfold yx_count at 1. rewrite N1, N2. rewrite IH by (intros a Ha; apply H; right; auto). lia.
Qed.
Lemma major_skip R nY nX i j l m : outside R l -> row_major (map (yx_count R nY nX) (l ++ m)) (map (grid_point R i j) (l ++ m)) = row_major (map (yx_count R nY nX) m) (map (grid_point R i j) m).
Proof.
  intros H. induction l as [|k l IH]; cbn [app map row_major]; [reflexivity|]. destruct (H k (or_introl eq_refl)) as [N1 N2]. apply Z.eqb_neq in N1, N2. unfold grid_point at 1. rewrite N1, N2. rewrite IH by (intros a Ha; apply H; right; auto). lia.
Qed.
Lemma outside_of R l : ~ In (r_y R) l -> ~ In (r_x R) l -> outside R l.
Proof. intros A B k Hk. split; intros ->; contradiction. Qed.
Lemma order R ds nY nX i j : NoDup ds -> r_y R <> r_x R -> In (r_y R) ds -> In (r_x R) ds -> exists y x, fold_left (yx R) (combine (zrange 0 (zlen ds)) ds) (-999, -999) = (y, x) /\ 0 <= y /\ 0 <= x /\
  row_major (map (yx_count R nY nX) ds) (map (grid_point R i j) ds) = if y <? x then i * nX + j else j * nY + i.
Proof.
  intros ND N Hy Hx. destruct (in_split _ _ Hy) as (l1 & l2 & ->). apply NoDup_remove in ND as [ND NI]. assert (~ In (r_y R) l1 /\ ~ In (r_y R) l2) as [Y1 Y2] by (split; intros A; apply NI; apply in_or_app; auto).
  apply in_app_or in Hx as [Hx|[Hx|Hx]]; [|contradiction|].
  - destruct (in_split _ _ Hx) as (m1 & m2 & ->). rewrite <- app_assoc in ND. cbn [app] in ND. apply NoDup_remove in ND as [_ NJ]. 
    assert (outside R m1) as O1 by (apply outside_of; [intros A; apply Y1, in_or_app; auto|intros A; apply NJ, in_or_app; auto]). assert (outside R m2) as O2 by (apply outside_of; [intros A; apply Y1, in_or_app; right; right; auto|intros A; apply NJ, in_or_app; right; apply in_or_app; auto]). assert (outside R l2) as O3 by (apply outside_of; [auto|intros A; apply NJ, in_or_app; right; apply in_or_app; auto]).
    rewrite <- app_assoc. cbn [app]. exists (zlen m1 + 1 + zlen m2), (zlen m1). pose proof (zlen_nonneg m1). pose proof (zlen_nonneg m2). split; [|split; [lia|split; [lia|]]].
    + replace (zlen (m1 ++ r_x R :: m2 ++ r_y R :: l2)) with (0 + zlen (m1 ++ r_x R :: m2 ++ r_y R :: l2)) by lia. rewrite combine_range_app, fold_left_app, (yx_skip R m1) by auto. rewrite combine_cons_range. cbn [fold_left]. rewrite combine_range_app, fold_left_app, (yx_skip R m2) by auto. rewrite combine_cons_range. cbn [fold_left]. rewrite (yx_skip R l2) by auto. unfold yx. replace (r_x R =? r_y R) with false by (symmetry; apply Z.eqb_neq; auto). rewrite !Z.eqb_refl. cbn [fst snd]. f_equal; lia.
    + replace (zlen m1 + 1 + zlen m2 <? zlen m1) with false by (symmetry; apply Z.ltb_ge; lia). rewrite (major_skip R nY nX i j m1) by auto. cbn [map row_major]. rewrite (product_skip R nY nX m2) by auto. rewrite (major_skip R nY nX i j m2) by auto. cbn [map row_major product]. rewrite <- (app_nil_r l2), (product_skip R nY nX l2), (major_skip R nY nX i j l2) by auto. cbn [map row_major product]. unfold grid_point, yx_count. replace (r_x R =? r_y R) with false by (symmetry; apply Z.eqb_neq; auto). rewrite !Z.eqb_refl. lia.
  - destruct (in_split _ _ Hx) as (m1 & m2 & ->). rewrite app_assoc in ND. apply NoDup_remove in ND as [_ NJ]. 
    assert (outside R l1) as O1 by (apply outside_of; [auto|intros A; apply NJ; rewrite <- app_assoc; apply in_or_app; auto]). assert (outside R m1) as O2 by (apply outside_of; [intros A; apply Y2, in_or_app; auto|intros A; apply NJ; apply in_or_app; left; apply in_or_app; auto]). assert (outside R m2) as O3 by (apply outside_of; [intros A; apply Y2, in_or_app; right; right; auto|intros A; apply NJ; apply in_or_app; auto]).
    exists (zlen l1), (zlen l1 + 1 + zlen m1). pose proof (zlen_nonneg l1). pose proof (zlen_nonneg m1). split; [|split; [lia|split; [lia|]]].
    + replace (zlen (l1 ++ r_y R :: m1 ++ r_x R :: m2)) with (0 + zlen (l1 ++ r_y R :: m1 ++ r_x R :: m2)) by lia. rewrite combine_range_app, fold_left_app, (yx_skip R l1) by auto. rewrite combine_cons_range. cbn [fold_left]. rewrite combine_range_app, fold_left_app, (yx_skip R m1) by auto. rewrite combine_cons_range. cbn [fold_left]. rewrite (yx_skip R m2) by auto. unfold yx. replace (r_x R =? r_y R) with false by (symmetry; apply Z.eqb_neq; auto). rewrite !Z.eqb_refl. cbn [fst snd]. f_equal; lia.
    + replace (zlen l1 <? zlen l1 + 1 + zlen m1) with true by (symmetry; apply Z.ltb_lt; lia). rewrite (major_skip R nY nX i j l1) by auto. cbn [map row_major]. rewrite (product_skip R nY nX m1) by auto. rewrite (major_skip R nY nX i j m1) by auto. cbn [map row_major product]. rewrite <- (app_nil_r m2), (product_skip R nY nX m2), (major_skip R nY nX i j m2) by auto. cbn [map row_major product]. unfold grid_point, yx_count. replace (r_x R =? r_y R) with false by (symmetry; apply Z.eqb_neq; auto). rewrite !Z.eqb_refl. lia.
Qed.
Lemma plus_zero l : forall m, zlen l = zlen m -> (forall a, In a l -> a = 0) -> plus l m = m.
Proof.
  induction l as [|x l IH]; intros [|y m] L H; rewrite ?zlen_cons in L; cbn [plus]; [reflexivity|change (zlen (@nil Z)) with 0 in L; pose proof (zlen_nonneg m); lia|change (zlen (@nil Z)) with 0 in L; pose proof (zlen_nonneg l); lia|]. rewrite (H x (or_introl eq_refl)), IH by (try lia; intros a Ha; apply H; right; auto). reflexivity.
Qed.
Lemma allowed_zero X l : forall (c : Z -> Z), (forall k, In k l -> exists n u, znth (x_dims X) k = Ok (n, u) /\ c k <= n) -> allowed X false l (map (fun _ => 0) l) (map c l) = true.
Proof.
  intros c. induction l as [|k l IH]; intros H; cbn [map allowed]; [reflexivity|]. destruct (H k (or_introl eq_refl)) as (n & u & -> & L). rewrite IH by (intros a Ha; apply H; right; auto). cbn [Z.leb andb]. replace (0 + c k <=? n) with true by (symmetry; apply Z.leb_le; lia). reflexivity.
Qed.
Lemma init_zero (l : list Z) : init1 (zlen l) 0 = map (fun _ => 0) l.
Proof. unfold init1. apply znth_ext; [rewrite !zlen_map, zlen_zrange; pose proof (zlen_nonneg l); lia|]. intros i Hi. rewrite zlen_map, zlen_zrange in Hi. pose proof (zlen_nonneg l). rewrite !znth_map. destruct (znth_some l i ltac:(lia)) as [k ->]. rewrite znth_zrange by lia. reflexivity. Qed.
Lemma tab2_table {A} nY nX (f : Z -> Z -> res A) (g : Z -> Z -> A) : 0 <= nY -> 0 <= nX -> (forall i j, 0 <= i < nY -> 0 <= j < nX -> f i j = Ok (g i j)) ->
  exists r, tab2 nY nX f = Ok r /\ rect nY nX r /\ forall i j, 0 <= i < nY -> 0 <= j < nX -> get2 r i j = Ok (g i j).
Proof.
  intros HY HX H. destruct (tab2_total nY nX f (fun i j v => v = g i j) HY HX) as (r & E & Rr & G); [intros i j Hi Hj; exists (g i j); auto|]. exists r. split; [auto|]. split; [auto|]. intros i j Hi Hj. destruct (G i j Hi Hj) as (v & -> & _ & ->). reflexivity.
Qed.
Definition many (X : netcdf) (R : roles) (v : nc_var) (numY numX : Z) : res (list vec) :=
  let ds := n_dims v in
  let '(y, x) := fold_left (yx R) (combine (zrange 0 (zlen ds)) ds) (-999, -999) in
  if negb (ivalid x) then Abort else if negb (ivalid y) then Abort else
  match get_vara X v (init1 (zlen ds) 0) (map (yx_count R numY numX) ds) with
  | None => Abort
  | Some values => tab2 numY numX (fun i j => value <- znth values (if y <? x then i * numX + j else j * numY + i) ;; Ok (if veqb value (fill_of v) then CMV else value))
  end.
Lemma latlon_is_many X R v : zlen (n_dims v) <> 1 -> latlon X R v = many X R v (if ivalid (r_y R) then dim_size X (r_y R) else 1) (if ivalid (r_x R) then dim_size X (r_x R) else 1).
Proof. intros H. unfold latlon, many. destruct (n_dims v) as [|k [|k' l]]; [reflexivity|exfalso; apply H; reflexivity|reflexivity]. Qed.
Lemma latlon_many X R v : sound X v -> zlen (n_dims v) <> 1 -> r_y R <> r_x R -> In (r_y R) (n_dims v) -> In (r_x R) (n_dims v) -> 1 <= dim_size X (r_y R) -> 1 <= dim_size X (r_x R) -> (forall k, In k (n_dims v) -> k <> r_y R -> k <> r_x R -> 1 <= dim_size X k) ->
  exists g, latlon X R v = Ok g /\ rect (dim_size X (r_y R)) (dim_size X (r_x R)) g /\ forall i j, 0 <= i < dim_size X (r_y R) -> 0 <= j < dim_size X (r_x R) ->
    get2 g i j = Ok (let w := n_data v (map (grid_point R i j) (n_dims v)) in if veqb w (fill_of v) then CMV else w).
Proof.
  intros HS L1 N Hy Hx Sy Sx Ex. pose proof (proj2 HS _ Hy) as By. pose proof (proj2 HS _ Hx) as Bx. rewrite latlon_is_many by auto. assert (ivalid (r_y R) = true) as -> by (apply ivalid_ne; lia). assert (ivalid (r_x R) = true) as -> by (apply ivalid_ne; lia). set (nY := dim_size X (r_y R)) in *. set (nX := dim_size X (r_x R)) in *.
  destruct (order R (n_dims v) nY nX 0 0 (proj1 HS) N Hy Hx) as (y & x & E & Py & Px & _).
  unfold many. rewrite E. assert (ivalid x = true) as -> by (apply ivalid_ne; lia). assert (ivalid y = true) as -> by (apply ivalid_ne; lia). cbn [negb].
  rewrite init_zero. unfold get_vara. rewrite allowed_zero.
    2:{ intros k Hk. destruct (dim_at X v HS k Hk) as [u Hu]. exists (dim_size X k), u. split; [auto|]. unfold yx_count. destruct (Z.eqb_spec k (r_y R)) as [->|]; [fold nY; lia|]. destruct (Z.eqb_spec k (r_x R)) as [->|]; [fold nX; lia|]. apply Ex; auto. }
    destruct (tab2_table nY nX (fun i j => value <- znth (map (fun i => n_data v (plus (map (fun _ => 0) (n_dims v)) i)) (indices (map (yx_count R nY nX) (n_dims v)))) (if y <? x then i * nX + j else j * nY + i) ;; Ok (if veqb value (fill_of v) then CMV else value)) (fun i j => let w := n_data v (map (grid_point R i j) (n_dims v)) in if veqb w (fill_of v) then CMV else w)) as (g & Eg & Rg & Gg); [lia|lia| |exists g; auto].
    intros i j Hi Hj. destruct (order R (n_dims v) nY nX i j (proj1 HS) N Hy Hx) as (y' & x' & E' & _ & _ & Q). rewrite E in E'. inversion E'; subst y' x'. rewrite <- Q. rewrite znth_map, indices_at.
    - rewrite plus_zero; [reflexivity|rewrite !zlen_map; auto|]. intros a Ha. apply in_map_iff in Ha as (? & <- & _). reflexivity.
    - clear - Hi Hj. induction (n_dims v) as [|k l IH]; cbn [map]; constructor; auto. unfold grid_point, yx_count. destruct (k =? r_y R); [auto|]. destruct (k =? r_x R); [auto|lia].
Qed.

Lemma latlon_one X R v k : sound X v -> n_dims v = [k] -> k = r_y R \/ k = r_x R -> r_y R <> r_x R -> (r_y R = -999 \/ 1 <= dim_size X (r_y R)) -> (r_x R = -999 \/ 1 <= dim_size X (r_x R)) ->
  exists g, latlon X R v = Ok g /\ rect (if r_y R =? -999 then 1 else dim_size X (r_y R)) (if r_x R =? -999 then 1 else dim_size X (r_x R)) g /\
    forall i j, 0 <= i < (if r_y R =? -999 then 1 else dim_size X (r_y R)) -> 0 <= j < (if r_x R =? -999 then 1 else dim_size X (r_x R)) -> get2 g i j = Ok (n_data v (map (grid_point R i j) (n_dims v))).
Proof.
  intros HS D Hk N Sy Sx. assert (In k (n_dims v)) as Ik by (rewrite D; left; auto). pose proof (proj2 HS k Ik) as Bk. destruct (dim_at X v HS k Ik) as [u Hu]. unfold latlon. rewrite D.
  replace (negb ((k =? r_x R) || (k =? r_y R))) with false by (destruct Hk as [->| ->]; rewrite Z.eqb_refl, ?orb_true_r; reflexivity).
  assert (1 <= dim_size X k) as Sk by (destruct Hk as [->| ->]; lia).
  assert (get_vara X v [0] [dim_size X k] = Some (map (fun i => n_data v [i]) (zrange 0 (dim_size X k)))) as ->.
  { unfold get_vara. rewrite D. cbn [allowed]. rewrite Hu. replace (0 + dim_size X k <=? dim_size X k) with true by (symmetry; apply Z.leb_le; lia). change (0 <=? 0) with true. cbn [orb andb]. f_equal. cbn [indices]. induction (zrange 0 (dim_size X k)) as [|a l IH]; cbn [flat_map map app]; [reflexivity|]. f_equal. exact IH. }
  unfold ivalid. set (nY := if negb (r_y R =? -999) then dim_size X (r_y R) else 1). set (nX := if negb (r_x R =? -999) then dim_size X (r_x R) else 1).
  replace (if r_y R =? -999 then 1 else dim_size X (r_y R)) with nY by (unfold nY; destruct (r_y R =? -999); reflexivity). replace (if r_x R =? -999 then 1 else dim_size X (r_x R)) with nX by (unfold nX; destruct (r_x R =? -999); reflexivity).
  assert (1 <= nY) as PY by (unfold nY; destruct (Z.eqb_spec (r_y R) (-999)); cbn [negb]; lia). assert (1 <= nX) as PX by (unfold nX; destruct (Z.eqb_spec (r_x R) (-999)); cbn [negb]; lia).
  apply tab2_table; [lia|lia|]. intros i j Hi Hj. cbn [map]. unfold grid_point. destruct Hk as [Q|Q].
  - subst k. rewrite Z.eqb_refl. replace (r_y R =? r_x R) with false by (symmetry; apply Z.eqb_neq; auto). assert (nY = dim_size X (r_y R)) as QY by (unfold nY; destruct (Z.eqb_spec (r_y R) (-999)); [lia|reflexivity]). rewrite znth_map, znth_zrange by lia. reflexivity.
  - subst k. rewrite Z.eqb_refl. replace (r_x R =? r_y R) with false by (symmetry; apply Z.eqb_neq; auto). assert (nX = dim_size X (r_x R)) as QX by (unfold nX; destruct (Z.eqb_spec (r_x R) (-999)); [lia|reflexivity]). rewrite znth_map, znth_zrange by lia. reflexivity.
Qed.
Lemma latlon_missing X R v : ~ In (r_y R) (n_dims v) -> ~ In (r_x R) (n_dims v) -> latlon X R v = Abort.
Proof.
  intros Ny Nx. destruct (Z.eq_dec (zlen (n_dims v)) 1) as [L|L].
  - unfold latlon. destruct (n_dims v) as [|k [|k' l]] eqn:D; [discriminate L| |rewrite !zlen_cons in L; pose proof (zlen_nonneg l); lia]. replace (k =? r_x R) with false by (symmetry; apply Z.eqb_neq; intros ->; apply Nx; left; auto). replace (k =? r_y R) with false by (symmetry; apply Z.eqb_neq; intros ->; apply Ny; left; auto). reflexivity.
  - rewrite latlon_is_many by auto. unfold many. pose proof (yx_skip R (n_dims v) 0 (-999, -999) (outside_of R _ Ny Nx)) as Q. rewrite Z.add_0_l in Q. rewrite Q. reflexivity.
Qed.
(** more members in the file than there are *)
Lemma foldM_each {S A} (step : S -> A -> res S) (Q : A -> Prop) l : (forall s a s', In a l -> step s a = Ok s' -> Q a) -> forall s s', foldM step s l = Ok s' -> forall a, In a l -> Q a.
Proof.
  induction l as [|b l IH]; intros H s s' F a [].
  - subst b. cbn in F. destruct (step s a) as [s1| | |] eqn:E1; try discriminate. eapply H; [left; reflexivity|exact E1].
  - cbn in F. destruct (step s b) as [s1| | |]; try discriminate. cbn [bind] in F. eapply IH; eauto. intros; eapply H; [right|]; eauto.
Qed.
Lemma f_get_out d f y x e : of_size d f -> d_e d <= e -> forall w, f_get f y x e <> Ok w.
Proof.
  intros (_ & _ & _ & E) H w. unfold f_get, f_index. rewrite E. replace (e <? d_e d) with false by (symmetry; apply Z.ltb_ge; lia). rewrite andb_false_r. cbn. discriminate.
Qed.
Lemma larger X R d n v fs : proper R -> sound X v -> find_name (x_vars X) n = Some v -> r_t R <> -999 -> In (r_e R) (n_dims v) -> d_e d < dim_size X (r_e R) -> 0 <= d_e d -> 1 <= d_t d ->
  (In (r_y R) (n_dims v) -> 1 <= dim_size X (r_y R)) -> (In (r_x R) (n_dims v) -> 1 <= dim_size X (r_x R)) -> fields_for d fs -> forall Y, nc_write X R d [(n, fs)] <> Ok Y.
Proof.
  intros HP HS Hv NT HE Lt Pe Pt Sy Sx FF Y. unfold nc_write, define_dims. assert (ivalid (r_t R) = true) as -> by (apply ivalid_ne; auto). pose proof (proj2 HS _ HE) as Be. assert (ivalid (r_e R) = true) as -> by (apply ivalid_ne; lia). cbn [negb andb].
  assert ((match find_name (x_vars X) (txt "time") with Some _ => (X, r_t R) | None => (X, r_t R) end) = (X, r_t R)) as -> by (destruct (find_name (x_vars X) (txt "time")); reflexivity).
  replace {| r_t := r_t R; r_e := r_e R; r_y := r_y R; r_x := r_x R |} with R by (destruct R; reflexivity). cbn [fold_left fst snd foldM]. unfold define_variable. rewrite Hv. intros H.
  destruct (write_variable X R d n fs) as [X1| | |] eqn:W; cbn [bind] in H; try discriminate. clear H. unfold write_variable in W. rewrite Hv in W. 
  assert (forall k, In k (n_dims v) -> 0 <= k) as DP by (intros k Hk; apply HS in Hk; lia).
  rewrite size_e, size_y, size_x in W by auto. cbn [bind] in W. destruct (in_dec Z.eq_dec (r_e R) (n_dims v)) as [_|]; [|contradiction].
  pose proof (proper_ne R HP) as (P1 & P2 & P3 & P4 & P5 & P6).
  assert ((if r_e R =? r_t R then 1 else if (r_e R =? r_e R) || (r_e R =? r_y R) || (r_e R =? r_x R) then dim_size X (r_e R) else 1) = dim_size X (r_e R)) as CE.
  { destruct (Z.eqb_spec (r_e R) (r_t R)) as [Q|Q]; [exfalso; apply NT, P1; auto|]. rewrite Z.eqb_refl. reflexivity. }
  rewrite CE in W.
  set (a := if in_dec Z.eq_dec (r_y R) (n_dims v) then _ else 1) in W. set (b := if in_dec Z.eq_dec (r_x R) (n_dims v) then _ else 1) in W.
  assert (1 <= a) as Pa by (unfold a; destruct (in_dec Z.eq_dec (r_y R) (n_dims v)) as [i|]; [|lia]; destruct (r_y R =? r_t R); [lia|]; destruct ((r_y R =? r_e R) || (r_y R =? r_y R) || (r_y R =? r_x R)); [auto|lia]).
  assert (1 <= b) as Pb by (unfold b; destruct (in_dec Z.eq_dec (r_x R) (n_dims v)) as [i|]; [|lia]; destruct (r_x R =? r_t R); [lia|]; destruct ((r_x R =? r_e R) || (r_x R =? r_y R) || (r_x R =? r_x R)); [auto|lia]).
  refine (foldM_each _ (fun _ => False) _ _ _ _ W 0 _); [|apply in_zrange; lia]. clear W. intros s t s' Ht W. apply in_zrange in Ht. destruct (FF t Ht) as (f & Ef & Sf).
  destruct (find_name (x_vars s) n) as [v'|]; [|discriminate]. destruct (set_if (time_position R (n_dims v')) t (init1 (zlen (n_dims v')) 0)) as [st| | |]; cbn [bind] in W; try discriminate. rewrite Ef in W. cbn [bind] in W.
  match type of W with (bind ?m _) = _ => destruct m as [vals| | |] eqn:F; cbn [bind] in W; try discriminate end.
  assert (exists w, f_get f 0 0 (d_e d) = Ok w) as [w Hw]; [|exact (f_get_out d f 0 0 (d_e d) Sf ltac:(lia) w Hw)].
  refine (foldM_each _ (fun c => let '(e, y, x) := c in exists w, f_get f y x e = Ok w) _ _ _ _ F (d_e d, 0, 0) _); [|apply in_elements; lia]. intros u [[e y] x] u' _ Q. destruct (index_of _ _ (e, y, x)) as [k| | |]; cbn [bind] in Q; try discriminate. destruct (f_get f y x e) as [w| | |]; cbn [bind] in Q; try discriminate. eauto.
Qed.
