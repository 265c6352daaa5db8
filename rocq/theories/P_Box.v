(** C40, C41: point_in_rectangle and Grid::get_box. *)
From Verif Require Import Base ListLib M_Geo S_Geo P_Geo P_Neighbours P_Grid.

Lemma side_val P Q m ax ay bx by_ mx my : at_xy P ax ay -> at_xy Q bx by_ -> at_xy m mx my ->
  side P Q m = Fin (cross ax ay bx by_ mx my).
Proof.
  intros [H1 H2] [H3 H4] [H5 H6]. unfold side. rewrite H1, H2, H3, H4, H5, H6. cbn. f_equal.
  unfold cross. change (qz (-1)) with (- (1))%Qc. ring.
Qed.
Lemma vleb_Fin a b : vleb (Fin a) (Fin b) = true <-> (a <= b)%Qc.
Proof.
  unfold vleb, vltb, veqb. rewrite orb_true_iff. split.
  - intros [H|H]; revert H; qcase; try discriminate; intros _; [qlra|]. subst. apply Qcle_refl.
  - intros H. destruct (qltb_spec a b); [auto|]. destruct (qeqb_spec a b); [auto|]. exfalso. apply n0. apply Qcle_antisym; qlra.
Qed.
Lemma cross_rev ax ay dx dy mx my : cross dx dy ax ay mx my = (- cross ax ay dx dy mx my)%Qc.
Proof. unfold cross. ring. Qed.
Lemma in_rectangle_edges A B C D m ax ay bx by_ cx cy dx dy mx my :
  at_xy A ax ay -> at_xy B bx by_ -> at_xy C cx cy -> at_xy D dx dy -> at_xy m mx my ->
  (point_in_rectangle A B C D m = true <-> inside_edges ax ay bx by_ cx cy dx dy mx my).
Proof.
  intros HA HB HC HD Hm. unfold point_in_rectangle, inside_edges.
  rewrite (side_val _ _ _ _ _ _ _ _ _ HA HB Hm), (side_val _ _ _ _ _ _ _ _ _ HA HD Hm),
          (side_val _ _ _ _ _ _ _ _ _ HB HC Hm), (side_val _ _ _ _ _ _ _ _ _ HC HD Hm).
  rewrite (cross_rev ax ay dx dy).
  set (d1 := cross ax ay bx by_ mx my). set (d2 := cross ax ay dx dy mx my).
  set (d3 := cross bx by_ cx cy mx my). set (d4 := cross cx cy dx dy mx my). clearbody d1 d2 d3 d4.
  unfold fz. change (qz 0) with 0%Qc. rewrite orb_true_iff, !andb_true_iff, !vleb_Fin. cbn zeta.
  split; (intros [(((H1 & H2) & H3) & H4)|(((H1 & H2) & H3) & H4)] || intros [(H1 & H2 & H3 & H4)|(H1 & H2 & H3 & H4)]);
    solve [left; repeat split; qlra | right; repeat split; qlra].
Qed.
Lemma edges_parallelogram ax ay bx by_ cx cy dx dy mx my :
  (cx = bx + dx - ax)%Qc -> (cy = by_ + dy - ay)%Qc -> cross ax ay bx by_ dx dy <> 0%Qc ->
  (inside_edges ax ay bx by_ cx cy dx dy mx my <-> in_parallelogram ax ay bx by_ dx dy mx my).
Proof.
  intros -> -> HK. set (K := cross ax ay bx by_ dx dy) in *.
  assert (D : forall s u, (mx = ax + s * (bx - ax) + u * (dx - ax))%Qc -> (my = ay + s * (by_ - ay) + u * (dy - ay))%Qc ->
    cross ax ay bx by_ mx my = (u * K)%Qc /\ cross bx by_ (bx + dx - ax) (by_ + dy - ay) mx my = ((1 - s) * K)%Qc /\
    cross (bx + dx - ax) (by_ + dy - ay) dx dy mx my = ((1 - u) * K)%Qc /\ cross dx dy ax ay mx my = (s * K)%Qc).
  { intros s u -> ->. subst K. unfold cross. repeat split; ring. }
  unfold inside_edges. cbn zeta. split.
  - intros H.
    set (u := (cross ax ay bx by_ mx my / K)%Qc). set (s := (cross dx dy ax ay mx my / K)%Qc).
    assert (Ex : (mx = ax + s * (bx - ax) + u * (dx - ax))%Qc).
    { subst s u K. unfold cross in *. field. exact HK. }
    assert (Ey : (my = ay + s * (by_ - ay) + u * (dy - ay))%Qc).
    { subst s u K. unfold cross in *. field. exact HK. }
    destruct (D s u Ex Ey) as (E1 & E2 & E3 & E4). rewrite E1, E2, E3, E4 in H.
    exists s, u. clear D E1 E2 E3 E4. clearbody s u K.
    assert (P : (0 < K)%Qc \/ (K < 0)%Qc).
    { destruct (Qclt_le_dec K 0); [auto|]. left. apply Qcnot_le_lt. intros L. apply HK. apply Qcle_antisym; assumption. }
    clear HK. cut (0 <= s /\ s <= 1 /\ 0 <= u /\ u <= 1)%Qc; [tauto|]. clear Ex Ey ax ay bx by_ dx dy mx my.
    assert (Q1 : forall a : Qc, (0 < K)%Qc -> (0 <= a * K)%Qc -> (0 <= a)%Qc) by (intros a ? ?; qnra).
    assert (Q2 : forall a : Qc, (K < 0)%Qc -> (a * K <= 0)%Qc -> (0 <= a)%Qc) by (intros a ? ?; qnra).
    assert (Q3 : forall a : Qc, (0 < K)%Qc -> (a * K <= 0)%Qc -> (a <= 0)%Qc) by (intros a ? ?; qnra).
    assert (Q4 : forall a : Qc, (K < 0)%Qc -> (0 <= a * K)%Qc -> (a <= 0)%Qc) by (intros a ? ?; qnra).
    destruct P as [P|P]; destruct H as [(H1 & H2 & H3 & H4)|(H1 & H2 & H3 & H4)].
    + apply (Q1 _ P) in H1, H2, H3, H4. clear - H1 H2 H3 H4. repeat split; qlra.
    + apply (Q3 _ P) in H1, H2, H3, H4. clear - H1 H2 H3 H4. exfalso; qlra.
    + apply (Q4 _ P) in H1, H2, H3, H4. clear - H1 H2 H3 H4. exfalso; qlra.
    + apply (Q2 _ P) in H1, H2, H3, H4. clear - H1 H2 H3 H4. repeat split; qlra.
  - intros (s & u & S1 & S2 & U1 & U2 & Ex & Ey). destruct (D s u Ex Ey) as (-> & -> & -> & ->).
    clear D Ex Ey. clearbody K. assert (T1 : (0 <= 1 - s)%Qc) by qlra. assert (T2 : (0 <= 1 - u)%Qc) by qlra.
    set (s' := (1 - s)%Qc) in *. set (u' := (1 - u)%Qc) in *. clearbody s' u'. clear S2 U2 HK.
    destruct (Qclt_le_dec K 0) as [L|L]; [right|left]; repeat split; qnra.
Qed.
Lemma c41_all : forall A B C D m ax ay bx by_ cx cy dx dy mx my,
  at_xy A ax ay -> at_xy B bx by_ -> at_xy C cx cy -> at_xy D dx dy -> at_xy m mx my ->
  (* any four corners: on the inner side of every edge *)
  (point_in_rectangle A B C D m = true <-> inside_edges ax ay bx by_ cx cy dx dy mx my) /\
  (* a parallelogram that is not degenerate *)
  (cx = (bx + dx - ax)%Qc -> cy = (by_ + dy - ay)%Qc -> cross ax ay bx by_ dx dy <> 0%Qc ->
     (point_in_rectangle A B C D m = true <-> in_parallelogram ax ay bx by_ dx dy mx my)) /\
  (* an axis-aligned rectangle, any starting corner, either direction *)
  ((bx = ax /\ by_ = cy /\ dx = cx /\ dy = ay) \/ (bx = cx /\ by_ = ay /\ dx = ax /\ dy = cy) ->
     ax <> cx -> ay <> cy ->
     (point_in_rectangle A B C D m = true <-> between ax cx mx /\ between ay cy my)).
Proof.
  intros A B C D m ax ay bx by_ cx cy dx dy mx my HA HB HC HD Hm.
  pose proof (in_rectangle_edges _ _ _ _ _ _ _ _ _ _ _ _ _ _ _ HA HB HC HD Hm) as E.
  split; [exact E|]. split.
  - intros E1 E2 HK. rewrite E. apply edges_parallelogram; assumption.
  - intros H Nx Ny. rewrite E.
    assert (Cx : (cx - ax <> 0)%Qc) by (intros K; apply Nx; apply Qcle_antisym; qlra).
    assert (Cy : (cy - ay <> 0)%Qc) by (intros K; apply Ny; apply Qcle_antisym; qlra).
    assert (BT : forall a c v, a <> c -> (between a c v <-> exists k, (0 <= k /\ k <= 1 /\ v = a + k * (c - a))%Qc)).
    { clear. intros a c v N. unfold between. split.
      - intros K. assert (Cc : (c - a <> 0)%Qc) by (intros Z; apply N; apply Qcle_antisym; qlra).
        exists ((v - a) / (c - a))%Qc.
        assert (V : (v = a + (v - a) / (c - a) * (c - a))%Qc) by (field; exact Cc).
        set (k := ((v - a) / (c - a))%Qc) in *. clearbody k.
        assert (P : (a < c \/ c < a)%Qc).
        { destruct (Qclt_le_dec a c); [auto|]. right. apply Qcnot_le_lt. intros L. apply N. apply Qcle_antisym; assumption. }
        clear N Cc. cut ((0 <= k /\ k <= 1)%Qc); [tauto|]. rewrite V in K. clear V v.
        destruct P as [P|P]; destruct K as [[K1 K2]|[K1 K2]]; try (exfalso; qlra); split; qnra.
      - intros (k & K1 & K2 & ->). destruct (Qclt_le_dec a c); [left|right]; split; qnra. }
    rewrite (BT ax cx mx Nx), (BT ay cy my Ny).
    destruct H as [(-> & -> & -> & ->)|(-> & -> & -> & ->)].
    + rewrite edges_parallelogram; [| ring | ring |].
      * unfold in_parallelogram. split.
        -- intros (s & u & S1 & S2 & U1 & U2 & -> & ->). split; [exists u|exists s]; repeat split; auto; ring.
        -- intros [(u & U1 & U2 & ->) (s & S1 & S2 & ->)]. exists s, u. repeat split; auto; ring.
      * unfold cross. intros K. assert (Z : ((cx - ax) * (cy - ay) = 0)%Qc) by (transitivity (- ((ax - ax) * (ay - ay) - (cy - ay) * (cx - ax)))%Qc; [ring|rewrite K; reflexivity]).
        apply Qcmult_integral in Z. tauto.
    + rewrite edges_parallelogram; [| ring | ring |].
      * unfold in_parallelogram. split.
        -- intros (s & u & S1 & S2 & U1 & U2 & -> & ->). split; [exists s|exists u]; repeat split; auto; ring.
        -- intros [(s & S1 & S2 & ->) (u & U1 & U2 & ->)]. exists s, u. repeat split; auto; ring.
      * unfold cross. intros K. assert (Z : ((cx - ax) * (cy - ay) = 0)%Qc) by (etransitivity; [|exact K]; ring).
        apply Qcmult_integral in Z. tauto.
Qed.

(** ** C40 *)
Lemma mk_point_geo G la lo : valid_loc Geodetic la ->
  exists p, mk_point G (Fin la) (Fin lo) MV MV Geodetic = Ok p /\ at_xy p lo la.
Proof. intros V. unfold mk_point. rewrite (convert_ok _ _ _ _ V). cbn. eexists. split; [reflexivity|]. split; reflexivity. Qed.
Lemma mk_point_inv G la lo p : mk_point G (Fin la) (Fin lo) MV MV Geodetic = Ok p -> at_xy p lo la.
Proof. unfold mk_point. intros H. apply bind_Ok in H as (z & _ & H). injection H as <-. split; reflexivity. Qed.
Lemma mk_point_cases G lat lon : (exists p, mk_point G lat lon MV MV Geodetic = Ok p) \/ mk_point G lat lon MV MV Geodetic = Throw InvalidArgument.
Proof.
  unfold mk_point. destruct (convert_cases G Geodetic lat lon) as [(la & lo & _ & _ & _ & E)|E]; rewrite E; [left|right; reflexivity].
  cbn. eauto.
Qed.
(** the direction examined in iteration it, and whether it stays inside the grid *)
Definition dir_ok (Y X nY nX dy dx : Z) : Prop := 0 <= Y + dy < nY /\ 0 <= X + dx < nX.
Section Loop.
Variables (G : geo) (t : ctype) (nY nX : Z) (lats lons : list (list Qc)) (g : grid).
Hypothesis HGr : is_grid G t nY nX lats lons g.
Variables (la lo : Qc) (Y X : Z).
Hypothesis HY : 0 <= Y < nY.
Hypothesis HX : 0 <= X < nX.
Let DY it := -1 + 2 * (if it <? 2 then 1 else 0).
Let DX it := -1 + 2 * (it mod 2).
Lemma dirs it : (DY it = 1 \/ DY it = -1) /\ (DX it = 1 \/ DX it = -1).
Proof. unfold DY, DX. pose proof (Z.mod_pos_bound it 2). destruct (it <? 2); lia. Qed.
Lemma dir_skip it : dir_ok Y X nY nX (DY it) (DX it) <->
  ((Y =? 0) && (DY it =? -1) = false /\ (Y =? nY - 1) && (DY it =? 1) = false /\
   (X =? 0) && (DX it =? -1) = false /\ (X =? nX - 1) && (DX it =? 1) = false)%bool.
Proof. pose proof (dirs it). unfold dir_ok. lia. Qed.
Let corner y x := a <- get2 (g_lats g) y x ;; o <- get2 (g_lons g) y x ;; mk_point G a o MV MV Geodetic.
Lemma corner_inv y x p : corner y x = Ok p -> exists a o, get2 lats y x = Ok a /\ get2 lons y x = Ok o /\ at_xy p o a.
Proof.
  unfold corner. destruct (grid_inv _ _ _ _ _ _ _ HGr) as (-> & -> & _). rewrite !get2_mapmap.
  destruct (get2 lats y x) as [a| | |]; cbn; try discriminate. destruct (get2 lons y x) as [o| | |]; cbn [bind]; try discriminate.
  intros H. apply mk_point_inv in H. eauto.
Qed.
Lemma corner_cases y x : 0 <= y < nY -> 0 <= x < nX -> (exists p, corner y x = Ok p) \/ corner y x = Throw InvalidArgument.
Proof.
  intros Hy Hx. unfold corner. destruct (grid_inv _ _ _ _ _ _ _ HGr) as (-> & -> & _).
  destruct (is_grid_rect _ _ _ _ _ _ _ HGr) as [R1 R2].
  destruct (rect_get2 _ _ _ y x R1 Hy Hx) as [a Ha]. destruct (rect_get2 _ _ _ y x R2 Hy Hx) as [o Ho].
  rewrite !get2_mapmap, Ha, Ho. cbn [bind]. apply mk_point_cases.
Qed.
Let all_valid := valid_loc Geodetic la /\ Forall (Forall (valid_loc Geodetic)) lats.
Lemma corner_throw y x : 0 <= y < nY -> 0 <= x < nX -> corner y x = Throw InvalidArgument -> ~ all_valid.
Proof.
  intros Hy Hx. unfold corner. destruct (grid_inv _ _ _ _ _ _ _ HGr) as (-> & -> & EX & HT & _).
  destruct (is_grid_rect _ _ _ _ _ _ _ HGr) as [R1 R2].
  destruct (rect_get2 _ _ _ y x R1 Hy Hx) as [a Ha]. destruct (rect_get2 _ _ _ y x R2 Hy Hx) as [o Ho].
  rewrite !get2_mapmap, Ha, Ho. cbn [bind]. intros E [_ V].
  destruct (mk_point_geo G a o) as (p & K & _); [|congruence].
  unfold get2 in Ha. apply bind_Ok in Ha as (r & Hr & Ha). rewrite Forall_forall in V.
  specialize (V r (znth_In _ _ _ Hr)). rewrite Forall_forall in V. apply V. eapply znth_In; eauto.
Qed.
Lemma in_cell_rect y x y' x' A B C D m : corner y x = Ok A -> corner y' x = Ok B -> corner y' x' = Ok C -> corner y x' = Ok D ->
  mk_point G (Fin la) (Fin lo) MV MV Geodetic = Ok m ->
  (point_in_rectangle A B C D m = true <-> in_cell lats lons y x y' x' la lo).
Proof.
  intros HA HB HC HD Hm. apply corner_inv in HA as (a1 & o1 & A1 & A2 & HA). apply corner_inv in HB as (a2 & o2 & B1 & B2 & HB).
  apply corner_inv in HC as (a3 & o3 & C1 & C2 & HC). apply corner_inv in HD as (a4 & o4 & D1 & D2 & HD). apply mk_point_inv in Hm.
  rewrite (in_rectangle_edges _ _ _ _ _ _ _ _ _ _ _ _ _ _ _ HA HB HC HD Hm). unfold in_cell. split.
  - intros H. exists a1, o1, a2, o2, a3, o3, a4, o4. repeat (split; [assumption|]). exact H.
  - intros (b1 & p1 & b2 & p2 & b3 & p3 & b4 & p4 & F1 & F2 & F3 & F4 & F5 & F6 & F7 & F8 & H). congruence.
Qed.
Lemma box_loop_spec its : 
  (exists it, In it its /\ dir_ok Y X nY nX (DY it) (DX it) /\ in_cell lats lons Y X (Y + DY it) (X + DX it) la lo /\
     box_loop G g (Fin la) (Fin lo) Y X nY nX its = Ok (Some (DY it, DX it))) \/
  ((forall it, In it its -> dir_ok Y X nY nX (DY it) (DX it) -> ~ in_cell lats lons Y X (Y + DY it) (X + DX it) la lo) /\
     box_loop G g (Fin la) (Fin lo) Y X nY nX its = Ok None) \/
  ~ all_valid /\ box_loop G g (Fin la) (Fin lo) Y X nY nX its = Throw InvalidArgument.
Proof.
  induction its as [|it its IH].
  - right; left. split; [intros it []|reflexivity].
  - cbn [box_loop]. fold (DX it). fold (DY it).
    pose proof (dir_skip it) as DS.
    assert (SKIP : ~ dir_ok Y X nY nX (DY it) (DX it) ->
      (exists it0, In it0 (it :: its) /\ dir_ok Y X nY nX (DY it0) (DX it0) /\ in_cell lats lons Y X (Y + DY it0) (X + DX it0) la lo /\
         box_loop G g (Fin la) (Fin lo) Y X nY nX its = Ok (Some (DY it0, DX it0))) \/
      ((forall it0, In it0 (it :: its) -> dir_ok Y X nY nX (DY it0) (DX it0) -> ~ in_cell lats lons Y X (Y + DY it0) (X + DX it0) la lo) /\
         box_loop G g (Fin la) (Fin lo) Y X nY nX its = Ok None) \/
      ~ all_valid /\ box_loop G g (Fin la) (Fin lo) Y X nY nX its = Throw InvalidArgument).
    { intros ND. destruct IH as [(i & Hi & H)|[[H1 H2]|H]].
      - left. exists i. split; [right; exact Hi|exact H].
      - right; left. split; [|exact H2]. intros i [<-|Hi] Hd; [contradiction|]. apply H1; assumption.
      - right; right. exact H. }
    destruct ((Y =? 0) && (DY it =? -1))%bool eqn:B1; [apply SKIP; intros ND; apply DS in ND; intuition congruence|].
    destruct ((Y =? nY - 1) && (DY it =? 1))%bool eqn:B2; [apply SKIP; intros ND; apply DS in ND; intuition congruence|].
    destruct ((X =? 0) && (DX it =? -1))%bool eqn:B3; [apply SKIP; intros ND; apply DS in ND; intuition congruence|].
    destruct ((X =? nX - 1) && (DX it =? 1))%bool eqn:B4; [apply SKIP; intros ND; apply DS in ND; intuition congruence|].
    assert (OK : dir_ok Y X nY nX (DY it) (DX it)) by (apply DS; auto). clear SKIP DS B1 B2 B3 B4.
    destruct OK as [OY OX].
    change (a <- get2 (g_lats g) Y X ;; o <- get2 (g_lons g) Y X ;; mk_point G a o MV MV Geodetic) with (corner Y X).
    change (a <- get2 (g_lats g) (Y + DY it) X ;; o <- get2 (g_lons g) (Y + DY it) X ;; mk_point G a o MV MV Geodetic) with (corner (Y + DY it) X).
    change (a <- get2 (g_lats g) (Y + DY it) (X + DX it) ;; o <- get2 (g_lons g) (Y + DY it) (X + DX it) ;; mk_point G a o MV MV Geodetic) with (corner (Y + DY it) (X + DX it)).
    change (a <- get2 (g_lats g) Y (X + DX it) ;; o <- get2 (g_lons g) Y (X + DX it) ;; mk_point G a o MV MV Geodetic) with (corner Y (X + DX it)).
    assert (TC : forall y x, 0 <= y < nY -> 0 <= x < nX -> (exists p, corner y x = Ok p) \/
       (~ all_valid /\ corner y x = Throw InvalidArgument)).
    { intros y x Ry Rx. destruct (corner_cases y x Ry Rx) as [Hc|Hc]; [left; exact Hc|]. right.
      split; [|exact Hc]. eapply corner_throw; eauto. }
    destruct (TC Y X HY HX) as [(A & HA)|[K HA]]; rewrite HA; cbn [bind]; [|right; right; auto].
    destruct (TC (Y + DY it) X OY HX) as [(B & HB)|[K HB]]; rewrite HB; cbn [bind]; [|right; right; auto].
    destruct (TC (Y + DY it) (X + DX it) OY OX) as [(C & HC)|[K HC]]; rewrite HC; cbn [bind]; [|right; right; auto].
    destruct (TC Y (X + DX it) HY OX) as [(D & HD)|[K HD]]; rewrite HD; cbn [bind]; [|right; right; auto].
    destruct (mk_point_cases G (Fin la) (Fin lo)) as [(m & Hm)|Hm]; rewrite Hm; cbn [bind].
    2:{ right; right. split; [|reflexivity]. intros [V _]. destruct (mk_point_geo G la lo V) as (p & E & _). congruence. }
    pose proof (in_cell_rect _ _ _ _ _ _ _ _ _ HA HB HC HD Hm) as IC.
    destruct (point_in_rectangle A B C D m).
    + left. exists it. split; [left; reflexivity|]. split; [split; assumption|]. split; [apply IC; reflexivity|reflexivity].
    + destruct IH as [(i & Hi & H)|[[H1 H2]|H]].
      * left. exists i. split; [right; exact Hi|exact H].
      * right; left. split; [|exact H2]. intros i [<-|Hi] Hd; [|apply H1; assumption]. intros K. apply IC in K. discriminate.
      * right; right. exact H.
Qed.
End Loop.
Lemma geodetic_valid G nY nX lats lons g : is_grid G Geodetic nY nX lats lons g -> Forall (Forall (valid_loc Geodetic)) lats.
Proof.
  intros H. destruct (grid_inv _ _ _ _ _ _ _ H) as (_ & _ & _ & HT & _). destruct (is_grid_rect _ _ _ _ _ _ _ H) as [R1 _].
  apply mk_tree_inv in HT as (_ & _ & _ & _ & HT). apply Forall_forall. intros r Hr. apply Forall_forall. intros a Ha.
  assert (In a (concat lats)) as Hi by (apply in_concat; eauto). apply In_znth in Hi as [i Hi].
  destruct (HT i) as (a' & o' & E1 & _ & V & _). { rewrite zlen_map. eapply znth_range; eauto. }
  rewrite znth_map, Hi in E1. injection E1 as <-. exact V.
Qed.
Lemma c40_all : forall G t nY nX lats lons g la lo, geo_ok G -> is_grid G t nY nX lats lons g -> valid_loc t la ->
  exists y x, grid_nearest G g (Fin la) (Fin lo) true = Ok (Some (y, x)) /\ 0 <= y < nY /\ 0 <= x < nX /\
  closest (grid_at' G t lats lons) (position G t la lo) true (y, x) /\
  ((nY = 1 \/ nX = 1) -> get_box G g (Fin la) (Fin lo) = Ok None) /\
  (forall Y1 X1 Y2 X2, get_box G g (Fin la) (Fin lo) = Ok (Some (Y1, X1, Y2, X2)) ->
     0 <= Y1 /\ Y2 = Y1 + 1 /\ Y2 < nY /\ 0 <= X1 /\ X2 = X1 + 1 /\ X2 < nX /\
     (y = Y1 \/ y = Y2) /\ (x = X1 \/ x = X2) /\ in_cell lats lons y x (Y1 + Y2 - y) (X1 + X2 - x) la lo) /\
  (get_box G g (Fin la) (Fin lo) = Ok None -> 1 < nY -> 1 < nX ->
     forall y' x', (y' = y - 1 \/ y' = y + 1) -> (x' = x - 1 \/ x' = x + 1) -> 0 <= y' < nY -> 0 <= x' < nX ->
     ~ in_cell lats lons y x y' x' la lo) /\
  (t = Geodetic -> exists b, get_box G g (Fin la) (Fin lo) = Ok b) /\
  ((exists b, get_box G g (Fin la) (Fin lo) = Ok b) \/ get_box G g (Fin la) (Fin lo) = Throw InvalidArgument).
Proof.
  intros G t nY nX lats lons g la lo HG H HV. destruct (is_grid_pos _ _ _ _ _ _ _ H) as [PY PX].
  destruct (grid_nearest_some G t nY nX lats lons g la lo HG H HV) as (y & x & Hn & Hy & Hx & HC).
  exists y, x. split; [exact Hn|]. split; [exact Hy|]. split; [exact Hx|]. split; [exact HC|].
  unfold get_box. rewrite Hn. cbn [bind]. rewrite (grid_size_ok _ _ _ _ _ _ _ H). cbn [bind].
  destruct ((nX <=? 1) || (nY <=? 1))%bool eqn:E.
  - split; [reflexivity|]. split; [discriminate|]. split; [lia|]. split; eauto.
  - split; [lia|].
    pose proof (box_loop_spec G t nY nX lats lons g H la lo y x Hy Hx [0; 1; 2; 3]) as L.
    set (bl := box_loop G g (Fin la) (Fin lo) y x nY nX [0; 1; 2; 3]) in *. clearbody bl.
    destruct L as [(it & Hi & Hd & HI & ->)|[[HI ->]|[Ht ->]]]; cbn [bind].
    + split; [|split; [|split; eauto]].
      2,3: destruct (_ =? 1), (_ =? 1); cbn; try discriminate; eauto.
      * intros Y1 X1 Y2 X2 K.
        set (dy := -1 + 2 * (if it <? 2 then 1 else 0)) in *. set (dx := -1 + 2 * (it mod 2)) in *.
        destruct (dirs it) as [Ey Ex]. fold dy in Ey. fold dx in Ex. destruct Hd as [Dy Dx].
        assert (EE : Y1 + Y2 - y = y + dy /\ X1 + X2 - x = x + dx /\ (0 <= Y1 /\ Y2 = Y1 + 1 /\ Y2 < nY /\ 0 <= X1 /\ X2 = X1 + 1 /\ X2 < nX /\
           (y = Y1 \/ y = Y2) /\ (x = X1 \/ x = X2))).
        { clearbody dy dx. destruct Ey as [-> | ->], Ex as [-> | ->]; cbn in K; injection K as <- <- <- <-; lia. }
        destruct EE as (-> & -> & EE). tauto.
      * left. destruct (_ =? 1), (_ =? 1); cbn; eauto.
    + split; [discriminate|]. split; [|split; eauto]. intros _ _ _ y' x' Ey' Ex' Ry Rx K.
      assert (D : exists it, In it [0; 1; 2; 3] /\ y + (-1 + 2 * (if it <? 2 then 1 else 0)) = y' /\ x + (-1 + 2 * (it mod 2)) = x').
      { destruct Ey' as [-> | ->], Ex' as [-> | ->].
        - exists 2. split; [cbn; tauto|]. change (2 <? 2) with false. change (2 mod 2) with 0. cbv iota. lia.
        - exists 3. split; [cbn; tauto|]. change (3 <? 2) with false. change (3 mod 2) with 1. cbv iota. lia.
        - exists 0. split; [cbn; tauto|]. change (0 <? 2) with true. change (0 mod 2) with 0. cbv iota. lia.
        - exists 1. split; [cbn; tauto|]. change (1 <? 2) with true. change (1 mod 2) with 1. cbv iota. lia. }
      destruct D as (it & Hi & <- & <-). apply (HI it Hi); [split; assumption|exact K].
    + split; [discriminate|]. split; [discriminate|]. split; [|right; reflexivity].
      intros ->. exfalso. apply Ht. split; [exact HV|]. eapply geodetic_valid; eauto.
Qed.
(** ** C68 *)
Lemma c68_refuted : exists g, is_grid G0 Cartesian 2 2 [[qz 1000; qz 1000]; [qz 2000; qz 2000]] [[qz 0; qz 1000]; [qz 0; qz 1000]] g /\
  get_box G0 g (fz 1500) (fz 500) = Throw InvalidArgument.
Proof.
  eexists. split.
  - split; [lia|]. split; [lia|].
    split; [split; [reflexivity|cbn; intuition (subst; reflexivity)]|]. split; [split; [reflexivity|cbn; intuition (subst; reflexivity)]|].
    exists [], []. split; [auto|]. split; [auto|]. cbn. reflexivity.
  - vm_compute. reflexivity.
Qed.
Lemma c68_partial : forall G t nY nX lats lons g la lo, geo_ok G -> is_grid G t nY nX lats lons g -> valid_loc t la ->
  (* Geodetic, or Cartesian with all coordinates that would be accepted as latitudes *)
  (t = Geodetic \/ (valid_loc Geodetic la /\ Forall (Forall (valid_loc Geodetic)) lats)) ->
  exists b, get_box G g (Fin la) (Fin lo) = Ok b.
Proof.
  intros G t nY nX lats lons g la lo HG H HV HA. destruct (is_grid_pos _ _ _ _ _ _ _ H) as [PY PX].
  assert (AV : valid_loc Geodetic la /\ Forall (Forall (valid_loc Geodetic)) lats).
  { destruct HA as [-> |HA]; [|exact HA]. split; [exact HV|]. eapply geodetic_valid; eauto. }
  destruct (grid_nearest_some G t nY nX lats lons g la lo HG H HV) as (y & x & Hn & Hy & Hx & HC).
  unfold get_box. rewrite Hn. cbn [bind]. rewrite (grid_size_ok _ _ _ _ _ _ _ H). cbn [bind].
  destruct ((nX <=? 1) || (nY <=? 1))%bool; [eauto|].
  destruct (box_loop_spec G t nY nX lats lons g H la lo y x Hy Hx [0; 1; 2; 3]) as [(it & _ & _ & _ & ->)|[[_ ->]|[Ht _]]]; [| |contradiction]; cbn [bind].
  - destruct (_ =? 1), (_ =? 1); cbn; eauto.
  - eauto.
Qed.
