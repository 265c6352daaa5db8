(** C56 and C75-C78: cross validation, vector forms, linear, copies and multiple structures. *)
From Verif Require Import Base ListLib RBase P_RBase M_Geo S_Geo M_Struct S_Struct P_Struct P_StructA P_StructB P_CGrad.
From Coq Require Import Lra Psatz.

(** ** C77: copies *)
Lemma mk_spatial_inv k g h v w m s : mk_spatial k g h v w m = Ok s ->
  exists b, s = SBase {| b_kind := k; b_grid := g; b_spatial := b; b_h := h; b_v := v; b_w := w; b_min := m |}.
Proof.
  unfold mk_spatial. destruct (is_1x1 h && is_1x1 v && is_1x1 w); [intros [= <-]; eauto|].
  destruct (grid_size g) as [[Y X]| | |]; cbn [bind]; try discriminate.
  destruct (_ || _ || _); [discriminate|].
  destruct (znth h 0) as [h0| | |]; cbn [bind]; try discriminate. destruct (negb _); [discriminate|].
  destruct (znth v 0) as [v0| | |]; cbn [bind]; try discriminate. destruct (negb _); [discriminate|].
  destruct (znth w 0) as [w0| | |]; cbn [bind]; try discriminate. destruct (negb _); [discriminate|].
  intros [= <-]; eauto.
Qed.
Lemma mk_base_inv k h v w m s : mk_base k h v w m = Ok s ->
  s = SBase {| b_kind := k; b_grid := empty_grid; b_spatial := false; b_h := [[h]]; b_v := [[v]]; b_w := [[w]]; b_min := min_rho_of k (v2r h) (v2r m) |}.
Proof. unfold mk_base. repeat (destruct (_ || _) || destruct (_ && _)); try discriminate. all: intros [= <-]; reflexivity. Qed.
Lemma mk_cressman_inv h v w s : mk_cressman h v w = Ok s -> s = SCressman h v w.
Proof. unfold mk_cressman. repeat (destruct (_ || _)); try discriminate. intros [= <-]; reflexivity. Qed.
Lemma clone_built s : built s -> clone s = Ok s.
Proof.
  induction 1 as [k h v w m s E|k g h v w m s E|h v w s E|h v w s Bh IHh Bv IHv Bw IHw E|t d s Bt IH E].
  - apply mk_base_inv in E as ->. reflexivity.
  - pose proof (mk_spatial_inv _ _ _ _ _ _ _ E) as (b & ->). cbn [clone b_kind b_grid b_h b_v b_w b_min]. exact E.
  - pose proof (mk_cressman_inv _ _ _ _ E) as ->. exact E.
  - unfold mk_multiple in E. cbn [clone] in E. rewrite IHh, IHv, IHw in E. cbn [bind] in E. injection E as <-.
    cbn [clone]. rewrite IHh, IHv, IHw. reflexivity.
  - unfold mk_cross in E. pose proof E as E'. cbn [clone] in E. destruct (_ || _); [discriminate|]. rewrite IH in E. cbn [bind] in E.
    injection E as <-. exact E'.
Qed.
Lemma mk_multiple_built h v w : built h -> built v -> built w -> mk_multiple h v w = Ok (SMultiple h v w).
Proof. intros H V W. unfold mk_multiple. cbn [clone]. rewrite !clone_built by auto. reflexivity. Qed.
Lemma mk_cross_built t q : built t -> (0 <= q)%Qc -> mk_cross t (Fin q) = Ok (SCross t (Fin q)).
Proof. intros H Q. unfold mk_cross. cbn [clone]. rewrite bad_ok by auto. rewrite clone_built by auto. reflexivity. Qed.
Lemma c77_all : forall s, built s ->
  exists s', clone s = Ok s' /\
  forall G p1 p2 ps, corr G s' p1 p2 = corr G s p1 p2 /\ corr_bg G s' p1 p2 = corr_bg G s p1 p2 /\
    corr_vec G s' p1 ps = corr_vec G s p1 ps /\ corr_bg_vec G s' p1 ps = corr_bg_vec G s p1 ps /\
    loc_dist G s' p1 = loc_dist G s p1.
Proof. intros s B. exists s. split; [apply clone_built; auto|]. auto. Qed.

(** ** C56 *)
Lemma corr_vec_len G s : forall p1 ps l, corr_vec G s p1 ps = Ok l -> zlen l = zlen ps.
Proof.
  destruct s; intros p1 ps l; cbn [corr_vec].
  - unfold corr_base_vec. destruct (b_spatial s).
    + intros H. apply bind_Ok in H as ([[h v] w] & _ & H). injection H as <-. apply zlen_map.
    + intros H. apply mapM_inv in H as (H & _). auto.
  - intros H. apply mapM_inv in H as (H & _). auto.
  - intros H. apply bind_Ok in H as (h & _ & H). apply bind_Ok in H as (v & _ & H). apply bind_Ok in H as (w & _ & H).
    apply mapM_inv in H as (H & _). rewrite H. pose proof (zlen_nonneg ps). rewrite zlen_zrange. lia.
  - intros H. apply mapM_inv in H as (H & _). auto.
Qed.
Lemma corr_bg_vec_len G s : forall p1 ps l, corr_bg_vec G s p1 ps = Ok l -> zlen l = zlen ps.
Proof.
  induction s; intros p1 ps l; cbn [corr_bg_vec]; try apply corr_vec_len.
  intros H. apply bind_Ok in H as (c & Hc & H). apply mapM_inv in H as (H & _). pose proof (zlen_nonneg c). rewrite H, zlen_zrange.
  apply IHs in Hc. lia.
Qed.
Lemma c56_all : forall (G : geo) s dist, built s ->
  (dist = NaN \/ dist = PInf \/ dist = NInf \/ (exists q, dist = Fin q /\ (q < 0)%Qc) -> mk_cross s dist = Throw InvalidArgument) /\
  forall q, dist = Fin q -> (0 <= q)%Qc ->
  exists c, mk_cross s dist = Ok c /\
  (forall p1 p2 d, apart p1 p2 d -> (d <= qr q)%R -> corr_bg G c p1 p2 = Ok (RF 0)) /\
  (forall p1 p2 d, apart p1 p2 d -> (qr q < d)%R -> corr_bg G c p1 p2 = corr_bg G s p1 p2) /\
  (forall p1 p2, corr G c p1 p2 = corr G s p1 p2) /\
  (forall p, loc_dist G c p = loc_dist G s p) /\
  (forall p1 ps l, corr_bg_vec G s p1 ps = Ok l -> exists l', corr_bg_vec G c p1 ps = Ok l' /\ zlen l' = zlen ps /\
     forall i p2 d, znth ps i = Ok p2 -> apart p1 p2 d ->
       ((d <= qr q)%R -> znth l' i = Ok (RF 0)) /\ ((qr q < d)%R -> znth l' i = znth l i)).
Proof.
  intros G s dist B. split.
  - intros [-> | [-> | [-> | (q & -> & Q)]]]; try reflexivity. unfold mk_cross. cbn [clone is_valid negb orb vltb fz].
    destruct (qltb_spec q (qz 0)) as [|N]; [reflexivity|]. exfalso. apply N. exact Q.
  - intros q -> Q. exists (SCross s (Fin q)). split; [apply mk_cross_built; auto|].
    split; [|split; [|split; [|split]]].
    + intros p1 p2 d A D. destruct (straight_apart _ _ _ A) as (E & _). cbn [corr_bg is_valid]. rewrite E. cbn [v2r]. rewrite rleb_t by auto. reflexivity.
    + intros p1 p2 d A D. destruct (straight_apart _ _ _ A) as (E & _). cbn [corr_bg is_valid]. rewrite E. cbn [v2r]. rewrite rleb_f by auto. reflexivity.
    + reflexivity.
    + reflexivity.
    + intros p1 ps l Hl. pose proof (corr_bg_vec_len _ _ _ _ _ Hl) as HL. cbn [corr_bg_vec]. rewrite Hl. cbn [bind is_valid].
      destruct (mapM_total (fun i => x <- znth l i ;; p <- znth ps i ;; Ok (if true && rleb (straight p1 p) (v2r (Fin q)) then rz 0 else x))
        (fun i x' => exists x p, znth l i = Ok x /\ znth ps i = Ok p /\ x' = (if rleb (straight p1 p) (RF (qr q)) then rz 0 else x)) (zrange 0 (zlen l))) as (l' & E & F).
      { intros i Hi. apply in_zrange in Hi. destruct (znth_some l i ltac:(lia)) as (x & Hx). destruct (znth_some ps i ltac:(lia)) as (p & Hp).
        rewrite Hx, Hp. cbn [bind andb v2r]. eexists. split; [reflexivity|]. exists x, p. auto. }
      exists l'. split; [exact E|]. apply mapM_inv in E as (EL & EZ). pose proof (zlen_nonneg l). rewrite zlen_zrange in EL.
      split; [lia|]. intros i p2 d Hp A. pose proof (znth_range _ _ _ Hp) as Ri.
      destruct (znth_some l i ltac:(lia)) as (x & Hx).
      assert (X : znth l' i = Ok (if rleb (straight p1 p2) (RF (qr q)) then rz 0 else x)).
      { destruct (znth_some l' i ltac:(lia)) as (x' & Hx'). destruct (EZ i i) as (b & Hb & Eb); [apply znth_zrange; lia|].
        rewrite Hb. rewrite Hx, Hp in Eb. cbn [bind andb v2r] in Eb. injection Eb as <-. reflexivity. }
      destruct (straight_apart _ _ _ A) as (E & _). rewrite E in X. split; intros D; rewrite X.
      * rewrite rleb_t by auto. reflexivity.
      * rewrite rleb_f by auto. auto.
Qed.

(** ** C75: vector forms *)
Lemma mapM_char {A B} (f : A -> res B) l r : mapM f l = Ok r <->
  zlen r = zlen l /\ forall i a, znth l i = Ok a -> exists b, znth r i = Ok b /\ f a = Ok b.
Proof.
  split; [apply mapM_inv|]. intros (L & H).
  destruct (mapM_total f (fun a b => True) l) as (r' & E & L' & H').
  { intros x Hx. apply In_nth_error in Hx as (n & Hn). assert (znth l (Z.of_nat n) = Ok x) as Hz.
    { destruct (znth_some l (Z.of_nat n)) as (y & Hy); [unfold zlen; assert (n < length l)%nat by (apply nth_error_Some; congruence); lia|].
      rewrite Hy. unfold znth in Hy. rewrite Nat2Z.id in Hy. rewrite Hn in Hy. destruct (Z.of_nat n <? 0); congruence. }
    destruct (H _ _ Hz) as (b & _ & Hb). eauto. }
  rewrite E. f_equal. apply znth_ext; [lia|]. intros i Hi. destruct (znth_some l i ltac:(lia)) as (a & Ha).
  destruct (H _ _ Ha) as (b & B1 & B2). destruct (H' _ _ Ha) as (b' & B1' & B2' & _). congruence.
Qed.
Lemma mapM3 {P A B C D} (f : P -> res A) (g : P -> res B) (k : P -> res C) (m : A -> B -> C -> D) ps l :
  mapM (fun p => a <- f p ;; b <- g p ;; c <- k p ;; Ok (m a b c)) ps = Ok l <->
  exists la lb lc, mapM f ps = Ok la /\ mapM g ps = Ok lb /\ mapM k ps = Ok lc /\
    mapM (fun i => a <- znth la i ;; b <- znth lb i ;; c <- znth lc i ;; Ok (m a b c)) (zrange 0 (zlen ps)) = Ok l.
Proof.
  pose proof (zlen_nonneg ps) as N. split.
  - intros H. apply mapM_char in H as (L & H).
    assert (R : forall p, In p ps -> exists a b c, f p = Ok a /\ g p = Ok b /\ k p = Ok c).
    { intros p Hp. apply In_nth_error in Hp as (n & Hn).
      destruct (znth_some ps (Z.of_nat n)) as (y & Hy); [unfold zlen; assert (n < length ps)%nat by (apply nth_error_Some; congruence); lia|].
      assert (y = p) as ->. { unfold znth in Hy. rewrite Nat2Z.id, Hn in Hy. destruct (Z.of_nat n <? 0); congruence. }
      destruct (H _ _ Hy) as (d & _ & E). apply bind_Ok in E as (a & Ea & E). apply bind_Ok in E as (b & Eb & E). apply bind_Ok in E as (c & Ec & E). eauto 8. }
    destruct (mapM_total f (fun _ _ => True) ps) as (la & Ea & La & Ha). { intros p Hp. destruct (R p Hp) as (a & b & c & ? & ? & ?). eauto. }
    destruct (mapM_total g (fun _ _ => True) ps) as (lb & Eb & Lb & Hb). { intros p Hp. destruct (R p Hp) as (a & b & c & ? & ? & ?). eauto. }
    destruct (mapM_total k (fun _ _ => True) ps) as (lc & Ec & Lc & Hc). { intros p Hp. destruct (R p Hp) as (a & b & c & ? & ? & ?). eauto. }
    exists la, lb, lc. repeat (split; [assumption|]). apply mapM_char. rewrite zlen_zrange. split; [lia|].
    intros i j Hj. pose proof (znth_range _ _ _ Hj) as Rj. rewrite zlen_zrange in Rj. rewrite znth_zrange in Hj by lia. injection Hj as <-.
    destruct (znth_some ps i ltac:(lia)) as (p & Hp). destruct (H _ _ Hp) as (d & Hd & E).
    destruct (Ha _ _ Hp) as (a & A1 & A2 & _). destruct (Hb _ _ Hp) as (b & B1 & B2 & _). destruct (Hc _ _ Hp) as (c & C1 & C2 & _).
    rewrite A2, B2, C2 in E. exists d. split; [auto|]. change (0 + i) with i. rewrite A1, B1, C1. exact E.
  - intros (la & lb & lc & Ea & Eb & Ec & E). apply mapM_inv in Ea as (La & Ha), Eb as (Lb & Hb), Ec as (Lc & Hc), E as (L & H).
    rewrite zlen_zrange in L. apply mapM_char. split; [lia|]. intros i p Hp. pose proof (znth_range _ _ _ Hp) as Ri.
    destruct (Ha _ _ Hp) as (a & A1 & A2). destruct (Hb _ _ Hp) as (b & B1 & B2). destruct (Hc _ _ Hp) as (c & C1 & C2).
    rewrite A2, B2, C2. destruct (H i i) as (d & D1 & D2); [rewrite znth_zrange by lia; f_equal; lia|]. rewrite A1, B1, C1 in D2. eauto.
Qed.
Lemma place_apart p q : has_place p -> has_place q -> exists d, apart p q d.
Proof. intros (x & y & z & A) (x' & y' & z' & B). eexists. exists x, y, z, x', y', z'. eauto. Qed.
Lemma loc_solid k m h : (0 < m < 1)%R -> exists L, loc_h k (RF m) (RF h) = RF L.
Proof.
  intros M. assert (ln m < 0)%R by (rewrite <- ln_1; apply ln_increasing; lra).
  destruct k; [|eexists; apply loc_h_st; auto|eexists; apply loc_h_st; auto| |eexists; reflexivity]; unfold loc_h, rz.
  - rewrite rlog_RF by lra. cbn [rmul]. rewrite rsqrt_RF by lra. eexists; reflexivity.
  - unfold rsub. cbn [rneg radd rmul]. rewrite rdiv_RF by lra. rewrite rsqrt_RF; [eexists; reflexivity|].
    apply Rmult_le_pos; [lra|left; apply Rinv_0_lt_compat; lra].
Qed.
Lemma scales_inv G b p h v w : scales G b p = Ok (h, v, w) -> exists i j x, get2 (b_h b) i j = Ok x /\ h = v2r x.
Proof.
  unfold scales. intros H. apply bind_Ok in H as (c & _ & H). destruct (zlen (b_h b) <? fst c); [discriminate|].
  apply bind_Ok in H as (row & _ & H). destruct (zlen row <? snd c); [discriminate|].
  apply bind_Ok in H as (x & Hx & H). apply bind_Ok in H as (y & _ & H). apply bind_Ok in H as (z & _ & H). injection H as <- <- <-. eauto.
Qed.
Lemma with_place_has p1 p : has_place p -> has_place (with_place p1 p). Proof. exact (fun H => H). Qed.
Lemma with_elev_has p1 p : has_place p1 -> has_place (with_elev p1 p). Proof. exact (fun H => H). Qed.
Lemma with_laf_has p1 p : has_place p1 -> has_place (with_laf p1 p). Proof. exact (fun H => H). Qed.
Lemma Forall_map_has (f : point -> point) ps : (forall p, has_place p -> has_place (f p)) -> Forall has_place ps -> Forall has_place (map f ps).
Proof. intros H F. apply Forall_map. eapply Forall_impl; [|exact F]. auto. Qed.
Lemma base_vec_one G b p1 h v w p : solid (SBase b) -> b_spatial b = true -> has_place p1 -> has_place p -> scales G b p1 = Ok (h, v, w) ->
  corr_base G b p1 p = Ok (let hdist := straight p1 p in if rleb hdist (loc_h (b_kind b) (b_min b) h) then product (rho (b_kind b)) hdist p1 p h v w else rz 0).
Proof.
  intros S B P1 P E. destruct (S B) as (Fh & m & Em & Rm). destruct (scales_inv _ _ _ _ _ _ E) as (i & j & x & Hx & ->).
  destruct (Fh _ _ _ Hx) as (q & ->). unfold corr_base. rewrite B, E. cbn [bind]. cbn [v2r].
  destruct (place_apart _ _ P1 P) as (d & A). destruct (straight_apart _ _ _ A) as (Sd & _). rewrite Sd, Em.
  destruct (loc_solid (b_kind b) m (qr q) Rm) as (L & ->). cbn [rltb].
  destruct (Rlt_dec L d) as [D|D].
  - rewrite Rltb_t, rleb_f by auto. reflexivity.
  - rewrite Rltb_f, rleb_t by lra. reflexivity.
Qed.
Lemma vec_scalar G s : solid s -> forall p1 ps, has_place p1 -> Forall has_place ps -> forall l,
  (corr_vec G s p1 ps = Ok l -> mapM (corr G s p1) ps = Ok l) /\ (ps <> [] -> mapM (corr G s p1) ps = Ok l -> corr_vec G s p1 ps = Ok l).
Proof.
  induction s as [b|h v w|sh IHh sv IHv sw IHw|t IH d]; intros S p1 ps P1 PS l; cbn [corr_vec corr].
  - unfold corr_base_vec. destruct (b_spatial b) eqn:B; [|split; [|intros _]; intros H; exact H].
    split.
    + intros H. apply bind_Ok in H as ([[h v] w] & E & H). injection H as <-.
      apply mapM_ok. intros p Hp. apply base_vec_one; auto. rewrite Forall_forall in PS. auto.
    + intros NE H. assert (exists h v w, scales G b p1 = Ok (h, v, w)) as (h & v & w & E).
      { destruct ps as [|p ps]; [congruence|]. cbn [mapM] in H. apply bind_Ok in H as (c & Hc & _). unfold corr_base in Hc. rewrite B in Hc.
        apply bind_Ok in Hc as ([[h v] w] & E & _). eauto. }
      rewrite E. cbn [bind]. rewrite <- H. symmetry. apply mapM_ok. intros p Hp. apply base_vec_one; auto. rewrite Forall_forall in PS. auto.
  - split; auto.
  - destruct S as (Sh & Sv & Sw).
    pose proof (IHh Sh p1 (map (with_place p1) ps) P1 (Forall_map_has _ _ (with_place_has p1) PS)) as Ah.
    pose proof (IHv Sv p1 (map (with_elev p1) ps) P1 (Forall_map_has _ _ (fun p _ => with_elev_has p1 p P1) PS)) as Av.
    pose proof (IHw Sw p1 (map (with_laf p1) ps) P1 (Forall_map_has _ _ (fun p _ => with_laf_has p1 p P1) PS)) as Aw.
    split.
    + intros H. apply bind_Ok in H as (lh & Hh & H). apply bind_Ok in H as (lv & Hv & H). apply bind_Ok in H as (lw & Hw & H).
      apply Ah in Hh. apply Av in Hv. apply Aw in Hw. rewrite mapM_map in Hh, Hv, Hw.
      apply (mapM3 (fun p => corr G sh p1 (with_place p1 p)) (fun p => corr G sv p1 (with_elev p1 p)) (fun p => corr G sw p1 (with_laf p1 p)) (fun a b c => rmul (rmul a b) c)).
      exists lh, lv, lw. auto.
    + intros NE H.
      apply (mapM3 (fun p => corr G sh p1 (with_place p1 p)) (fun p => corr G sv p1 (with_elev p1 p)) (fun p => corr G sw p1 (with_laf p1 p)) (fun a b c => rmul (rmul a b) c)) in H.
      destruct H as (lh & lv & lw & Hh & Hv & Hw & H). assert (MN : forall f : point -> point, map f ps <> []) by (intros f; destruct ps; [congruence|discriminate]).
      rewrite (proj2 (Ah lh)), (proj2 (Av lv)), (proj2 (Aw lw)) by (auto; rewrite mapM_map; auto). exact H.
  - split; [|intros _]; intros H; exact H.
Qed.
Lemma vec_scalar_bg G s : solid s -> forall p1 ps, has_place p1 -> Forall has_place ps -> forall l,
  corr_bg_vec G s p1 ps = Ok l -> mapM (corr_bg G s p1) ps = Ok l.
Proof.
  induction s as [b|h v w|sh _ sv _ sw _|t IH d]; intros S p1 ps P1 PS l; try exact (proj1 (vec_scalar G _ S p1 ps P1 PS l)).
  cbn [corr_bg_vec]. intros H. apply bind_Ok in H as (c & Hc & H). pose proof (corr_bg_vec_len _ _ _ _ _ Hc) as HL.
  apply (IH S) in Hc; auto. apply mapM_inv in Hc as (_ & HC), H as (L & H). pose proof (zlen_nonneg c). rewrite zlen_zrange in L.
  apply mapM_char. split; [lia|]. intros i p Hp. pose proof (znth_range _ _ _ Hp). destruct (HC _ _ Hp) as (x & X1 & X2).
  destruct (H i i) as (y & Y1 & Y2); [rewrite znth_zrange by lia; f_equal; lia|]. rewrite X1, Hp in Y2. cbn [bind] in Y2. exists y. split; [auto|].
  cbn [corr_bg]. destruct (is_valid d && rleb (straight p1 p) (v2r d)); [auto|congruence].
Qed.
Lemma c75_partial : forall (G : geo) s p1 ps, built s -> solid s -> has_place p1 -> Forall has_place ps -> ps <> [] ->
  (forall l, corr_vec G s p1 ps = Ok l <-> mapM (corr G s p1) ps = Ok l) /\
  (forall l, corr_bg_vec G s p1 ps = Ok l -> mapM (corr_bg G s p1) ps = Ok l).
Proof.
  intros G s p1 ps _ S P1 PS NE. split; [|intros l; apply vec_scalar_bg; auto].
  intros l. destruct (vec_scalar G s S p1 ps P1 PS l) as (A & B). split; auto.
Qed.
(** a missing scale: the single form takes the correlation as 1, the vector form as 0 *)
Lemma c75_refuted : exists g S p q, is_grid G0 Cartesian 1 2 [[qz 0; qz 0]] [[qz 0; qz 10]] g /\
  mk_spatial Barnes g [[NaN; fz 1]] [[fz 0; fz 0]] [[fz 0; fz 0]] default_min_rho = Ok S /\
  mk_point G0 (fz 0) (fz 0) MV MV Cartesian = Ok p /\ mk_point G0 (fz 0) (fz 1) MV MV Cartesian = Ok q /\
  corr G0 S p q = Ok (RF 1) /\ corr_vec G0 S p [q] = Ok [RF 0].
Proof.
  destruct (mk_grid G0 (mFin [[qz 0; qz 0]]) (mFin [[qz 0; qz 10]]) [] [] Cartesian) as [g| | |] eqn:Eg; try (vm_compute in Eg; discriminate).
  assert (RE : forall a b : Qc, rect 1 2 [[a; b]]). { intros a b. split; [reflexivity|]. intros r [<-|[]]. reflexivity. }
  exists g. eexists. eexists. eexists. split. { repeat (split; [lia|]). split; [apply RE|]. split; [apply RE|]. exists [], []. auto. }
  assert (SZ : grid_size g = Ok (1, 2)). { vm_compute in Eg. injection Eg as <-. vm_compute. reflexivity. }
  split. { unfold mk_spatial. cbn [is_1x1]. change (zlen [NaN; fz 1] =? 1) with false. cbn [andb]. rewrite SZ. reflexivity. }
  split; [reflexivity|]. split; [reflexivity|].
  set (b := {| b_kind := Barnes; b_grid := g; b_spatial := true; b_h := [[NaN; fz 1]]; b_v := [[fz 0; fz 0]]; b_w := [[fz 0; fz 0]]; b_min := default_min_rho |}).
  match goal with |- corr G0 _ ?a ?c = _ /\ _ => set (p := a); set (q := c) end.
  assert (SC : scales G0 b p = Ok (RNaN, RF (qr (qz 0)), RF (qr (qz 0)))).
  { unfold scales. assert (scale_index G0 b p = Ok (0, 0)) as ->. { unfold scale_index, b. cbn [b_grid]. vm_compute in Eg. injection Eg as <-. vm_compute. reflexivity. }
    reflexivity. }
  assert (A : exists d, apart p q d). { apply place_apart; do 3 eexists; repeat split; reflexivity. }
  destruct A as (d & A). destruct (straight_apart _ _ _ A) as (E & _).
  cbn [corr corr_vec]. unfold corr_base, corr_base_vec. fold b. change (b_spatial b) with true. rewrite SC. cbn [bind]. rewrite E.
  assert (LN : loc_h (b_kind b) (b_min b) RNaN = RNaN). { cbn [b b_kind b_min loc_h]. destruct (rsqrt _); reflexivity. }
  rewrite LN. cbn [rltb map]. split; [reflexivity|]. rewrite E. reflexivity.
Qed.

(** ** C76: LinearStructure *)
Lemma linear_RF x m : (0 <= m)%R -> linear_rho (RF x) (RF m) = RF (1 - (1 - m) * Rmin (Rabs x) 1).
Proof.
  intros M. unfold linear_rho, rz. cbn [r_valid negb orb rltb rabs]. rewrite Rltb_f by auto.
  unfold Rmin. destruct (Rle_dec (Rabs x) 1) as [D|D].
  - rewrite Rltb_f by auto. reflexivity.
  - rewrite Rltb_t by lra. reflexivity.
Qed.
Lemma times_linear r x y m : (0 <= m)%R -> times_factor linear_rho (RF r) x y (RF m) = RF (r * lin m (diff x y)).
Proof.
  intros M. unfold times_factor. destruct (is_valid x && is_valid y) eqn:V.
  - destruct (vsub_diff _ _ V) as (e & E1 & E2). rewrite E1, E2, linear_RF by auto. reflexivity.
  - rewrite (diff_none _ _ V). cbn. f_equal. ring.
Qed.
Lemma corr_linear G h v w hmax d p q : (0 <= h)%Qc -> (0 <= v)%Qc -> (0 <= w)%Qc -> apart p q d ->
  corr G (base_of Linear h v w hmax) p q =
  Ok (RF (if Rlt_dec 0 d then 0 else lin (qr v) (diff (p_elev p) (p_elev q)) * lin (qr w) (diff (p_laf p) (p_laf q)))).
Proof.
  intros H V W A. destruct (straight_apart _ _ _ A) as (S & D0).
  cbn [corr base_of]. unfold corr_base, loc_base. cbn [b_spatial b_h b_v b_w b_kind b_min].
  change (get2 [[Fin h]] 0 0) with (Ok (Fin h)). change (get2 [[Fin v]] 0 0) with (Ok (Fin v)). change (get2 [[Fin w]] 0 0) with (Ok (Fin w)).
  cbn [bind v2r loc_h]. rewrite S. unfold rz at 1. cbn [rltb]. destruct (Rlt_dec 0 d) as [D|D].
  - rewrite Rltb_t by auto. reflexivity.
  - rewrite Rltb_f by lra. assert (d = 0%R) as -> by lra. unfold product. cbn [rho].
    rewrite linear_RF by (apply qr_nonneg; auto). rewrite Rabs_R0. replace (1 - (1 - qr h) * Rmin 0 1)%R with 1%R.
    2:{ unfold Rmin. destruct (Rle_dec 0 1); [ring|lra]. }
    rewrite !times_linear by (apply qr_nonneg; auto). do 2 f_equal. ring.
Qed.
Lemma lin_bounds m o : (0 <= m <= 1)%R -> (m <= lin m o <= 1)%R.
Proof.
  intros M. destruct o; cbn; [|lra]. pose proof (Rabs_pos r). unfold Rmin. destruct (Rle_dec (Rabs r) 1); nra.
Qed.
Lemma lin_sym m x y : lin m (diff x y) = lin m (diff y x).
Proof. destruct x, y; cbn; auto. rewrite Rabs_minus_sym. reflexivity. Qed.
Lemma c76_refuted :
  (exists S p q, mk_base Linear (Fin (Q2Qc (1 # 2))) (fz 1) (fz 1) MV = Ok S /\ apart p q 1 /\ forall G, corr G S p q = Ok (RF 0)) /\
  (exists S p q, mk_base Linear (fz 1) (fz 0) (fz 1) MV = Ok S /\ apart p q 0 /\
     diff (p_elev p) (p_elev q) = Some 1%R /\ forall G, corr G S p q = Ok (RF 0)).
Proof.
  assert (H2 : (0 <= Q2Qc (1 # 2))%Qc) by (vm_compute; discriminate).
  split.
  - set (p := {| p_lat := fz 0; p_lon := fz 0; p_elev := MV; p_laf := MV; p_type := Cartesian; p_x := fz 0; p_y := fz 0; p_z := fz 0 |}).
    set (q := {| p_lat := fz 0; p_lon := fz 1; p_elev := MV; p_laf := MV; p_type := Cartesian; p_x := fz 1; p_y := fz 0; p_z := fz 0 |}).
    assert (A : apart p q 1).
    { exists (qz 0), (qz 0), (qz 0), (qz 1), (qz 0), (qz 0). split; [repeat split|]. split; [repeat split|]. rewrite !qr_z.
      replace ((0 - 1) ^ 2 + (0 - 0) ^ 2 + (0 - 0) ^ 2)%R with 1%R by ring. symmetry. apply sqrt_1. }
    exists (base_of Linear (Q2Qc (1 # 2)) (qz 1) (qz 1) MV), p, q.
    split; [apply mk_base_ok; auto; try (apply qz_nonneg; lia); left; auto|]. split; [exact A|].
    intros G. rewrite (corr_linear G _ _ _ _ _ _ _ H2 (qz_nonneg 1 ltac:(lia)) (qz_nonneg 1 ltac:(lia)) A). destruct (Rlt_dec 0 1); [reflexivity|lra].
  - exists (base_of Linear (qz 1) (qz 0) (qz 1) MV), (origin (fz 1)), (origin (fz 0)).
    split; [apply mk_base_ok; try (apply qz_nonneg; lia); left; auto|]. split; [apply origin_apart|].
    assert (E : diff (p_elev (origin (fz 1))) (p_elev (origin (fz 0))) = Some 1%R). { cbn [origin p_elev fz diff]. rewrite !qr_z. f_equal. ring. }
    split; [exact E|]. intros G.
    rewrite (corr_linear G _ _ _ _ _ _ _ (qz_nonneg 1 ltac:(lia)) (qz_nonneg 0 ltac:(lia)) (qz_nonneg 1 ltac:(lia)) (origin_apart _ _)).
    destruct (Rlt_dec 0 0); [lra|]. rewrite E. cbn [origin p_laf MV diff lin]. rewrite qr_z, Rabs_R1. do 2 f_equal. unfold Rmin. destruct (Rle_dec 1 1); [ring|lra].
Qed.
Lemma c76_partial : forall (G : geo) h v w hmax, (0 <= h <= 1)%Qc -> (0 <= v <= 1)%Qc -> (0 <= w <= 1)%Qc -> cutoff_ok hmax ->
  exists S, mk_base Linear (Fin h) (Fin v) (Fin w) hmax = Ok S /\
  (forall p q d, apart p q d -> (0 < d)%R -> corr G S p q = Ok (RF 0)) /\
  (forall p q, apart p q 0 ->
     corr G S p q = Ok (RF (lin (qr v) (diff (p_elev p) (p_elev q)) * lin (qr w) (diff (p_laf p) (p_laf q)))) /\
     exists c, corr G S p q = Ok (RF c) /\ corr G S q p = Ok (RF c) /\ (qr v * qr w <= c <= 1)%R).
Proof.
  intros G h v w hmax H V W M. exists (base_of Linear h v w hmax). split; [apply mk_base_ok; tauto|]. split.
  - intros p q d A D. rewrite (corr_linear G _ _ _ _ _ _ _ (proj1 H) (proj1 V) (proj1 W) A). destruct (Rlt_dec 0 d); [reflexivity|lra].
  - intros p q A. rewrite (corr_linear G _ _ _ _ _ _ _ (proj1 H) (proj1 V) (proj1 W) A), (corr_linear G _ _ _ _ _ _ _ (proj1 H) (proj1 V) (proj1 W) (apart_sym _ _ _ A)).
    destruct (Rlt_dec 0 0); [lra|]. split; [reflexivity|]. eexists. split; [reflexivity|]. split; [rewrite (lin_sym (qr v)), (lin_sym (qr w)); reflexivity|].
    assert (RB : forall x, (0 <= x <= 1)%Qc -> (0 <= qr x <= 1)%R). { intros x (A1 & A2). split; [apply qr_nonneg; auto|]. rewrite <- qr_1. apply qr_le; auto. }
    pose proof (lin_bounds (qr v) (diff (p_elev p) (p_elev q)) (RB v V)). pose proof (lin_bounds (qr w) (diff (p_laf p) (p_laf q)) (RB w W)).
    pose proof (RB v V). pose proof (RB w W).
    set (a := lin (qr v) _) in *. set (b := lin (qr w) _) in *. clearbody a b. split; nra.
Qed.

(** ** C78: MultipleStructure *)
Lemma c78_all : forall (G : geo) kh kv kw hh vh wh mh hv vv wv mv hw vw ww mw,
  (kh = Barnes \/ kh = Powerlaw) -> (kv = Barnes \/ kv = Powerlaw) -> (kw = Barnes \/ kw = Powerlaw) ->
  (0 < hh /\ 0 <= vh /\ 0 <= wh)%Qc -> (0 < hv /\ 0 <= vv /\ 0 <= wv)%Qc -> (0 < hw /\ 0 <= vw /\ 0 <= ww)%Qc ->
  cutoff_ok mh -> cutoff_ok mv -> cutoff_ok mw ->
  exists A B C S L, mk_base kh (Fin hh) (Fin vh) (Fin wh) mh = Ok A /\ mk_base kv (Fin hv) (Fin vv) (Fin wv) mv = Ok B /\
    mk_base kw (Fin hw) (Fin vw) (Fin ww) mw = Ok C /\ mk_multiple A B C = Ok S /\
    (forall p, loc_dist G A p = Ok (RF L)) /\ (forall p, loc_dist G S p = Ok (RF L)) /\
    forall p q d, apart p q d ->
      corr G S p q = Ok (RF (if Rlt_dec L d then 0
                             else shape kh (d / qr hh) * factor kv (qr vv) (diff (p_elev p) (p_elev q))
                                                       * factor kw (qr ww) (diff (p_laf p) (p_laf q)))) /\
      (A = B -> B = C -> corr G S p q = corr G A p q).
Proof.
  intros G kh kv kw hh vh wh mh hv vv wv mv hw vw ww mw Kh Kv Kw (H1 & H2 & H3) (V1 & V2 & V3) (W1 & W2 & W3) Mh Mv Mw.
  pose proof (evenk_nl _ Kh) as Nh. pose proof (evenk_nl _ Kv) as Nv. pose proof (evenk_nl _ Kw) as Nw.
  destruct (loc_even kh (qr hh) mh Kh (qr_pos _ H1) (cutoff_v2r _ Mh)) as (Lh & Eh & Ph & _).
  destruct (loc_even kv (qr hv) mv Kv (qr_pos _ V1) (cutoff_v2r _ Mv)) as (Lv & Ev & Pv & _).
  destruct (loc_even kw (qr hw) mw Kw (qr_pos _ W1) (cutoff_v2r _ Mw)) as (Lw & Ew & Pw & _).
  assert (BA := mk_base_ok kh hh vh wh mh (Qclt_le_weak _ _ H1) H2 H3 Mh).
  assert (BB := mk_base_ok kv hv vv wv mv (Qclt_le_weak _ _ V1) V2 V3 Mv).
  assert (BC := mk_base_ok kw hw vw ww mw (Qclt_le_weak _ _ W1) W2 W3 Mw).
  exists (base_of kh hh vh wh mh), (base_of kv hv vv wv mv), (base_of kw hw vw ww mw), (SMultiple (base_of kh hh vh wh mh) (base_of kv hv vv wv mv) (base_of kw hw vw ww mw)), Lh.
  split; [exact BA|]. split; [exact BB|]. split; [exact BC|]. split; [apply mk_multiple_built; eapply built_base; eauto|].
  split; [intros p; rewrite loc_formula, Eh; auto|]. split; [intros p; cbn [loc_dist base_of loc_base b_spatial b_h]; rewrite <- Eh; reflexivity|].
  intros p q d A. assert (Pp : has_place p) by (destruct A as (x & y & z & ? & ? & ? & Q & _); exists x, y, z; auto).
  assert (F : corr G (SMultiple (base_of kh hh vh wh mh) (base_of kv hv vv wv mv) (base_of kw hw vw ww mw)) p q =
    Ok (RF (if Rlt_dec Lh d then 0 else shape kh (d / qr hh) * factor kv (qr vv) (diff (p_elev p) (p_elev q)) * factor kw (qr ww) (diff (p_laf p) (p_laf q))))).
  { destruct Pp as (x & y & z & Pp). pose proof (apart_refl _ _ _ _ Pp) as A0.
    assert (A1 : apart p (with_place p q) d) by exact A. assert (A2 : apart p (with_elev p q) 0) by exact A0. assert (A3 : apart p (with_laf p q) 0) by exact A0.
    change (corr G (SMultiple ?a ?b ?c) p q) with (h <- corr G a p (with_place p q) ;; v <- corr G b p (with_elev p q) ;; w <- corr G c p (with_laf p q) ;; Ok (rmul (rmul h v) w)).
    rewrite (corr_formula G kh hh vh wh mh Lh d _ _ Nh Eh A1), (corr_formula G kv hv vv wv mv Lv 0 _ _ Nv Ev A2), (corr_formula G kw hw vw ww mw Lw 0 _ _ Nw Ew A3).
    cbn [bind]. destruct (Rlt_dec Lv 0); [lra|]. destruct (Rlt_dec Lw 0); [lra|]. unfold corr3. cbn [with_place with_elev with_laf p_elev p_laf].
    rewrite !factor_self, !factor_0 by auto. cbn [rmul]. do 2 f_equal. destruct (Rlt_dec Lh d); [ring|]. cbn [factor]. pose proof (qr_pos _ H1). destruct (Req_EM_T (qr hh) 0); [lra|]. ring. }
  split; [exact F|]. intros E1 E2. rewrite F. rewrite (corr_formula G kh hh vh wh mh Lh d _ _ Nh Eh A).
  unfold base_of in E1, E2. injection E1 as -> <- <- <- _. injection E2 as -> <- <- <- _.
  unfold corr3. cbn [factor]. pose proof (qr_pos _ H1). destruct (Req_EM_T (qr hh) 0); [lra|]. reflexivity.
Qed.
