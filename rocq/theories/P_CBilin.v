(** Proofs about the client's bilinear downscaler: C210-C213. *)
From Coq Require Import Lia.
From Verif Require Import Base ListLib QcTac M_Stat S_Stat M_COpt M_CUtil S_CUtil P_CUtil M_CCal S_CCal P_CCal M_CTree M_CDown P_CDown S_Bilin P_Bilin P_Stat M_CBilin S_CBilin.
Local Open Scope Z_scope.

Lemma wl_false c a i j k l : (c = true -> exists u v, get2 a i j = Ok u /\ get2 a k l = Ok v /\ vltb u v = false) -> when_less c a i j k l = Ok false.
Proof. unfold when_less. destruct c; auto. intros H. destruct (H eq_refl) as (u & v & -> & -> & ?). cbn. f_equal. auto. Qed.
Lemma wl_true c a i j k l u v : c = true -> get2 a i j = Ok u -> get2 a k l = Ok v -> vltb u v = true -> when_less c a i j k l = Ok true.
Proof. unfold when_less. intros -> -> -> ?. cbn. f_equal. auto. Qed.
Lemma wl_ok c a i j k l : (c = true -> exists u v, get2 a i j = Ok u /\ get2 a k l = Ok v) -> exists b, when_less c a i j k l = Ok b.
Proof. unfold when_less. destruct c; eauto. intros H. destruct (H eq_refl) as (u & v & -> & ->). cbn. eauto. Qed.
Lemma orr_false k : orr (Ok false) k = k.
Proof. reflexivity. Qed.
Lemma orr_true k : orr (Ok true) k = Ok true.
Proof. reflexivity. Qed.
Lemma orr_ok r k : (exists b, r = Ok b) -> k = Ok true -> orr r k = Ok true.
Proof. intros [[] ->] E; auto. Qed.

Local Open Scope Qc_scope.
Lemma rect_st E a b c d lat lon : a <> b -> c <> d ->
  calc_st E (Fin lon) (Fin lat) (Fin a) (Fin a) (Fin b) (Fin b) (Fin c) (Fin d) (Fin c) (Fin d) = Ok (Fin ((lon - a) / (b - a)), Fin (1 - (lat - c) / (d - c))).
Proof.
  intros H1 H2. unfold calc_st.
  assert (Z1 : vleb (vabs (vsub (vmul (vsub (Fin a) (Fin a)) (vsub (Fin c) (Fin d))) (vmul (vsub (Fin b) (Fin b)) (vsub (Fin c) (Fin d))))) (fq (1 # 1000000)) = true).
  { cbn [vsub vmul vneg vadd vabs]. unfold vsub, vabs, vmul, vadd, vneg, fq. apply vleb_F. replace ((a + - a) * (c + - d) + - ((b + - b) * (c + - d))) with 0 by ring. vm_compute. discriminate. }
  assert (Z2 : vleb (vabs (vsub (vmul (vsub (Fin b) (Fin a)) (vsub (Fin c) (Fin c))) (vmul (vsub (Fin b) (Fin a)) (vsub (Fin d) (Fin d))))) (fq (1 # 1000000)) = true).
  { unfold vsub, vabs, vmul, vadd, vneg, fq. apply vleb_F. replace ((b + - a) * (c + - c) + - ((b + - a) * (d + - d))) with 0 by ring. vm_compute. discriminate. }
  rewrite Z1, Z2. cbn [andb]. unfold client_parallelogram. rewrite !vsub_F, !vmul_F, !vneg_F.
  assert (N1 : b - a <> 0). { intros e. apply H1. symmetry. apply Qcle_antisym; qlra. }
  assert (N2 : c - d <> 0). { intros e. apply H2. apply Qcle_antisym; qlra. }
  assert (N3 : d - c <> 0). { intros e. apply H2. apply Qcle_antisym; qlra. }
  assert (N : (b - a) * (c - d) <> 0). { intros e. apply Qcmult_integral in e as [e|e]; auto. }
  assert (V : veqb (Fin ((b - a) * (c - d))) (Fin ((a - a) * (d - d))) = false).
  { cbn [veqb]. destruct (qeqb_spec ((b - a) * (c - d)) ((a - a) * (d - d))) as [e|]; auto. exfalso. apply N. rewrite e. ring. }
  rewrite V. cbn [negb assert_ bind]. rewrite !vsub_F.
  replace ((b - a) * (c - d) - (a - a) * (d - d)) with ((b - a) * (c - d)) by ring. unfold fz at 1 2. rewrite !vdiv_F by exact N. rewrite !vmul_F, !vadd_F, !vmul_F.
  change (qz 1) with 1. f_equal. f_equal; f_equal; field; auto.
Qed.
Local Open Scope Z_scope.
(** one dimension: what the tests of one coordinate find for the index k *)
Definition after (l : list Qc) (k : Z) (q : Qc) (b : bool) : Prop := exists a, znth l k = Ok a /\ b = qltb a q.
Definition grows (l : list Qc) (k : Z) (b : bool) : Prop := if k =? 0 then b = true else exists u v, znth l (k - 1) = Ok u /\ znth l k = Ok v /\ b = qltb u v.
Definition less (l : list Qc) (i k : Z) (b : bool) : Prop := exists u v, znth l i = Ok u /\ znth l k = Ok v /\ qltb u v = b.
Lemma qltb_true p q : qltb p q = true <-> (p < q)%Qc.
Proof. destruct (qltb_spec p q); split; auto; try discriminate; intros; exfalso; auto. Qed.
Lemma qltb_false p q : qltb p q = false <-> (q <= p)%Qc.
Proof. destruct (qltb_spec p q) as [h|h]; split; auto; try discriminate; intros; [exfalso; exact (Qclt_not_le _ _ h H)|apply Qcnot_lt_le; auto]. Qed.
Lemma step_range l i q w : in_step l i q w -> 0 <= i /\ i + 1 < zlen l.
Proof. intros (a & b & Ha & Hb & _). apply znth_range in Ha, Hb. lia. Qed.
Lemma axis l i k q w : rising l \/ falling l -> in_step l i q w -> k = i \/ k = i + 1 -> ~ (falling l /\ k = 0) ->
  exists b c, after l k q b /\ grows l k c /\ (if Bool.eqb b c then (k, k + 1) else (k - 1, k)) = (i, i + 1) /\
    (b = true -> k = zlen l - 1 -> less l (k - 1) k false) /\ (b = false -> k = 0 -> less l 0 1 false) /\
    (b = true -> k = 0 -> less l 1 0 false) /\ (b = false -> k = zlen l - 1 -> less l k (k - 1) false) /\
    (b = false -> rising l -> less l k (k - 1) false).
Proof.
  intros M H K N. pose proof (step_range _ _ _ _ H) as R. destruct H as (a & b & Ha & Hb & O & _).
  assert (F : forall (x y : Qc), (x < y)%Qc -> (y <= x)%Qc -> False) by (intros x y h h'; exact (Qclt_not_le _ _ h h')).
  destruct M as [M|M]; pose proof (M _ _ _ Ha Hb) as L.
  - destruct O as [[O1 O2]|[O1 O2]]; [|exfalso; apply (F a b L); apply Qclt_le_weak; eapply Qclt_le_trans; eauto].
    destruct K as [-> | ->].
    + exists true. exists true. split; [exists a; split; auto; symmetry; apply qltb_true; auto|]. split.
      { unfold grows. destruct (Z.eqb_spec i 0); auto. destruct (znth_some l (i - 1)) as [p Hp]; [lia|]. exists p, a. split; [auto|]. split; [auto|]. symmetry. apply qltb_true.
        apply (M (i - 1)); auto. replace (i - 1 + 1) with i by lia. auto. }
      split; [reflexivity|]. split; [intros; lia|]. split; [discriminate|]. split; [|split; discriminate].
      intros _ ->. exists b, a. split; [auto|]. split; [auto|]. apply qltb_false. apply Qclt_le_weak; auto.
    + exists false. exists true. split; [exists b; split; auto; symmetry; apply qltb_false; auto|]. split.
      { unfold grows. destruct (Z.eqb_spec (i + 1) 0); [lia|]. exists a, b. replace (i + 1 - 1) with i by lia. split; [auto|]. split; [auto|]. symmetry. apply qltb_true. auto. }
      cbn [Bool.eqb]. replace (i + 1 - 1) with i by lia. split; [reflexivity|]. split; [discriminate|]. split; [intros; lia|]. split; [discriminate|].
      assert (Q : less l (i + 1) i false). { exists b, a. split; [auto|]. split; [auto|]. apply qltb_false. apply Qclt_le_weak; auto. }
      split; auto.
  - destruct O as [[O1 O2]|[O1 O2]]; [exfalso; apply (F b a L); apply Qclt_le_weak; eapply Qclt_le_trans; eauto|].
    assert (NR : ~ rising l). { intros G. apply (F _ _ (G _ _ _ Ha Hb)). apply Qclt_le_weak; auto. }
    destruct K as [-> | ->].
    + assert (i <> 0) by (intros ->; apply N; auto). destruct (znth_some l (i - 1)) as [p Hp]; [lia|].
      exists false, false. split; [exists a; split; auto; symmetry; apply qltb_false; auto|]. split.
      { unfold grows. destruct (Z.eqb_spec i 0); [lia|]. exists p, a. split; [auto|]. split; [auto|]. symmetry. apply qltb_false. apply Qclt_le_weak.
        apply (M (i - 1)); auto. replace (i - 1 + 1) with i by lia. auto. }
      split; [reflexivity|]. split; [discriminate|]. split; [intros; lia|]. split; [discriminate|]. split; [intros; lia|]. intros _ G. destruct (NR G).
    + exists true, false. split; [exists b; split; auto; symmetry; apply qltb_true; auto|]. split.
      { unfold grows. destruct (Z.eqb_spec (i + 1) 0); [lia|]. exists a, b. replace (i + 1 - 1) with i by lia. split; [auto|]. split; [auto|]. symmetry. apply qltb_false. apply Qclt_le_weak. auto. }
      cbn [Bool.eqb]. replace (i + 1 - 1) with i by lia. split; [reflexivity|]. split. { intros _ _. exists a, b. split; [auto|]. split; [auto|]. apply qltb_false. apply Qclt_le_weak; auto. }
      split; [discriminate|]. split; [intros; lia|]. split; discriminate.
Qed.
Lemma lats_get ys xs lats lons i j a : rect_grid ys xs lats lons -> znth ys i = Ok a -> 0 <= j < zlen xs -> get2 lats i j = Ok (Fin a).
Proof. intros (_ & _ & G) Ha Hj. destruct (znth_some xs j Hj) as [b Hb]. apply (G _ _ _ _ Ha Hb). Qed.
Lemma lons_get ys xs lats lons i j b : rect_grid ys xs lats lons -> 0 <= i < zlen ys -> znth xs j = Ok b -> get2 lons i j = Ok (Fin b).
Proof. intros (_ & _ & G) Hi Hb. destruct (znth_some ys i Hi) as [a Ha]. apply (G _ _ _ _ Ha Hb). Qed.
Lemma less_lats ys xs lats lons i k j c b : rect_grid ys xs lats lons -> 0 <= j < zlen xs -> less ys i k b -> c = true -> when_less c lats i j k j = Ok b.
Proof. intros G Hj (u & v & Hu & Hv & e) ->. unfold when_less. rewrite (lats_get _ _ _ _ _ _ _ G Hu Hj), (lats_get _ _ _ _ _ _ _ G Hv Hj). cbn. congruence. Qed.
Lemma less_lons ys xs lats lons i k j c b : rect_grid ys xs lats lons -> 0 <= j < zlen ys -> less xs i k b -> c = true -> when_less c lons j i j k = Ok b.
Proof. intros G Hj (u & v & Hu & Hv & e) ->. unfold when_less. rewrite (lons_get _ _ _ _ _ _ _ G Hj Hu), (lons_get _ _ _ _ _ _ _ G Hj Hv). cbn. congruence. Qed.
Lemma when_false c a i j k l : c = false -> when_less c a i j k l = Ok false.
Proof. intros ->. reflexivity. Qed.
Ltac cond := repeat match goal with H : context [(_ && _)%bool] |- _ => apply andb_prop in H as [? ?] end; repeat match goal with H : (_ =? _) = true |- _ => apply Z.eqb_eq in H end; repeat match goal with H : negb _ = true |- _ => apply negb_true_iff in H end.
Lemma step_neq l i q w a b : in_step l i q w -> znth l i = Ok a -> znth l (i + 1) = Ok b -> a <> b /\ w = ((q - a) / (b - a))%Qc.
Proof.
  intros (a' & b' & Ha & Hb & O & W) Ea Eb. rewrite Ea in Ha. injection Ha as <-. rewrite Eb in Hb. injection Hb as <-. split; auto. intros ->.
  destruct O as [[h h']|[h h']]; exact (Qclt_not_le _ _ h h').
Qed.
Lemma unit_div (a b : Qc) : (0 < b -> 0 <= a -> a <= b -> 0 <= a / b /\ a / b <= 1)%Qc.
Proof. intros B A1 A2. split; [apply qle_div_iff; auto; rewrite Qcmult_0_l; auto|apply qdiv_le_iff; auto; rewrite Qcmult_1_l; auto]. Qed.
Lemma step_unit l i q w : in_step l i q w -> unit_range w.
Proof.
  intros (a & b & _ & _ & O & ->). destruct O as [[h1 h2]|[h1 h2]].
  - apply unit_div; qlra.
  - assert (N : (b - a <> 0)%Qc) by (intros e; apply (Qclt_not_le _ _ h1); qlra). assert (N' : (a - b <> 0)%Qc) by (intros e; apply N; apply Qcle_antisym; qlra).
    replace ((q - a) / (b - a))%Qc with ((a - q) / (a - b))%Qc by (field; auto). apply unit_div; qlra.
Qed.
Lemma on_limit w : unit_range w -> off_limit (Fin w) = false.
Proof.
  intros [h1 h2]. unfold off_limit. apply orb_false_iff. split; unfold fq; cbn [vltb]; apply qltb_false.
  - eapply Qcle_trans; [exact h2|]. vm_compute. discriminate.
  - eapply Qcle_trans; [|exact h1]. vm_compute. discriminate.
Qed.
Lemma limit_assert s t : unit_range s -> unit_range t -> (vleb (Fin s) (fq (105#100)) && vleb (fq (-5#100)) (Fin s) && vleb (Fin t) (fq (105#100)) && vleb (fq (-5#100)) (Fin t))%bool = true.
Proof.
  intros [h1 h2] [h3 h4]. assert (A : (1 <= Q2Qc (105 # 100))%Qc) by (vm_compute; discriminate). assert (B : (Q2Qc (-5 # 100) <= 0)%Qc) by (vm_compute; discriminate).
  rewrite !andb_true_iff. unfold fq. do 3 (try split); apply vleb_F; eapply Qcle_trans; eauto.
Qed.
Lemma unit_flip t : unit_range t -> unit_range (1 - t)%Qc.
Proof. intros [h h']. split; qlra. Qed.
Lemma first_row ys xs lats lons a : rect_grid ys xs lats lons -> znth ys 0 = Ok a -> exists row, znth lats 0 = Ok row /\ zlen row = zlen xs.
Proof.
  intros ((L & R) & _) H. apply znth_range in H. destruct (znth_some lats 0) as [row Hr]; [lia|]. exists row. split; auto. apply R. eapply znth_In; eauto.
Qed.
Section Off.
Context (E : ext).
Lemma find_rect ys xs lats lons I J lat lon i j u s : rect_grid ys xs lats lons -> rising ys \/ falling ys -> rising xs \/ falling xs -> in_step ys i lat u -> in_step xs j lon s ->
  I = i \/ I = i + 1 -> J = j \/ J = j + 1 -> ~ lost ys xs I J -> find_coords E (Ok tt) (Fin lat) (Fin lon) lats lons I J = Ok (Some (i, j, i + 1, j + 1)).
Proof.
  intros G My Mx Sy Sx HI HJ NL. pose proof (step_range _ _ _ _ Sy) as Ry. pose proof (step_range _ _ _ _ Sx) as Rx.
  destruct (axis ys i I lat u My Sy HI) as (ab & inc & (la & Hla & Eab) & Gr & Pr & T1 & T2 & T3 & T4 & _). { intros [F Z]. apply NL. left. auto. }
  destruct (axis xs j J lon s Mx Sx HJ) as (rt & jnc & (lo & Hlo & Ert) & Gj & Pj & T5 & T6 & T7 & _ & T8). { intros [F Z]. apply NL. right. auto. }
  assert (RI : 0 <= I < zlen ys) by lia. assert (RJ : 0 <= J < zlen xs) by lia.
  assert (BE : beyond_edge lats lons I J (zlen ys) (zlen xs) ab rt = Ok false).
  { unfold beyond_edge.
    assert (X : forall c (P : Prop), (c = true -> P) -> c = false \/ (c = true /\ P)) by (intros [] P h; auto).
    rewrite (wl_false (ab && (I =? zlen ys - 1))%bool).
    2:{ intros c. cond. destruct (T1 ltac:(auto) ltac:(auto)) as (p & q & Hp & Hq & e). exists (Fin p), (Fin q). rewrite (lats_get _ _ _ _ _ _ _ G Hp RJ), (lats_get _ _ _ _ _ _ _ G Hq RJ). auto. }
    rewrite orr_false, (wl_false (negb ab && (I =? 0))%bool).
    2:{ intros c. cond. destruct (T2 ltac:(auto) ltac:(auto)) as (p & q & Hp & Hq & e). exists (Fin p), (Fin q). rewrite (lats_get _ _ _ _ _ _ _ G Hp RJ), (lats_get _ _ _ _ _ _ _ G Hq RJ). auto. }
    rewrite orr_false, (wl_false (ab && (I =? 0))%bool).
    2:{ intros c. cond. destruct (T3 ltac:(auto) ltac:(auto)) as (p & q & Hp & Hq & e). exists (Fin p), (Fin q). rewrite (lats_get _ _ _ _ _ _ _ G Hp RJ), (lats_get _ _ _ _ _ _ _ G Hq RJ). auto. }
    rewrite orr_false, (wl_false (negb ab && (I =? zlen ys - 1))%bool).
    2:{ intros c. cond. destruct (T4 ltac:(auto) ltac:(auto)) as (p & q & Hp & Hq & e). exists (Fin p), (Fin q). rewrite (lats_get _ _ _ _ _ _ _ G Hp RJ), (lats_get _ _ _ _ _ _ _ G Hq RJ). auto. }
    rewrite orr_false, (wl_false (rt && (J =? zlen xs - 1))%bool).
    2:{ intros c. cond. destruct (T5 ltac:(auto) ltac:(auto)) as (p & q & Hp & Hq & e). exists (Fin p), (Fin q). rewrite (lons_get _ _ _ _ _ _ _ G RI Hp), (lons_get _ _ _ _ _ _ _ G RI Hq). auto. }
    rewrite orr_false, (wl_false (negb rt && (J =? 0))%bool).
    2:{ intros c. cond. destruct (T6 ltac:(auto) ltac:(auto)) as (p & q & Hp & Hq & e). exists (Fin p), (Fin q). rewrite (lons_get _ _ _ _ _ _ _ G RI Hp), (lons_get _ _ _ _ _ _ _ G RI Hq). auto. }
    rewrite orr_false, (wl_false (rt && (J =? 0))%bool).
    2:{ intros c. cond. destruct (T7 ltac:(auto) ltac:(auto)) as (p & q & Hp & Hq & e). exists (Fin p), (Fin q). rewrite (lons_get _ _ _ _ _ _ _ G RI Hp), (lons_get _ _ _ _ _ _ _ G RI Hq). auto. }
    rewrite orr_false, (wl_false (negb rt && (I =? zlen xs - 1))%bool); auto.
    intros c. cond. destruct Mx as [Mx|Mx]; [|exfalso; apply NL; right; auto].
    destruct (T8 ltac:(auto) Mx) as (p & q & Hp & Hq & e). exists (Fin p), (Fin q). rewrite (lons_get _ _ _ _ _ _ _ G RI Hp), (lons_get _ _ _ _ _ _ _ G RI Hq). auto. }
  unfold find_coords. rewrite (lons_get _ _ _ _ _ _ _ G RI Hlo), (lats_get _ _ _ _ _ _ _ G Hla RJ). cbn [bind vltb]. rewrite <- Eab, <- Ert.
  destruct (znth_some ys 0) as [y0 Hy0]; [lia|]. destruct (first_row _ _ _ _ _ G Hy0) as (row & Er & Lr). rewrite Er. cbn [bind]. rewrite Lr.
  pose proof G as G'. destruct G as ((LL & _) & _). rewrite LL.
  rewrite (proj2 (Z.ltb_lt I (zlen ys))), (proj2 (Z.leb_le 0 I)), (proj2 (Z.ltb_lt J (zlen xs))), (proj2 (Z.leb_le 0 J)) by lia. cbn [andb assert_ bind]. rewrite BE. cbn [bind].
  assert (EI : (if I =? 0 then Ok true else u0 <- get2 lats (I - 1) J ;; Ok (vltb u0 (Fin la))) = Ok inc).
  { unfold grows in Gr. destruct (I =? 0); [congruence|]. destruct Gr as (p & q & Hp & Hq & ->). rewrite (lats_get _ _ _ _ _ _ _ G' Hp RJ). rewrite Hla in Hq. injection Hq as ->. reflexivity. }
  rewrite EI. cbn [bind].
  assert (EJ : (if J =? 0 then Ok true else u0 <- get2 lons I (J - 1) ;; Ok (vltb u0 (Fin lo))) = Ok jnc).
  { unfold grows in Gj. destruct (J =? 0); [congruence|]. destruct Gj as (p & q & Hp & Hq & ->). rewrite (lons_get _ _ _ _ _ _ _ G' RI Hp). rewrite Hlo in Hq. injection Hq as ->. reflexivity. }
  rewrite EJ. cbn [bind]. unfold get_pair at 1 2. cbn [bind]. rewrite Pr, Pj.
  rewrite (proj2 (Z.leb_le 0 i)), (proj2 (Z.ltb_lt i (zlen ys))), (proj2 (Z.leb_le 0 (i + 1))), (proj2 (Z.ltb_lt (i + 1) (zlen ys))), (proj2 (Z.leb_le 0 j)), (proj2 (Z.ltb_lt j (zlen xs))), (proj2 (Z.leb_le 0 (j + 1))), (proj2 (Z.ltb_lt (j + 1) (zlen xs))) by lia.
  cbn [andb negb].
  pose proof Sy as (a & b & Ha & Hb & _). pose proof Sx as (c & d & Hc & Hd & _).
  destruct (step_neq _ _ _ _ _ _ Sy Ha Hb) as [Ny Wy]. destruct (step_neq _ _ _ _ _ _ Sx Hc Hd) as [Nx Wx].
  assert (ST : box_st E (Fin lat) (Fin lon) lats lons i j (i + 1) (j + 1) = Ok (Fin s, Fin (1 - u))%Qc).
  { unfold box_st, box_corners. assert (Q1 : 0 <= i < zlen ys) by lia. assert (Q2 : 0 <= i + 1 < zlen ys) by lia. assert (Q3 : 0 <= j < zlen xs) by lia. assert (Q4 : 0 <= j + 1 < zlen xs) by lia.
    rewrite (lons_get _ _ _ _ _ _ _ G' Q1 Hc), (lons_get _ _ _ _ _ _ _ G' Q2 Hc),
      (lons_get _ _ _ _ _ _ _ G' Q1 Hd), (lons_get _ _ _ _ _ _ _ G' Q2 Hd),
      (lats_get _ _ _ _ _ _ _ G' Ha Q3), (lats_get _ _ _ _ _ _ _ G' Ha Q4),
      (lats_get _ _ _ _ _ _ _ G' Hb Q3), (lats_get _ _ _ _ _ _ _ G' Hb Q4). cbn [bind].
    rewrite rect_st by auto. rewrite <- Wx, <- Wy. reflexivity. }
  rewrite ST. cbn [bind]. pose proof (step_unit _ _ _ _ Sx) as Us. pose proof (unit_flip _ (step_unit _ _ _ _ Sy)) as Uu.
  rewrite (on_limit _ Us), (on_limit _ Uu). cbn [orb bind]. rewrite (on_limit _ Us), (on_limit _ Uu). cbn [orb]. rewrite limit_assert by auto. reflexivity.
Qed.
End Off.
(** rounding to [0, 1] of a number that is hardly outside of it *)
Definition clamped (p q : Qc) : Prop := ((0 <= p /\ p <= 1 /\ q = p) \/ (p < 0 /\ q = 0) \/ (1 < p /\ q = 1))%Qc.
Lemma snap_clamped p : (Q2Qc (-5#100) <= p -> p <= Q2Qc (105#100) -> exists q, client_snap (Fin p) = Fin q /\ clamped p q /\ unit_range q)%Qc.
Proof.
  intros L U. unfold client_snap, fq, fz.
  assert (A : (Q2Qc (105#100) <= Q2Qc (117#100))%Qc) by (vm_compute; discriminate). assert (B : (Q2Qc (-20#100) <= Q2Qc (-5#100))%Qc) by (vm_compute; discriminate).
  assert (E2 : vleb (Fin (Q2Qc (-20 # 100))) (Fin p) = true) by (apply vleb_F; eapply Qcle_trans; eauto).
  assert (E1 : vleb (Fin p) (Fin (Q2Qc (117 # 100))) = true) by (apply vleb_F; eapply Qcle_trans; eauto).
  change (qz 1) with 1%Qc. change (qz 0) with 0%Qc. rewrite E1, andb_true_r.
  destruct (vleb (Fin 1) (Fin p)) eqn:C.
  - apply vleb_F in C. exists 1%Qc. split; [reflexivity|]. split; [|split; vm_compute; discriminate].
    destruct (Qc_eq_dec p 1) as [->|N]; [left; split; [vm_compute; discriminate|split; auto; apply Qcle_refl]|right; right; split; auto].
    apply Qcnot_le_lt. intros h. apply N. apply Qcle_antisym; auto.
  - assert (C' : (p < 1)%Qc). { apply Qcnot_le_lt. intros h. apply vleb_F in h. congruence. }
    rewrite E2, andb_true_r. destruct (vleb (Fin p) (Fin 0)) eqn:D.
    + apply vleb_F in D. exists 0%Qc. split; [reflexivity|]. split; [|split; vm_compute; discriminate].
      destruct (Qc_eq_dec p 0) as [->|N]; [left; split; [apply Qcle_refl|split; auto; vm_compute; discriminate]|right; left; split; auto].
      apply Qcnot_le_lt. intros h. apply N. apply Qcle_antisym; auto.
    + assert (D' : (0 < p)%Qc). { apply Qcnot_le_lt. intros h. apply vleb_F in h. congruence. }
      exists p. split; auto. assert (unit_range p) by (split; apply Qclt_le_weak; auto). split; [left|]; auto. destruct H; auto.
Qed.
Definition nearly_unit (p : Qc) : Prop := (Q2Qc (-5#100) <= p /\ p <= Q2Qc (105#100))%Qc.
Lemma clamped_flip t t' : clamped t t' -> clamped (1 - t) (1 - t').
Proof. intros [(a & b & ->)|[(a & ->)|(a & ->)]]; [left; split; [qlra|split; [qlra|auto]]|right; right|right; left]; split; try qlra; ring. Qed.
Lemma cell_value_ok E x y x0 x1 x2 x3 y0 y1 y2 y3 v0 v1 v2 v3 p q : calc_st E x y x0 x1 x2 x3 y0 y1 y2 y3 = Ok (Fin p, Fin q) -> nearly_unit p -> nearly_unit q ->
  exists s t, clamped p s /\ clamped q t /\ unit_range s /\ unit_range t /\
    client_cell E x y x0 x1 x2 x3 y0 y1 y2 y3 (Fin v0) (Fin v1) (Fin v2) (Fin v3) = Ok (Fin (blend v0 v1 v2 v3 s (1 - t)))%Qc.
Proof.
  intros S [P1 P2] [Q1 Q2]. unfold client_cell. rewrite S. cbn [bind].
  destruct (snap_clamped p P1 P2) as (s & -> & Cs & Us). destruct (snap_clamped q Q1 Q2) as (t & -> & Ct & Ut).
  exists s, t. do 4 (split; [auto|]).
  rewrite (proj2 (unit_test (Fin s) (Fin t))) by (exists s, t; auto). cbn [negb]. f_equal. exact (tail_blend v0 v1 v2 v3 s t).
Qed.
(** what findCoords finds in any grid *)
Lemma find_sound E lat lon lats lons ny nx I J I1 J1 I2 J2 : rect ny nx lats -> rect ny nx lons -> find_coords E (Ok tt) lat lon lats lons I J = Ok (Some (I1, J1, I2, J2)) ->
  I2 = I1 + 1 /\ J2 = J1 + 1 /\ (I = I1 \/ I = I2) /\ (J = J1 \/ J = J2) /\ 0 <= I < ny /\ 0 <= J < nx /\
  exists p q, box_st E lat lon lats lons I1 J1 I2 J2 = Ok (Fin p, Fin q) /\ nearly_unit p /\ nearly_unit q.
Proof.
  intros Rl Ro. unfold find_coords. destruct (get2 lons I J) as [lo| | |] eqn:Elo; try discriminate. destruct (get2 lats I J) as [la| | |] eqn:Ela; try discriminate. cbn [bind].
  destruct (znth lats 0) as [row| | |] eqn:E0; try discriminate. cbn [bind]. assert (Lr : zlen row = nx) by (apply (proj2 Rl); eapply znth_In; eauto).
  rewrite Lr, (proj1 Rl). destruct (assert_ ((I <? ny) && (0 <=? I))) eqn:A1; try discriminate. cbn [bind]. destruct (assert_ ((J <? nx) && (0 <=? J))) eqn:A2; try discriminate. cbn [bind].
  unfold assert_ in A1, A2. destruct ((I <? ny) && (0 <=? I))%bool eqn:B1; try discriminate. destruct ((J <? nx) && (0 <=? J))%bool eqn:B2; try discriminate.
  apply andb_prop in B1 as [B1 B1'], B2 as [B2 B2']. apply Z.ltb_lt in B1, B2. apply Z.leb_le in B1', B2'.
  destruct (beyond_edge _ _ _ _ _ _ _ _) as [[]| | |]; try discriminate. cbn [bind].
  match goal with |- context [bind ?X _] => destruct X as [inc| | |] end; try discriminate. cbn [bind].
  match goal with |- context [bind ?X _] => destruct X as [jnc| | |] end; try discriminate. cbn [bind].
  assert (P : forall k a b, exists m, get_pair (Ok tt) k a b = Ok (m, m + 1) /\ (k = m \/ k = m + 1)).
  { intros k aa bb. unfold get_pair. cbn [bind]. destruct (Bool.eqb aa bb); [exists k; auto|exists (k - 1)]. replace (k - 1 + 1) with k by lia. auto. }
  destruct (P I (vltb la lat) inc) as (i & -> & Hi). destruct (P J (vltb lo lon) jnc) as (j & -> & Hj). cbn [bind].
  match goal with |- context [if negb ?c then _ else _] => destruct c end; try discriminate. cbn [negb].
  destruct (box_st E lat lon lats lons i j (i + 1) (j + 1)) as [[s t]| | |] eqn:S; try discriminate. cbn [bind].
  assert (FIN : forall i' j' s' t', I = i' \/ I = i' + 1 -> J = j' \/ J = j' + 1 -> box_st E lat lon lats lons i' j' (i' + 1) (j' + 1) = Ok (s', t') ->
    (if off_limit s' || off_limit t' then Abort else _ <- assert_ (vleb s' (fq (105#100)) && vleb (fq (-5#100)) s' && vleb t' (fq (105#100)) && vleb (fq (-5#100)) t') ;; Ok (Some (i', j', i' + 1, j' + 1))) = Ok (Some (I1, J1, I2, J2)) ->
    I2 = I1 + 1 /\ J2 = J1 + 1 /\ (I = I1 \/ I = I2) /\ (J = J1 \/ J = J2) /\ 0 <= I < ny /\ 0 <= J < nx /\
      exists p q, box_st E lat lon lats lons I1 J1 I2 J2 = Ok (Fin p, Fin q) /\ nearly_unit p /\ nearly_unit q).
  { intros i' j' s' t' Hi' Hj' S'. destruct (off_limit s' || off_limit t')%bool; try discriminate. unfold assert_.
    destruct (vleb s' _ && vleb _ s' && vleb t' _ && vleb _ t')%bool eqn:L; try discriminate. cbn [bind]. intros [= <- <- <- <-].
    do 6 (split; [auto|]). rewrite !andb_true_iff in L. destruct L as [[[L1 L2] L3] L4]. unfold fq in *.
    destruct s' as [| | |p]; try discriminate. destruct t' as [| | |q]; try discriminate. exists p, q. split; auto. apply vleb_F in L1, L2, L3, L4. split; split; auto. }
  destruct (off_limit s || off_limit t)%bool eqn:OL.
  - match goal with |- context [if off_limit t then get_pair _ _ ?a _ else _] => destruct (P I a inc) as (i2 & Ei2 & Hi2) end.
    match goal with |- context [if off_limit s then get_pair _ _ ?a _ else _] => destruct (P J a jnc) as (j2 & Ej2 & Hj2) end.
    set (i' := if off_limit t then i2 else i). set (j' := if off_limit s then j2 else j).
    match goal with |- context [bind (if off_limit t then ?a else ?b) _] => assert (X : (if off_limit t then a else b) = Ok (i', i' + 1)) by (unfold i'; destruct (off_limit t); auto); rewrite X; clear X end. cbn [bind].
    match goal with |- context [bind (if off_limit s then ?a else ?b) _] => assert (X : (if off_limit s then a else b) = Ok (j', j' + 1)) by (unfold j'; destruct (off_limit s); auto); rewrite X; clear X end. cbn [bind].
    destruct (beyond_edge _ _ _ _ _ _ _ _) as [[]| | |]; try discriminate. cbn [bind].
    destruct (box_st E lat lon lats lons i' j' (i' + 1) (j' + 1)) as [[s' t']| | |] eqn:S'; try discriminate. cbn [bind]. apply FIN; auto; [unfold i'; destruct (off_limit t); auto|unfold j'; destruct (off_limit s); auto].
  - cbn [bind]. rewrite OL. intros K. apply (FIN i j s t Hi Hj S). rewrite OL. exact K.
Qed.
Lemma axis_beyond l k q : rising l \/ falling l -> 2 <= zlen l -> beyond l k q -> exists b, after l k q b /\ 0 <= k < zlen l /\
  ((b = true /\ k = zlen l - 1 /\ less l (k - 1) k true) \/ (b = false /\ k = 0 /\ less l 0 1 true) \/ (b = true /\ k = 0 /\ less l 1 0 true) \/ (b = false /\ k = zlen l - 1 /\ less l k (k - 1) true /\ less l (k - 1) k false)).
Proof.
  intros M N (a & Ha & O). pose proof (znth_range _ _ _ Ha) as R.
  assert (F : forall (x y : Qc), (x < y)%Qc -> (y <= x)%Qc -> False) by (intros x y h h'; exact (Qclt_not_le _ _ h h')).
  destruct O as [[O1 O2]|[O1 O2]]; [exists false|exists true]; (split; [exists a; split; auto; symmetry; first [apply qltb_false; assumption|apply qltb_true; assumption]|]); split; [auto| |auto|]; destruct M as [M|M].
  - assert (k = 0). { destruct (Z.eq_dec k 0); auto. exfalso. destruct (znth_some l (k - 1)) as [p Hp]; [lia|]. apply (F p a).
      - apply (M (k - 1)); auto. replace (k - 1 + 1) with k by lia; auto.
      - apply O1. eapply znth_In; eauto. }
    subst k. destruct (znth_some l 1) as [p Hp]; [lia|]. right. left. split; [auto|]. split; [auto|]. exists a, p. split; [auto|]. split; [auto|]. apply qltb_true. apply (M 0); auto.
  - assert (k = zlen l - 1). { destruct (Z.eq_dec k (zlen l - 1)); auto. exfalso. destruct (znth_some l (k + 1)) as [p Hp]; [lia|]. apply (F p a).
      - apply (M k); auto.
      - apply O1. eapply znth_In; eauto. }
    subst k. destruct (znth_some l (zlen l - 1 - 1)) as [p Hp]; [lia|]. right. right. right. split; [auto|]. split; [auto|].
    assert (L : (a < p)%Qc). { apply (M (zlen l - 1 - 1)); auto. replace (zlen l - 1 - 1 + 1) with (zlen l - 1) by lia. auto. }
    split; [exists a, p|exists p, a]; (split; [auto|]); (split; [auto|]); [apply qltb_true; auto|apply qltb_false; apply Qclt_le_weak; auto].
  - assert (k = zlen l - 1). { destruct (Z.eq_dec k (zlen l - 1)); auto. exfalso. destruct (znth_some l (k + 1)) as [p Hp]; [lia|]. apply (F a p).
      - apply (M k); auto.
      - apply O1. eapply znth_In; eauto. }
    subst k. destruct (znth_some l (zlen l - 1 - 1)) as [p Hp]; [lia|]. left. split; [auto|]. split; [auto|]. exists p, a. split; [auto|]. split; [auto|]. apply qltb_true.
    apply (M (zlen l - 1 - 1)); auto. replace (zlen l - 1 - 1 + 1) with (zlen l - 1) by lia. auto.
  - assert (k = 0). { destruct (Z.eq_dec k 0); auto. exfalso. destruct (znth_some l (k - 1)) as [p Hp]; [lia|]. apply (F a p).
      - apply (M (k - 1)); auto. replace (k - 1 + 1) with k by lia; auto.
      - apply O1. eapply znth_In; eauto. }
    subst k. destruct (znth_some l 1) as [p Hp]; [lia|]. right. right. left. split; [auto|]. split; [auto|]. exists p, a. split; [auto|]. split; [auto|]. apply qltb_true. apply (M 0); auto.
Qed.
(** the tests of the latitudes always have something to read *)
Lemma lat_tests lats ny nx (I J : Z) c i k : rect ny nx lats -> (c = true -> 0 <= i < ny /\ 0 <= k < ny) -> 0 <= J < nx -> I = I -> exists b, when_less c lats i J k J = Ok b.
Proof.
  intros R H HJ _. apply wl_ok. intros e. destruct (H e) as [Hi Hk]. destruct (rect_get2 _ _ _ _ _ R Hi HJ) as [u ->]. destruct (rect_get2 _ _ _ _ _ R Hk HJ) as [v ->]. eauto.
Qed.
Lemma orr_first r k : r = Ok true -> orr r k = Ok true.
Proof. intros ->. reflexivity. Qed.
Lemma lat_beyond lats lons ys xs I J ab rt q : rect_grid ys xs lats lons -> rising ys \/ falling ys -> 2 <= zlen ys -> beyond ys I q -> after ys I q ab -> 0 <= J < zlen xs ->
  beyond_edge lats lons I J (zlen ys) (zlen xs) ab rt = Ok true.
Proof.
  intros G M N B (a & Ha & Eab) RJ. destruct (axis_beyond _ _ _ M N B) as (b & (a' & Ha' & Eb) & R & C). rewrite Ha in Ha'. injection Ha' as <-. rewrite <- Eab in Eb. subst b.
  pose proof (proj1 G) as RL. unfold beyond_edge.
  destruct (lat_tests lats _ _ I J (ab && (I =? zlen ys - 1)) (I - 1) I RL) as (b1 & E1); [intros c; cond; lia|auto|auto|].
  destruct (lat_tests lats _ _ I J (negb ab && (I =? 0)) 0 1 RL) as (b2 & E2); [intros c; cond; lia|auto|auto|].
  destruct (lat_tests lats _ _ I J (ab && (I =? 0)) 1 0 RL) as (b3 & E3); [intros c; cond; lia|auto|auto|].
  destruct C as [(-> & -> & L)|[(-> & -> & L)|[(-> & -> & L)|(-> & -> & L & _)]]].
  - apply orr_first. apply (less_lats _ _ _ _ _ _ _ _ _ G RJ L). rewrite Z.eqb_refl. reflexivity.
  - apply orr_ok; [eauto|]. apply orr_first. apply (less_lats _ _ _ _ _ _ _ _ _ G RJ L). reflexivity.
  - apply orr_ok; [eauto|]. apply orr_ok; [eauto|]. apply orr_first. apply (less_lats _ _ _ _ _ _ _ _ _ G RJ L). reflexivity.
  - apply orr_ok; [eauto|]. apply orr_ok; [eauto|]. apply orr_ok; [eauto|]. apply orr_first. apply (less_lats _ _ _ _ _ _ _ _ _ G RJ L). rewrite Z.eqb_refl. reflexivity.
Qed.
Lemma lon_beyond lats lons ys xs I J ab rt q : rect_grid ys xs lats lons -> rising xs \/ falling xs -> 2 <= zlen ys -> 2 <= zlen xs -> beyond xs J q -> after xs J q rt -> 0 <= I < zlen ys ->
  beyond_edge lats lons I J (zlen ys) (zlen xs) ab rt = Ok true \/
  (exists b, beyond_edge lats lons I J (zlen ys) (zlen xs) ab rt = Ok b /\ rt = false /\ J = zlen xs - 1 /\ less xs (J - 1) J false).
Proof.
  intros G M NY N B (a & Ha & Eab) RI. destruct (axis_beyond _ _ _ M N B) as (b & (a' & Ha' & Eb) & R & C). rewrite Ha in Ha'. injection Ha' as <-. rewrite <- Eab in Eb. subst b.
  pose proof (proj1 G) as RL. pose proof (proj1 (proj2 G)) as RO. unfold beyond_edge.
  destruct (lat_tests lats _ _ I J (ab && (I =? zlen ys - 1)) (I - 1) I RL) as (b1 & E1); [intros c; cond; lia|auto|auto|].
  destruct (lat_tests lats _ _ I J (negb ab && (I =? 0)) 0 1 RL) as (b2 & E2); [intros c; cond; lia|auto|auto|].
  destruct (lat_tests lats _ _ I J (ab && (I =? 0)) 1 0 RL) as (b3 & E3); [intros c; cond; lia|auto|auto|].
  destruct (lat_tests lats _ _ I J (negb ab && (I =? zlen ys - 1)) I (I - 1) RL) as (b4 & E4); [intros c; cond; lia|auto|auto|].
  rewrite E1, E2, E3, E4.
  assert (LT : forall c i k, (c = true -> 0 <= i < zlen xs /\ 0 <= k < zlen xs) -> exists b, when_less c lons I i I k = Ok b).
  { intros c i k H. apply wl_ok. intros e. destruct (H e) as [Hi Hk]. destruct (rect_get2 _ _ _ _ _ RO RI Hi) as [u ->]. destruct (rect_get2 _ _ _ _ _ RO RI Hk) as [v ->]. eauto. }
  destruct (LT (rt && (J =? zlen xs - 1))%bool (J - 1) J) as (b5 & E5); [intros c; cond; lia|].
  destruct (LT (negb rt && (J =? 0))%bool 0 1) as (b6 & E6); [intros c; cond; lia|].
  destruct C as [(-> & -> & L)|[(-> & -> & L)|[(-> & -> & L)|(-> & -> & L & L')]]].
  - left. do 4 (apply orr_ok; [eauto|]). apply orr_first. apply (less_lons _ _ _ _ _ _ _ _ _ G RI L). rewrite Z.eqb_refl. reflexivity.
  - left. do 5 (apply orr_ok; [eauto|]). apply orr_first. apply (less_lons _ _ _ _ _ _ _ _ _ G RI L). reflexivity.
  - left. do 6 (apply orr_ok; [eauto|]). apply orr_first. apply (less_lons _ _ _ _ _ _ _ _ _ G RI L). reflexivity.
  - right. destruct (LT (negb false && (I =? zlen xs - 1))%bool (zlen xs - 1) (zlen xs - 1 - 1)) as (b8 & E8); [intros c; lia|].
    cbn [andb negb] in *. rewrite E6, E8. destruct b1, b2, b3, b4, b6; cbn [orr bind when_less]; (eexists; split; [reflexivity|]; split; [reflexivity|]; split; [reflexivity|exact L']).
Qed.
Lemma orr_inv r k : orr r k = Ok false -> r = Ok false /\ k = Ok false.
Proof. destruct r as [[]| | |]; cbn; try discriminate. auto. Qed.
Definition placed (l : list Qc) (k : Z) (q : Qc) : Prop := near_step l k q \/ beyond l k q.
Lemma placed_range l k q : placed l k q -> 0 <= k < zlen l.
Proof. intros [(i & w & S & K)|(a & Ha & _)]; [apply step_range in S; lia|apply znth_range in Ha; auto]. Qed.
Lemma find_beyond E off ys xs lats lons I J lat lon : rect_grid ys xs lats lons -> rising ys \/ falling ys -> rising xs \/ falling xs -> 2 <= zlen ys -> 2 <= zlen xs ->
  placed ys I lat -> placed xs J lon -> beyond ys I lat \/ beyond xs J lon -> off = Ok tt \/ rising xs -> find_coords E off (Fin lat) (Fin lon) lats lons I J = Ok None.
Proof.
  intros G My Mx Ny Nx Py Px B OFF. pose proof (placed_range _ _ _ Py) as RI. pose proof (placed_range _ _ _ Px) as RJ.
  destruct (znth_some ys I RI) as [la Hla]. destruct (znth_some xs J RJ) as [lo Hlo].
  unfold find_coords. rewrite (lons_get _ _ _ _ _ _ _ G RI Hlo), (lats_get _ _ _ _ _ _ _ G Hla RJ). cbn [bind vltb].
  destruct (znth_some ys 0) as [y0 Hy0]; [lia|]. destruct (first_row _ _ _ _ _ G Hy0) as (row & Er & Lr). rewrite Er. cbn [bind]. rewrite Lr, (proj1 (proj1 G)).
  rewrite (proj2 (Z.ltb_lt I (zlen ys))), (proj2 (Z.leb_le 0 I)), (proj2 (Z.ltb_lt J (zlen xs))), (proj2 (Z.leb_le 0 J)) by lia. cbn [andb assert_ bind].
  assert (Ay : after ys I lat (qltb la lat)) by (exists la; auto). assert (Ax : after xs J lon (qltb lo lon)) by (exists lo; auto).
  destruct B as [B|B].
  - rewrite (lat_beyond _ _ _ _ _ _ _ _ _ G My Ny B Ay RJ). reflexivity.
  - destruct (lon_beyond _ _ _ _ _ _ (qltb la lat) _ _ G Mx Ny Nx B Ax RI) as [->|(b & -> & Rt & EJ & L)]; [reflexivity|]. cbn [bind]. destruct b; [reflexivity|].
    destruct OFF as [-> |Rx].
    2:{ exfalso. destruct L as (u & v & Hu & Hv & e). apply qltb_false in e. apply (Qclt_not_le _ _ (Rx (J - 1) u v Hu ltac:(replace (J - 1 + 1) with J by lia; auto)) e). }
    match goal with |- context [bind ?X _] => assert (EI : exists b, X = Ok b) end.
    { destruct (Z.eqb_spec I 0); eauto. destruct (znth_some ys (I - 1)) as [p Hp]; [lia|]. rewrite (lats_get _ _ _ _ _ _ _ G Hp RJ). cbn [bind]. eauto. }
    destruct EI as (inc & ->). cbn [bind]. destruct (Z.eqb_spec J 0); [lia|]. destruct L as (u & v & Hu & Hv & e). rewrite (lons_get _ _ _ _ _ _ _ G RI Hu). cbn [bind].
    rewrite Hlo in Hv. injection Hv as <-. rewrite Rt. cbn [vltb]. rewrite e. unfold get_pair. cbn [bind Bool.eqb].
    destruct (if Bool.eqb (qltb la lat) inc then _ else _) as [I1 I2]. replace (J + 1 <? zlen xs) with false by (symmetry; apply Z.ltb_ge; lia). rewrite !andb_false_r. reflexivity.
Qed.
Definition present_number (v : val) : Prop := exists q, v = Fin q /\ ~ missing v.
Lemma cvalid_present v : cvalid v = true <-> exists q, v = Fin q /\ ~ missing v.
Proof.
  split.
  - intros H. apply cvalid_true in H as (q & -> & N). exists q. split; auto.
  - intros (q & -> & N). apply cvalid_true. exists q. split; auto.
Qed.
Lemma cell_of_valid (f : res val) (read : Z -> Z -> val -> Prop) i j s u own v0 v1 v2 v3 (other : res val) : read i j v0 -> read (i + 1) j v1 -> read i (j + 1) v2 -> read (i + 1) (j + 1) v3 -> other = Ok own ->
  (forall q0 q1 q2 q3, v0 = Fin q0 -> v1 = Fin q1 -> v2 = Fin q2 -> v3 = Fin q3 -> f = Ok (Fin (blend q0 q1 q2 q3 s u))) ->
  exists w, (if cvalid v0 && cvalid v1 && cvalid v2 && cvalid v3 then f else other) = Ok w /\ cell_value read i j s u own w.
Proof.
  intros R0 R1 R2 R3 EO F. destruct (cvalid v0 && cvalid v1 && cvalid v2 && cvalid v3)%bool eqn:C.
  - rewrite !andb_true_iff in C. destruct C as [[[C0 C1] C2] C3]. apply cvalid_present in C0 as (q0 & -> & N0), C1 as (q1 & -> & N1), C2 as (q2 & -> & N2), C3 as (q3 & -> & N3).
    rewrite (F q0 q1 q2 q3) by auto. eexists. split; [reflexivity|]. exists (Fin q0), (Fin q1), (Fin q2), (Fin q3). do 4 (split; [auto|]). split.
    + intros p0 p1 p2 p3 ([= ->] & [= ->] & [= ->] & [= ->] & _). reflexivity.
    + intros [M|[M|[M|M]]]; contradiction.
  - exists own. split; [auto|]. exists v0, v1, v2, v3. do 4 (split; [auto|]). split; [|auto].
    intros q0 q1 q2 q3 (-> & -> & -> & -> & N0 & N1 & N2 & N3). exfalso. rewrite !(proj2 (cvalid_present _)) in C by eauto. discriminate.
Qed.
Lemma clamped_unit p q : clamped p q -> unit_range p -> q = p.
Proof. intros [(_ & _ & ->)|[(h & _)|(h & _)]] [h1 h2]; auto; exfalso; exact (Qclt_not_le _ _ h ltac:(assumption)). Qed.
Lemma unit_nearly p : unit_range p -> nearly_unit p.
Proof. intros [h h']. split; eapply Qcle_trans; eauto; vm_compute; discriminate. Qed.
Lemma value_inside E keep ys xs ilats ilons olats olons m read i0 j0 lat lon a b i j u s : rect_grid ys xs ilats ilons -> rising ys \/ falling ys -> rising xs \/ falling xs ->
  sited olats olons m i0 j0 lat lon a b -> in_step ys i lat u -> in_step xs j lon s -> a = i \/ a = i + 1 -> b = j \/ b = j + 1 -> ~ lost ys xs a b ->
  (forall y x, 0 <= y < zlen ys -> 0 <= x < zlen xs -> exists v, read y x = Ok v) ->
  exists w own, bilinear_value E (Ok tt) keep ilats ilons olats olons m read i0 j0 = Ok w /\ read a b = Ok own /\ cell_value (fun y x v => read y x = Ok v) i j s u (if keep then own else CMV) w.
Proof.
  intros G My Mx (E1 & E2 & E3) Sy Sx HI HJ NL RD. pose proof (step_range _ _ _ _ Sy) as Ry. pose proof (step_range _ _ _ _ Sx) as Rx. pose proof G as G'.
  unfold bilinear_value. rewrite E3, E1, E2. cbn [bind]. rewrite (find_rect E _ _ _ _ _ _ _ _ _ _ _ _ G My Mx Sy Sx HI HJ NL). cbn [bind]. unfold box_value.
  pose proof Sy as (p & q & Ha & Hb & _). pose proof Sx as (c & d & Hc & Hd & _).
  destruct (step_neq _ _ _ _ _ _ Sy Ha Hb) as [Ny Wy]. destruct (step_neq _ _ _ _ _ _ Sx Hc Hd) as [Nx Wx].
  assert (Q1 : 0 <= i < zlen ys) by lia. assert (Q2 : 0 <= i + 1 < zlen ys) by lia. assert (Q3 : 0 <= j < zlen xs) by lia. assert (Q4 : 0 <= j + 1 < zlen xs) by lia.
  unfold box_corners.
  rewrite (lons_get _ _ _ _ _ _ _ G' Q1 Hc), (lons_get _ _ _ _ _ _ _ G' Q2 Hc), (lons_get _ _ _ _ _ _ _ G' Q1 Hd), (lons_get _ _ _ _ _ _ _ G' Q2 Hd),
      (lats_get _ _ _ _ _ _ _ G' Ha Q3), (lats_get _ _ _ _ _ _ _ G' Ha Q4), (lats_get _ _ _ _ _ _ _ G' Hb Q3), (lats_get _ _ _ _ _ _ _ G' Hb Q4). cbn [bind].
  destruct (RD i j Q1 Q3) as [v0 R0]. destruct (RD (i + 1) j Q2 Q3) as [v1 R1]. destruct (RD i (j + 1) Q1 Q4) as [v2 R2]. destruct (RD (i + 1) (j + 1) Q2 Q4) as [v3 R3].
  destruct (RD a b ltac:(lia) ltac:(lia)) as [own Ro]. rewrite R0, R1, R2, R3. cbn [bind].
  pose proof (step_unit _ _ _ _ Sx) as Us. pose proof (step_unit _ _ _ _ Sy) as Uu. pose proof (unit_flip _ Uu) as Uf.
  edestruct (cell_of_valid (client_cell E (Fin lon) (Fin lat) (Fin c) (Fin c) (Fin d) (Fin d) (Fin p) (Fin q) (Fin p) (Fin q) v0 v1 v2 v3) (fun y x v => read y x = Ok v) i j s u (if keep then own else CMV) v0 v1 v2 v3 (if keep then read a b else Ok CMV)) as (w & Ew & C); eauto.
  - destruct keep; auto.
  - intros q0 q1 q2 q3 -> -> -> ->.
    destruct (cell_value_ok E (Fin lon) (Fin lat) (Fin c) (Fin c) (Fin d) (Fin d) (Fin p) (Fin q) (Fin p) (Fin q) q0 q1 q2 q3 s (1 - u)%Qc) as (s' & t' & C1 & C2 & _ & _ & ->).
    + rewrite rect_st by auto. rewrite <- Wx, <- Wy. reflexivity.
    + apply unit_nearly; auto.
    + apply unit_nearly; auto.
    + rewrite (clamped_unit _ _ C1 Us), (clamped_unit _ _ C2 Uf). do 3 f_equal. ring.
Qed.
Lemma value_rect E keep ys xs ilats ilons olats olons m read i0 j0 lat lon a b : rect_grid ys xs ilats ilons -> rising ys \/ falling ys -> rising xs \/ falling xs -> 2 <= zlen ys -> 2 <= zlen xs ->
  sited olats olons m i0 j0 lat lon a b -> well_sited ys xs lat lon a b -> (near_step ys a lat -> near_step xs b lon -> ~ lost ys xs a b) ->
  (forall y x, 0 <= y < zlen ys -> 0 <= x < zlen xs -> exists v, read y x = Ok v) ->
  exists w own, bilinear_value E (Ok tt) keep ilats ilons olats olons m read i0 j0 = Ok w /\ read a b = Ok own /\ interpolated ys xs lat lon a b (fun y x v => read y x = Ok v) (if keep then own else CMV) w.
Proof.
  intros G My Mx Ny Nx S [Wy Wx] NL RD.
  assert (B : (beyond ys a lat \/ beyond xs b lon) \/ (near_step ys a lat /\ near_step xs b lon)) by (destruct Wy, Wx; auto).
  destruct (RD a b (placed_range _ _ _ Wy) (placed_range _ _ _ Wx)) as [own Ro].
  destruct B as [B|[(i & u & Sy & Hi) (j & s & Sx & Hj)]].
  - exists own, own. assert (EV : bilinear_value E (Ok tt) keep ilats ilons olats olons m read i0 j0 = Ok own).
    { destruct S as (E1 & E2 & E3). unfold bilinear_value. rewrite E3, E1, E2. cbn [bind]. rewrite (find_beyond E (Ok tt) ys xs ilats ilons a b lat lon G My Mx Ny Nx Wy Wx B (or_introl eq_refl)). exact Ro. }
    split; [exact EV|]. split; [exact Ro|]. split; [|auto]. intros N1 N2. destruct N1 as (i & u & Sy & Hi), N2 as (j & s & Sx & Hj).
    destruct (value_inside E keep ys xs ilats ilons olats olons m read i0 j0 lat lon a b i j u s G My Mx S Sy Sx Hi Hj) as (w & own' & Ew & Eo & C); auto.
    { apply NL; [exists i, u|exists j, s]; auto. }
    rewrite EV in Ew. injection Ew as <-. rewrite Ro in Eo. injection Eo as <-. exists i, j, u, s. auto 8.
  - assert (N1 : near_step ys a lat) by (exists i, u; auto). assert (N2 : near_step xs b lon) by (exists j, s; auto).
    destruct (value_inside E keep ys xs ilats ilons olats olons m read i0 j0 lat lon a b i j u s G My Mx S Sy Sx Hi Hj (NL N1 N2) RD) as (w & own' & Ew & Eo & C).
    exists w, own'. split; [auto|]. split; [auto|]. split.
    + intros _ _. exists i, j, u, s. auto 8.
    + intros B. destruct S as (E1 & E2 & E3). unfold bilinear_value in Ew. rewrite E3, E1, E2 in Ew. cbn [bind] in Ew. rewrite (find_beyond E (Ok tt) ys xs ilats ilons a b lat lon G My Mx Ny Nx Wy Wx B (or_introl eq_refl)) in Ew. exact Ew.
Qed.
Lemma get4_element fs t y x e v : get4 fs t y x e = Ok v <-> element fs t y x e v.
Proof.
  unfold get4, element. destruct (znth fs t) as [f| | |]; cbn [bind]; split; intros H; try discriminate; try (destruct H as (? & ? & _); discriminate); [eauto|].
  destruct H as (g & [= <-] & ?). auto.
Qed.
Lemma cell_ext (R R' : Z -> Z -> val -> Prop) i j s u own w : (forall y x v, R y x v -> R' y x v) -> cell_value R i j s u own w -> cell_value R' i j s u own w.
Proof. intros H (v0 & v1 & v2 & v3 & ? & ? & ? & ? & ?). exists v0, v1, v2, v3. auto 8. Qed.
Lemma interpolated_ext ys xs lat lon a b (R R' : Z -> Z -> val -> Prop) own w : (forall y x v, R y x v -> R' y x v) -> interpolated ys xs lat lon a b R own w -> interpolated ys xs lat lon a b R' own w.
Proof.
  intros H [A B]. split; [|auto]. intros N1 N2. destruct (A N1 N2) as (i & j & u & s & ? & ? & ? & ? & C). exists i, j, u, s. do 4 (split; [auto|]). eapply cell_ext; eauto.
Qed.
Lemma c210 E ys xs ilats ilons olats olons m di d ifs ofs : rect_grid ys xs ilats ilons -> rising ys \/ falling ys -> rising xs \/ falling xs -> 2 <= zlen ys -> 2 <= zlen xs ->
  d_y di = zlen ys -> d_x di = zlen xs -> d_e di = d_e d -> d_t di = d_t d -> shaped di ifs -> shaped d ofs ->
  (forall y x, 0 <= y < d_y d -> 0 <= x < d_x d -> exists lat lon a b, sited olats olons m y x lat lon a b /\ well_sited ys xs lat lon a b /\ (near_step ys a lat -> near_step xs b lon -> ~ lost ys xs a b)) ->
  exists out, bilinear_downscaler E (Ok tt) ilats ilons olats olons m ifs d ofs = Ok out /\ shaped d out /\
    forall t y x e lat lon a b, 0 <= t < d_t d -> within d y x e -> sited olats olons m y x lat lon a b ->
      exists w, element out t y x e w /\ interpolated ys xs lat lon a b (fun i j v => element ifs t i j e v) (Fin missing_number) w.
Proof.
  intros G My Mx Ny Nx Dy Dx De Dt SI SO HS.
  destruct (write_ok d ofs (fun t i j e => bilinear_value E (Ok tt) false ilats ilons olats olons m (fun y x => get4 ifs t y x e) i j)
    (fun t y x e w => forall lat lon a b, sited olats olons m y x lat lon a b -> interpolated ys xs lat lon a b (fun i j v => element ifs t i j e v) (Fin missing_number) w) SO) as (out & Eo & S & P).
  - intros t y x e Ht (Wy & Wx & We). destruct (HS y x Wy Wx) as (lat & lon & a & b & S & W & NL).
    destruct (value_rect E false ys xs ilats ilons olats olons m (fun y x => get4 ifs t y x e) y x lat lon a b G My Mx Ny Nx S W NL) as (w & own & Ew & _ & I).
    { intros i j Hi Hj. destruct (shaped_elem di ifs t i j e SI) as (v & _ & Hv); [lia|unfold within; lia|]. exists v. auto. }
    exists w. split; [auto|]. intros lat' lon' a' b' (S1 & S2 & S3). destruct S as (S1' & S2' & S3'). rewrite S1 in S1'. rewrite S2 in S2'. rewrite S3 in S3'. injection S1' as ->. injection S2' as ->. injection S3' as -> ->.
    eapply interpolated_ext; [|exact I]. intros i j v. apply get4_element.
  - exists out. split; [auto|]. split; [auto|]. intros t y x e lat lon a b Ht W S'. destruct (P t y x e Ht W) as (w & Hw & Q). exists w. split; auto.
Qed.
Lemma foldM_each {S A} (step : S -> A -> res S) (Q : A -> Prop) l : (forall s a s', In a l -> step s a = Ok s' -> Q a) -> forall s s', foldM step s l = Ok s' -> forall a, In a l -> Q a.
Proof.
  induction l as [|b l IH]; intros H s s' F a [].
  - subst b. cbn in F. destruct (step s a) as [s1| | |] eqn:E1; try discriminate. eapply H; [left; reflexivity|exact E1].
  - cbn in F. destruct (step s b) as [s1| | |]; try discriminate. cbn [bind] in F. eapply IH; eauto. intros; eapply H; [right|]; eauto.
Qed.
Lemma write_inv d ofs value out : shaped d ofs -> write_elements d ofs value = Ok out ->
  shaped d out /\ forall t y x e, 0 <= t < d_t d -> within d y x e -> exists w, value t y x e = Ok w /\ element out t y x e w.
Proof.
  intros SO W. assert (V : forall t y x e, 0 <= t < d_t d -> within d y x e -> exists w, value t y x e = Ok w).
  { intros t y x e Ht Hw. unfold write_elements, each_time in W. pose proof (mapM_inv _ _ _ W) as M.
    destruct (proj2 M t t) as (g & _ & Eg). { rewrite znth_zrange by lia. reflexivity. }
    destruct (znth ofs t) as [f| | |]; try discriminate. cbn [bind] in Eg. unfold for3 in Eg.
    refine (foldM_each _ (fun c => let '(y, x, e) := c in exists w, value t y x e = Ok w) _ _ _ _ Eg (y, x, e) (proj2 (in_cells _ _ _ _ _ _) Hw)).
    intros s [[y' x'] e'] s' _. destruct (value t y' x' e') as [w| | |]; cbn [bind]; try discriminate; eauto. }
  destruct (write_ok d ofs value (fun t y x e w => value t y x e = Ok w) SO) as (out' & Eo & S & P).
  { intros t y x e Ht Hw. destruct (V t y x e Ht Hw) as (w & Ew). eauto. }
  rewrite W in Eo. injection Eo as <-. split; auto. intros t y x e Ht Hw. destruct (P t y x e Ht Hw) as (w & ? & ?). eauto.
Qed.
Lemma value_any E keep ny nx ilats ilons olats olons m read i0 j0 w : rect ny nx ilats -> rect ny nx ilons -> bilinear_value E (Ok tt) keep ilats ilons olats olons m read i0 j0 = Ok w ->
  exists a b, get2 m i0 j0 = Ok (a, b) /\ 0 <= a < ny /\ 0 <= b < nx /\ (read a b = Ok w \/ average (fun y x v => read y x = Ok v) a b CMV w).
Proof.
  intros RL RO. unfold bilinear_value. destruct (get2 m i0 j0) as [[a b]| | |]; try discriminate. cbn [bind]. destruct (get2 olats i0 j0) as [lat| | |]; try discriminate. cbn [bind].
  destruct (get2 olons i0 j0) as [lon| | |]; try discriminate. cbn [bind]. destruct (find_coords E (Ok tt) lat lon ilats ilons a b) as [[[[[I1 J1] I2] J2]|]| | |] eqn:F; try discriminate; cbn [bind].
  - destruct (find_sound _ _ _ _ _ _ _ _ _ _ _ _ _ RL RO F) as (-> & -> & HI & HJ & Ra & Rb & p & q & ST & Np & Nq). intros BV. exists a, b. split; [auto|]. split; [auto|]. split; [auto|].
    unfold box_value, box_st in *. destruct (box_corners ilons I1 J1 (I1 + 1) (J1 + 1)) as [[[[x0 x1] x2] x3]| | |]; try discriminate. cbn [bind] in *.
    destruct (box_corners ilats I1 J1 (I1 + 1) (J1 + 1)) as [[[[y0 y1] y2] y3]| | |]; try discriminate. cbn [bind] in *.
    destruct (read I1 J1) as [v0| | |] eqn:R0; try discriminate. destruct (read (I1 + 1) J1) as [v1| | |] eqn:R1; try discriminate. destruct (read I1 (J1 + 1)) as [v2| | |] eqn:R2; try discriminate. destruct (read (I1 + 1) (J1 + 1)) as [v3| | |] eqn:R3; try discriminate.
    cbn [bind] in BV. destruct (cvalid v0 && cvalid v1 && cvalid v2 && cvalid v3)%bool eqn:C.
    + rewrite !andb_true_iff in C. destruct C as [[[C0 C1] C2] C3]. apply cvalid_present in C0 as (q0 & -> & N0), C1 as (q1 & -> & N1), C2 as (q2 & -> & N2), C3 as (q3 & -> & N3).
      destruct (cell_value_ok E lon lat x0 x1 x2 x3 y0 y1 y2 y3 q0 q1 q2 q3 p q ST Np Nq) as (s & t & _ & _ & Us & Ut & Ec). rewrite Ec in BV. injection BV as <-.
      right. exists I1, J1, s, (1 - t)%Qc. split; [split; auto|]. split; [auto|]. split; [apply unit_flip; auto|]. exists (Fin q0), (Fin q1), (Fin q2), (Fin q3). do 4 (split; [auto|]). split.
      * intros p0 p1 p2 p3 ([= ->] & [= ->] & [= ->] & [= ->] & _). reflexivity.
      * intros [M|[M|[M|M]]]; contradiction.
    + destruct keep; [left; exact BV|]. injection BV as <-. right. exists I1, J1, 0%Qc, 0%Qc. split; [split; auto|]. assert (U : unit_range 0) by (split; vm_compute; discriminate). split; [auto|]. split; [auto|].
      exists v0, v1, v2, v3. do 4 (split; [auto|]). split; [|auto]. intros q0 q1 q2 q3 (-> & -> & -> & -> & N0 & N1 & N2 & N3). exfalso. rewrite !(proj2 (cvalid_present _)) in C by eauto. discriminate.
  - intros R. exists a, b. split; [auto|]. assert (0 <= a < ny /\ 0 <= b < nx) as [Ra Rb]; [|auto].
    unfold find_coords in F. destruct (get2 ilons a b); try discriminate. destruct (get2 ilats a b); try discriminate. cbn [bind] in F. destruct (znth ilats 0) as [row| | |] eqn:E0; try discriminate. cbn [bind] in F.
    rewrite (proj2 RL row), (proj1 RL) in F by (eapply znth_In; eauto). destruct ((a <? ny) && (0 <=? a))%bool eqn:B1; try discriminate. cbn [assert_ bind] in F. destruct ((b <? nx) && (0 <=? b))%bool eqn:B2; try discriminate.
    apply andb_prop in B1 as [B1 B1'], B2 as [B2 B2']. apply Z.ltb_lt in B1, B2. apply Z.leb_le in B1', B2'. lia.
Qed.
Lemma average_ext (R R' : Z -> Z -> val -> Prop) a b own w : (forall y x v, R y x v -> R' y x v) -> average R a b own w -> average R' a b own w.
Proof. intros H (i & j & s & u & ? & ? & ? & C). exists i, j, s, u. do 3 (split; [auto|]). eapply cell_ext; eauto. Qed.
Lemma c211 E ny nx ilats ilons olats olons m ifs d ofs out : rect ny nx ilats -> rect ny nx ilons -> shaped d ofs -> bilinear_downscaler E (Ok tt) ilats ilons olats olons m ifs d ofs = Ok out ->
  shaped d out /\ forall t y x e, 0 <= t < d_t d -> within d y x e -> exists a b w, get2 m y x = Ok (a, b) /\ 0 <= a < ny /\ 0 <= b < nx /\ element out t y x e w /\
    (element ifs t a b e w \/ average (fun i j v => element ifs t i j e v) a b (Fin missing_number) w).
Proof.
  intros RL RO SO W. destruct (write_inv _ _ _ _ SO W) as [S P]. split; auto. intros t y x e Ht Hw. destruct (P t y x e Ht Hw) as (w & Ew & El).
  destruct (value_any _ _ _ _ _ _ _ _ _ _ _ _ _ RL RO Ew) as (a & b & Em & Ra & Rb & C). exists a, b, w. do 4 (split; [auto|]).
  destruct C as [C|C]; [left; apply get4_element; auto|right]. eapply average_ext; [|exact C]. intros i j v. apply get4_element.
Qed.
