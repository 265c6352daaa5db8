(** The ensemble-based analysis: evaluating the transform for two members. *)
From Coq Require Import Lra.
From Verif Require Import Base QcTac ListLib RBase P_RBase M_Geo S_Geo M_Stat M_OI M_EnsMulti M_Ensi S_OI P_OISum P_OI P_OIInv P_OIRef S_EnsMulti S_Ensi P_RSum P_EnsiAlg P_EnsiCell P_EnsiSpec P_EnsiRoot.
Local Open Scope Z_scope.

Lemma rltb_q a b : rltb (RF (qr a)) (RF (qr b)) = qltb a b.
Proof.
  cbn. unfold Rltb. destruct (qltb_spec a b) as [H|H], (Rlt_dec (qr a) (qr b)) as [H'|H']; auto; exfalso.
  - apply H'. apply qr_lt. exact H.
  - apply H. destruct (Qclt_le_dec a b) as [X|X]; [exact X|]. apply qr_le in X. lra.
Qed.
(** inverses are unique *)
Lemma inv_uniq I (P P' M : Z -> Z -> Qc) : NoDup I -> (forall i j, In i I -> In j I -> tot I (fun k => P i k * M k j)%Qc = unit_ i j) ->
  (forall i j, In i I -> In j I -> tot I (fun k => M i k * P' k j)%Qc = unit_ i j) -> forall i j, In i I -> In j I -> P i j = P' i j.
Proof.
  intros ND H1 H2 i j Hi Hj.
  transitivity (tot I (fun k => P i k * tot I (fun h => M k h * P' h j))%Qc).
  - rewrite (tot_ext I _ (fun k => P i k * unit_ k j)%Qc) by (intros k Hk; rewrite H2 by assumption; reflexivity). symmetry. apply (tot_delta I (fun k => P i k) j ND Hj).
  - rewrite (tot_ext I _ (fun k => tot I (fun h => P i k * M k h * P' h j))%Qc) by (intros; rewrite <- tot_mul_l; apply tot_ext; intros; ring).
    rewrite tot_swap. rewrite (tot_ext I _ (fun h => P' h j * unit_ h i)%Qc).
    + apply (tot_delta I (fun h => P' h j) i ND Hi).
    + intros h Hh. rewrite tot_mul_r, H1 by assumption. unfold unit_. rewrite (Z.eqb_sym i h). ring.
Qed.
Lemma eig0_sym M A : entries 2 M A -> A 0 1 = A 1 0 -> eig0 M <> None.
Proof.
  intros [[L1 L2] HE] Sy X.
  destruct M as [|r0 [|r1 [|r2 M]]]; unfold zlen in L1; cbn in L1; try lia.
  pose proof (L2 r0 ltac:(cbn; auto)) as K0. pose proof (L2 r1 ltac:(cbn; auto)) as K1.
  destruct r0 as [|a [|b [|? r0]]]; unfold zlen in K0; cbn in K0; try lia. destruct r1 as [|c [|d [|? r1]]]; unfold zlen in K1; cbn in K1; try lia.
  pose proof (HE 0 0 ltac:(lia) ltac:(lia)) as E00. pose proof (HE 0 1 ltac:(lia) ltac:(lia)) as E01. pose proof (HE 1 0 ltac:(lia) ltac:(lia)) as E10. pose proof (HE 1 1 ltac:(lia) ltac:(lia)) as E11.
  cbn in E00, E01, E10, E11. injection E00 as ->. injection E01 as ->. injection E10 as ->. injection E11 as ->. cbn in X. rewrite Sy in X.
  destruct (qeqb_spec (A 1 0) (A 1 0)); [discriminate|congruence].
Qed.

Section Two.
Variables (valid : list Z) (ex : bool) (lS nE : Z) (g sig lObs lYhat : vec) (lY : vec2) (row : vec).
Hypothesis HlS : 0 < lS.
Hypothesis NDV : NoDup valid.
Hypothesis HV : forall e, In e valid -> 0 <= e < nE.
Hypothesis LR : zlen row = nE.
Hypothesis NV : zlen valid = 2.
Variables (U : list Z) (Y : Z -> Z -> Qc) (gg s o h : Z -> Qc) (xx : Z -> Qc).
Hypothesis HU : zlen U = lS.
Hypothesis Fg : forall i, 0 <= i < lS -> znth g i = Ok (Fin (gg (ix U i))) /\ (0 < gg (ix U i))%Qc.
Hypothesis Fs : forall i, 0 <= i < lS -> znth sig i = Ok (Fin (s (ix U i))) /\ s (ix U i) <> 0%Qc.
Hypothesis Fo : forall i, 0 <= i < lS -> znth lObs i = Ok (Fin (o (ix U i))).
Hypothesis Fh : forall i, 0 <= i < lS -> znth lYhat i = Ok (Fin (h (ix U i))).
Hypothesis FY : mat lS 2 lY (fun i e => Y (ix U i) e).
Hypothesis Fx : forall i, 0 <= i < 2 -> znth row (ix valid i) = Ok (Fin (xx i)).
Notation I := (zrange 0 2).
Notation pinv' := (pinv U Y (rin gg s) 1%Qc).
Notation d := (fun k => o k - h k)%Qc.
Variables P0 W0 : Z -> Z -> Qc.
Hypothesis HP0 : forall i j, In i I -> In j I -> tot I (fun k => P0 i k * pinv' k j)%Qc = unit_ i j.
Hypothesis SP : P0 0 1 = P0 1 0.
Hypothesis SW : W0 0 1 = W0 1 0.
Hypothesis PW : forall c0 c1, (0 <= qr (W0 0 0) * (c0 * c0) + 2 * qr (W0 0 1) * (c0 * c1) + qr (W0 1 1) * (c1 * c1))%R.
Hypothesis QW : forall i j, In i I -> In j I -> tot I (fun k => W0 i k * W0 k j)%Qc = P0 i j.
Definition inc0 (e : Z) : Qc := tot I (fun k => (xx k - tot I xx / qz 2) * (W0 k e + wvec 2 U Y (rin gg s) P0 d k))%Qc.
Notation run := (core L0 EL0 valid ex lS g sig lObs lYhat lY row).
Lemma core_two : exists out, run = Ok out /\ zlen out = nE /\ (forall e, ~ In e valid -> znth out e = znth (map v2r row) e) /\
  forall e, 0 <= e < 2 -> exists z, znth out (ix valid e) = Ok (RF (qr (tot I xx / qz 2) + z)%R) /\
    (ex = true -> z = qr (inc0 e)) /\
    (ex = false -> RF z = ens_limit (RF (qr (inc0 e))) (RF (qr (xx e - tot I xx / qz 2)%Qc)) (v2r (amax (stdep lS U Y o h e))) (v2r (amin (stdep lS U Y o h e)))).
Proof.
  pose proof (core_fin L0 EL0 valid ex lS nE g sig lObs lYhat lY row lib_ok_L0 elib_ok_EL0 HlS NDV HV LR U Y gg s o h xx HU) as CF.
  rewrite NV in CF. change (qz (2 - 1)) with 1%Qc in CF.
  destruct (CF ltac:(lia) Fg Fs Fo Fh FY Fx) as [(M & A & EA & IA & EE & _)|(P & l & v & HS & out & Er & L1 & L2 & L3)].
  { exfalso.
    assert (IA' : forall i j, In i I -> In j I -> tot I (fun k => A i k * pinv' k j)%Qc = unit_ i j).
    { intros i j Hi Hj. rewrite <- (IA i j Hi Hj). apply tot_ext. intros k _. field. discriminate. }
    assert (R0 : forall i j, In i I -> In j I -> tot I (fun k => pinv' i k * P0 k j)%Qc = unit_ i j).
    { intros i j Hi Hj. apply in_zrange in Hi, Hj. apply (left_right 2 pinv' P0); try lia. intros i' j' Hi' Hj'. apply HP0; apply in_zrange; assumption. }
    apply (eig0_sym M A EA); [|exact EE].
    rewrite (inv_uniq I A P0 pinv' (NoDup_zrange 0 2) IA' R0 0 1), (inv_uniq I A P0 pinv' (NoDup_zrange 0 2) IA' R0 1 0) by (apply in_zrange; lia). exact SP. }
  exists out. split; [exact Er|]. split; [exact L1|]. split; [exact L2|].
  destruct HS as (PL & PR & Ort & Dec). rewrite NV in PL, PR, Ort, Dec. change (qz (2 - 1)) with 1%Qc in PL, PR, Ort, Dec.
  assert (EP : forall i j, In i I -> In j I -> P i j = P0 i j).
  { intros i j Hi Hj. symmetry. exact (inv_uniq I P0 P pinv' (NoDup_zrange 0 2) HP0 PR i j Hi Hj). }
  assert (SW' : forall i j, In i I -> In j I -> W0 i j = W0 j i).
  { intros i j Hi Hj. apply in_zrange in Hi, Hj. assert (i = 0 \/ i = 1) as [-> | ->] by lia; assert (j = 0 \/ j = 1) as [-> | ->] by lia; auto. }
  assert (Psd : forall c, (0 <= rtot I (fun i => c i * rtot I (fun j => qr (amat 1%Qc P i j) * c j)))%R).
  { assert (HN1 : (0 < 1)%Qc) by reflexivity. assert (Rp : forall k, In k U -> (0 < rin gg s k)%Qc). { intros k Hk. eapply rin_pos; eauto. }
    apply (amat_psd 2 U Y (rin gg s) 1%Qc HN1 Rp P PR). }
  assert (Ln : forall i, In i I -> (0 <= l i)%R).
  { intros i Hi. apply (eig_nonneg 2 (fun i j => qr (amat 1%Qc P i j)) v l Ort Dec Psd). exact Hi. }
  assert (EW : forall i j, In i I -> In j I -> root 2 v l i j = qr (W0 i j)).
  { apply (sqrt_unique I (root 2 v l) (fun i j => qr (W0 i j))).
    - split; [intros; apply root_sym|]. intros c. apply root_psd.
    - split; [intros e f He Hf; cbn beta; rewrite (SW' e f He Hf); reflexivity|]. intros c. rewrite rtot2, !rtot2. rewrite <- SW.
      pose proof (PW (c 0) (c 1)) as H. nra.
    - intros i j Hi Hj.
      transitivity (qr (amat 1%Qc P i j)).
      + exact (root_sq 2 (fun i j => qr (amat 1%Qc P i j)) v l Ort Dec Psd i j Hi Hj).
      + unfold amat. rewrite Qcmult_1_l, EP by assumption. rewrite <- QW by assumption. rewrite qr_tot. apply rtot_ext. intros k _. apply qr_mul. }
  assert (Ew : forall k, In k I -> wvec 2 U Y (rin gg s) P d k = wvec 2 U Y (rin gg s) P0 d k).
  { intros k Hk. unfold wvec. apply tot_ext. intros j Hj. rewrite EP by assumption. reflexivity. }
  intros e He. destruct (L3 e He) as (z & Ez & Z1 & Z2). unfold xb in Ez. rewrite NV in Ez. exists z. split; [exact Ez|].
  assert (Ei : incr valid U Y gg s o h xx P l v e = qr (inc0 e)).
  { unfold incr, inc0. rewrite NV. rewrite qr_tot. apply rtot_ext. intros k Hk. unfold xd, xb. rewrite NV, qr_mul, qr_add, EW, Ew by (try assumption; apply in_zrange; lia). reflexivity. }
  rewrite Ei in Z1, Z2. unfold xd, xb in Z2. rewrite NV in Z2. auto.
Qed.
End Two.

(** *** the function up to the solution *)
Section Gen.
Variable K : Z -> vec -> vec -> vec -> vec -> vec2 -> vec -> res (list rv).
Definition gen_cell (G : geo) (L : lib) (S : sfn) (bpts : points) (background : vec2) (pts : points) (pvec : list point)
  (pobs psigmas : vec) (gY : list (vec * val)) (max_points : Z) (valid : list Z) (y : Z) : res (list rv) :=
  row <- znth background y ;;
  lat <- znth (s_lats bpts) y ;;
  lon <- znth (s_lons bpts) y ;;
  p1 <- points_get bpts y ;;
  sel <- select G L S pts pvec (fun k => znth pobs k) max_points lat lon p1 ;;
  let lS := zlen sel in
  if lS =? 0 then Ok (map v2r row) else
  let U := map fst sel in
  let g := map snd sel in
  lObs <- mapM (fun k => znth pobs k) U ;;
  st <- mapM (fun k => znth gY k) U ;;
  lY <- mapM (fun s => mapM (fun ei => znth (fst s) ei) valid) st ;;
  let lYhat := map snd st in
  sig <- mapM (fun k => znth psigmas k) U ;;
  K lS g sig lObs lYhat lY row.
End Gen.
Lemma cell_gen G L EL S bpts background pts pvec pobs psigmas gY mp ex valid y :
  ensi_cell G L EL S bpts background pts pvec pobs psigmas gY mp ex valid y = gen_cell (core L EL valid ex) G L S bpts background pts pvec pobs psigmas gY mp valid y.
Proof. reflexivity. Qed.
Lemma ensi_gen E G L EL S bpts background pts pobs psigmas pbg mp ex r0 gY pvec valid :
  0 <= mp -> points_type bpts = points_type pts -> zlen background = points_size bpts -> zlen pobs = points_size pts -> zlen psigmas = points_size pts -> zlen pbg = points_size pts ->
  points_size pts <> 0 -> znth background 0 = Ok r0 -> mapM (fun i => row <- znth pbg i ;; perturb E (zlen r0) row) (zrange 0 (points_size pts)) = Ok gY ->
  mapM (points_get pts) (zrange 0 (points_size pts)) = Ok pvec -> members (zlen r0) [background] = Ok valid ->
  ensi E G L EL S bpts background pts pobs psigmas pbg mp ex = mapM (gen_cell (core L EL valid ex) G L S bpts background pts pvec pobs psigmas gY mp valid) (zrange 0 (zlen background)).
Proof.
  intros H1 H2 H3 H4 H5 H6 H7 H8 H9 H10 H11. unfold ensi. replace (mp <? 0) with false by lia. rewrite H2, H3, H4, H5, H6, !Z.eqb_refl. cbn [negb].
  replace (match points_type pts with Geodetic => match points_type pts with Geodetic => true | Cartesian => false end | Cartesian => match points_type pts with Geodetic => false | Cartesian => true end end) with true by (destruct (points_type pts); reflexivity).
  cbn [negb]. replace (points_size pts =? 0) with false by lia. rewrite H8. cbn [bind]. rewrite H9. cbn [bind]. rewrite H10. cbn [bind]. rewrite H11. cbn [bind]. reflexivity.
Qed.
Ltac to_core :=
  erewrite ensi_gen; [|try lia; try (vm_compute; discriminate); try (vm_compute; reflexivity) ..];
  match goal with |- context [core L0 ?EL ?v ?x] => generalize (core L0 EL v x) end;
  let K := fresh in intros K; vm_compute;
  match goal with |- match ?a with _ => _ end = match ?b with _ => _ end => replace a with b; [reflexivity|f_equal; veq] end.
Lemma two_list {A} (l : list A) a b : zlen l = 2 -> znth l 0 = Ok a -> znth l 1 = Ok b -> l = [a; b].
Proof. destruct l as [|x [|y [|z l]]]; unfold zlen; cbn; intros H; try lia. unfold znth; cbn. intros X1 X2. injection X1 as ->. injection X2 as ->. reflexivity. Qed.
Lemma three_list {A} (l : list A) a b c : zlen l = 3 -> znth l 0 = Ok a -> znth l 1 = Ok b -> znth l 2 = Ok c -> l = [a; b; c].
Proof. destruct l as [|x [|y [|z [|w l]]]]; unfold zlen; cbn; intros H; try lia. unfold znth; cbn. intros X1 X2 X3. injection X1 as ->. injection X2 as ->. injection X3 as ->. reflexivity. Qed.
Definition m2 (a b d : Qc) (i j : Z) : Qc := if i =? j then (if i =? 0 then a else d) else b.
Definition f2 (a b : Qc) (i : Z) : Qc := if i =? 0 then a else b.
Ltac in2 := let H := fresh in let K := fresh in intros ? ? H K; apply in_zrange in H; apply in_zrange in K;
  match type of H with 0 <= ?k < 2 => assert (k = 0 \/ k = 1) as [-> | ->] by lia end; match type of K with 0 <= ?k < 2 => assert (k = 0 \/ k = 1) as [-> | ->] by lia end.
Ltac rng := let H := fresh in intros ? H; match type of H with 0 <= ?k < 2 => assert (k = 0 \/ k = 1) as [-> | ->] by lia | 0 <= ?k < 1 => assert (k = 0) as -> by lia end.
Ltac qc := apply Qc_is_canon; vm_compute; reflexivity.
Definition P9 := m2 (Q2Qc (5 # 9)) (Q2Qc (4 # 9)) (Q2Qc (5 # 9)).
Definition W9 := m2 (Q2Qc (2 # 3)) (Q2Qc (1 # 3)) (Q2Qc (2 # 3)).
Definition P81 := m2 (Q2Qc (17 # 81)) (Q2Qc (32 # 81)) (Q2Qc (65 # 81)).
Definition W81 := m2 (Q2Qc (13 # 45)) (Q2Qc (16 # 45)) (Q2Qc (37 # 45)).
Lemma W9_psd c0 c1 : (0 <= qr (W9 0 0) * (c0 * c0) + 2 * qr (W9 0 1) * (c0 * c1) + qr (W9 1 1) * (c1 * c1))%R.
Proof. unfold W9, m2. cbn [Z.eqb Pos.eqb]. rewrite !qr_q. unfold Q2R. cbn [Qnum Qden].
  match goal with |- (0 <= ?t)%R => replace t with (((c0 + c1) * (c0 + c1) + c0 * c0 + c1 * c1) / 3)%R by field end. nra. Qed.
Lemma W81_psd c0 c1 : (0 <= qr (W81 0 0) * (c0 * c0) + 2 * qr (W81 0 1) * (c0 * c1) + qr (W81 1 1) * (c1 * c1))%R.
Proof. unfold W81, m2. cbn [Z.eqb Pos.eqb]. rewrite !qr_q. unfold Q2R. cbn [Qnum Qden].
  match goal with |- (0 <= ?t)%R => replace t with (((13 * c0 + 16 * c1) * (13 * c0 + 16 * c1) / 13 + 225 / 13 * (c1 * c1)) / 45)%R by field end.
  pose proof (Rle_0_sqr (13 * c0 + 16 * c1)). pose proof (Rle_0_sqr c1). unfold Rsqr in *. lra. Qed.

(** the filter on rational numbers *)
Definition qlimit (inc x hi lo : Qc) : Qc :=
  let m := (inc - x)%Qc in
  if (qltb 0 hi && qltb hi m)%bool then (hi + x)%Qc
  else if (qltb hi 0 && qltb 0 m)%bool then x
  else if (qltb lo 0 && qltb m lo)%bool then (lo + x)%Qc
  else if (qltb 0 lo && qltb m 0)%bool then x
  else inc.
Lemma ens_limit_q inc x hi lo : ens_limit (RF (qr inc)) (RF (qr x)) (RF (qr hi)) (RF (qr lo)) = RF (qr (qlimit inc x hi lo)).
Proof.
  unfold ens_limit, qlimit. cbv zeta. unfold rsub. cbn [rneg radd]. replace (qr inc + - qr x)%R with (qr (inc - x)%Qc) by (rewrite qr_sub; ring).
  change (rz 0) with (RF 0%R). rewrite <- qr_0. rewrite !rltb_q.
  repeat match goal with |- context [if ?c then _ else _] => destruct c end; cbn [radd]; f_equal; rewrite ?qr_add, ?qr_0; try reflexivity; ring.
Qed.
Ltac entry Ex Zx :=
  match type of Ex with context [ix ?u ?v] => let w := eval vm_compute in (ix u v) in change (ix u v) with w in Ex end;
  rewrite Ex; do 2 f_equal;
  first [rewrite Zx; rewrite <- qr_add; f_equal; qc
        |match type of Zx with context [v2r (amax ?l)] => let m := eval vm_compute in (amax l) in let q := match m with Fin ?q => q end in
           replace (amax l) with (Fin (Q2Qc (this q))) in Zx by (symmetry; vcalc); change (v2r (Fin (Q2Qc (this q)))) with (RF (qr (Q2Qc (this q)))) in Zx end;
         match type of Zx with context [v2r (amin ?l)] => let m := eval vm_compute in (amin l) in let q := match m with Fin ?q => q end in
           replace (amin l) with (Fin (Q2Qc (this q))) in Zx by (symmetry; vcalc); change (v2r (Fin (Q2Qc (this q)))) with (RF (qr (Q2Qc (this q)))) in Zx end;
         rewrite ens_limit_q in Zx; injection Zx as Zx; rewrite Zx; rewrite <- qr_add; f_equal; qc].
Ltac two_members Er L1 L2 L3 :=
  rewrite Er; cbn [bind];
  let z0 := fresh "z" in let z1 := fresh "z" in let A0 := fresh in let A1 := fresh in let B0 := fresh in let B1 := fresh in let C0 := fresh in let C1 := fresh in
  destruct (L3 0 ltac:(lia)) as (z0 & A0 & B0 & C0); destruct (L3 1 ltac:(lia)) as (z1 & A1 & B1 & C1);
  try specialize (B0 eq_refl); try specialize (B1 eq_refl); try specialize (C0 eq_refl); try specialize (C1 eq_refl);
  match type of Er with _ = Ok ?out => match goal with |- context [map v2r ?r] => idtac | |- _ => idtac end; match goal with |- Ok (out :: ?t) = Ok (?w :: ?t') => replace out with w; [reflexivity|symmetry] end end;
  first [apply two_list; [exact L1|first [entry A0 B0|entry A0 C0]|first [entry A1 B1|entry A1 C1]]
        |apply three_list; [exact L1|first [entry A0 B0|entry A0 C0]|first [entry A1 B1|entry A1 C1]|rewrite L2; [reflexivity|cbn; lia]]].
Ltac side := first [constructor; [cbn; lia|]; constructor; [cbn; tauto|constructor] | intros ? [<- |[<- |[]]]; lia
  | rng; (split; [vcalc|first [reflexivity|discriminate]]) | rng; vcalc
  | split; [rect_now|]; let i := fresh in let j := fresh in intros i j ? ?; assert (j = 0 \/ j = 1) as [-> | ->] by lia; first [assert (i = 0) as -> by lia; vcalc|assert (i = 0 \/ i = 1) as [-> | ->] by lia; vcalc]
  | in2; qc | exact W9_psd | exact W81_psd ].

(** two stations: an increment larger than both departures of the member *)
Lemma wit113 : ensi E0 G0 L0 EL0 (sf0 (qz 10)) (xpts [0]) [[fz 2; fz (-2)]] (xpts [0; 0]) [fz 1; fz 3] [fz 1; fz 1] [[fz 0; fz 0]; [fz 2; fz (-2)]] 0 false =
  Ok [[RF (qr (Q2Qc (10 # 3))); RF (qr (qz (-1)))]].
Proof.
  transitivity (r <- core L0 EL0 [0; 1] false 2 [fz 1; fz 1] [fz 1; fz 1] [fz 1; fz 3] [fz 0; fz 0] [[fz 0; fz 0]; [fz 2; fz (-2)]] [fz 2; fz (-2)] ;; Ok [r]).
  { to_core. }
  destruct (core_two [0; 1] false 2 2 [fz 1; fz 1] [fz 1; fz 1] [fz 1; fz 3] [fz 0; fz 0] [[fz 0; fz 0]; [fz 2; fz (-2)]] [fz 2; fz (-2)]) with
    (U := [0; 1]) (Y := fun k => f2 (if k =? 0 then qz 0 else qz 2) (if k =? 0 then qz 0 else qz (-2))) (gg := fun _ : Z => 1%Qc) (s := fun _ : Z => 1%Qc) (o := f2 (qz 1) (qz 3)) (h := fun _ : Z => 0%Qc)
    (xx := f2 (qz 2) (qz (-2))) (P0 := P9) (W0 := W9) as (out & Er & L1 & L2 & L3); try reflexivity; try lia; try side.
  two_members Er L1 L2 L3.
Qed.
(** a member without a background value at the point but with one at the station *)
Lemma wit110 : ensi E0 G0 L0 EL0 (sf0 (qz 10)) (xpts [0]) [[fz 1; fz (-1); NaN]] (xpts [0]) [fq (3 # 2)] [fq (1 # 4)] [[fz 3; fz 0; fz 0]] 0 true =
  Ok [[RF (qr (Q2Qc (31 # 135))); RF (qr (Q2Qc (- 23 # 135))); RNaN]].
Proof.
  transitivity (r <- core L0 EL0 [0; 1] true 1 [fz 1] [fq (1 # 4)] [fq (3 # 2)] [fz 1] [[fz 2; fz (-1)]] [fz 1; fz (-1); NaN] ;; Ok [r]).
  { to_core. }
  destruct (core_two [0; 1] true 1 3 [fz 1] [fq (1 # 4)] [fq (3 # 2)] [fz 1] [[fz 2; fz (-1)]] [fz 1; fz (-1); NaN]) with
    (U := [0]) (Y := fun k : Z => f2 (qz 2) (qz (-1))) (gg := fun _ : Z => 1%Qc) (s := fun _ : Z => Q2Qc (1 # 4)) (o := fun _ : Z => Q2Qc (3 # 2)) (h := fun _ : Z => 1%Qc)
    (xx := f2 (qz 1) (qz (-1))) (P0 := P81) (W0 := W81) as (out & Er & L1 & L2 & L3); try reflexivity; try lia; try side.
  two_members Er L1 L2 L3.
Qed.
(** two members, with and without the filter *)
Lemma ex110 : ensi E0 G0 L0 EL0 (sf0 (qz 10)) (xpts [0; 50]) [[fz 2; fz (-2); NaN]; [fz 5; fz 6; fz 7]] (xpts [0]) [fz 1] [fz 1] [[fz 2; fz (-2); NaN]] 0 true =
  Ok [[RF (qr (Q2Qc (14 # 9))); RF (qr (Q2Qc (2 # 9))); RNaN]; map v2r [fz 5; fz 6; fz 7]].
Proof.
  transitivity (r <- core L0 EL0 [0; 1] true 1 [fz 1] [fz 1] [fz 1] [fz 0] [[fz 2; fz (-2)]] [fz 2; fz (-2); NaN] ;; Ok [r; map v2r [fz 5; fz 6; fz 7]]).
  { to_core. }
  destruct (core_two [0; 1] true 1 3 [fz 1] [fz 1] [fz 1] [fz 0] [[fz 2; fz (-2)]] [fz 2; fz (-2); NaN]) with
    (U := [0]) (Y := fun k : Z => f2 (qz 2) (qz (-2))) (gg := fun _ : Z => 1%Qc) (s := fun _ : Z => 1%Qc) (o := fun _ : Z => 1%Qc) (h := fun _ : Z => 0%Qc)
    (xx := f2 (qz 2) (qz (-2))) (P0 := P9) (W0 := W9) as (out & Er & L1 & L2 & L3); try reflexivity; try lia; try side.
  two_members Er L1 L2 L3.
Qed.
Lemma ex113 : ensi E0 G0 L0 EL0 (sf0 (qz 10)) (xpts [0]) [[fz 6; fz (-6)]] (xpts [0]) [fz 1] [fz 1] [[fz 2; fz (-2)]] 0 false =
  Ok [[RF (qr (qz 5)); RF (qr (qz (-3)))]].
Proof.
  transitivity (r <- core L0 EL0 [0; 1] false 1 [fz 1] [fz 1] [fz 1] [fz 0] [[fz 2; fz (-2)]] [fz 6; fz (-6)] ;; Ok [r]).
  { to_core. }
  destruct (core_two [0; 1] false 1 2 [fz 1] [fz 1] [fz 1] [fz 0] [[fz 2; fz (-2)]] [fz 6; fz (-6)]) with
    (U := [0]) (Y := fun k : Z => f2 (qz 2) (qz (-2))) (gg := fun _ : Z => 1%Qc) (s := fun _ : Z => 1%Qc) (o := fun _ : Z => 1%Qc) (h := fun _ : Z => 0%Qc)
    (xx := f2 (qz 6) (qz (-6))) (P0 := P9) (W0 := W9) as (out & Er & L1 & L2 & L3); try reflexivity; try lia; try side.
  two_members Er L1 L2 L3.
Qed.
