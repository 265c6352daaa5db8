(** The ensemble transform with ensemble correlations: statements about the whole function. *)
From Coq Require Import Lra.
From Verif Require Import Base QcTac ListLib RBase P_RBase M_Geo S_Geo S_Near M_Stat M_OI S_OI P_Geo P_OISum P_OISolve P_OI P_OIAll P_OITotal P_OIGrid P_OIRef M_EnsMulti M_Ensi M_EnsDyn M_EnsUtem P_EnsSel P_EnsMulti P_EnsGrid S_EnsMulti S_Ensi S_EnsDyn S_EnsUtem P_RSum P_RAlg P_EnsiSpec P_EnsiFin P_EnsiWit P_Ensi P_EnsiAll P_EnsDyn P_EnsDynAll P_EnsDynRef P_EnsUtem P_EnsUtemSpec P_EnsUtemAll P_RInv P_XLib.
Local Open Scope Z_scope.

Lemma zsc_steady ms f e : steady ms f -> zsc ms f e = 0%R.
Proof. intros H. unfold zsc. destruct (steady_dec ms f) as [_|N]; [reflexivity|contradiction]. Qed.
(** nothing to spread: the members get the mean *)
Lemma uincr_steady ms U b bc x xc g s o c0 P l v e : steady ms xc -> uincr ms U b bc x xc g s o c0 P l v e = 0%R.
Proof. intros H. unfold uincr. apply rtot_zero. intros k _. rewrite zsc_steady by exact H. ring. Qed.
Lemma limit_zero hi lo : ens_limit (RF 0) (RF 0) (RF hi) (RF lo) = RF 0.
Proof.
  unfold ens_limit, rsub, rz. cbn [rneg radd rltb]. unfold Rltb. replace (0 + - 0)%R with 0%R by ring.
  destruct (Rlt_dec 0 hi), (Rlt_dec hi 0), (Rlt_dec 0 0), (Rlt_dec lo 0), (Rlt_dec 0 lo); cbn [andb]; try reflexivity; exfalso; lra.
Qed.
Lemma udepf_fin ms U b o e : U <> [] -> exists hi lo, amax (udepf ms U b o e) = Fin hi /\ amin (udepf ms U b o e) = Fin lo.
Proof.
  intros NU. unfold udepf. set (f := fun k => _). destruct (amax_ok (fun k => o k - (dev ms (b (ix U (e mod zlen U))) (ix ms (e / zlen U)) + avg ms (b k)))%Qc U NU) as (hi & Ehi & _).
  destruct (amin_ok (fun k => o k - (dev ms (b (ix U (e mod zlen U))) (ix ms (e / zlen U)) + avg ms (b k)))%Qc U NU) as (lo & Elo & _). exists hi, lo. auto.
Qed.
Lemma one_steady ms f : NoDup ms -> zlen ms = 1 -> steady ms f /\ forall e, In e ms -> avg ms f = f e.
Proof.
  intros ND H1. destruct ms as [|e [|e' ms]]; [discriminate| |rewrite !zlen_cons in H1; pose proof (zlen_nonneg ms); lia]. split.
  - destruct (steady_dec [e] f) as [H|H]; [exact H|]. apply not_steady_two in H; [|exact ND|discriminate]. lia.
  - intros e0 [<- |[]]. apply avg_one.
Qed.

(** stations that do not vary carry no information *)
Lemma rdelta_l U f j : NoDup U -> In j U -> rtot U (fun i => runit j i * f i)%R = f j.
Proof. intros ND Hj. rewrite <- (rtot_delta U f j ND Hj). apply rtot_ext. intros i _. rewrite (runit_sym j i). ring. Qed.
Lemma runit_root ms : NoDup ms -> inverse_root ms (fun e f => runit e f) (fun e f => runit e f).
Proof.
  intros ND. split; [intros; apply runit_sym|]. split.
  - intros c. apply rtot_nonneg. intros e He. rewrite rdelta_l by assumption. apply Rle_0_sqr.
  - intros e f He Hf. rewrite (rtot_ext ms _ (fun i => runit e i * runit i f)%R).
    + apply (rdelta_l ms (fun i => runit i f)); assumption.
    + intros i Hi. transitivity (runit e i * rtot ms (fun j => runit i j * runit j f))%R; [rewrite <- rtot_mul_l; apply rtot_ext; intros; ring|]. f_equal. apply (rdelta_l ms (fun j => runit j f)); assumption.
Qed.
Lemma steady_stations ms U x xc bc ratio g d s a : NoDup ms -> (forall k, In k U -> steady ms (bc k)) -> utem_analysis ms U x xc bc ratio g d s a ->
  exists zx, standardized ms xc zx /\ forall e, In e ms -> a e = (qr (avg ms x) + sdev ms x * zx e)%R.
Proof.
  intros ND St (cs & cx & cxx & m & q & zx & zs & T & (_ & C2 & _) & (v & _ & Em) & _ & Hx & Hs & HT & _ & _ & Ha). exists zx. split; [exact Hx|].
  assert (C0 : forall k, In k U -> cx k = 0%R). { intros k Hk. destruct (C2 k Hk) as (c & [Hc _] & ->). rewrite Hc by (right; auto). ring. }
  assert (Z0 : forall k e, In k U -> In e ms -> zs k e = 0%R). { intros k e Hk He. apply (Hs k Hk e He). auto. }
  assert (HT' : inverse_root ms (fun e f => runit e f) T).
  { destruct HT as (T1 & T2 & T3). split; [exact T1|]. split; [exact T2|]. intros e f He Hf. rewrite <- (T3 e f He Hf). apply rtot_ext. intros i _. apply rtot_ext. intros j Hj. f_equal.
    unfold rprecision. rewrite rtot_zero; [unfold Rdiv; ring|]. intros k Hk. rewrite Z0 by assumption. ring. }
  assert (ET := inverse_root_unique ms _ T _ ND ltac:(intros; apply runit_sym) HT' (runit_root ms ND)).
  intros e He. rewrite (Ha e He), Em. rewrite (rtot_zero U) by (intros k Hk; rewrite C0 by exact Hk; ring). rewrite Rmult_0_r, Rplus_0_r. f_equal. f_equal.
  rewrite (rtot_ext ms _ (fun f => runit e f * zx f)%R); [apply rdelta_l; assumption|]. intros f Hf. rewrite ET by assumption. rewrite (runit_sym f e). ring.
Qed.
Lemma steady_point ms U x xc bc ratio g d s a e : steady ms xc -> utem_analysis ms U x xc bc ratio g d s a -> In e ms -> a e = qr (avg ms x).
Proof.
  intros St (cs & cx & cxx & m & q & zx & zs & T & (_ & C2 & _) & (v & _ & Em) & _ & Hx & _ & _ & _ & _ & Ha) He. rewrite (Ha e He), Em.
  rewrite (rtot_zero U). 2:{ intros k Hk. destruct (C2 k Hk) as (c & [Hc _] & ->). rewrite Hc by auto. ring. }
  rewrite (rtot_zero ms); [ring|]. intros f Hf. destruct (Hx f Hf) as [Z0 _]. rewrite Z0 by exact St. ring.
Qed.
Lemma nil_dec {A} (l : list A) : l = [] \/ l <> [].
Proof. destruct l; [left; reflexivity|right; discriminate]. Qed.
Lemma len_ne {A} (l : list A) : l <> [] -> (zlen l =? 0) = false.
Proof. intros NE. apply Z.eqb_neq. destruct l as [|a l]; [congruence|]. rewrite zlen_cons. pose proof (zlen_nonneg l). lia. Qed.

Section All.
Variables (E : ext) (G : geo) (L : lib) (RL : rlib) (XL : xlib) (S : sfn) (t : ctype) (blas blos las los : list Qc) (bpts pts : points)
  (bratios : vec) (background background_corr pbg pbg_corr : vec2) (pobs pratios : vec) (mp : Z) (ex : bool)
  (loc : point -> val) (rho bg : point -> point -> val) (nE : Z).
Hypothesis HSet : setting G L S t blas blos bpts las los pts loc rho bg.
Let HB := set_bpts _ _ _ _ _ _ _ _ _ _ _ _ _ HSet.
Hypothesis HRL : rlib_ok RL.
Hypothesis HXL : xlib_ok XL.
Hypothesis HI : utem_input (zlen blas) (zlen las) nE bratios background background_corr pobs pratios pbg pbg_corr.
Let RB := ut_bg _ _ _ _ _ _ _ _ _ _ HI.
Let LBR := ut_br _ _ _ _ _ _ _ _ _ _ HI.
Hypothesis Hmp : 0 <= mp.
Notation fields := [background; background_corr; pbg; pbg_corr].
Let ms := filter (fun e => forallb (fun f => ok_in f e) fields) (zrange 0 nE).
Notation run := (utem E G L RL XL S bpts bratios background background_corr pts pobs pratios pbg pbg_corr mp ex).
Notation chosen' := (chosen G t las los pts pobs pobs loc bg).
Let RE := urun_eq E G L RL XL S t blas blos las los bpts pts bratios background background_corr pbg pbg_corr pobs pratios mp ex loc rho bg nE HSet HI Hmp.
Let MS : members_all_of nE fields ms := ums background background_corr pbg pbg_corr nE.
Let ND : NoDup ms := proj1 MS.
Let VB (f : vec2) n (Hf : In f fields) (R : rect n nE f) := values_ok n nE ms fields f MS Hf R.

Lemma urow_of y p1 pos : bpoint G t blas blos bpts y p1 pos -> exists row, znth background y = Ok row /\ zlen row = nE /\ 0 <= y < zlen blas.
Proof.
  intros Hp. destruct (bpoint_at _ _ _ _ _ _ _ _ Hp) as (la & lo & Hla & _). apply znth_range in Hla. destruct (znth_some background y) as [row Hr]; [destruct RB; lia|].
  exists row. split; [exact Hr|]. split; [apply RB; eapply znth_In; eauto|lia].
Qed.
Lemma uchosen y p1 pos : bpoint G t blas blos bpts y p1 pos -> exists U, chosen' mp p1 pos U.
Proof.
  intros Hp. destruct (bpoint_at _ _ _ _ _ _ _ _ Hp) as (la & lo & Hla & Hlo & -> & Hp1).
  destruct (select_ok G L S t blas blos las los bpts pts (fun k => Ok (vk pobs k)) pobs mp loc rho bg (set_geo _ _ _ _ _ _ _ _ _ _ _ _ _ HSet) (set_lib _ _ _ _ _ _ _ _ _ _ _ _ _ HSet)
    (set_sf _ _ _ _ _ _ _ _ _ _ _ _ _ HSet) HB (set_pts _ _ _ _ _ _ _ _ _ _ _ _ _ HSet)) with (y := y) (la := la) (lo := lo) (p1 := p1) as (U & HU & _); auto.
  - apply HI.
  - exists U. exact HU.
Qed.
Lemma ms_nil : ms = [] \/ ms <> []. Proof. apply nil_dec. Qed.
Lemma triv out : run = Ok out -> zlen las = 0 \/ ms = [] -> out = map (map v2r) background.
Proof.
  intros H C. rewrite RE in H. destruct (Z.eqb_spec (zlen las) 0) as [E0|N0]; [congruence|]. apply bind_Ok in H as (r0 & _ & H). destruct C as [C|C]; [contradiction|].
  fold ms in H. rewrite C in H. change (zlen [] =? 0) with true in H. cbv iota in H. injection H as <-. reflexivity.
Qed.
Lemma unch y row : znth background y = Ok row -> unchanged background (map (map v2r) background) y.
Proof. intros Hr. exists row. split; [exact Hr|]. rewrite znth_map, Hr. reflexivity. Qed.

(** C128 *)
Lemma c128_sec out : run = Ok out -> rect (zlen blas) nE out /\
  (forall y e v, ~ common nE fields e -> get2 background y e = Ok v -> get2 out y e = Ok (v2r v)) /\
  (forall y p1 pos, bpoint G t blas blos bpts y p1 pos -> exists U, chosen' mp p1 pos U /\ (U = [] -> unchanged background out y)).
Proof.
  intros H. pose proof (zlen_nonneg las) as Hl.
  assert (C : (zlen las = 0 \/ ms = []) \/ (0 < zlen las /\ ms <> [])) by (destruct (Z.eq_dec (zlen las) 0); [auto|]; destruct ms_nil; [auto|right; split; [lia|assumption]]).
  destruct C as [C|[Hn NE]].
  { rewrite (triv out H C). split; [apply rect_map_map; exact RB|]. split; [intros y e v _ Hv; rewrite get2_map_map, Hv; reflexivity|].
    intros y p1 pos Hp. destruct (uchosen y p1 pos Hp) as [U HU]. exists U. split; [exact HU|]. intros _. destruct (urow_of y p1 pos Hp) as (row & Hr & _). exact (unch y row Hr). }
  destruct (urun_cells E G L RL XL S t blas blos las los bpts pts bratios background background_corr pbg pbg_corr pobs pratios mp ex loc rho bg nE HSet HI Hmp (bval pbg) (bval pbg_corr) (bval background) (bval background_corr)) with (out := out)
    as (gY & HG & Lo & HC); auto; try (apply (VB _ (zlen las)); [cbn; auto|apply HI]); try (apply (VB _ (zlen blas)); [cbn; auto|apply HI]).
  assert (K : forall y p1 pos row r, bpoint G t blas blos bpts y p1 pos -> znth background y = Ok row -> znth out y = Ok r -> exists U, chosen' mp p1 pos U /\
     zlen r = nE /\ (forall e, ~ In e ms -> znth r e = znth (map v2r row) e) /\ (U = [] -> r = map v2r row)).
  { intros y p1 pos row r Hp Hr Ho. destruct (urow_of y p1 pos Hp) as (_ & _ & _ & Ry). destruct (HC y Ry) as (r' & Er & Ec). assert (r' = r) as -> by congruence.
    destruct (ucell_total E G L RL XL S t blas blos las los bpts pts bratios background background_corr pbg pbg_corr pobs pratios mp ex loc rho bg nE HSet HRL HXL HI Hmp (bval pbg) (bval pbg_corr) (bval background) (bval background_corr))
      with (gY := gY) (y := y) (row := row) (p1 := p1) (pos := pos) as (U & HU & [(o & Eo & L1 & L2 & L3)|[Et _]]); auto; try congruence;
      try (apply (VB _ (zlen las)); [cbn; auto|apply HI]); try (apply (VB _ (zlen blas)); [cbn; auto|apply HI]).
    assert (o = r) as -> by congruence. exists U. auto. }
  split; [|split].
  - split; [exact Lo|]. intros r Hr. apply In_znth in Hr as [y Hy]. pose proof (znth_range _ _ _ Hy) as Ry.
    destruct (has_bpoint G t blas blos bpts HB y ltac:(lia)) as (p1 & pos & Hp). destruct (urow_of y p1 pos Hp) as (row & Hr & _).
    destruct (K y p1 pos row r Hp Hr Hy) as (U & _ & L1 & _). exact L1.
  - intros y e v Ne Hv. unfold get2 in Hv. apply bind_Ok in Hv as (row & Hr & Hv). pose proof (znth_range _ _ _ Hr) as Ry. rewrite (proj1 RB) in Ry.
    destruct (has_bpoint G t blas blos bpts HB y Ry) as (p1 & pos & Hp). destruct (HC y Ry) as (r & Er & _).
    destruct (K y p1 pos row r Hp Hr Er) as (U & _ & L1 & L2 & _). unfold get2. rewrite Er. cbn [bind]. rewrite L2; [rewrite znth_map, Hv; reflexivity|].
    intros He. apply Ne. apply MS. exact He.
  - intros y p1 pos Hp. destruct (urow_of y p1 pos Hp) as (row & Hr & _ & Ry). destruct (HC y Ry) as (r & Er & _).
    destruct (K y p1 pos row r Hp Hr Er) as (U & HU & _ & _ & L3). exists U. split; [exact HU|]. intros X. exists row. split; [exact Hr|]. rewrite <- (L3 X). exact Er.
Qed.
Lemma blas_pos : blas <> [] -> 0 < zlen blas.
Proof. intros D. apply len_ne in D. pose proof (zlen_nonneg blas). lia. Qed.
Lemma ms_len : ms <> [] -> (zlen ms =? 0) = false.
Proof. apply len_ne. Qed.
(** definedness *)
Lemma c129_sec : (blas <> [] \/ las = []) -> zlen las <= zlen blas -> (exists out, run = Ok out) \/ (run = Throw RuntimeError /\ exists M, r_inv RL M = Throw RuntimeError).
Proof.
  intros D Hle. pose proof (zlen_nonneg las) as Hl.
  assert (C : (zlen las = 0 \/ ms = []) \/ (0 < zlen las /\ ms <> [])) by (destruct (Z.eq_dec (zlen las) 0); [auto|]; destruct ms_nil; [auto|right; split; [lia|assumption]]).
  destruct C as [C|[Hn NE]].
  { left. eexists. apply (urows_kept E G L RL XL S t blas blos las los bpts pts bratios background background_corr pbg pbg_corr pobs pratios mp ex loc rho bg nE HSet HI Hmp C D). }
  rewrite RE. replace (zlen las =? 0) with false by lia. destruct (znth_some background 0) as [r0 Hr0]; [destruct RB; lia|]. rewrite Hr0. cbn [bind]. fold ms. rewrite (ms_len NE).
  destruct (gY_exists E blas las bratios background background_corr pbg pbg_corr pobs pratios nE HI (bval pbg) (bval pbg_corr))
    as (gY & EG & HGY); auto; try (apply (VB _ (zlen las)); [cbn; auto|apply HI]).
  fold ms in EG. rewrite EG. cbn [bind]. set (cell := utem_cell _ _ _ _ _ _ _ _ _ _ _ _ _ _ _ _ _ _).
  assert (T : forall y, 0 <= y < zlen blas -> (exists r, cell y = Ok r) \/ (cell y = Throw RuntimeError /\ exists M, r_inv RL M = Throw RuntimeError)).
  { intros y Hy. destruct (has_bpoint G t blas blos bpts HB y Hy) as (p1 & pos & Hp). destruct (urow_of y p1 pos Hp) as (row & Hr & _).
    destruct (ucell_total E G L RL XL S t blas blos las los bpts pts bratios background background_corr pbg pbg_corr pobs pratios mp ex loc rho bg nE HSet HRL HXL HI Hmp (bval pbg) (bval pbg_corr) (bval background) (bval background_corr))
      with (gY := gY) (y := y) (row := row) (p1 := p1) (pos := pos) as (U & HU & [(o & Eo & _)|O]); auto;
      try (apply (VB _ (zlen las)); [cbn; auto|apply HI]); try (apply (VB _ (zlen blas)); [cbn; auto|apply HI]). left. eauto. }
  destruct (mapM_throw cell RuntimeError (zrange 0 (zlen blas))) as [[bs EM]|[EM (y & Hy & Ey)]].
  - intros y Hy. apply in_zrange in Hy. destruct (T y Hy) as [HH|[HH _]]; auto.
  - rewrite EM. left. eauto.
  - right. split; [exact EM|]. apply in_zrange in Hy. destruct (T y Hy) as [[o Ho]|[_ HH]]; [congruence|exact HH].
Qed.
Lemma c129_ub : blas <> [] -> (exists e, common nE fields e) -> zlen blas < zlen las -> run = UB.
Proof.
  intros D [e He] Hlt. apply MS in He. assert (NE : ms <> []) by (intros X; rewrite X in He; destruct He). pose proof (blas_pos D). rewrite RE. replace (zlen las =? 0) with false by lia.
  destruct (znth_some background 0) as [r0 Hr0]; [destruct RB; lia|]. rewrite Hr0. cbn [bind]. fold ms. rewrite (ms_len NE).
  assert (EG := gY_ub E blas las bratios background background_corr pbg pbg_corr pobs pratios nE HI (bval pbg) (bval pbg_corr)). fold ms in EG.
  rewrite EG; auto; try (apply (VB _ (zlen las)); [cbn; auto|apply HI]).
Qed.

(** finite data *)
Variables (b bc X XC : Z -> Z -> Qc) (s o : Z -> Qc).
Hypothesis HD : utem_data (zlen blas) (zlen las) nE background background_corr pbg pbg_corr pobs pratios b bc X XC s o.
Lemma vals : values_at (zlen las) ms pbg b /\ values_at (zlen las) ms pbg_corr bc /\ values_at (zlen blas) ms background X /\ values_at (zlen blas) ms background_corr XC.
Proof. repeat split; intros k e Hk He; apply MS in He; apply HD; assumption. Qed.
Definition usummary (U : list Z) (c0 : Qc) (g : Z -> Qc) (out : list (list rv)) (y : Z) : Prop :=
  ((exists M P, rect (zlen ms) (zlen ms) M /\ (forall i j, 0 <= i < zlen ms -> 0 <= j < zlen ms -> get2 M i j = Ok (RF (IZR (zlen ms - 1) * P i j))) /\
       (forall i j, In i (zrange 0 (zlen ms)) -> In j (zrange 0 (zlen ms)) -> rtot (zrange 0 (zlen ms)) (fun k => P i k * rpinv U (uY ms bc) (urin g s) k j)%R = runit i j) /\ x_eig XL M = None) /\
     unchanged background out y) \/
  exists P l v, usolved ms U bc g s P l v /\ 
    forall e, 0 <= e < zlen ms -> exists z, get2 out y (ix ms e) = Ok (RF (qr (avg ms (X y)) + z)%R) /\
      (ex = true -> z = uincr ms U b bc (X y) (XC y) g s o c0 P l v e) /\
      (ex = false -> RF z = ens_limit (RF (uincr ms U b bc (X y) (XC y) g s o c0 P l v e)) (RF (qr (dev ms (X y) (ix ms e)))) (v2r (amax (udepf ms U b o e))) (v2r (amin (udepf ms U b o e)))).
Lemma urow out y c0 p1 pos g : run = Ok out -> znth bratios y = Ok (Fin c0) -> bpoint G t blas blos bpts y p1 pos -> known_cell pts bg p1 g ->
  exists U, chosen' mp p1 pos U /\ (forall k, In k U -> 0 <= k < zlen las) /\ NoDup U /\ (forall k, In k U -> (0 < g k)%Qc) /\
    (U = [] \/ zlen ms <= 1 -> unchanged background out y) /\ (U <> [] -> ms <> [] -> usummary U c0 g out y).
Proof.
  intros H Hc Hp KC. pose proof (zlen_nonneg las) as Hl. destruct (urow_of y p1 pos Hp) as (row & Hr & Lr & Ry).
  destruct vals as (V1 & V2 & V3 & V4).
  assert (GU : forall U, chosen' mp p1 pos U -> (forall k, In k U -> 0 <= k < zlen las) /\ NoDup U /\ (forall k, In k U -> (0 < g k)%Qc)).
  { intros U HU. split; [|split; [apply HU|]]; intros k Hk; destruct HU as (_ & HU & _); destruct (HU k Hk) as (q & pk & v & bk & Hq & _ & Hg & Hv & _ & Hpos).
    - apply point_at_range in Hq. exact Hq.
    - rewrite (KC k pk Hg) in Hpos. rewrite P_OISolve.fz0 in Hpos. cbn [vltb] in Hpos. destruct (qltb_spec 0 (g k)); [assumption|discriminate]. }
  assert (C : (zlen las = 0 \/ ms = []) \/ (0 < zlen las /\ ms <> [])) by (destruct (Z.eq_dec (zlen las) 0); [auto|]; destruct ms_nil; [auto|right; split; [lia|assumption]]).
  destruct C as [C|[Hn NE]].
  { rewrite (triv out H C). destruct (uchosen y p1 pos Hp) as [U HU]. exists U. split; [exact HU|]. destruct (GU U HU) as (G1 & G2 & G3). split; [exact G1|]. split; [exact G2|]. split; [exact G3|].
    split; [intros _; exact (unch y row Hr)|]. intros NU NE. exfalso. destruct C as [C|C]; [|contradiction].
    destruct U as [|k U']; [congruence|]. specialize (G1 k (or_introl eq_refl)). lia. }
  destruct (urun_cells E G L RL XL S t blas blos las los bpts pts bratios background background_corr pbg pbg_corr pobs pratios mp ex loc rho bg nE HSet HI Hmp b bc X XC V1 V2 V3 V4 NE out H Hn) as (gY & HG & Lo & HC).
  destruct (HC y Ry) as (r & Er & Ec). fold ms in Ec.
  destruct (ucell_data E G L RL XL S t blas blos las los bpts pts bratios background background_corr pbg pbg_corr pobs pratios mp ex loc rho bg nE HSet HRL HXL HI Hmp b bc X XC V3 V4 NE gY HG s o
    (ud_s _ _ _ _ _ _ _ _ _ _ _ _ _ _ _ HD) (ud_o _ _ _ _ _ _ _ _ _ _ _ _ _ _ _ HD) y row c0 p1 pos g Hr Hc Hp KC) as (U & HU & RU & NDU & PG & U0 & U1).
  fold ms in U0, U1. exists U. split; [exact HU|]. split; [exact RU|]. split; [exact NDU|]. split; [exact PG|].
  assert (SM : U <> [] -> usummary U c0 g out y).
  { intros NU. destruct (U1 NU) as [[F X0]|(P & l & v & HS & o' & Eo & L1 & L2 & L3)].
    - left. split; [exact F|]. exists row. split; [exact Hr|]. congruence.
    - right. exists P, l, v. split; [exact HS|]. intros e He. destruct (L3 e He) as (z & Ez & Z0). exists z. split; [|exact Z0]. unfold get2. rewrite Er. cbn [bind]. congruence. }
  split; [|intros NU _; exact (SM NU)].
  intros C. assert (CU : U = [] \/ U <> []) by apply nil_dec. destruct CU as [CU|CU].
  { exists row. split; [exact Hr|]. specialize (U0 CU). congruence. }
  destruct C as [C|C]; [congruence|]. assert (H1 : zlen ms = 1) by (pose proof (zlen_nonneg ms); pose proof (ms_len NE); lia).
  destruct (U1 CU) as [[_ X0]|(P & l & v & HS & o' & Eo & L1 & L2 & L3)]; [exists row; split; [exact Hr|]; congruence|].
  exists row. split; [exact Hr|]. rewrite Er. f_equal. assert (o' = r) as -> by congruence. apply znth_ext; [rewrite zlen_map; lia|]. intros e He.
  destruct (in_dec Z.eq_dec e ms) as [I|NI]; [|apply L2; exact NI]. destruct (one_steady ms (XC y) ND H1) as [St _]. destruct (one_steady ms (X y) ND H1) as [_ Av].
  apply In_ix in I as (i & Hi & <-). destruct (L3 i Hi) as (z & Ez & Z1 & Z2). rewrite Ez.
  assert (Hx : znth row (ix ms i) = Ok (Fin (X y (ix ms i)))). { specialize (V3 y _ Ry (ix_In ms i Hi)). unfold get2 in V3. rewrite Hr in V3. exact V3. }
  rewrite znth_map, Hx. cbn [bind v2r]. rewrite (Av _ (ix_In ms i Hi)). do 2 f_equal. enough (z = 0%R) by lra.
  rewrite uincr_steady in Z1, Z2 by exact St. destruct ex; [auto|]. specialize (Z2 eq_refl). unfold dev in Z2. rewrite (Av _ (ix_In ms i Hi)) in Z2. replace (X y (ix ms i) - X y (ix ms i))%Qc with 0%Qc in Z2 by ring.
  rewrite qr_0 in Z2. destruct (udepf_fin ms U b o i CU) as (hi & lo & Ehi & Elo). rewrite Ehi, Elo in Z2. cbn [v2r] in Z2. rewrite limit_zero in Z2. congruence.
Qed.
Lemma usol_failed U g M P : NoDup U -> 2 <= zlen ms -> (forall k, In k U -> (0 < s k)%Qc) -> (forall k, In k U -> (0 < g k)%Qc) ->
  rect (zlen ms) (zlen ms) M -> (forall i j, 0 <= i < zlen ms -> 0 <= j < zlen ms -> get2 M i j = Ok (RF (IZR (zlen ms - 1) * P i j))) ->
  (forall i j, In i (zrange 0 (zlen ms)) -> In j (zrange 0 (zlen ms)) -> rtot (zrange 0 (zlen ms)) (fun k => P i k * rpinv U (uY ms bc) (urin g s) k j)%R = runit i j) -> x_eig XL M = None ->
  exists zs, (forall k, In k U -> standardized ms (bc k) (zs k)) /\ rsolver_failed XL ms (rprecision U ms zs s g).
Proof.
  intros NDU H2 Hs Hg RM HM PL XE. exists (fun k e => sqrt (IZR (zlen ms - 1)) * zsc ms (bc k) e)%R. split; [intros k _; apply zsc_standardized; exact H2|].
  destruct (positions ms ND) as (p & P1 & P2). exists M, (fun e f => P (p e) (p f)). split; [exact RM|]. split; [|split; [|exact XE]].
  - intros i j e f Hi Hj. pose proof (znth_range _ _ _ Hi) as Ri. pose proof (znth_range _ _ _ Hj) as Rj. rewrite HM by assumption.
    assert (e = ix ms i) as -> by (rewrite (ix_ok ms i Ri) in Hi; congruence). assert (f = ix ms j) as -> by (rewrite (ix_ok ms j Rj) in Hj; congruence).
    rewrite !P1 by assumption. reflexivity.
  - intros e f He Hf. destruct (P2 e He) as [He1 He2]. destruct (P2 f Hf) as [Hf1 Hf2].
    transitivity (runit (p e) (p f)). 2:{ rewrite <- (Eu ms ND) by assumption. rewrite He2, Hf2. reflexivity. }
    rewrite <- (PL (p e) (p f)) by (apply in_zrange; assumption). rewrite (rtot_ix ms). apply rtot_ext. intros i Hi. apply in_zrange in Hi. rewrite P1 by exact Hi. f_equal.
    rewrite <- Hf2 at 1. apply (prec_pinv ms U bc s g ND H2); assumption.
Qed.
(** C124 and C127 *)
Lemma c124_at out y c0 p1 pos g : run = Ok out -> znth bratios y = Ok (Fin c0) -> bpoint G t blas blos bpts y p1 pos -> known_cell pts bg p1 g ->
  exists U, chosen' mp p1 pos U /\
    NoDup U /\ (forall k, In k U -> 0 <= k < zlen las) /\ (forall k, In k U -> (0 < g k)%Qc) /\
    (U = [] \/ zlen ms <= 1 -> unchanged background out y) /\
    (U <> [] -> 2 <= zlen ms ->
      ((exists zs, (forall k, In k U -> standardized ms (bc k) (zs k)) /\ rsolver_failed XL ms (rprecision U ms zs s g)) /\ unchanged background out y) \/
      exists a, utem_analysis ms U (X y) (XC y) bc s g (fun k => o k - avg ms (b k))%Qc c0 a /\
        forall e, In e ms -> exists z, get2 out y e = Ok (RF z) /\ (ex = true -> z = a e) /\
          (ex = false -> forall k, U = [k] -> rlimited (qr (o k - b k e)%Qc) (a e - qr (X y e)) (z - qr (X y e)))).
Proof.
  intros H Hc Hp KC. destruct (urow out y c0 p1 pos g H Hc Hp KC) as (U & HU & RU & NDU & PG & U0 & U1).
  exists U. split; [exact HU|]. split; [exact NDU|]. split; [exact RU|]. split; [exact PG|]. split; [exact U0|]. intros NU H2.
  assert (NE : ms <> []) by (intros Z0; rewrite Z0 in H2; unfold zlen in H2; cbn in H2; lia).
  assert (Hs : forall k, In k U -> (0 < s k)%Qc) by (intros k Hk; apply HD; apply RU; exact Hk).
  destruct (U1 NU NE) as [[(M & P & RM & HM & PL & XE) X0]|(P & l & v & HS & Ho)].
  { left. split; [|exact X0]. exact (usol_failed U g M P NDU H2 Hs PG RM HM PL XE). }
  right. destruct (positions ms ND) as (p & P1 & P2).
  exists (fun e => qr (avg ms (X y)) + uincr ms U b bc (X y) (XC y) g s o c0 P l v (p e))%R. split.
  - apply (analysis_ok ms U b bc (X y) (XC y) s g o c0 ND NDU H2 PG Hs P l v HS p); [exact P1|]. intros e He. rewrite P1 by exact He. reflexivity.
  - intros e He. destruct (P2 e He) as [Rp Ep]. destruct (Ho (p e) Rp) as (z & Ez & Z1 & Z2). rewrite Ep in Ez. exists (qr (avg ms (X y)) + z)%R. split; [exact Ez|].
    split; [intros Z0; rewrite (Z1 Z0); reflexivity|]. intros Z0 k EU. specialize (Z2 Z0). rewrite EU in *. unfold udepf in Z2. change (zlen [k]) with 1 in Z2. rewrite Z.mod_1_r, Z.div_1_r in Z2. cbn [map] in Z2.
    change (ix [k] 0) with k in Z2. rewrite Ep in Z2. replace (o k - (dev ms (b k) e + avg ms (b k)))%Qc with (o k - b k e)%Qc in Z2 by (unfold dev; ring). cbn [amax amin fold_left v2r] in Z2.
    set (u := uincr _ _ _ _ _ _ _ _ _ _ _ _ _ _) in *.
    replace (RF u) with (RF ((qr (avg ms (X y)) + u - qr (X y e)) + qr (dev ms (X y) e))) in Z2 by (f_equal; unfold dev; rewrite qr_sub; ring).
    apply limit_one in Z2. replace (qr (avg ms (X y)) + z - qr (X y e))%R with (z - qr (dev ms (X y) e))%R by (unfold dev; rewrite qr_sub; ring). exact Z2.
Qed.
(** C125 *)
Lemma c125_at out y c0 p1 pos g : run = Ok out -> znth bratios y = Ok (Fin c0) -> bpoint G t blas blos bpts y p1 pos -> known_cell pts bg p1 g -> ex = true ->
  exists U, chosen' mp p1 pos U /\ (U = [] -> unchanged background out y) /\
    (U <> [] -> 2 <= zlen ms -> (forall k, In k U -> steady ms (bc k)) ->
       ((exists zs, (forall k, In k U -> standardized ms (bc k) (zs k)) /\ rsolver_failed XL ms (rprecision U ms zs s g)) /\ unchanged background out y) \/
       exists zx, standardized ms (XC y) zx /\ forall e, In e ms -> get2 out y e = Ok (RF (qr (avg ms (X y)) + sdev ms (X y) * zx e)%R)).
Proof.
  intros H Hc Hp KC Hex. destruct (c124_at out y c0 p1 pos g H Hc Hp KC) as (U & HU & NDU & RU & PG & U0 & U1). exists U. split; [exact HU|]. split; [auto|].
  intros NU H2 St. destruct (U1 NU H2) as [F|(a & HA & Ha)]; [left; exact F|right].
  destruct (steady_stations ms U _ _ _ _ _ _ _ a ND St HA) as (zx & Hz & Ea). exists zx. split; [exact Hz|]. intros e He. destruct (Ha e He) as (z & Ez & Z0 & _). rewrite Ez, (Z0 Hex), Ea by exact He. reflexivity.
Qed.
(** C126 *)
Lemma c126_at out y c0 p1 pos g : run = Ok out -> znth bratios y = Ok (Fin c0) -> bpoint G t blas blos bpts y p1 pos -> known_cell pts bg p1 g -> ex = true ->
  exists U, chosen' mp p1 pos U /\ (U = [] -> unchanged background out y) /\
    (U <> [] -> 2 <= zlen ms -> steady ms (XC y) ->
       ((exists zs, (forall k, In k U -> standardized ms (bc k) (zs k)) /\ rsolver_failed XL ms (rprecision U ms zs s g)) /\ unchanged background out y) \/
       forall e, In e ms -> get2 out y e = Ok (RF (qr (avg ms (X y))))).
Proof.
  intros H Hc Hp KC Hex. destruct (c124_at out y c0 p1 pos g H Hc Hp KC) as (U & HU & NDU & RU & PG & U0 & U1). exists U. split; [exact HU|]. split; [auto|].
  intros NU H2 St. destruct (U1 NU H2) as [F|(a & HA & Ha)]; [left; exact F|right].
  intros e He. destruct (Ha e He) as (z & Ez & Z0 & _). rewrite Ez, (Z0 Hex). do 2 f_equal. eapply steady_point; eauto.
Qed.
(** with positive ratios and known correlations the function always returns *)
Lemma c129_data : (blas <> [] \/ las = []) -> zlen las <= zlen blas -> (forall y, 0 <= y < zlen blas -> exists c, znth bratios y = Ok (Fin c)) ->
  (forall y p1 pos, bpoint G t blas blos bpts y p1 pos -> exists g, known_cell pts bg p1 g) -> exists out, run = Ok out.
Proof.
  intros D Hle HBR KG. pose proof (zlen_nonneg las) as Hl. destruct vals as (V1 & V2 & V3 & V4).
  assert (C : (zlen las = 0 \/ ms = []) \/ (0 < zlen las /\ ms <> [])) by (destruct (Z.eq_dec (zlen las) 0); [auto|]; destruct ms_nil; [auto|right; split; [lia|assumption]]).
  destruct C as [C|[Hn NE]].
  { eexists. apply (urows_kept E G L RL XL S t blas blos las los bpts pts bratios background background_corr pbg pbg_corr pobs pratios mp ex loc rho bg nE HSet HI Hmp C D). }
  rewrite RE. replace (zlen las =? 0) with false by lia. destruct (znth_some background 0) as [r0 Hr0]; [destruct RB; lia|]. rewrite Hr0. cbn [bind]. fold ms. rewrite (ms_len NE).
  destruct (gY_exists E blas las bratios background background_corr pbg pbg_corr pobs pratios nE HI b bc)
    as (gY & EG & HGY); auto. fold ms in EG. rewrite EG. cbn [bind]. apply mapM_some. intros y Hy. apply in_zrange in Hy.
  destruct (has_bpoint G t blas blos bpts HB y Hy) as (p1 & pos & Hp). destruct (urow_of y p1 pos Hp) as (row & Hr & _). destruct (KG y p1 pos Hp) as [g KC]. destruct (HBR y Hy) as [c0 Hc].
  destruct (ucell_data E G L RL XL S t blas blos las los bpts pts bratios background background_corr pbg pbg_corr pobs pratios mp ex loc rho bg nE HSet HRL HXL HI Hmp b bc X XC V3 V4 NE gY HGY s o
    (ud_s _ _ _ _ _ _ _ _ _ _ _ _ _ _ _ HD) (ud_o _ _ _ _ _ _ _ _ _ _ _ _ _ _ _ HD) y row c0 p1 pos g Hr Hc Hp KC) as (U & HU & RU & NDU & PG & U0 & U1). fold ms in U0, U1.
  assert (CU : U = [] \/ U <> []) by apply nil_dec. destruct CU as [CU|CU]; [rewrite U0 by exact CU; eauto|].
  destruct (U1 CU) as [[_ X0]|(P & l & v & _ & o' & X0 & _)]; rewrite X0; eauto.
Qed.
End All.
