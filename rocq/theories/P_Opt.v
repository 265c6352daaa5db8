(** Proofs for threshold optimisation, gamma quantiles and statistic names. *)
From Coq Require Import String.
From Verif Require Import Base ListLib QcTac M_Stat M_Score M_Opt S_Stat S_Score S_Opt P_Stat P_Score P_Curve P_NScore P_Ens.
From Verif Require P_OITotal.
Local Open Scope Z_scope.

Lemma brent_ok_B0 : brent_ok B0.
Proof.
  intros f lo hi H HF. destruct (HF lo (Qcle_refl _) H) as [v Hv]. exists lo, v. unfold B0. rewrite Hv. repeat split; auto. apply Qcle_refl.
Qed.
Definition oval (o : option Qc) : val := match o with Some s => Fin s | None => MV end.
Lemma tally_nn t ft o f l : (0 <= qz (tally t ft o f l))%Qc.
Proof. rewrite <- qz_0. apply qz_le. unfold tally. apply zlen_nonneg. Qed.
Lemma score_ok R F t x m : length R = length F -> F <> [] -> m <> BadMetric ->
  exists o, calc_score_vec (map Fin R) (map Fin F) (Fin t) (Fin x) m = Ok (oval o) /\ score_is (combine R F) t x m o.
Proof.
  intros HL NE HM. destruct (c34_all R F t x m HL) as (E & T & _). rewrite E. unfold fz.
  rewrite score_model; [|repeat split; try apply tally_nn|exact HM].
  2:{ rewrite <- !qz_add, T. rewrite <- qz_0. apply qz_lt. apply zlen_pos'. exact NE. }
  unfold score_is. set (a := qz (tally t x true true _)). set (b := qz (tally t x false true _)). set (c := qz (tally t x true false _)). set (d := qz (tally t x false false _)).
  destruct (qeqb_spec (score_den a b c d m) 0) as [Z|N].
  - destruct m; try (exists None; split; [reflexivity|split; [exact Z|discriminate]]).
    exists (Some 1%Qc). split; [reflexivity|]. right. auto.
  - exists (Some (score_num a b c d m / score_den a b c d m)%Qc). split; [reflexivity|]. left. split; [exact N|]. apply qdiv_mul. exact N.
Qed.
Lemma func_ok R F t x m : length R = length F -> F <> [] -> m <> BadMetric ->
  exists o, score_func (map Fin R) (map Fin F) (Fin t) m (Fin x) = Ok (vneg (oval o)) /\ score_is (combine R F) t x m o.
Proof. intros HL NE HM. destruct (score_ok R F t x m HL NE HM) as (o & E & S). exists o. unfold score_func. rewrite E. split; [reflexivity|exact S]. Qed.
Lemma score_unique l t x m o o' : score_is l t x m o -> score_is l t x m o' -> o = o'.
Proof.
  unfold score_is. set (a := qz (tally t x true true _)). set (b := qz (tally t x false true _)). set (c := qz (tally t x true false _)). set (d := qz (tally t x false false _)).
  set (N := score_num a b c d m). set (D := score_den a b c d m). clearbody N D.
  destruct o as [s|], o' as [s'|].
  - intros [[H1 H2]|(H1 & H2 & H3)] [[H4 H5]|(H4 & H5 & H6)]; try contradiction; [|congruence]. f_equal.
    rewrite <- H5 in H2. clear -H1 H2. assert (E : ((s * D) / D = (s' * D) / D)%Qc) by (rewrite H2; reflexivity).
    unfold Qcdiv in E. rewrite <- !Qcmult_assoc, Qcmult_inv_r, !Qcmult_1_r in E by exact H1. exact E.
  - intros [[H1 H2]|(H1 & H2 & H3)] [H4 H5]; contradiction.
  - intros [H4 H5] [[H1 H2]|(H1 & H2 & H3)]; contradiction.
  - reflexivity.
Qed.
Lemma range_ok R F : length R = length F -> F <> [] -> exists a b, data_range (map Fin R) (map Fin F) = Ok (Fin a, Fin b) /\ least F a /\ greatest F b.
Proof.
  intros HL NE. unfold data_range. rewrite zlen_map.
  assert (E : zlen R = zlen (map Fin F)) by (rewrite zlen_map; unfold zlen; rewrite HL; reflexivity). rewrite E.
  unfold data_step.
  rewrite (foldM_ext (fun s i => let '(mn, mx) := s in f <- znth (map Fin F) i ;; Ok (if negb (is_valid mn) || vltb f mn then f else mn, if negb (is_valid mx) || vltb mx f then f else mx))
    (fun s i => f <- znth (map Fin F) i ;; (fun s f => Ok (if negb (is_valid (fst s)) || vltb f (fst s) then f else fst s, if negb (is_valid (snd s)) || vltb (snd s) f then f else snd s)) s f)).
  2:{ intros [mn mx] i. reflexivity. }
  rewrite foldM_zrange_znth. destruct F as [|f F]; [contradiction|]. clear. cbn [map foldM fst snd is_valid negb orb bind].
  change (is_valid MV) with false. cbn [negb orb].
  assert (G : forall l a b, exists a' b', foldM (fun s f => Ok (if negb (is_valid (fst s)) || vltb f (fst s) then f else fst s, if negb (is_valid (snd s)) || vltb (snd s) f then f else snd s)) (Fin a, Fin b) (map Fin l)
     = Ok (Fin a', Fin b') /\ (a' = a \/ In a' l) /\ (b' = b \/ In b' l) /\ (a' <= a)%Qc /\ (b <= b')%Qc /\ (forall x, In x l -> a' <= x /\ x <= b')%Qc).
  { induction l as [|x l IH]; intros a b; cbn [map foldM].
    - exists a, b. repeat split; auto; try apply Qcle_refl; destruct H.
    - cbn [fst snd is_valid negb orb bind]. change (vltb (Fin x) (Fin a)) with (qltb x a). change (vltb (Fin b) (Fin x)) with (qltb b x).
      set (a1 := if qltb x a then x else a). set (b1 := if qltb b x then x else b).
      replace (if qltb x a then Fin x else Fin a) with (Fin a1) by (unfold a1; destruct (qltb x a); reflexivity).
      replace (if qltb b x then Fin x else Fin b) with (Fin b1) by (unfold b1; destruct (qltb b x); reflexivity).
      destruct (IH a1 b1) as (a' & b' & E & I1 & I2 & L1 & L2 & L3). exists a', b'. split; [exact E|].
      assert (A1 : (a1 <= a /\ a1 <= x)%Qc) by (unfold a1; destruct (qltb_spec x a); split; try apply Qcle_refl; qlra).
      assert (B1 : (b <= b1 /\ x <= b1)%Qc) by (unfold b1; destruct (qltb_spec b x); split; try apply Qcle_refl; qlra).
      split; [destruct I1 as [-> | I1]; [unfold a1; destruct (qltb x a); cbn; auto|cbn; auto]|].
      split; [destruct I2 as [-> | I2]; [unfold b1; destruct (qltb b x); cbn; auto|cbn; auto]|].
      split; [qlra|]. split; [qlra|]. intros y [<- | Hy]; [split; qlra|apply L3; exact Hy]. }
  destruct (G F f f) as (a & b & E & I1 & I2 & L1 & L2 & L3). exists a, b. split; [exact E|].
  split; split; try (destruct I1 as [-> | I1]; cbn; auto; fail); try (destruct I2 as [-> | I2]; cbn; auto; fail); intros x [<- | Hx]; auto; apply L3; exact Hx.
Qed.
Definition binq (a b : Qc) (k : Z) : Qc := (a + (b - a) / qz 9 * qz k)%Qc.
Lemma bin_ok a b k : 0 <= k <= 9 -> bin (Fin a) (Fin b) k = Fin (binq a b k).
Proof.
  intros H. unfold bin, binq. destruct (Z.eqb_spec k 0) as [->|N].
  - f_equal. rewrite qz_0. ring.
  - reflexivity.
Qed.
Lemma binq_mono a b j k : (a <= b)%Qc -> 0 <= j <= k -> k <= 9 -> (a <= binq a b j /\ binq a b j <= binq a b k /\ binq a b k <= b)%Qc.
Proof.
  intros H HJ HK. unfold binq. set (u := ((b - a) / qz 9)%Qc).
  assert (U : (qz 9 * u = b - a)%Qc) by (unfold u; rewrite Qcmult_comm; apply qdiv_mul; intros E; rewrite <- qz_0 in E; apply qz_inj in E; lia).
  assert (UP : (0 <= u)%Qc). { unfold u, Qcdiv. assert (0 < / qz 9)%Qc by (apply qinv_pos; reflexivity). assert (0 <= b - a)%Qc by qlra. set (i := (/ qz 9)%Qc) in *. clearbody i. set (e := (b - a)%Qc) in *. clearbody e. qnra. }
  assert (J : (0 <= qz j)%Qc) by (rewrite <- qz_0; apply qz_le; lia). assert (K : (qz j <= qz k)%Qc) by (apply qz_le; lia). assert (N : (qz k <= qz 9)%Qc) by (apply qz_le; lia).
  set (zj := qz j) in *. set (zk := qz k) in *. set (z9 := qz 9) in *. clearbody zj zk z9 u.
  repeat split; try (clear -J UP; qnra); try (clear -K UP; qnra). clear -N UP U. assert (u * zk <= z9 * u)%Qc by qnra. qlra.
Qed.
Lemma nearb u v : vltb (vabs (vsub (Fin u) (Fin v))) (fq (1 # 1000)) = true <-> near u v.
Proof.
  unfold near, vsub. cbn [vneg vadd vabs]. match goal with |- vltb (Fin ?x) _ = _ <-> _ => change (vltb (Fin x) (fq (1 # 1000))) with (qltb x (Q2Qc (1 # 1000))) end.
  set (e := Q2Qc (1 # 1000)). clearbody e. destruct (qltb_spec (if qltb (u + - v) 0 then - (u + - v) else u + - v) e)%Qc as [H|H]; destruct (qltb_spec (u + - v) 0); split; try discriminate; intros; try reflexivity; try split; try qlra; exfalso; destruct H0; qlra.
Qed.
Lemma vneg_oval o : vneg (vneg (oval o)) = oval o.
Proof. destruct o; cbn; [f_equal; ring|reflexivity]. Qed.
Definition opposed (o o' : option Qc) : bool := vltb (vabs (vsub (vneg (oval o)) (oval o'))) (fq (1 # 1000)).
Lemma opposed_spec s s' : opposed (Some s) (Some s') = true <-> near (- s) s'.
Proof. unfold opposed. cbn [oval vneg]. apply nearb. Qed.
Lemma opt_ok B R F t m : brent_ok B -> length R = length F -> F <> [] -> m <> BadMetric ->
  exists a b x o oa ob, least F a /\ greatest F b /\ (a <= x)%Qc /\ (x <= b)%Qc /\
  score_is (combine R F) t x m o /\ score_is (combine R F) t a m oa /\ score_is (combine R F) t b m ob /\
  get_optimal_threshold B (map Fin R) (map Fin F) (Fin t) m = Ok (if opposed o oa || opposed o ob then MV else
    match o with Some s => if qleb s (Q2Qc (1 # 10000)) then MV else Fin x | None => MV end).
Proof.
  intros HB HL NE HM. destruct (range_ok R F HL NE) as (a & b & E & LA & GB).
  assert (AB : (a <= b)%Qc) by (apply LA; apply GB).
  unfold get_optimal_threshold. rewrite E. cbn [bind].
  destruct (func_ok R F t a m HL NE HM) as (oa & Fa & Sa). destruct (func_ok R F t b m HL NE HM) as (ob & Fb & Sb). rewrite Fa. cbn [bind].
  match goal with |- context [foldM ?f (0, ?v) (zrange 1 10)] => set (step := f) end.
  assert (LOOP : forall l mi mv, 0 <= mi <= 9 -> (forall k, In k l -> 0 <= k <= 9) -> exists mi' mv', foldM step (mi, mv) l = Ok (mi', mv') /\ 0 <= mi' <= 9).
  { induction l as [|k l IH]; intros mi mv Hm Hl; cbn [foldM]; [eauto|]. unfold step at 1. rewrite (bin_ok a b k) by (apply Hl; left; reflexivity).
    destruct (func_ok R F t (binq a b k) m HL NE HM) as (ok & Fk & _). rewrite Fk. cbn [bind].
    destruct (vltb _ mv); cbn [bind]; apply IH; try assumption; try (intros; apply Hl; right; assumption). apply Hl. left. reflexivity. }
  destruct (LOOP (zrange 1 10) 0 (vneg (oval oa))) as (mi & mv & EL & Hmi); [lia|intros k Hk; apply in_zrange in Hk; lia|]. rewrite EL. cbn [bind].
  set (li := if 0 <? mi then mi - 1 else 0). set (ri := if mi <? 9 then mi + 1 else 9).
  assert (LR : 0 <= li <= ri /\ ri <= 9) by (unfold li, ri; destruct (Z.ltb_spec 0 mi), (Z.ltb_spec mi 9); lia).
  rewrite !bin_ok by lia. destruct (binq_mono a b li ri AB) as (M1 & M2 & M3); [lia|lia|].
  destruct (HB (score_func (map Fin R) (map Fin F) (Fin t) m) (binq a b li) (binq a b ri) M2) as (x & v & EB & X1 & X2 & FX).
  { intros x _ _. destruct (func_ok R F t x m HL NE HM) as (o & Fo & _). eauto. }
  rewrite EB. cbn [bind]. rewrite Fb. cbn [bind].
  destruct (func_ok R F t x m HL NE HM) as (o & Fo & So). rewrite Fo in FX. injection FX as <-.
  exists a, b, x, o, oa, ob. split; [exact LA|]. split; [exact GB|]. split; [eapply Qcle_trans; eassumption|]. split; [eapply Qcle_trans; eassumption|].
  split; [exact So|]. split; [exact Sa|]. split; [exact Sb|]. rewrite !vneg_oval. fold (opposed o oa) (opposed o ob). do 2 f_equal.
  destruct (opposed o oa || opposed o ob); [reflexivity|]. destruct o as [s|]; [|reflexivity]. cbn [oval is_valid negb].
  change (vleb (Fin s) (fq (1 # 10000))) with (vleb (Fin s) (Fin (Q2Qc (1 # 10000)))). rewrite P_Stat.vleb_Fin. reflexivity.
Qed.
Lemma c99_all : forall B R F t m, brent_ok B -> length R = length F -> F <> [] -> m <> BadMetric ->
  exists v, get_optimal_threshold B (map Fin R) (map Fin F) (Fin t) m = Ok v /\ (v = MV \/ exists x, v = Fin x /\ useful R F t m x).
Proof.
  intros B R F t m HB HL NE HM. destruct (opt_ok B R F t m HB HL NE HM) as (a & b & x & o & oa & ob & LA & GB & X1 & X2 & So & _ & _ & E).
  eexists. split; [exact E|]. destruct (opposed o oa || opposed o ob); [left; reflexivity|]. destruct o as [s|]; [|left; reflexivity].
  destruct (qleb_spec s (Q2Qc (1 # 10000))); [left; reflexivity|]. right. exists x. split; [reflexivity|].
  split; [split; [exists a; split; [apply LA|exact X1]|exists b; split; [apply GB|exact X2]]|]. exists s. split; [exact So|]. apply Qcnot_le_lt. assumption.
Qed.
Lemma c99_bad : forall B R F t, length R = length F -> F <> [] -> get_optimal_threshold B (map Fin R) (map Fin F) (Fin t) BadMetric = Throw InvalidArgument.
Proof.
  intros B R F t HL NE. destruct (range_ok R F HL NE) as (a & b & E & _). unfold get_optimal_threshold. rewrite E. cbn [bind].
  unfold score_func. destruct (c34_all R F t a BadMetric HL) as (E' & _). rewrite E'. reflexivity.
Qed.
(** an optimum at the edge *)
Lemma c100_refuted : exists B R F t m a x s, brent_ok B /\ length R = length F /\ F <> [] /\ m <> BadMetric /\
  least F a /\ get_optimal_threshold B (map Fin R) (map Fin F) (Fin t) m = Ok (Fin x) /\
  score_is (combine R F) t x m (Some s) /\ score_is (combine R F) t a m (Some s).
Proof.
  exists B0, (map qz [1; 1]), (map qz [0; 1]), (qz 0), Ts, (qz 0), (qz 0), (Q2Qc (1 # 2)).
  split; [exact brent_ok_B0|]. split; [reflexivity|]. split; [discriminate|]. split; [discriminate|].
  split; [split; [cbn; auto|intros x [<- | [<- | []]]; vm_compute; discriminate]|].
  split; [vcalc|]. split; left; (split; [vm_compute; discriminate|vcalc]).
Qed.
(** no search result survives although the interior scores 1/2 and the edges -1/2 and 0 *)
Lemma c100_refuted2 : exists R F t m a b x sa sb s, length R = length F /\ least F a /\ greatest F b /\ (a < x)%Qc /\ (x < b)%Qc /\
  score_is (combine R F) t a m (Some sa) /\ score_is (combine R F) t b m (Some sb) /\ score_is (combine R F) t x m (Some s) /\
  (sa + qz 1 <= s)%Qc /\ (sb + Q2Qc (1 # 2) <= s)%Qc /\
  forall B, brent_ok B -> get_optimal_threshold B (map Fin R) (map Fin F) (Fin t) m = Ok MV.
Proof.
  set (R := map qz [1; 0; 0; 1]). set (F := map qz [0; 1; 2; 9]).
  exists R, F, (qz 0), Kss, (qz 0), (qz 9), (qz 3), (- Q2Qc (1 # 2))%Qc, 0%Qc, (Q2Qc (1 # 2)).
  assert (SA : score_is (combine R F) (qz 0) (qz 0) Kss (Some (- Q2Qc (1 # 2))%Qc)) by (left; split; [vm_compute; discriminate|vcalc]).
  split; [reflexivity|].
  split; [split; [cbn; auto|intros y Hy; cbn in Hy; decompose [or] Hy; subst; try contradiction; vm_compute; discriminate]|].
  split; [split; [cbn; auto 6|intros y Hy; cbn in Hy; decompose [or] Hy; subst; try contradiction; vm_compute; discriminate]|].
  split; [reflexivity|]. split; [reflexivity|]. split; [exact SA|].
  split; [left; split; [vm_compute; discriminate|vcalc]|]. split; [left; split; [vm_compute; discriminate|vcalc]|].
  split; [vm_compute; discriminate|]. split; [vm_compute; discriminate|].
  intros B HB. destruct (opt_ok B R F (qz 0) Kss HB eq_refl) as (a & b & x & o & oa & ob & LA & GB & X1 & X2 & So & Soa & _ & E); [discriminate|discriminate|].
  rewrite E. f_equal. assert (a = qz 0).
  { destruct LA as [IA LA]. apply Qcle_antisym; [apply LA; cbn; auto|]. cbn in IA. decompose [or] IA; subst; try contradiction; vm_compute; discriminate. }
  subst a. assert (oa = Some (- Q2Qc (1 # 2))%Qc) by (eapply score_unique; eassumption). subst oa.
  assert (X9 : (x <= qz 9)%Qc). { destruct GB as [IB _]. apply (Qcle_trans _ b); [exact X2|]. cbn in IB. decompose [or] IB; subst; try contradiction; vm_compute; discriminate. }
  assert (C : exists o', score_is (combine R F) (qz 0) x Kss o' /\ (o' = Some (- Q2Qc (1 # 2))%Qc \/ o' = Some 0%Qc \/ o' = Some (Q2Qc (1 # 2)))).
  { unfold score_is, tally, outcome, R, F. cbn [map combine filter fst snd].
    change (qltb (qz 0) (qz 0)) with false. change (qltb (qz 0) (qz 1)) with true.
    destruct (qltb_spec x (qz 0)); [exfalso; qlra|]. clear n.
    destruct (qltb_spec x (qz 9)) as [L9|G9].
    - destruct (qltb_spec x (qz 1)) as [L1|G1]; destruct (qltb_spec x (qz 2)) as [L2|G2].
      + exists (Some (- Q2Qc (1 # 2))%Qc). split; [|auto]. left. split; [vm_compute; discriminate|vcalc].
      + exfalso. assert (qz 1 < qz 2)%Qc by reflexivity. qlra.
      + exists (Some 0%Qc). split; [|auto]. left. split; [vm_compute; discriminate|vcalc].
      + exists (Some (Q2Qc (1 # 2))). split; [|auto]. left. split; [vm_compute; discriminate|vcalc].
    - assert (qz 1 < qz 9)%Qc by reflexivity. assert (qz 2 < qz 9)%Qc by reflexivity.
      destruct (qltb_spec x (qz 1)); [exfalso; qlra|]. destruct (qltb_spec x (qz 2)); [exfalso; qlra|].
      exists (Some 0%Qc). split; [|auto]. left. split; [vm_compute; discriminate|vcalc]. }
  destruct C as (o' & S' & C). assert (o = o') by (eapply score_unique; eassumption). subst o'.
  destruct C as [-> | [-> | ->]]; [destruct (opposed _ _ || opposed _ _); reflexivity|destruct (opposed _ _ || opposed _ _); reflexivity|].
  replace (opposed (Some (Q2Qc (1 # 2))) (Some (- Q2Qc (1 # 2))%Qc)) with true by reflexivity. reflexivity.
Qed.
Lemma c100_partial : forall B R F t m, brent_ok B -> length R = length F -> F <> [] -> m <> BadMetric ->
  exists v, get_optimal_threshold B (map Fin R) (map Fin F) (Fin t) m = Ok v /\
  forall x a b sa sb, v = Fin x -> least F a -> greatest F b -> score_is (combine R F) t a m (Some sa) -> score_is (combine R F) t b m (Some sb) ->
  exists s, score_is (combine R F) t x m (Some s) /\ ~ near (- s) sa /\ ~ near (- s) sb.
Proof.
  intros B R F t m HB HL NE HM. destruct (opt_ok B R F t m HB HL NE HM) as (a & b & x & o & oa & ob & LA & GB & X1 & X2 & So & Sa & Sb & E).
  eexists. split; [exact E|]. intros x' a' b' sa sb Hv LA' GB' HSa HSb.
  assert (a' = a) by (apply Qcle_antisym; [apply LA'; apply LA|apply LA; apply LA']). assert (b' = b) by (apply Qcle_antisym; [apply GB; apply GB'|apply GB'; apply GB]). subst.
  assert (oa = Some sa) by (eapply score_unique; eassumption). assert (ob = Some sb) by (eapply score_unique; eassumption). subst.
  destruct (opposed o (Some sa)) eqn:E1; [discriminate|]. destruct (opposed o (Some sb)) eqn:E2; [discriminate|]. cbn [orb] in Hv. destruct o as [s|]; [|discriminate].
  destruct (qleb s (Q2Qc (1 # 10000))); [discriminate|]. injection Hv as <-. exists s. split; [exact So|].
  split; intros H; apply opposed_spec in H; congruence.
Qed.
(** ** curves *)
Lemma c101_all : forall B R F T m, brent_ok B -> length R = length F -> F <> [] -> m <> BadMetric ->
  exists xs ts, metric_optimizer_curve B (map Fin R) (map Fin F) (map Fin T) m = Ok (map Fin xs, map Fin ts) /\
  subseq ts T /\ Forall2 (fun t x => useful R F t m x /\ get_optimal_threshold B (map Fin R) (map Fin F) (Fin t) m = Ok (Fin x)) ts xs /\
  (forall t, In t T -> In t ts \/ get_optimal_threshold B (map Fin R) (map Fin F) (Fin t) m = Ok MV).
Proof.
  intros B R F T m HB HL NE HM. unfold metric_optimizer_curve. rewrite !zlen_map.
  assert (EL : zlen R = zlen F) by (unfold zlen; rewrite HL; reflexivity). rewrite EL, Z.eqb_refl. cbn [negb].
  match goal with |- context [foldM ?f _ _] => set (step := f) end.
  assert (G : forall T ax at_, exists xs ts, foldM step (map Fin ax, map Fin at_) (map Fin T) = Ok (map Fin (ax ++ xs), map Fin (at_ ++ ts)) /\ subseq ts T /\
    Forall2 (fun t x => useful R F t m x /\ get_optimal_threshold B (map Fin R) (map Fin F) (Fin t) m = Ok (Fin x)) ts xs /\
    (forall t, In t T -> In t ts \/ get_optimal_threshold B (map Fin R) (map Fin F) (Fin t) m = Ok MV)).
  { clear T. induction T as [|t T IH]; intros ax at_; cbn [map foldM].
    - exists [], []. rewrite !app_nil_r. repeat split; [constructor|constructor|intros t []].
    - destruct (c99_all B R F t m HB HL NE HM) as (v & E & C). unfold step at 1. rewrite E. cbn [bind].
      destruct C as [-> | (x & -> & U)]; cbn [is_valid bind].
      + change (is_valid MV) with false. cbn [bind]. destruct (IH ax at_) as (xs & ts & E1 & E2 & E3 & E4). exists xs, ts. split; [exact E1|]. split; [constructor; exact E2|].
        split; [exact E3|]. intros t' [<- | H]; [right; exact E|apply E4; exact H].
      + destruct (IH (ax ++ [x]) (at_ ++ [t])) as (xs & ts & E1 & E2 & E3 & E4). exists (x :: xs), (t :: ts).
        rewrite !map_app in E1. cbn [map] in E1. rewrite E1. rewrite !map_app, <- !app_assoc. cbn [map app]. split; [reflexivity|].
        split; [constructor; exact E2|]. split; [constructor; [split; assumption|exact E3]|]. intros t' [<- | H]; [left; left; reflexivity|]. destruct (E4 t' H); [left; right; assumption|right; assumption]. }
  destruct (G T [] []) as (xs & ts & E1 & E2). exists xs, ts. split; [exact E1|exact E2].
Qed.
Lemma c101_errors : forall B ref fcst T m, zlen ref <> zlen fcst -> metric_optimizer_curve B ref fcst T m = Throw InvalidArgument.
Proof. intros B ref fcst T m H. unfold metric_optimizer_curve. rewrite (proj2 (Z.eqb_neq _ _) H). reflexivity. Qed.

(** ** gamma quantiles *)
Lemma gquant_ok_Q0 : gquant_ok Q0.
Proof.
  assert (V : forall sh sc l, (l < 1)%Qc -> Q0 (Fin sh) (Fin sc) (Fin l) = Ok (Fin (sc * sh * (l / (1 - l)))%Qc)).
  { intros sh sc l H. unfold Q0, fz. rewrite qz_1. change (veqb (Fin l) (Fin 1%Qc)) with (qeqb l 1). destruct (qeqb_spec l 1) as [E|N]; [rewrite E in H; exfalso; qlra|].
    unfold vsub. cbn [vneg vadd]. unfold vdiv. destruct (qeqb_spec (1 + - l) 0) as [Z|_]; [exfalso; apply N; qlra|]. reflexivity. }
  assert (I : forall l, (l < 1)%Qc -> (0 < / (1 - l))%Qc) by (intros; apply qinv_pos; qlra).
  assert (M : forall l, (l < 1)%Qc -> (l / (1 - l) + 1 = / (1 - l))%Qc).
  { intros l H. assert (E : ((1 - l) * / (1 - l) = 1)%Qc) by (apply Qcmult_inv_r; intros E; qlra). unfold Qcdiv. set (i := (/ (1 - l))%Qc) in *. clearbody i.
    transitivity (l * i + (1 - l) * i)%Qc; [rewrite E; reflexivity|ring]. }
  assert (Z : forall a b, (0 < a)%Qc -> (0 <= b)%Qc -> (0 <= a * b)%Qc) by (intros a b Ha Hb; apply qmul_nonneg; [apply Qclt_le_weak; exact Ha|exact Hb]).
  split.
  - intros sh sc l H1 H2 H3 H4. eexists. split; [apply V; exact H4|]. apply Z; [qnra|]. unfold Qcdiv. pose proof (I l H4). set (i := (/ _)%Qc) in *. clearbody i. qnra.
  - intros sh sc H1 H2. rewrite V by reflexivity. do 2 f_equal. unfold Qcdiv. ring.
  - intros sh sc l l' x x' H1 H2 H3 H4 H5. assert (L1 : (l < 1)%Qc) by qlra. rewrite !V by assumption. intros [= <-] [= <-].
    assert (P : (0 < sc * sh)%Qc) by qnra. set (p := (sc * sh)%Qc) in *. clearbody p.
    assert (Q : (l / (1 - l) < l' / (1 - l'))%Qc).
    { assert (J : (/ (1 - l) < / (1 - l'))%Qc).
      { pose proof (I l L1) as I1. pose proof (I l' H5) as I2. assert (E1 : ((1 - l) * / (1 - l) = 1)%Qc) by (apply Qcmult_inv_r; intros E; qlra). assert (E2 : ((1 - l') * / (1 - l') = 1)%Qc) by (apply Qcmult_inv_r; intros E; qlra).
        set (i := (/ (1 - l))%Qc) in *. set (j := (/ (1 - l'))%Qc) in *. clearbody i j. clear -I1 I2 E1 E2 H4 H5 L1. apply Qcnot_le_lt. intros K. 
        assert (A : ((1 - l') * j < (1 - l) * j)%Qc) by (apply Qcmult_lt_compat_r; [exact I2|qlra]). assert (B : ((1 - l) * j <= (1 - l) * i)%Qc) by (rewrite !(Qcmult_comm (1 - l)); apply Qcmult_le_compat_r; [exact K|qlra]). rewrite E2 in A. rewrite E1 in B. exact (Qclt_not_le _ _ A B). }
      rewrite <- (M l L1), <- (M l' H5) in J. clear -J. set (u := (l / (1 - l))%Qc) in *. set (v := (l' / (1 - l'))%Qc) in *. clearbody u v. apply Qcnot_le_lt. intros K. apply (Qclt_not_le _ _ J). apply Qcplus_le_compat; [exact K|apply Qcle_refl]. }
    set (u := (l / (1 - l))%Qc) in *. set (v := (l' / (1 - l'))%Qc) in *. clearbody u v. clear -P Q. rewrite (Qcmult_comm p u), (Qcmult_comm p v). apply Qcmult_lt_compat_r; assumption.
  - intros sh sc _ _. reflexivity.
Qed.
Lemma gamma_valid lv sh sc i l s c : znth lv i = Ok l -> znth sh i = Ok s -> znth sc i = Ok c -> level_ok l -> positive s -> positive c ->
  gamma_check lv sh sc i = Ok tt.
Proof.
  intros E1 E2 E3 (l' & -> & L1 & L2) (s' & -> & S1) (c' & -> & C1). unfold gamma_check. rewrite E1, E2, E3. cbn [bind].
  unfold fz. rewrite qz_0, qz_1. change (vltb (Fin l') (Fin 0%Qc)) with (qltb l' 0). change (vltb (Fin 1%Qc) (Fin l')) with (qltb 1 l'). rewrite !P_Stat.vleb_Fin.
  destruct (qltb_spec l' 0); [exfalso; qlra|]. destruct (qltb_spec 1 l'); [exfalso; qlra|]. destruct (qleb_spec s' 0); [exfalso; qlra|]. destruct (qleb_spec c' 0); [exfalso; qlra|]. reflexivity.
Qed.
Lemma gamma_invalid lv sh sc i l s c : znth lv i = Ok l -> znth sh i = Ok s -> znth sc i = Ok c -> ~ level_ok l \/ ~ positive s \/ ~ positive c ->
  gamma_check lv sh sc i = Throw InvalidArgument.
Proof.
  intros E1 E2 E3 H. unfold gamma_check. rewrite E1, E2, E3. cbn [bind]. unfold fz. rewrite qz_0, qz_1.
  destruct l as [| | |l]; try reflexivity. change (vltb (Fin l) (Fin 0%Qc)) with (qltb l 0). change (vltb (Fin 1%Qc) (Fin l)) with (qltb 1 l).
  destruct (qltb_spec l 0); [reflexivity|]. destruct (qltb_spec 1 l); [reflexivity|]. cbn [orb negb is_valid].
  destruct s as [| | |s]; try reflexivity. rewrite P_Stat.vleb_Fin. destruct (qleb_spec s 0); [reflexivity|]. cbn [orb negb is_valid].
  destruct c as [| | |c]; try reflexivity. rewrite P_Stat.vleb_Fin. destruct (qleb_spec c 0); [reflexivity|]. exfalso.
  destruct H as [H | [H | H]]; apply H; eexists; (split; [reflexivity|]); try split; qlra.
Qed.
Lemma c102_all : forall q lv sh sc, gquant_ok q -> zlen lv = zlen sh -> zlen sc = zlen sh ->
  (forall l, In l lv -> level_ok l /\ l <> Fin 1%Qc) -> (forall s, In s sh -> positive s) -> (forall c, In c sc -> positive c) ->
  exists out, gamma_inv q lv sh sc = Ok out /\ zlen out = zlen sh /\
  forall i l s c, znth lv i = Ok l -> znth sh i = Ok s -> znth sc i = Ok c -> exists x, znth out i = Ok (Fin x) /\ q s c l = Ok (Fin x) /\ (0 <= x)%Qc.
Proof.
  intros q lv sh sc HQ L1 L2 HL HS HC. unfold gamma_inv.
  assert (IN : forall i, 0 <= i < zlen sh -> exists l s c, znth lv i = Ok l /\ znth sh i = Ok s /\ znth sc i = Ok c).
  { intros i Hi. destruct (znth_some lv i) as [l Hl]; [lia|]. destruct (znth_some sh i) as [s Hs]; [lia|]. destruct (znth_some sc i) as [c Hc]; [lia|]. exists l, s, c. auto. }
  rewrite (mapM_ok _ (fun _ => tt)).
  2:{ intros i Hi. apply in_zrange in Hi. destruct (IN i Hi) as (l & s & c & E1 & E2 & E3). eapply gamma_valid; eauto; [apply HL|apply HS|apply HC]; eapply znth_In; eauto. }
  cbn [bind]. rewrite for1_init_tab by apply zlen_nonneg.
  assert (VAL : forall i l s c, znth lv i = Ok l -> znth sh i = Ok s -> znth sc i = Ok c -> exists x, q s c l = Ok (Fin x) /\ (0 <= x)%Qc).
  { intros i l s c E1 E2 E3. destruct (HL l) as [(l' & -> & A1 & A2) N]; [eapply znth_In; eauto|]. destruct (HS s) as (s' & -> & S1); [eapply znth_In; eauto|]. destruct (HC c) as (c' & -> & C1); [eapply znth_In; eauto|].
    apply (gq_val _ HQ); try assumption. destruct (Qc_dec l' 1) as [[A|A]|A]; [exact A|exfalso; qlra|subst; contradiction]. }
  set (f := fun i => match (l <- znth lv i ;; s <- znth sh i ;; c <- znth sc i ;; q s c l) with Ok v => v | _ => MV end).
  rewrite (mapM_ok _ f).
  2:{ intros i Hi. apply in_zrange in Hi. destruct (IN i Hi) as (l & s & c & E1 & E2 & E3). unfold f. rewrite E1, E2, E3. cbn [bind]. destruct (VAL i l s c E1 E2 E3) as (x & -> & _). reflexivity. }
  eexists. split; [reflexivity|]. pose proof (zlen_nonneg sh). rewrite zlen_map, zlen_zrange. split; [lia|].
  intros i l s c E1 E2 E3. destruct (VAL i l s c E1 E2 E3) as (x & E & X). exists x. pose proof (znth_range _ _ _ E2) as Ri.
  split; [|split; assumption]. rewrite znth_map, znth_zrange by lia. cbn [bind]. unfold f. replace (0 + i) with i by lia. rewrite E1, E2, E3. cbn [bind]. rewrite E. reflexivity.
Qed.
Lemma c102_monotone : forall q lv lv' sh sc out out', gquant_ok q -> zlen lv = zlen sh -> zlen lv' = zlen sh -> zlen sc = zlen sh ->
  (forall l, In l lv -> level_ok l /\ l <> Fin 1%Qc) -> (forall l, In l lv' -> level_ok l /\ l <> Fin 1%Qc) -> (forall s, In s sh -> positive s) -> (forall c, In c sc -> positive c) ->
  gamma_inv q lv sh sc = Ok out -> gamma_inv q lv' sh sc = Ok out' ->
  forall i l l', znth lv i = Ok (Fin l) -> znth lv' i = Ok (Fin l') -> exists x x', znth out i = Ok (Fin x) /\ znth out' i = Ok (Fin x') /\
  (l < l' -> x < x')%Qc /\ (l = l' -> x = x')%Qc /\ (l = 0 -> x = 0)%Qc.
Proof.
  intros q lv lv' sh sc out out' HQ L1 L1' L2 HL HL' HS HC E E' i l l' Hl Hl'.
  destruct (c102_all q lv sh sc HQ L1 L2 HL HS HC) as (o & Eo & _ & K). rewrite E in Eo. injection Eo as <-.
  destruct (c102_all q lv' sh sc HQ L1' L2 HL' HS HC) as (o' & Eo' & _ & K'). rewrite E' in Eo'. injection Eo' as <-.
  pose proof (znth_range _ _ _ Hl) as Ri. destruct (znth_some sh i) as [s Hs]; [lia|]. destruct (znth_some sc i) as [c Hc]; [lia|].
  destruct (K i _ s c Hl Hs Hc) as (x & X1 & X2 & _). destruct (K' i _ s c Hl' Hs Hc) as (x' & X1' & X2' & _).
  destruct (HS s) as (s' & -> & S1); [eapply znth_In; eauto|]. destruct (HC c) as (c' & -> & C1); [eapply znth_In; eauto|].
  destruct (HL (Fin l)) as [(l0 & [= <-] & A1 & A2) _]; [eapply znth_In; eauto|]. destruct (HL' (Fin l')) as [(l0' & [= <-] & A1' & A2') N']; [eapply znth_In; eauto|].
  exists x, x'. split; [exact X1|]. split; [exact X1'|]. split; [|split].
  - intros H. eapply (gq_mono _ HQ s' c' l l'); try eassumption. destruct (Qc_dec l' 1) as [[A|A]|A]; [exact A|exfalso; qlra|subst; contradiction].
  - intros ->. congruence.
  - intros ->. rewrite (gq_zero _ HQ) in X2 by assumption. congruence.
Qed.
Lemma c102_errors : forall q lv sh sc, zlen lv = zlen sh -> zlen sc = zlen sh ->
  (exists l, In l lv /\ ~ level_ok l) \/ (exists s, In s sh /\ ~ positive s) \/ (exists c, In c sc /\ ~ positive c) ->
  gamma_inv q lv sh sc = Throw InvalidArgument.
Proof.
  intros q lv sh sc L1 L2 H. unfold gamma_inv.
  assert (IN : forall i, 0 <= i < zlen sh -> exists l s c, znth lv i = Ok l /\ znth sh i = Ok s /\ znth sc i = Ok c).
  { intros i Hi. destruct (znth_some lv i) as [l Hl]; [lia|]. destruct (znth_some sh i) as [s Hs]; [lia|]. destruct (znth_some sc i) as [c Hc]; [lia|]. exists l, s, c. auto. }
  assert (D : forall i, 0 <= i < zlen sh -> gamma_check lv sh sc i = Ok tt \/ gamma_check lv sh sc i = Throw InvalidArgument).
  { intros i Hi. destruct (IN i Hi) as (l & s & c & E1 & E2 & E3). unfold gamma_check. rewrite E1, E2, E3. cbn [bind]. repeat (destruct (_ || _)%bool; [right; reflexivity|]). left. reflexivity. }
  destruct (P_OITotal.mapM_throw (gamma_check lv sh sc) InvalidArgument (zrange 0 (zlen sh))) as [[bs E] | [E _]].
  - intros i Hi. apply in_zrange in Hi. destruct (D i Hi) as [-> | ->]; eauto.
  - exfalso. assert (N : forall i, 0 <= i < zlen sh -> gamma_check lv sh sc i <> Throw InvalidArgument).
    { intros i Hi K. destruct (mapM_inv _ _ _ E) as [_ Z]. destruct (Z i i) as (b & _ & Eb); [rewrite znth_zrange by lia; reflexivity|]. congruence. }
    destruct H as [[l [Hl B]] | [[s [Hl B]] | [c [Hl B]]]]; destruct (In_znth _ _ Hl) as (i & Ei); pose proof (znth_range _ _ _ Ei) as R;
      (destruct (IN i) as (l' & s' & c' & E1 & E2 & E3); [lia|]); apply (N i); try lia; eapply gamma_invalid; try eassumption; rewrite Ei in *.
    + injection E1 as <-. left. exact B.
    + injection E2 as <-. right. left. exact B.
    + injection E3 as <-. right. right. exact B.
  - rewrite E. reflexivity.
Qed.
Lemma c102_one_refuted : exists lv sh sc, zlen lv = zlen sh /\ zlen sc = zlen sh /\ (forall l, In l lv -> level_ok l) /\ (forall s, In s sh -> positive s) /\ (forall c, In c sc -> positive c) /\
  forall q, gquant_ok q -> gamma_inv q lv sh sc = Abort.
Proof.
  exists [fz 1], [fz 2], [fz 3]. split; [reflexivity|]. split; [reflexivity|].
  split; [intros l [<- | []]; exists (qz 1); split; [reflexivity|split; vm_compute; discriminate]|].
  split; [intros l [<- | []]; exists (qz 2); split; reflexivity|]. split; [intros l [<- | []]; exists (qz 3); split; reflexivity|].
  intros q HQ. assert (E : q (fz 2) (fz 3) (fz 1) = Throw RuntimeError) by (unfold fz; rewrite qz_1; apply (gq_one _ HQ); reflexivity).
  unfold gamma_inv. change (zlen [fz 2]) with 1. change (mapM (gamma_check [fz 1] [fz 2] [fz 3]) (zrange 0 1)) with (Ok [tt]). cbn [bind].
  rewrite for1_init_tab by lia. change (zrange 0 1) with [0]. cbn [mapM]. change (znth [fz 1] 0) with (Ok (fz 1)). change (znth [fz 2] 0) with (Ok (fz 2)). change (znth [fz 3] 0) with (Ok (fz 3)). cbn [bind]. rewrite E. reflexivity.
Qed.
Lemma c102_sizes_refuted : exists lv sh sc, zlen lv <> zlen sh /\ (forall l, In l lv -> level_ok l /\ l <> Fin 1%Qc) /\ (forall s, In s sh -> positive s) /\ (forall c, In c sc -> positive c) /\
  forall q, gamma_inv q lv sh sc = UB.
Proof.
  exists [], [fz 2], [fz 3]. split; [discriminate|]. split; [intros l []|]. split; [intros l [<- | []]; exists (qz 2); split; reflexivity|]. split; [intros l [<- | []]; exists (qz 3); split; reflexivity|].
  intros q. reflexivity.
Qed.

(** ** names of statistics *)
Lemma c103_refuted : exists n s, In (n, s) stat_names /\ get_statistic n <> s.
Proof. exists "variance"%string, Variance. split; [cbn; auto 10|discriminate]. Qed.
Lemma c103_partial : (forall n s, In (n, s) stat_names -> n <> "variance"%string -> get_statistic n = s) /\
  (forall n, (forall s, ~ In (n, s) stat_names) -> get_statistic n = Unknown) /\
  (forall n s, get_statistic n = s -> s <> Unknown -> In (n, s) stat_names).
Proof.
  assert (K : forall n s, get_statistic n = s -> s <> Unknown -> In (n, s) stat_names).
  { intros n s <-. unfold get_statistic.
    repeat match goal with |- context [String.eqb n ?x] => destruct (String.eqb_spec n x) as [-> | ?]; [intros _; cbn; auto 12|] end. intros N. contradiction. }
  split; [|split; [|exact K]].
  - intros n s H N. cbn in H. decompose [or] H; try contradiction; match goal with E : (_, _) = (_, _) |- _ => injection E as <- <- end; try reflexivity. contradiction.
  - intros n H. destruct (get_statistic n) eqn:E; try reflexivity; exfalso; eapply H, K; try exact E; discriminate.
Qed.
