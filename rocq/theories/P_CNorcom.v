(** Proofs about the QNH file and the fake file of the client. *)
From Coq Require Import Ascii String.
From Verif Require Import Base QcTac ListLib M_COpt M_CDate S_CDate P_CDate M_CUtil M_CCal M_CDown P_CDown M_CKrig M_CFile S_CFile P_CFile3 M_CNc P_CNc5 P_CNc7 M_CPar M_CParNc M_CNcOpen P_CNcOpen M_CNorcom S_CNorcom.
Local Open Scope Z_scope.

(** numbers *)
Definition same_str (a b : str) : bool := str_eqb a b.
Lemma same_str_true a b : same_str a b = true -> a = b.
Proof. unfold same_str, str_eqb. destruct (list_eq_dec ascii_dec a b); [auto|discriminate]. Qed.
Lemma all_below (p : Z -> bool) n : forallb p (zrange 0 n) = true -> forall k, 0 <= k < n -> p k = true.
Proof. intros H k Hk. rewrite forallb_forall in H. apply H. apply in_zrange. lia. Qed.
Lemma two_ok k : 0 <= k < 100 -> pad_left "0"%char 2 (show_int k) = two k.
Proof. intros Hk. apply same_str_true. revert k Hk. apply (all_below (fun k => same_str (pad_left "0"%char 2 (show_int k)) (two k))). vm_compute. reflexivity. Qed.
Lemma four_ok k : 0 <= k < 10000 -> pad_left "0"%char 4 (show_int k) = four k.
Proof. intros Hk. apply same_str_true. revert k Hk. apply (all_below (fun k => same_str (pad_left "0"%char 4 (show_int k)) (four k))). vm_compute. reflexivity. Qed.
(** time stamps *)
Lemma c278_stamp t d hh mm : moment t d hh mm -> time_stamp t = Ok (stamp d hh mm).
Proof.
  intros (n & y & m & ss & Hn & HD & HY & HT & ->). destruct (c138 n (y, m, d) hh mm ss Hn HD HY HT) as [(x & Ex & Nx) Et]. cbv zeta in Ex, Et. unfold time_stamp. rewrite Ex, Et. cbn [bind]. unfold numeral in Nx. destruct HT as (H1 & H2 & H3).
  assert (AD : a_date (y, m, d)) by (apply a_date_iff; apply days_after_number in HD; tauto).
  destruct AD as (len & HL & Hd). assert (L31 : len <= 31) by (destruct HL as [[_ ->]|[[_ ->]|[(_ & _ & ->)|(_ & _ & ->)]]]; lia). assert (Hm : 1 <= m <= 12) by (destruct HL as [[A _]|[[A _]|[(A & _)|(A & _)]]]; cbn in A; lia). unfold in_years in HY.
  assert (E1 : Z.rem x 100 = d). { rewrite Nx, Z.rem_mod_nonneg by lia. replace (y * 10000 + m * 100 + d) with (d + (y * 100 + m) * 100) by ring. rewrite Z.mod_add by lia. apply Z.mod_small. lia. }
  assert (E2 : Z.quot (hh * 10000 + mm * 100 + ss) 100 = hh * 100 + mm). { rewrite Z.quot_div_nonneg by lia. replace (hh * 10000 + mm * 100 + ss) with (ss + (hh * 100 + mm) * 100) by ring. rewrite Z.div_add by lia. rewrite Z.div_small by lia. lia. }
  rewrite E1, E2, two_ok, four_ok by lia. unfold stamp, four. replace ((hh * 100 + mm) / 100) with hh; [replace ((hh * 100 + mm) mod 100) with mm; [reflexivity|]|]; Z.div_mod_to_equations; lia.
Qed.
(** names *)
Lemma longest_from (names : list str) : forall m, 0 <= m -> let w := fold_left (fun m (n : str) => if m <? zlen n then zlen n else m) names m in m <= w /\ (forall n, In n names -> zlen n <= w) /\ (w = m \/ exists n, In n names /\ zlen n = w).
Proof.
  induction names as [|a t IH]; intros m Hm; cbv zeta; [cbn; split; [lia|]; split; [intros ? []|left; reflexivity]|]. cbn [fold_left]. destruct (IH (if m <? zlen a then zlen a else m)) as (A & B & C); [destruct (Z.ltb_spec m (zlen a)); lia|]. cbv zeta in A, B, C. set (w := fold_left _ t _) in *.
  destruct (Z.ltb_spec m (zlen a)) as [H|H]; (split; [lia|]); (split; [intros n [<-|Hn]; [lia|auto]|]).
  - right. destruct C as [C|(n & Hn & C)]; [exists a; split; [left; reflexivity|lia]|exists n; split; [right; exact Hn|exact C]].
  - destruct C as [C|(n & Hn & C)]; [left; exact C|right; exists n; split; [right; exact Hn|exact C]].
Qed.
Lemma longest_ok names w : widest names w -> longest names = w.
Proof.
  intros [H1 H2]. destruct (longest_from names 0) as (A & B & C); [lia|]. cbv zeta in A, B, C. unfold longest. set (l := fold_left _ names 0) in *. destruct H2 as [[-> ->]|(n & Hn & <-)]; [reflexivity|]. specialize (B n Hn). destruct C as [C|(m & Hm & C)]; [|specialize (H1 m Hm); lia]. pose proof (zlen_nonneg n). lia.
Qed.
Lemma pad_right_ok names w n : widest names w -> In n names -> filled w n (pad_right " "%char (longest names) n).
Proof.
  intros HW Hn. rewrite (longest_ok _ _ HW). unfold pad_right. exists (Z.to_nat (w - zlen n)). split; [reflexivity|]. rewrite zlen_app. pose proof (proj1 HW n Hn). unfold zlen at 2. rewrite repeat_length. lia.
Qed.
(** the text *)
Lemma norcom_value_ok fields first last j m : smallest fields first last j m -> norcom_value fields first last j = Ok (Z.quot m 100).
Proof.
  intros (c & Hc & (t0 & Ht0 & E0) & Nm & Hmin). destruct (c243 fields first last j c Hc) as [_ H]. destruct (H t0 Ht0) as (t1 & Ht1 & N1 & M1 & ->); [congruence|]. do 2 f_equal. specialize (Hmin t1 Ht1 N1). specialize (M1 t0 Ht0). rewrite E0 in M1. specialize (M1 Nm). lia.
Qed.
Lemma c279 N times now t1 t2 d0 h0 m0 d1 h1 m1 d2 h2 m2 fields w (m : Z -> Z) : zlen (nq_names N) = zlen (nq_lats N) -> widest (nq_names N) w -> znth times (nq_start N) = Ok t1 -> znth times (nq_end N) = Ok t2 ->
  moment now d0 h0 m0 -> moment t1 d1 h1 m1 -> moment t2 d2 h2 m2 -> (forall j, 0 <= j < zlen (nq_lats N) -> smallest fields (nq_start N) (nq_end N) j (m j) /\ 0 <= m j < 1000000) ->
  exists lines, zlen lines = zlen (nq_lats N) /\ (forall j name, znth (nq_names N) j = Ok name -> exists s, znth lines j = Ok s /\ a_line w name (m j) s) /\
    norcom_write N times now fields = Ok (txt "FBNO52 ENNC " ++ stamp d0 h0 m0 ++ [CR; CR; LF] ++ txt "VALID " ++ stamp d1 h1 m1 ++ txt " - " ++ stamp d2 h2 m2 ++ txt " UTC." ++ [CR; LF] ++ concat lines).
Proof.
  intros LN HW E1 E2 M0 M1 M2 HM. unfold norcom_write. rewrite (c278_stamp _ _ _ _ M0). cbn [bind]. rewrite E1. cbn [bind]. rewrite (c278_stamp _ _ _ _ M1). cbn [bind]. rewrite E2. cbn [bind]. rewrite (c278_stamp _ _ _ _ M2). cbn [bind].
  destruct (mapM_total (norcom_line N fields) (fun j s => forall name, znth (nq_names N) j = Ok name -> a_line w name (m j) s) (zrange 0 (zlen (nq_lats N)))) as (lines & E & L & G).
  { intros j Hj. apply in_zrange in Hj. destruct (znth_some (nq_names N) j) as [name Hname]; [lia|]. destruct (HM j Hj) as [HS HB]. unfold norcom_line. rewrite Hname. cbn [bind]. rewrite (norcom_value_ok _ _ _ _ _ HS). cbn [bind]. eexists. split; [reflexivity|]. intros name' E'. injection E' as <-.
    exists (pad_right " "%char (longest (nq_names N)) name). split; [apply pad_right_ok; [exact HW|apply (znth_In _ _ _ Hname)]|]. rewrite Z.quot_div_nonneg by lia. rewrite four_ok by (split; [apply Z.div_pos; lia|apply Z.div_lt_upper_bound; lia]). reflexivity. }
  rewrite E. exists lines. pose proof (zlen_nonneg (nq_lats N)). rewrite zlen_zrange in L. split; [lia|]. split; [|reflexivity]. intros j name Hname. pose proof (znth_range _ _ _ Hname). destruct (G j j) as (s & Hs & _ & Q); [rewrite znth_zrange by lia; f_equal; lia|]. exists s. auto.
Qed.
Lemma c279_width w name m s : a_line w name m s -> zlen s = w + 24.
Proof. intros (p & (k & _ & Hp) & ->). rewrite !zlen_app, Hp. unfold four, two. rewrite !zlen_app. change (zlen (txt "EST MIN QNH ")) with 12. change (zlen (txt ": ")) with 2. change (zlen (txt " HPA")) with 4. change (zlen [CR; LF]) with 2. rewrite !zlen_cons. change (zlen (@nil ascii)) with 0. lia. Qed.
(** opening *)
Lemma c277_ok o lats lons elevs names num first last : q_lats o = Some lats -> q_lons o = Some lons -> q_elevs o = Some elevs -> q_names o = Some names -> q_num o = Some num -> q_start o = Some first -> q_end o = Some last ->
  zlen lons = zlen lats -> zlen elevs = zlen lats -> zlen names = zlen lats -> (forall v, In v lats -> in_limits 90 v) -> (forall v, In v lons -> in_limits 360 v /\ v <> fz 0) -> first <= last ->
  exists N, norcom_open o = Ok N /\ nq_lats N = lats /\ nq_elevs N = elevs /\ nq_names N = names /\ nq_start N = first /\ nq_end N = last /\ nq_times N = zrange 0 num /\ zlen (nq_lons N) = zlen lats /\
    forall j q, znth lons j = Ok (Fin q) -> exists r k, znth (nq_lons N) j = Ok (Fin r) /\ (qz (-180) <= r <= qz 180)%Qc /\ (q = r + qz (360 * k))%Qc.
Proof.
  intros E1 E2 E3 E4 E5 E6 E7 L1 L2 L3 HA HO HT. unfold norcom_open. rewrite E1, E2, E3, E4, E5, E6, E7. cbn [or_abort bind]. rewrite L1, L2, L3, Z.eqb_refl. cbn [negb orb].
  assert (existsb lat_bad lats = false) as ->. { destruct (existsb lat_bad lats) eqn:X; [|reflexivity]. apply existsb_exists in X as (v & Hv & B). destruct (HA v Hv) as (q & -> & Hq). rewrite c167_lat_ok in B by exact Hq. discriminate. }
  assert (existsb lon_bad lons = false) as ->. { destruct (existsb lon_bad lons) eqn:X; [|reflexivity]. apply existsb_exists in X as (v & Hv & B). destruct (HO v Hv) as [(q & -> & Hq) _]. rewrite c167_lon_ok in B by exact Hq. discriminate. }
  destruct (mapM_total norm_lon (fun v w => exists q r k, v = Fin q /\ w = Fin r /\ (qz (-180) <= r <= qz 180)%Qc /\ (q = r + qz (360 * k))%Qc) lons) as (lons' & E & L & G).
  { intros v Hv. destruct (HO v Hv) as [(q & -> & Hq) N0]. destruct (c167_lon q) as (r & k & E & B & K); [intros ->; apply N0; unfold fz; f_equal; rewrite qz_0; reflexivity|exact Hq|]. exists (Fin r). split; [exact E|]. exists q, r, k. auto. }
  rewrite E. cbn [bind]. destruct (Z.ltb_spec last first); [lia|]. eexists. split; [reflexivity|]. cbn. repeat (split; [reflexivity|]). split; [lia|]. intros j q Hj. destruct (G j _ Hj) as (w & Hw & _ & q' & r & k & Eq & -> & B & K). injection Eq as <-. exists r, k. auto.
Qed.
Lemma c277_only o N : norcom_open o = Ok N -> exists lats lons elevs names num, q_lats o = Some lats /\ q_lons o = Some lons /\ q_elevs o = Some elevs /\ q_names o = Some names /\ q_num o = Some num /\ q_start o = Some (nq_start N) /\ q_end o = Some (nq_end N) /\
  zlen lons = zlen lats /\ zlen elevs = zlen lats /\ zlen names = zlen lats /\ nq_start N <= nq_end N /\ (forall q, In (Fin q) lats -> in_limits 90 (Fin q)) /\ (forall q, In (Fin q) lons -> in_limits 360 (Fin q)).
Proof.
  unfold norcom_open. intros E. destruct (q_lats o) as [lats|]; [|discriminate]. destruct (q_lons o) as [lons|]; [|discriminate]. destruct (q_elevs o) as [elevs|]; [|discriminate]. destruct (q_names o) as [names|]; [|discriminate]. destruct (q_num o) as [num|]; [|discriminate]. cbn [or_abort bind] in E.
  destruct (Z.eqb_spec (zlen lats) (zlen lons)) as [A1|]; [|discriminate]. destruct (Z.eqb_spec (zlen lats) (zlen elevs)) as [A2|]; [|discriminate]. destruct (Z.eqb_spec (zlen lats) (zlen names)) as [A3|]; [|discriminate]. cbn [negb orb] in E.
  destruct (existsb lat_bad lats) eqn:B1; [discriminate|]. destruct (existsb lon_bad lons) eqn:B2; [discriminate|]. apply bind_Ok in E as (lons' & _ & E). destruct (q_start o) as [a|]; [|discriminate]. destruct (q_end o) as [b|]; [|discriminate]. cbn [or_abort bind] in E. destruct (Z.ltb_spec b a); [discriminate|]. injection E as <-. cbn.
  exists lats, lons, elevs, names, num. repeat (split; [reflexivity|]). do 4 (split; [lia|]).
  assert (K : forall lim q, (vltb (Fin q) (fz (- lim)) || vltb (fz lim) (Fin q)) = false -> in_limits lim (Fin q)). { intros lim q X. apply orb_false_iff in X as [X1 X2]. exists q. split; [reflexivity|]. unfold fz in X1, X2. cbn [vltb] in X1, X2. destruct (qltb_spec q (qz (- lim))); [discriminate|]. destruct (qltb_spec (qz lim) q); [discriminate|]. split; qlra. }
  assert (EX : forall (p : val -> bool) l v, existsb p l = false -> In v l -> p v = false). { intros p l v X Hv. destruct (p v) eqn:Y; [|reflexivity]. assert (existsb p l = true) by (apply existsb_exists; eauto). congruence. }
  split; intros q Hq; apply K; [exact (EX _ _ _ B1 Hq)|exact (EX _ _ _ B2 Hq)].
Qed.
(** the last time is not checked when the file is opened *)
Definition qnh_options : nq_options := {| q_lats := Some [fz 60; fz 61]; q_lons := Some [fz 10; fz 190]; q_elevs := Some [fz 5; fz 6]; q_names := Some [txt "A"; txt "Oslo"]; q_num := Some 2; q_start := Some 0; q_end := Some 2 |}.
Definition qnh_fields (n : Z) : list field := map (fun t => {| f_values := [fz (101325 - 10 * t); fz (99900 + t)]; f_ny := 1; f_nx := 2; f_ne := 1 |}) (zrange 0 n).
Lemma c279_late : exists o N, norcom_open o = Ok N /\ norcom_write N (nq_times N) 0 (qnh_fields (zlen (nq_times N))) = UB.
Proof. exists qnh_options. eexists. split; [vm_compute; reflexivity|vm_compute; reflexivity]. Qed.
(** fake files: the first column has longitude 0 *)
Lemma c280 a b c d : (forall n, In (Some n) [a; b; c; d] -> 0 < n) -> fake_open a b c d = UB.
Proof.
  intros H. unfold fake_open. set (y := match a with Some k => k | None => 10 end). set (x := match b with Some k => k | None => 10 end). set (e := match c with Some k => k | None => 2 end). set (t := match d with Some k => k | None => 10 end). cbv zeta.
  assert (Hy : 0 < y) by (unfold y; destruct a; [apply H; cbn; auto|lia]). assert (Hx : 0 < x) by (unfold x; destruct b; [apply H; cbn; auto|lia]). assert (He : 0 < e) by (unfold e; destruct c; [apply H; cbn; auto|lia]). assert (Ht : 0 < t) by (unfold t; destruct d; [apply H; cbn; auto|lia]).
  assert (I : forall k, 0 < k -> ivalid k = true) by (intros k Hk; apply ivalid_ne; lia). rewrite !I by auto. cbn [negb orb]. destruct (Z.leb_spec y 0); [lia|]. destruct (Z.leb_spec x 0); [lia|]. destruct (Z.leb_spec e 0); [lia|]. destruct (Z.leb_spec t 0); [lia|].
  assert (FR : forall i n, 0 <= i < n -> (0 <= qz 10 * qz i / qz n <= qz 10)%Qc).
  { intros i n Hi. assert (P0 : (0 < qz n)%Qc) by (rewrite <- qz_0; apply qz_lt; lia). assert (N0 : qz n <> 0%Qc) by (intros Q; rewrite <- qz_0 in Q; apply qz_inj in Q; lia). assert (A : (0 <= qz i)%Qc) by (rewrite <- qz_0; apply qz_le; lia). assert (B : (qz i <= qz n)%Qc) by (apply qz_le; lia).
    set (r := (qz 10 * qz i / qz n)%Qc). assert (R : (r * qz n = qz 10 * qz i)%Qc) by (unfold r; field; exact N0). assert (T : (0 <= qz 10)%Qc) by (rewrite <- qz_0; apply qz_le; lia). split.
    - apply Qcnot_lt_le. intros Q. assert (r * qz n < 0 * qz n)%Qc by (apply Qcmult_lt_compat_r; auto). assert (0 <= qz 10 * qz i)%Qc by (replace 0%Qc with (0 * qz i)%Qc by ring; apply Qcmult_le_compat_r; auto). rewrite R in *. replace (0 * qz n)%Qc with 0%Qc in * by ring. qlra.
    - apply Qcnot_lt_le. intros Q. assert (qz 10 * qz n < r * qz n)%Qc by (apply Qcmult_lt_compat_r; auto). assert (qz i * qz 10 <= qz n * qz 10)%Qc by (apply Qcmult_le_compat_r; auto). rewrite R in *. rewrite (Qcmult_comm (qz i)), (Qcmult_comm (qz n)) in *. qlra. }
  assert (LE : forall u v, u <= v -> (qz u <= qz v)%Qc) by (intros; apply qz_le; assumption).
  assert (LA : forall i, 0 <= i < y -> lat_bad (Fin (qz 50 + qz 10 * qz i / qz y)) = false).
  { intros i Hi. destruct (FR i y Hi) as [F1 F2]. apply c167_lat_ok. assert (A1 : (qz (-90) <= qz 50)%Qc) by (apply LE; lia). assert (A2 : (qz 60 <= qz 90)%Qc) by (apply LE; lia). assert (Q : (qz 50 + qz 10 = qz 60)%Qc) by (apply Qc_is_canon; reflexivity). rewrite <- Q in A2. set (r := (qz 10 * qz i / qz y)%Qc) in *. split; qlra. }
  assert (LO : forall j, 0 <= j < x -> lon_bad (Fin (qz 0 + qz 10 * qz j / qz x)) = false).
  { intros i Hi. destruct (FR i x Hi) as [F1 F2]. apply c167_lon_ok. assert (A1 : (qz (-360) <= qz 0)%Qc) by (apply LE; lia). assert (A2 : (qz 10 <= qz 360)%Qc) by (apply LE; lia). rewrite qz_0 in *. set (r := (qz 10 * qz i / qz x)%Qc) in *. split; qlra. }
  destruct (tab2_table y x (fun i j => Ok (Fin (qz 50 + qz 10 * qz i / qz y))) (fun i j => Fin (qz 50 + qz 10 * qz i / qz y))) as (lats & E1 & R1 & G1); [lia|lia|reflexivity|]. rewrite E1. cbn [bind].
  destruct (tab2_table y x (fun i j => Ok (Fin (qz 0 + qz 10 * qz j / qz x))) (fun i j => Fin (qz 0 + qz 10 * qz j / qz x))) as (lons & E2 & R2 & G2); [lia|lia|reflexivity|]. rewrite E2. cbn [bind].
  rewrite (grid_none lat_bad y x lats R1), (grid_none lon_bad y x lons R2).
  - destruct R2 as [RY RX]. destruct lons as [|row rows]; [change (zlen (@nil vec)) with 0 in RY; lia|]. destruct row as [|v row]; [specialize (RX [] (or_introl eq_refl)); change (zlen (@nil val)) with 0 in RX; lia|].
    pose proof (G2 0 0 ltac:(lia) ltac:(lia)) as Hv. change (Ok v = Ok (Fin (qz 0 + qz 10 * qz 0 / qz x))) in Hv. injection Hv as ->. assert (Z0 : (qz 0 + qz 10 * qz 0 / qz x = 0)%Qc) by (rewrite !qz_0; unfold Qcdiv; ring). rewrite Z0. reflexivity.
  - intros i j v Hi Hj Hv. rewrite (G2 i j Hi Hj) in Hv. injection Hv as <-. apply LO, Hj.
  - intros i j v Hi Hj Hv. rewrite (G1 i j Hi Hj) in Hv. injection Hv as <-. apply LA, Hi.
Qed.
Lemma c280_sizes a b c d n : In (Some n) [a; b; c; d] -> n <= 0 -> fake_open a b c d = Abort.
Proof.
  intros H Hn. assert (I : forall k, negb (ivalid k) || (k <=? 0) = false -> 0 < k) by (intros k X; apply orb_false_iff in X as [_ X]; apply Z.leb_gt in X; exact X).
  unfold fake_open. cbv zeta. set (y := match a with Some k => k | None => 10 end). set (x := match b with Some k => k | None => 10 end). set (e := match c with Some k => k | None => 2 end). set (t := match d with Some k => k | None => 10 end).
  destruct (negb (ivalid y) || (y <=? 0)) eqn:E1; [reflexivity|]. destruct (negb (ivalid y) || (x <=? 0)) eqn:E2; [reflexivity|]. destruct (negb (ivalid e) || (e <=? 0)) eqn:E3; [reflexivity|]. destruct (negb (ivalid t) || (t <=? 0)) eqn:E4; [reflexivity|]. exfalso.
  apply I in E1. apply orb_false_iff in E2 as [_ E2]. apply Z.leb_gt in E2. apply I in E3. apply I in E4. destruct H as [->|[->|[->|[->|[]]]]]; cbn in *; lia.
Qed.
