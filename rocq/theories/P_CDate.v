(** Proofs about dates. *)
From Verif Require Import Base QcTac ListLib M_CDate S_CDate P_Stat P_CDateChk.
From Coq Require Import Qround.
Local Open Scope Z_scope.

Lemma leap_iff y : is_leap_year y = true <-> leap y.
Proof.
  unfold is_leap_year, leap. rewrite andb_true_iff, orb_true_iff, negb_true_iff, !Z.eqb_eq, Z.eqb_neq, !Z.mod_divide by lia. reflexivity.
Qed.
Lemma month_length_iff y m n : month_length y m n <-> 1 <= m <= 12 /\ n = end_of_month_day y m.
Proof.
  unfold month_length, end_of_month_day. pose proof (leap_iff y) as L. split.
  - intros [[I ->]|[[I ->]|[(-> & H & ->)|(-> & H & ->)]]].
    + cbn in I. repeat (destruct I as [<-|I]; [split; [lia|reflexivity]|]). destruct I.
    + cbn in I. repeat (destruct I as [<-|I]; [split; [lia|reflexivity]|]). destruct I.
    + split; [lia|]. apply L in H. rewrite H. reflexivity.
    + split; [lia|]. destruct (is_leap_year y) eqn:E; [exfalso; apply H, L; auto|reflexivity].
  - intros [H ->]. assert (C : m = 1 \/ m = 2 \/ m = 3 \/ m = 4 \/ m = 5 \/ m = 6 \/ m = 7 \/ m = 8 \/ m = 9 \/ m = 10 \/ m = 11 \/ m = 12) by lia.
    repeat (destruct C as [->|C]; [cbn; try (left; split; [tauto|reflexivity]); try (right; left; split; [tauto|reflexivity])|]); [|subst m; left; split; [cbn; tauto|reflexivity]].
    right; right. destruct (is_leap_year y) eqn:E; [left|right]; repeat split; try (apply L; auto; fail). intros X. apply L in X. congruence.
Qed.
Lemma a_date_iff x : a_date x <-> valid x = true.
Proof.
  destruct x as [[y m] d]. unfold a_date, valid. rewrite !andb_true_iff, !Z.leb_le. split.
  - intros (n & H & Hd). apply month_length_iff in H. destruct H as [Hm ->]. lia.
  - intros H. exists (end_of_month_day y m). rewrite month_length_iff. lia.
Qed.
Lemma next_day_iff x z : next_day x z <-> valid x = true /\ z = next_ymd x.
Proof.
  split.
  - intros H. rewrite <- a_date_iff. destruct H as [y m d n L H|y m n L H|y].
    + split; [exists n; split; auto; lia|]. apply month_length_iff in L. destruct L as [_ ->]. cbn. rewrite (proj2 (Z.ltb_lt _ _)) by lia. reflexivity.
    + assert (1 <= n). { apply month_length_iff in L. destruct L as [_ ->]. unfold end_of_month_day. repeat match goal with |- context[if ?c then _ else _] => destruct c end; lia. }
      split; [exists n; split; auto; lia|]. apply month_length_iff in L. destruct L as [_ ->]. cbn. rewrite Z.ltb_irrefl. rewrite (proj2 (Z.ltb_lt _ _)) by lia. reflexivity.
    + split; [exists 31; split; [left; cbn; tauto|lia]|reflexivity].
  - destruct x as [[y m] d]. intros [V ->]. apply valid_bounds in V. destruct V as [Hm Hd]. cbn.
    destruct (Z.ltb_spec d (end_of_month_day y m)).
    + apply N_day with (end_of_month_day y m); [apply month_length_iff; auto|lia].
    + assert (d = end_of_month_day y m) by lia. subst d. destruct (Z.ltb_spec m 12).
      * apply N_month; auto. apply month_length_iff. auto.
      * assert (m = 12) by lia. subst m. apply N_year.
Qed.
Lemma days_after_number x n y : days_after x n y -> valid x = true /\ valid y = true /\ day_number y = day_number x + n.
Proof.
  induction 1 as [x V|x n y z H (V1 & V2 & E) N|x n y z H (V1 & V2 & E) N].
  - apply a_date_iff in V. repeat split; auto. lia.
  - apply next_day_iff in N. destruct N as [V ->]. destruct (number_next y V). repeat split; auto. lia.
  - apply next_day_iff in N. destruct N as [V ->]. destruct (number_next y V). repeat split; auto. lia.
Qed.
Lemma days_after_iff x n y : days_after x n y <-> valid x = true /\ y = from_day_number (day_number x + n).
Proof.
  split.
  - intros H. apply days_after_number in H. destruct H as (V & V' & E). split; auto. rewrite <- E. symmetry. apply from_number; auto.
  - intros [V ->]. destruct (Z_le_gt_dec 0 n) as [P|P].
    + assert (Q : forall k, 0 <= k -> days_after x k (from_day_number (day_number x + k))).
      { intros k Hk. pattern k. apply natlike_ind; auto.
        - rewrite Z.add_0_r, from_number by auto. constructor. apply a_date_iff; auto.
        - intros j Hj IH. replace (Z.succ j) with (j + 1) by lia. eapply D_next; [apply IH|]. apply next_day_iff.
          destruct (all_days (day_number x + j)) as (A & _ & B). split; auto. rewrite B. f_equal. lia. }
      apply Q; auto.
    + assert (Q : forall k, 0 <= k -> days_after x (- k) (from_day_number (day_number x + - k))).
      { intros k Hk. pattern k. apply natlike_ind; auto.
        - rewrite Z.add_0_r, from_number by auto. constructor. apply a_date_iff; auto.
        - intros j Hj IH. replace (- Z.succ j) with (- j - 1) by lia. eapply D_prev; [apply IH|]. apply next_day_iff.
          destruct (all_days (day_number x + (- j - 1))) as (A & _ & B). split; auto. rewrite B. f_equal. lia. }
      specialize (Q (- n)). rewrite Z.opp_involutive in Q. apply Q. lia.
Qed.

Lemma epoch_number : mk_date 1970 1 1 = Ok (day_number epoch).
Proof. reflexivity. Qed.
Lemma u16_id x : 0 <= x < 65536 -> u16 x = x.
Proof. intros H. apply Z.mod_small. lia. Qed.
Lemma mk_date_ok y m d : a_date (y, m, d) -> in_years (y, m, d) -> mk_date y m d = Ok (day_number (y, m, d)).
Proof.
  intros A Y. apply a_date_iff in A. apply valid_bounds in A. destruct A as [Hm Hd]. cbn in Y. pose proof (eom_le y m).
  unfold mk_date. rewrite !u16_id by lia. cbv zeta.
  rewrite !(proj2 (Z.leb_le _ _)) by lia. cbn [andb negb]. rewrite (proj2 (Z.ltb_ge _ _)) by lia. reflexivity.
Qed.
Lemma date_ymd_inv n x : date_ymd n = Ok x -> x = from_day_number n /\ in_years x.
Proof.
  unfold date_ymd. destruct (from_day_number n) as [[y m] d]. destruct (_ && _) eqn:E; [|discriminate]. intros [= <-]. split; auto. apply andb_prop in E. cbn. lia.
Qed.
Lemma date_ymd_ok n : in_years (from_day_number n) -> date_ymd n = Ok (from_day_number n).
Proof. unfold date_ymd. destruct (from_day_number n) as [[y m] d]. cbn. intros H. rewrite !(proj2 (Z.leb_le _ _)) by lia. reflexivity. Qed.
Lemma numeral_parts y m d : a_date (y, m, d) -> 0 <= y -> let n := yyyymmdd (y, m, d) in Z.quot n 10000 = y /\ Z.rem (Z.quot n 100) 100 = m /\ Z.rem n 100 = d /\ Z.quot (Z.rem n 10000) 100 = m.
Proof.
  intros A Y. apply a_date_iff in A. apply valid_bounds in A. destruct A as [Hm Hd]. pose proof (eom_le y m). cbv zeta. unfold yyyymmdd.
  repeat split.
  - symmetry. apply Z.quot_unique with (m * 100 + d); lia.
  - replace (Z.quot (y * 10000 + m * 100 + d) 100) with (y * 100 + m) by (apply Z.quot_unique with d; lia).
    symmetry. apply Z.rem_unique with y; lia.
  - symmetry. apply Z.rem_unique with (y * 100 + m); lia.
  - replace (Z.rem (y * 10000 + m * 100 + d) 10000) with (m * 100 + d) by (apply Z.rem_unique with y; lia).
    symmetry. apply Z.quot_unique with d; lia.
Qed.
Lemma time_parts t : let s := get_time t in Z.quot s 10000 * 3600 + Z.rem (Z.quot s 100) 100 * 60 + Z.rem s 100 = Z.rem t 86400.
Proof.
  cbv zeta. unfold get_time. pose proof (Z.rem_bound_abs t 86400 ltac:(lia)) as B. set (r := Z.rem t 86400) in *. cbv zeta. clearbody r. clear t.
  set (h := Z.quot r 3600). set (q := Z.quot r 60). set (mm := Z.rem q 60). set (ss := Z.rem r 60).
  pose proof (Z.quot_rem r 3600 ltac:(lia)) as E1. pose proof (Z.quot_rem r 60 ltac:(lia)) as E2. pose proof (Z.quot_rem q 60 ltac:(lia)) as E3.
  assert (Q : Z.quot q 60 = h). { unfold q, h. rewrite Z.quot_quot by lia. reflexivity. }
  fold h in E1. fold q in E2. rewrite Q in E3. fold mm in E3. fold ss in E2.
  destruct (Z_le_gt_dec 0 r) as [P|P].
  - pose proof (Z.rem_bound_pos r 60 P ltac:(lia)) as B1. fold ss in B1.
    assert (0 <= q) by (apply Z.quot_pos; lia). pose proof (Z.rem_bound_pos q 60 ltac:(lia) ltac:(lia)) as B2. fold mm in B2.
    assert (0 <= h) by (apply Z.quot_pos; lia).
    replace (Z.quot (h * 10000 + mm * 100 + ss) 10000) with h by (apply Z.quot_unique with (mm * 100 + ss); lia).
    replace (Z.quot (h * 10000 + mm * 100 + ss) 100) with (h * 100 + mm) by (apply Z.quot_unique with ss; lia).
    replace (Z.rem (h * 100 + mm) 100) with mm by (apply Z.rem_unique with h; lia).
    replace (Z.rem (h * 10000 + mm * 100 + ss) 100) with ss by (apply Z.rem_unique with (h * 100 + mm); lia). lia.
  - pose proof (Z.rem_bound_pos_neg r 60 ltac:(lia) ltac:(lia)) as B1. fold ss in B1.
    assert (q <= 0) by (unfold q; pose proof (Z.quot_opp_l r 60 ltac:(lia)); pose proof (Z.quot_pos (- r) 60 ltac:(lia) ltac:(lia)); lia).
    assert (h <= 0) by (unfold h; pose proof (Z.quot_opp_l r 3600 ltac:(lia)); pose proof (Z.quot_pos (- r) 3600 ltac:(lia) ltac:(lia)); lia).
    assert (B2 : -60 < mm <= 0). { unfold mm. destruct (Z.eq_dec q 0) as [->|]; [cbn; lia|]. pose proof (Z.rem_bound_pos_neg q 60 ltac:(lia) ltac:(lia)). lia. }
    assert (N : forall a b, Z.quot a b = - Z.quot (- a) b) by (intros a b; destruct (Z.eq_dec b 0) as [->|]; [destruct a; reflexivity|rewrite Z.quot_opp_l by lia; lia]).
    assert (M : forall a b, Z.rem a b = - Z.rem (- a) b) by (intros a b; destruct (Z.eq_dec b 0) as [->|]; [destruct a; reflexivity|rewrite Z.rem_opp_l by lia; lia]).
    rewrite (N (_ + ss) 10000), (N (_ + ss) 100), (M (_ + ss) 100), M, Z.opp_involutive.
    replace (Z.quot (- (h * 10000 + mm * 100 + ss)) 10000) with (- h) by (apply Z.quot_unique with (- (mm * 100 + ss)); lia).
    replace (Z.quot (- (h * 10000 + mm * 100 + ss)) 100) with (- (h * 100 + mm)) by (apply Z.quot_unique with (- ss); lia).
    replace (Z.rem (- (h * 100 + mm)) 100) with (- mm) by (apply Z.rem_unique with (- h); lia).
    replace (Z.rem (- (h * 10000 + mm * 100 + ss)) 100) with (- ss) by (apply Z.rem_unique with (- (h * 100 + mm)); lia). lia.
Qed.

Theorem c137_round t d : get_date t = Ok d -> get_unix_time d (get_time t) = Ok t.
Proof.
  unfold get_date. rewrite epoch_number. cbn [bind]. intros H. apply bind_Ok in H. destruct H as (x & H & [= <-]).
  apply date_ymd_inv in H. destruct H as [E Y]. set (n := day_number epoch + Z.quot t 86400) in *.
  destruct (all_days n) as (V & N & _). rewrite <- E in V, N. destruct x as [[y m] dd].
  assert (A : a_date (y, m, dd)) by (apply a_date_iff; auto).
  destruct (numeral_parts y m dd A ltac:(cbn in Y; lia)) as (Q1 & Q2 & Q3 & _).
  unfold get_unix_time. rewrite Q1, Q2, Q3. rewrite mk_date_ok by auto. cbn [bind]. rewrite epoch_number. cbn [bind]. f_equal. rewrite N, (time_parts t).
  unfold n. pose proof (Z.quot_rem t 86400 ltac:(lia)). lia.
Qed.
Lemma hms hh mm ss : a_time hh mm ss -> let s := hh * 10000 + mm * 100 + ss in
  Z.quot s 10000 = hh /\ Z.rem (Z.quot s 100) 100 = mm /\ Z.rem s 100 = ss.
Proof.
  intros (H & M & S). cbv zeta. repeat split.
  - symmetry. apply Z.quot_unique with (mm * 100 + ss); lia.
  - replace (Z.quot (hh * 10000 + mm * 100 + ss) 100) with (hh * 100 + mm) by (apply Z.quot_unique with ss; lia).
    symmetry. apply Z.rem_unique with hh; lia.
  - symmetry. apply Z.rem_unique with (hh * 100 + mm); lia.
Qed.
Lemma unix_time_value x d n k hh mm ss : numeral x d -> in_years x -> days_after epoch n x -> a_time hh mm ss -> (k = 1 \/ k = -1) ->
  get_unix_time d (k * (hh * 10000 + mm * 100 + ss)) = Ok (n * 86400 + k * (hh * 3600 + mm * 60 + ss)).
Proof.
  intros D Y A T K. pose proof (days_after_number _ _ _ A) as (_ & V & N). destruct x as [[y m] dd]. assert (AD : a_date (y, m, dd)) by (apply a_date_iff; auto).
  cbn in D. change (y * 10000 + m * 100 + dd) with (yyyymmdd (y, m, dd)) in D. subst d.
  destruct (numeral_parts y m dd AD ltac:(cbn in Y; lia)) as (Q1 & Q2 & Q3 & _).
  unfold get_unix_time. rewrite Q1, Q2, Q3. rewrite mk_date_ok by auto. cbn [bind]. rewrite epoch_number. cbn [bind]. f_equal. rewrite N.
  destruct (hms hh mm ss T) as (H1 & H2 & H3). set (s := hh * 10000 + mm * 100 + ss) in *.
  destruct K as [-> | ->].
  - rewrite !Z.mul_1_l. rewrite H1, H2, H3. lia.
  - replace (-1 * s) with (- s) by lia. rewrite !Z.quot_opp_l, !Z.rem_opp_l by lia. rewrite H1, H2, H3. lia.
Qed.
Theorem c137_value x d n hh mm ss : numeral x d -> in_years x -> days_after epoch n x -> a_time hh mm ss ->
  get_unix_time d (hh * 10000 + mm * 100 + ss) = Ok (n * 86400 + (hh * 3600 + mm * 60 + ss)) /\
  get_unix_time d (- (hh * 10000 + mm * 100 + ss)) = Ok (n * 86400 - (hh * 3600 + mm * 60 + ss)).
Proof.
  intros D Y A T. split.
  - pose proof (unix_time_value x d n 1 hh mm ss D Y A T (or_introl eq_refl)) as H. rewrite !Z.mul_1_l in H. exact H.
  - pose proof (unix_time_value x d n (-1) hh mm ss D Y A T (or_intror eq_refl)) as H.
    replace (-1 * (hh * 10000 + mm * 100 + ss)) with (- (hh * 10000 + mm * 100 + ss)) in H by lia. rewrite H. f_equal; lia.
Qed.
(** the calendar date of a time *)
Theorem c138 n x hh mm ss : 0 <= n -> days_after epoch n x -> in_years x -> a_time hh mm ss ->
  let t := n * 86400 + (hh * 3600 + mm * 60 + ss) in
  (exists d, get_date t = Ok d /\ numeral x d) /\ get_time t = hh * 10000 + mm * 100 + ss.
Proof.
  intros P A Y (H & M & S) t. assert (Q : Z.quot t 86400 = n) by (symmetry; apply Z.quot_unique with (hh * 3600 + mm * 60 + ss); lia).
  assert (R : Z.rem t 86400 = hh * 3600 + mm * 60 + ss) by (symmetry; apply Z.rem_unique with n; lia).
  apply days_after_iff in A. destruct A as [_ A]. split.
  - exists (yyyymmdd x). split; [|destruct x as [[? ?] ?]; reflexivity].
    unfold get_date. rewrite epoch_number. cbn [bind]. rewrite Q. rewrite date_ymd_ok by (rewrite <- A; auto). cbn [bind]. rewrite <- A. reflexivity.
  - unfold get_time. rewrite R. cbv zeta.
    replace (Z.quot (hh * 3600 + mm * 60 + ss) 3600) with hh by (apply Z.quot_unique with (mm * 60 + ss); lia).
    replace (Z.quot (hh * 3600 + mm * 60 + ss) 60) with (hh * 60 + mm) by (apply Z.quot_unique with ss; lia).
    replace (Z.rem (hh * 60 + mm) 60) with mm by (apply Z.rem_unique with hh; lia).
    replace (Z.rem (hh * 3600 + mm * 60 + ss) 60) with ss by (apply Z.rem_unique with (hh * 60 + mm); lia). reflexivity.
Qed.
Theorem c138_refuted : exists n x hh mm ss d, days_after epoch n x /\ in_years x /\ a_time hh mm ss /\ get_date (n * 86400 + (hh * 3600 + mm * 60 + ss)) = Ok d /\ ~ numeral x d /\
  get_time (n * 86400 + (hh * 3600 + mm * 60 + ss)) < 0.
Proof.
  exists (-1), (1969, 12, 31), 23, 59, 59, 19700101. split; [apply days_after_iff; split; reflexivity|].
  split; [cbn; lia|]. split; [repeat split; lia|]. split; [reflexivity|]. split; [cbn; lia|reflexivity].
Qed.
(** what getDate gives for any time, counting whole days towards 1970; it throws exactly outside the years that can be represented *)
Theorem c138_any t : (exists d x, get_date t = Ok d /\ days_after epoch (Z.quot t 86400) x /\ in_years x /\ numeral x d) \/
  (get_date t = Throw LogicError /\ forall x, days_after epoch (Z.quot t 86400) x -> ~ in_years x).
Proof.
  unfold get_date. rewrite epoch_number. cbn [bind].
  assert (D : forall x, days_after epoch (Z.quot t 86400) x <-> x = from_day_number (day_number epoch + Z.quot t 86400)).
  { intros x. rewrite days_after_iff. split; [intros [_ H]; auto|]. intros H; split; auto. }
  destruct (from_day_number (day_number epoch + Z.quot t 86400)) as [[y m] d] eqn:E. unfold date_ymd. rewrite E.
  destruct (_ && _) eqn:B.
  - left. exists (yyyymmdd (y, m, d)), (y, m, d). apply andb_prop in B. destruct B as [B1 B2]. apply Z.leb_le in B1, B2.
    split; [reflexivity|]. split; [apply D; auto|]. split; [cbn; lia|reflexivity].
  - right. split; [reflexivity|]. intros x H. apply D in H. subst x. cbn. apply andb_false_iff in B. rewrite !Z.leb_gt in B. lia.
Qed.
Lemma number_bounds x : valid x = true -> in_years x -> 0 <= day_number x <= 8000000.
Proof.
  destruct x as [[y m] d]. intros V Y. apply valid_bounds in V. destruct V as [Hm Hd]. pose proof (eom_le y m). cbn in Y. unfold day_number.
  set (a := (14 - m) / 12). assert (Ha : 0 <= a <= 1).
  { unfold a. split; [apply Z.div_pos; lia|]. apply Z.lt_succ_r. apply Z.div_lt_upper_bound; lia. }
  cbv zeta. set (q := y + 4800 - a). assert (Hq : 6199 <= q <= 14799) by (unfold q; lia).
  assert (D : forall c, 0 < c -> 0 <= q / c <= 14799).
  { intros c Hc. split; [apply Z.div_pos; lia|]. transitivity q; [apply Z.div_le_upper_bound; nia|lia]. }
  pose proof (D 4 ltac:(lia)). pose proof (D 100 ltac:(lia)). pose proof (D 400 ltac:(lia)).
  assert (0 <= (153 * (m + 12 * a - 3) + 2) / 5 <= 1000).
  { assert (0 <= m + 12 * a - 3). { destruct (Z_le_gt_dec 3 m); [lia|]. assert (1 <= a); [|lia]. unfold a. apply Z.div_le_lower_bound; lia. }
    split; [apply Z.div_pos; lia|]. apply Z.div_le_upper_bound; lia. }
  nia.
Qed.
Theorem c139 x d h : numeral x d -> a_date x -> in_years x -> forall k z, (qz (24 * k) <= h)%Qc -> (h < qz (24 * (k + 1)))%Qc ->
  days_after x k z -> in_years z -> exists d', calc_date d (Fin h) = Ok d' /\ numeral z d'.
Proof.
  intros D A Y k z H1 H2 DA YZ. destruct x as [[y m] dd]. cbn in D. change (y * 10000 + m * 100 + dd) with (yyyymmdd (y, m, dd)) in D. subst d.
  destruct (numeral_parts y m dd A ltac:(cbn in Y; lia)) as (Q1 & Q2 & Q3 & Q4).
  assert (F : Qfloor (h / qz 24)%Qc = k).
  { apply qfloor_unique. rewrite !qz_mul, ?qz_add, ?qz_1 in *. assert (P : (0 < qz 24)%Qc) by (apply qz_lt; lia).
    assert (E : (h = qz 24 * (h / qz 24))%Qc) by (field; intros X; rewrite X in P; discriminate). set (g := (h / qz 24)%Qc) in *. split; qnra. }
  unfold calc_date. rewrite F, Q1, Q4, Q3.
  apply days_after_iff in DA. destruct DA as [V E].
  assert (B : -10000000 <= k <= 10000000).
  { pose proof (number_bounds (y, m, dd) V Y) as B1. destruct (all_days (day_number (y, m, dd) + k)) as (V2 & N2 & _). rewrite <- E in V2, N2.
    pose proof (number_bounds z V2 YZ). lia. }
  rewrite !(proj2 (Z.leb_le _ _)) by lia. cbn [andb negb]. rewrite mk_date_ok by auto. cbn [bind].
  rewrite date_ymd_ok by (rewrite <- E; auto). rewrite <- E. cbn [bind]. exists (yyyymmdd z). split; auto. destruct z as [[? ?] ?]. reflexivity.
Qed.
