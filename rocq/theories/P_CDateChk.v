(** The day numbers of all dates, by checking a period of 400 years. *)
From Verif Require Import Base ListLib M_CDate S_CDate.
From Coq Require Import Qround.
Local Open Scope Z_scope.

Definition next_ymd (x : ymd) : ymd :=
  let '(y, m, d) := x in
  if d <? end_of_month_day y m then (y, m, d + 1) else if m <? 12 then (y, m + 1, 1) else (y + 1, 1, 1).
Definition valid (x : ymd) : bool := let '(y, m, d) := x in (1 <=? m) && (m <=? 12) && (1 <=? d) && (d <=? end_of_month_day y m).
Definition ymd_eqb (a b : ymd) : bool := let '(y, m, d) := a in let '(y', m', d') := b in (y =? y') && (m =? m') && (d =? d').
Lemma ymd_eqb_eq a b : ymd_eqb a b = true -> a = b.
Proof. destruct a as [[y m] d], b as [[y' m'] d']. cbn. intros H. apply andb_prop in H. destruct H as [H H3]. apply andb_prop in H. destruct H as [H1 H2]. apply Z.eqb_eq in H1, H2, H3. subst. auto. Qed.
Definition shift (k : Z) (x : ymd) : ymd := let '(y, m, d) := x in (y + 400 * k, m, d).

(** one step of the check over a period of 400 years *)
Definition ok_day (n : Z) (x x' : ymd) : bool := valid x && (day_number x =? n) && ymd_eqb (next_ymd x) x'.
Fixpoint ok_days (fuel : nat) (n : Z) (x : ymd) : bool :=
  match fuel with
  | O => true
  | S k => let x' := from_day_number (n + 1) in if ok_day n x x' then ok_days k (n + 1) x' else false
  end.
Definition steps : nat := Z.to_nat 146097.
Lemma period_checked : ok_days steps 0 (from_day_number 0) = true.
Proof. vm_compute. reflexivity. Qed.
Lemma ok_days_all fuel : forall n, ok_days fuel n (from_day_number n) = true -> forall k, n <= k < n + Z.of_nat fuel -> ok_day k (from_day_number k) (from_day_number (k + 1)) = true.
Proof.
  induction fuel as [|f IH]; intros n H k Hk; [lia|]. cbn [ok_days] in H.
  destruct (ok_day n (from_day_number n) (from_day_number (n + 1))) eqn:E; [|discriminate].
  destruct (Z.eq_dec k n) as [->|ne]; auto. apply (IH (n + 1)); auto. lia.
Qed.
Lemma first_period k : 0 <= k < 146097 -> ok_day k (from_day_number k) (from_day_number (k + 1)) = true.
Proof. intros H. apply (ok_days_all steps 0 period_checked). unfold steps. rewrite Z2Nat.id by lia. lia. Qed.

Lemma leap_shift k y : is_leap_year (y + 400 * k) = is_leap_year y.
Proof.
  unfold is_leap_year. replace (y + 400 * k) with (y + (100 * k) * 4) at 1 by lia. rewrite Z.mod_add by lia.
  replace (y + 400 * k) with (y + (4 * k) * 100) at 1 by lia. rewrite Z.mod_add by lia.
  replace (y + 400 * k) with (y + k * 400) by lia. rewrite Z.mod_add by lia. reflexivity.
Qed.
Lemma eom_shift k y m : end_of_month_day (y + 400 * k) m = end_of_month_day y m.
Proof. unfold end_of_month_day. rewrite leap_shift. reflexivity. Qed.
Lemma valid_shift k x : valid (shift k x) = valid x.
Proof. destruct x as [[y m] d]. cbn. rewrite eom_shift. reflexivity. Qed.
Lemma next_shift k x : next_ymd (shift k x) = shift k (next_ymd x).
Proof. destruct x as [[y m] d]. cbn. rewrite eom_shift. destruct (d <? _); [reflexivity|]. destruct (m <? 12); [reflexivity|]. cbn. f_equal. f_equal. lia. Qed.
Lemma number_shift k x : day_number (shift k x) = day_number x + 146097 * k.
Proof.
  destruct x as [[y m] d]. unfold shift, day_number. set (a := (14 - m) / 12). cbv zeta.
  replace ((y + 400 * k + 4800 - a) / 4) with ((y + 4800 - a) / 4 + 100 * k) by (rewrite <- Z.div_add by lia; f_equal; lia).
  replace ((y + 400 * k + 4800 - a) / 100) with ((y + 4800 - a) / 100 + 4 * k) by (rewrite <- Z.div_add by lia; f_equal; lia).
  replace ((y + 400 * k + 4800 - a) / 400) with ((y + 4800 - a) / 400 + k) by (rewrite <- Z.div_add by lia; f_equal; lia).
  lia.
Qed.
Lemma from_shift k n : from_day_number (n + 146097 * k) = shift k (from_day_number n).
Proof.
  unfold from_day_number. cbv zeta.
  replace ((4 * (n + 146097 * k + 32044) + 3) / 146097) with ((4 * (n + 32044) + 3) / 146097 + 4 * k) by (rewrite <- Z.div_add by lia; f_equal; lia).
  set (b := (4 * (n + 32044) + 3) / 146097).
  replace (146097 * (b + 4 * k) / 4) with (146097 * b / 4 + 146097 * k) by (rewrite <- Z.div_add by lia; f_equal; lia).
  replace (n + 146097 * k + 32044 - (146097 * b / 4 + 146097 * k)) with (n + 32044 - 146097 * b / 4) by lia.
  unfold shift. f_equal. f_equal. lia.
Qed.
Lemma all_days n : valid (from_day_number n) = true /\ day_number (from_day_number n) = n /\ next_ymd (from_day_number n) = from_day_number (n + 1).
Proof.
  pose proof (Z.div_mod n 146097 ltac:(lia)) as E. pose proof (Z.mod_pos_bound n 146097 ltac:(lia)) as B.
  set (k := n / 146097) in *. set (r := n mod 146097) in *.
  pose proof (first_period r B) as H. unfold ok_day in H. apply andb_prop in H. destruct H as [H H3]. apply andb_prop in H. destruct H as [H1 H2].
  apply Z.eqb_eq in H2. apply ymd_eqb_eq in H3.
  replace n with (r + 146097 * k) by lia. rewrite from_shift, valid_shift, number_shift, next_shift, H2, H3.
  repeat split; auto. replace (r + 146097 * k + 1) with ((r + 1) + 146097 * k) by lia. symmetry. apply from_shift.
Qed.
(** the day number determines the date *)
Lemma valid_bounds y m d : valid (y, m, d) = true -> 1 <= m <= 12 /\ 1 <= d <= end_of_month_day y m.
Proof. cbn. intros H. repeat (apply andb_prop in H; destruct H as [H ?]). lia. Qed.
Definition ok_date (y m d : Z) : bool := negb (valid (y, m, d)) || ymd_eqb (from_day_number (day_number (y, m, d))) (y, m, d).
Lemma years_checked : forallb (fun y => forallb (fun m => forallb (fun d => ok_date y m d) (zrange 1 32)) (zrange 1 13)) (zrange 0 400) = true.
Proof. vm_compute. reflexivity. Qed.
Lemma eom_le y m : end_of_month_day y m <= 31.
Proof. unfold end_of_month_day. destruct (m =? 2); [destruct is_leap_year; lia|]. destruct (_ || _); lia. Qed.
Lemma from_number x : valid x = true -> from_day_number (day_number x) = x.
Proof.
  intros V. destruct x as [[y m] d].
  pose proof (Z.div_mod y 400 ltac:(lia)) as E. pose proof (Z.mod_pos_bound y 400 ltac:(lia)) as B.
  set (k := y / 400) in *. set (r := y mod 400) in *.
  assert (S : (y, m, d) = shift k (r, m, d)) by (cbn; f_equal; f_equal; lia).
  rewrite S in *. rewrite valid_shift in V. rewrite number_shift, from_shift. f_equal.
  pose proof (valid_bounds _ _ _ V) as [Hm Hd]. pose proof (eom_le r m).
  pose proof years_checked as C. rewrite forallb_forall in C. specialize (C r ltac:(apply in_zrange; lia)). cbv beta in C.
  rewrite forallb_forall in C. specialize (C m ltac:(apply in_zrange; lia)). cbv beta in C.
  rewrite forallb_forall in C. specialize (C d ltac:(apply in_zrange; lia)). unfold ok_date in C. rewrite V in C.
  apply ymd_eqb_eq. exact C.
Qed.
Lemma number_next x : valid x = true -> valid (next_ymd x) = true /\ day_number (next_ymd x) = day_number x + 1.
Proof.
  intros V. pose proof (from_number x V) as E. destruct (all_days (day_number x)) as (_ & _ & H). rewrite E in H. rewrite H.
  destruct (all_days (day_number x + 1)) as (V' & N & _). auto.
Qed.
