(** Array versions of the diagnostics. *)
From Coq Require Import Reals Lra Lia.
From Verif Require Import Base RBase RPow P_RBase ListLib S_Point P_Point M_Diag M_RelHum S_Diag P_Press P_RelHum.
Local Open Scope Z_scope.

Lemma nth_zrange (n : Z) i : (i < Z.to_nat n)%nat -> nth_error (zrange 0 n) i = Some (Z.of_nat i).
Proof.
  intros Hi. unfold zrange. rewrite nth_error_map. rewrite (nth_error_nth' _ 0%nat) by (rewrite seq_length; lia). rewrite seq_nth by lia. reflexivity.
Qed.
Lemma mapM_total {A B} (f : A -> res B) l : (forall x, In x l -> exists v, f x = Ok v) -> exists out, mapM f l = Ok out.
Proof.
  induction l as [|x l IH]; intros H; [eexists; reflexivity|]. destruct (H x (or_introl eq_refl)) as (v & E). destruct IH as (o & Eo); [intros; apply H; right; assumption|].
  exists (v :: o). cbn. rewrite E. cbn. rewrite Eo. reflexivity.
Qed.
Lemma F2_nth {A B} (P : A -> B -> Prop) l m i x : Forall2 P l m -> nth_error l i = Some x -> exists y, nth_error m i = Some y /\ P x y.
Proof. intros H. revert i. induction H as [|a b l m Hab F IH]; intros [|i] E; cbn in *; try discriminate; [injection E as <-; eauto|apply IH; exact E]. Qed.
Lemma F2_len {A B} (P : A -> B -> Prop) l m : Forall2 P l m -> length l = length m.
Proof. induction 1; cbn; congruence. Qed.
Lemma for1_each {A} (L : nat) (v : A) body : (forall i, (i < L)%nat -> exists r, body (Z.of_nat i) = Ok r) ->
  exists out, for1 (Z.of_nat L) (init1 (Z.of_nat L) v) body = Ok out /\ length out = L /\ forall i, (i < L)%nat -> exists r, nth_error out i = Some r /\ body (Z.of_nat i) = Ok r.
Proof.
  intros H. rewrite for1_init_tab by lia. destruct (mapM_total body (zrange 0 (Z.of_nat L))) as (out & E).
  { intros x Hx. apply in_zrange in Hx. destruct (H (Z.to_nat x)) as (r & Er); [lia|]. exists r. rewrite Z2Nat.id in Er by lia. exact Er. }
  exists out. split; [exact E|]. apply mapM_pointwise in E. split.
  - rewrite <- (F2_len _ _ _ E). unfold zrange. rewrite map_length, seq_length. lia.
  - intros i Hi. destruct (F2_nth _ _ _ i (Z.of_nat i) E) as (y & H1 & H2); [apply nth_zrange; lia|]. eauto.
Qed.
Lemma nth_lt {A} (l : list A) i x : nth_error l i = Some x -> (i < length l)%nat.
Proof. intros E. apply nth_error_Some. congruence. Qed.
Lemma znth_nat {A} (l : list A) i x : nth_error l i = Some x -> znth l (Z.of_nat i) = Ok x.
Proof. intros E. apply znth_Ok. split; [lia|]. rewrite Nat2Z.id. exact E. Qed.
Lemma nth_ex {A} (l : list A) i : (i < length l)%nat -> exists x, nth_error l i = Some x.
Proof. intros H. destruct (nth_error l i) eqn:E; [eauto|]. apply nth_error_None in E. lia. Qed.
Lemma zlen_eqb {A B} (a : list A) (b : list B) : (zlen a =? zlen b) = Nat.eqb (length a) (length b).
Proof. unfold zlen. destruct (Nat.eqb_spec (length a) (length b)); [apply Z.eqb_eq|apply Z.eqb_neq]; lia. Qed.

Lemma ew2 {A B C} (a : list A) (b : list B) (v : C) (f : Z -> A -> B -> C) : length a = length b ->
  exists out, omp (for1 (zlen a) (init1 (zlen a) v) (fun i => x <- znth a i ;; y <- znth b i ;; Ok (f i x y))) = Ok out /\ length out = length a /\
  forall i x y, nth_error a i = Some x -> nth_error b i = Some y -> nth_error out i = Some (f (Z.of_nat i) x y).
Proof.
  intros HL. destruct (for1_each (length a) v (fun i => x <- znth a i ;; y <- znth b i ;; Ok (f i x y))) as (out & E & L & N).
  { intros i Hi. destruct (nth_ex a i Hi) as (x & Ex). destruct (nth_ex b i) as (y & Ey); [lia|]. rewrite (znth_nat _ _ _ Ex), (znth_nat _ _ _ Ey). eexists. reflexivity. }
  exists out. unfold zlen. rewrite E. split; [reflexivity|]. split; [exact L|]. intros i x y Ex Ey. destruct (N i (nth_lt _ _ _ Ex)) as (r & Er & Eb).
  rewrite (znth_nat _ _ _ Ex), (znth_nat _ _ _ Ey) in Eb. cbn [bind] in Eb. congruence.
Qed.
Ltac sz := rewrite !zlen_eqb; repeat match goal with |- context [Nat.eqb ?a ?b] => destruct (Nat.eqb_spec a b); cbn [negb orb]; try lia end; try reflexivity.

Lemma c91_two : elementwise2 wind_speed_vec (fun _ => wind_speed) /\ (forall sx sy, elementwise2 (wind_direction_vec sx sy) (fun i => wind_direction (sx (Z.of_nat i)) (sy (Z.of_nat i)))) /\
  elementwise2 qnh_vec (fun _ => qnh) /\ elementwise2 dewpoint_vec (fun _ => dewpoint).
Proof.
  split; [|split; [|split]]; try (intros sx sy); (split; intros a b H; [|unfold wind_speed_vec, wind_direction_vec, qnh_vec, dewpoint_vec; sz]).
  - unfold wind_speed_vec. rewrite zlen_eqb. rewrite (proj2 (Nat.eqb_eq _ _) H). apply (ew2 a b RMV (fun _ => wind_speed)). exact H.
  - unfold wind_direction_vec. rewrite zlen_eqb. rewrite (proj2 (Nat.eqb_eq _ _) H). apply (ew2 a b RMV (fun i => wind_direction (sx i) (sy i))). exact H.
  - unfold qnh_vec. rewrite zlen_eqb. rewrite (proj2 (Nat.eqb_eq _ _) H). apply (ew2 a b (rz 0) (fun _ => qnh)). exact H.
  - unfold dewpoint_vec. rewrite zlen_eqb. rewrite (proj2 (Nat.eqb_eq _ _) H). apply (ew2 a b (rz 0) (fun _ => dewpoint)). exact H.
Qed.
Lemma c91_relhum : exists f, (forall t d, relative_humidity t d = Ok (f t d)) /\ elementwise2 relative_humidity_vec (fun _ => f).
Proof.
  destruct c67_relhum as (T & _ & _ & M).
  assert (TOT : forall t d, exists r, relative_humidity t d = Ok r).
  { intros t d. destruct (is_valid t) eqn:Vt; [|exists MV; apply M; tauto]. destruct (is_valid d) eqn:Vd; [|exists MV; apply M; tauto].
    destruct t; try discriminate. destruct d; try discriminate. destruct (T q q0) as (r & E & _). eauto. }
  exists (fun t d => match relative_humidity t d with Ok r => r | _ => MV end).
  assert (EQ : forall t d, relative_humidity t d = Ok (match relative_humidity t d with Ok r => r | _ => MV end)) by (intros t d; destruct (TOT t d) as (r & ->); reflexivity).
  split; [exact EQ|]. split; intros a b H; [|unfold relative_humidity_vec; sz]. unfold relative_humidity_vec. rewrite zlen_eqb. rewrite (proj2 (Nat.eqb_eq _ _) H). cbn [negb].
  rewrite (for1_body_ext _ _ _ (fun y => x <- znth a y ;; z <- znth b y ;; Ok (match relative_humidity x z with Ok r => r | _ => MV end))); [|apply zlen_init1; apply zlen_nonneg|].
  - apply (ew2 a b (fz 0) (fun _ t d => match relative_humidity t d with Ok r => r | _ => MV end)). exact H.
  - intros i _. destruct (znth a i); cbn [bind]; try reflexivity. destruct (znth b i); cbn [bind]; try reflexivity. apply EQ.
Qed.
Lemma c91_more : elementwise3 wetbulb_vec wetbulb /\ elementwise4 pressure_vec pressure.
Proof.
  split; split.
  - intros a b c H1 H2. unfold wetbulb_vec. rewrite !zlen_eqb. rewrite (proj2 (Nat.eqb_eq _ _) H1), (proj2 (Nat.eqb_eq _ _) H2). cbn [negb].
    match goal with |- context [for1 _ (init1 _ ?v) ?bd] => destruct (for1_each (length a) v bd) as (out & E & L & N) end.
    { intros i Hi. destruct (nth_ex a i Hi) as (x & Ex). destruct (nth_ex b i) as (y & Ey); [lia|]. destruct (nth_ex c i) as (z & Ez); [lia|].
      rewrite (znth_nat _ _ _ Ex), (znth_nat _ _ _ Ey), (znth_nat _ _ _ Ez). eexists. reflexivity. }
    exists out. unfold zlen. rewrite E. split; [reflexivity|]. split; [exact L|]. intros i x y z Ex Ey Ez. destruct (N i (nth_lt _ _ _ Ex)) as (r & Er & Eb).
    rewrite (znth_nat _ _ _ Ex), (znth_nat _ _ _ Ey), (znth_nat _ _ _ Ez) in Eb. cbn [bind] in Eb. congruence.
  - intros a b c H. unfold wetbulb_vec. sz.
  - intros a b c d H1 H2 H3. unfold pressure_vec. rewrite !zlen_eqb. symmetry in H1, H2, H3. rewrite (proj2 (Nat.eqb_eq _ _) H1), (proj2 (Nat.eqb_eq _ _) H2), (proj2 (Nat.eqb_eq _ _) H3). cbn [negb orb].
    match goal with |- context [for1 _ (init1 _ ?v) ?bd] => destruct (for1_each (length a) v bd) as (out & E & L & N) end.
    { intros i Hi. destruct (nth_ex a i Hi) as (x & Ex). destruct (nth_ex b i) as (y & Ey); [lia|]. destruct (nth_ex c i) as (z & Ez); [lia|]. destruct (nth_ex d i) as (t & Et); [lia|].
      rewrite (znth_nat _ _ _ Ex), (znth_nat _ _ _ Ey), (znth_nat _ _ _ Ez), (znth_nat _ _ _ Et). eexists. reflexivity. }
    exists out. unfold zlen. rewrite E. split; [reflexivity|]. split; [exact L|]. intros i x y z t Ex Ey Ez Et. destruct (N i (nth_lt _ _ _ Ex)) as (r & Er & Eb).
    rewrite (znth_nat _ _ _ Ex), (znth_nat _ _ _ Ey), (znth_nat _ _ _ Ez), (znth_nat _ _ _ Et) in Eb. cbn [bind] in Eb. congruence.
  - intros a b c d H. unfold pressure_vec. sz.
Qed.
Lemma c91_slp : elementwise5 sea_level_pressure_vec sea_level_pressure.
Proof.
  split.
  - intros a b c d e H1 H2 H3 H4 OK. unfold sea_level_pressure_vec. rewrite !zlen_eqb. symmetry in H1, H2, H3, H4.
    rewrite (proj2 (Nat.eqb_eq _ _) H1), (proj2 (Nat.eqb_eq _ _) H2), (proj2 (Nat.eqb_eq _ _) H3), (proj2 (Nat.eqb_eq _ _) H4). cbn [negb orb].
    match goal with |- context [for1 _ (init1 _ ?v) ?bd] => destruct (for1_each (length a) v bd) as (out & E & L & N) end.
    { intros i Hi. destruct (nth_ex a i Hi) as (x & Ex). destruct (nth_ex b i) as (y & Ey); [lia|]. destruct (nth_ex c i) as (z & Ez); [lia|]. destruct (nth_ex d i) as (t & Et); [lia|]. destruct (nth_ex e i) as (u & Eu); [lia|].
      rewrite (znth_nat _ _ _ Ex), (znth_nat _ _ _ Ey), (znth_nat _ _ _ Ez), (znth_nat _ _ _ Et), (znth_nat _ _ _ Eu). cbn [bind]. eapply OK; eassumption. }
    exists out. unfold zlen. rewrite E. split; [reflexivity|]. split; [exact L|]. intros i x y z t u Ex Ey Ez Et Eu. destruct (N i (nth_lt _ _ _ Ex)) as (r & Er & Eb).
    rewrite (znth_nat _ _ _ Ex), (znth_nat _ _ _ Ey), (znth_nat _ _ _ Ez), (znth_nat _ _ _ Et), (znth_nat _ _ _ Eu) in Eb. cbn [bind] in Eb. eauto.
  - intros a b c d e H. unfold sea_level_pressure_vec. sz.
Qed.
Lemma c91_slp_refuted : exists ps altitude temperature rh dew,
  sea_level_pressure ps altitude temperature rh dew = Throw RuntimeError /\ sea_level_pressure_vec [ps] [altitude] [temperature] [rh] [dew] = Abort.
Proof.
  exists (rz 100000), RMV, (rz 280), RMV, RMV. split; [reflexivity|]. reflexivity.
Qed.
