(** Boundary witnesses for C44, C46, C47: a location exactly at the radius along an axis is not reached. *)
From Verif Require Import Base ListLib M_Geo M_Grd S_Stat S_Neigh S_Geo S_Near P_Geo P_Near P_Grd P_Write.

Definition b_at : list Qc := [qz 0].
Definition b_grid (G : geo) (g : grid) : Prop := is_grid G Cartesian 1 1 [[qz 0]] [[qz 0]] g.
Definition b_points (G : geo) (P : points) : Prop := is_points G Cartesian [qz 0] [qz 1000] P.
Lemma b_rect (v : val) : rect 1 1 [[v]].
Proof. split; [reflexivity|]. intros r [<- | []]. reflexivity. Qed.
Lemma b_grid_ex G : exists g, b_grid G g.
Proof.
  eexists. split; [lia|]. split; [lia|].
  split; [split; [reflexivity | cbn; intuition (subst; reflexivity)]|]. split; [split; [reflexivity | cbn; intuition (subst; reflexivity)]|].
  exists [], []. split; [auto|]. split; [auto|]. cbn. reflexivity.
Qed.
Lemma b_points_ex G : exists P, b_points G P.
Proof. eexists. exists [], []. cbn. reflexivity. Qed.
Lemma b_far p q : p = mkxyz (qz 1000) (qz 0) 0 -> q = mkxyz (qz 0) (qz 0) 0 -> ~ in_circle p q (fz 1000) /\ ~ in_circle q p (fz 1000).
Proof.
  intros -> ->. split; intros [N _].
  - destruct N as ((K & _) & _). vm_compute in K. discriminate.
  - destruct N as ((_ & K) & _). vm_compute in K. discriminate.
Qed.
Lemma b_dist : sqdist (mkxyz (qz 1000) (qz 0) 0) (mkxyz (qz 0) (qz 0) 0) = (qz 1000 * qz 1000)%Qc /\
  sqdist (mkxyz (qz 0) (qz 0) 0) (mkxyz (qz 1000) (qz 0) 0) = (qz 1000 * qz 1000)%Qc.
Proof. split; apply Qc_is_canon; vm_compute; reflexivity. Qed.
Lemma b_one (o : vec2) v : rect 1 1 o -> get2 o 0 0 = Ok v -> o = [[v]].
Proof.
  intros R H. apply (rect_ext 1 1); [exact R|apply b_rect|]. intros i j Hi Hj. replace i with 0 by lia. replace j with 0 by lia. exact H.
Qed.
Lemma znth_one {A} (a x : A) i : znth [a] i = Ok x -> i = 0 /\ x = a.
Proof.
  intros H. pose proof (znth_range _ _ _ H) as R. change (zlen [a]) with 1 in R. assert (i = 0) by lia. subst. injection H as <-. auto.
Qed.
Lemma get2_one {A} (a x : A) i j : get2 [[a]] i j = Ok x -> x = a.
Proof.
  unfold get2. intros H. apply bind_Ok in H as (r & H1 & H2). apply znth_one in H1 as [_ ->]. apply znth_one in H2 as [_ ->]. reflexivity.
Qed.

Lemma c44_refuted : forall E G, geo_ok G -> exists P g, is_points G Cartesian [qz 0] [qz 1000] P /\ is_grid G Cartesian 1 1 [[qz 0]] [[qz 0]] g /\
  sqdist (position G Cartesian (qz 0) (qz 0)) (position G Cartesian (qz 0) (qz 1000)) = (qz 1000 * qz 1000)%Qc /\
  gridding_g E G g P [fz 7] (fz 1000) 1 Mean = Ok [[MV]].
Proof.
  intros E G HG. destruct (b_grid_ex G) as [g Hg]. destruct (b_points_ex G) as [P HP]. exists P, g. split; [exact HP|]. split; [exact Hg|].
  split; [apply b_dist|].
  destruct (gridding_g_ok E G Cartesian [qz 0] [qz 1000] P Cartesian 1 1 [[qz 0]] [[qz 0]] g [fz 7] (qz 1000) 1 Mean) as (out & Ho & R & K); auto.
  { repeat constructor. } { discriminate. } { lia. } { unfold stat_listed; auto 20. }
  fold (fz 1000) in Ho. rewrite Ho. f_equal. destruct (K 0 0 (qz 0) (qz 0) eq_refl eq_refl) as (v & Hv & I & curr & ND & HI & _ & N & _).
  rewrite (b_one _ _ R Hv). rewrite N; [reflexivity|]. destruct I as [|a I]; [reflexivity|]. exfalso.
  destruct (proj1 (HI a) (or_introl eq_refl)) as (q & (la & lo & H1 & H2 & ->) & C). apply znth_one in H1 as [_ ->]. apply znth_one in H2 as [_ ->].
  revert C. apply (b_far (mkxyz (qz 1000) (qz 0) 0)); reflexivity.
Qed.
Lemma b_not_reached G i la lo r q y x : znth [qz 0] i = Ok la -> znth [qz 1000] i = Ok lo -> znth [fz 1000] i = Ok r ->
  grid_at G Cartesian [[qz 0]] [[qz 0]] y x q -> ~ in_circle (position G Cartesian la lo) q r.
Proof.
  intros H1 H2 H3 (a & b & H4 & H5 & ->). apply znth_one in H1 as [_ ->]. apply znth_one in H2 as [_ ->]. apply znth_one in H3 as [_ ->].
  apply get2_one in H4. apply get2_one in H5. subst. apply (proj1 (b_far _ _ eq_refl eq_refl)).
Qed.
Lemma c46_refuted : forall G, geo_ok G -> exists P g, is_points G Cartesian [qz 0] [qz 1000] P /\ is_grid G Cartesian 1 1 [[qz 0]] [[qz 0]] g /\
  sqdist (position G Cartesian (qz 0) (qz 1000)) (position G Cartesian (qz 0) (qz 0)) = (qz 1000 * qz 1000)%Qc /\
  fill G g [[fz 1]] P [fz 1000] (fz 7) false = Ok [[fz 1]].
Proof.
  intros G HG. destruct (b_grid_ex G) as [g Hg]. destruct (b_points_ex G) as [P HP]. exists P, g. split; [exact HP|]. split; [exact Hg|].
  split; [apply b_dist|].
  destruct (c46_partial G Cartesian 1 1 [[qz 0]] [[qz 0]] g Cartesian [qz 0] [qz 1000] P [[fz 1]] [fz 1000] (fz 7)) as (o & o' & Ho & _ & R & _ & K); auto.
  { repeat constructor. } { apply b_rect. } { intros r [<- | []]. reflexivity. }
  rewrite Ho. f_equal. apply b_one; [exact R|]. apply (K 0 0 (fz 1) eq_refl). intros. eapply b_not_reached; eauto.
Qed.
Lemma c47_refuted : forall G, geo_ok G -> exists P g, is_points G Cartesian [qz 0] [qz 1000] P /\ is_grid G Cartesian 1 1 [[qz 0]] [[qz 0]] g /\
  sqdist (position G Cartesian (qz 0) (qz 1000)) (position G Cartesian (qz 0) (qz 0)) = (qz 1000 * qz 1000)%Qc /\
  doping_circle G g [[fz 1]] P [fz 7] [fz 1000] NaN = Ok [[fz 1]].
Proof.
  intros G HG. destruct (b_grid_ex G) as [g Hg]. destruct (b_points_ex G) as [P HP]. exists P, g. split; [exact HP|]. split; [exact Hg|].
  split; [apply b_dist|].
  destruct (c47_circle G Cartesian 1 1 [[qz 0]] [[qz 0]] g Cartesian [qz 0] [qz 1000] P [[fz 1]] [fz 7] [fz 1000] NaN) as (o & Ho & R & K); auto.
  { repeat constructor. } { apply b_rect. } { intros r [<- | []]. reflexivity. }
  rewrite Ho. f_equal. apply b_one; [exact R|]. destruct (K 0 0) as [U _]; [lia|lia|]. rewrite U; [reflexivity|].
  intros i Hi [(la & lo & r & q & H1 & H2 & H3 & H4 & C) _]. revert C. eapply b_not_reached; eauto.
Qed.
