(** Proofs about the neighbour searches. *)
From Verif Require Import Base ListLib M_Geo S_Geo P_Geo.

Lemma in_box_Fin p q r : in_box p (Fin r) q = true <-> near_axes p q r.
Proof.
  unfold in_box, near_axes. cbn. rewrite !andb_true_iff.
  assert (K : forall a b : Qc, (qltb (a + - r) b = true /\ qltb b (a + r) = true) <-> (a - r < b /\ b < a + r)%Qc).
  { intros a b. split; intros [H1 H2].
    - destruct (qltb_spec (a + - r) b); [|discriminate]. destruct (qltb_spec b (a + r)); [|discriminate]. split; qlra.
    - destruct (qltb_spec (a + - r) b); [|exfalso; qlra]. destruct (qltb_spec b (a + r)); [|exfalso; qlra]. auto. }
  rewrite !K. tauto.
Qed.
Lemma near_axes_pos p q r : near_axes p q r -> (0 < r)%Qc.
Proof. intros [[H1 H2] _]. qlra. Qed.
Lemma within_near_axes p q r : (0 <= r)%Qc -> (sqdist p q < r * r)%Qc -> near_axes p q r.
Proof.
  intros Hr H. unfold sqdist in H.
  pose proof (sq_nonneg (px q - px p)). pose proof (sq_nonneg (py q - py p)). pose proof (sq_nonneg (pz q - pz p)).
  assert (K : forall d : Qc, (d * d < r * r)%Qc -> (- r < d /\ d < r)%Qc).
  { clear - Hr. intros d Hd. split; qnra. }
  set (a := (px q - px p)%Qc) in *. set (b := (py q - py p)%Qc) in *. set (c := (pz q - pz p)%Qc) in *.
  assert (Ka : (a * a < r * r)%Qc) by (set (u := (a * a)%Qc) in *; set (v := (b * b)%Qc) in *; set (w := (c * c)%Qc) in *; clearbody u v w; qlra).
  assert (Kb : (b * b < r * r)%Qc) by (set (u := (a * a)%Qc) in *; set (v := (b * b)%Qc) in *; set (w := (c * c)%Qc) in *; clearbody u v w; qlra).
  assert (Kc : (c * c < r * r)%Qc) by (set (u := (a * a)%Qc) in *; set (v := (b * b)%Qc) in *; set (w := (c * c)%Qc) in *; clearbody u v w; qlra).
  apply K in Ka. apply K in Kb. apply K in Kc. subst a b c. clear - Ka Kb Kc.
  unfold near_axes. repeat split; qlra.
Qed.
Lemma sqrt_le_Fin d r : sqrt_le d (Fin r) = true <-> (0 <= r /\ d <= r * r)%Qc.
Proof.
  cbn. rewrite andb_true_iff. split; intros [H1 H2].
  - destruct (qleb_spec 0 r); [|discriminate]. destruct (qleb_spec d (r * r)); [|discriminate]. auto.
  - destruct (qleb_spec 0 r); [|contradiction]. destruct (qleb_spec d (r * r)); [|contradiction]. auto.
Qed.
Lemma within_Fin p q r inc : within_radius p (Fin r) inc q = true <->
  (0 <= r)%Qc /\ (sqdist p q <= r * r)%Qc /\ (inc = true \/ (0 < sqdist p q)%Qc).
Proof.
  unfold within_radius. rewrite <- dist2_sqdist, (dist2_sym p q). destruct inc.
  - rewrite sqrt_le_Fin. tauto.
  - rewrite andb_true_iff, sqrt_le_Fin. unfold sqrt_pos. split.
    + intros [[H1 H2] H3]. destruct (qltb_spec 0 (dist2 q p)); [|discriminate]. auto.
    + intros (H1 & H2 & [?|H3]); [discriminate|]. destruct (qltb_spec 0 (dist2 q p)); [|contradiction]. auto.
Qed.

(** the exact answer of a radius search *)
Lemma neighbours_exact G t las los T la lo r inc : geo_ok G -> is_tree G t las los T -> valid_loc t la ->
  exists I, get_neighbours G T (Fin la) (Fin lo) (Fin r) inc = Ok I /\ NoDup I /\
  forall i, In i I <-> exists q, point_at G t las los i q /\
     near_axes (position G t la lo) q r /\ (sqdist (position G t la lo) q <= r * r)%Qc /\
     (inc = true \/ (0 < sqdist (position G t la lo) q)%Qc).
Proof.
  intros HG HT HV. unfold get_neighbours. rewrite (is_tree_type _ _ _ _ _ HT), (convert_ok _ _ _ _ HV). cbn [bind].
  eexists. split; [reflexivity|]. split; [apply (ok_q_nodup _ HG)|]. intros i. rewrite (ok_q_in _ HG). unfold sel. split.
  - intros (q & Hq & Hf). apply andb_true_iff in Hf as [Hb Hw]. exists q.
    split; [apply (is_tree_pts _ _ _ _ _ HT); exact Hq|]. apply in_box_Fin in Hb. apply within_Fin in Hw. tauto.
  - intros (q & Hq & Hb & Hd & Hi). exists q. split; [apply (is_tree_pts _ _ _ _ _ HT); exact Hq|].
    apply andb_true_iff. split; [apply in_box_Fin; exact Hb|]. apply within_Fin.
    pose proof (near_axes_pos _ _ _ Hb). repeat split; auto. qlra.
Qed.
Lemma neighbours_inf G t las los T la lo inc : geo_ok G -> is_tree G t las los T -> valid_loc t la ->
  exists I, get_neighbours G T (Fin la) (Fin lo) PInf inc = Ok I /\ NoDup I /\
  forall i, In i I <-> exists q, point_at G t las los i q /\ (inc = true \/ (0 < sqdist (position G t la lo) q)%Qc).
Proof.
  intros HG HT HV. unfold get_neighbours. rewrite (is_tree_type _ _ _ _ _ HT), (convert_ok _ _ _ _ HV). cbn [bind].
  eexists. split; [reflexivity|]. split; [apply (ok_q_nodup _ HG)|]. intros i. rewrite (ok_q_in _ HG). unfold sel.
  split; intros (q & Hq & Hf); exists q; (split; [apply (is_tree_pts _ _ _ _ _ HT); exact Hq|]); cbn in *;
    unfold within_radius in *; destruct inc; auto; cbn in *; unfold sqrt_pos in *; rewrite dist2_sym, dist2_sqdist in *.
  - right. destruct (qltb_spec 0 (sqdist (position G t la lo) q)); [assumption|discriminate].
  - destruct Hf as [?|Hf]; [discriminate|]. destruct (qltb_spec 0 (sqdist (position G t la lo) q)); [reflexivity|contradiction].
Qed.
Lemma c36_partial : forall G t las los T la lo r inc, geo_ok G -> is_tree G t las los T -> valid_loc t la ->
  exists I, get_neighbours G T (Fin la) (Fin lo) (Fin r) inc = Ok I /\ NoDup I /\
  (forall i, In i I <-> exists q, point_at G t las los i q /\
     near_axes (position G t la lo) q r /\ (sqdist (position G t la lo) q <= r * r)%Qc /\
     (inc = true \/ (0 < sqdist (position G t la lo) q)%Qc)) /\
  (* in particular every point strictly inside the radius is found *)
  (forall i q, point_at G t las los i q -> (0 <= r)%Qc -> (sqdist (position G t la lo) q < r * r)%Qc ->
     (inc = true \/ (0 < sqdist (position G t la lo) q)%Qc) -> In i I) /\
  get_num_neighbours G T (Fin la) (Fin lo) (Fin r) inc = Ok (zlen I).
Proof.
  intros G t las los T la lo r inc HG HT HV.
  destruct (neighbours_exact G t las los T la lo r inc HG HT HV) as (I & HI & ND & H).
  exists I. repeat split; [exact HI|exact ND|apply H|apply H| |].
  - intros i q Hq Hr Hd Hi. apply H. exists q. split; [exact Hq|]. split; [exact (within_near_axes _ _ _ Hr Hd)|].
    split; [apply Qclt_le_weak; exact Hd|exact Hi].
  - unfold get_num_neighbours. rewrite HI. reflexivity.
Qed.
(** a point exactly at the radius along an axis is missed, and radius 0 finds nothing *)
Lemma c36_refuted : forall G, geo_ok G -> exists las los T la lo r,
  is_tree G Cartesian las los T /\ (0 <= r)%Qc /\
  (exists q, point_at G Cartesian las los 0 q /\ (sqdist (position G Cartesian la lo) q <= r * r)%Qc) /\
  (exists q, point_at G Cartesian las los 1 q /\ sqdist (position G Cartesian la lo) q = 0%Qc) /\
  get_neighbours G T (Fin la) (Fin lo) (Fin r) true = Ok [1] /\
  get_neighbours G T (Fin la) (Fin lo) (Fin 0) true = Ok [].
Proof.
  intros G HG. destruct (mk_tree_ok G [qz 1000; qz 0] [qz 0; qz 0] Cartesian) as [T HT]; [reflexivity|repeat constructor|].
  exists [qz 1000; qz 0], [qz 0; qz 0], T, (qz 0), (qz 0), (qz 1000).
  split; [exact HT|]. split; [discriminate|].
  split. { exists (mkxyz (qz 0) (qz 1000) 0). split; [exists (qz 1000), (qz 0); repeat split|]. vm_compute. discriminate. }
  split. { exists (mkxyz (qz 0) (qz 0) 0). split; [exists (qz 0), (qz 0); repeat split|]. apply Qc_is_canon. vm_compute. reflexivity. }
  assert (P : forall i q, point_at G Cartesian [qz 1000; qz 0] [qz 0; qz 0] i q ->
     (i = 0 /\ q = mkxyz (qz 0) (qz 1000) 0) \/ (i = 1 /\ q = mkxyz (qz 0) (qz 0) 0)).
  { intros i q (a & b & H1 & H2 & ->). pose proof (znth_range _ _ _ H1) as R.
    assert (i = 0 \/ i = 1) as [->| ->] by (unfold zlen in R; cbn in R; lia); injection H1 as <-; injection H2 as <-; auto. }
  split.
  - destruct (neighbours_exact G Cartesian _ _ T (qz 0) (qz 0) (qz 1000) true HG HT Logic.I) as (I & HI & ND & H).
    rewrite HI. f_equal.
    assert (K1 : In 1 I).
    { apply H. exists (mkxyz (qz 0) (qz 0) 0). split; [exists (qz 0), (qz 0); repeat split|].
      repeat split; vm_compute; (reflexivity || discriminate || auto). }
    assert (K2 : forall i, In i I -> i = 1).
    { intros i Hi. apply H in Hi as (q & Hq & Hn & _). destruct (P _ _ Hq) as [[-> ->]|[-> ->]]; [exfalso|reflexivity].
      destruct Hn as (_ & (_ & K) & _). vm_compute in K. discriminate. }
    destruct I as [|a I]; [destruct K1|]. pose proof (K2 a (or_introl eq_refl)). subst a. f_equal.
    destruct I as [|b I]; [reflexivity|]. pose proof (K2 b (or_intror (or_introl eq_refl))). subst b.
    inversion ND as [|? ? Hn _]; subst. exfalso; apply Hn; left; reflexivity.
  - destruct (neighbours_exact G Cartesian _ _ T (qz 0) (qz 0) 0%Qc true HG HT Logic.I) as (I & HI & ND & H).
    rewrite HI. f_equal. destruct I as [|a I]; [reflexivity|].
    destruct (proj1 (H a) (or_introl eq_refl)) as (q & _ & Hn & _). apply near_axes_pos in Hn. discriminate Hn.
Qed.

(** ** nearest neighbours *)
Lemma is_not_equal_spec p q : is_not_equal p q = true <-> p <> q.
Proof.
  unfold is_not_equal. destruct p as [a b c], q as [a' b' c']; cbn. rewrite !orb_true_iff, !negb_true_iff.
  split.
  - intros H K. injection K as -> -> ->. destruct H as [[H|H]|H]; revert H; qcase; congruence.
  - intros H. destruct (qeqb_spec a a') as [->|]; [|auto]. destruct (qeqb_spec b b') as [->|]; [|auto].
    destruct (qeqb_spec c c') as [->|]; [|auto]. exfalso; apply H; reflexivity.
Qed.
Lemma sqdist_0 p q : sqdist p q = 0%Qc <-> p = q.
Proof.
  split; [|intros ->; unfold sqdist; ring]. unfold sqdist. intros H. destruct p as [a b c], q as [a' b' c']; cbn in *.
  pose proof (sq_nonneg (a' - a)). pose proof (sq_nonneg (b' - b)). pose proof (sq_nonneg (c' - c)).
  assert (K : forall d : Qc, (d * d <= 0)%Qc -> d = 0%Qc).
  { clear. intros d Hd. destruct (Qc_eq_dec d 0) as [|N]; [assumption|]. exfalso.
    destruct (Qclt_le_dec d 0); [qnra|]. assert (0 < d)%Qc by (apply Qcnot_le_lt; intros L; apply N; apply Qcle_antisym; assumption). qnra. }
  assert (E : (a' - a = 0 /\ b' - b = 0 /\ c' - c = 0)%Qc).
  { set (u := (a' - a)%Qc) in *. set (v := (b' - b)%Qc) in *. set (w := (c' - c)%Qc) in *. clearbody u v w.
    repeat split; apply K; set (uu := (u * u)%Qc) in *; set (vv := (v * v)%Qc) in *; set (ww := (w * w)%Qc) in *; clearbody uu vv ww; clear K; qlra. }
  destruct E as (E1 & E2 & E3). f_equal; [clear - E1|clear - E2|clear - E3]; apply Qcle_antisym; qlra.
Qed.

Lemma c37_tree : forall G t las los T la lo num inc, geo_ok G -> is_tree G t las los T -> valid_loc t la -> 1 <= num ->
  exists I, get_closest_neighbours G T (Fin la) (Fin lo) num inc = Ok I /\ NoDup I /\ zlen I <= num /\
  (forall i, In i I -> exists q, point_at G t las los i q /\ qualifies (position G t la lo) inc q) /\
  (zlen I < num -> forall i q, point_at G t las los i q -> qualifies (position G t la lo) inc q -> In i I) /\
  (forall i j qi qj, In i I -> point_at G t las los i qi -> point_at G t las los j qj ->
     qualifies (position G t la lo) inc qj -> ~ In j I ->
     (sqdist (position G t la lo) qi <= sqdist (position G t la lo) qj)%Qc).
Proof.
  intros G t las los T la lo num inc HG HT HV Hn. unfold get_closest_neighbours.
  rewrite (is_tree_type _ _ _ _ _ HT), (convert_ok _ _ _ _ HV). cbn [bind].
  rewrite (proj2 (Z.ltb_ge num 0)) by lia.
  set (p := position G t la lo). set (f := fun q => if inc then true else is_not_equal p q).
  assert (F : forall q, f q = true <-> (inc = true \/ sqdist p q <> 0%Qc)).
  { intros q. unfold f. rewrite sqdist_0. destruct inc; [tauto|]. rewrite is_not_equal_spec.
    split; [auto|]. intros [?|?]; [discriminate|assumption]. }
  eexists. split; [reflexivity|]. split; [apply (ok_n_nodup _ HG); lia|]. split; [apply (ok_n_le _ HG); lia|].
  split; [|split].
  - intros i Hi. apply (ok_n_sel _ HG) in Hi as (q & Hq & Hf); [|lia]. exists q.
    split; [apply (is_tree_pts _ _ _ _ _ HT); exact Hq|apply F; exact Hf].
  - intros HL i q Hq Hf. apply (ok_n_full _ HG); [lia|exact HL|]. exists q.
    split; [apply (is_tree_pts _ _ _ _ _ HT); exact Hq|apply F; exact Hf].
  - intros i j qi qj Hi Hqi Hqj Hf Hj. rewrite <- !dist2_sqdist.
    apply (is_tree_pts _ _ _ _ _ HT) in Hqi. apply (is_tree_pts _ _ _ _ _ HT) in Hqj.
    eapply (ok_n_close _ HG); eauto. exists qj. split; [exact Hqj|apply F; exact Hf].
Qed.
(** one nearest neighbour *)
Lemma closest_one G t las los T la lo inc : geo_ok G -> is_tree G t las los T -> valid_loc t la ->
  exists I, get_closest_neighbours G T (Fin la) (Fin lo) 1 inc = Ok I /\
  ((I = [] /\ none_qualifies (point_at G t las los) (position G t la lo) inc) \/
   (exists i, I = [i] /\ closest (point_at G t las los) (position G t la lo) inc i)).
Proof.
  intros HG HT HV. destruct (c37_tree G t las los T la lo 1 inc HG HT HV) as (I & HI & ND & HL & H1 & H2 & H3); [lia|].
  exists I. split; [exact HI|]. destruct I as [|i [|k I]].
  - left. split; [reflexivity|]. intros i q Hq Hf. apply (H2 ltac:(reflexivity) i q Hq Hf).
  - right. exists i. split; [reflexivity|]. destruct (H1 i) as (q & Hq & Hf); [left; reflexivity|].
    exists q. split; [exact Hq|]. split; [exact Hf|]. intros j q' Hq' Hf'.
    destruct (Z.eq_dec j i) as [->|N].
    + rewrite (point_at_fun _ _ _ _ _ _ _ Hq Hq'). apply Qcle_refl.
    + apply (H3 i j q q'); auto. { left; reflexivity. } intros [K|[]]. congruence.
  - exfalso. rewrite !zlen_cons in HL. pose proof (zlen_nonneg I). lia.
Qed.
