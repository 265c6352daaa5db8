(** Proofs about the client's kriging calibrator. *)
From Coq Require Import Lia.
From Verif Require Import Base ListLib QcTac M_Stat S_Stat P_Stat M_COpt M_CUtil S_CUtil P_CUtil M_CCal S_CCal P_CCal M_CTree S_CTree P_CTree P_Bilin M_CKrig S_CKrig.
Local Open Scope Z_scope.

Lemma apart_nonneg a b : (0 <= apart a b)%Qc.
Proof. unfold apart. destruct (qltb_spec (a - b) 0); qlra. Qed.
Lemma apart_sym a b : apart a b = apart b a.
Proof. unfold apart. destruct (qltb_spec (a - b) 0), (qltb_spec (b - a) 0); apply Qcle_antisym; qlra. Qed.
Lemma apart_self a : apart a a = 0%Qc.
Proof. unfold apart. destruct (qltb_spec (a - a) 0); apply Qcle_antisym; qlra. Qed.
Lemma sq_le a b : (0 <= a -> a <= b -> a * a <= b * b)%Qc.
Proof. intros. qnra. Qed.
Lemma falloff_range c exq s d : exponential exq -> (0 < s)%Qc -> (0 <= d)%Qc -> (c = true -> d <= s)%Qc -> (0 <= falloff c exq s d /\ falloff c exq s d <= 1)%Qc.
Proof.
  intros (X1 & X2 & X3) Hs Hd Hc. unfold falloff. assert (P : (0 < s * s)%Qc) by (apply qc_mul_pos; auto). assert (Q : (0 <= d * d)%Qc) by qnra. destruct c.
  - assert (0 < s * s + d * d)%Qc by qlra.
    specialize (Hc eq_refl). pose proof (sq_le d s Hd Hc). split; [apply qle_div_iff|apply qdiv_le_iff]; auto; qlra.
  - split; [apply Qclt_le_weak, X2|]. rewrite <- X1. apply X3. apply qdiv_le_iff; [|qlra].
    replace (qz 2 * s * s)%Qc with (qz 2 * (s * s))%Qc by ring. apply qc_mul_pos; [reflexivity|auto].
Qed.
Lemma falloff_mono c exq s d d' : exponential exq -> (0 < s)%Qc -> (0 <= d)%Qc -> (d <= d')%Qc -> (falloff c exq s d' <= falloff c exq s d)%Qc.
Proof.
  intros (X1 & X2 & X3) Hs Hd Hc. unfold falloff. assert (P : (0 < s * s)%Qc) by (apply qc_mul_pos; auto). assert (Q : (0 <= d * d)%Qc) by qnra. pose proof (sq_le d d' Hd Hc) as L. destruct c.
  - apply qdiv_le_iff; [qlra|]. set (S := (s * s)%Qc) in *. set (x := (d * d)%Qc) in *. set (y := (d' * d')%Qc) in *. clearbody S x y.
    replace ((S - x) / (S + x) * (S + y))%Qc with ((S - x) * (S + y) / (S + x))%Qc by (unfold Qcdiv; ring). apply qle_div_iff; [qlra|]. qnra.
  - apply X3. assert (Z : (0 < qz 2 * s * s)%Qc). { replace (qz 2 * s * s)%Qc with (qz 2 * (s * s))%Qc by ring. apply qc_mul_pos; [reflexivity|auto]. }
    apply qdiv_le_iff; auto. replace (- (d * d) / (qz 2 * s * s) * (qz 2 * s * s))%Qc with (- (d * d))%Qc; [qlra|]. set (z := (qz 2 * s * s)%Qc) in *. unfold Qcdiv. rewrite <- Qcmult_assoc, (Qcmult_comm (/ z)), Qcmult_inv_r; [ring|]. intros h. rewrite h in Z. discriminate.
Qed.
Lemma falloff_zero c exq s : exponential exq -> (0 < s)%Qc -> falloff c exq s 0 = 1%Qc.
Proof.
  intros (X1 & _) Hs. assert (P : (0 < s * s)%Qc) by (apply qc_mul_pos; auto). unfold falloff. destruct c.
  - replace (s * s - 0 * 0)%Qc with (s * s)%Qc by ring. replace (s * s + 0 * 0)%Qc with (s * s)%Qc by ring. apply Qcmult_inv_r. intros h. rewrite h in P. discriminate.
  - replace (- (0 * 0) / (qz 2 * s * s))%Qc with 0%Qc by (unfold Qcdiv; ring). auto.
Qed.
Lemma covariance_range c exq e r m h v : exponential exq -> (0 < e -> 0 <= h -> 0 <= v -> 0 <= covariance c exq e r m h v /\ covariance c exq e r m h v <= 1)%Qc.
Proof.
  intros X He Hh Hv. unfold covariance. destruct (qltb_spec h r); cbn [andb]; [|split; qlra].
  destruct m as [m|]; cbn [andb].
  - destruct (qltb_spec v m); cbn [andb]; [|split; qlra]. destruct (negb c || qleb h e)%bool eqn:C; [|split; qlra].
    assert (K : c = true -> (h <= e)%Qc). { intros ->. cbn in C. destruct (qleb_spec h e); auto. discriminate. }
    destruct (falloff_range c exq e h X He Hh K). destruct (falloff_range c exq m v X) as [? ?]; [qlra|auto|intros; qlra|].
    set (a := falloff c exq e h) in *. set (b := falloff c exq m v) in *. clearbody a b. split; qnra.
  - destruct (negb c || qleb h e)%bool eqn:C; [|split; qlra].
    assert (K : c = true -> (h <= e)%Qc). { intros ->. cbn in C. destruct (qleb_spec h e); auto. discriminate. }
    destruct (falloff_range c exq e h X He Hh K). rewrite Qcmult_1_r. auto.
Qed.
Lemma covariance_mono c exq e r m h v h' v' : exponential exq -> (0 < e -> 0 <= h -> 0 <= v -> h <= h' -> v <= v' -> covariance c exq e r m h' v' <= covariance c exq e r m h v)%Qc.
Proof.
  intros X He Hh Hv Lh Lv. pose proof (proj1 (covariance_range c exq e r m h v X He Hh Hv)) as NN. unfold covariance in *. destruct (qltb_spec h' r); cbn [andb]; [|exact NN].
  destruct (qltb_spec h r); [|exfalso; qlra]. cbn [andb] in *.
  destruct m as [m|]; cbn [andb] in *.
  - destruct (qltb_spec v' m); cbn [andb]; [|exact NN]. destruct (qltb_spec v m); [|exfalso; qlra]. cbn [andb] in *. destruct (negb c || qleb h' e)%bool eqn:C; [|exact NN].
    assert (K : c = true -> (h' <= e)%Qc). { intros ->. cbn in C. destruct (qleb_spec h' e); auto. discriminate. }
    assert (C' : (negb c || qleb h e)%bool = true). { destruct c; auto. cbn. destruct (qleb_spec h e); auto. exfalso. specialize (K eq_refl). qlra. }
    rewrite C'. assert (0 <= h')%Qc by qlra. assert (0 <= v')%Qc by qlra.
    destruct (falloff_range c exq e h X He Hh) as [? ?]; [intros Z; specialize (K Z); qlra|]. destruct (falloff_range c exq m v' X) as [? ?]; [qlra|auto|intros; qlra|].
    pose proof (falloff_mono c exq e h h' X He Hh Lh). assert (0 < m)%Qc by qlra. pose proof (falloff_mono c exq m v v' X H6 Hv Lv).
    set (a := falloff c exq e h) in *. set (a' := falloff c exq e h') in *. set (b := falloff c exq m v) in *. set (b' := falloff c exq m v') in *. clearbody a a' b b'. qnra.
  - destruct (negb c || qleb h' e)%bool eqn:C; [|exact NN].
    assert (K : c = true -> (h' <= e)%Qc). { intros ->. cbn in C. destruct (qleb_spec h' e); auto. discriminate. }
    assert (C' : (negb c || qleb h e)%bool = true). { destruct c; auto. cbn. destruct (qleb_spec h e); auto. exfalso. specialize (K eq_refl). qlra. }
    rewrite C'. rewrite !Qcmult_1_r. apply falloff_mono; auto.
Qed.
Lemma vleb_qleb x y : vleb (Fin x) (Fin y) = qleb x y.
Proof. destruct (qleb_spec x y) as [L|L]; [apply vleb_F; auto|]. destruct (vleb (Fin x) (Fin y)) eqn:V; auto. apply vleb_F in V. contradiction. Qed.
Lemma covar_settled D exq k e r m a b la lo el la' lo' el' : metric_like D -> options k e r m -> settled a la lo el -> settled b la' lo' el' ->
  calc_covar (lift4 D) (on_numbers exq) k a b = Ok (Fin (covariance (k_cressman k) exq e r m (D la lo la' lo') (apart el el'))).
Proof.
  intros (M1 & M2 & M3) (O1 & O2 & O3 & O4 & O5) (A1 & A2 & A3 & A4 & A5) (B1 & B2 & B3 & B4 & B5).
  assert (CV : forall q, q <> missing_number -> cvalid (Fin q) = true) by (intros q H; apply cvalid_true; eauto).
  unfold calc_covar, place_valid. rewrite A1, A2, A3, B1, B2, B3. rewrite !CV by (auto; apply A4 || apply B4). cbn [andb].
  rewrite distance_value by auto. cbn [bind]. rewrite O1, O2. set (h := D la lo la' lo') in *. assert (Hh : (0 <= h)%Qc) by apply M1.
  rewrite vsub_F. change (vabs (Fin (el - el'))) with (Fin (apart el el')). pose proof (apart_nonneg el el') as Hv. set (v := apart el el') in *. clearbody h v.
  assert (NZ : forall s d, (0 < s)%Qc -> (s * s + d * d)%Qc <> 0%Qc). { intros s d Hs Z. assert (0 < s * s)%Qc by (apply qc_mul_pos; auto). assert (0 <= d * d)%Qc by qnra. qlra. }
  assert (FC : forall s d, (0 < s)%Qc -> cressman (Fin s) (Fin d) = Fin (falloff true exq s d)). { intros s d Hs. unfold cressman. rewrite !vmul_F, vsub_F, vadd_F, vdiv_F by auto. reflexivity. }
  assert (FB : forall s d, (0 < s)%Qc -> on_numbers exq (vdiv (vmul (vneg (Fin d)) (Fin d)) (vmul (vmul (fz 2) (Fin s)) (Fin s))) = Fin (falloff false exq s d)).
  { intros s d Hs. change (fz 2) with (Fin (qz 2)). rewrite vneg_F, !vmul_F, vdiv_F; [cbn [on_numbers]; unfold falloff; do 3 f_equal; ring|]. intros Z. assert (0 < qz 2 * s * s)%Qc by (apply qc_mul_pos; auto; apply qc_mul_pos; [reflexivity|auto]). qlra. }
  assert (EV : cvalid (k_elev k) = match m with Some _ => true | None => false end). { rewrite O3. destruct m; [apply CV; auto|reflexivity]. }
  rewrite EV. unfold covariance. rewrite vleb_qleb. unfold qltb at 1. fold (qleb r h). destruct (qleb_spec r h) as [L|L]; cbn [orb negb andb]; [reflexivity|].
  rewrite O3. destruct m as [m|]; cbn [andb orb].
  - rewrite vleb_qleb. unfold qltb at 1. fold (qleb m v). destruct (qleb_spec m v) as [L'|L']; cbn [negb andb]; [reflexivity|]. assert (0 < m)%Qc by qlra.
    destruct (k_cressman k); cbn [negb orb].
    + cbn [vltb]. unfold qltb at 1. fold (qleb h e). destruct (qleb_spec h e); cbn [negb orb]; [|reflexivity]. destruct (qltb_spec m v); [exfalso; qlra|]. rewrite !FC, vmul_F by auto. reflexivity.
    + rewrite !FB, vmul_F by auto. reflexivity.
  - destruct (k_cressman k); cbn [negb orb].
    + cbn [vltb]. unfold qltb at 1. fold (qleb h e). destruct (qleb_spec h e); cbn [negb orb]; [|reflexivity]. rewrite FC by auto. change (fz 1) with (Fin 1%Qc). rewrite vmul_F. reflexivity.
    + rewrite FB by auto. change (fz 1) with (Fin 1%Qc). rewrite vmul_F. reflexivity.
Qed.
(** ** C214 *)
Lemma c214 D exq k e r m a b la lo el la' lo' el' : metric_like D -> exponential exq -> options k e r m -> settled a la lo el -> settled b la' lo' el' ->
  exists c, calc_covar (lift4 D) (on_numbers exq) k a b = Ok (Fin c) /\ calc_covar (lift4 D) (on_numbers exq) k b a = Ok (Fin c) /\ (0 <= c <= 1)%Qc /\
    ((r <= D la lo la' lo')%Qc \/ (exists h, m = Some h /\ (h <= apart el el')%Qc) -> c = 0%Qc) /\
    ((0 < r)%Qc -> (forall h, m = Some h -> 0 < h)%Qc -> D la lo la' lo' = 0%Qc -> el = el' -> c = 1%Qc) /\
    forall b' la'' lo'' el'', settled b' la'' lo'' el'' -> (D la lo la' lo' <= D la lo la'' lo'')%Qc -> (apart el el' <= apart el el'')%Qc ->
      exists c', calc_covar (lift4 D) (on_numbers exq) k a b' = Ok (Fin c') /\ (c' <= c)%Qc.
Proof.
  intros M X O A B. pose proof M as (M1 & M2 & M3). pose proof O as (_ & _ & _ & _ & He). exists (covariance (k_cressman k) exq e r m (D la lo la' lo') (apart el el')).
  rewrite (covar_settled _ _ _ _ _ _ _ _ _ _ _ _ _ _ M O A B), (covar_settled _ _ _ _ _ _ _ _ _ _ _ _ _ _ M O B A). rewrite (M2 la' lo' la lo), (apart_sym el' el). split; [reflexivity|]. split; [reflexivity|].
  split; [apply covariance_range; auto; apply apart_nonneg|]. split; [|split].
  - unfold covariance. intros [L|(h & -> & L)]; destruct (qltb_spec (D la lo la' lo') r); cbn [andb]; auto.
    + exfalso. qlra.
    + destruct (qltb_spec (apart el el') h); auto. exfalso. qlra.
  - intros Hr Hm HD <-. rewrite HD, apart_self. unfold covariance. destruct (qltb_spec 0 r); [|contradiction]. cbn [andb]. replace (qleb 0 e) with true by (destruct (qleb_spec 0 e); auto; exfalso; qlra). rewrite orb_true_r, andb_true_r, falloff_zero by auto.
    destruct m as [h|]; [|apply Qcmult_1_r]. specialize (Hm h eq_refl). destruct (qltb_spec 0 h); [|contradiction]. rewrite falloff_zero by auto. apply Qcmult_1_r.
  - intros b' la'' lo'' el'' B' L1 L2. exists (covariance (k_cressman k) exq e r m (D la lo la'' lo'') (apart el el'')). split; [apply covar_settled; auto|]. apply covariance_mono; auto. apply apart_nonneg.
Qed.
Lemma c214_missing gc ex k a b : unsettled a \/ unsettled b -> calc_covar gc ex k a b = Ok (Fin missing_number).
Proof.
  intros H. unfold calc_covar. replace (place_valid a && place_valid b)%bool with false; [reflexivity|]. symmetry. apply andb_false_iff.
  assert (U : forall l, unsettled l -> place_valid l = false). { intros l L. unfold place_valid. rewrite !andb_false_iff, !cvalid_missing. destruct L as [|[|]]; auto. }
  destruct H; [left|right]; auto.
Qed.

(** ** The matrix *)
Lemma matrix_ok covar locs (c : Z -> Z -> Qc) : (forall i j a b, 0 <= i < j -> znth locs i = Ok a -> znth locs j = Ok b -> covar a b = Ok (Fin (c i j))) ->
  exists m, krig_matrix covar locs = Ok m /\ rect (zlen locs) (zlen locs) m /\
    forall i j, 0 <= i < zlen locs -> 0 <= j < zlen locs -> get2 m i j = Ok (Fin (reduced (fun i j => c (Z.min i j) (Z.max i j)) i j)).
Proof.
  intros HC. set (N := zlen locs). assert (HN : 0 <= N) by (unfold N, zlen; lia). set (R := reduced (fun i j => c (Z.min i j) (Z.max i j))).
  unfold krig_matrix. fold N.
  destruct (foldM_range (fun m ii => iloc <- znth locs ii ;; m <- set2 m ii ii (fz 1) ;;
      foldM (fun m jj => jloc <- znth locs jj ;; c <- covar iloc jloc ;; let R := vmul c krig_factor in m <- set2 m ii jj R ;; set2 m jj ii R) m (zrange (ii + 1) N))
    (fun ii m => rect N N m /\ forall i j, 0 <= i < N -> 0 <= j < N -> Z.min i j < ii -> get2 m i j = Ok (Fin (R i j))) 0 N (init1 N (init1 N (fz 0)))) as (m & Em & Rm & Hm); auto.
  - split; [apply (rect_init2 N N (fz 0)); auto|]. intros. lia.
  - intros ii m Hi [Rm Hm]. destruct (znth_some locs ii Hi) as [iloc Ei]. rewrite Ei. cbn [bind].
    destruct (rect_set2 N N m ii ii (fz 1) Rm Hi Hi) as (m1 & E1 & R1 & G1). rewrite E1. cbn [bind].
    destruct (foldM_range (fun m jj => jloc <- znth locs jj ;; c <- covar iloc jloc ;; let R := vmul c krig_factor in m <- set2 m ii jj R ;; set2 m jj ii R)
      (fun jj m => rect N N m /\ forall i j, 0 <= i < N -> 0 <= j < N -> Z.min i j < ii \/ (Z.min i j = ii /\ Z.max i j < jj) -> get2 m i j = Ok (Fin (R i j))) (ii + 1) N m1) as (m2 & E2 & R2 & G2); [lia| | |].
    + split; [auto|]. intros i j Hi' Hj' C. rewrite G1 by auto. destruct C as [C|[C1 C2]].
      * destruct (Z.eqb_spec i ii), (Z.eqb_spec j ii); cbn [andb]; try (apply Hm; auto; fail). lia.
      * assert (i = ii /\ j = ii) as [-> ->] by lia. rewrite Z.eqb_refl. cbn [andb]. unfold R, reduced. rewrite Z.eqb_refl. reflexivity.
    + intros jj m0 Hj [R0 H0]. assert (Hj' : 0 <= jj < N) by lia. destruct (znth_some locs jj Hj') as [jloc Ej]. rewrite Ej. cbn [bind]. rewrite (HC ii jj iloc jloc) by (auto; lia). cbn [bind].
      destruct (rect_set2 N N m0 ii jj (vmul (Fin (c ii jj)) krig_factor) R0 Hi Hj') as (m3 & E3 & R3 & G3). cbv zeta. rewrite E3. cbn [bind].
      destruct (rect_set2 N N m3 jj ii (vmul (Fin (c ii jj)) krig_factor) R3 Hj' Hi) as (m4 & E4 & R4 & G4). exists m4. split; [auto|]. split; [auto|].
      assert (V1 : vmul (Fin (c ii jj)) krig_factor = Fin (R ii jj)). { unfold R, reduced. replace (ii =? jj) with false by lia. replace (Z.min ii jj) with ii by lia. replace (Z.max ii jj) with jj by lia. reflexivity. }
      assert (V2 : R jj ii = R ii jj). { unfold R, reduced. rewrite (Z.eqb_sym jj ii), (Z.min_comm jj ii), (Z.max_comm jj ii). reflexivity. }
      intros i j Ii Ij C. rewrite G4 by auto. destruct (Z.eqb_spec i jj), (Z.eqb_spec j ii); cbn [andb]; try (subst i j; rewrite V1, V2; reflexivity).
      all: rewrite G3 by auto; destruct (Z.eqb_spec i ii), (Z.eqb_spec j jj); cbn [andb]; try (exfalso; lia); try (subst i j; rewrite V1; reflexivity); apply H0; auto; lia.
    + exists m2. split; [auto|]. split; [auto|]. intros i j Ii Ij C. apply G2; auto. lia.
  - exists m. split; [auto|]. split; [auto|]. intros i j Hi Hj. apply Hm; auto. lia.
Qed.

(** ** Loops *)
Definition local_point (d : dims) (P : Z -> Z -> Z -> val -> val -> Prop) (body : field -> Z -> Z -> res field) : Prop :=
  forall f i j, of_size d f -> 0 <= i < d_y d -> 0 <= j < d_x d -> exists g, body f i j = Ok g /\ of_size d g /\
    (forall e v, 0 <= e < d_e d -> f_get f i j e = Ok v -> exists w, f_get g i j e = Ok w /\ P i j e v w) /\
    (forall y x e, within d y x e -> (y, x) <> (i, j) -> f_get g y x e = f_get f y x e).
Lemma points_foldM d P body : local_point d P body -> forall l f, NoDup l -> (forall i j, In (i, j) l -> 0 <= i < d_y d /\ 0 <= j < d_x d) -> of_size d f ->
  exists g, foldM (fun f c => let '(i, j) := c in body f i j) f l = Ok g /\ of_size d g /\
    (forall i j e v, In (i, j) l -> 0 <= e < d_e d -> f_get f i j e = Ok v -> exists w, f_get g i j e = Ok w /\ P i j e v w) /\
    (forall y x e, within d y x e -> ~ In (y, x) l -> f_get g y x e = f_get f y x e).
Proof.
  intros HB. induction l as [|[i j] l IH]; intros f ND HR S; cbn [foldM].
  - exists f. split; [reflexivity|]. split; [auto|]. split; [intros ? ? ? ? []|auto].
  - inversion ND as [|? ? N1 N2]; subst. destruct (HR i j (or_introl eq_refl)) as [Hi Hj]. destruct (HB f i j S Hi Hj) as (f1 & E1 & S1 & P1 & O1). rewrite E1. cbn [bind].
    destruct (IH f1 N2) as (g & Eg & Sg & Pg & Og); auto. { intros. apply HR. right. auto. }
    exists g. split; [auto|]. split; [auto|]. split.
    + intros y x e v [[= <- <-]|Hin] He Hv.
      * destruct (P1 e v He Hv) as (w & Ew & Pw). exists w. split; auto. rewrite Og; auto. unfold within; auto.
      * apply Pg; auto. rewrite O1; auto; [destruct (HR y x (or_intror Hin)); unfold within; auto|]. intros [= -> ->]. contradiction.
    + intros y x e W NI. rewrite Og; auto; [apply O1; auto|]; intros C; apply NI; [injection C as -> ->; left|right]; auto.
Qed.
Lemma points_all d P body f : local_point d P body -> of_size d f -> exists g, foldM (fun f c => let '(i, j) := c in body f i j) f (pairs2 (d_y d) (d_x d)) = Ok g /\ of_size d g /\
  forall y x e v, within d y x e -> f_get f y x e = Ok v -> exists w, f_get g y x e = Ok w /\ P y x e v w.
Proof.
  intros HB S. destruct (points_foldM d P body HB (pairs2 (d_y d) (d_x d)) f) as (g & Eg & Sg & Pg & _); auto.
  - apply NoDup_points.
  - intros i j H. apply in_points in H. auto.
  - exists g. split; [auto|]. split; [auto|]. intros y x e v (Wy & Wx & We) Hv. apply Pg; auto. apply in_points. auto.
Qed.
(** the members of a point; fb e is the correction before member e *)
Lemma members_ok d pw op aux (fb : Z -> val) f i j : of_size d f -> 0 <= i < d_y d -> 0 <= j < d_x d -> 0 <= d_e d ->
  (forall e, 0 <= e < d_e d -> (match aux with None => Ok (fb e) | Some w => weight <- w e ;; Ok (match op with KAdd | KSubtract => vmul (fb e) weight | _ => pw (fb e) weight end) end) = Ok (fb (e + 1))) ->
  exists g last, foldM (fun st e => let '(f, finalBias) := st in
      rawValue <- f_get f i j e ;;
      finalBias <- (match aux with None => Ok finalBias | Some w => weight <- w e ;; Ok (match op with KAdd | KSubtract => vmul finalBias weight | _ => pw finalBias weight end) end) ;;
      f <- f_set f i j e (krig_apply op rawValue finalBias) ;; Ok (f, finalBias)) (f, fb 0) (zrange 0 (d_e d)) = Ok (g, last) /\ of_size d g /\
    (forall e v, 0 <= e < d_e d -> f_get f i j e = Ok v -> f_get g i j e = Ok (krig_apply op v (fb (e + 1)))) /\
    (forall y x e, within d y x e -> (y, x) <> (i, j) -> f_get g y x e = f_get f y x e).
Proof.
  intros S Hi Hj Hn HF.
  match goal with |- exists g last, foldM ?step _ _ = _ /\ _ => destruct (foldM_range step (fun e st => snd st = fb e /\ of_size d (fst st) /\
    (forall e' v, 0 <= e' < d_e d -> f_get f i j e' = Ok v -> f_get (fst st) i j e' = Ok (if e' <? e then krig_apply op v (fb (e' + 1)) else v)) /\
    (forall y x e', within d y x e' -> (y, x) <> (i, j) -> f_get (fst st) y x e' = f_get f y x e')) 0 (d_e d) (f, fb 0)) as ([g last] & Eg & I1 & I2 & I3 & I4); auto end.
  - cbn [fst snd]. split; [auto|]. split; [auto|]. split; [|auto]. intros e' v He Hv. replace (e' <? 0) with false by lia. auto.
  - intros e [f1 fb1] He (I1 & I2 & I3 & I4). cbn [fst snd] in *. subst fb1. assert (W : within d i j e) by (unfold within; auto).
    destruct (of_size_get d f i j e S W) as [v Hv]. rewrite (I3 e v He Hv). replace (e <? e) with false by lia. cbn [bind]. rewrite (HF e He). cbn [bind].
    destruct (f_set_size d f1 i j e (krig_apply op v (fb (e + 1))) I2 W) as (g & Eg & Sg & Gg & Og). rewrite Eg. cbn [bind]. eexists. split; [reflexivity|]. cbn [fst snd]. split; [auto|]. split; [auto|]. split.
    + intros e' v' He' Hv'. destruct (Z.eq_dec e' e) as [-> |NE].
      * rewrite Hv in Hv'. injection Hv' as <-. replace (e <? e + 1) with true by lia. auto.
      * rewrite Og; [|unfold within; auto|intros [= ->]; contradiction]. rewrite (I3 e' v' He' Hv'). destruct (Z.ltb_spec e' e), (Z.ltb_spec e' (e + 1)); auto; lia.
    + intros y x e' W' N. rewrite Og; auto. intros [= -> -> ->]. contradiction.
  - exists g, last. split; [auto|]. split; [auto|]. split; [|auto]. cbn [fst] in I3. intros e v He Hv. rewrite (I3 e v He Hv). replace (e <? d_e d) with true by lia. auto.
Qed.
(** ** Sums *)
Lemma qsum_add {A} (f g : A -> Qc) l : qsum (map (fun x => f x + g x)%Qc l) = (qsum (map f l) + qsum (map g l))%Qc.
Proof. induction l as [|x l IH]; cbn; [ring|]. unfold qsum in *. cbn in *. rewrite IH. ring. Qed.
Lemma qsum_scale {A} (f : A -> Qc) c l : qsum (map (fun x => f x * c)%Qc l) = (qsum (map f l) * c)%Qc.
Proof. induction l as [|x l IH]; cbn; [ring|]. unfold qsum in *. cbn in *. rewrite IH. ring. Qed.
Lemma qsum_swap {A B} (f : A -> Qc) (q : A -> B -> Qc) (s : B -> Qc) l1 l2 :
  qsum (map (fun j => f j * qsum (map (fun k => q j k * s k) l2))%Qc l1) = qsum (map (fun k => qsum (map (fun j => f j * q j k) l1) * s k)%Qc l2).
Proof.
  induction l1 as [|a l1 IH].
  - cbn. induction l2 as [|b l2 IH2]; cbn in *; auto. unfold qsum in *. cbn in *. rewrite <- IH2. ring.
  - change (qsum (map (fun j => f j * qsum (map (fun k => q j k * s k) l2)) (a :: l1)))%Qc with (f a * qsum (map (fun k => q a k * s k) l2) + qsum (map (fun j => f j * qsum (map (fun k => q j k * s k) l2)) l1))%Qc.
    rewrite IH. rewrite (Qcmult_comm (f a)), <- qsum_scale, <- qsum_add. f_equal. apply map_ext. intros k.
    change (qsum (map (fun j => f j * q j k) (a :: l1)))%Qc with (f a * q a k + qsum (map (fun j => f j * q j k) l1))%Qc. ring.
Qed.
Lemma qsum_ext {A} (f g : A -> Qc) l : (forall x, In x l -> f x = g x) -> qsum (map f l) = qsum (map g l).
Proof. intros H. f_equal. apply map_ext_in. auto. Qed.
Lemma qsum_zero {A} (f : A -> Qc) l : (forall x, In x l -> f x = 0%Qc) -> qsum (map f l) = 0%Qc.
Proof. induction l as [|x l IH]; intros H; [reflexivity|]. cbn. unfold qsum in *. cbn. rewrite IH by (intros; apply H; right; auto). rewrite H by (left; auto). ring. Qed.
Lemma dot_unit n i s : 0 <= i < n -> dot n (fun k => if i =? k then 1%Qc else 0%Qc) s = s i.
Proof.
  intros Hi. unfold dot. assert (SP : zrange 0 n = zrange 0 i ++ i :: zrange (i + 1) n). { rewrite (zrange_app 0 i n), (zrange_cons i n) by lia. reflexivity. }
  rewrite SP, map_app, qsum_app. cbn [map]. change (qsum (?a :: ?l)) with (a + qsum l)%Qc. rewrite Z.eqb_refl, !qsum_zero.
  - ring.
  - intros x Hx. apply in_zrange in Hx. replace (i =? x) with false by lia. ring.
  - intros x Hx. apply in_zrange in Hx. replace (i =? x) with false by lia. ring.
Qed.
Lemma solve_ok n p q s : (forall i j, 0 <= i < n -> 0 <= j < n -> dot n (p i) (fun k => q k j) = if i =? j then 1%Qc else 0%Qc) -> solves n p (fun j => dot n (q j) s) s.
Proof.
  intros H i Hi. transitivity (dot n (fun k => if i =? k then 1%Qc else 0%Qc) s); [|apply dot_unit; auto]. unfold dot. rewrite (qsum_swap (p i) q s). apply qsum_ext. intros k Hk. apply in_zrange in Hk. f_equal. apply (H i k); auto.
Qed.
(** ** The correction at a point *)
Definition near_list (g : Z -> Qc) (l : list Z) : list (Z * val) := flat_map (fun i => if qltb 0 (g i) then [(i, Fin (g i))] else []) l.
Definition positive_part (g : Z -> Qc) (i : Z) : Qc := if qltb 0 (g i) then g i else 0%Qc.
Lemma near_ok covar locs p g : (forall i a, znth locs i = Ok a -> covar a p = Ok (Fin (g i))) -> krig_near covar locs p = Ok (near_list g (zrange 0 (zlen locs))).
Proof.
  intros H. unfold krig_near. rewrite (foldM_collect _ (fun i => if qltb 0 (g i) then [(i, Fin (g i))] else [])); [reflexivity|].
  intros i acc Hi. apply in_zrange in Hi. destruct (znth_some locs i Hi) as [a Ha]. rewrite Ha. cbn [bind]. rewrite (H i a Ha). cbn [bind]. change (vltb (fz 0) (Fin (g i))) with (qltb 0 (g i)). destruct (qltb 0 (g i)); [reflexivity|rewrite app_nil_r; reflexivity].
Qed.
Lemma weights_ok inverse N q g : rect N N inverse -> (forall i j, 0 <= i < N -> 0 <= j < N -> get2 inverse i j = Ok (Fin (q i j))) ->
  krig_weights inverse N (near_list g (zrange 0 N)) = Ok (map (fun i => Fin (dot N (q i) (positive_part g))) (zrange 0 N)).
Proof.
  intros R H. unfold krig_weights. apply mapM_ok. intros i Hi. apply in_zrange in Hi.
  assert (K : forall l, (forall j, In j l -> 0 <= j < N) -> forall a, foldM (fun w s => v <- get2 inverse i (fst s) ;; Ok (vadd w (vmul v (snd s)))) (Fin a) (near_list g l) = Ok (Fin (a + qsum (map (fun j => q i j * positive_part g j) l))%Qc)).
  { induction l as [|j l IH]; intros HL a; [cbn; do 2 f_equal; ring|]. change (near_list g (j :: l)) with ((if qltb 0 (g j) then [(j, Fin (g j))] else []) ++ near_list g l). rewrite foldM_app.
    change (qsum (map (fun j => q i j * positive_part g j) (j :: l)))%Qc with (q i j * positive_part g j + qsum (map (fun j => q i j * positive_part g j) l))%Qc. unfold positive_part at 1. destruct (qltb 0 (g j)).
    - cbn [foldM fst snd]. rewrite H by (auto; apply HL; left; auto). cbn [bind]. rewrite vmul_F, vadd_F, IH by (intros; apply HL; right; auto). do 2 f_equal. ring.
    - cbn [foldM bind]. rewrite IH by (intros; apply HL; right; auto). do 2 f_equal. ring. }
  change (fz 0) with (Fin 0%Qc). rewrite K by (intros j Hj; apply in_zrange in Hj; auto). do 2 f_equal. unfold dot. ring.
Qed.
Lemma final_ok (b w : Z -> Qc) l : (forall i, In i l -> b i <> missing_number) -> forall a, krig_final (map (fun i => Fin (b i)) l) (map (fun i => Fin (w i)) l) (Fin a) = Ok (Fin (a + qsum (map (fun i => b i * w i) l))%Qc).
Proof.
  induction l as [|i l IH]; intros H a; cbn [map krig_final]; [do 2 f_equal; cbn; ring|].
  rewrite (proj2 (cvalid_true (Fin (b i)))) by (exists (b i); split; auto; apply H; left; auto). cbn [negb]. rewrite vmul_F, vadd_F, IH by (intros; apply H; right; auto). do 2 f_equal.
  change (qsum (b i * w i :: map (fun i => b i * w i) l))%Qc with (b i * w i + qsum (map (fun i => b i * w i) l))%Qc. ring.
Qed.
Lemma final_missing bs : forall ws a, zlen ws = zlen bs -> (exists b, In b bs /\ missing b) -> exists a', krig_final bs ws a = Ok a' /\ a' = CMV.
Proof.
  induction bs as [|b bs IH]; intros ws a HL (b' & HI & HM); [destruct HI|]. cbn [krig_final]. destruct (cvalid b) eqn:CV; cbn [negb]; [|eauto].
  destruct ws as [|w ws]; [rewrite !zlen_cons in HL; pose proof (zlen_nonneg bs); change (zlen (@nil val)) with 0 in HL; lia|]. apply IH; [rewrite !zlen_cons in HL; lia|]. exists b'. split; auto. destruct HI as [<-|]; auto. apply cvalid_missing in HM. congruence.
Qed.
Lemma covary_fun D cov a b c c' : covary D cov a b c -> covary D cov a b c' -> c = c'.
Proof.
  intros (la & lo & el & la' & lo' & el' & (A1 & A2 & A3 & _) & (B1 & B2 & B3 & _) & ->) (la2 & lo2 & el2 & la2' & lo2' & el2' & (C1 & C2 & C3 & _) & (D1 & D2 & D3 & _) & ->).
  rewrite A1 in C1. rewrite A2 in C2. rewrite A3 in C3. rewrite B1 in D1. rewrite B2 in D2. rewrite B3 in D3. injection C1 as <-. injection C2 as <-. injection C3 as <-. injection D1 as <-. injection D2 as <-. injection D3 as <-. reflexivity.
Qed.
Lemma covary_sym D cov a b c : metric_like D -> covary D cov a b c -> covary D cov b a c.
Proof. intros (_ & M & _) (la & lo & el & la' & lo' & el' & A & B & ->). exists la', lo', el', la, lo, el. split; [auto|]. split; [auto|]. rewrite (M la' lo'), apart_sym. reflexivity. Qed.
Section Main.
Context (D : Qc -> Qc -> Qc -> Qc -> Qc) (exq : Qc -> Qc) (pw : val -> val -> val) (inv : list vec -> list vec) (k : kriging) (e r : Qc) (m : option Qc) (locs : list location) (pars : Z -> location -> vec)
  (lats lons elevs : list vec) (d : dims) (fs : list field) (c : Z -> Z -> Qc) (g : Z -> Z -> Z -> Qc) (b : Z -> Z -> Qc).
Notation N := (zlen locs).
Notation cov := (covariance (k_cressman k) exq e r m).
Context (MD : metric_like D) (XQ : exponential exq) (OP : options k e r m) (SH : shaped d fs) (RA : rect (d_y d) (d_x d) lats) (RO : rect (d_y d) (d_x d) lons) (RE : rect (d_y d) (d_x d) elevs)
  (HC : forall i j a b, znth locs i = Ok a -> znth locs j = Ok b -> covary D cov a b (c i j))
  (HG : forall y x l, located_at lats lons elevs y x l -> (unsettled l /\ forall i, g y x i = 0%Qc) \/ forall i a, znth locs i = Ok a -> covary D cov a l (g y x i)).
Lemma covary_ok a l q : covary D cov a l q -> calc_covar (lift4 D) (on_numbers exq) k a l = Ok (Fin q) /\ (0 <= q)%Qc.
Proof.
  intros (la & lo & el & la' & lo' & el' & A & B & ->). split; [apply covar_settled; auto|]. pose proof MD as (M1 & _). pose proof OP as (_ & _ & _ & _ & He). apply covariance_range; auto. apply apart_nonneg.
Qed.
Lemma matrix_made : exists M, krig_matrix (calc_covar (lift4 D) (on_numbers exq) k) locs = Ok M /\ rect N N M /\ forall i j, 0 <= i < N -> 0 <= j < N -> get2 M i j = Ok (Fin (reduced c i j)).
Proof.
  destruct (matrix_ok (calc_covar (lift4 D) (on_numbers exq) k) locs c) as (M & EM & RM & HM).
  - intros i j a l Hij Ha Hl. eapply covary_ok. apply HC; eauto.
  - exists M. split; [auto|]. split; [auto|]. intros i j Hi Hj. rewrite HM by auto. do 2 f_equal. unfold reduced. destruct (Z.eqb_spec i j); auto. f_equal.
    destruct (znth_some locs i Hi) as [a Ha]. destruct (znth_some locs j Hj) as [l Hl]. destruct (Z.le_ge_cases i j); [rewrite Z.min_l, Z.max_r by auto; auto|]. rewrite Z.min_r, Z.max_l by auto.
    eapply covary_fun; [apply HC; eauto|]. apply covary_sym; auto.
Qed.
(** g, or something negative where there is nothing *)
Lemma near_made y x : 0 <= y < d_y d -> 0 <= x < d_x d -> exists l h, located_at lats lons elevs y x l /\ krig_near (calc_covar (lift4 D) (on_numbers exq) k) locs l = Ok (near_list h (zrange 0 N)) /\ forall i, 0 <= i < N -> positive_part h i = g y x i.
Proof.
  intros Hy Hx. destruct (rect_get2 _ _ _ _ _ RA Hy Hx) as [la Ela]. destruct (rect_get2 _ _ _ _ _ RO Hy Hx) as [lo Elo]. destruct (rect_get2 _ _ _ _ _ RE Hy Hx) as [el Eel].
  set (l := {| l_lat := la; l_lon := lo; l_elev := el |}). assert (L : located_at lats lons elevs y x l) by (repeat split; auto).
  destruct (HG y x l L) as [[U Zh]|K].
  - exists l, (fun _ => missing_number). split; [auto|]. split; [|intros i Hi; rewrite Zh; reflexivity]. apply near_ok. intros i a Ha. apply c214_missing. auto.
  - exists l, (g y x). split; [auto|]. split.
    + apply near_ok. intros i a Ha. apply covary_ok. apply K. auto.
    + intros i Hi. destruct (znth_some locs i Hi) as [a Ha]. pose proof (proj2 (covary_ok _ _ _ (K i a Ha))). unfold positive_part. destruct (qltb_spec 0 (g y x i)); auto. apply Qcle_antisym; auto. apply Qcnot_lt_le. auto.
Qed.
Lemma near_empty h l : zlen (near_list h l) = 0 <-> forall i, In i l -> positive_part h i = 0%Qc.
Proof.
  induction l as [|i l IH]; [split; [intros _ ? []|reflexivity]|]. change (near_list h (i :: l)) with ((if qltb 0 (h i) then [(i, Fin (h i))] else []) ++ near_list h l). rewrite zlen_app. pose proof (zlen_nonneg (near_list h l)).
  split.
  - intros Zh j [<-|Hj]; [|apply IH; auto; destruct (qltb 0 (h i)); [change (zlen [(i, Fin (h i))]) with 1 in Zh; lia|change (zlen (@nil (Z * val))) with 0 in Zh; lia]].
    unfold positive_part. destruct (qltb 0 (h i)); auto. change (zlen [(i, Fin (h i))]) with 1 in Zh. lia.
  - intros Zh. rewrite (proj2 IH) by (intros; apply Zh; right; auto). pose proof (Zh i (or_introl eq_refl)) as P. unfold positive_part in P. destruct (qltb_spec 0 (h i)); [rewrite P in q; discriminate|reflexivity].
Qed.
(** the correction before it is applied *)
Lemma correction_made M y x h t bs : inverts inv N c -> rect N N M -> (forall i j, 0 <= i < N -> 0 <= j < N -> get2 M i j = Ok (Fin (reduced c i j))) -> (forall i, 0 <= i < N -> positive_part h i = g y x i) ->
  0 <= t < d_t d -> bs = map (fun i => Fin (b t i)) (zrange 0 N) -> (forall i, 0 <= i < N -> b t i <> missing_number) ->
  exists w, solves N (reduced c) w (g y x) /\ krig_correction inv false M (inv M) bs (near_list h (zrange 0 N)) = Ok (Fin (dot N (b t) w)).
Proof.
  intros IV RM HM HP Ht -> NB. destruct (IV M RM HM) as (RI & p & q & PQ & UN). exists (fun j => dot N (q j) (positive_part h)). split.
  - intros i Hi. rewrite <- HP by auto. rewrite <- (solve_ok N p q (positive_part h) UN i Hi). unfold dot. apply qsum_ext. intros j Hj. apply in_zrange in Hj. destruct (PQ i j Hi Hj) as [P1 _]. rewrite HM in P1 by auto. injection P1 as ->. reflexivity.
  - unfold krig_correction. rewrite zlen_map, zlen_zrange. replace (Z.max 0 (N - 0)) with N by (pose proof (zlen_nonneg locs); lia).
    rewrite (weights_ok (inv M) N q h RI) by (intros; apply PQ; auto). cbn [bind]. change (fz 0) with (Fin 0%Qc). rewrite (final_ok (b t) (fun i => dot N (q i) (positive_part h))) by (intros i Hi; apply in_zrange in Hi; auto).
    do 2 f_equal. unfold dot. ring.
Qed.

Definition krig_amount (op : kop) (x : Qc) : val := match op with KMultiply => Fin (x + 1)%Qc | KDivide => Fin (x - 1)%Qc | _ => Fin x end.
(** what becomes of a value at a place *)
Definition outcome (t y x : Z) (v w : val) : Prop :=
  ((forall i, 0 <= i < N -> g y x i = 0%Qc) -> w = v) /\
  exists ws, solves N (reduced c) ws (g y x) /\ ((exists i, 0 <= i < N /\ g y x i <> 0%Qc) -> dot N (b t) ws <> missing_number -> w = krig_apply (k_op k) v (krig_amount (k_op k) (dot N (b t) ws))).
Context (CR : k_cross k = false) (IV : inverts inv N c)
  (HB : forall t i l, 0 <= t < d_t d -> znth locs i = Ok l -> station_bias (k_op k) (pars t l) (b t i) /\ b t i <> missing_number).
Lemma biases_made t : 0 <= t < d_t d -> map (fun l => krig_bias (k_op k) (pars t l)) locs = map (fun i => Fin (b t i)) (zrange 0 N) /\ forall i, 0 <= i < N -> b t i <> missing_number.
Proof.
  intros Ht. split; [|intros i Hi; destruct (znth_some locs i Hi) as [l Hl]; eapply HB; eauto].
  apply znth_ext.
  - rewrite !zlen_map, zlen_zrange. pose proof (zlen_nonneg locs). lia.
  - intros i R. rewrite zlen_map in R. destruct (znth_some locs i R) as [l Hl]. destruct (HB t i l Ht Hl) as [SB _].
    rewrite !znth_map, Hl. cbn [bind]. rewrite znth_zrange by lia. cbn [bind]. replace (0 + i) with i by lia. f_equal.
    destruct SB as [[-> ->]|(q & rest & -> & Hq & ->)]; [reflexivity|]. unfold krig_bias. rewrite (proj2 (cvalid_true (Fin q))) by (exists q; auto). destruct (k_op k); reflexivity.
Qed.
Lemma valid_found : foldM (fun b c => let '(i, j) := c in la <- get2 lats i j ;; lo <- get2 lons i j ;; el <- get2 elevs i j ;; Ok (b || cvalid la && cvalid lo && cvalid el)%bool) false (pairs2 (d_y d) (d_x d)) = Ok true \/
  (foldM (fun b c => let '(i, j) := c in la <- get2 lats i j ;; lo <- get2 lons i j ;; el <- get2 elevs i j ;; Ok (b || cvalid la && cvalid lo && cvalid el)%bool) false (pairs2 (d_y d) (d_x d)) = Ok false /\
   forall y x l, 0 <= y < d_y d -> 0 <= x < d_x d -> located_at lats lons elevs y x l -> place_valid l = false).
Proof.
  assert (G : forall l a, (forall y x, In (y, x) l -> 0 <= y < d_y d /\ 0 <= x < d_x d) -> exists r, foldM (fun b c => let '(i, j) := c in la <- get2 lats i j ;; lo <- get2 lons i j ;; el <- get2 elevs i j ;; Ok (b || cvalid la && cvalid lo && cvalid el)%bool) a l = Ok r /\
    (r = false -> a = false /\ forall y x p, In (y, x) l -> located_at lats lons elevs y x p -> place_valid p = false)).
  { induction l as [|[y x] l IH]; intros a HI; [exists a; split; [reflexivity|]; intros ->; split; [auto|intros ? ? ? []]|].
    destruct (HI y x (or_introl eq_refl)) as [Hy Hx]. destruct (rect_get2 _ _ _ _ _ RA Hy Hx) as [la Ela]. destruct (rect_get2 _ _ _ _ _ RO Hy Hx) as [lo Elo]. destruct (rect_get2 _ _ _ _ _ RE Hy Hx) as [el Eel].
    cbn [foldM]. rewrite Ela, Elo, Eel. cbn [bind]. destruct (IH (a || cvalid la && cvalid lo && cvalid el)%bool) as (r' & Er & Hr); [intros; apply HI; right; auto|]. exists r'. split; [exact Er|]. intros Hf.
    destruct (Hr Hf) as [A B]. apply Bool.orb_false_iff in A as [A1 A2]. split; [auto|]. intros y' x' p [E|Hin] L; [|eapply B; eauto]. injection E as <- <-. destruct L as (L1 & L2 & L3). rewrite Ela in L1. rewrite Elo in L2. rewrite Eel in L3. injection L1 as ->. injection L2 as ->. injection L3 as ->. exact A2. }
  destruct (G (pairs2 (d_y d) (d_x d)) false) as ([|] & Er & Hr); [intros y x H; apply in_points in H; auto|left; auto|right]. split; [auto|]. intros y x l Hy Hx L. eapply (proj2 (Hr eq_refl)); eauto. apply in_points. auto.
Qed.
Lemma settled_valid l la lo el : settled l la lo el -> place_valid l = true.
Proof. intros (A & B & C & (E0 & E1 & E2) & F). unfold place_valid. rewrite A, B, C, !(proj2 (cvalid_true (Fin _))) by eauto. reflexivity. Qed.
Lemma table_ok {A} (F : Z -> Z -> res A) (P : Z -> Z -> A -> Prop) ny nx : (forall i j, 0 <= i < ny -> 0 <= j < nx -> exists v, F i j = Ok v /\ P i j v) ->
  exists tb, mapM (fun i => mapM (fun j => F i j) (zrange 0 nx)) (zrange 0 ny) = Ok tb /\ forall i j, 0 <= i < ny -> 0 <= j < nx -> exists v, get2 tb i j = Ok v /\ P i j v.
Proof.
  intros H. destruct (mapM_total (fun i => mapM (fun j => F i j) (zrange 0 nx)) (fun i row => forall j, 0 <= j < nx -> exists v, znth row j = Ok v /\ P i j v) (zrange 0 ny)) as (tb & E & _ & K).
  - intros i Hi. apply in_zrange in Hi. destruct (mapM_total (fun j => F i j) (P i) (zrange 0 nx)) as (row & Er & _ & Kr); [intros j Hj; apply in_zrange in Hj; auto|].
    exists row. split; [auto|]. intros j Hj. destruct (Kr j j) as (v & Hv & _ & HP); [apply znth_zrange; lia|]. eauto.
  - exists tb. split; [auto|]. intros i j Hi Hj. destruct (K i i) as (row & Hr & _ & HP); [apply znth_zrange; lia|]. destruct (HP j Hj) as (v & Hv & Pv). exists v. split; auto. unfold get2. rewrite Hr. exact Hv.
Qed.
Lemma point_made M y x h t f : rect N N M -> (forall i j, 0 <= i < N -> 0 <= j < N -> get2 M i j = Ok (Fin (reduced c i j))) -> (forall i, 0 <= i < N -> positive_part h i = g y x i) ->
  0 <= t < d_t d -> of_size d f -> 0 <= y < d_y d -> 0 <= x < d_x d -> zlen (near_list h (zrange 0 N)) <> 0 ->
  exists f', (finalBias <- krig_correction inv (k_cross k) M (inv M) (map (fun l => krig_bias (k_op k) (pars t l)) locs) (near_list h (zrange 0 N)) ;; krig_point pw (k_op k) None (d_e d) finalBias f y x) = Ok f' /\ of_size d f' /\
    (forall e v, 0 <= e < d_e d -> f_get f y x e = Ok v -> exists w, f_get f' y x e = Ok w /\ outcome t y x v w) /\
    (forall y' x' e, within d y' x' e -> (y', x') <> (y, x) -> f_get f' y' x' e = f_get f y' x' e).
Proof.
  intros RM HM HP Ht Sf Hy Hx NZ. destruct (biases_made t Ht) as [EB NB]. rewrite EB, CR. pose proof SH as (_ & _ & _ & He & _).
  destruct (correction_made M y x h t _ IV RM HM HP Ht eq_refl NB) as (ws & SO & ->). cbn [bind]. unfold krig_point.
  assert (NG : (forall i, 0 <= i < N -> g y x i = 0%Qc) -> False).
  { intros Z0g. apply NZ, near_empty. intros i Hi. apply in_zrange in Hi. rewrite HP by auto. auto. }
  destruct (cvalid (Fin (dot N (b t) ws))) eqn:CV.
  - destruct (members_ok d pw (k_op k) None (fun _ => krig_amount (k_op k) (dot N (b t) ws)) f y x Sf Hy Hx He) as (f' & last & EF & Sf' & K1 & K2); [reflexivity|].
    exists f'. split; [|split; [auto|split; [|auto]]].
    + replace (match k_op k with KMultiply => vadd (Fin (dot N (b t) ws)) (fz 1) | KDivide => vsub (Fin (dot N (b t) ws)) (fz 1) | _ => Fin (dot N (b t) ws) end) with (krig_amount (k_op k) (dot N (b t) ws)) by (unfold krig_amount; destruct (k_op k); reflexivity).
      rewrite EF. reflexivity.
    + intros e0 v Ee Hv. exists (krig_apply (k_op k) v (krig_amount (k_op k) (dot N (b t) ws))). split; [apply K1; auto|]. split; [tauto|]. exists ws. auto.
  - exists f. split; [auto|]. split; [auto|]. split; [|auto]. intros e0 v Ee Hv. exists v. split; [auto|]. split; [tauto|]. exists ws. split; [auto|]. intros _ HQ. exfalso. rewrite (proj2 (cvalid_true (Fin _))) in CV by eauto. discriminate.
Qed.
Lemma nothing_made M y x : rect N N M -> (forall i j, 0 <= i < N -> 0 <= j < N -> get2 M i j = Ok (Fin (reduced c i j))) -> (forall i, 0 <= i < N -> g y x i = 0%Qc) -> forall t v, outcome t y x v v.
Proof.
  intros RM HM Z0g t v. split; [auto|]. destruct (IV M RM HM) as (RI & p & q & PQ & UN). exists (fun j => dot N (q j) (g y x)). split; [|intros (i & Hi & K); destruct K; auto].
  intros i Hi. rewrite <- (solve_ok N p q (g y x) UN i Hi). unfold dot. apply qsum_ext. intros j Hj. apply in_zrange in Hj. destruct (PQ i j Hi Hj) as [P1 _]. rewrite HM in P1 by auto. injection P1 as ->. reflexivity.
Qed.
Lemma settled_unsettled l la lo el : settled l la lo el -> unsettled l -> False.
Proof. intros (A & B & C & (E0 & E1 & E2) & F) [U|[U|U]]; rewrite ?A, ?B, ?C in U; cbn in U; contradiction. Qed.
Lemma covariance_here cr e0 r0 m0 : (0 < e0 -> 0 < r0 -> (forall h, m0 = Some h -> 0 < h) -> covariance cr exq e0 r0 m0 0 0 = 1)%Qc.
Proof.
  intros He Hr Hm. unfold covariance. destruct (qltb_spec 0 r0); [|contradiction]. cbn [andb]. replace (qleb 0 e0) with true by (destruct (qleb_spec 0 e0); auto; exfalso; qlra). rewrite orb_true_r, andb_true_r, falloff_zero by auto.
  destruct m0 as [h|]; [|apply Qcmult_1_r]. specialize (Hm h eq_refl). destruct (qltb_spec 0 h); [|contradiction]. rewrite falloff_zero by auto. apply Qcmult_1_r.
Qed.
Lemma core : exists out, kriging_calibrator (lift4 D) (on_numbers exq) pw inv k None true locs pars lats lons elevs d fs = Ok out /\ shaped d out /\
  forall t y x e v, 0 <= t < d_t d -> within d y x e -> element fs t y x e v -> exists w, element out t y x e w /\ outcome t y x v w.
Proof.
  destruct matrix_made as (M & EM & RM & HM). unfold kriging_calibrator. destruct valid_found as [->|[-> NV]]; cbn [bind negb].
  - rewrite EM. cbn [bind].
    destruct (table_ok (fun i j => la <- get2 lats i j ;; lo <- get2 lons i j ;; el <- get2 elevs i j ;; krig_near (calc_covar (lift4 D) (on_numbers exq) k) locs {| l_lat := la; l_lon := lo; l_elev := el |})
      (fun i j s => exists h, s = near_list h (zrange 0 N) /\ forall n, 0 <= n < N -> positive_part h n = g i j n) (d_y d) (d_x d)) as (tb & -> & HT).
    { intros i j Hi Hj. destruct (near_made i j Hi Hj) as ([la lo el] & h & (L1 & L2 & L3) & EN & HP). cbn in L1, L2, L3. rewrite L1, L2, L3. cbn [bind]. eauto. }
    cbn [bind].
    match goal with |- exists out, each_time d ?body = _ /\ _ => destruct (each_time_ok d fs body (fun t g' => forall f, znth fs t = Ok f -> forall y x e v, within d y x e -> f_get f y x e = Ok v -> exists w, f_get g' y x e = Ok w /\ outcome t y x v w) SH) as (out & EO & SO & KO) end.
    + intros t Ht. destruct (shaped_nth d fs t SH Ht) as (f & Ef & Sf). rewrite Ef. cbn [bind].
      destruct (points_all d (fun y x _ v w => outcome t y x v w) (fun f i j => S <- get2 tb i j ;; if zlen S =? 0 then Ok f else
         finalBias <- krig_correction inv (k_cross k) M (if N =? 0 then [] else inv M) (map (fun l => krig_bias (k_op k) (pars t l)) locs) S ;; krig_point pw (k_op k) None (d_e d) finalBias f i j) f) as (f' & EF & Sf' & K); auto.
      * intros f1 y x S1 Hy Hx. destruct (HT y x Hy Hx) as (s & -> & h & -> & HP). cbn [bind]. destruct (Z.eqb_spec (zlen (near_list h (zrange 0 N))) 0) as [EZ|NZ].
        -- exists f1. split; [auto|]. split; [auto|]. split; [|auto]. intros e0 v _ Hv. exists v. split; [auto|]. apply (nothing_made M); auto. intros i Hi. rewrite <- HP by auto. pose proof (proj1 (near_empty h _) EZ) as K. apply K. apply in_zrange. auto.
        -- destruct (Z.eqb_spec N 0) as [N0|_]; [destruct NZ; rewrite N0; reflexivity|]. apply point_made; auto.
      * exists f'. split; [exact EF|]. split; [auto|]. intros f0 Hf0. injection Hf0 as <-. intros y x e0 v W Hv. eapply K; eauto.
    + exists out. split; [exact EO|]. split; [auto|]. intros t y x e0 v Ht W (f & Ef & Hv). destruct (KO t Ht) as (g' & Hg' & K). destruct (K f Ef y x e0 v W Hv) as (w & Hw & O). exists w. split; [exists g'; auto|auto].
  - exists fs. split; [auto|]. split; [auto|]. intros t y x e0 v Ht (Hy & Hx & We) HE. exists v. split; [auto|]. apply (nothing_made M); auto.
    intros i Hi. destruct (near_made y x Hy Hx) as (l & h & L & _). pose proof (NV y x l Hy Hx L) as PV. destruct (HG y x l L) as [[_ K]|K]; [auto|]. destruct (znth_some locs i Hi) as [a Ha]. destruct (K i a Ha) as (la & lo & el & la' & lo' & el' & _ & ST & _). apply settled_valid in ST. congruence.
Qed.
End Main.

Section Case.
Context (D : Qc -> Qc -> Qc -> Qc -> Qc) (exq : Qc -> Qc) (pw : val -> val -> val) (inv : list vec -> list vec) (k : kriging) (locs : list location) (pars : Z -> location -> vec)
  (lats lons elevs : list vec) (d : dims) (fs : list field) (c : Z -> Z -> Qc) (g : Z -> Z -> Z -> Qc) (b : Z -> Z -> Qc).
Notation run := (kriging_calibrator (lift4 D) (on_numbers exq) pw inv k None true locs pars lats lons elevs d fs).
Notation case := (kriging_case D exq inv k locs pars lats lons elevs d fs c g b).
Lemma case_core : case -> exists out, run = Ok out /\ shaped d out /\
  forall t y x e v, 0 <= t < d_t d -> within d y x e -> element fs t y x e v -> exists w, element out t y x e w /\ outcome k locs c g b t y x v w.
Proof. intros (A1 & A2 & A3 & A4 & A5 & A6 & A7 & (e & r & m & O & HC & HG) & A8 & A9). eapply core; eauto. Qed.
Lemma apply_corrected op q x : op <> KDivide -> krig_apply op (Fin q) (krig_amount op x) = Fin (corrected op q x).
Proof. destruct op; intros H; cbn [krig_apply krig_amount corrected]; [reflexivity|apply vsub_F| |congruence]. rewrite vmul_F. f_equal. ring. Qed.
Lemma c215_case : case -> k_op k <> KDivide -> exists out, run = Ok out /\ shaped d out /\
  forall t y x e q, 0 <= t < d_t d -> within d y x e -> element fs t y x e (Fin q) -> exists w, element out t y x e w /\ kriged (k_op k) (zlen locs) c (g y x) (b t) q w.
Proof.
  intros HC HO. destruct (case_core HC) as (out & E & S & K). exists out. split; [auto|]. split; [auto|]. intros t y x e q Ht W HE. destruct (K t y x e (Fin q) Ht W HE) as (w & Hw & O1 & ws & SO & O2).
  exists w. split; [auto|]. split; [auto|]. exists ws. split; [auto|]. intros G M. rewrite (O2 G M). apply apply_corrected. auto.
Qed.
Lemma unchanged v : krig_apply (k_op k) v (krig_amount (k_op k) 0) = v \/ k_op k = KDivide.
Proof. destruct (k_op k); auto; left; (destruct v as [| | |q]; [reflexivity..|cbn; f_equal; ring]). Qed.
Lemma zero_or n (h : Z -> Qc) : (forall i, 0 <= i < n -> h i = 0%Qc) \/ exists i, 0 <= i < n /\ h i <> 0%Qc.
Proof.
  assert (G : forall l : list Z, (forall i, In i l -> h i = 0%Qc) \/ exists i, In i l /\ h i <> 0%Qc).
  { induction l as [|i l [IH|(j & Hj & Nj)]]; [left; intros ? []| |right; exists j; split; [right|]; auto].
    destruct (Qc_eq_dec (h i) 0%Qc) as [Z0|NZ]; [left; intros j [<-|Hj]; auto|right; exists i; split; [left|]; auto]. }
  destruct (G (zrange 0 n)) as [A|(i & Hi & Ni)]; [left; intros i Hi; apply A, in_zrange; auto|right]. apply in_zrange in Hi. eauto.
Qed.
Lemma c216_case : case -> k_op k <> KDivide -> (forall t i, 0 <= t < d_t d -> 0 <= i < zlen locs -> b t i = 0%Qc) -> exists out, run = Ok out /\ shaped d out /\
  forall t y x e v, 0 <= t < d_t d -> within d y x e -> element fs t y x e v -> element out t y x e v.
Proof.
  intros HC HO HZ. destruct (case_core HC) as (out & E & S & K). exists out. split; [auto|]. split; [auto|]. intros t y x e v Ht W HE. destruct (K t y x e v Ht W HE) as (w & Hw & O1 & ws & SO & O2).
  assert (Z0 : dot (zlen locs) (b t) ws = 0%Qc). { unfold dot. apply qsum_zero. intros i Hi. apply in_zrange in Hi. rewrite HZ by auto. ring. }
  destruct (zero_or (zlen locs) (g y x)) as [G|G]; [rewrite <- (O1 G); auto|]. rewrite Z0 in O2. rewrite O2 in Hw; [|auto|discriminate]. destruct (unchanged v) as [U|U]; [rewrite U in Hw; auto|contradiction].
Qed.
(** stations that do not influence each other *)
Lemma c217_case : case -> k_op k <> KDivide -> (forall i j, 0 <= i < zlen locs -> 0 <= j < zlen locs -> i <> j -> c i j = 0%Qc) -> exists out, run = Ok out /\ shaped d out /\
  forall t y x e q, 0 <= t < d_t d -> within d y x e -> element fs t y x e (Fin q) ->
    (dot (zlen locs) (b t) (g y x) <> missing_number -> element out t y x e (Fin (corrected (k_op k) q (dot (zlen locs) (b t) (g y x))))) /\
    (forall i l, znth locs i = Ok l -> located_at lats lons elevs y x l -> (exists e r m, options k e r m /\ 0 < r /\ forall h, m = Some h -> 0 < h)%Qc -> element out t y x e (Fin (corrected (k_op k) q (b t i)))).
Proof.
  intros HC HO HZ. destruct (case_core HC) as (out & E & S & K). exists out. split; [auto|]. split; [auto|]. intros t y x e q Ht W HE. destruct (K t y x e (Fin q) Ht W HE) as (w & Hw & O1 & ws & SO & O2).
  assert (EW : forall i, 0 <= i < zlen locs -> ws i = g y x i).
  { intros i Hi. rewrite <- (SO i Hi). rewrite <- (dot_unit (zlen locs) i ws Hi). unfold dot. apply qsum_ext. intros j Hj. apply in_zrange in Hj. f_equal. unfold reduced. destruct (Z.eqb_spec i j); auto. rewrite HZ by auto. ring. }
  assert (ED : dot (zlen locs) (b t) ws = dot (zlen locs) (b t) (g y x)). { unfold dot. apply qsum_ext. intros j Hj. apply in_zrange in Hj. rewrite EW by auto. reflexivity. }
  assert (P1 : dot (zlen locs) (b t) (g y x) <> missing_number -> element out t y x e (Fin (corrected (k_op k) q (dot (zlen locs) (b t) (g y x))))).
  { intros NM. destruct (zero_or (zlen locs) (g y x)) as [G|G].
    - rewrite (O1 G) in Hw. replace (dot (zlen locs) (b t) (g y x)) with 0%Qc; [|symmetry; unfold dot; apply qsum_zero; intros i Hi; apply in_zrange in Hi; rewrite G by auto; ring].
      replace (corrected (k_op k) q 0) with q; [auto|]. destruct (k_op k); cbn; try ring. congruence.
    - rewrite ED in O2. rewrite (O2 G NM), apply_corrected in Hw by auto. auto. }
  split; [auto|]. intros i l Hl L (e0 & r & m & OP & Hr & Hm). destruct HC as (MD & XQ & SH & RA & RO & RE & CR & (e1 & r1 & m1 & OP1 & HC & HG) & IV & HB).
  assert (Hi : 0 <= i < zlen locs) by (eapply znth_range; eauto).
  assert (EO : e1 = e0 /\ r1 = r /\ m1 = m).
  { destruct OP as (A1 & A2 & A3 & A4 & _), OP1 as (B1 & B2 & B3 & B4 & _). rewrite A1 in B1. rewrite A2 in B2. rewrite A3 in B3. injection B1 as ->. injection B2 as ->. do 2 (split; [auto|]).
    destruct m, m1; auto; injection B3 as B3; [congruence|exfalso; eapply A4; eauto|exfalso; eapply B4; eauto]. }
  destruct EO as (-> & -> & ->).
  assert (ST : exists la lo el, settled l la lo el) by (destruct (HC i i l l Hl Hl) as (la & lo & el & _ & _ & _ & ST & _); eauto).
  destruct ST as (la & lo & el & ST). destruct (HG y x l L) as [[U _]|GV]; [exfalso; eapply settled_unsettled; eauto|].
  assert (EG : forall j, 0 <= j < zlen locs -> g y x j = if i =? j then 1%Qc else 0%Qc).
  { intros j Hj. destruct (znth_some locs j Hj) as [l' Hl']. destruct (Z.eqb_spec i j) as [<-|NE].
    - rewrite Hl in Hl'. injection Hl' as <-. eapply covary_fun; [apply GV; eauto|]. exists la, lo, el, la, lo, el. do 2 (split; [auto|]). pose proof MD as (_ & _ & ZI). rewrite ZI, apart_self. symmetry. apply covariance_here; auto. apply OP.
    - rewrite <- (HZ j i) by auto. eapply covary_fun; [apply GV; eauto|]. apply HC; auto. }
  assert (DB : dot (zlen locs) (b t) (g y x) = b t i).
  { rewrite <- (dot_unit (zlen locs) i (b t) Hi). unfold dot. apply qsum_ext. intros j Hj. apply in_zrange in Hj. rewrite EG by auto. ring. }
  rewrite <- DB. apply P1. rewrite DB. eapply HB; eauto.
Qed.
End Case.
Lemma c215 D exq pw inv k locs pars lats lons elevs d fs c g b : kriging_case D exq inv k locs pars lats lons elevs d fs c g b -> k_op k <> KDivide -> exists out, kriging_calibrator (lift4 D) (on_numbers exq) pw inv k None true locs pars lats lons elevs d fs = Ok out /\ shaped d out /\
  forall t y x e q, 0 <= t < d_t d -> within d y x e -> element fs t y x e (Fin q) -> exists w, element out t y x e w /\ kriged (k_op k) (zlen locs) c (g y x) (b t) q w.
Proof. apply c215_case. Qed.
Lemma c216 D exq pw inv k locs pars lats lons elevs d fs c g b : kriging_case D exq inv k locs pars lats lons elevs d fs c g b -> k_op k <> KDivide -> (forall t i, 0 <= t < d_t d -> 0 <= i < zlen locs -> b t i = 0%Qc) -> exists out, kriging_calibrator (lift4 D) (on_numbers exq) pw inv k None true locs pars lats lons elevs d fs = Ok out /\ shaped d out /\
  forall t y x e v, 0 <= t < d_t d -> within d y x e -> element fs t y x e v -> element out t y x e v.
Proof. apply c216_case. Qed.
Lemma c217 D exq pw inv k locs pars lats lons elevs d fs c g b : kriging_case D exq inv k locs pars lats lons elevs d fs c g b -> k_op k <> KDivide -> (forall i j, 0 <= i < zlen locs -> 0 <= j < zlen locs -> i <> j -> c i j = 0%Qc) -> exists out, kriging_calibrator (lift4 D) (on_numbers exq) pw inv k None true locs pars lats lons elevs d fs = Ok out /\ shaped d out /\
  forall t y x e q, 0 <= t < d_t d -> within d y x e -> element fs t y x e (Fin q) ->
    (dot (zlen locs) (b t) (g y x) <> missing_number -> element out t y x e (Fin (corrected (k_op k) q (dot (zlen locs) (b t) (g y x))))) /\
    (forall i l, znth locs i = Ok l -> located_at lats lons elevs y x l -> (exists e r m, options k e r m /\ 0 < r /\ forall h, m = Some h -> 0 < h)%Qc -> element out t y x e (Fin (corrected (k_op k) q (b t i)))).
Proof. apply c217_case. Qed.
