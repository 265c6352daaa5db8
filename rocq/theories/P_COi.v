(** Proofs about the client's optimal interpolation: correlations and the choice of stations. *)
From Coq Require Import Lia.
From Verif Require P_Even.
From Verif Require Import Base ListLib QcTac M_Stat S_Stat P_Stat M_COpt M_CUtil S_CUtil P_CUtil M_CCal S_CCal P_CCal M_CTree S_CTree P_CTree P_Bilin P_CDown M_CKrig S_CKrig P_CKrig M_COi S_COi.
Local Open Scope Z_scope.

(** ** Correlations *)
Lemma apart_sq a b : (apart a b * apart a b = (a - b) * (a - b))%Qc.
Proof. unfold apart. destruct (qltb (a - b) 0); ring. Qed.
Lemma in_use_cvalid v s : in_use v s -> cvalid v = match s with Some _ => true | None => false end.
Proof. destruct s as [q|]; cbn; [intros [-> n]; apply cvalid_Fin; auto|intros M; apply cvalid_missing; auto]. Qed.
Lemma bell_value exq m v : (0 < m)%Qc -> on_numbers exq (vmul (vmul (fq (-1 # 2)) (vdiv (Fin v) (Fin m))) (vdiv (Fin v) (Fin m))) = Fin (falloff false exq m v).
Proof.
  intros Hm. assert (NZ : m <> 0%Qc) by (intros ->; discriminate). rewrite vdiv_F by auto. change (fq (-1 # 2)) with (Fin (Q2Qc (-1 # 2))). rewrite !vmul_F. cbn [on_numbers]. unfold falloff. do 2 f_equal.
  assert (T : (qz 2 <> 0)%Qc) by discriminate. replace (Q2Qc (-1 # 2)) with (- (1 / qz 2))%Qc by (apply Qc_is_canon; reflexivity). field. split; auto.
Qed.
Lemma bell_value' exq m v : (0 < m)%Qc -> on_numbers exq (vdiv (vmul (vmul (fq (-1 # 2)) (Fin v)) (Fin v)) (vmul (Fin m) (Fin m))) = Fin (falloff false exq m v).
Proof.
  intros Hm. assert (NZ : m <> 0%Qc) by (intros ->; discriminate). change (fq (-1 # 2)) with (Fin (Q2Qc (-1 # 2))). rewrite !vmul_F. rewrite vdiv_F by (intros H; apply Qcmult_integral in H; tauto). cbn [on_numbers]. unfold falloff. do 2 f_equal.
  assert (T : (qz 2 <> 0)%Qc) by discriminate. replace (Q2Qc (-1 # 2)) with (- (1 / qz 2))%Qc by (apply Qc_is_canon; reflexivity). field. split; auto.
Qed.
Lemma falloff_sq exq m v v' : (v * v = v' * v')%Qc -> falloff false exq m v = falloff false exq m v'.
Proof. intros H. unfold falloff. rewrite H. reflexivity. Qed.
Lemma rho_value exq o s h v l v' l' : scaled o s -> (s_h s <> None -> v <> missing_number) -> (v * v = v' * v')%Qc -> vabs (Fin l) = Fin l' ->
  calc_rho (on_numbers exq) o (Fin h) (Fin v) (Fin l) = Fin (correlation (oi_soar o) exq s h v' l').
Proof.
  intros (S1 & S2 & S3 & S4 & S5 & S6 & S7 & S8) HV HS HL. unfold calc_rho, correlation. rewrite S1, (in_use_cvalid _ _ S3), (in_use_cvalid _ _ S4), (in_use_cvalid _ _ S5).
  assert (HL2 : (l * l = l' * l')%Qc). { cbn in HL. injection HL as <-. destruct (qltb l 0); ring. }
  rewrite HL. clear HL.
  set (first := if oi_soar o then _ else _).
  assert (F : first = Fin (if oi_soar o then (1 + h / s_d s) * exq (- (h / s_d s)) else falloff false exq (s_d s) h)%Qc).
  { unfold first. destruct (oi_soar o); [|apply bell_value; auto]. rewrite vdiv_F by (intros e; rewrite e in S2; discriminate). change (fz 1) with (Fin 1%Qc). rewrite vadd_F, vneg_F. cbn [on_numbers]. rewrite vmul_F. reflexivity. }
  rewrite F. clear F first. generalize (if oi_soar o then (1 + h / s_d s) * exq (- (h / s_d s)) else falloff false exq (s_d s) h)%Qc. intros r0.
  assert (E1 : (if match s_h s with Some _ => true | None => false end then if cvalid (Fin v) then vmul (Fin r0) (on_numbers exq (vmul (vmul (fq (-1 # 2)) (vdiv (Fin v) (oi_h o))) (vdiv (Fin v) (oi_h o)))) else fz 0 else Fin r0) = Fin (r0 * factor (s_h s) (fun m => falloff false exq m v'))%Qc).
  { destruct (s_h s) as [m|]; cbn [factor]; [|f_equal; ring]. destruct S3 as [-> n]. rewrite cvalid_Fin by (apply HV; discriminate). rewrite bell_value by auto. rewrite vmul_F, (falloff_sq exq m v v') by auto. reflexivity. }
  cbv zeta. rewrite E1. clear E1. generalize (r0 * factor (s_h s) (fun m => falloff false exq m v'))%Qc. clear r0. intros r1.
  assert (E2 : (if match s_wmin s with Some _ => true | None => false end then vmul (Fin r1) (vsub (fz 1) (vmul (vsub (fz 1) (oi_wmin o)) (Fin l'))) else Fin r1) = Fin (r1 * factor (s_wmin s) (fun m => 1 - (1 - m) * l'))%Qc).
  { destruct (s_wmin s) as [m|]; cbn [factor]; [|f_equal; ring]. destruct S4 as [-> n]. change (fz 1) with (Fin 1%Qc). rewrite !vsub_F, vmul_F, vsub_F, vmul_F. reflexivity. }
  rewrite E2. clear E2. generalize (r1 * factor (s_wmin s) (fun m => 1 - (1 - m) * l'))%Qc. clear r1. intros r2.
  destruct (s_w s) as [m|]; cbn [factor]; [|f_equal; ring]. destruct S5 as [-> n]. rewrite bell_value' by auto. rewrite vmul_F, (falloff_sq exq m l l') by auto. reflexivity.
Qed.
Lemma factor_range s f : (forall q, s = Some q -> 0 <= f q /\ f q <= 1)%Qc -> (0 <= factor s f /\ factor s f <= 1)%Qc.
Proof. intros H. destruct s; cbn; [auto|split; [discriminate|apply Qcle_refl]]. Qed.
Lemma mul_range a b : (0 <= a /\ a <= 1 -> 0 <= b /\ b <= 1 -> 0 <= a * b /\ a * b <= 1)%Qc.
Proof. intros [] []. split; qnra. Qed.
Lemma mul_mono a b a' b' : (0 <= a' -> a' <= a -> 0 <= b' -> b' <= b -> a' * b' <= a * b)%Qc.
Proof. intros. qnra. Qed.
Section Corr.
Context (soar : bool) (exq : Qc -> Qc) (s : scales).
Context (X : exponential exq) (SL : soar = true -> soar_like exq) (Sd : (0 < s_d s)%Qc) (Sh : forall q, s_h s = Some q -> (0 < q)%Qc) (Sm : forall q, s_wmin s = Some q -> (0 <= q <= 1)%Qc) (Sw : forall q, s_w s = Some q -> (0 < q)%Qc).
Definition horizontal (h : Qc) : Qc := (if soar then (1 + h / s_d s) * exq (- (h / s_d s)) else falloff false exq (s_d s) h)%Qc.
Lemma ratio_nonneg h : (0 <= h -> 0 <= h / s_d s)%Qc.
Proof. intros. apply qle_div_iff; rewrite ?Qcmult_0_l; auto. Qed.
Lemma horizontal_mono h h' : (0 <= h -> h <= h' -> horizontal h' <= horizontal h)%Qc.
Proof.
  intros Hh L. unfold horizontal. destruct soar; [|apply falloff_mono; auto]. apply SL; auto; [apply ratio_nonneg; auto|]. apply qdiv_le_iff; auto. unfold Qcdiv. rewrite <- Qcmult_assoc, (Qcmult_comm (/ _)), Qcmult_inv_r, Qcmult_1_r; auto. intros e. rewrite e in Sd. discriminate.
Qed.
Lemma horizontal_zero : horizontal 0 = 1%Qc.
Proof.
  unfold horizontal. destruct soar; [|apply falloff_zero; auto]. replace (0 / s_d s)%Qc with 0%Qc by (unfold Qcdiv; ring). replace (- 0)%Qc with 0%Qc by ring. destruct X as (-> & _). ring.
Qed.
Lemma horizontal_range h : (0 <= h -> 0 <= horizontal h /\ horizontal h <= 1)%Qc.
Proof.
  intros Hh. split; [|rewrite <- horizontal_zero; apply horizontal_mono; auto; apply Qcle_refl]. unfold horizontal. destruct soar; [|apply falloff_range; auto; discriminate].
  pose proof (ratio_nonneg h Hh). destruct X as (_ & P & _). specialize (P (- (h / s_d s))%Qc). set (r := (h / s_d s)%Qc) in *. set (y := exq (- r)) in *. clearbody r y. qnra.
Qed.
Lemma vertical_range v : (0 <= v -> 0 <= factor (s_h s) (fun m => falloff false exq m v) /\ factor (s_h s) (fun m => falloff false exq m v) <= 1)%Qc.
Proof. intros Hv. apply factor_range. intros q E. apply falloff_range; auto. discriminate. Qed.
Lemma land_range l : (0 <= l -> 0 <= factor (s_w s) (fun m => falloff false exq m l) /\ factor (s_w s) (fun m => falloff false exq m l) <= 1)%Qc.
Proof. intros Hv. apply factor_range. intros q E. apply falloff_range; auto. discriminate. Qed.
Lemma least_range l : (0 <= l -> l <= 1 -> 0 <= factor (s_wmin s) (fun m => 1 - (1 - m) * l) /\ factor (s_wmin s) (fun m => 1 - (1 - m) * l) <= 1)%Qc.
Proof. intros H1 H2. apply factor_range. intros q E. destruct (Sm q E). split; qnra. Qed.
Lemma correlation_range h v l : (0 <= h -> 0 <= v -> 0 <= l -> l <= 1 -> 0 <= correlation soar exq s h v l /\ correlation soar exq s h v l <= 1)%Qc.
Proof. intros. unfold correlation. fold (horizontal h). repeat apply mul_range; [apply horizontal_range|apply vertical_range|apply least_range|apply land_range]; auto. Qed.
Lemma correlation_mono h v l h' v' l' : (0 <= h -> 0 <= v -> 0 <= l -> h <= h' -> v <= v' -> l <= l' -> l' <= 1 -> correlation soar exq s h' v' l' <= correlation soar exq s h v l)%Qc.
Proof.
  intros. assert (0 <= h')%Qc by qlra. assert (0 <= v')%Qc by qlra. assert (0 <= l')%Qc by qlra. unfold correlation. fold (horizontal h) (horizontal h').
  apply mul_mono; [apply mul_range; [apply mul_range|]; auto using horizontal_range, vertical_range, least_range| |apply land_range; auto|].
  - apply mul_mono; [apply mul_range; auto using horizontal_range, vertical_range| |apply least_range; auto|].
    + apply mul_mono; [apply horizontal_range; auto|apply horizontal_mono; auto|apply vertical_range; auto|]. destruct (s_h s) eqn:E; cbn [factor]; [apply falloff_mono; auto|apply Qcle_refl].
    + destruct (s_wmin s) eqn:E; cbn [factor]; [|apply Qcle_refl]. destruct (Sm q eq_refl). qnra.
  - destruct (s_w s) eqn:E; cbn [factor]; [apply falloff_mono; auto|apply Qcle_refl].
Qed.
Lemma correlation_zero : correlation soar exq s 0 0 0 = 1%Qc.
Proof.
  unfold correlation. fold (horizontal 0). rewrite horizontal_zero. destruct (s_h s) eqn:E1, (s_w s) eqn:E2, (s_wmin s); cbn [factor]; rewrite ?falloff_zero by auto; ring.
Qed.
End Corr.
Lemma abs_apart a b : vabs (Fin (a - b)) = Fin (apart a b).
Proof. reflexivity. Qed.
Lemma land_valid p : (0 <= p_land p <= 1)%Qc -> cvalid (Fin (p_land p)) = true.
Proof. intros [H _]. apply cvalid_Fin. intros e. rewrite e in H. apply H. reflexivity. Qed.
Lemma rho_ok D exq o s st a la lo el laf b : metric_like D -> scaled o s -> station_at st a -> placed la lo el laf b -> comparable s a b -> oi_rho (lift4 D) (on_numbers exq) o st la lo el laf = Ok (Fin (related D o exq s a b)).
Proof.
  intros (_ & _ & MZ) S (A1 & A2 & A3 & A4 & A5 & A6 & A7) (B1 & B2 & B3 & B4 & B5 & B6 & B7) C. unfold oi_rho. rewrite A1, A2, A3, A4, B1, B2, B3, B4, distance_value by auto. cbn [bind]. unfold laf_difference, elev_difference. rewrite !land_valid by auto. cbn [andb]. rewrite !vsub_F.
  f_equal. unfold related. apply rho_value; auto. rewrite apart_sq. reflexivity.
Qed.
Lemma rho2_ok D exq o s st st' a a' laf b : metric_like D -> scaled o s -> station_at st a -> station_at st' a' -> laf = Fin (p_land b) -> (0 <= p_land b <= 1)%Qc -> comparable s a a' -> oi_rho2 (lift4 D) (on_numbers exq) o st st' laf = Ok (Fin (related D o exq s a a')).
Proof.
  intros (_ & _ & MZ) S (A1 & A2 & A3 & A4 & A5 & A6 & A7) (B1 & B2 & B3 & B4 & B5 & B6 & B7) -> L C. unfold oi_rho2. rewrite A1, A2, A3, A4, B1, B2, B3, B4, distance_value by auto. cbn [bind]. unfold laf_difference, elev_difference. rewrite !land_valid by auto. cbn [andb]. rewrite !vsub_F.
  f_equal. unfold related. apply rho_value; auto. rewrite apart_sq. reflexivity.
Qed.
Lemma apart_land a b : (0 <= p_land a <= 1 -> 0 <= p_land b <= 1 -> apart (p_land a) (p_land b) <= 1)%Qc.
Proof. intros [] []. unfold apart. destruct (qltb_spec (p_land a - p_land b) 0); qlra. Qed.
Lemma c222 D exq o s st a la lo el laf b : metric_like D -> exponential exq -> (oi_soar o = true -> soar_like exq) -> scaled o s -> station_at st a -> placed la lo el laf b -> comparable s a b ->
  exists c, oi_rho (lift4 D) (on_numbers exq) o st la lo el laf = Ok (Fin c) /\ c = related D o exq s a b /\ (0 <= c <= 1)%Qc /\
    (along D a b = 0%Qc -> p_el a = p_el b -> p_land a = p_land b -> c = 1%Qc) /\
    (forall st' la' lo' el' laf', station_at st' b -> placed la' lo' el' laf' a -> comparable s b a -> oi_rho (lift4 D) (on_numbers exq) o st' la' lo' el' laf' = Ok (Fin c)) /\
    (forall la' lo' el' laf' b', placed la' lo' el' laf' b' -> comparable s a b' -> (along D a b <= along D a b')%Qc -> (apart (p_el a) (p_el b) <= apart (p_el a) (p_el b'))%Qc -> (apart (p_land a) (p_land b) <= apart (p_land a) (p_land b'))%Qc ->
      exists c', oi_rho (lift4 D) (on_numbers exq) o st la' lo' el' laf' = Ok (Fin c') /\ (c' <= c)%Qc).
Proof.
  intros M X SL S A B C. exists (related D o exq s a b). split; [apply rho_ok; auto|]. split; [reflexivity|]. pose proof M as (M1 & M2 & M3). pose proof S as (_ & S2 & _ & _ & _ & S6 & S7 & S8).
  pose proof A as (_ & _ & _ & _ & _ & _ & A7). pose proof B as (_ & _ & _ & _ & _ & _ & B7).
  split; [apply correlation_range; auto; [apply M1|apply apart_nonneg|apply apart_nonneg|apply apart_land; auto]|]. split; [|split].
  - intros E1 E2 E3. unfold related. rewrite E1, E2, E3, !apart_self. apply correlation_zero; auto.
  - intros st' la' lo' el' laf' B' A' C'. rewrite (rho_ok D exq o s st' b la' lo' el' laf' a) by auto. unfold related, along. rewrite (M2 (p_la b)), (apart_sym (p_el b)), (apart_sym (p_land b)). reflexivity.
  - intros la' lo' el' laf' b' B' C' L1 L2 L3. pose proof B' as (_ & _ & _ & _ & _ & _ & B7'). exists (related D o exq s a b'). split; [apply rho_ok; auto|]. apply correlation_mono; auto; [apply M1|apply apart_nonneg|apply apart_nonneg|apply apart_land; auto].
Qed.

(** ** The stations of a point *)
Lemma accepts_ok o regular d elevs s : rect (d_y d) (d_x d) elevs -> 0 <= st_y s < d_y d -> 0 <= st_x s < d_x d -> (forall e, get2 elevs (st_y s) (st_x s) = Ok e -> exists q, e = Fin q) ->
  exists b, oi_accepts o regular (d_y d) (d_x d) elevs s = Ok b /\ (b = true <-> acceptable o elevs s /\ (regular = true -> 0 < st_x s < d_x d - 1 /\ 0 < st_y s < d_y d - 1)).
Proof.
  intros R Hy Hx HE. unfold oi_accepts. destruct (rect_get2 _ _ _ _ _ R Hy Hx) as [e Ee]. destruct (HE e Ee) as [el ->]. rewrite Ee. cbn [bind]. eexists. split; [reflexivity|].
  unfold acceptable, oi_inside. rewrite Ee. rewrite !andb_true_iff, !orb_true_iff, !negb_true_iff, !andb_true_iff, !andb_false_iff, !cvalid_missing. split.
  - intros (((H1 & H2) & H3) & H4). split.
    + split; [intros M; apply cvalid_missing in M; congruence|]. split.
      * intros L E. rewrite L, E in H4. destruct H4 as [[H4|H4]|H4]; [|discriminate|discriminate]. revert H4. change (missing (Fin (qz 0)) -> False). discriminate.
      * intros m Em Nm. destruct H3 as [H3|[H3 H3']]; [rewrite Em in H3; contradiction|]. apply cvalid_true in H3 as (q & Eq & Nq). exists q, el. rewrite Eq, Em, vsub_F, abs_apart in *. cbn [vltb] in H3'. destruct (qltb_spec (apart q el) m); [auto|discriminate].
    + intros ->. destruct H1 as [H1|H1]; [discriminate|]. lia.
  - intros ((A1 & A2 & A3) & I). do 3 try split.
    + destruct regular; [right; destruct (I eq_refl); lia|auto].
    + destruct (cvalid (st_obs s)) eqn:C; auto. apply cvalid_missing in C. contradiction.
    + destruct (cvalid (oi_maxelev o)) eqn:C; [|left; apply cvalid_missing; auto]. right. apply cvalid_true in C as (m & Em & Nm). destruct (A3 m Em Nm) as (q & q' & Eq & Nq & Eq' & L). injection Eq' as <-. rewrite Eq, Em, cvalid_Fin, vsub_F, abs_apart by auto. split; auto. cbn [vltb]. destruct (qltb_spec (apart q el) m); [auto|contradiction].
    + destruct (oi_land o); [|auto]. specialize (A2 eq_refl). right. destruct (st_laf s) as [| | |q]; auto. cbn. destruct (qeqb_spec q (qz 0)) as [->|]; [|auto]. exfalso. apply A2. reflexivity.
Qed.
Lemma reaches_ok D rf o s (kind : option Z) d st a la lo el laf b y x : metric_like D -> scaled o s -> station_at st a -> placed la lo el laf b -> 0 <= y < d_y d -> 0 <= x < d_x d ->
  exists v, oi_reaches (lift4 D) (Fin rf) o (match kind with Some _ => true | None => false end) (match kind with Some r => r | None => 0 end) (d_y d) (d_x d) st la lo y x = Ok v /\
    ((kind <> None -> 0 < st_x st < d_x d - 1 /\ 0 < st_y st < d_y d - 1) -> v = true <-> reach kind (rf * s_d s) d (along D a b) st y x).
Proof.
  intros (_ & _ & MZ) (S1 & _) (A1 & A2 & A3 & A4 & A5 & A6 & A7) (B1 & B2 & B3 & B4 & B5 & B6 & B7) Hy Hx. unfold oi_reaches, reach. destruct kind as [r|].
  - eexists. split; [reflexivity|]. intros H. specialize (H ltac:(discriminate)). rewrite !andb_true_iff. lia.
  - rewrite A1, A2, B1, B2, distance_value by auto. cbn [bind]. rewrite S1, vmul_F. cbn [vltb]. eexists. split; [reflexivity|]. intros _. unfold along. destruct (qltb_spec (D (p_la a) (p_lo a) (p_la b) (p_lo b)) (rf * s_d s)); split; auto; discriminate.
Qed.
Section Near.
Context (D : Qc -> Qc -> Qc -> Qc -> Qc) (exq : Qc -> Qc) (o : oi_options) (s : scales) (minrho rf : Qc) (kind : option Z) (d : dims) (elevs : list vec) (ss : list station) (a : Z -> place) (b : place) (la lo el laf : val) (y x : Z).
Context (M : metric_like D) (S : scaled o s) (MR : oi_minrho o = Fin minrho) (RE : rect (d_y d) (d_x d) elevs) (NE : forall i j e, get2 elevs i j = Ok e -> exists q, e = Fin q)
  (HS : forall i st, znth ss i = Ok st -> station_at st (a i) /\ 0 <= st_y st < d_y d /\ 0 <= st_x st < d_x d /\ comparable s (a i) b) (HB : placed la lo el laf b) (Hy : 0 <= y < d_y d) (Hx : 0 <= x < d_x d).
Notation regular := (match kind with Some _ => true | None => false end).
Notation radius := (match kind with Some r => r | None => 0 end).
Lemma near_one i st : znth ss i = Ok st -> exists q : bool, (forall l, (
    ok <- oi_accepts o regular (d_y d) (d_x d) elevs st ;;
    reach <- (if ok : bool then oi_reaches (lift4 D) (Fin rf) o regular radius (d_y d) (d_x d) st la lo y x else Ok false) ;;
    if reach : bool then
      rho <- oi_rho (lift4 D) (on_numbers exq) o st la lo el laf ;;
      Ok (if (negb regular || oi_inside (d_y d) (d_x d) st) && vltb (oi_minrho o) rho then l ++ [(rho, i)] else l)
    else Ok l) = Ok (l ++ if q then [(Fin (related D o exq s (a i) b), i)] else [])) /\
  (q = true <-> acceptable o elevs st /\ reach kind (rf * s_d s) d (along D (a i) b) st y x /\ (minrho < related D o exq s (a i) b)%Qc).
Proof.
  intros E. destruct (HS i st E) as (SA & Sy & Sx & SC). destruct (accepts_ok o regular d elevs st RE Sy Sx) as (ok & EO & HO); [intros e; apply NE|].
  destruct (reaches_ok D rf o s kind d st (a i) la lo el laf b y x M S SA HB Hy Hx) as (v & EV & HV).
  rewrite EO. cbn [bind]. rewrite (rho_ok D exq o s st (a i) la lo el laf b) by auto. rewrite MR.
  assert (RI : reach kind (rf * s_d s) d (along D (a i) b) st y x -> regular = true -> 0 < st_x st < d_x d - 1 /\ 0 < st_y st < d_y d - 1). { destruct kind; [|discriminate]. cbn. tauto. }
  destruct ok.
  - destruct HO as [HO _]. destruct (HO eq_refl) as [AC IN]. rewrite EV. cbn [bind]. assert (HV' : v = true <-> reach kind (rf * s_d s) d (along D (a i) b) st y x). { apply HV. intros K. apply IN. destruct kind; [reflexivity|contradiction]. }
    destruct v.
    + cbn [bind]. replace (negb regular || oi_inside (d_y d) (d_x d) st)%bool with true. 2:{ symmetry. destruct kind; cbn [negb orb]; [|reflexivity]. unfold oi_inside. destruct (IN eq_refl). rewrite !andb_true_iff. lia. }
      cbn [andb vltb]. exists (qltb minrho (related D o exq s (a i) b)). split; [intros l; destruct (qltb _ _); [reflexivity|rewrite app_nil_r; reflexivity]|].
      destruct (qltb_spec minrho (related D o exq s (a i) b)) as [L|L]; split; auto; [intros _; split; [auto|]; split; [apply HV'; auto|auto]|discriminate|intros (_ & _ & L'); contradiction].
    + exists false. split; [intros l; rewrite app_nil_r; reflexivity|]. split; [discriminate|]. intros (_ & R & _). apply HV' in R. discriminate.
  - exists false. split; [intros l; cbn [bind]; rewrite app_nil_r; reflexivity|]. split; [discriminate|]. intros (A & R & _). apply HO. split; auto.
Qed.
Lemma near_found : exists l, oi_near (lift4 D) (on_numbers exq) (Fin rf) o regular radius (d_y d) (d_x d) elevs ss la lo el laf y x = Ok l /\ candidates D exq o s minrho rf kind d elevs ss a b y x l.
Proof.
  unfold oi_near.
  match goal with |- exists l, foldM ?step _ _ = _ /\ _ => destruct (foldM_range step (fun n l => NoDup (map snd l) /\ forall v i, In (v, i) l <-> i < n /\ exists st, znth ss i = Ok st /\ acceptable o elevs st /\ reach kind (rf * s_d s) d (along D (a i) b) st y x /\ v = Fin (related D o exq s (a i) b) /\ (minrho < related D o exq s (a i) b)%Qc) 0 (zlen ss) []) as (l & El & ND & HL); [apply zlen_nonneg| | |] end.
  - split; [constructor|]. intros v i. split; [intros []|]. intros (L & st & E & _). apply znth_range in E. lia.
  - intros i l Hi (ND & HL). destruct (znth_some ss i Hi) as [st Est]. rewrite Est. cbn [bind]. destruct (near_one i st Est) as (q & EQ & HQ). rewrite EQ. eexists. split; [reflexivity|]. split.
    + rewrite map_app. destruct q; cbn [map]; [|rewrite app_nil_r; auto]. apply P_Even.NoDup_app_intro; [auto|cbn [snd]; repeat constructor; intros []|]. intros j Hj [<-|[]]. cbn [snd] in Hj. apply in_map_iff in Hj as ([v j] & Ej & Hj). cbn in Ej. subst j. apply HL in Hj as [L _]. lia.
    + intros v j. rewrite in_app_iff, HL. split.
      * intros [[L H]|H]; [split; [lia|auto]|]. destruct q; [|destruct H]. destruct H as [[= <- <-]|[]]. split; [lia|]. exists st. destruct HQ as [HQ _]. destruct (HQ eq_refl) as (H1 & H2 & H3). auto.
      * intros [L (st' & H)]. destruct (Z.eq_dec j i) as [->|N]; [|left; split; [lia|eauto]]. right. destruct H as (E & H1 & H2 & H3 & H4). rewrite Est in E. injection E as <-. destruct HQ as [_ HQ]. rewrite HQ by auto. left. rewrite H3. reflexivity.
  - exists l. split; [exact El|]. split; [auto|]. intros v i. rewrite HL. split; [intros [_ H]; auto|]. intros (st & E & H). split; [apply znth_range in E; lia|eauto].
Qed.
End Near.

(** ** The best of them *)
Lemma sorted_split {A} (R : A -> A -> Prop) u v : StronglySorted R (u ++ v) -> forall p q, In p u -> In q v -> R p q.
Proof.
  induction u as [|c u IH]; intros S p q Hp Hq; [destruct Hp|]. cbn in S. inversion S as [|? ? S' F]; subst. destruct Hp as [<-|Hp]; [|apply IH; auto]. rewrite Forall_forall in F. apply F. apply in_or_app. auto.
Qed.
Definition numbers (l : list (val * Z)) : Prop := forall p i, In (p, i) l -> exists q, p = Fin q.
Lemma chosen_all most (l : list (val * Z)) : NoDup (map snd l) -> zlen l <= most -> best most l (map snd l).
Proof.
  intros ND L. split; [auto|]. split; [auto|]. split; [rewrite zlen_map; lia|]. intros p q p' i i' H1 H2 H3 H4. exfalso. apply H4. apply in_map_iff. exists (p', i'). auto.
Qed.
Lemma c224 sortp o l : sorts_pairs sortp -> numbers l -> NoDup (map snd l) -> 0 <= oi_max o -> oi_cross o = false -> best (oi_max o) l (oi_chosen sortp o l).
Proof.
  intros SP NL ND HM HC. unfold oi_chosen. rewrite HC. replace (0 <=? oi_max o) with true by lia. cbn [andb]. destruct (Z.ltb_spec (oi_max o) (zlen l)) as [L|L]; [|apply chosen_all; auto].
  destruct (SP l) as [P S]. { apply Forall_forall. intros [p i] H. cbn. destruct (NL p i H) as [q ->]. discriminate. }
  set (k := (length (sortp l) - Z.to_nat (oi_max o))%nat). rewrite firstn_rev. fold k.
  assert (LE : length (sortp l) = length l) by (apply Permutation_length; auto). assert (KL : (Z.to_nat (oi_max o) + k = length l)%nat) by (unfold k, zlen in *; lia).
  pose proof (firstn_skipn k (sortp l)) as FS.
  assert (PM : Permutation (map snd (firstn k (sortp l)) ++ map snd (skipn k (sortp l))) (map snd l)). { rewrite <- map_app, FS. apply Permutation_map. auto. }
  assert (ND2 : NoDup (map snd (firstn k (sortp l)) ++ map snd (skipn k (sortp l)))) by (eapply Permutation_NoDup; [symmetry; exact PM|auto]).
  split; [|split; [|split]].
  - rewrite map_rev. apply NoDup_rev. apply (NoDup_app_left _ (map snd (firstn k (sortp l)))). eapply Permutation_NoDup; [apply Permutation_app_comm|exact ND2].
  - intros i Hi. rewrite map_rev, <- in_rev in Hi. eapply Permutation_in; [exact PM|]. apply in_or_app. auto.
  - rewrite zlen_map. unfold zlen in *. rewrite rev_length, skipn_length. lia.
  - intros p q p' i i' H1 H2 H3 H4 ->. rewrite map_rev, <- in_rev in H3, H4.
    assert (U : forall v v' j, In (v, j) l -> In (v', j) l -> v = v'). { clear - ND. induction l as [|[w k] l IH]; intros v v' j A B; [destruct A|]. inversion ND as [|? ? N1 N2]; subst. destruct A as [[= <- <-]|A], B as [[= ?]|B]; subst; auto; [exfalso|exfalso|eapply IH; eauto]; apply N1; apply in_map_iff; [exists (v', k)|exists (v, j)]; auto. }
    destruct (NL p' i' H2) as [q' ->]. exists q'. split; [reflexivity|].
    apply in_map_iff in H3 as ([w j] & Ej & Hj). cbn in Ej. subst j. assert (In (w, i) l) by (eapply Permutation_in; [exact P|]; rewrite <- FS; apply in_or_app; auto). rewrite (U w (Fin q) i) in Hj by auto.
    assert (H5 : In (Fin q', i') (firstn k (sortp l))). { assert (K : In (Fin q', i') (sortp l)) by (eapply Permutation_in; [symmetry; exact P|auto]). rewrite <- FS in K. apply in_app_or in K as [K|K]; auto. exfalso. apply H4. apply in_map_iff. exists (Fin q', i'). auto. }
    rewrite <- FS in S. pose proof (sorted_split _ _ _ S _ _ H5 Hj) as R. cbn in R. destruct (qltb_spec q q'); [discriminate|]. apply Qcnot_lt_le. auto.
Qed.
(** cross validation *)
Definition greatest_step (st : val * option nat * nat) (p : val * Z) : val * option nat * nat := let '(maxRho, best, i) := st in if vltb maxRho (fst p) then (fst p, Some i, S i) else (maxRho, best, S i).
Lemma greatest_spec l : numbers l -> l <> [] -> (forall p i, In (p, i) l -> forall q, p = Fin q -> (0 < q)%Qc) ->
  exists q k, snd (fst (fold_left greatest_step l (fz 0, None, O))) = Some k /\ (exists i, nth_error l k = Some (Fin q, i)) /\ forall p i, In (p, i) l -> exists q', p = Fin q' /\ (q' <= q)%Qc.
Proof.
  intros NL N0 HP.
  assert (K : forall l2 l1, l = l1 ++ l2 -> forall q (b : option nat), (match b with None => l1 = [] /\ q = 0%Qc | Some k => (exists i, nth_error l k = Some (Fin q, i)) /\ forall p i, In (p, i) l1 -> exists q', p = Fin q' /\ (q' <= q)%Qc end) ->
    exists q' b', fst (fold_left greatest_step l2 (Fin q, b, length l1)) = (Fin q', b') /\ match b' with None => l = [] | Some k => (exists i, nth_error l k = Some (Fin q', i)) /\ forall p i, In (p, i) l -> exists q0, p = Fin q0 /\ (q0 <= q')%Qc end).
  { induction l2 as [|[p i] l2 IH]; intros l1 El q b HB.
    - rewrite app_nil_r in El. subst l1. exists q, b. split; [reflexivity|]. destruct b; [auto|]. tauto.
    - cbn [fold_left greatest_step fst]. destruct (NL p i) as [r ->]; [rewrite El; apply in_or_app; right; left; auto|].
      assert (Pr : (0 < r)%Qc) by (eapply (HP (Fin r) i); [rewrite El; apply in_or_app; right; left; auto|auto]).
      assert (E1 : l = (l1 ++ [(Fin r, i)]) ++ l2) by (rewrite <- app_assoc; auto). assert (LE : S (length l1) = length (l1 ++ [(Fin r, i)])) by (rewrite app_length; cbn; lia).
      cbn [vltb]. destruct (qltb_spec q r) as [L|L]; rewrite LE; apply (IH _ E1).
      + split.
        * exists i. rewrite El, nth_error_app2, Nat.sub_diag by lia. reflexivity.
        * intros p j Hj. apply in_app_or in Hj as [Hj|[[= <- <-]|[]]]; [|exists r; split; [auto|apply Qcle_refl]]. destruct b as [k|]; [destruct HB as [_ HB]; destruct (HB p j Hj) as (q0 & -> & ?); exists q0; split; [auto|qlra]|]. destruct HB as [-> _]. destruct Hj.
      + destruct b as [k|].
        * destruct HB as [H1 H2]. split; [auto|]. intros p j Hj. apply in_app_or in Hj as [Hj|[[= <- <-]|[]]]; [apply (H2 p j Hj)|]. exists r. split; [auto|apply Qcnot_lt_le; auto].
        * destruct HB as [-> ->]. contradiction. }
  destruct (K l [] eq_refl 0%Qc None) as (q & b & E & HB); [auto|]. cbn [length] in E. change (fz 0) with (Fin 0%Qc). rewrite E. cbn [snd]. destruct b as [k|]; [|contradiction]. exists q, k. destruct HB. auto.
Qed.
Lemma split_nth {A} (l : list A) k p : nth_error l k = Some p -> l = firstn k l ++ p :: skipn (S k) l.
Proof. revert k. induction l as [|c l IH]; intros [|k] H; try discriminate; cbn in *; [injection H as ->; auto|]. f_equal. apply IH. auto. Qed.
Lemma without_greatest l : numbers l -> l <> [] -> (forall p i, In (p, i) l -> forall q, p = Fin q -> (0 < q)%Qc) -> all_but_greatest l (oi_without l).
Proof.
  intros NL N0 HP. destruct (greatest_spec l NL N0 HP) as (q & k & E & (i & Ei) & G). unfold oi_without, oi_greatest. change (fun (st : val * option nat * nat) (p : val * Z) => let '(maxRho, best, i) := st in if vltb maxRho (fst p) then (fst p, Some i, S i) else (maxRho, best, S i)) with greatest_step. rewrite E.
  exists i, (firstn k l), (skipn (S k) l), q. split; [apply split_nth; auto|]. split; [reflexivity|auto].
Qed.
Lemma c224_cross sortp o l : sorts_pairs sortp -> numbers l -> NoDup (map snd l) -> 0 <= oi_max o -> oi_cross o = true -> l <> [] -> (forall q i, In (Fin q, i) l -> (0 < q)%Qc) ->
  exists l', all_but_greatest l l' /\ best (oi_max o) l' (oi_chosen sortp o l).
Proof.
  intros SP NL ND HM HC N0 HP. exists (oi_without l). assert (W : all_but_greatest l (oi_without l)) by (apply without_greatest; auto; intros p i H q ->; eauto). split; [auto|].
  set (o' := {| oi_d := oi_d o; oi_h := oi_h o; oi_w := oi_w o; oi_wmin := oi_wmin o; oi_minrho := oi_minrho o; oi_epsilon := oi_epsilon o; oi_gradient := oi_gradient o; oi_maxelev := oi_maxelev o; oi_maxbytes := oi_maxbytes o; oi_soar := oi_soar o; oi_land := oi_land o; oi_cross := false; oi_useens := oi_useens o; oi_savediff := oi_savediff o; oi_max := oi_max o; oi_minens := oi_minens o |}).
  replace (oi_chosen sortp o l) with (oi_chosen sortp o' (oi_without l)) by (unfold oi_chosen; rewrite HC; reflexivity). destruct W as (k & l1 & l2 & q & E1 & E2 & _). rewrite E2.
  apply (c224 sortp o' (l1 ++ l2)); auto.
  - intros p i H. apply (NL p i). rewrite E1. apply in_app_or in H. apply in_or_app. destruct H; [auto|right; right; auto].
  - rewrite E1, map_app in ND. cbn [map] in ND. apply NoDup_remove_1 in ND. rewrite map_app. auto.
Qed.
