(** Proofs about the client's optimal interpolation: the analysis. *)
From Coq Require Import Lia.
From Verif Require P_Even P_CNeigh.
From Verif Require Import Base ListLib QcTac M_Stat S_Stat P_Stat M_COpt M_CUtil S_CUtil P_CUtil M_CCal S_CCal P_CCal M_CTree S_CTree P_CTree P_Bilin P_CDown M_CKrig S_CKrig P_CKrig M_COi S_COi P_COi.
Local Open Scope Z_scope.

(** ** The background at a station *)
Lemma qz_S n : (qz (n + 1) = qz n + 1)%Qc.
Proof. rewrite qz_add. reflexivity. Qed.
Lemma background_ok d o elevs f st gr (a : Z -> place) (b : Z -> Z -> place) i : of_size d f -> rect (d_y d) (d_x d) elevs -> 0 <= d_e d -> 0 <= st_y st < d_y d -> 0 <= st_x st < d_x d ->
  (oi_gradient o = Fin gr /\ gr <> missing_number) \/ (missing (oi_gradient o) /\ gr = 0%Qc) -> station_at st (a i) -> (get2 elevs (st_y st) (st_x st) = Ok (Fin (p_el (b (st_y st) (st_x st)))) /\ p_el (b (st_y st) (st_x st)) <> missing_number) ->
  (forall e q, f_get f (st_y st) (st_x st) e = Ok (Fin q) -> q <> missing_number -> (missing_number < q + lapse gr a b i st)%Qc) ->
  exists ys mean, oi_background o elevs (d_e d) f st = Ok (ys, mean) /\ zlen ys = d_e d /\
    forall e q, 0 <= e < d_e d -> f_get f (st_y st) (st_x st) e = Ok (Fin q) -> q <> missing_number -> exists ye, znth ys e = Ok ye /\ vadd ye mean = Fin (q + lapse gr a b i st)%Qc.
Proof.
  intros SF RE He Hy Hx HG (A1 & A2 & A3 & A4 & A5 & A6 & A7) [EE NE] HB. unfold oi_background. set (c := lapse gr a b i st) in *.
  match goal with |- exists ys mean, bind ?e _ = _ /\ _ => assert (EC : e = Ok (Fin c)) end.
  { destruct HG as [[-> n]|[M ->]].
    - rewrite cvalid_Fin by auto. cbn [andb]. change (veqb (Fin gr) (fz 0)) with (qeqb gr 0). destruct (qeqb_spec gr 0) as [->|NZ]; cbn [negb].
      + unfold c, lapse. change (fz 0) with (Fin 0%Qc). do 2 f_equal. ring.
      + rewrite EE. cbn [bind]. rewrite A3, !cvalid_Fin by auto. cbn [andb]. rewrite vsub_F, vmul_F. reflexivity.
    - apply cvalid_missing in M. rewrite M. cbn [andb]. unfold c, lapse. change (fz 0) with (Fin 0%Qc). do 2 f_equal. ring. }
  rewrite EC. cbn [bind]. clear EC.
  match goal with |- exists ys mean, bind (foldM ?step ?s0 _) _ = _ /\ _ => destruct (foldM_range step (fun e (s : vec * val * Z) => zlen (fst (fst s)) = e /\ 0 <= snd s /\ (exists T, snd (fst s) = Fin T /\ (snd s = 0 -> T = 0%Qc) /\ ((0 < snd s)%Z -> (qz (snd s) * missing_number < T)%Qc)) /\
     (forall e' v, 0 <= e' < e -> f_get f (st_y st) (st_x st) e' = Ok v -> (cvalid v = true -> 0 < snd s) /\ znth (fst (fst s)) e' = Ok (if cvalid v then vadd v (Fin c) else fz 0))) 0 (d_e d) s0) as ([[ys total] n] & EF & L & Hn & (T & ET & T0 & TP) & HV); [lia| | |] end.
  - cbn [fst snd]. split; [reflexivity|]. split; [lia|]. split; [exists 0%Qc; split; [reflexivity|]; split; [reflexivity|lia]|intros; lia].
  - intros e [[ys total] n] Ee (L & Hn & (T & ET & T0 & TP) & HV). cbn [fst snd] in *. subst total. destruct (of_size_get d f (st_y st) (st_x st) e SF) as [v Ev]; [unfold within; auto|]. rewrite Ev. cbn [bind]. eexists. split; [reflexivity|].
    destruct (cvalid v) eqn:CV; cbn [fst snd].
    + apply cvalid_true in CV as (q & -> & nq). pose proof (HB e q Ev nq) as HB'. rewrite vadd_F, vadd_F. split; [rewrite zlen_app, L; reflexivity|]. split; [lia|]. split.
      * eexists. split; [reflexivity|]. split; [lia|]. intros _. rewrite qz_S. destruct (Z.eq_dec n 0) as [->|N0].
        -- rewrite (T0 eq_refl). change (qz 0) with 0%Qc. clear - HB'. replace ((0 + 1) * missing_number)%Qc with missing_number by ring. replace (0 + (q + c))%Qc with (q + c)%Qc by ring. auto.
        -- specialize (TP ltac:(lia)). replace ((qz n + 1) * missing_number)%Qc with (qz n * missing_number + missing_number)%Qc by ring. clear - TP HB'. set (u := (qz n * missing_number)%Qc) in *. set (w := (q + c)%Qc) in *. clearbody u w. generalize dependent missing_number. intros. qlra.
      * intros e' v Ee' Ev'. split; [lia|]. destruct (Z.eq_dec e' e) as [->|N].
        -- rewrite Ev in Ev'. injection Ev' as <-. rewrite cvalid_Fin by auto. rewrite znth_app_r by lia. rewrite L, Z.sub_diag. rewrite vadd_F. reflexivity.
        -- destruct (HV e' v) as [_ HV']; [lia|auto|]. rewrite znth_app_l by lia. auto.
    + split; [rewrite zlen_app, L; reflexivity|]. split; [auto|]. split; [exists T; auto|]. intros e' v' Ee' Ev'. destruct (Z.eq_dec e' e) as [->|N].
      * rewrite Ev in Ev'. injection Ev' as <-. rewrite CV. split; [discriminate|]. rewrite znth_app_r by lia. rewrite L, Z.sub_diag. reflexivity.
      * destruct (HV e' v') as [HV1 HV2]; [lia|auto|]. split; [auto|]. rewrite znth_app_l by lia. auto.
  - rewrite EF. cbn [bind fst snd] in *. subst total. eexists _, _. split; [reflexivity|]. split; [rewrite zlen_map; auto|]. intros e q Ee Eq nq. destruct (HV e (Fin q) Ee Eq) as [P1 P2]. rewrite cvalid_Fin in P1, P2 by auto. specialize (P1 eq_refl). replace (0 <? n) with true by lia.
    specialize (TP P1). assert (Pn : (0 < qz n)%Qc) by (change 0%Qc with (qz 0); apply qz_lt; auto). change (fz n) with (Fin (qz n)). rewrite vdiv_F by (intros e0; rewrite e0 in Pn; discriminate).
    assert (NM : (T / qz n)%Qc <> missing_number). { intros e0. assert (H : (T = missing_number * qz n)%Qc). { rewrite <- e0. unfold Qcdiv. rewrite <- Qcmult_assoc, (Qcmult_comm (/ _)), Qcmult_inv_r; [ring|]. intros e1. rewrite e1 in Pn. discriminate. } rewrite H, (Qcmult_comm missing_number) in TP. apply Qclt_not_le in TP. apply TP. apply Qcle_refl. }
    exists (vsub (Fin (q + c)) (Fin (T / qz n))). split.
    + rewrite znth_map, P2. rewrite vadd_F. rewrite !cvalid_Fin; [reflexivity|auto|]. pose proof (HB e q Eq nq) as H. intros e0. rewrite e0 in H. apply Qclt_not_le in H. apply H. apply Qcle_refl.
    + rewrite vsub_F, vadd_F. f_equal. ring.
Qed.
(** ** The members without missing values *)
Lemma members_found d f : of_size d f -> 0 <= d_e d -> exists ms, oi_members d f = Ok ms /\ NoDup ms /\ forall e, In e ms <-> 0 <= e < d_e d /\ forall y x v, 0 <= y < d_y d -> 0 <= x < d_x d -> f_get f y x e = Ok v -> cvalid v = true.
Proof.
  intros SF He. unfold oi_members.
  assert (K : forall e, 0 <= e < d_e d -> forall l m, 0 <= m -> (forall y x, In (y, x) l -> 0 <= y < d_y d /\ 0 <= x < d_x d) -> exists n, foldM (fun n c => let '(y, x) := c in v <- f_get f y x e ;; Ok (if cvalid v then n else n + 1)) m l = Ok n /\ m <= n /\ (n = m <-> forall y x v, In (y, x) l -> f_get f y x e = Ok v -> cvalid v = true)).
  { intros e Ee. induction l as [|[y x] l IH]; intros m Hm HL; [exists m; split; [reflexivity|]; split; [lia|]; split; [intros _ ? ? ? []|auto]|]. destruct (HL y x (or_introl eq_refl)) as [Hy Hx]. destruct (of_size_get d f y x e SF) as [v Ev]; [unfold within; auto|]. cbn [foldM]. rewrite Ev. cbn [bind].
    destruct (IH (if cvalid v then m else m + 1)) as (n & En & Ln & Hn); [destruct (cvalid v); lia|intros; apply HL; right; auto|]. exists n. split; [auto|]. split; [destruct (cvalid v); lia|]. destruct (cvalid v) eqn:CV.
    - rewrite Hn. split; [|intros H y' x' v' Hin; apply H; right; auto]. intros H y' x' v' [[= <- <-]|Hin] Ev'; [congruence|eauto].
    - split; [lia|]. intros H. specialize (H y x v (or_introl eq_refl) Ev). congruence. }
  match goal with |- exists ms, foldM ?step _ _ = _ /\ _ => destruct (foldM_range step (fun n ms => NoDup ms /\ forall e, In e ms <-> 0 <= e < n /\ forall y x v, 0 <= y < d_y d -> 0 <= x < d_x d -> f_get f y x e = Ok v -> cvalid v = true) 0 (d_e d) []) as (ms & EM & ND & HM); [lia| | |] end.
  - split; [constructor|]. intros e. split; [intros []|lia].
  - intros e ms Ee (ND & HM). destruct (K e Ee (pairs2 (d_y d) (d_x d)) 0 ltac:(lia)) as (n & En & _ & Hn); [intros y x H; apply in_points in H; auto|]. rewrite En. cbn [bind]. eexists. split; [reflexivity|].
    assert (Hn' : n = 0 <-> forall y x v, 0 <= y < d_y d -> 0 <= x < d_x d -> f_get f y x e = Ok v -> cvalid v = true). { rewrite Hn. split; intros H y x v; [intros Hy Hx; apply H; apply in_points; auto|intros Hin; apply in_points in Hin as [Hy Hx]; apply H; auto]. }
    destruct (Z.eqb_spec n 0) as [Z0|Z0].
    + split; [apply P_Even.NoDup_app_intro; [auto|repeat constructor; intros []|]; intros j Hj [<-|[]]; apply HM in Hj; lia|]. intros j. rewrite in_app_iff, HM. split.
      * intros [[L H]|[<-|[]]]; [split; [lia|auto]|]. split; [lia|]. apply Hn'. auto.
      * intros [L H]. destruct (Z.eq_dec j e) as [->|]; [right; left; auto|left; split; [lia|auto]].
    + split; [auto|]. intros j. rewrite HM. split; [intros [L H]; split; [lia|auto]|]. intros [L H]. split; [|auto]. destruct (Z.eq_dec j e) as [->|]; [|lia]. exfalso. apply Z0, Hn'. auto.
  - exists ms. auto.
Qed.
(** ** Sums over stations *)
Lemma position (us : list Z) : NoDup us -> exists pos, map pos us = zrange 0 (zlen us) /\ forall i, In i us -> 0 <= pos i < zlen us /\ znth us (pos i) = Ok i.
Proof.
  intros ND.
  assert (K : forall us, NoDup us -> forall L : list Z, length L = length us -> exists w : Z -> Z, map w us = L).
  { clear. induction us as [|i us IH]; intros ND L HL; destruct L as [|c L]; try discriminate; [exists (fun _ => 0); auto|]. inversion ND as [|? ? N1 N2]; subst. destruct (IH N2 L) as [w Hw]; [cbn in HL; lia|]. exists (fun j => if j =? i then c else w j). cbn [map]. rewrite Z.eqb_refl. f_equal. rewrite <- Hw. apply map_ext_in. intros j Hj. destruct (Z.eqb_spec j i) as [->|]; [contradiction|auto]. }
  destruct (K us ND (zrange 0 (zlen us))) as [pos HP]. { pose proof (zlen_zrange 0 (zlen us)) as H. unfold zlen in *. lia. }
  exists pos. split; [auto|]. intros i Hi. destruct (In_znth us i Hi) as (k & Hk). pose proof (znth_range _ _ _ Hk) as R.
  assert (E : znth (map pos us) k = Ok (pos i)) by (rewrite znth_map, Hk; reflexivity). rewrite HP, znth_zrange in E by lia. injection E as E. replace (pos i) with k by lia. auto.
Qed.
Lemma vdot_ok (us : list Z) (f g : Z -> Qc) : vdot (map (fun i => Fin (f i)) us) (map (fun i => Fin (g i)) us) = Ok (Fin (over us (fun i => f i * g i)%Qc)).
Proof.
  unfold vdot. rewrite zlen_map.
  assert (K : forall l pre c, us = pre ++ l -> foldM (fun t i => x <- znth (map (fun i => Fin (f i)) us) i ;; y <- znth (map (fun i => Fin (g i)) us) i ;; Ok (vadd t (vmul x y))) (Fin c) (zrange (zlen pre) (zlen us)) = Ok (Fin (c + over l (fun i => f i * g i))%Qc)).
  { induction l as [|i l IH]; intros pre c E.
    - rewrite app_nil_r in E. subst pre. rewrite zrange_nil by lia. cbn [foldM]. unfold over. cbn [map]. change (qsum (@nil Qc)) with 0%Qc. do 2 f_equal. ring.
    - assert (LL : zlen us = zlen pre + zlen l + 1) by (rewrite E, zlen_app, zlen_cons; lia). pose proof (zlen_nonneg l). pose proof (zlen_nonneg pre). rewrite zrange_cons by lia. cbn [foldM].
      assert (EI : znth us (zlen pre) = Ok i) by (rewrite E, znth_app_r, Z.sub_diag by lia; reflexivity). rewrite !znth_map, EI. cbn [bind]. rewrite vmul_F, vadd_F. replace (zlen pre + 1) with (zlen (pre ++ [i])) by (rewrite zlen_app; reflexivity).
      rewrite IH by (rewrite <- app_assoc; auto). do 2 f_equal. unfold over. cbn [map]. change (qsum (?p :: ?q)) with (p + qsum q)%Qc. ring. }
  change (fz 0) with (Fin 0%Qc). change (zrange 0 (zlen us)) with (zrange (zlen (@nil Z)) (zlen us)). rewrite (K us [] 0%Qc eq_refl). do 2 f_equal. ring.
Qed.
Lemma over_pos us (pos : Z -> Z) F : map pos us = zrange 0 (zlen us) -> over us (fun i => F (pos i)) = qsum (map F (zrange 0 (zlen us))).
Proof. intros H. unfold over. rewrite <- H, map_map. reflexivity. Qed.
Lemma mapM_by_us {A} us (F : Z -> res A) (h : Z -> A) : (forall k i, znth us k = Ok i -> F k = Ok (h i)) -> mapM F (zrange 0 (zlen us)) = Ok (map h us).
Proof.
  intros H. transitivity (mapM (fun k => i <- znth us k ;; Ok (h i)) (zrange 0 (zlen us))).
  - apply mapM_ext. intros k Hk. apply in_zrange in Hk. destruct (znth_some us k Hk) as [i Ei]. rewrite Ei. cbn [bind]. auto.
  - rewrite mapM_zrange_znth. apply mapM_ok. auto.
Qed.
Lemma over_unit us k g : NoDup us -> In k us -> over us (fun i => g i * (if i =? k then 1 else 0))%Qc = g k.
Proof.
  unfold over. induction us as [|i us IH]; intros ND HI; [destruct HI|]. inversion ND as [|? ? N1 N2]; subst. cbn [map]. change (qsum (?p :: ?q)) with (p + qsum q)%Qc. destruct (Z.eqb_spec i k) as [->|NE].
  - rewrite qsum_zero; [ring|]. intros j Hj. destruct (Z.eqb_spec j k) as [->|]; [contradiction|ring].
  - destruct HI as [->|HI]; [contradiction|]. rewrite IH by auto. ring.
Qed.
Section Single.
Context (D : Qc -> Qc -> Qc -> Qc -> Qc) (exq : Qc -> Qc) (inv : list vec -> list vec) (o : oi_options) (s : scales) (eps : Qc) (ss : list station) (back : list (vec * val)) (a : Z -> place) (ci : Z -> Qc) (d : dims) (us : list Z).
Context (M : metric_like D) (SC : scaled o s) (EP : oi_epsilon o = Fin eps) (HS : forall i st, znth ss i = Ok st -> station_at st (a i) /\ st_ci st = Fin (ci i))
  (HC : forall i j, 0 <= i < zlen ss -> 0 <= j < zlen ss -> comparable s (a i) (a j)) (ND : NoDup us) (N0 : us <> []) (RU : forall i, In i us -> 0 <= i < zlen ss) (LB : zlen back = zlen ss).
Notation m := (with_errors D o exq s eps a ci).
Context (IV : inverts_stations inv (zlen ss) m).
Lemma chosen_list {A} (l : list A) : zlen l = zlen ss -> exists r, mapM (znth l) us = Ok r /\ zlen r = zlen us /\ forall k i, znth us k = Ok i -> znth r k = znth l i.
Proof.
  intros HL. destruct (mapM_total (znth l) (fun _ _ => True) us) as (r & E & LR & HR).
  - intros i Hi. destruct (znth_some l i) as [v Hv]; [rewrite HL; auto|]. eauto.
  - exists r. split; [auto|]. split; [auto|]. intros k i Hk. destruct (HR k i Hk) as (v & -> & -> & _). reflexivity.
Qed.
Lemma same_station k l i j : znth us k = Ok i -> znth us l = Ok j -> (k =? l) = (i =? j).
Proof.
  intros Hk Hl. destruct (Z.eqb_spec k l) as [->|NE]; [rewrite Hk in Hl; injection Hl as ->; symmetry; apply Z.eqb_refl|]. symmetry. apply Z.eqb_neq. intros ->. apply NE.
  pose proof (znth_range _ _ _ Hk) as R1. pose proof (znth_range _ _ _ Hl) as R2. unfold znth in Hk, Hl. replace (k <? 0) with false in Hk by lia. replace (l <? 0) with false in Hl by lia.
  destruct (nth_error us (Z.to_nat k)) eqn:E1; [|discriminate]. destruct (nth_error us (Z.to_nat l)) eqn:E2; [|discriminate]. injection Hk as ->. injection Hl as ->.
  assert (Z.to_nat k = Z.to_nat l); [|lia]. apply (proj1 (NoDup_nth_error us) ND); [unfold zlen in R1; lia|congruence].
Qed.
(** the gain at a place *)
Definition gain_of (pos : Z -> Z) (p : Z -> Z -> Qc) (g : Z -> Qc) (j : Z) : Qc := over us (fun i => g i * p (pos i) (pos j))%Qc.
Lemma gain_ok b la lo el laf ls : placed la lo el laf b -> (forall i, 0 <= i < zlen ss -> comparable s (a i) b) -> zlen ls = zlen us -> (forall k i, znth us k = Ok i -> znth ls k = znth ss i) ->
  exists w, gains us m (fun i => related D o exq s (a i) b) w /\
    forall (K : vec -> res field), (G <- mapM (fun st => oi_rho (lift4 D) (on_numbers exq) o st la lo el laf) ls ;;
      A <- mapM (fun i => st <- znth ls i ;; mapM (fun j => s' <- znth ls j ;; p <- oi_rho2 (lift4 D) (on_numbers exq) o st s' laf ;; Ok (vadd p (vmul (vmul (oi_epsilon o) (oi_epsilon o)) (if i =? j then st_ci st else fz 0)))) (zrange 0 (zlen ls))) (zrange 0 (zlen ls)) ;;
      let B := inv A in
      gain <- mapM (fun j => col <- mapM (fun i => get2 B i j) (zrange 0 (zlen ls)) ;; vdot G col) (zrange 0 (zlen ls)) ;; K gain) = K (map (fun j => Fin (w j)) us).
Proof.
  intros HB HCB LL HL. set (g := fun i => related D o exq s (a i) b).
  assert (ST : forall k i, znth us k = Ok i -> exists st, znth ls k = Ok st /\ station_at st (a i) /\ st_ci st = Fin (ci i) /\ 0 <= i < zlen ss).
  { intros k i Hk. assert (R : 0 <= i < zlen ss) by (apply RU; eapply znth_In; eauto). destruct (znth_some ss i R) as [st Est]. exists st. rewrite (HL k i Hk). destruct (HS i st Est). auto. }
  assert (EG : mapM (fun st => oi_rho (lift4 D) (on_numbers exq) o st la lo el laf) ls = Ok (map (fun i => Fin (g i)) us)).
  { rewrite <- (mapM_zrange_znth (fun st => oi_rho (lift4 D) (on_numbers exq) o st la lo el laf) ls), LL. apply mapM_by_us. intros k i Hk. destruct (ST k i Hk) as (st & -> & SA & _ & R). cbn [bind]. unfold g. apply (rho_ok D exq o s st (a i) la lo el laf b M SC SA HB). auto. }
  set (A := map (fun i => map (fun j => Fin (m i j)) us) us).
  assert (EA : mapM (fun i => st <- znth ls i ;; mapM (fun j => s' <- znth ls j ;; p <- oi_rho2 (lift4 D) (on_numbers exq) o st s' laf ;; Ok (vadd p (vmul (vmul (oi_epsilon o) (oi_epsilon o)) (if i =? j then st_ci st else fz 0)))) (zrange 0 (zlen ls))) (zrange 0 (zlen ls)) = Ok A).
  { rewrite LL. apply mapM_by_us. intros k i Hk. destruct (ST k i Hk) as (st & -> & SA & CI & R). cbn [bind]. apply mapM_by_us. intros l j Hl. destruct (ST l j Hl) as (st' & -> & SA' & CI' & R'). cbn [bind].
    pose proof HB as (_ & _ & _ & B4 & _ & _ & B7). rewrite (rho2_ok D exq o s st st' (a i) (a j) laf b) by auto. cbn [bind]. rewrite (same_station k l i j Hk Hl), EP, CI. change (fz 0) with (Fin 0%Qc). rewrite vmul_F. f_equal. unfold with_errors. destruct (i =? j); rewrite vmul_F, vadd_F; f_equal. ring. }
  assert (MA : matrix_of us m A).
  { split.
    - split; [unfold A; rewrite zlen_map; reflexivity|]. unfold A. intros r Hr. apply in_map_iff in Hr as (i & <- & _). rewrite zlen_map. reflexivity.
    - intros k l i j Hk Hl. unfold get2, A. rewrite znth_map, Hk. cbn [bind]. rewrite znth_map, Hl. reflexivity. }
  destruct (IV us A N0 ND RU MA) as (RI & _ & p & q & PQ & UN). destruct (position us ND) as (pos & HP & HI).
  assert (EQ : forall j k, In j us -> In k us -> q (pos j) (pos k) = m j k). { intros j k Hj Hk. destruct (HI j Hj) as [R1 E1]. destruct (HI k Hk) as [R2 E2]. destruct (PQ _ _ R1 R2) as [_ P2]. rewrite (proj2 MA _ _ _ _ E1 E2) in P2. injection P2 as ->. reflexivity. }
  exists (gain_of pos p g). split.
  - intros k Hk. unfold gain_of, over. rewrite <- (qsum_swap g (fun i j => p (pos i) (pos j)) (fun j => m j k) us us). change (qsum (map ?f us)) with (over us f). rewrite <- (over_unit us k g ND Hk). unfold over. apply qsum_ext. intros i Hi. f_equal.
    destruct (HI i Hi) as [R1 E1]. destruct (HI k Hk) as [R2 E2]. rewrite <- (same_station _ _ _ _ E1 E2), <- (UN _ _ R1 R2). unfold dot. rewrite <- (over_pos us pos (fun l => p (pos i) l * q l (pos k))%Qc HP). unfold over. apply qsum_ext. intros j Hj. rewrite EQ by auto. reflexivity.
  - intros K. rewrite EG. cbn [bind]. rewrite EA. cbn [bind]. cbv zeta. rewrite LL.
    rewrite (mapM_by_us us (fun j => col <- mapM (fun i => get2 (inv A) i j) (zrange 0 (zlen us)) ;; vdot (map (fun i => Fin (g i)) us) col) (fun j => Fin (gain_of pos p g j))); [reflexivity|].
    intros l j Hl. assert (Hj : In j us) by (eapply znth_In; eauto). destruct (HI j Hj) as [R2 E2]. assert (EL : l = pos j). { pose proof (same_station _ _ _ _ Hl E2) as SS. rewrite (Z.eqb_refl j) in SS. lia. } subst l.
    rewrite (mapM_by_us us (fun i => get2 (inv A) i (pos j)) (fun i => Fin (p (pos i) (pos j)))).
    + cbn [bind]. rewrite vdot_ok. reflexivity.
    + intros k i Hk. assert (Hi : In i us) by (eapply znth_In; eauto). destruct (HI i Hi) as [R1 E1]. assert (EK : k = pos i). { pose proof (same_station _ _ _ _ Hk E1) as SS. rewrite (Z.eqb_refl i) in SS. lia. } subst k. destruct (PQ _ _ R1 R2) as [P1 _]. auto.
Qed.
(** the members at a place *)
Lemma single_ok b la lo el laf f out y x ms : placed la lo el laf b -> (forall i, 0 <= i < zlen ss -> comparable s (a i) b) -> of_size d f -> of_size d out -> 0 <= y < d_y d -> 0 <= x < d_x d -> NoDup ms -> (forall e, In e ms -> 0 <= e < d_e d) ->
  (forall e, In e ms -> forall i, In i us -> exists ob bg st, znth ss i = Ok st /\ st_obs st = Fin ob /\ exists ys mean ye, znth back i = Ok (ys, mean) /\ znth ys e = Ok ye /\ vadd ye mean = Fin bg) ->
  (forall e, In e ms -> exists q, f_get f y x e = Ok (Fin q)) ->
  exists w g, gains us m (fun i => related D o exq s (a i) b) w /\ oi_single (lift4 D) (on_numbers exq) inv o ss back la lo el laf us ms f out y x = Ok g /\ of_size d g /\
    (forall e q ob bg, In e ms -> f_get f y x e = Ok (Fin q) -> (forall i st ys mean ye, In i us -> znth ss i = Ok st -> znth back i = Ok (ys, mean) -> znth ys e = Ok ye -> st_obs st = Fin (ob i) /\ vadd ye mean = Fin (bg i)) -> f_get g y x e = Ok (Fin (q + over us (fun i => w i * (ob i - bg i)))%Qc)) /\
    (forall y' x' e, within d y' x' e -> (y', x') <> (y, x) \/ ~ In e ms -> f_get g y' x' e = f_get out y' x' e).
Proof.
  intros HB HCB SF SO Hy Hx NM RM HD HF. destruct (chosen_list ss eq_refl) as (ls & EL & LL & HL). destruct (chosen_list back LB) as (lb & EB & LLB & HLB).
  destruct (gain_ok b la lo el laf ls HB HCB LL HL) as (w & GW & HK). unfold oi_single. rewrite EL, EB. cbn [bind]. rewrite HK. clear HK.
  match goal with |- exists w g, _ /\ foldM ?step _ _ = _ /\ _ => set (body := step) end.
  assert (ST : forall e out1, In e ms -> of_size d out1 -> exists g, body out1 e = Ok g /\ of_size d g /\
    (forall q ob bg, f_get f y x e = Ok (Fin q) -> (forall i st ys mean ye, In i us -> znth ss i = Ok st -> znth back i = Ok (ys, mean) -> znth ys e = Ok ye -> st_obs st = Fin (ob i) /\ vadd ye mean = Fin (bg i)) -> f_get g y x e = Ok (Fin (q + over us (fun i => w i * (ob i - bg i)))%Qc)) /\
    (forall y' x' e', within d y' x' e' -> (y', x', e') <> (y, x, e) -> f_get g y' x' e' = f_get out1 y' x' e')).
  { intros e out1 He S1. unfold body. destruct (HF e He) as [q Eq]. rewrite Eq. cbn [bind]. specialize (HD e He).
    assert (CH : exists ob bg, forall i, In i us -> exists st, znth ss i = Ok st /\ st_obs st = Fin (ob i) /\ exists ys mean ye, znth back i = Ok (ys, mean) /\ znth ys e = Ok ye /\ vadd ye mean = Fin (bg i)).
    { clear - HD ND. induction us as [|i l IH]; [exists (fun _ => 0%Qc), (fun _ => 0%Qc); intros ? []|]. inversion ND as [|? ? N1 N2]; subst. destruct IH as (ob & bg & H); auto; [intros; apply HD; right; auto|]. destruct (HD i (or_introl eq_refl)) as (ob1 & bg1 & st & H1 & H2 & H3).
      exists (fun j => if j =? i then ob1 else ob j), (fun j => if j =? i then bg1 else bg j). intros j [<-|Hj]; [rewrite Z.eqb_refl; eauto|]. destruct (Z.eqb_spec j i) as [->|]; [contradiction|auto]. }
    destruct CH as (ob & bg & CH). rewrite LL. rewrite (mapM_by_us us _ (fun i => Fin (ob i - bg i)%Qc)).
    - cbn [bind]. rewrite vdot_ok. cbn [bind]. rewrite vadd_F. destruct (f_set_size d out1 y x e (Fin (q + over us (fun i => w i * (ob i - bg i)))%Qc) S1) as (g & Eg & Sg & G1 & G2); [unfold within; auto|]. exists g. split; [auto|]. split; [auto|]. split; [|auto].
      intros q' ob' bg' Eq' H. injection Eq' as <-. rewrite G1. do 3 f_equal. unfold over. apply qsum_ext. intros i Hi. destruct (CH i Hi) as (st & E1 & E2 & ys & mean & ye & E3 & E4 & E5). destruct (H i st ys mean ye Hi E1 E3 E4) as [F1 F2]. rewrite E2 in F1. rewrite E5 in F2. injection F1 as <-. injection F2 as <-. reflexivity.
    - intros k i Hk. assert (Hi : In i us) by (eapply znth_In; eauto). destruct (CH i Hi) as (st & E1 & E2 & ys & mean & ye & E3 & E4 & E5). rewrite (HL k i Hk), (HLB k i Hk), E1, E3. cbn [bind fst snd]. rewrite E4. cbn [bind]. rewrite E5, E2, vsub_F. reflexivity. }
  clearbody body. exists w.
  assert (LP : forall l out1, NoDup l -> (forall e, In e l -> In e ms) -> of_size d out1 -> exists g, foldM body out1 l = Ok g /\ of_size d g /\
    (forall e q ob bg, In e l -> f_get f y x e = Ok (Fin q) -> (forall i st ys mean ye, In i us -> znth ss i = Ok st -> znth back i = Ok (ys, mean) -> znth ys e = Ok ye -> st_obs st = Fin (ob i) /\ vadd ye mean = Fin (bg i)) -> f_get g y x e = Ok (Fin (q + over us (fun i => w i * (ob i - bg i)))%Qc)) /\
    (forall y' x' e, within d y' x' e -> (y', x') <> (y, x) \/ ~ In e l -> f_get g y' x' e = f_get out1 y' x' e)).
  { induction l as [|e l IH]; intros out1 NDl HI S1; cbn [foldM]; [exists out1; split; [reflexivity|]; split; [auto|]; split; [intros ? ? ? ? []|auto]|].
    inversion NDl as [|? ? N1 N2]; subst. destruct (ST e out1 (HI e (or_introl eq_refl)) S1) as (g1 & -> & Sg1 & A1 & A2). cbn [bind]. destruct (IH g1 N2) as (g & Eg & Sg & B1 & B2); auto; [intros; apply HI; right; auto|]. exists g. split; [auto|]. split; [auto|]. split.
    - intros e' q ob bg [<-|He] Eq H; [|eauto]. rewrite B2; [eauto|unfold within; auto using (RM e (HI e (or_introl eq_refl)))|auto].
    - intros y' x' e' W [N|N]; rewrite B2 by (auto; right; intros Hin; apply N; right; auto); apply A2; auto; intros [= -> -> ->]; apply N; [reflexivity|left; auto]. }
  destruct (LP ms out NM (fun e H => H) SO) as (g & Eg & Sg & B1 & B2). exists g. split; [auto|]. split; [auto|]. split; [auto|]. split; [|auto]. intros e q ob bg He Eq H. eapply B1; eauto.
Qed.
End Single.
Lemma empty_values d : 0 <= d_y d -> 0 <= d_x d -> 0 <= d_e d -> exists f, empty_field d = Ok f /\ of_size d f /\ forall y x e, within d y x e -> f_get f y x e = Ok (Fin missing_number).
Proof.
  intros H1 H2 H3. destruct (proj1 (c147_new (d_y d) (d_x d) (d_e d) CMV) H1 H2 H3) as (f & E & F & S1 & S2 & S3 & V). exists f. split; [exact E|]. split; [split; auto|]. intros y x e (W1 & W2 & W3). apply V. unfold inside. rewrite S1, S2, S3. auto.
Qed.
Lemma points_spec d (P : Z -> Z -> (Z -> res val) -> Prop) v0 body f0 : of_size d f0 -> (forall y x e, within d y x e -> f_get f0 y x e = Ok v0) ->
  (forall y x g g', (forall e, 0 <= e < d_e d -> g e = g' e) -> P y x g -> P y x g') ->
  (forall out y x, of_size d out -> 0 <= y < d_y d -> 0 <= x < d_x d -> (forall e, 0 <= e < d_e d -> f_get out y x e = Ok v0) -> exists g, body out y x = Ok g /\ of_size d g /\ P y x (f_get g y x) /\ forall y' x' e, within d y' x' e -> (y', x') <> (y, x) -> f_get g y' x' e = f_get out y' x' e) ->
  exists out, foldM (fun f c => let '(i, j) := c in body f i j) f0 (pairs2 (d_y d) (d_x d)) = Ok out /\ of_size d out /\ forall y x, 0 <= y < d_y d -> 0 <= x < d_x d -> P y x (f_get out y x).
Proof.
  intros S0 V0 HX HB.
  assert (K : forall l f, NoDup l -> (forall y x, In (y, x) l -> 0 <= y < d_y d /\ 0 <= x < d_x d) -> of_size d f -> (forall y x e, In (y, x) l -> 0 <= e < d_e d -> f_get f y x e = Ok v0) ->
    exists out, foldM (fun f c => let '(i, j) := c in body f i j) f l = Ok out /\ of_size d out /\ (forall y x, In (y, x) l -> P y x (f_get out y x)) /\ forall y x e, within d y x e -> ~ In (y, x) l -> f_get out y x e = f_get f y x e).
  { induction l as [|[y x] l IH]; intros f ND HR SF VF; cbn [foldM]; [exists f; split; [reflexivity|]; split; [auto|]; split; [intros ? ? []|auto]|].
    inversion ND as [|? ? N1 N2]; subst. destruct (HR y x (or_introl eq_refl)) as [Hy Hx]. destruct (HB f y x SF Hy Hx) as (g & -> & Sg & Pg & Og); [intros e He; apply VF; auto; left; auto|]. cbn [bind].
    destruct (IH g N2) as (out & EO & SO & PO & OO); [intros; apply HR; right; auto|auto| |].
    - intros y' x' e Hin He. destruct (HR y' x' (or_intror Hin)). rewrite Og; [apply VF; auto; right; auto|unfold within; auto|]. intros [= -> ->]. contradiction.
    - exists out. split; [auto|]. split; [auto|]. split.
      + intros y' x' [[= <- <-]|Hin]; [|auto]. apply (HX y x (f_get g y x)); [|auto]. intros e He. symmetry. apply OO; auto. unfold within. auto.
      + intros y' x' e W NI. rewrite OO; [apply Og; auto|auto|]; intros H; apply NI; [left; symmetry; auto|right; auto]. }
  destruct (K (pairs2 (d_y d) (d_x d)) f0) as (out & EO & SO & PO & _); [apply NoDup_points|intros y x H; apply in_points in H; auto|auto|intros y x e Hin He; apply in_points in Hin; apply V0; unfold within; tauto|].
  exists out. split; [auto|]. split; [auto|]. intros y x Hy Hx. apply PO. apply in_points. auto.
Qed.
(** ** The whole *)
Section Whole.
Context (D E : Qc -> Qc -> Qc -> Qc -> Qc) (exq : Qc -> Qc) (sortp : list (val * Z) -> list (val * Z)) (inv : list vec -> list vec) (nn : location -> Z * Z) (ens : Z -> list Z -> list Z -> field -> field -> Z -> Z -> res field) (o : oi_options) (s : scales) (minrho rf eps gr : Qc) (kind : option Z)
  (nPar : Z) (locs : list location) (pars : Z -> location -> vec) (lats lons elevs lafs : list vec) (d : dims) (fs : list field) (ss : list station) (a : Z -> place) (b : Z -> Z -> place) (ci : Z -> Qc).
Context (OC : oi_case D E exq inv nn o s minrho rf eps gr kind locs pars lats lons elevs lafs d fs ss a b ci) (SP : sorts_pairs sortp) (NP : nPar <= 3).
Notation regular := (match kind with Some _ => true | None => false end).
Notation radius := (match kind with Some r => r | None => 0 end).
Notation cal := (oi_calibrator (lift4 E) (lift4 D) (on_numbers exq) (Fin rf) sortp inv nn ens o nPar locs pars lats lons elevs lafs d fs).
Lemma point_placed y x : 0 <= y < d_y d -> 0 <= x < d_x d -> exists la lo el laf, get2 lats y x = Ok la /\ get2 lons y x = Ok lo /\ get2 elevs y x = Ok el /\ get2 lafs y x = Ok laf /\ placed la lo el laf (b y x).
Proof.
  intros Hy Hx. pose proof OC as (_ & _ & (_ & RA & RO & RE & RL) & _ & _ & _ & HP & _).
  destruct (rect_get2 _ _ _ _ _ RA Hy Hx) as [la Ela]. destruct (rect_get2 _ _ _ _ _ RO Hy Hx) as [lo Elo]. destruct (rect_get2 _ _ _ _ _ RE Hy Hx) as [el Eel]. destruct (rect_get2 _ _ _ _ _ RL Hy Hx) as [laf Elaf]. exists la, lo, el, laf. do 4 (split; [auto|]). eapply HP; eauto.
Qed.
Lemma grid_size_ok : 0 < d_y d -> 0 < d_x d -> exists g, oi_grid_size (lift4 E) lats lons = Ok g /\ cvalid g = regular /\ oi_radius (Fin rf) o g (zlen locs) = Ok radius.
Proof.
  intros Py Px. pose proof point_placed as PLD. pose proof OC as ((_ & (_ & _ & EZ) & _ & _) & ((S1 & S2 & _) & _) & (_ & (RA1 & RA2) & RO & RE & RL) & GK & _). unfold oi_grid_size. rewrite RA1. destruct (znth_some lats 0) as [r0 Er0]; [lia|]. rewrite Er0. cbn [bind].
  assert (L0 : zlen r0 = d_x d). { apply RA2. eapply znth_In; eauto. } rewrite L0.
  destruct kind as [r|]; cbn [grid_kind] in GK.
  - destruct GK as (Ly & Lx & GP & Hr & (G1 & G2) & GM). replace (1 <? d_y d) with true by lia. replace (1 <? d_x d) with true by lia.
    destruct (PLD 0 0 ltac:(lia) ltac:(lia)) as (la & lo & el & laf & -> & -> & _ & _ & (B1 & B2 & _ & _ & B5 & _)). destruct (PLD 1 0 ltac:(lia) ltac:(lia)) as (la' & lo' & el' & laf' & -> & -> & _ & _ & (C1 & C2 & _ & _ & C5 & _)). cbn [bind]. subst.
    rewrite distance_value by auto. fold (along E (b 0 0) (b 1 0)). set (g := along E (b 0 0) (b 1 0)) in *. clearbody g.
    assert (CV : cvalid (Fin g) = true) by (apply cvalid_Fin; intros e; rewrite e in GP; discriminate). exists (Fin g). split; [reflexivity|]. split; [auto|]. unfold oi_radius. rewrite CV, S1, vmul_F, vdiv_F by (intros e; rewrite e in GP; discriminate).
    assert (NG : g <> 0%Qc) by (intros e; rewrite e in GP; discriminate). assert (Pr : (0 <= qz r)%Qc) by (change 0%Qc with (qz 0); apply qz_le; auto).
    assert (Q1 : (qz r <= rf * s_d s / g)%Qc) by (apply qle_div_iff; auto). assert (Q2 : (rf * s_d s / g < qz (r + 1))%Qc).
    { apply Qcnot_le_lt. intros L. apply (proj1 (qle_div_iff _ _ _ GP)) in L. apply Qclt_not_le in G2. auto. }
    cbn [to_int]. rewrite (P_CNeigh.ztrunc_is _ r); [|exact (Qcle_trans _ _ _ Pr Q1)|auto]. cbn [bind]. replace (cvalid (oi_maxbytes o) && vltb (oi_maxbytes o) (vmul (fz (r * r * 16)) (fz (zlen locs))))%bool with false; [reflexivity|]. symmetry.
    destruct (cvalid (oi_maxbytes o)) eqn:CM; [|reflexivity]. apply cvalid_true in CM as (m & Em & Nm). specialize (GM m Em Nm). rewrite Em. cbn [andb]. change (vmul (fz (r * r * 16)) (fz (zlen locs))) with (Fin (qz (r * r * 16) * qz (zlen locs))%Qc). cbn [vltb]. destruct (qltb_spec m (qz (r * r * 16) * qz (zlen locs))%Qc) as [L|]; auto. apply Qclt_not_le in L. contradiction.
  - exists CMV. replace ((if 1 <? d_y d then if 1 <? d_x d then _ else Ok CMV else Ok CMV)) with (@Ok val CMV); [|destruct (Z.ltb_spec 1 (d_y d)); auto; destruct (Z.ltb_spec 1 (d_x d)); auto; exfalso; lia]. split; [reflexivity|]. split; reflexivity.
Qed.
Lemma stations_ok : mapM (fun l => oi_station nn lafs l (pars 0 l)) locs = Ok ss.
Proof.
  pose proof OC as (_ & _ & (_ & _ & _ & _ & RL) & _ & (LS & OB) & _).
  destruct (mapM_total (fun l => oi_station nn lafs l (pars 0 l)) (fun _ _ => True) locs) as (r & Er & LR & HR).
  - intros l Hl. destruct (In_znth locs l Hl) as (i & Hi). destruct (znth_some ss i) as [st Est]; [rewrite LS; eapply znth_range; eauto|]. destruct (OB i l st Hi Est) as (_ & En & Hy & Hx & EL & rest & EP & _). unfold oi_station. rewrite EP, En, EL. cbn [bind]. eauto.
  - rewrite Er. f_equal. apply znth_ext; [lia|]. intros i Hi. rewrite LR in Hi. destruct (znth_some locs i Hi) as [l Hl]. destruct (HR i l Hl) as (v & Ev & Es & _). rewrite Ev. destruct (znth_some ss i) as [st Est]; [lia|]. rewrite Est. f_equal.
    destruct (OB i l st Hl Est) as (EQ & En & Hy & Hx & EL & rest & EP & CI). unfold oi_station in Es. rewrite EP, En, EL in Es. cbn [bind] in Es. injection Es as <-. destruct st. cbn in *. subst. f_equal. destruct CI as [->|[NL ->]]; [reflexivity|]. destruct rest as [|c [|c' rest]]; auto. exfalso. apply NL. reflexivity.
Qed.
Lemma c225 : exists out, cal = Ok out /\ shaped d out /\ forall t y x, 0 <= t < d_t d -> 0 <= y < d_y d -> 0 <= x < d_x d ->
  exists l us w, candidates D exq o s minrho rf kind d elevs ss a (b y x) y x l /\ best (oi_max o) l us /\ gains us (with_errors D o exq s eps a ci) (fun i => related D o exq s (a i) (b y x)) w /\
    (us = [] -> forall e v, 0 <= e < d_e d -> element fs t y x e v -> element out t y x e (if oi_savediff o then Fin missing_number else v)) /\
    (us <> [] -> forall e q ob bg, 0 <= e < d_e d -> element fs t y x e (Fin q) -> whole d fs t e -> departures fs t e ss us gr a b ob bg -> element out t y x e (Fin (q + over us (fun i => w i * (ob i - bg i)))%Qc)) /\
    (us <> [] -> forall e, 0 <= e < d_e d -> ~ whole d fs t e -> element out t y x e (Fin missing_number)).
Proof.
  pose proof OC as ((MD & ME & XQ & SL) & (SC & MR & EP & GR & UE & CR & MX) & (SH & RA & RO & RE & RL) & GK & (LS & OB) & HS & HP & HC & IV & HB).
  unfold oi_calibrator. destruct (valid_found lats lons elevs d RA RO RE) as [EV|[EV NV]]; rewrite EV; cbn [bind negb].
  2:{ exists fs. split; [reflexivity|]. split; [auto|]. intros t y x Ht Hy Hx. exfalso. destruct (point_placed y x Hy Hx) as (la & lo & el & laf & E1 & E2 & E3 & E4 & (B1 & B2 & B3 & _ & (_ & N1 & N2) & N3 & _)). specialize (NV y x {| l_lat := la; l_lon := lo; l_elev := el |} Hy Hx ltac:(repeat split; auto)). unfold place_valid in NV. cbn in NV. subst. rewrite !cvalid_Fin in NV by auto. discriminate. }
  replace (3 <? nPar) with false by lia.
  assert (PP : 0 < d_y d /\ 0 < d_x d). { destruct (pairs2 (d_y d) (d_x d)) as [|[y x] l] eqn:EPP; [discriminate|]. assert (Hin : In (y, x) (pairs2 (d_y d) (d_x d))) by (rewrite EPP; left; auto). apply in_points in Hin. lia. }
  destruct PP as [Py Px]. clear EV.
  destruct (grid_size_ok Py Px) as (g & -> & CG & ER). cbn [bind]. rewrite ER. cbn [bind]. rewrite CG, stations_ok. cbn [bind].
  assert (SI : forall i st, znth ss i = Ok st -> 0 <= st_y st < d_y d /\ 0 <= st_x st < d_x d). { intros i st Hi. destruct (znth_some locs i) as [l Hl]; [rewrite <- LS; eapply znth_range; eauto|]. destruct (OB i l st Hl Hi) as (_ & _ & H1 & H2 & _). auto. }
  match goal with |- exists out, each_time d ?body = _ /\ _ => destruct (each_time_ok d fs body (fun t g => forall y x, 0 <= y < d_y d -> 0 <= x < d_x d ->
    exists l us w, candidates D exq o s minrho rf kind d elevs ss a (b y x) y x l /\ best (oi_max o) l us /\ gains us (with_errors D o exq s eps a ci) (fun i => related D o exq s (a i) (b y x)) w /\
    (us = [] -> forall e v, 0 <= e < d_e d -> element fs t y x e v -> f_get g y x e = Ok (if oi_savediff o then Fin missing_number else v)) /\
    (us <> [] -> forall e q ob bg, 0 <= e < d_e d -> element fs t y x e (Fin q) -> whole d fs t e -> departures fs t e ss us gr a b ob bg -> f_get g y x e = Ok (Fin (q + over us (fun i => w i * (ob i - bg i)))%Qc)) /\
    (us <> [] -> forall e, 0 <= e < d_e d -> ~ whole d fs t e -> f_get g y x e = Ok (Fin missing_number))) SH) as (out & EO & SO & KO) end.
  - intros t Ht. destruct (shaped_nth d fs t SH Ht) as (f & Ef & Sf). rewrite Ef. cbn [bind].
    destruct SH as (_ & Y0 & X0 & E0 & _). destruct (empty_values d Y0 X0 E0) as (out0 & EO & SO & VO). rewrite EO. cbn [bind].
    assert (EL : forall y x e v, element fs t y x e v <-> f_get f y x e = Ok v). { intros y x e v. split; [intros (f' & Ef' & Ev); rewrite Ef in Ef'; injection Ef' as <-; auto|intros Ev; exists f; auto]. }
    destruct (mapM_total (oi_background o elevs (d_e d) f) (fun st r => exists i, znth ss i = Ok st /\ zlen (fst r) = d_e d) ss) as (back & EB & LB & HBK).
    { intros st Hst. destruct (In_znth ss st Hst) as (i & Hi). destruct (HS i st Hi) as [SA CI]. destruct (SI i st Hi) as [Hy Hx].
      destruct (point_placed _ _ Hy Hx) as (la & lo & el & laf & E1 & E2 & E3 & E4 & (B1 & B2 & B3 & B4 & B5 & B6 & B7)). subst el.
      destruct (background_ok d o elevs f st gr a b i Sf RE E0 Hy Hx GR SA (conj E3 B6)) as (ys & mean & Eb & Ly & _); [intros e q Eq nq; eapply (HB t i st e q); eauto; apply EL; auto|]. exists (ys, mean). split; [auto|]. exists i. auto. }
    rewrite EB. cbn [bind].
    assert (BK : forall i st, znth ss i = Ok st -> exists ys mean, znth back i = Ok (ys, mean) /\ forall e q, 0 <= e < d_e d -> f_get f (st_y st) (st_x st) e = Ok (Fin q) -> q <> missing_number -> exists ye, znth ys e = Ok ye /\ vadd ye mean = Fin (q + lapse gr a b i st)%Qc).
    { intros i st Hi. destruct (HS i st Hi) as [SA CI]. destruct (SI i st Hi) as [Hy Hx]. destruct (point_placed _ _ Hy Hx) as (la & lo & el & laf & E1 & E2 & E3 & E4 & (B1 & B2 & B3 & B4 & B5 & B6 & B7)). subst el.
      destruct (background_ok d o elevs f st gr a b i Sf RE E0 Hy Hx GR SA (conj E3 B6)) as (ys & mean & Eb & Ly & K); [intros e q Eq nq; eapply (HB t i st e q); eauto; apply EL; auto|]. exists ys, mean. destruct (HBK i st Hi) as (r & Er & Er' & _). rewrite Eb in Er'. injection Er' as <-. auto. }
    destruct (members_found d f Sf E0) as (ms & EM & NDm & HM). rewrite EM. cbn [bind]. rewrite UE. cbn [negb orb].
    assert (WM : forall e, In e ms <-> 0 <= e < d_e d /\ whole d fs t e).
    { intros e. rewrite HM. split; intros [He H]; (split; [auto|]).
      - intros y x Hy Hx. destruct (of_size_get d f y x e Sf) as [v Ev]; [unfold within; auto|]. pose proof (H y x v Hy Hx Ev) as C. apply cvalid_true in C as (q & -> & nq). exists q. rewrite EL. auto.
      - intros y x v Hy Hx Ev. destruct (H y x Hy Hx) as (q & Eq & nq). rewrite EL, Ev in Eq. injection Eq as ->. apply cvalid_Fin. auto. }
    match goal with |- exists g, foldM (fun f c => let '(i, j) := c in @?body f i j) _ _ = _ /\ _ => destruct (points_spec d (fun y x (get : Z -> res val) => exists l us w, candidates D exq o s minrho rf kind d elevs ss a (b y x) y x l /\ best (oi_max o) l us /\ gains us (with_errors D o exq s eps a ci) (fun i => related D o exq s (a i) (b y x)) w /\
      (us = [] -> forall e v, 0 <= e < d_e d -> element fs t y x e v -> get e = Ok (if oi_savediff o then Fin missing_number else v)) /\
      (us <> [] -> forall e q ob bg, 0 <= e < d_e d -> element fs t y x e (Fin q) -> whole d fs t e -> departures fs t e ss us gr a b ob bg -> get e = Ok (Fin (q + over us (fun i => w i * (ob i - bg i)))%Qc)) /\
      (us <> [] -> forall e, 0 <= e < d_e d -> ~ whole d fs t e -> get e = Ok (Fin missing_number))) (Fin missing_number) body out0 SO VO) as (out & EF & Sf' & K) end.
    + intros y x g1 g2 EG (l & us & w & H1 & H2 & H3 & H4 & H5 & H6). exists l, us, w. do 3 (split; [auto|]). split; [|split].
      * intros U e v He Ev. rewrite <- EG by auto. auto.
      * intros U e q ob bg He Eq W DP. rewrite <- EG by auto. auto.
      * intros U e He W. rewrite <- EG by auto. auto.
    + intros out1 y x S1 Hy Hx H1. destruct (point_placed y x Hy Hx) as (la & lo & el & laf & E1 & E2 & E3 & E4 & PL). rewrite E1, E2, E3, E4. cbn [bind].
      destruct (near_found D exq o s minrho rf kind d elevs ss a (b y x) la lo el laf y x MD SC MR RE) as (l & EN & CA); auto.
      { intros i j e Eij. destruct (get2_range _ _ _ _ _ _ RE Eij) as [Hi Hj]. destruct (point_placed i j Hi Hj) as (? & ? & el' & ? & _ & _ & E3' & _ & (_ & _ & B3 & _)). rewrite Eij in E3'. injection E3' as ->. eauto. }
      { intros i st Hi. destruct (HS i st Hi) as [SA CI]. destruct (SI i st Hi) as [H2 H3]. do 3 (split; [auto|]). exact (proj1 (HC i 0 y x (znth_range _ _ _ Hi))). }
      rewrite EN. cbn [bind]. cbv zeta. assert (NL : numbers l) by (intros p i H; apply CA in H as (st & _ & _ & _ & -> & _); eauto).
      pose proof (c224 sortp o l SP NL (proj1 CA) MX CR) as BE. set (us := oi_chosen sortp o l) in *. clearbody us.
      assert (RU : forall i, In i us -> 0 <= i < zlen ss /\ exists st q, znth ss i = Ok st /\ st_obs st = Fin q).
      { intros i Hi. destruct BE as (_ & BI & _). apply BI in Hi. apply in_map_iff in Hi as ([p j] & Ej & Hj). cbn in Ej. subst j. apply CA in Hj as (st & Est & (AC & _) & _). split; [eapply znth_range; eauto|]. exists st. destruct (cvalid (st_obs st)) eqn:CV; [|apply cvalid_missing in CV; contradiction]. apply cvalid_true in CV as (q & Eq & _). exists q. auto. }
      destruct us as [|u0 us'] eqn:EU.
      * change (zlen (@nil Z) =? 0) with true. cbv iota.
        match goal with |- exists g, foldM ?step _ _ = _ /\ _ => destruct (foldM_range step (fun n g => of_size d g /\ (forall e v, 0 <= e < n -> f_get f y x e = Ok v -> f_get g y x e = Ok (if oi_savediff o then Fin missing_number else v)) /\ forall y' x' e, within d y' x' e -> (y', x') <> (y, x) -> f_get g y' x' e = f_get out1 y' x' e) 0 (d_e d) out1) as (g' & EG & Sg & G1 & G2); [auto| | |] end.
        -- split; [auto|]. split; [intros; lia|auto].
        -- intros e g1 He (Sg & G1 & G2). destruct (of_size_get d f y x e Sf) as [v Ev]; [unfold within; auto|]. rewrite Ev. cbn [bind]. destruct (f_set_size d g1 y x e (if oi_savediff o then CMV else v) Sg) as (g2 & E5 & S2 & K1 & K2); [unfold within; auto|]. exists g2. split; [auto|]. split; [auto|]. split.
           ++ intros e' v' He' Ev'. destruct (Z.eq_dec e' e) as [->|NE]; [rewrite Ev in Ev'; injection Ev' as <-; auto|]. rewrite K2; [apply G1; auto; lia|unfold within; split; [auto|split; [auto|lia]]|intros [= ->]; contradiction].
           ++ intros y' x' e' W N. rewrite K2; auto. intros [= -> -> ->]. contradiction.
        -- exists g'. split; [exact EG|]. split; [auto|]. split; [|auto]. exists l, [], (fun _ => 0%Qc). do 2 (split; [auto|]). split; [intros j []|]. split; [intros _ e v He Ev; apply G1; auto; apply EL; auto|]. split; intros U; contradiction.
      * replace (zlen (u0 :: us') =? 0) with false by (rewrite zlen_cons; pose proof (zlen_nonneg us'); lia). rewrite <- EU in *. assert (N0 : us <> []) by (rewrite EU; discriminate). clear EU u0 us'. cbv iota.
        destruct (single_ok D exq inv o s eps ss back a ci d us MD SC EP HS (fun i j Hi Hj => proj2 (HC i j 0 0 Hi) Hj) (proj1 BE) N0 (fun i Hi => proj1 (RU i Hi)) LB IV (b y x) la lo el laf f out1 y x ms PL) as (w & g' & GW & EG & Sg & G1 & G2); auto.
        -- intros i Hi. exact (proj1 (HC i 0 y x Hi)).
        -- intros e He. apply WM in He. tauto.
        -- intros e He i Hi. apply WM in He as [He WH]. destruct (RU i Hi) as (Ri & st & q & Est & Eo). destruct (SI i st Est) as [Yi Xi]. destruct (WH _ _ Yi Xi) as (qb & Eqb & nqb). apply EL in Eqb. destruct (BK i st Est) as (ys & mean & Eb & K). destruct (K e qb He Eqb nqb) as (ye & K1 & K2). exists q, (qb + lapse gr a b i st)%Qc, st. do 2 (split; [auto|]). exists ys, mean, ye. auto.
        -- intros e He. apply WM in He as [He WH]. destruct (WH y x Hy Hx) as (q & Eq & _). exists q. apply EL. auto.
        -- exists g'. split; [auto|]. split; [auto|]. split; [|intros y' x' e W N; apply G2; auto].
           exists l, us, w. do 3 (split; [auto|]). split; [intros U; contradiction|]. split.
           ++ intros _ e q ob bg He Eq W DP. apply G1; [apply WM; auto|apply EL; auto|]. intros i st ys mean ye Hi Est Eb Ey. destruct (DP i st Hi Est) as [D1 (qb & D2 & D3)]. split; [auto|]. destruct (BK i st Est) as (ys' & mean' & Eb' & K). rewrite Eb in Eb'. injection Eb' as <- <-.
              destruct (SI i st Est) as [Yi Xi]. destruct (W _ _ Yi Xi) as (q2 & Q2 & nq2). rewrite EL in D2. rewrite EL in Q2. rewrite Q2 in D2. injection D2 as <-. destruct (K e q2 He Q2 nq2) as (ye' & K1 & K2). rewrite Ey in K1. injection K1 as <-. rewrite K2, D3. reflexivity.
           ++ intros _ e He W. rewrite G2; [apply H1; auto|unfold within; auto|]. right. intros Hin. apply WM in Hin. tauto.
    + exists out. split; [exact EF|]. split; [auto|]. intros y x Hy Hx. exact (K y x Hy Hx).
  - exists out. split; [exact EO|]. split; [auto|]. intros t y x Ht Hy Hx. destruct (KO t Ht) as (g' & Hg & K). destruct (K y x Hy Hx) as (l & us & w & H1 & H2 & H3 & H4 & H5 & H6). exists l, us, w. do 3 (split; [auto|]). split; [|split].
    + intros U e v He Ev. exists g'. split; [auto|]. apply H4; auto.
    + intros U e q ob bg He Eq W DP. exists g'. split; [auto|]. apply H5; auto.
    + intros U e He W. exists g'. split; [auto|]. apply H6; auto.
Qed.
End Whole.
