(** Proofs about the client's optimal interpolation: consequences and witnesses. *)
From Coq Require Import Lia.
From Verif Require P_Ens.
From Verif Require Import Base ListLib QcTac M_Stat S_Stat P_Stat M_COpt M_CUtil S_CUtil P_CUtil M_CCal S_CCal P_CCal M_CTree S_CTree P_CTree P_Bilin P_CDown P_CDistEx M_CKrig S_CKrig P_CKrig P_CKrigEx M_COi S_COi P_COi P_COi2.
Local Open Scope Z_scope.

(** ** C223 and C225 with all their arguments *)
Lemma c223 D exq o s minrho rf kind d elevs ss a b la lo el laf y x : metric_like D -> scaled o s -> oi_minrho o = Fin minrho -> rect (d_y d) (d_x d) elevs -> (forall i j e, get2 elevs i j = Ok e -> exists q, e = Fin q) ->
  (forall i st, znth ss i = Ok st -> station_at st (a i) /\ 0 <= st_y st < d_y d /\ 0 <= st_x st < d_x d /\ comparable s (a i) b) -> placed la lo el laf b -> 0 <= y < d_y d -> 0 <= x < d_x d ->
  exists l, oi_near (lift4 D) (on_numbers exq) (Fin rf) o (match kind with Some _ => true | None => false end) (match kind with Some r => r | None => 0 end) (d_y d) (d_x d) elevs ss la lo el laf y x = Ok l /\ candidates D exq o s minrho rf kind d elevs ss a b y x l.
Proof. intros. apply near_found; auto. Qed.
Lemma c225_all D E exq sortp inv nn ens o s minrho rf eps gr kind nPar locs pars lats lons elevs lafs d fs ss a b ci : oi_case D E exq inv nn o s minrho rf eps gr kind locs pars lats lons elevs lafs d fs ss a b ci -> sorts_pairs sortp -> nPar <= 3 ->
  exists out, oi_calibrator (lift4 E) (lift4 D) (on_numbers exq) (Fin rf) sortp inv nn ens o nPar locs pars lats lons elevs lafs d fs = Ok out /\ shaped d out /\ forall t y x, 0 <= t < d_t d -> 0 <= y < d_y d -> 0 <= x < d_x d ->
  exists l us w, candidates D exq o s minrho rf kind d elevs ss a (b y x) y x l /\ best (oi_max o) l us /\ gains us (with_errors D o exq s eps a ci) (fun i => related D o exq s (a i) (b y x)) w /\
    (us = [] -> forall e v, 0 <= e < d_e d -> element fs t y x e v -> element out t y x e (if oi_savediff o then Fin missing_number else v)) /\
    (us <> [] -> forall e q ob bg, 0 <= e < d_e d -> element fs t y x e (Fin q) -> whole d fs t e -> departures fs t e ss us gr a b ob bg -> element out t y x e (Fin (q + over us (fun i => w i * (ob i - bg i)))%Qc)) /\
    (us <> [] -> forall e, 0 <= e < d_e d -> ~ whole d fs t e -> element out t y x e (Fin missing_number)).
Proof. intros OC SP NP. apply c225; auto. Qed.

(** ** C226: one station *)
Lemma c226 D E exq sortp inv nn ens o s minrho rf eps gr kind nPar locs pars lats lons elevs lafs d fs st a b ci : oi_case D E exq inv nn o s minrho rf eps gr kind locs pars lats lons elevs lafs d fs [st] a b ci -> sorts_pairs sortp -> nPar <= 3 ->
  1 <= oi_max o -> acceptable o elevs st -> (0 <= ci 0%Z)%Qc ->
  exists out, oi_calibrator (lift4 E) (lift4 D) (on_numbers exq) (Fin rf) sortp inv nn ens o nPar locs pars lats lons elevs lafs d fs = Ok out /\ shaped d out /\
    forall t y x e q qb ob, 0 <= t < d_t d -> within d y x e -> whole d fs t e -> element fs t y x e (Fin q) -> element fs t (st_y st) (st_x st) e (Fin qb) -> st_obs st = Fin ob ->
      reach kind (rf * s_d s) d (along D (a 0%Z) (b y x)) st y x -> (minrho < related D o exq s (a 0%Z) (b y x))%Qc ->
      let k := (related D o exq s (a 0%Z) (b y x) / (1 + eps * eps * ci 0%Z))%Qc in
      (0 <= k <= 1)%Qc /\ element out t y x e (Fin (q + k * (ob - (qb + lapse gr a b 0%Z st)))%Qc).
Proof.
  intros OC SP NP MX AC CI. destruct (c225_all D E exq sortp inv nn ens o s minrho rf eps gr kind nPar locs pars lats lons elevs lafs d fs [st] a b ci OC SP NP) as (out & EO & SO & K). exists out. split; [auto|]. split; [auto|].
  intros t y x e q qb ob Ht (Hy & Hx & He) W Eq Eb Eo RC MR. destruct (K t y x Ht Hy Hx) as (l & us & w & CA & BE & GW & _ & K2 & _).
  pose proof OC as ((MD & ME & XQ & SL) & (SC & _) & (_ & RA & RO & RE & RL) & _ & _ & HS & HP & _). pose proof SC as (_ & SD & _ & _ & _ & SH & SM & SW). set (g := related D o exq s (a 0%Z) (b y x)) in *.
  assert (L1 : In (Fin g, 0) l) by (apply CA; exists st; auto).
  assert (L0 : forall p i, In (p, i) l -> p = Fin g /\ i = 0). { intros p i H. apply CA in H as (st' & Z1 & _ & _ & -> & _). apply znth_range in Z1. change (zlen [st]) with 1 in Z1. assert (i = 0) by lia. subst. auto. }
  assert (LL : l = [(Fin g, 0)]).
  { destruct l as [|[p i] l]; [destruct L1|]. destruct (L0 p i) as [-> ->]; [left; auto|]. destruct l as [|[p i] l]; [auto|]. destruct (L0 p i) as [-> ->]; [right; left; auto|]. destruct CA as [ND _]. inversion ND as [|? ? N1 _]. exfalso. apply N1. left. reflexivity. }
  subst l. destruct BE as (ND & BI & BL & _). change (zlen [(Fin g, 0)]) with 1 in BL. assert (U : us = [0]).
  { destruct us as [|u us]; [change (zlen (@nil Z)) with 0 in BL; lia|]. destruct us as [|u' us]; [|rewrite !zlen_cons in BL; pose proof (zlen_nonneg us); lia]. destruct (BI u) as [<-|[]]; [left; auto|reflexivity]. }
  subst us. specialize (GW 0 (or_introl eq_refl)). unfold over in GW. cbn [map] in GW. change (qsum [_]) with (w 0%Z * with_errors D o exq s eps a ci 0%Z 0%Z + 0)%Qc in GW. unfold with_errors in GW. change (0 =? 0) with true in GW. cbv iota in GW. fold g in GW.
  assert (R1 : related D o exq s (a 0%Z) (a 0%Z) = 1%Qc). { unfold related, along. destruct MD as (_ & _ & MZ). rewrite MZ, !apart_self. apply correlation_zero; auto. }
  rewrite R1 in GW. assert (DP : (0 < 1 + eps * eps * ci 0%Z)%Qc). { assert (0 <= eps * eps * ci 0%Z)%Qc; [|qlra]. assert (S2 : (0 <= eps * eps)%Qc) by qnra. set (e2 := (eps * eps)%Qc) in *. clearbody e2. qnra. }
  assert (WK : w 0%Z = (g / (1 + eps * eps * ci 0%Z))%Qc). { rewrite <- GW. field. intros Z0. apply (Qclt_not_eq _ _ DP). symmetry. exact Z0. }
  assert (P2 : exists la lo el laf, placed la lo el laf (b y x)). { destruct (rect_get2 _ _ _ _ _ RA Hy Hx) as [la Ela]. destruct (rect_get2 _ _ _ _ _ RO Hy Hx) as [lo Elo]. destruct (rect_get2 _ _ _ _ _ RE Hy Hx) as [el Eel]. destruct (rect_get2 _ _ _ _ _ RL Hy Hx) as [laf Elaf]. exists la, lo, el, laf. eapply HP; eauto. }
  destruct P2 as (la & lo & el & laf & (_ & _ & _ & _ & _ & _ & LB)). destruct (HS 0 st eq_refl) as [(_ & _ & _ & _ & _ & _ & LA) _].
  assert (RG : (0 <= g <= 1)%Qc). { unfold g, related. apply correlation_range; auto; [apply MD|apply apart_nonneg|apply apart_nonneg|apply apart_land; auto]. }
  cbv zeta. split.
  - split; [apply qle_div_iff; auto; rewrite Qcmult_0_l; apply RG|apply qdiv_le_iff; auto]. assert (0 <= eps * eps * ci 0%Z)%Qc. { assert (S2 : (0 <= eps * eps)%Qc) by qnra. set (e2 := (eps * eps)%Qc) in *. clearbody e2. qnra. } destruct RG. qlra.
  - specialize (K2 ltac:(discriminate) e q (fun _ => ob) (fun _ => qb + lapse gr a b 0%Z st)%Qc He Eq W). unfold over in K2. cbn [map] in K2. change (qsum [(w 0%Z * (ob - (qb + lapse gr a b 0%Z st)))%Qc]) with (w 0%Z * (ob - (qb + lapse gr a b 0%Z st)) + 0)%Qc in K2. rewrite Qcplus_0_r, WK in K2. apply K2.
    intros i st' [<-|[]] Z1. injection Z1 as <-. split; [auto|]. exists qb. auto.
Qed.
(** ** C231: observations that agree with the background *)
Lemma over_zero us (w f : Z -> Qc) : (forall i, In i us -> f i = 0%Qc) -> over us (fun i => w i * f i)%Qc = 0%Qc.
Proof. unfold over. induction us as [|i us IH]; intros H; [reflexivity|]. cbn [map]. change (qsum (?x :: ?l)) with (x + qsum l)%Qc. rewrite IH by (intros; apply H; right; auto). rewrite (H i (or_introl eq_refl)). ring. Qed.
Lemma c231 D E exq sortp inv nn ens o s minrho rf eps gr kind nPar locs pars lats lons elevs lafs d fs ss a b ci : oi_case D E exq inv nn o s minrho rf eps gr kind locs pars lats lons elevs lafs d fs ss a b ci -> sorts_pairs sortp -> nPar <= 3 -> oi_savediff o = false ->
  exists out, oi_calibrator (lift4 E) (lift4 D) (on_numbers exq) (Fin rf) sortp inv nn ens o nPar locs pars lats lons elevs lafs d fs = Ok out /\ shaped d out /\
    forall t e, 0 <= t < d_t d -> 0 <= e < d_e d -> whole d fs t e -> (forall i st ob, znth ss i = Ok st -> st_obs st = Fin ob -> ob <> missing_number -> exists qb, element fs t (st_y st) (st_x st) e (Fin qb) /\ ob = (qb + lapse gr a b i st)%Qc) ->
      forall y x v, 0 <= y < d_y d -> 0 <= x < d_x d -> element fs t y x e v -> element out t y x e v.
Proof.
  intros OC SP NP SV. destruct (c225_all D E exq sortp inv nn ens o s minrho rf eps gr kind nPar locs pars lats lons elevs lafs d fs ss a b ci OC SP NP) as (out & EO & SO & K). exists out. split; [auto|]. split; [auto|].
  intros t e Ht He W AG y x v Hy Hx Ev. destruct (K t y x Ht Hy Hx) as (l & us & w & CA & BE & GW & K1 & K2 & _). rewrite SV in K1.
  destruct us as [|u us]; [apply K1; auto|]. set (us0 := u :: us) in *. destruct (W y x Hy Hx) as (q & Eq & nq). assert (v = Fin q) by (destruct Ev as (f & F1 & F2); destruct Eq as (f' & F1' & F2'); rewrite F1 in F1'; injection F1' as <-; rewrite F2 in F2'; congruence). subst v.
  assert (HO : exists ob : Z -> Qc, departures fs t e ss us0 gr a b ob ob).
  { exists (fun i => match znth ss i with Ok st => match st_obs st with Fin q => q | _ => 0%Qc end | _ => 0%Qc end). intros i st Hi Est. rewrite Est. destruct BE as (_ & BI & _). apply BI in Hi. apply in_map_iff in Hi as ([p j] & Ej & Hj). cbn in Ej. subst j. apply CA in Hj as (st' & Est' & (AC & _) & _). rewrite Est in Est'. injection Est' as <-.
    destruct (cvalid (st_obs st)) eqn:CV; [|apply cvalid_missing in CV; contradiction]. apply cvalid_true in CV as (ob & Eo & No). rewrite Eo. split; [auto|]. destruct (AG i st ob Est Eo No) as (qb & Q1 & Q2). exists qb. auto. }
  destruct HO as (ob & DP). specialize (K2 ltac:(discriminate) e q ob ob He Eq W DP). rewrite (over_zero us0 w (fun i => ob i - ob i)%Qc) in K2 by (intros; ring). rewrite Qcplus_0_r in K2. exact K2.
Qed.
(** ** C230: the times of the observations *)
Lemma c230 gc ga ex rf sortp inv nn ens o nPar locs pars pars' lats lons elevs lafs d fs : (forall l, In l locs -> pars 0 l = pars' 0 l) ->
  oi_calibrator gc ga ex rf sortp inv nn ens o nPar locs pars lats lons elevs lafs d fs = oi_calibrator gc ga ex rf sortp inv nn ens o nPar locs pars' lats lons elevs lafs d fs.
Proof.
  intros H. unfold oi_calibrator. replace (mapM (fun l => oi_station nn lafs l (pars 0 l)) locs) with (mapM (fun l => oi_station nn lafs l (pars' 0 l)) locs); [reflexivity|]. clear - H. induction locs as [|l ls IH]; [reflexivity|]. cbn [mapM]. rewrite (H l (or_introl eq_refl)). destruct (oi_station _ _ _ _); cbn [bind]; auto. rewrite IH by (intros; apply H; right; auto). reflexivity.
Qed.
(** ** Witnesses *)
Lemma expo_exponential : exponential expo.
Proof.
  split; [reflexivity|]. split; [exact expo_pos|]. intros x y L. unfold expo. destruct (Qclt_le_dec x 0) as [X|X]; destruct (Qclt_le_dec y 0) as [Y|Y].
  - assert (X1 : (0 < 1 - x)%Qc) by qlra. assert (Y1 : (0 < 1 - y)%Qc) by qlra. replace (/ (1 - x))%Qc with (1 / (1 - x))%Qc by (unfold Qcdiv; ring). apply qdiv_le_iff; auto. assert (H1 : (/ (1 - y) * (1 - y) = 1)%Qc) by (apply Qcmult_inv_l; intros K; rewrite K in Y1; discriminate).
    assert (P : (0 < / (1 - y))%Qc) by (apply inv_pos; auto). set (i := (/ (1 - y))%Qc) in *. clearbody i. replace (i * (1 - x))%Qc with (i * (1 - y) + i * (y - x))%Qc by ring. rewrite H1. assert (0 <= y - x)%Qc by qlra. set (k := (y - x)%Qc) in *. clearbody k. assert (0 <= i * k)%Qc by qnra. qlra.
  - assert (X1 : (0 < 1 - x)%Qc) by qlra. replace (/ (1 - x))%Qc with (1 / (1 - x))%Qc by (unfold Qcdiv; ring). apply qdiv_le_iff; auto. qnra.
  - qlra.
  - qlra.
Qed.
Definition plain : oi_options := {| oi_d := fz 10; oi_h := CMV; oi_w := CMV; oi_wmin := CMV; oi_minrho := fq (1 # 10); oi_epsilon := fz 1; oi_gradient := CMV; oi_maxelev := CMV; oi_maxbytes := CMV;
  oi_soar := false; oi_land := false; oi_cross := false; oi_useens := false; oi_savediff := false; oi_max := 20; oi_minens := 5 |}.
Definition ten : scales := {| s_d := qz 10; s_h := None; s_wmin := None; s_w := None |}.
Lemma plain_scaled : scaled plain ten.
Proof. split; [reflexivity|]. split; [reflexivity|]. do 3 (split; [reflexivity|]). do 2 (split; [discriminate|]). discriminate. Qed.
Definition p_lat (n : Z) : place := {| p_la := qz n; p_lo := qz 0; p_el := qz 0; p_land := qz 1 |}.
Lemma p_lat_placed n : (0 <=? n) && (n <=? 90) = true -> placed (fz n) (fz 0) (fz 0) (fz 1) (p_lat n).
Proof. intros H. destruct (at_lat_settled n H) as (_ & _ & _ & E & N). do 4 (split; [reflexivity|]). split; [exact E|]. split; [exact N|]. split; discriminate. Qed.
Definition recip (m : list vec) : list vec := match m with [[Fin q]] => [[Fin (1 / q)%Qc]] | _ => [] end.
Definition st10 (ob : val) : station := {| st_loc := at_lat 10; st_obs := ob; st_ci := fz 1; st_y := 0; st_x := 0; st_laf := fz 1 |}.
Definition two_points (y x : Z) : place := if x =? 0 then p_lat 10 else p_lat 15.
Lemma rect12 (v w : val) : rect 1 2 [[v; w]].
Proof. split; [reflexivity|intros r [<-|[]]; reflexivity]. Qed.
Lemma get12 (v w u : val) y x : get2 [[v; w]] y x = Ok u -> y = 0 /\ (x = 0 /\ u = v \/ x = 1 /\ u = w).
Proof. intros H. pose proof (get2_range _ _ _ _ _ _ (rect12 v w) H) as R. assert (y = 0) by lia. subst. split; [auto|]. assert (x = 0 \/ x = 1) as [-> | ->] by lia; injection H as <-; auto. Qed.
Lemma one_station e vs t ob : shaped (dims2 2 e t) (map (row 2 e) vs) -> (forall l v, In l vs -> In v l -> forall q, v = Fin q -> q <> missing_number -> (missing_number < q)%Qc) ->
  oi_case flat flat expo recip (fun _ => (0, 0)) plain ten (Q2Qc (1 # 10)) 1 1 0 None [at_lat 10] (fun _ _ => [ob]) [[fz 10; fz 15]] [[fz 0; fz 0]] [[fz 0; fz 0]] [[fz 1; fz 1]] (dims2 2 e t) (map (row 2 e) vs) [st10 ob] (fun _ => p_lat 10) two_points (fun _ => 1%Qc).
Proof.
  intros SH HV. assert (I0 : forall i st, znth [st10 ob] i = Ok st -> i = 0 /\ st = st10 ob) by (intros i st H; pose proof (znth_range _ _ _ H) as R; change (zlen [st10 ob]) with 1 in R; apply znth_In in H as [<-|[]]; split; [lia|auto]).
  split; [split; [apply flat_metric|split; [apply flat_metric|split; [apply expo_exponential|discriminate]]]|].
  split; [split; [apply plain_scaled|do 2 (split; [reflexivity|]); split; [right; split; reflexivity|do 2 (split; [reflexivity|]); discriminate]]|].
  split; [split; [auto|do 3 (split; [apply rect12|]); apply rect12]|]. split; [left; cbn; lia|].
  split; [split; [reflexivity|]; intros i l st Hl Hst; apply I0 in Hst as [-> ->]; injection Hl as <-; do 2 (split; [reflexivity|]); do 2 (split; [cbn; lia|]); split; [reflexivity|]; exists []; split; [reflexivity|right; split; [discriminate|reflexivity]]|].
  split; [intros i st H; apply I0 in H as [-> ->]; split; [apply p_lat_placed; reflexivity|reflexivity]|].
  split. { intros y x la lo el laf H1 H2 H3 H4. apply get12 in H1 as (-> & H1). apply get12 in H2 as (_ & H2). apply get12 in H3 as (_ & H3). apply get12 in H4 as (_ & H4). unfold two_points.
    destruct H1 as [[-> ->]|[-> ->]]; (destruct H2 as [[? ->]|[? ->]]; [| ]; try discriminate; destruct H3 as [[? ->]|[? ->]]; try discriminate; destruct H4 as [[? ->]|[? ->]]; try discriminate); apply p_lat_placed; reflexivity. }
  split; [intros i j y x Hi; split; [intros H|intros _ H]; exfalso; apply H; reflexivity|]. split.
  - intros us A N0 ND RU [R M]. change (zlen [st10 ob]) with 1 in RU. assert (us = [0]) as ->. { destruct us as [|u us]; [contradiction|]. assert (u = 0) by (specialize (RU u (or_introl eq_refl)); lia). subst. destruct us as [|u us]; [auto|]. assert (u = 0) by (specialize (RU u (or_intror (or_introl eq_refl))); lia). subst. inversion ND as [|? ? N _]. exfalso. apply N. left. auto. }
    specialize (M 0 0 0 0 eq_refl eq_refl). change (zlen [0]) with 1 in *. destruct R as [R1 R2]. destruct A as [|r [|r2 A]]; [discriminate| |rewrite !zlen_cons in R1; pose proof (zlen_nonneg A); lia]. specialize (R2 r (or_introl eq_refl)). destruct r as [|v [|v2 r]]; [discriminate| |rewrite !zlen_cons in R2; pose proof (zlen_nonneg r); lia]. injection M as ->. cbn [recip].
    split; [apply rect11|]. split; [apply rect11|]. exists (fun _ _ => (1 / with_errors flat plain expo ten 1 (fun _ => p_lat 10) (fun _ => 1) 0 0)%Qc), (fun _ _ => with_errors flat plain expo ten 1 (fun _ => p_lat 10) (fun _ => 1%Qc) 0 0). split.
    + intros i j Hi Hj. assert (i = 0) by lia. assert (j = 0) by lia. subst. split; reflexivity.
    + intros i j Hi Hj. assert (i = 0) by lia. assert (j = 0) by lia. subst. apply Qc_is_canon. vm_compute. reflexivity.
  - intros t' i st e' q Hst (f & Hf & Ev) nq. apply I0 in Hst as [-> ->]. unfold lapse. rewrite Qcmult_0_l, Qcplus_0_r. assert (Hf2 := Hf). apply znth_In in Hf. apply in_map_iff in Hf as (l & <- & Hl). unfold f_get in Ev. cbn [st_y st_x st10 f_values row] in Ev. destruct (f_index (row 2 e l) 0 0 e') as [k| | |] eqn:EK; cbn [bind] in Ev; try discriminate.
    apply (HV l (Fin q) Hl); auto. eapply znth_In; eauto.
Qed.
Definition scaled_by (d h : val) : oi_options := {| oi_d := d; oi_h := h; oi_w := CMV; oi_wmin := CMV; oi_minrho := fq (1 # 10); oi_epsilon := fz 1; oi_gradient := CMV; oi_maxelev := CMV; oi_maxbytes := CMV;
  oi_soar := false; oi_land := false; oi_cross := false; oi_useens := false; oi_savediff := false; oi_max := 20; oi_minens := 5 |}.
Definition station_up (el : val) : station := {| st_loc := {| l_lat := fz 10; l_lon := fz 0; l_elev := el |}; st_obs := fz 14; st_ci := fz 1; st_y := 0; st_x := 0; st_laf := fz 1 |}.
Definition p_up (n : Z) : place := {| p_la := qz 10; p_lo := qz 0; p_el := qz n; p_land := qz 1 |}.
Lemma p_up_placed n : 0 <= n -> placed (fz 10) (fz 0) (fz n) (fz 1) (p_up n).
Proof. intros H. destruct (at_lat_settled 10 eq_refl) as (_ & _ & _ & E & _). do 4 (split; [reflexivity|]). split; [exact E|]. split; [intros K; apply qz_inj in K; lia|]. split; discriminate. Qed.
(** a station without elevation *)
Lemma c222_elevation : exists D exq o st la lo el laf q c, metric_like D /\ exponential exq /\ oi_h o = Fin q /\ (0 < q)%Qc /\ missing (l_elev (st_loc st)) /\ oi_rho (lift4 D) (on_numbers exq) o st la lo el laf = Ok (Fin c) /\ (0 < c)%Qc.
Proof.
  exists flat, expo, (scaled_by (fz 10) (fz 100)), (station_up CMV), (fz 10), (fz 0), (fz 1), (fz 1), (qz 100), (Q2Qc (1 # 51)). split; [apply flat_metric|]. split; [apply expo_exponential|]. do 3 (split; [reflexivity|]). split; [run|reflexivity].
Qed.
(** the other way round *)
Lemma c222_symmetry : exists D exq o st st' a a' c, metric_like D /\ exponential exq /\ station_at st a /\ station_at st' a' /\
  oi_rho (lift4 D) (on_numbers exq) o st (l_lat (st_loc st')) (l_lon (st_loc st')) (l_elev (st_loc st')) (st_laf st') = Ok (Fin 0%Qc) /\
  oi_rho (lift4 D) (on_numbers exq) o st' (l_lat (st_loc st)) (l_lon (st_loc st)) (l_elev (st_loc st)) (st_laf st) = Ok (Fin c) /\ (0 < c)%Qc.
Proof.
  exists flat, expo, (scaled_by (fz 10) (fz 100)), (station_up (fz 0)), (station_up (fz 999)), (p_up 0), (p_up 999), (Q2Qc (20000 # 1018001)). split; [apply flat_metric|]. split; [apply expo_exponential|]. split; [apply p_up_placed; lia|]. split; [apply p_up_placed; lia|]. split; [run|]. split; [run|reflexivity].
Qed.
(** two points at the same distance of a station, on a grid of rows of the same latitude *)
Definition rows4 (f : Z -> val) : list vec := map (fun y => map (fun _ => f y) (zrange 0 4)) (zrange 0 4).
Definition st11 : station := {| st_loc := at_lat 11; st_obs := fz 14; st_ci := fz 1; st_y := 1; st_x := 1; st_laf := fz 1 |}.
Lemma c223_window : exists D exq o rf r ss st a (b b' : place) (y x y' x' : Z) l, metric_like D /\ exponential exq /\ ss = [st] /\ station_at st a /\ placed (fz 10) (fz 0) (fz 0) (fz 1) b /\ placed (fz 12) (fz 0) (fz 0) (fz 1) b' /\ along D a b = along D a b' /\ (along D a b' <= rf)%Qc /\
  st_y st - y = y' - st_y st /\ x = x' /\ x = st_x st /\
  oi_near (lift4 D) (on_numbers exq) (Fin rf) o true r 4 4 (rows4 (fun _ => fz 0)) ss (fz 10) (fz 0) (fz 0) (fz 1) y x = Ok l /\ l <> [] /\
  oi_near (lift4 D) (on_numbers exq) (Fin rf) o true r 4 4 (rows4 (fun _ => fz 0)) ss (fz 12) (fz 0) (fz 0) (fz 1) y' x' = Ok [].
Proof.
  exists flat, expo, plain, (qz 1), 1, [st11], st11, (p_lat 11), (p_lat 10), (p_lat 12), 0, 1, 2, 1, [(fq (200 # 201), 0)]. split; [apply flat_metric|]. split; [apply expo_exponential|]. split; [reflexivity|]. do 3 (split; [apply p_lat_placed; reflexivity|]). split; [reflexivity|]. split; [discriminate|]. do 3 (split; [reflexivity|]). split; [run|]. split; [discriminate|]. run.
Qed.
(** a member with a missing value somewhere else *)
Lemma c225_missing : exists D E exq sortp inv nn ens o s minrho rf eps gr kind nPar locs pars lats lons elevs lafs d fs ss a b ci out t y x e q, oi_case D E exq inv nn o s minrho rf eps gr kind locs pars lats lons elevs lafs d fs ss a b ci /\ sorts_pairs sortp /\ nPar <= 3 /\
  oi_calibrator (lift4 E) (lift4 D) (on_numbers exq) (Fin rf) sortp inv nn ens o nPar locs pars lats lons elevs lafs d fs = Ok out /\ element fs t y x e (Fin q) /\ q <> missing_number /\ element out t y x e (Fin missing_number).
Proof.
  exists flat, flat, expo, sort_pairs, recip, (fun _ => (0, 0)), (fun _ _ _ _ _ _ _ => Abort), plain, ten, (Q2Qc (1 # 10)), 1%Qc, 1%Qc, 0%Qc, None, 1, [at_lat 10], (fun _ _ => [fz 14]), [[fz 10; fz 15]], [[fz 0; fz 0]], [[fz 0; fz 0]], [[fz 1; fz 1]], (dims2 2 1 1), (map (row 2 1) [[fz 8; CMV]]), [st10 (fz 14)], (fun _ => p_lat 10), two_points, (fun _ => 1%Qc), [row 2 1 [CMV; CMV]], 0, 0, 0, 0, (qz 8).
  split; [apply one_station; [apply row_shaped; reflexivity|intros l v [<-|[]] [<-|[<-|[]]] q [= <-] N; [reflexivity|exfalso; apply N; reflexivity]]|]. split; [exact sort_pairs_ok|]. split; [lia|]. split; [run|]. split; [exists (row 2 1 [fz 8; CMV]); split; reflexivity|]. split; [intros K; apply (qz_inj 8 (-999)) in K; lia|]. exists (row 2 1 [CMV; CMV]). split; reflexivity.
Qed.
(** a grid point without coordinates *)
Lemma c227_refuted : exists D exq sortp inv nn ens o rf locs pars lats lons elevs lafs d fs out t y x e q q', metric_like D /\ exponential exq /\ sorts_pairs sortp /\ oi_savediff o = false /\ shaped d fs /\
  (exists la, get2 lats y x = Ok la /\ missing la) /\ oi_calibrator (lift4 D) (lift4 D) (on_numbers exq) (Fin rf) sortp inv nn ens o 1 locs pars lats lons elevs lafs d fs = Ok out /\
  element fs t y x e (Fin q) /\ element out t y x e (Fin q') /\ q <> q'.
Proof.
  exists flat, expo, sort_pairs, recip, (fun _ => (0, 0)), (fun _ _ _ _ _ _ _ => Abort), (scaled_by (fz 1000) CMV), 1%Qc, [at_lat 10], (fun _ _ => [fz 14]), [[fz 10; CMV]], [[fz 0; fz 0]], [[fz 0; fz 0]], [[fz 1; fz 1]], (dims2 2 1 1), [row 2 1 [fz 8; fz 8]], [row 2 1 [fz 11; fq (29984008 # 2998001)]], 0, 0, 1, 0, (qz 8), (Q2Qc (29984008 # 2998001)).
  split; [apply flat_metric|]. split; [apply expo_exponential|]. split; [exact sort_pairs_ok|]. split; [reflexivity|]. split; [apply row_shaped; reflexivity|]. split; [exists CMV; split; reflexivity|]. split; [run|]. split; [exists (row 2 1 [fz 8; fz 8]); split; reflexivity|]. split; [eexists; split; reflexivity|]. discriminate.
Qed.
(** no observation at a time *)
Lemma c230_refuted : exists D exq sortp inv nn ens o rf locs pars lats lons elevs lafs d fs out t y x e q q', metric_like D /\ exponential exq /\ sorts_pairs sortp /\ shaped d fs /\ 0 <= t < d_t d /\
  (forall l, In l locs -> exists ob rest, pars t l = ob :: rest /\ missing ob) /\ oi_calibrator (lift4 D) (lift4 D) (on_numbers exq) (Fin rf) sortp inv nn ens o 1 locs pars lats lons elevs lafs d fs = Ok out /\
  element fs t y x e (Fin q) /\ element out t y x e (Fin q') /\ q <> q'.
Proof.
  exists flat, expo, sort_pairs, recip, (fun _ => (0, 0)), (fun _ _ _ _ _ _ _ => Abort), plain, 1%Qc, [at_lat 10], (fun t _ => if t =? 0 then [fz 14] else [CMV]), [[fz 10]], [[fz 0]], [[fz 0]], [[fz 1]], (dims2 1 1 2), [row 1 1 [fz 8]; row 1 1 [fz 8]], [row 1 1 [fz 11]; row 1 1 [fz 11]], 1, 0, 0, 0, (qz 8), (qz 11).
  split; [apply flat_metric|]. split; [apply expo_exponential|]. split; [exact sort_pairs_ok|]. split; [repeat split; try (cbn; lia); repeat (constructor; [apply row_size; cbn; auto; lia|]); constructor|]. split; [cbn; lia|]. split; [intros l _; exists CMV, []; split; reflexivity|]. split; [run|]. split; [exists (row 1 1 [fz 8]); split; reflexivity|]. split; [exists (row 1 1 [fz 11]); split; reflexivity|]. intros K. apply qz_inj in K. lia.
Qed.
(** a missing member of the background at a station *)
Lemma c228_missing : exists o elevs f st ys mean v, oi_background o elevs 3 f st = Ok (ys, mean) /\ f_get f (st_y st) (st_x st) 1 = Ok v /\ missing v /\ znth ys 1 = Ok (vneg mean) /\ ~ missing mean /\ mean <> fz 0.
Proof.
  exists plain, [[fz 0]], (row 1 3 [fz 4; CMV; fz 8]), (st10 (fz 14)), [fz (-2); fz (-6); fz 2], (fz 6), CMV. split; [vm_compute; do 3 f_equal; apply Qc_is_canon; vm_compute; reflexivity|]. do 2 (split; [reflexivity|]). split; [run|]. split; intros K; [apply (qz_inj 6 (-999)) in K; lia|injection K as K; discriminate].
Qed.
(** ** C227: no observation at all *)
Lemma background_total d o elevs f st : of_size d f -> 0 <= d_e d -> 0 <= st_y st < d_y d -> 0 <= st_x st < d_x d -> missing (oi_gradient o) \/ oi_gradient o = fz 0 -> exists r, oi_background o elevs (d_e d) f st = Ok r.
Proof.
  intros SF HE Hy Hx G. unfold oi_background. replace (cvalid (oi_gradient o) && negb (veqb (oi_gradient o) (fz 0)))%bool with false. 2:{ symmetry. destruct G as [G| ->]; [apply cvalid_missing in G; rewrite G; reflexivity|]. vm_compute. reflexivity. } cbn [bind].
  match goal with |- exists r, bind (foldM ?step ?s0 _) _ = _ => destruct (foldM_range step (fun _ _ => True) 0 (d_e d) s0 HE) as ([[ys total] count] & -> & _); [auto| |] end.
  - intros e [[ys total] count] He _. destruct (of_size_get d f (st_y st) (st_x st) e SF) as [v ->]; [unfold within; auto|]. cbn [bind]. eauto.
  - cbn [bind]. eauto.
Qed.
Lemma c227 gc ga ex rf sortp inv nn ens o nPar locs pars lats lons elevs lafs d fs : shaped d fs -> rect (d_y d) (d_x d) lats -> rect (d_y d) (d_x d) lons -> rect (d_y d) (d_x d) elevs -> rect (d_y d) (d_x d) lafs -> d_y d <= 1 \/ d_x d <= 1 -> nPar <= 3 ->
  (forall l, In l locs -> 0 <= fst (nn l) < d_y d /\ 0 <= snd (nn l) < d_x d /\ exists ob rest, pars 0 l = ob :: rest /\ missing ob) -> missing (oi_gradient o) \/ oi_gradient o = fz 0 -> oi_savediff o = false ->
  exists out, oi_calibrator gc ga ex rf sortp inv nn ens o nPar locs pars lats lons elevs lafs d fs = Ok out /\ shaped d out /\ forall t y x e v, 0 <= t < d_t d -> within d y x e -> element fs t y x e v -> element out t y x e v.
Proof.
  intros SH RA RO RE RL IR NP HL GR SV. unfold oi_calibrator. destruct (valid_found lats lons elevs d RA RO RE) as [EV|[EV NV]]; rewrite EV; cbn [bind negb]. 2:{ exists fs. auto. }
  replace (3 <? nPar) with false by lia.
  assert (PP : 0 < d_y d /\ 0 < d_x d). { destruct (pairs2 (d_y d) (d_x d)) as [|[y x] l] eqn:EPP; [discriminate|]. assert (Hin : In (y, x) (pairs2 (d_y d) (d_x d))) by (rewrite EPP; left; auto). apply in_points in Hin. lia. }
  destruct PP as [Py Px]. clear EV.
  assert (GS : oi_grid_size gc lats lons = Ok CMV).
  { unfold oi_grid_size. destruct RA as [RA1 RA2]. rewrite RA1. destruct (znth_some lats 0) as [r0 Er0]; [lia|]. rewrite Er0. cbn [bind]. rewrite (RA2 r0) by (eapply znth_In; eauto). destruct (Z.ltb_spec 1 (d_y d)); auto. destruct (Z.ltb_spec 1 (d_x d)); auto. lia. }
  rewrite GS. cbn [bind]. change (oi_radius rf o CMV (zlen locs)) with (@Ok Z 0). cbn [bind]. change (cvalid CMV) with false.
  destruct (mapM_total (fun l => oi_station nn lafs l (pars 0 l)) (fun _ st => missing (st_obs st) /\ 0 <= st_y st < d_y d /\ 0 <= st_x st < d_x d) locs) as (ss & ES & LS & HS).
  { intros l Hl. destruct (HL l Hl) as (Hy & Hx & ob & rest & EP & MO). unfold oi_station. rewrite EP. destruct (nn l) as [Y X]. cbn in Hy, Hx. destruct (rect_get2 _ _ _ _ _ RL Hy Hx) as [laf ->]. cbn [bind]. eexists. split; [reflexivity|]. auto. }
  rewrite ES. cbn [bind]. assert (SI : forall st, In st ss -> missing (st_obs st) /\ 0 <= st_y st < d_y d /\ 0 <= st_x st < d_x d).
  { intros st Hst. destruct (In_znth ss st Hst) as (i & Hi). destruct (znth_some locs i) as [l Hl]; [rewrite <- LS; eapply znth_range; eauto|]. destruct (HS i l Hl) as (st' & E1 & _ & K). rewrite Hi in E1. injection E1 as <-. auto. }
  assert (NN : forall la lo el laf y x, oi_near ga ex rf o false 0 (d_y d) (d_x d) elevs ss la lo el laf y x = Ok []).
  { intros. unfold oi_near. match goal with |- foldM ?step ?s0 _ = _ => destruct (foldM_range step (fun _ l => l = []) 0 (zlen ss) s0) as (l & El & ->); [apply zlen_nonneg|reflexivity| |exact El] end.
    intros i l Hi ->. destruct (znth_some ss i Hi) as [st Est]. rewrite Est. cbn [bind]. destruct (SI st) as (MO & Hy & Hx); [eapply znth_In; eauto|]. unfold oi_accepts. destruct (rect_get2 _ _ _ _ _ RE Hy Hx) as [e ->]. cbn [bind]. apply cvalid_missing in MO. rewrite MO, andb_false_r. cbn [andb bind]. eauto. }
  match goal with |- exists out, each_time d ?body = _ /\ _ => destruct (each_time_ok d fs body (fun t g => forall y x e v, within d y x e -> element fs t y x e v -> f_get g y x e = Ok v) SH) as (out & EO & SO & KO) end.
  - intros t Ht. destruct (shaped_nth d fs t SH Ht) as (f & Ef & Sf). rewrite Ef. cbn [bind].
    destruct SH as (_ & Y0 & X0 & E0 & _). destruct (empty_values d Y0 X0 E0) as (out0 & EO & SO & VO). rewrite EO. cbn [bind].
    destruct (mapM_total (oi_background o elevs (d_e d) f) (fun _ _ => True) ss) as (back & EB & _). { intros st Hst. destruct (SI st Hst) as (_ & Hy & Hx). destruct (background_total d o elevs f st Sf E0 Hy Hx GR) as [r Er]. eauto. }
    rewrite EB. cbn [bind]. destruct (members_found d f Sf E0) as (ms & EM & _). rewrite EM. cbn [bind].
    match goal with |- exists g, foldM (fun f1 c => let '(i, j) := c in @?body f1 i j) _ _ = _ /\ _ => destruct (points_spec d (fun y x (get : Z -> res val) => forall e v, 0 <= e < d_e d -> f_get f y x e = Ok v -> get e = Ok v) (Fin missing_number) body out0 SO VO) as (out & EF & Sf' & K) end.
    + intros y x g1 g2 EG H e v He Ev. rewrite <- EG by auto. auto.
    + intros out1 y x S1 Hy Hx H1. destruct (rect_get2 _ _ _ _ _ RA Hy Hx) as [la ->]. destruct (rect_get2 _ _ _ _ _ RO Hy Hx) as [lo ->]. destruct (rect_get2 _ _ _ _ _ RE Hy Hx) as [el ->]. destruct (rect_get2 _ _ _ _ _ RL Hy Hx) as [laf ->]. cbn [bind]. rewrite NN. cbn [bind]. cbv zeta.
      replace (oi_chosen sortp o []) with (@nil Z). 2:{ unfold oi_chosen. change (oi_without []) with (@nil (val * Z)). replace (if oi_cross o then [] else []) with (@nil (val * Z)) by (destruct (oi_cross o); reflexivity). change (zlen (@nil (val * Z))) with 0. replace ((0 <=? oi_max o) && (oi_max o <? 0)) with false by lia. reflexivity. }
      change (zlen (@nil Z) =? 0) with true. cbv iota.
      match goal with |- exists g, foldM ?step _ _ = _ /\ _ => destruct (foldM_range step (fun n g => of_size d g /\ (forall e v, 0 <= e < n -> f_get f y x e = Ok v -> f_get g y x e = Ok v) /\ forall y' x' e, within d y' x' e -> (y', x') <> (y, x) -> f_get g y' x' e = f_get out1 y' x' e) 0 (d_e d) out1) as (g' & EG & Sg & G1 & G2); [auto| | |] end.
      * split; [auto|]. split; [intros; lia|auto].
      * intros e g1 He (Sg & G1 & G2). destruct (of_size_get d f y x e Sf) as [v Ev]; [unfold within; auto|]. rewrite Ev, SV. cbn [bind]. destruct (f_set_size d g1 y x e v Sg) as (g2 & E5 & S2 & K1 & K2); [unfold within; auto|]. exists g2. split; [auto|]. split; [auto|]. split.
        -- intros e' v' He' Ev'. destruct (Z.eq_dec e' e) as [->|NE]; [rewrite Ev in Ev'; injection Ev' as <-; auto|]. rewrite K2; [apply G1; auto; lia|unfold within; split; [auto|split; [auto|lia]]|intros [= ->]; contradiction].
        -- intros y' x' e' W N. rewrite K2; auto. intros [= -> -> ->]. contradiction.
      * exists g'. split; [exact EG|]. split; [auto|]. split; [|auto]. intros e v He Ev. apply G1; auto.
    + exists out. split; [exact EF|]. split; [auto|]. intros y x e v (Hy & Hx & He) (f' & Ef' & Ev). rewrite Ef in Ef'. injection Ef' as <-. apply (K y x Hy Hx); auto.
  - exists out. split; [exact EO|]. split; [auto|]. intros t y x e v Ht W Ev. destruct (KO t Ht) as (g' & Hg & K). exists g'. split; [auto|]. apply K; auto.
Qed.
(** ** C228: the delta parameter *)
Lemma foldM_elements {S A} (f : S -> A -> res S) (g : S -> Z -> res S) l s : (forall s k, g s k = (a <- znth l k ;; f s a)) -> foldM g s (zrange 0 (zlen l)) = foldM f s l.
Proof. intros H. transitivity (foldM (fun s k => a <- znth l k ;; f s a) s (zrange 0 (zlen l))); [apply P_Ens.foldM_ext; exact H|apply P_Ens.foldM_zrange_znth]. Qed.
Lemma row_spread row : forall a n, foldM (fun st v => let '(value, count) := st in Ok (if cvalid v then (vadd value (vmul v v), count + 1) else (value, count))) (Fin a, n) row = Ok (Fin (a + qsum (map (fun q => q * q) (present row)))%Qc, n + zlen (present row)).
Proof.
  induction row as [|v row IH]; intros a n; [cbn [foldM]; change (present []) with (@nil Qc); cbn [map]; change (qsum []) with 0%Qc; change (zlen (@nil Qc)) with 0; rewrite Qcplus_0_r, Z.add_0_r; reflexivity|]. cbn [foldM bind]. rewrite present_cons. destruct (cvalid v) eqn:CV.
  - apply cvalid_true in CV as (q & -> & nq). destruct (Qc_eq_dec q missing_number); [contradiction|]. rewrite vmul_F, vadd_F, IH, zlen_cons. cbn [map]. change (qsum (q * q :: map (fun q => q * q) (present row))%Qc) with (q * q + qsum (map (fun q => q * q) (present row)))%Qc. do 2 f_equal; [f_equal; ring|lia].
  - rewrite IH. destruct v; auto. destruct (Qc_eq_dec q missing_number); auto. rewrite cvalid_Fin in CV by auto. discriminate.
Qed.
Lemma rows_spread n gY : (forall r, In r gY -> zlen r = n) -> forall a k,
  foldM (fun st row => let '(trace, numValid) := st in
      '(value, count) <- foldM (fun st e => let '(value, count) := st in v <- znth row e ;; Ok (if cvalid v then (vadd value (vmul v v), count + 1) else (value, count))) (fz 0, 0) (zrange 0 n) ;;
      Ok (if 1 <? count then (vadd trace (vdiv value (fz (count - 1))), vadd numValid (fz 1)) else (trace, numValid))) (Fin a, Fin k) gY = Ok (Fin (a + qsum (spreads gY))%Qc, Fin (k + qlen (spreads gY))%Qc).
Proof.
  induction gY as [|row gY IH]; intros HN a k; [cbn [foldM]; change (spreads []) with (@nil Qc); change (qsum []) with 0%Qc; change (qlen (@nil Qc)) with 0%Qc; rewrite !Qcplus_0_r; reflexivity|]. cbn [foldM].
  rewrite <- (HN row (or_introl eq_refl)). rewrite (foldM_elements (fun st v => let '(value, count) := st in Ok (if cvalid v then (vadd value (vmul v v), count + 1) else (value, count))) _ row) by (intros [value count] k0; reflexivity).
  change (fz 0, 0) with (Fin 0%Qc, 0). rewrite row_spread. cbn [bind]. rewrite (HN row (or_introl eq_refl)), Qcplus_0_l, Z.add_0_l.
  assert (HN' : forall r, In r gY -> zlen r = n) by (intros; apply HN; right; auto). unfold spreads. cbn [flat_map]. fold (spreads gY). destruct (Z.ltb_spec 1 (zlen (present row))) as [L|L].
  - change (fz (zlen (present row) - 1)) with (Fin (qz (zlen (present row) - 1))). rewrite vdiv_F by (intros K; apply (qz_inj _ 0) in K; lia). change (fz 1) with (Fin 1%Qc). rewrite !vadd_F, (IH HN'). cbn [app].
    change (qsum (?x :: ?l)) with (x + qsum l)%Qc. unfold qlen. rewrite zlen_cons, qz_add. do 2 f_equal; f_equal; [ring|change (qz 1) with 1%Qc; ring].
  - rewrite (IH HN'). reflexivity.
Qed.
Lemma c228 c sigma eps nd old gY : gY <> [] -> (forall r r', In r gY -> In r' gY -> zlen r = zlen r') -> spreads gY <> [] -> qsum (spreads gY) <> 0%Qc -> sigma <> 0%Qc -> eps <> 0%Qc -> (1 < c)%Qc -> (0 < nd)%Qc ->
  let evidence := (sigma * sigma / (eps * eps) / (qsum (spreads gY) / qlen (spreads gY)))%Qc in
  exists r, oi_delta (Fin c) (Fin sigma) (Fin eps) (Fin nd) (Fin old) gY = Ok (Fin r) /\ r = ((old * nd + evidence * (c - 1)) / (nd + (c - 1)))%Qc /\ ((old <= evidence)%Qc -> (old <= r <= evidence)%Qc) /\ ((evidence <= old)%Qc -> (evidence <= r <= old)%Qc).
Proof.
  intros N0 HN S0 T0 NS NE HC HD. cbv zeta. set (ev := (sigma * sigma / (eps * eps) / (qsum (spreads gY) / qlen (spreads gY)))%Qc).
  assert (DP : (0 < nd + (c - 1))%Qc) by qlra. exists ((old * nd + ev * (c - 1)) / (nd + (c - 1)))%Qc. split; [|split; [reflexivity|]].
  - unfold oi_delta. destruct gY as [|r0 g]; [contradiction|]. change (znth (r0 :: g) 0) with (@Ok vec r0). cbn [bind]. change (fz 0, fz 0) with (Fin 0%Qc, Fin 0%Qc). rewrite (rows_spread (zlen r0) (r0 :: g)) by (intros r Hr; apply HN; [auto|left; auto]). cbn [bind]. cbv zeta. set (sp := spreads (r0 :: g)) in *.
    assert (LN : qlen sp <> 0%Qc) by (apply qlen_neq0; auto). change (fz 1) with (Fin 1%Qc). rewrite !Qcplus_0_l, !vmul_F, !vdiv_F, !vmul_F by auto.
    assert (LI : (1 / qlen sp * qsum sp <> 0)%Qc). { intros K. apply T0. replace (qsum sp) with (qlen sp * (1 / qlen sp * qsum sp))%Qc by (field; auto). rewrite K. ring. }
    rewrite ?vdiv_F by auto. rewrite vsub_F, !vmul_F, !vadd_F. rewrite vdiv_F by (intros K; apply (Qclt_not_eq _ _ DP); rewrite <- K; ring). do 2 f_equal. unfold ev. fold sp. field. do 3 (split; [auto|]). intros K. apply (Qclt_not_eq _ _ DP). symmetry. exact K.
  - clearbody ev. split; intros L; (split; [apply qle_div_iff|apply qdiv_le_iff]; auto); assert (0 <= c - 1)%Qc by qlra; set (k := (c - 1)%Qc) in *; clearbody k; qnra.
Qed.
Lemma c228_empty : exists c sigma eps nd old, oi_delta c sigma eps nd old [] = UB.
Proof. exists (fz 2), (fz 1), (fz 1), (fz 1), (fz 1). reflexivity. Qed.
