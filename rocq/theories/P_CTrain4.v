(** The training of the client's coastal calibrator: theorems. *)
From Verif Require Import Base QcTac ListLib M_Geo S_Geo M_Stat S_Stat P_Stat M_OI S_OI P_OISum M_Ensi M_COpt M_CUtil S_CUtil P_CUtil M_CCal S_CCal P_CCal M_CCal2 S_CCal2 P_CCal2 S_CDown M_CGradient S_CGradient P_CGradient P_CBct M_CCoast S_CCoast P_CCoast M_CTrain S_CTrain P_CTrain P_CTrain2 P_CTrain3.
Local Open Scope Z_scope.

Lemma c251 E lu radius md nn laf d data cs Io Jo Ie Je pl ql pu qu : lu_inverts lu 2 -> (0 <= md)%Qc -> training d radius laf Io Jo Ie Je pl ql pu qu data cs -> bases_known nn cs -> let l := samples nn (qu - ql)%Qc cs in
  ((md < qu - ql)%Qc -> varied l -> exists a c, coastal_train E lu radius (Fin md) nn laf data Io Jo Ie Je = Ok [Fin a; Fin 1; Fin c] /\
    forall a' c', (squared_error l a c <= squared_error l a' c')%Qc /\ (squared_error l a' c' = squared_error l a c -> a' = a /\ c' = c)) /\
  ((qu - ql <= md)%Qc -> l <> [] -> (forall p, In p l -> missing_number < fst p)%Qc -> exists a, coastal_train E lu radius (Fin md) nn laf data Io Jo Ie Je = Ok [Fin a; Fin 1; Fin 0] /\
    a = qmean (map fst l) /\ forall a', (squared_error l a 0 <= squared_error l a' 0)%Qc).
Proof.
  intros HLU Hmd HT HB l. split.
  - intros HM V. destruct (range_case E lu radius md nn laf d data cs Io Jo Ie Je pl pu ql qu HLU Hmd HT HB HM) as [[K _]|[_ R]]; [contradiction|exact R].
  - intros HM NE HP. destruct (flat_case E lu radius md nn laf d data cs Io Jo Ie Je pl pu ql qu HT HB HM) as [[K _]|[_ R]]; [contradiction|]. exists (qmean (map fst l)). split; [apply R; exact HP|]. split; [reflexivity|]. intros a'. apply mean_least. exact NE.
Qed.
Lemma c252_stops E lu radius md nn laf d data cs Io Jo Ie Je pl ql pu qu : lu_inverts lu 2 -> (0 <= md)%Qc -> training d radius laf Io Jo Ie Je pl ql pu qu data cs -> bases_known nn cs -> let l := samples nn (qu - ql)%Qc cs in
  l = [] \/ (md < qu - ql)%Qc /\ ~ varied l -> coastal_train E lu radius (Fin md) nn laf data Io Jo Ie Je = Abort.
Proof.
  intros HLU Hmd HT HB l H. destruct (Qclt_le_dec md (qu - ql)) as [HM|HM].
  - destruct (range_case E lu radius md nn laf d data cs Io Jo Ie Je pl pu ql qu HLU Hmd HT HB HM) as [[_ R]|[V _]]; [exact R|]. exfalso. destruct H as [H|[_ H]]; [|contradiction]. fold l in V. rewrite H in V. destruct V as (p & _ & [] & _).
  - destruct (flat_case E lu radius md nn laf d data cs Io Jo Ie Je pl pu ql qu HT HB HM) as [[_ R]|[NE _]]; [exact R|]. exfalso. destruct H as [H|[H _]]; [contradiction|]. clear - H HM. qlra.
Qed.
(** *** calibration of the training data *)
Lemma all_numbers vs : (forall i, 0 <= i < zlen vs -> exists q, znth vs i = Ok (Fin q) /\ (missing_number < q)%Qc) -> exists qs, vs = map Fin qs /\ forall q, In q qs -> (missing_number < q)%Qc.
Proof.
  induction vs as [|v vs IH]; intros H; [exists []; split; [reflexivity|intros ? []]|]. pose proof (zlen_nonneg vs) as N. destruct (H 0) as (q & Eq & Hq); [rewrite zlen_cons; lia|]. injection Eq as ->.
  destruct IH as (qs & -> & Hqs). { intros i Hi. destruct (H (i + 1)) as (q' & E' & H'); [rewrite zlen_cons; lia|]. exists q'. split; [|exact H']. rewrite <- E'. unfold znth. destruct (Z.ltb_spec i 0); [lia|]. destruct (Z.ltb_spec (i + 1) 0); [lia|]. replace (Z.to_nat (i + 1)) with (S (Z.to_nat i)) by lia. reflexivity. }
  exists (q :: qs). split; [reflexivity|]. intros q' [<-|Hq']; auto.
Qed.
Lemma present_all qs : (forall q, In q qs -> (missing_number < q)%Qc) -> present (map Fin qs) = qs.
Proof.
  induction qs as [|q qs IH]; intros H; [reflexivity|]. cbn [map]. rewrite present_cons. destruct (Qc_eq_dec q missing_number) as [->|_]; [exfalso; apply (Qclt_irrefl missing_number); apply H; left; reflexivity|]. f_equal. apply IH. intros; apply H; right; assumption.
Qed.
Lemma mean_fun d f p m m' : mean_at d f p m -> mean_at d f p m' -> m = m'.
Proof.
  intros (vs & L & G & ->) (vs' & L' & G' & ->). f_equal. apply znth_ext; [lia|]. intros i Hi. rewrite <- G, <- G' by lia. reflexivity.
Qed.
Lemma complete_mean d Io Jo x o p : complete_case d Io Jo x o -> of_size d (snd x) -> 0 < d_e d -> 0 <= fst p < d_y d -> 0 <= snd p < d_x d ->
  exists qs, zlen qs = d_e d /\ (forall e, 0 <= e < d_e d -> f_get (snd x) (fst p) (snd p) e = Ok (Fin (qnth qs e))) /\ mean_at d (snd x) p (Some (qmean qs)).
Proof.
  intros (_ & _ & HC) S He H1 H2. destruct (ens_ok d (snd x) (fst p) (snd p) S H1 H2 He) as (vs & EV & LV & GV). destruct (all_numbers vs) as (qs & -> & HQ).
  { intros i Hi. rewrite GV by lia. apply HC. unfold within. lia. }
  rewrite zlen_map in LV. exists qs. split; [exact LV|]. split.
  - intros e Hee. rewrite <- GV by lia. rewrite znth_map, (znth_nth qs 0%Qc) by lia. reflexivity.
  - exists (map Fin qs). split; [rewrite zlen_map; exact LV|]. split; [intros e Hee; symmetry; apply GV; lia|]. unfold mean_of. rewrite present_all by exact HQ. destruct (list_eq_dec Qc_eq_dec qs []) as [K0|NE]; [exfalso; rewrite K0 in LV; change (zlen []) with 0 in LV; lia|].
    destruct (Qc_eq_dec (qmean qs) missing_number) as [Q|_]; [|reflexivity]. exfalso. pose proof (qsum_gt missing_number qs NE HQ) as G. unfold qmean in Q. rewrite <- Q in G.
    replace (qlen qs * (qsum qs / qlen qs))%Qc with (qsum qs) in G; [revert G; apply Qclt_irrefl|]. field. unfold qlen. intros Q'. rewrite <- qz_0 in Q'. apply qz_inj in Q'. lia.
Qed.
Section Calibrated.
Variables (d : dims) (radius : Z) (md : Qc) (nn : bool) (laf : list vec) (Io Jo Ie Je : Z) (pl pu : Z * Z) (ql qu a b : Qc).
Hypothesis Hr : 0 <= radius.
Hypothesis HF : fractions d laf.
Hypothesis He : 0 < d_e d.
Hypothesis HI : 0 <= Ie < d_y d.
Hypothesis HJ : 0 <= Je < d_x d.
Hypothesis HL : least_land d radius laf Ie Je pl ql.
Hypothesis HU : most_land d radius laf Ie Je pu qu.
Let land := (qu - ql)%Qc.
Let range := if Qclt_le_dec md land then 1%Qc else 0%Qc.
Lemma case_mean x c o ws : case_at d Io Jo (Ie, Je) pl pu x c -> complete_case d Io Jo x o -> calibrated_case d radius md nn [Fin a; Fin 1; Fin b] laf Ie Je x ws ->
  exists p, sample nn land c = [p] /\ (fst p - (a + b * (range * snd p)) = o - qmean ws)%Qc.
Proof.
  intros (S & (v & Ev & Eo) & M1 & M2 & M3) HC (LW & HW). destruct HL as ((L1 & L2 & _) & _), HU as ((U1 & U2 & _) & _).
  destruct (complete_mean d Io Jo x o (Ie, Je) HC S He HI HJ) as (own & Lo & Go & Mo). destruct (complete_mean d Io Jo x o pl HC S He L1 L2) as (low & Ll & Gl & Ml). destruct (complete_mean d Io Jo x o pu HC S He U1 U2) as (up & Lu & Gu & Mu).
  pose proof (mean_fun _ _ _ _ _ M1 Mo) as Eown. pose proof (mean_fun _ _ _ _ _ M2 Ml) as Elow. pose proof (mean_fun _ _ _ _ _ M3 Mu) as Eup.
  destruct HC as (Ho & No & _). rewrite Ho in Ev. injection Ev as <-. cbn [known] in Eo. destruct (Qc_eq_dec o missing_number); [contradiction|].
  set (bs := if nn then own else low). assert (LB : zlen bs = d_e d) by (unfold bs; destruct nn; assumption). assert (EB : base nn c = Some (qmean bs)) by (unfold base, bs; destruct nn; assumption).
  unfold sample. rewrite Eo, Eown, EB, Elow, Eup. eexists. split; [reflexivity|]. cbn [fst snd].
  assert (W : forall e, 0 <= e < d_e d -> qnth ws e = (a + qnth bs e + b * (range * ((qnth up e - qnth low e) / land)))%Qc).
  { intros e Hee. destruct (HW e Hee) as (a' & b' & c' & pl' & ql' & pu' & qu' & lo' & up' & own' & P0 & P1 & P2 & HL' & HU' & K1 & K2 & K3 & ->). injection P0 as <-. injection P1 as <-. injection P2 as <-.
    pose proof (tsearch_found d laf radius Ie Je HF pl ql pu qu Hr HI HJ HL HU) as T1. rewrite (tsearch_found d laf radius Ie Je HF pl' ql' pu' qu' Hr HI HJ HL' HU') in T1. injection T1 as -> -> -> ->.
    rewrite Gl in K1 by exact Hee. injection K1 as <-. rewrite Gu in K2 by exact Hee. injection K2 as <-. cbn [fst snd] in K3, Go. rewrite Go in K3 by exact Hee. injection K3 as <-.
    unfold range. fold land. replace (if nn then qnth own e else qnth low e) with (qnth bs e) by (unfold bs; destruct nn; reflexivity). destruct (Qclt_le_dec md land); ring. }
  assert (QN : qz (d_e d) <> 0%Qc) by (intros Q; rewrite <- qz_0 in Q; apply qz_inj in Q; lia).
  assert (QW : qsum ws = (qz (d_e d) * a + qsum bs + b * (range * ((qsum up - qsum low) / land)))%Qc).
  { rewrite (qsum_qnth ws), (qsum_qnth bs), (qsum_qnth up), (qsum_qnth low), LW, LB, Lu, Ll.
    transitivity (tot (zrange 0 (d_e d)) (fun e => (a + qnth bs e) + (b * (range * / land)) * (qnth up e - qnth low e)))%Qc. { apply tot_ext. intros e Hee. apply in_zrange in Hee. rewrite W by exact Hee. unfold Qcdiv. ring. }
    rewrite !tot_add, tot_mul_l, tot_sub. assert (TC : tot (zrange 0 (d_e d)) (fun _ => a) = (qz (d_e d) * a)%Qc).
    { replace (qz (d_e d)) with (qz (zlen (zrange 0 (d_e d)))) by (rewrite zlen_zrange by lia; f_equal; lia). generalize (zrange 0 (d_e d)). intros U. induction U as [|k U IH]; [unfold tot; cbn [map fold_right]; change (zlen []) with 0; rewrite qz_0; ring|]. rewrite tot_cons, IH, zlen_cons, qz_add, qz_1. ring. }
    rewrite TC. unfold Qcdiv. ring. }
  assert (ML : forall q, zlen q = d_e d -> qmean q = (qsum q / qz (d_e d))%Qc) by (intros q Hq; unfold qmean, qlen; rewrite Hq; reflexivity).
  rewrite !ML by assumption. rewrite QW. unfold Qcdiv. generalize (/ land)%Qc. intros il. field. exact QN.
Qed.
Lemma cases_sum data cs : Forall2 (case_at d Io Jo (Ie, Je) pl pu) data cs -> forall os wss, Forall2 (complete_case d Io Jo) data os -> Forall2 (calibrated_case d radius md nn [Fin a; Fin 1; Fin b] laf Ie Je) data wss ->
  qsum (map (fun p => fst p - (a + b * (range * snd p)))%Qc (samples nn land cs)) = (qsum os - qsum (map qmean wss))%Qc.
Proof.
  induction 1 as [|x c data cs Hc HD IH]; intros os wss HO HW; inversion HO as [|? o ? os' H1 H2]; subst; inversion HW as [|? ws ? wss' H3 H4]; subst; [reflexivity|].
  destruct (case_mean x c o ws Hc H1 H3) as (p & Ep & Q). unfold samples. cbn [flat_map]. rewrite Ep. cbn [app map qsum]. fold (samples nn land cs). rewrite Q, (IH os' wss' H2 H4). ring.
Qed.
End Calibrated.
Lemma qsum_ext_ {A} (f g : A -> Qc) l : (forall p, f p = g p) -> qsum (map f l) = qsum (map g l).
Proof. intros H. rewrite (map_ext f g H). reflexivity. Qed.
Lemma c253 E lu radius md nn laf d data cs Io Jo Ie Je pl ql pu qu par os wss : lu_inverts lu 2 -> (0 <= md)%Qc -> training d radius laf Io Jo Ie Je pl ql pu qu data cs ->
  Forall2 (complete_case d Io Jo) data os -> (forall p, In p (samples nn (qu - ql)%Qc cs) -> missing_number < fst p)%Qc ->
  coastal_train E lu radius (Fin md) nn laf data Io Jo Ie Je = Ok par -> Forall2 (calibrated_case d radius md nn par laf Ie Je) data wss -> qsum (map qmean wss) = qsum os.
Proof.
  intros HLU Hmd HT HO HP ET HW. assert (HT' := HT). destruct HT' as (Hr & HF & He & HI & HJ & HL & HU & ND & HD).
  assert (HB : bases_known nn cs).
  { clear - HD HO HL HU HI HJ He. revert os HO. induction HD as [|x c data cs Hc HD IH]; intros os HO c' Hc' A1 A2; [destruct Hc'|]. inversion HO as [|? o ? os' H1 H2]; subst. destruct Hc' as [<-|Hc']; [|apply (IH os' H2 c' Hc' A1 A2)].
    destruct Hc as (S & _ & M1 & M2 & _). destruct HL as ((L1 & L2 & _) & _). destruct (complete_mean d Io Jo x o (Ie, Je) H1 S He HI HJ) as (own & _ & _ & Mo). destruct (complete_mean d Io Jo x o pl H1 S He L1 L2) as (low & _ & _ & Ml).
    unfold base. destruct nn; [rewrite (mean_fun _ _ _ _ _ M1 Mo)|rewrite (mean_fun _ _ _ _ _ M2 Ml)]; discriminate. }
  assert (G : exists a b, par = [Fin a; Fin 1; Fin b] /\ qsum (map (fun p => fst p - (a + b * ((if Qclt_le_dec md (qu - ql) then 1 else 0) * snd p)))%Qc (samples nn (qu - ql)%Qc cs)) = 0%Qc).
  { destruct (Qclt_le_dec md (qu - ql)) as [HM|HM].
    - destruct (range_case E lu radius md nn laf d data cs Io Jo Ie Je pl pu ql qu HLU Hmd HT HB HM) as [[_ R]|[V (a & b & R & B)]]; [congruence|]. rewrite R in ET. injection ET as <-. exists a, b. split; [reflexivity|].
      etransitivity; [|exact (least_mean (samples nn (qu - ql)%Qc cs) a b (fun a' => proj1 (B a' b)))]. apply qsum_ext_. intros p. ring.
    - destruct (flat_case E lu radius md nn laf d data cs Io Jo Ie Je pl pu ql qu HT HB HM) as [[_ R]|[NE R]]; [congruence|]. rewrite (R HP) in ET. injection ET as <-. exists (qmean (map fst (samples nn (qu - ql)%Qc cs))), 0%Qc. split; [reflexivity|].
      etransitivity; [|exact (least_mean (samples nn (qu - ql)%Qc cs) (qmean (map fst (samples nn (qu - ql)%Qc cs))) 0 (fun a' => mean_least _ a' NE))]. apply qsum_ext_. intros p. ring. }
  destruct G as (a & b & -> & G). rewrite (cases_sum d radius md nn laf Io Jo Ie Je pl pu ql qu a b Hr HF He HI HJ HL HU data cs HD os wss HO HW) in G.
  revert G. generalize (qsum os) (qsum (map qmean wss)). intros u v G. apply Qcle_antisym; qlra.
Qed.
