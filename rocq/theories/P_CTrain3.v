(** The training of the client's coastal calibrator: what is found. *)
From Verif Require Import Base QcTac ListLib M_Geo S_Geo M_Stat S_Stat P_Stat M_OI S_OI P_OISum M_Ensi M_COpt M_CUtil S_CUtil P_CUtil M_CCal S_CCal P_CCal M_CCal2 S_CCal2 P_CCal2 S_CDown M_CGradient S_CGradient P_CGradient P_CBct M_CCoast S_CCoast P_CCoast M_CTrain S_CTrain P_CTrain P_CTrain2.
Local Open Scope Z_scope.

Lemma qsum_positions {A} (F : A -> Qc) (z : A) l : qsum (map F l) = tot (zrange 0 (zlen l)) (fun t => F (nth (Z.to_nat t) l z)).
Proof.
  induction l as [|a l IH] using rev_ind; [reflexivity|]. rewrite map_app, qsum_app, zlen_app. change (zlen [a]) with 1. rewrite (zrange_snoc 0 (zlen l + 1)) by (unfold zlen; lia). replace (zlen l + 1 - 1) with (zlen l) by lia. rewrite tot_app, IH. f_equal.
  - apply tot_ext. intros k Hk. apply in_zrange in Hk. unfold zlen in Hk. rewrite app_nth1 by lia. reflexivity.
  - unfold tot. cbn [map fold_right qsum]. rewrite app_nth2 by (unfold zlen; lia). replace (Z.to_nat (zlen l) - length l)%nat with 0%nat by (unfold zlen; lia). cbn [nth]. ring.
Qed.
Lemma qsum_qnth l : qsum l = tot (zrange 0 (zlen l)) (qnth l).
Proof. rewrite <- (map_id l) at 1. rewrite (qsum_positions (fun q => q) 0%Qc). reflexivity. Qed.
Lemma Qclt_irrefl (a : Qc) : ~ (a < a)%Qc.
Proof. intros H. qlra. Qed.
Lemma qmul_nn (a b : Qc) : (0 <= a -> 0 <= b -> 0 <= a * b)%Qc.
Proof. intros. qnra. Qed.
(** two predictors *)
Definition two (l : list (Qc * Qc)) : list (list Qc) := [map (fun _ => 1%Qc) l; map snd l].
Lemma two_Fin l : map (map Fin) (two l) = [map (fun _ => fz 1) l; map Fin (map snd l)].
Proof. unfold two. cbn [map]. rewrite map_map. reflexivity. Qed.
Lemma two_fit l b t : 0 <= t < zlen l -> fit 2 (predictor_value (two l) false) b t = (b 0%Z + b 1%Z * snd (nth (Z.to_nat t) l (0, 0)%Qc))%Qc.
Proof.
  intros Ht. assert (N : (Z.to_nat t < length l)%nat) by (unfold zlen in Ht; lia). unfold fit. change (zrange 0 2) with [0; 1]. unfold tot. cbn [map fold_right]. unfold predictor_value, two, qnth.
  change (nth (Z.to_nat 0) [map (fun _ => 1%Qc) l; map snd l] []) with (map (fun _ : Qc * Qc => 1%Qc) l). change (nth (Z.to_nat 1) [map (fun _ => 1%Qc) l; map snd l] []) with (map (@snd Qc Qc) l).
  assert (A : nth (Z.to_nat t) (map (fun _ : Qc * Qc => 1%Qc) l) 0%Qc = 1%Qc) by (rewrite (nth_indep _ 0%Qc 1%Qc) by (rewrite map_length; exact N); exact (map_nth (fun _ : Qc * Qc => 1%Qc) l (0, 0)%Qc _)).
  assert (B : nth (Z.to_nat t) (map snd l) 0%Qc = snd (nth (Z.to_nat t) l (0, 0)%Qc)) by exact (map_nth snd l (0, 0)%Qc _).
  rewrite A, B. ring.
Qed.
Lemma two_misfit l b : misfit (zlen l) 2 (predictor_value (two l) false) (qnth (map fst l)) b = squared_error l (b 0) (b 1).
Proof.
  unfold misfit, squared_error. rewrite (qsum_positions _ (0, 0)%Qc). apply tot_ext. intros t Ht. apply in_zrange in Ht. rewrite two_fit by lia. assert (B : qnth (map fst l) t = fst (nth (Z.to_nat t) l (0, 0)%Qc)) by exact (map_nth fst l (0, 0)%Qc _). rewrite B.
  destruct (nth (Z.to_nat t) l (0, 0)%Qc) as [o f]. reflexivity.
Qed.
Lemma two_dependent l : l <> [] -> dependent (zlen l) 2 (predictor_value (two l) false) <-> ~ varied l.
Proof.
  intros NE. split.
  - intros (v & (k & Hk & Nk) & HV) (p & p' & Hp & Hp' & NP). assert (G : forall q, In q l -> (v 0%Z + v 1%Z * snd q)%Qc = 0%Qc).
    { intros q Hq. destruct (In_nth l q (0, 0)%Qc Hq) as (i & Hi & Ei). rewrite <- (Nat2Z.id i) in Ei. rewrite <- Ei, <- two_fit by (unfold zlen; lia). apply HV. unfold zlen; lia. }
    pose proof (G p Hp) as G1. pose proof (G p' Hp') as G2. assert (M : (v 1%Z * (snd p - snd p'))%Qc = 0%Qc). { transitivity ((v 0%Z + v 1%Z * snd p) - (v 0%Z + v 1%Z * snd p'))%Qc; [ring|]. rewrite G1, G2. ring. }
    apply Qcmult_integral in M as [M|M]; [|apply NP; replace (snd p) with ((snd p - snd p') + snd p')%Qc by ring; rewrite M; ring]. rewrite M in G1. assert (v 0 = 0%Qc) by (rewrite <- G1; ring).
    destruct (Z.eq_dec k 0) as [->|]; [contradiction|]. destruct (Z.eq_dec k 1) as [->|]; [contradiction|lia].
  - intros NV. destruct l as [|p0 l']; [congruence|]. set (l := p0 :: l') in *. assert (A : forall q, In q l -> snd q = snd p0). { intros q Hq. destruct (Qc_eq_dec (snd q) (snd p0)); [auto|]. exfalso. apply NV. exists q, p0. split; [exact Hq|]. split; [left; reflexivity|exact n]. }
    exists (fun k => if k =? 0 then - snd p0 else 1)%Qc. split. { exists 1. split; [lia|]. cbn. intros K. discriminate K. }
    intros t Ht. rewrite two_fit by exact Ht. cbn [Z.eqb]. rewrite (A (nth (Z.to_nat t) l (0, 0)%Qc)) by (apply nth_In; unfold zlen in Ht; lia). ring.
Qed.
Lemma varied_dec l : varied l \/ ~ varied l.
Proof.
  destruct l as [|p0 l']. { right. intros (p & _ & [] & _). } set (l := p0 :: l').
  assert (D : (forall q, In q l -> snd q = snd p0) \/ exists q, In q l /\ snd q <> snd p0).
  { clearbody l. induction l as [|a l IH]; [left; intros ? []|]. destruct (Qc_eq_dec (snd a) (snd p0)) as [Ea|Na]; [|right; exists a; split; [left; auto|exact Na]].
    destruct IH as [IH|(q & Hq & Nq)]; [left; intros q [<-|Hq]; auto|right; exists q; split; [right; auto|auto]]. }
  destruct D as [D|(q & Hq & Nq)]; [right|left].
  - intros (p & p' & Hp & Hp' & NP). apply NP. rewrite (D p Hp), (D p' Hp'). reflexivity.
  - exists q, p0. split; [exact Hq|]. split; [left; reflexivity|exact Nq].
Qed.
Lemma varied_two l : varied l -> 2 <= zlen l.
Proof.
  intros (p & p' & Hp & Hp' & NP). destruct l as [|a [|b l]]; [contradiction| |rewrite !zlen_cons; pose proof (zlen_nonneg l); lia]. destruct Hp as [<-|[]], Hp' as [<-|[]]. contradiction.
Qed.
(** the intercept of least error leaves no mean error *)
Lemma least_mean l a c : (forall a', (squared_error l a c <= squared_error l a' c)%Qc) -> qsum (map (fun p => fst p - (a + c * snd p))%Qc l) = 0%Qc.
Proof.
  intros H. destruct l as [|p0 l']; [reflexivity|]. set (l := p0 :: l') in *. set (S := qsum (map (fun p => fst p - (a + c * snd p))%Qc l)).
  assert (N : (0 < qlen l)%Qc) by (unfold qlen, l; rewrite <- qz_0; apply qz_lt; rewrite zlen_cons; pose proof (zlen_nonneg l'); lia).
  assert (X : forall h, squared_error l (a + h) c = (squared_error l a c - (1 + 1) * h * S + qlen l * h * h)%Qc).
  { intros h. unfold squared_error, S, qlen. clear. induction l as [|[o f] l IH]; [cbn [map qsum]; change (zlen []) with 0; rewrite qz_0; ring|]. cbn [map qsum fst snd]. rewrite IH, zlen_cons, qz_add, qz_1. ring. }
  specialize (H (a + S / qlen l)%Qc). rewrite X in H. assert (NN : qlen l <> 0%Qc) by (intros K; rewrite K in N; discriminate N).
  assert (Q : (S * S / qlen l <= 0)%Qc). { replace (squared_error l a c - (1 + 1) * (S / qlen l) * S + qlen l * (S / qlen l) * (S / qlen l))%Qc with (squared_error l a c - S * S / qlen l)%Qc in H by (field; exact NN). revert H. generalize (S * S / qlen l)%Qc (squared_error l a c). intros u v H. qlra. }
  assert (P : (0 <= S * S)%Qc) by apply qsquare_nonneg. assert (Z0 : (S * S)%Qc = 0%Qc). { apply Qcle_antisym; [|exact P]. replace (S * S)%Qc with (S * S / qlen l * qlen l)%Qc by (field; exact NN). replace 0%Qc with (0 * qlen l)%Qc by ring. apply Qcmult_le_compat_r; [exact Q|]. apply Qclt_le_weak. exact N. }
  apply Qcmult_integral in Z0. tauto.
Qed.
Lemma csum_all l : (forall q, In q l -> q <> missing_number) -> forall s n, fold_left csum_step (map Fin l) (Fin s, n) = (Fin (s + qsum l)%Qc, n + zlen l).
Proof.
  induction l as [|q l IH]; intros H s n; cbn [map fold_left qsum]. { change (zlen []) with 0. rewrite Qcplus_0_r, Z.add_0_r. reflexivity. }
  unfold csum_step at 2. rewrite cvalid_Fin by (apply H; left; reflexivity). cbn [fst snd vadd]. rewrite IH by (intros; apply H; right; assumption). rewrite zlen_cons. f_equal; [f_equal; ring|lia].
Qed.
Lemma mean_least l a' : l <> [] -> (squared_error l (qmean (map fst l)) 0 <= squared_error l a' 0)%Qc.
Proof.
  intros NE. set (m := qmean (map fst l)). assert (X : forall h, squared_error l (m + h) 0 = (squared_error l m 0 + qlen l * h * h)%Qc).
  { intros h. assert (S : qsum (map (fun p : Qc * Qc => fst p - (m + 0 * snd p))%Qc l) = 0%Qc).
    { assert (K : forall l0, qsum (map (fun p : Qc * Qc => fst p - (m + 0 * snd p))%Qc l0) = (qsum (map fst l0) - qlen l0 * m)%Qc).
      { unfold qlen. clear. induction l0 as [|[o f] l1 IH]; [cbn [map qsum]; change (zlen []) with 0; rewrite qz_0; ring|]. cbn [map qsum fst snd]. rewrite IH, zlen_cons, qz_add, qz_1. ring. }
      rewrite K. unfold m, qmean. replace (qlen (map fst l)) with (qlen l) by (unfold qlen; rewrite zlen_map; reflexivity). field. unfold qlen. intros Q. rewrite <- qz_0 in Q. apply qz_inj in Q. destruct l; [congruence|]. rewrite zlen_cons in Q. pose proof (zlen_nonneg l). lia. }
    transitivity (squared_error l m 0 - (1 + 1) * h * qsum (map (fun p : Qc * Qc => fst p - (m + 0 * snd p))%Qc l) + qlen l * h * h)%Qc; [|rewrite S; ring].
    unfold squared_error, qlen. clear. generalize m. intros m0. induction l as [|[o f] l IH]; [cbn [map qsum]; change (zlen []) with 0; rewrite qz_0; ring|]. cbn [map qsum fst snd]. rewrite IH, zlen_cons, qz_add, qz_1. ring. }
  replace a' with (m + (a' - m))%Qc by ring. rewrite X. assert (P : (0 <= qlen l * (a' - m) * (a' - m))%Qc).
  { rewrite <- Qcmult_assoc. apply qmul_nn; [|apply qsquare_nonneg]. unfold qlen. rewrite <- qz_0. apply qz_le. apply zlen_nonneg. }
  revert P. generalize (qlen l * (a' - m) * (a' - m))%Qc (squared_error l m 0). intros. qlra.
Qed.

Lemma samples_in nn land cs p : In p (samples nn land cs) -> exists c, In c cs /\ In p (sample nn land c).
Proof. intros H. apply in_flat_map in H. exact H. Qed.
Section Results.
Variable E : ext.
Variable lu : vec2 -> option vec2.
Variables (radius : Z) (md : Qc) (nn : bool) (laf : list vec) (d : dims) (data : list (field * field)) (cs : list case) (Io Jo Ie Je : Z) (pl pu : Z * Z) (ql qu : Qc).
Hypothesis HLU : lu_inverts lu 2.
Hypothesis Hmd : (0 <= md)%Qc.
Hypothesis HT : training d radius laf Io Jo Ie Je pl ql pu qu data cs.
Hypothesis HB : bases_known nn cs.
Let l := samples nn (qu - ql)%Qc cs.
Let train := coastal_train E lu radius (Fin md) nn laf data Io Jo Ie Je.
Lemma range_case : (md < qu - ql)%Qc -> (~ varied l /\ train = Abort) \/ (varied l /\ exists a c, train = Ok [Fin a; Fin 1; Fin c] /\
  forall a' c', (squared_error l a c <= squared_error l a' c')%Qc /\ (squared_error l a' c' = squared_error l a c -> a' = a /\ c' = c)).
Proof.
  intros HM. destruct HT as (Hr & HF & He & HI & HJ & HL & HU & ND & HD). destruct (train_run E d radius md nn laf Io Jo Ie Je pl pu ql qu Hr HF He HI HJ HL HU lu data cs ND HD HB) as (g & _ & GG & ET). fold l in GG, ET. fold train in ET.
  assert (NZ : (qu - ql)%Qc <> 0%Qc) by (intros K; rewrite K in HM; clear - HM Hmd; qlra). rewrite (GG NZ) in ET. destruct (qltb_spec md (qu - ql)) as [_|K]; [|contradiction].
  destruct (varied_dec l) as [V|V].
  - right. split; [exact V|]. pose proof (varied_two l V) as L2. assert (Q0 : (zlen l <=? 0) = false) by (apply Z.leb_gt; apply (Z.lt_le_trans 0 2); [reflexivity|exact L2]). rewrite Q0 in ET. assert (NE : l <> []) by (intros K; rewrite K in L2; apply L2; reflexivity).
    destruct (regression_run lu (map fst l) (two l) false) as [[D _]|[_ (bs & EB & LB & BF)]]; [exact HLU|reflexivity|rewrite zlen_map; exact L2| | |].
    { intros p [<-|[<-|[]]]; rewrite !zlen_map; reflexivity. }
    { rewrite zlen_map in D. apply (two_dependent l NE) in D. contradiction. }
    assert (LB2 : zlen bs = 2) by exact LB. assert (BF2 : best_fit (zlen (map fst l)) 2 (predictor_value (two l) false) (qnth (map fst l)) (qnth bs)) by exact BF. clear LB BF. rewrite zlen_map in BF2. rewrite two_Fin in EB. rewrite EB in ET. cbn [bind] in ET.
    rewrite !znth_map in ET. rewrite (znth_nth bs 0%Qc 0), (znth_nth bs 0%Qc 1) in ET by (rewrite LB2; lia). cbn [bind] in ET. exists (qnth bs 0), (qnth bs 1). split; [exact ET|]. intros a' c'. destruct (BF2 (fun k => if k =? 0 then a' else c')) as [B1 B2]. rewrite !two_misfit in B1, B2. cbn [Z.eqb] in B1, B2.
    split; [exact B1|]. intros K. specialize (B2 K). split; [apply (B2 0); lia|apply (B2 1); lia].
  - left. split; [exact V|]. destruct (Z.leb_spec (zlen l) 0) as [Q0|Q0]; [exact ET|]. assert (NE : l <> []) by (intros K; rewrite K in Q0; exact (Z.lt_irrefl 0 Q0)).
    destruct (Z.le_gt_cases 2 (zlen l)) as [L2|L1].
    + destruct (regression_run lu (map fst l) (two l) false) as [[_ EB]|[D _]]; [exact HLU|reflexivity|rewrite zlen_map; exact L2| | |].
      { intros p [<-|[<-|[]]]; rewrite !zlen_map; reflexivity. }
      2:{ exfalso. apply D. rewrite zlen_map. apply two_dependent; assumption. }
      rewrite two_Fin in EB. rewrite EB in ET. exact ET.
    + rewrite c250_checks in ET by (left; rewrite !zlen_map; lia). exact ET.
Qed.
Lemma flat_case : (qu - ql <= md)%Qc -> (l = [] /\ train = Abort) \/ (l <> [] /\ ((forall p, In p l -> (missing_number < fst p)%Qc) -> train = Ok [Fin (qmean (map fst l)); Fin 1; Fin 0])).
Proof.
  intros HM. destruct HT as (Hr & HF & He & HI & HJ & HL & HU & ND & HD). destruct (train_run E d radius md nn laf Io Jo Ie Je pl pu ql qu Hr HF He HI HJ HL HU lu data cs ND HD HB) as (g & _ & _ & ET). fold l in ET. fold train in ET.
  destruct (qltb_spec md (qu - ql)) as [K|_]; [exfalso; clear - K HM; qlra|]. destruct l as [|p0 l'] eqn:El; [left; split; [reflexivity|exact ET]|]. rewrite <- El in *. right.
  assert (NE : l <> []) by congruence. split; [exact NE|]. intros HP. clear El. destruct (Z.leb_spec (zlen l) 0) as [K|K]. { exfalso. destruct l; [congruence|]. rewrite zlen_cons in K. pose proof (zlen_nonneg l0). lia. }
  change (fz 0) with (Fin 0%Qc) in ET. rewrite csum_all in ET by (intros q Hq; apply in_map_iff in Hq as (p & <- & Hp); apply HP in Hp; intros Q; rewrite Q in Hp; revert Hp; apply Qclt_irrefl).
  cbv iota beta zeta in ET. rewrite zlen_map, Z.add_0_l, Qcplus_0_l in ET. destruct (Z.ltb_spec 0 (zlen l)); [|lia]. unfold fz in ET. rewrite vdiv_Fin in ET by (intros Q; rewrite <- qz_0 in Q; apply qz_inj in Q; lia).
  replace (qsum (map fst l) / qz (zlen l))%Qc with (qmean (map fst l)) in ET by (unfold qmean, qlen; rewrite zlen_map; reflexivity).
  rewrite cvalid_Fin in ET. { exact ET. }
  assert (G : (qlen (map fst l) * missing_number < qsum (map fst l))%Qc) by (apply qsum_gt; [destruct l; [congruence|discriminate]|intros q Hq; apply in_map_iff in Hq as (p & <- & Hp); apply HP; exact Hp]).
  intros Q. unfold qmean in Q. rewrite <- Q in G. replace (qlen (map fst l) * (qsum (map fst l) / qlen (map fst l)))%Qc with (qsum (map fst l)) in G; [revert G; apply Qclt_irrefl|].
  field. unfold qlen. rewrite zlen_map. intros Q'. rewrite <- qz_0 in Q'. apply qz_inj in Q'. lia.
Qed.
End Results.
