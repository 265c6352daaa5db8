From Verif Require Import Base ListLib M_Score S_Stat S_Score P_Stat P_Search P_Curve P_Mono.

Lemma vdiv_1 x : vdiv (Fin x) (fz 1) = Fin x.
Proof. unfold vdiv, fz. change (qeqb (qz 1) 0) with false. cbv iota. f_equal. change (qz 1) with 1%Qc. field; discriminate. Qed.
Lemma veqb_Fin x y : veqb (Fin x) (Fin y) = qeqb x y. Proof. reflexivity. Qed.
Lemma qmul_nonneg x y : (0 <= x -> 0 <= y -> 0 <= x * y)%Qc.
Proof. intros. qnra. Qed.
Lemma qsq_nonneg x : (0 <= x * x)%Qc.
Proof. destruct (Qclt_le_dec x 0); qnra. Qed.
Lemma qdiv_range x y lo : (0 < y -> lo * y <= x -> x <= y -> lo <= x / y <= 1)%Qc.
Proof.
  intros Hy H1 H2. split; [apply (proj2 (qle_div_iff lo x y Hy)); exact H1|].
  assert (K : (0 <= (y - x) / y)%Qc) by (apply qdiv_nonneg; [qlra|exact Hy]).
  assert (E : ((y - x) / y = 1 - x / y)%Qc) by (field; intros E; rewrite E in Hy; discriminate Hy). rewrite E in K. set (u := (x / y)%Qc) in *. clear - K. clearbody u. qlra.
Qed.
Definition nonneg4 (a b c d : Qc) : Prop := (0 <= a)%Qc /\ (0 <= b)%Qc /\ (0 <= c)%Qc /\ (0 <= d)%Qc /\ (0 < a + b + c + d)%Qc.

Lemma expected_mul a b c d : (0 < a + b + c + d)%Qc -> (expected_hits a b c d * (a + b + c + d) = (a + b) * (a + c))%Qc.
Proof. intros H. unfold expected_hits. field. intros E. rewrite E in H. discriminate H. Qed.
Lemma score_model a b c d m : nonneg4 a b c d -> m <> BadMetric ->
  calc_score (Fin a) (Fin b) (Fin c) (Fin d) m =
  Ok (if qeqb (score_den a b c d m) 0 then (match m with Bias => fz 1 | _ => MV end) else Fin (score_num a b c d m / score_den a b c d m)%Qc).
Proof.
  intros (Ha & Hb & Hc & Hd & HN) NB. assert (NN : (a + b + c + d)%Qc <> 0%Qc) by (intros E; rewrite E in HN; discriminate HN).
  destruct m; try congruence; cbn [calc_score score_den score_num].
  - rewrite !vadd_Fin, vdiv_1. rewrite vdiv_Fin by exact NN. rewrite vmul_Fin, !vsub_Fin, vdiv_1.
    replace ((a + b) / (a + b + c + d) * (a + c))%Qc with (expected_hits a b c d) by (unfold expected_hits; field; exact NN).
    change (fz 0) with (Fin 0%Qc). rewrite veqb_Fin. destruct (qeqb_spec (a + b + c - expected_hits a b c d) 0) as [E|E]; [reflexivity|]. rewrite vdiv_Fin by exact E. reflexivity.
  - rewrite !vadd_Fin, vdiv_1. destruct (qeqb_spec (a + b + c) 0) as [E|E]; [|rewrite vdiv_Fin by exact E; reflexivity].
    assert (a = 0%Qc) as -> by (apply Qcle_antisym; qlra). rewrite E. reflexivity.
  - rewrite !vadd_Fin, !vmul_Fin. change (fz 0) with (Fin 0%Qc). rewrite veqb_Fin. destruct (qeqb_spec ((a + c) * (b + d)) 0) as [E|E]; [reflexivity|].
    rewrite vsub_Fin. change (fz 1) with (Fin (qz 1)). rewrite vmul_Fin, vdiv_Fin by exact E. do 2 f_equal. replace (qz 1) with 1%Qc by reflexivity. rewrite Qcmult_1_r. reflexivity.
  - rewrite !vadd_Fin. rewrite vdiv_Fin by exact NN. destruct (qeqb_spec (a + b + c + d) 0) as [E|E]; [congruence|reflexivity].
  - rewrite veqb_Fin. destruct (qeqb_spec b c) as [->|NE].
    + destruct (qeqb_spec (c + c) 0) as [E|E]; [reflexivity|]. destruct (qleb_spec c c) as [_|K]; [|exfalso; apply K, Qcle_refl]. change (fz 1) with (Fin (qz 1)). do 2 f_equal.
      replace (qz 1) with 1%Qc by reflexivity. replace (qz 2) with (1 + 1)%Qc by (apply Qc_is_canon; reflexivity). field. intros K. apply E. rewrite K. ring.
    + assert (NZ : (b + c)%Qc <> 0%Qc). { intros E. apply NE. apply Qcle_antisym; qlra. }
      destruct (qeqb_spec (b + c) 0) as [E|_]; [contradiction|]. rewrite vsub_Fin, vadd_Fin. cbn [vabs]. rewrite vdiv_Fin by exact NZ. change (fz 1) with (Fin (qz 1)). rewrite vsub_Fin. do 2 f_equal.
      replace (qz 1) with 1%Qc by reflexivity. replace (qz 2) with (1 + 1)%Qc by (apply Qc_is_canon; reflexivity).
      destruct (qltb_spec (b - c) 0) as [L|L]; destruct (qleb_spec b c) as [L'|L']; try (exfalso; qlra); try (field; exact NZ).
  - rewrite !vadd_Fin, !vmul_Fin, vadd_Fin. change (fz 0) with (Fin 0%Qc). rewrite veqb_Fin. destruct (qeqb_spec ((a + c) * (c + d) + (a + b) * (b + d)) 0) as [E|E]; [reflexivity|].
    rewrite vsub_Fin. change (fz 2) with (Fin (qz 2)). rewrite vmul_Fin, vdiv_Fin by exact E. reflexivity.
Qed.
Lemma score_range a b c d m : nonneg4 a b c d -> m <> BadMetric -> score_den a b c d m <> 0%Qc ->
  (score_lo m <= score_num a b c d m / score_den a b c d m <= 1)%Qc.
Proof.
  intros (Ha & Hb & Hc & Hd & HN) NB ND.
  pose proof (qmul_nonneg _ _ Ha Hb) as Pab. pose proof (qmul_nonneg _ _ Ha Hc) as Pac. pose proof (qmul_nonneg _ _ Ha Hd) as Pad.
  pose proof (qmul_nonneg _ _ Hb Hc) as Pbc. pose proof (qmul_nonneg _ _ Hb Hd) as Pbd. pose proof (qmul_nonneg _ _ Hc Hd) as Pcd.
  pose proof (qmul_nonneg _ _ Hb Hb) as Pbb. pose proof (qmul_nonneg _ _ Hc Hc) as Pcc.
  pose proof (qsq_nonneg (b - c)) as Pd.
  assert (POS : forall x : Qc, (0 <= x)%Qc -> x <> 0%Qc -> (0 < x)%Qc).
  { intros x H1 H2. destruct (Qcle_lt_or_eq _ _ H1) as [K|K]; [exact K|congruence]. }
  destruct m; try congruence; cbn [score_num score_den score_lo] in *.
  - pose proof (expected_mul a b c d HN) as EM. set (h := expected_hits a b c d) in *. clearbody h.
    set (N := (a + b + c + d)%Qc) in *.
    assert (G1 : ((a - h) * N = a * d - b * c)%Qc) by (transitivity (a * N - h * N)%Qc; [ring|]; rewrite EM; unfold N; ring).
    assert (G2 : ((a + b + c - h) * N = a * d + b * d + c * d + b * b + c * c + a * b + a * c + b * c)%Qc).
    { transitivity ((a + b + c) * N - h * N)%Qc; [ring|]. rewrite EM. unfold N. ring. }
    assert (DP : (0 < a + b + c - h)%Qc).
    { apply POS; [|exact ND]. apply Qcnot_lt_le. intros K. assert (K2 : ((a + b + c - h) * N < 0)%Qc) by (clearbody N; clear -K HN; qnra). rewrite G2 in K2. clear - K2 Pab Pac Pad Pbc Pbd Pcd Pbb Pcc. qlra. }
    apply qdiv_range; [exact DP| |clear - Hb Hc; qlra].
    apply Qcnot_lt_le. intros K.
    assert (K2 : ((a - h) * N < - (qz 1 / qz 3) * (a + b + c - h) * N)%Qc) by (clearbody N; clear -K HN; set (u := (- (qz 1 / qz 3) * (a + b + c - h))%Qc) in *; clearbody u; set (w := (a-h)%Qc) in *; clearbody w; qnra).
    rewrite <- (Qcmult_assoc _ _ N) in K2. rewrite G1, G2 in K2. replace (qz 1 / qz 3)%Qc with (Q2Qc (1 # 3)) in K2 by (apply Qc_is_canon; reflexivity).
    assert (E : ((b - c) * (b - c) = b * b + c * c - qz 2 * (b * c))%Qc) by (replace (qz 2) with (1 + 1)%Qc by (apply Qc_is_canon; reflexivity); ring). rewrite E in Pd.
    clear - K2 Pab Pac Pad Pbc Pbd Pcd Pbb Pcc Pd.
    set (x1 := (a * d)%Qc) in *; set (x2 := (b * d)%Qc) in *; set (x3 := (c * d)%Qc) in *; set (x4 := (b * b)%Qc) in *; set (x5 := (c * c)%Qc) in *; set (x6 := (a * b)%Qc) in *; set (x7 := (a * c)%Qc) in *; set (x8 := (b * c)%Qc) in *.
    clearbody x1 x2 x3 x4 x5 x6 x7 x8. qlra.
  - apply qdiv_range; [apply POS; [qlra|exact ND]|qlra|qlra].
  - assert (E1 : ((a + c) * (b + d) = a * b + a * d + b * c + c * d)%Qc) by ring. rewrite E1 in ND |- *. clear E1. apply qdiv_range; [apply POS; [qlra|exact ND]|qlra|qlra].
  - apply qdiv_range; [exact HN|qlra|qlra].
  - apply qdiv_range; [apply POS; [qlra|exact ND]| |]; destruct (qleb_spec b c); qlra.
  - assert (TW : forall x : Qc, (qz 2 * x = x + x)%Qc) by (intros; replace (qz 2) with (1 + 1)%Qc by (apply Qc_is_canon; reflexivity); ring).
    assert (E1 : ((a + c) * (c + d) + (a + b) * (b + d) = a * c + c * c + a * d + a * d + c * d + a * b + b * b + b * d)%Qc) by ring.
    assert (E : ((b - c) * (b - c) = b * b + c * c - b * c - b * c)%Qc) by ring. rewrite E in Pd. clear E.
    rewrite TW. rewrite E1 in ND |- *. clear E1 TW. clear HN NB.
    set (x1 := (a * d)%Qc) in *; set (x2 := (b * d)%Qc) in *; set (x3 := (c * d)%Qc) in *; set (x4 := (b * b)%Qc) in *; set (x5 := (c * c)%Qc) in *; set (x6 := (a * b)%Qc) in *; set (x7 := (a * c)%Qc) in *; set (x8 := (b * c)%Qc) in *.
    clearbody x1 x2 x3 x4 x5 x6 x7 x8. clear Ha Hb Hc Hd. apply qdiv_range; [apply POS; [clear ND POS; qlra|exact ND]|clear ND POS; change (qz 1) with 1%Qc; match goal with |- (?l <= _)%Qc => replace l with (- (x7 + x5 + x1 + x1 + x3 + x6 + x4 + x2))%Qc by ring end; qlra|clear ND POS; qlra].
Qed.
Lemma c33_all a b c d m : (0 <= a)%Qc -> (0 <= b)%Qc -> (0 <= c)%Qc -> (0 <= d)%Qc -> (0 < a + b + c + d)%Qc -> m <> BadMetric ->
  (score_den a b c d m = 0%Qc -> calc_score (Fin a) (Fin b) (Fin c) (Fin d) m = Ok (match m with Bias => fz 1 | _ => MV end)) /\
  (score_den a b c d m <> 0%Qc -> exists s, calc_score (Fin a) (Fin b) (Fin c) (Fin d) m = Ok (Fin s) /\
     (s * score_den a b c d m = score_num a b c d m)%Qc /\ (score_lo m <= s <= 1)%Qc) /\
  (b = 0%Qc -> c = 0%Qc -> (0 < a)%Qc -> (0 < d)%Qc -> calc_score (Fin a) (Fin b) (Fin c) (Fin d) m = Ok (Fin 1%Qc)) /\
  (m = Kss \/ m = Hss \/ m = Pc -> calc_score (Fin d) (Fin c) (Fin b) (Fin a) m = calc_score (Fin a) (Fin b) (Fin c) (Fin d) m).
Proof.
  intros Ha Hb Hc Hd HN NB. assert (NN : nonneg4 a b c d) by (repeat split; assumption). pose proof (score_model a b c d m NN NB) as SM.
  split; [|split; [|split]].
  - intros E. rewrite SM. destruct (qeqb_spec (score_den a b c d m) 0); [reflexivity|contradiction].
  - intros E. rewrite SM. destruct (qeqb_spec (score_den a b c d m) 0); [contradiction|]. eexists. split; [reflexivity|]. split; [field; exact E|]. apply score_range; assumption.
  - intros -> -> Pa Pd.
    assert (NA : a <> 0%Qc) by (intros K; rewrite K in Pa; discriminate Pa). assert (ND : d <> 0%Qc) by (intros K; rewrite K in Pd; discriminate Pd).
    assert (NAD : (a + 0 + 0 + d)%Qc <> 0%Qc) by (intros K; rewrite K in HN; discriminate HN). assert (PP : (0 < a * d)%Qc) by (clear -Pa Pd; qnra).
    assert (NP : (a * d)%Qc <> 0%Qc) by (intros K; rewrite K in PP; discriminate PP).
    assert (NAD' : (a + d)%Qc <> 0%Qc) by (intros K; apply NAD; transitivity (a + d)%Qc; [ring|exact K]).
    destruct m; try congruence; try reflexivity; rewrite SM; cbn [score_den score_num].
    + assert (EE : (expected_hits a 0 0 d * (a + d) = a * a)%Qc) by (unfold expected_hits; field; repeat split; assumption).
      destruct (qeqb_spec (a + 0 + 0 - expected_hits a 0 0 d) 0) as [E|E].
      * exfalso. assert (K : (expected_hits a 0 0 d = a)%Qc) by (transitivity (a - (a + 0 + 0 - expected_hits a 0 0 d))%Qc; [ring|rewrite E; ring]). rewrite K in EE. apply NP. transitivity (a * (a + d) - a * a)%Qc; [ring|rewrite EE; ring].
      * do 2 f_equal. assert ((a + 0 + 0 - expected_hits a 0 0 d) = a - expected_hits a 0 0 d)%Qc as K by ring. rewrite K in *. field. exact E.
    + destruct (qeqb_spec (a + 0 + 0) 0) as [E|E]; [exfalso; apply NA; transitivity (a + 0 + 0)%Qc; [ring|exact E]|]. do 2 f_equal. field. repeat split; assumption.
    + destruct (qeqb_spec ((a + 0) * (0 + d)) 0) as [E|E]; [exfalso; apply NP; transitivity ((a + 0) * (0 + d))%Qc; [ring|exact E]|]. do 2 f_equal. field. repeat split; assumption.
    + destruct (qeqb_spec (a + 0 + 0 + d) 0) as [E|E]; [contradiction|]. do 2 f_equal. field. repeat split; assumption.
    + destruct (qeqb_spec ((a + 0) * (0 + d) + (a + 0) * (0 + d)) 0) as [E|E].
      * exfalso. assert ((a + 0) * (0 + d) + (a + 0) * (0 + d) = qz 2 * (a * d))%Qc as K by (replace (qz 2) with (1 + 1)%Qc by (apply Qc_is_canon; reflexivity); ring). rewrite K in E. clear -E PP. qlra.
      * do 2 f_equal. replace (qz 2) with (1 + 1)%Qc by (apply Qc_is_canon; reflexivity). replace ((1 + 1) * (a * d - 0 * 0))%Qc with ((a + 0) * (0 + d) + (a + 0) * (0 + d))%Qc by ring. set (D := ((a + 0) * (0 + d) + (a + 0) * (0 + d))%Qc) in *. clearbody D. field. exact E.
  - intros HM. assert (NN' : nonneg4 d c b a) by (repeat split; try assumption; clear -HN; qlra). rewrite SM, (score_model d c b a m NN' NB).
    assert (ED : score_den d c b a m = score_den a b c d m) by (destruct HM as [->|[->| ->]]; cbn; ring).
    assert (EN : score_num d c b a m = score_num a b c d m) by (destruct HM as [->|[->| ->]]; cbn; ring). rewrite ED, EN. reflexivity.
Qed.

(** ** C34 *)
Lemma tally_firstn_S t ft o f (l : list (Qc * Qc)) i p : znth l i = Ok p ->
  tally t ft o f (firstn (Z.to_nat (i + 1)) l) = tally t ft o f (firstn (Z.to_nat i) l) + (if outcome t ft o f p then 1 else 0).
Proof.
  intros H. pose proof (znth_range _ _ _ H). apply znth_Ok in H. destruct H as [_ H].
  replace (Z.to_nat (i + 1)) with (S (Z.to_nat i)) by lia. revert H. generalize (Z.to_nat i) as n. clear. induction l as [|x l IH]; intros n H; [destruct n; discriminate H|].
  destruct n as [|n].
  - cbn in H. injection H as ->. unfold tally. cbn. destruct (outcome t ft o f p); reflexivity.
  - cbn in H. specialize (IH n H). unfold tally in *. cbn [firstn filter]. cbn [firstn] in IH. destruct (outcome t ft o f x); rewrite ?zlen_cons; lia.
Qed.
Lemma score_counts R F t ft : length R = length F ->
  foldM (score_step (map Fin R) (map Fin F) (Fin t) (Fin ft)) (0, 0, 0, 0) (zrange 0 (zlen F)) =
  Ok (tally t ft true true (combine R F), tally t ft false true (combine R F), tally t ft true false (combine R F), tally t ft false false (combine R F)).
Proof.
  intros HL. set (l := combine R F). assert (LL : zlen l = zlen F) by (unfold l, zlen; rewrite combine_length; lia).
  destruct (foldM_range (score_step (map Fin R) (map Fin F) (Fin t) (Fin ft))
    (fun i s => let k := firstn (Z.to_nat i) l in s = (tally t ft true true k, tally t ft false true k, tally t ft true false k, tally t ft false false k)) 0 (zlen F) (0, 0, 0, 0)) as (s & E & HI).
  - pose proof (zlen_nonneg F). lia.
  - reflexivity.
  - intros i s Hi HS. cbv zeta in HS. subst s. unfold score_step.
    destruct (znth_some R i) as [r Hr]; [unfold zlen in *; lia|]. destruct (znth_some F i Hi) as [f Hf]. rewrite !znth_map, Hr, Hf. cbn [bind]. cbn [vltb].
    rewrite vleb_Fin.
    assert (HP : znth l i = Ok (r, f)).
    { unfold l. apply znth_Ok in Hr, Hf. apply znth_Ok. destruct Hr as [H0 Hr], Hf as [_ Hf]. split; [exact H0|]. revert Hr Hf. clear. generalize (Z.to_nat i) as n. revert F. induction R as [|x R IH]; intros F n; destruct n; destruct F; cbn; try discriminate; [congruence|apply IH]. }
    cbv zeta. rewrite !(tally_firstn_S _ _ _ _ _ _ _ HP). unfold outcome. cbn [fst snd].
    destruct (qltb_spec ft f) as [A|A], (qltb_spec t r) as [B|B]; [|destruct (qleb_spec r t) as [C|C]; [|exfalso; qlra]| |destruct (qleb_spec r t) as [C|C]; [|exfalso; qlra]];
      eexists; (split; [reflexivity|]); cbn; rewrite ?Z.add_0_r; reflexivity.
  - rewrite E. cbv zeta in HI. rewrite HI. rewrite <- LL. rewrite firstn_all2 by (unfold zlen; lia). reflexivity.
Qed.
Lemma tally_total t ft l : tally t ft true true l + tally t ft false true l + tally t ft true false l + tally t ft false false l = zlen l.
Proof.
  induction l as [|p l IH]; [reflexivity|]. rewrite zlen_cons. unfold tally in *. cbn [filter]. unfold outcome in *. destruct (qltb t (fst p)), (qltb ft (snd p)); cbn; rewrite ?zlen_cons; lia.
Qed.
Lemma tally_mono t ft ft' o l : (ft <= ft')%Qc -> tally t ft' o true l <= tally t ft o true l.
Proof.
  intros H. induction l as [|p l IH]; [reflexivity|]. unfold tally in *. cbn [filter]. unfold outcome in *.
  destruct (qltb_spec ft (snd p)) as [A|A], (qltb_spec ft' (snd p)) as [B|B]; try (exfalso; qlra); cbn; destruct (eqb (qltb t (fst p)) o); cbn; rewrite ?zlen_cons; lia.
Qed.
Lemma Permutation_filter {A} (f : A -> bool) l m : Permutation l m -> Permutation (filter f l) (filter f m).
Proof. induction 1; cbn; [constructor|destruct (f x); auto|destruct (f x), (f y); auto; constructor|etransitivity; eauto]. Qed.
Lemma tally_perm t ft o f l m : Permutation l m -> tally t ft o f l = tally t ft o f m.
Proof. intros H. unfold tally, zlen. rewrite (Permutation_length (Permutation_filter _ _ _ H)). reflexivity. Qed.
Lemma c34_all R F t ft m : length R = length F ->
  let n o f := tally t ft o f (combine R F) in
  calc_score_vec (map Fin R) (map Fin F) (Fin t) (Fin ft) m = calc_score (fz (n true true)) (fz (n false true)) (fz (n true false)) (fz (n false false)) m /\
  n true true + n false true + n true false + n false false = zlen F /\
  (forall R' F', length R' = length F' -> Permutation (combine R F) (combine R' F') ->
     calc_score_vec (map Fin R') (map Fin F') (Fin t) (Fin ft) m = calc_score_vec (map Fin R) (map Fin F) (Fin t) (Fin ft) m) /\
  (forall ft' o, (ft <= ft')%Qc -> tally t ft' o true (combine R F) <= n o true).
Proof.
  intros HL n. assert (S : forall R F, length R = length F -> calc_score_vec (map Fin R) (map Fin F) (Fin t) (Fin ft) m =
    calc_score (fz (tally t ft true true (combine R F))) (fz (tally t ft false true (combine R F))) (fz (tally t ft true false (combine R F))) (fz (tally t ft false false (combine R F))) m).
  { intros R0 F0 H0. unfold calc_score_vec. rewrite zlen_map, score_counts by exact H0. reflexivity. }
  split; [apply S; exact HL|]. split.
  - unfold n. rewrite tally_total. unfold zlen. rewrite combine_length. lia.
  - split; [|intros; apply tally_mono; assumption]. intros R' F' HL' HP. rewrite !S by assumption. rewrite !(tally_perm _ _ _ _ _ _ HP). reflexivity.
Qed.
