From Coq Require Import Permutation.
From Verif Require Import Base ListLib QcTac M_Stat S_Stat P_Stat P_Even M_COpt M_CUtil S_CUtil P_CUtil M_CCal S_CCal P_CCal M_CCal2 M_CGradient P_NeighAll P_CorrPts M_CDist S_CDist.
Local Open Scope Z_scope.

(** a loop over the points of a field that treats the points one by one *)
Definition local_step (d : dims) (pre : vec -> Prop) (P : Z -> Z -> vec -> vec -> Prop) (step : field -> Z * Z -> res field) : Prop :=
  forall f i j vs, of_size d f -> 0 <= i < d_y d -> 0 <= j < d_x d -> f_ens f i j = Ok vs -> zlen vs = d_e d -> pre vs ->
  exists g ws, step f (i, j) = Ok g /\ of_size d g /\ zlen ws = d_e d /\ (forall e, 0 <= e < d_e d -> f_get g i j e = znth ws e) /\
    (forall y x e, within d y x e -> (y, x) <> (i, j) -> f_get g y x e = f_get f y x e) /\ P i j vs ws.
Lemma ens_same d f g i j : of_size d f -> of_size d g -> 0 <= i < d_y d -> 0 <= j < d_x d -> 0 < d_e d -> (forall e, 0 <= e < d_e d -> f_get f i j e = f_get g i j e) -> f_ens f i j = f_ens g i j.
Proof.
  intros H H0 Hi Hj He HE. destruct (ens_ok d f i j H Hi Hj He) as (vs & E & L & G). destruct (ens_ok d g i j H0 Hi Hj He) as (vs' & E0 & L0 & G0).
  rewrite E, E0. f_equal. apply znth_ext; [congruence|]. intros e He'. rewrite G0, G by lia. apply HE. lia.
Qed.
Lemma points_loop d pre P step f0 : of_size d f0 -> 0 < d_e d -> local_step d pre P step -> (forall i j vs, 0 <= i < d_y d -> 0 <= j < d_x d -> f_ens f0 i j = Ok vs -> pre vs) ->
  forall l f, NoDup l -> (forall i j, In (i, j) l -> 0 <= i < d_y d /\ 0 <= j < d_x d) -> of_size d f ->
  (forall i j e, In (i, j) l -> within d i j e -> f_get f i j e = f_get f0 i j e) ->
  exists g, foldM step f l = Ok g /\ of_size d g /\
    (forall i j, In (i, j) l -> exists vs ws, f_ens f0 i j = Ok vs /\ P i j vs ws /\ zlen ws = d_e d /\ forall e, 0 <= e < d_e d -> f_get g i j e = znth ws e) /\
    (forall y x e, within d y x e -> ~ In (y, x) l -> f_get g y x e = f_get f y x e).
Proof.
  intros H0 He HS HPre. induction l as [|[i j] l IH]; intros f ND HI H HE; cbn [foldM].
  - exists f. split; [reflexivity|]. split; [auto|]. split; [intros ? ? []|auto].
  - destruct (HI i j (or_introl eq_refl)) as [Hi Hj]. inversion ND as [|? ? N1 N2]; subst. destruct (ens_ok d f i j H Hi Hj He) as (vs & E & L & G).
    assert (E0 : f_ens f0 i j = Ok vs). { rewrite <- E. apply (ens_same d); auto. intros e He'. symmetry. apply HE; [left; auto|repeat split; lia]. }
    destruct (HS f i j vs H Hi Hj E L (HPre i j vs Hi Hj E0)) as (f1 & ws & E1 & S1 & Lw & G1 & O1 & HP). rewrite E1. cbn [bind].
    destruct (IH f1 N2) as (g & Eg & Sg & Gg & Og); auto.
    + intros; apply HI; right; auto.
    + intros y x e Hc W. rewrite O1; [apply HE; [right; auto|auto]|auto|]. intros [= -> ->]. contradiction.
    + exists g. split; [exact Eg|]. split; [exact Sg|]. split.
      * intros y x [[= <- <-]|Hc]; [|apply Gg; auto]. exists vs, ws. split; [exact E0|]. split; [exact HP|]. split; [exact Lw|]. intros e He'. rewrite Og; [apply G1; auto|repeat split; lia|auto].
      * intros y x e W Hn. rewrite Og; auto; [apply O1; auto; intros [= -> ->]; apply Hn; left; auto|]. intros Hc. apply Hn. right; auto.
Qed.
Lemma members_ens d fs t y x f vs : shaped d fs -> 0 < d_e d -> 0 <= t < d_t d -> 0 <= y < d_y d -> 0 <= x < d_x d -> znth fs t = Ok f -> f_ens f y x = Ok vs -> forall ws, members d fs t y x ws -> ws = vs.
Proof.
  intros H He Ht Hy Hx Ef Ev ws [L M]. destruct (shaped_nth d fs t H Ht) as (f' & Ef' & Sf). assert (f' = f) by congruence. subst f'. destruct (ens_ok d f y x Sf Hy Hx He) as (vs2 & Ev2 & Lv2 & Gv2).
  assert (vs2 = vs) by congruence. subst vs2. apply znth_ext; [congruence|]. intros e He'. destruct (znth_some ws e) as [v Hv]; [lia|]. rewrite Hv. destruct (M e v Hv) as (f2 & E2 & G2). assert (f2 = f) by congruence. subst f2. rewrite Gv2 by lia. auto.
Qed.
Lemma points_calibrator d fs (pre : vec -> Prop) P step : shaped d fs -> 0 < d_e d -> (forall t y x f vs, 0 <= t < d_t d -> 0 <= y < d_y d -> 0 <= x < d_x d -> znth fs t = Ok f -> f_ens f y x = Ok vs -> pre vs) ->
  (forall t, 0 <= t < d_t d -> local_step d pre (P t) (step t)) ->
  exists out, each_time d (fun t => f <- znth fs t ;; foldM (step t) f (points d)) = Ok out /\ shaped d out /\
  forall t y x, 0 <= t < d_t d -> 0 <= y < d_y d -> 0 <= x < d_x d -> forall vs ws, members d fs t y x vs -> members d out t y x ws -> P t y x vs ws.
Proof.
  intros H He HPre HS.
  destruct (each_time_ok d fs (fun t => f <- znth fs t ;; foldM (step t) f (points d))
    (fun t g => forall y x, 0 <= y < d_y d -> 0 <= x < d_x d -> exists f vs ws, znth fs t = Ok f /\ f_ens f y x = Ok vs /\ P t y x vs ws /\ zlen ws = d_e d /\ forall e, 0 <= e < d_e d -> f_get g y x e = znth ws e) H) as (out & E & S & G).
  { intros t Ht. destruct (shaped_nth d fs t H Ht) as (f & Ef & Sf). rewrite Ef. cbn [bind].
    destruct (points_loop d pre (P t) (step t) f Sf He (HS t Ht) (fun i j vs Hi Hj => HPre t i j f vs Ht Hi Hj Ef)) with (l := points d) (f := f) as (g & Eg & Sg & Gg & _); auto.
    - apply NoDup_points.
    - intros i j Hc. apply in_points in Hc. auto.
    - exists g. split; [exact Eg|]. split; [exact Sg|]. intros y x Hy Hx. destruct (Gg y x) as (vs & ws & A & B & C & D); [apply in_points; auto|]. exists f, vs, ws. auto. }
  exists out. split; [exact E|]. split; [exact S|]. intros t y x Ht Hy Hx vs ws Mv [Lw Mw]. destruct (G t Ht) as (g & Hg & PP). destruct (PP y x Hy Hx) as (f & vs' & ws' & Ef & Ev & SP & Lw' & Gw).
  assert (vs = vs') by exact (members_ens d fs t y x f vs' H He Ht Hy Hx Ef Ev vs Mv).
  assert (ws = ws').
  { apply znth_ext; [congruence|]. intros e He'. destruct (znth_some ws e) as [v Hv]; [lia|]. rewrite Hv. destruct (Mw e v Hv) as (g2 & E2 & G2). assert (g2 = g) by congruence. subst g2. rewrite <- Gw by lia. auto. }
  subst. exact SP.
Qed.
Lemma write_ok d f i j ws : of_size d f -> 0 <= i < d_y d -> 0 <= j < d_x d -> 0 <= d_e d -> zlen ws = d_e d -> exists g, write_members d f i j ws = Ok g /\ of_size d g /\ (forall e, 0 <= e < d_e d -> f_get g i j e = znth ws e) /\
  (forall y x e, within d y x e -> (y, x) <> (i, j) -> f_get g y x e = f_get f y x e).
Proof.
  intros H Hi Hj He L. destruct (set_members d f i j ws H Hi Hj L (Z.to_nat (d_e d))) as (g & E & S & G & O); [lia|]. rewrite Z2Nat.id in * by lia. exists g. split; [exact E|]. split; [exact S|]. split; [exact G|]. intros. apply O; auto.
Qed.
Lemma qz_ne n : n <> 0 -> qz n <> 0%Qc.
Proof. intros H K. apply H. apply (qz_inj n 0). rewrite K. reflexivity. Qed.
Lemma level_q n e : 0 < n -> level n e = Fin (member_level n e).
Proof. intros. unfold level, member_level, fq, fz. cbn [vadd]. rewrite vdiv_Fin by (apply qz_ne; lia). reflexivity. Qed.
Lemma level_range n e : 0 <= e < n -> (0 < member_level n e < 1)%Qc.
Proof.
  intros H. unfold member_level. assert (P : (0 < qz n)%Qc) by (rewrite <- qz_0; apply qz_lt; lia). assert (L : (0 <= qz e)%Qc) by (rewrite <- qz_0; apply qz_le; lia). assert (U : (qz e <= qz n - 1)%Qc) by (rewrite <- qz_1, <- qz_sub; apply qz_le; lia).
  split; apply Qcnot_le_lt; intros K; [apply qdiv_le_iff in K; auto; revert K|apply qle_div_iff in K; auto; revert K]; qlra.
Qed.

Definition gives (n : Z) (inv : val -> res val) (Q : Qc -> val) : Prop :=
  forall e, 0 <= e < n -> exists v, inv (level n e) = Ok v /\ (~ missing (Q (member_level n e)) -> v = Q (member_level n e)) /\ (missing (Q (member_level n e)) -> missing v).
Lemma fill_ok d f i j inv Q : of_size d f -> 0 <= i < d_y d -> 0 <= j < d_x d -> gives (d_e d) inv Q -> forall n, Z.of_nat n <= d_e d ->
  exists g us, foldM (fun st e => let '(f, ok) := st in v <- inv (level (d_e d) e) ;; f <- f_set f i j e v ;; Ok (f, ok && cvalid v)) (f, true) (zrange 0 (Z.of_nat n)) = Ok (g, forallb cvalid us) /\
    of_size d g /\ zlen us = Z.of_nat n /\ (forall e u, znth us e = Ok u -> f_get g i j e = Ok u /\ (~ missing (Q (member_level (d_e d) e)) -> u = Q (member_level (d_e d) e)) /\ (missing (Q (member_level (d_e d) e)) -> missing u)) /\
    (forall y x e, within d y x e -> (y, x) <> (i, j) -> f_get g y x e = f_get f y x e).
Proof.
  intros H Hi Hj HG. induction n as [|n IH]; intros Hn.
  - exists f, []. split; [reflexivity|]. split; [auto|]. split; [reflexivity|]. split; [|auto]. intros e u K. apply znth_range in K. change (zlen (@nil val)) with 0 in K. lia.
  - destruct IH as (g & us & E & S & L & G & O); [lia|]. rewrite Nat2Z.inj_succ, zrange_snoc by lia. replace (Z.succ (Z.of_nat n) - 1) with (Z.of_nat n) by lia. rewrite foldM_app, E. cbn [bind foldM].
    destruct (HG (Z.of_nat n)) as (v & Ev & V1 & V2); [lia|]. rewrite Ev. cbn [bind]. destruct (f_set_size d g i j (Z.of_nat n) v S) as (g' & E' & S' & G' & O'); [repeat split; lia|].
    rewrite E'. cbn [bind]. exists g', (us ++ [v]). split; [rewrite forallb_app; cbn; rewrite andb_true_r; reflexivity|]. split; [exact S'|]. split; [rewrite zlen_app, zlen_cons; change (zlen (@nil val)) with 0; lia|]. split.
    + intros e u K. destruct (Z.eq_dec e (Z.of_nat n)) as [->|Hne].
      * rewrite znth_app_r in K by lia. rewrite L, Z.sub_diag in K. cbn in K. injection K as <-. auto.
      * pose proof (znth_range _ _ _ K) as R. rewrite zlen_app, zlen_cons in R. change (zlen (@nil val)) with 0 in R. rewrite znth_app_l in K by lia. destruct (G e u K) as (A & B). split; [|exact B]. rewrite O'; [exact A|repeat split; lia|intros [= ?]; lia].
    + intros y x e W Hd. rewrite O'; auto. intros [= -> -> ->]. congruence.
Qed.
Lemma quantiles_znth n Q e : 0 <= e < n -> znth (quantiles n Q) e = Ok (Q (member_level n e)).
Proof. intros H. unfold quantiles. rewrite znth_map, znth_zrange by lia. reflexivity. Qed.
Lemma zlen_quantiles n Q : 0 <= n -> zlen (quantiles n Q) = n.
Proof. intros. unfold quantiles. rewrite zlen_map, zlen_zrange. lia. Qed.
Lemma missing_dec v : {missing v} + {~ missing v}.
Proof. destruct (cvalid v) eqn:E; [right|left; apply cvalid_missing; auto]. intros K. apply cvalid_missing in K. congruence. Qed.
Lemma exists_missing_iff l : forallb cvalid l = false <-> Exists missing l.
Proof.
  split.
  - intros K. destruct (Exists_dec missing l missing_dec) as [E|E]; [auto|]. exfalso. enough (forallb cvalid l = true) by congruence. apply forallb_forall. intros v Hv. destruct (cvalid v) eqn:C; [auto|]. exfalso. apply E. apply Exists_exists. exists v. split; [auto|]. apply cvalid_missing. auto.
  - intros K. apply not_true_is_false. intros H. rewrite forallb_forall in H. apply Exists_exists in K as (v & Hv & M). apply H in Hv. apply cvalid_missing in M. congruence.
Qed.
Lemma all_present l : forallb cvalid l = true -> exists qs, l = map Fin qs /\ no_missing qs.
Proof.
  induction l as [|v l IH]; [exists []; split; [auto|constructor]|]. cbn. intros H. apply andb_true_iff in H as [H1 H2]. destruct (IH H2) as (qs & -> & N). apply cvalid_true in H1 as (q & -> & Hq). exists (q :: qs). split; [auto|constructor; auto].
Qed.
Lemma map_Fin_inj a b : map Fin a = map Fin b -> a = b.
Proof. revert b. induction a as [|x a IH]; destruct b; cbn; try discriminate; auto. intros [= -> K]. f_equal. auto. Qed.
Lemma no_missing_not qs : no_missing qs -> ~ Exists missing (map Fin qs).
Proof. intros H K. apply Exists_exists in K as (v & Hv & M). apply in_map_iff in Hv as (q & <- & Hq). unfold no_missing in H. rewrite Forall_forall in H. apply (H q Hq). exact M. Qed.
Lemma replace_ok sp d inv Q f i j vs : sorts_pairs sp -> of_size d f -> 0 < d_e d -> 0 <= i < d_y d -> 0 <= j < d_x d -> gives (d_e d) inv Q -> f_ens f i j = Ok vs -> zlen vs = d_e d ->
  exists g ws, replace_members sp d inv f i j = Ok g /\ of_size d g /\ zlen ws = d_e d /\ (forall e, 0 <= e < d_e d -> f_get g i j e = znth ws e) /\
    (forall y x e, within d y x e -> (y, x) <> (i, j) -> f_get g y x e = f_get f y x e) /\ outcome Q vs ws.
Proof.
  intros HS H He Hi Hj HG Ev Lv. unfold replace_members. rewrite Ev. cbn [bind].
  destruct (fill_ok d f i j inv Q H Hi Hj HG (Z.to_nat (d_e d))) as (g & us & E & S & L & G & O); [lia|]. rewrite Z2Nat.id in * by lia. rewrite E. cbn [bind]. clear E.
  assert (QU : forallb cvalid us = true -> us = quantiles (d_e d) Q).
  { intros K. rewrite forallb_forall in K. apply znth_ext; [rewrite zlen_quantiles; lia|]. intros e He'. rewrite quantiles_znth by lia. destruct (znth_some us e) as [u Hu]; [lia|]. rewrite Hu. destruct (G e u Hu) as (_ & G1 & G2). f_equal.
    destruct (missing_dec (Q (member_level (d_e d) e))) as [M|M]; [|auto]. apply G2, cvalid_missing in M. apply znth_In in Hu. apply K in Hu. congruence. }
  assert (QN : forallb cvalid us = false -> Exists missing (quantiles (d_e d) Q)).
  { intros K. apply exists_missing_iff in K. apply Exists_exists in K as (u & Hu & M). apply In_znth in Hu as [e Hu]. pose proof (znth_range _ _ _ Hu). destruct (G e u Hu) as (_ & G1 & G2). apply Exists_exists. exists (Q (member_level (d_e d) e)). split; [apply (znth_In _ e); apply quantiles_znth; lia|].
    destruct (missing_dec (Q (member_level (d_e d) e))) as [M'|M']; auto. rewrite G1 in M; auto. }
  destruct (forallb cvalid us) eqn:FV.
  - destruct (ens_ok d g i j S Hi Hj He) as (us' & Eu & Lu & Gu). assert (us' = us).
    { apply znth_ext; [lia|]. intros e He'. rewrite Gu by lia. destruct (znth_some us e) as [u Hu]; [lia|]. rewrite Hu. apply (proj1 (G e u Hu)). }
    subst us'. rewrite Eu. cbn [bind]. specialize (QU eq_refl). destruct (all_present us FV) as (qs & Eqs & Nqs).
    assert (OK : exists ws, shuffle sp vs us = Ok ws /\ zlen ws = d_e d /\ outcome Q vs ws).
    { destruct (Exists_dec missing vs missing_dec) as [M|M].
      - exists us. split; [apply c162_unchanged; auto|]. split; [lia|]. unfold outcome. rewrite Lv, <- QU, Eqs. split; [intros K; exfalso; revert K; apply no_missing_not; auto|]. intros qs' K N'. apply map_Fin_inj in K. subst qs'. split; [auto|].
        intros raw -> Nr. exfalso. revert M. apply no_missing_not; auto.
      - destruct (all_present vs) as (raw & Eraw & Nraw). { destruct (forallb cvalid vs) eqn:K; [auto|]. apply exists_missing_iff in K. contradiction. }
        destruct (c162 sp raw qs HS) as (r & Er & Pr & Or); auto. { rewrite Eraw in Lv. rewrite Eqs in L. rewrite zlen_map in Lv, L. lia. }
        exists (map Fin r). rewrite <- Eraw, <- Eqs in Er. split; [exact Er|]. split; [rewrite zlen_map; apply Permutation_length in Pr; rewrite Eqs in L; rewrite zlen_map in L; unfold zlen in *; lia|].
        unfold outcome. rewrite Lv, <- QU, Eqs. split; [intros K; exfalso; revert K; apply no_missing_not; auto|]. intros qs' K N'. apply map_Fin_inj in K. subst qs'. split; [intros; contradiction|].
        intros raw' K _. rewrite Eraw in K. apply map_Fin_inj in K. subst raw'. exists r. split; [auto|]. split; [auto|]. exact Or. }
    destruct OK as (ws & Ew & Lw & HO). rewrite Ew. cbn [bind]. destruct (write_ok d g i j ws S Hi Hj ltac:(lia) Lw) as (g' & Eg' & Sg' & Gg' & Og'). exists g', ws. rewrite Eg'. do 4 (split; [auto|]). split; [intros y x e W Hn; rewrite Og', O; auto|exact HO].
  - destruct (write_ok d g i j vs S Hi Hj ltac:(lia) Lv) as (g' & Eg' & Sg' & Gg' & Og'). exists g', vs. rewrite Eg'. do 4 (split; [auto|]). split; [intros y x e W Hn; rewrite Og', O; auto|].
    unfold outcome. rewrite Lv. split; [auto|]. intros qs K N'. exfalso. specialize (QN eq_refl). rewrite K in QN. revert QN. apply no_missing_not; auto.
Qed.
Lemma keep_ok d f i j vs : of_size d f -> 0 < d_e d -> 0 <= i < d_y d -> 0 <= j < d_x d -> f_ens f i j = Ok vs -> zlen vs = d_e d ->
  exists g, keep_members d f i j = Ok g /\ of_size d g /\ (forall e, 0 <= e < d_e d -> f_get g i j e = znth vs e) /\
    (forall y x e, within d y x e -> (y, x) <> (i, j) -> f_get g y x e = f_get f y x e).
Proof. intros H He Hi Hj Ev Lv. unfold keep_members. rewrite Ev. cbn [bind]. apply write_ok; auto. lia. Qed.

(** parameters *)
Lemma known_some par l : known par = Some l -> par = map Fin l /\ no_missing l.
Proof.
  revert l. induction par as [|v par IH]; cbn; [intros l [= <-]; split; [auto|constructor]|]. destruct v as [| | |q]; try discriminate. destruct (Qc_eq_dec q missing_number) as [|N]; [discriminate|]. destruct (known par) as [l'|]; [|discriminate]. cbn. intros l [= <-]. destruct (IH l' eq_refl) as [-> NM]. split; [auto|constructor; auto].
Qed.
Lemma known_none par : known par = None -> par_valid par = false.
Proof.
  unfold par_valid. induction par as [|v par IH]; cbn; [discriminate|]. destruct v as [| | |q]; try reflexivity. destruct (Qc_eq_dec q missing_number) as [->|N]; [intros _; reflexivity|]. destruct (known par) as [l'|]; [discriminate|]. intros _. rewrite IH by auto. apply andb_false_r.
Qed.
Lemma known_valid l : no_missing l -> par_valid (map Fin l) = true.
Proof. intros H. apply forallb_forall. intros v Hv. apply in_map_iff in Hv as (q & <- & Hq). apply cvalid_Fin. unfold no_missing in H. rewrite Forall_forall in H. auto. Qed.
Lemma par_get_nth l i : 0 <= i < zlen l -> par_get (map Fin l) i = Ok (Fin (qnth l i)).
Proof. intros H. unfold par_get. rewrite znth_map, qnth_znth by lia. reflexivity. Qed.
