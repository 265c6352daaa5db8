(** Proofs about calibrators of the client. *)
From Coq Require Import Permutation.
From Verif Require Import Base QcTac ListLib M_Stat S_Stat P_Stat P_Quant P_Even M_COpt M_CUtil S_CUtil P_CUtil M_CCal S_CCal.
Local Open Scope Z_scope.

(** the loop over the elements *)
Lemma in_cells nY nX nE y x e : In (y, x, e) (cells nY nX nE) <-> 0 <= y < nY /\ 0 <= x < nX /\ 0 <= e < nE.
Proof.
  unfold cells. rewrite in_flat_map. split.
  - intros (y' & Hy & H). apply in_zrange in Hy. apply in_flat_map in H as (x' & Hx & H). apply in_zrange in Hx. apply in_map_iff in H as (e' & [= <- <- <-] & He).
    apply in_zrange in He. auto.
  - intros (Hy & Hx & He). exists y. split; [apply in_zrange; auto|]. apply in_flat_map. exists x. split; [apply in_zrange; auto|]. apply in_map_iff. exists e.
    split; auto. apply in_zrange; auto.
Qed.
Lemma NoDup_flat_map {A B} (f : A -> list B) l : NoDup l -> (forall a, In a l -> NoDup (f a)) -> (forall a b x, In a l -> In b l -> In x (f a) -> In x (f b) -> a = b) -> NoDup (flat_map f l).
Proof.
  induction 1 as [|a l Ha Hl IH]; intros H1 H2; cbn; [constructor|]. apply NoDup_app_intro; [apply H1; left; auto|apply IH|].
  - intros; apply H1; right; auto.
  - intros a' b' x Ha' Hb'. apply H2; right; auto.
  - intros x Hx Hx'. apply in_flat_map in Hx' as (b & Hb & Hxb). assert (a = b) by (eapply H2; eauto; [left|right]; auto). subst. contradiction.
Qed.
Lemma NoDup_cells nY nX nE : NoDup (cells nY nX nE).
Proof.
  unfold cells. apply NoDup_flat_map; [apply NoDup_zrange| |].
  - intros y _. apply NoDup_flat_map; [apply NoDup_zrange| |].
    + intros x _. apply FinFun.Injective_map_NoDup; [|apply NoDup_zrange]. intros a b [= ->]. auto.
    + intros a b x _ _ Ha Hb. apply in_map_iff in Ha as (? & <- & _). apply in_map_iff in Hb as (? & [= <- <-] & _). auto.
  - intros a b x _ _ Ha Hb. apply in_flat_map in Ha as (? & _ & Ha). apply in_flat_map in Hb as (? & _ & Hb). apply in_map_iff in Ha as (? & <- & _). apply in_map_iff in Hb as (? & [= <- _ _] & _). auto.
Qed.
Lemma inside_iff d f y x e : of_size d f -> (inside f y x e <-> within d y x e).
Proof. intros (_ & H1 & H2 & H3). unfold inside, within. rewrite H1, H2, H3. tauto. Qed.
Lemma of_size_get d f y x e : of_size d f -> within d y x e -> exists v, f_get f y x e = Ok v.
Proof.
  intros H W. apply (inside_iff d f) in W; auto. destruct H as [H _]. unfold f_get. destruct (f_index_in _ _ _ _ H W) as [-> R]. cbn [bind]. apply znth_some; auto.
Qed.
(** one step of the loop: the element is given a value that satisfies P, and the others are left alone *)
Definition good_step (d : dims) (f0 : field) (P : Z -> Z -> Z -> val -> Prop) (body : field -> Z -> Z -> Z -> res field) : Prop :=
  forall f y x e v, of_size d f -> within d y x e -> f_get f0 y x e = Ok v -> f_get f y x e = Ok v ->
  (exists w, body f y x e = f_set f y x e w /\ P y x e w) \/ (body f y x e = Ok f /\ P y x e v).
Lemma f_set_size d f y x e w : of_size d f -> within d y x e -> exists g, f_set f y x e w = Ok g /\ of_size d g /\ f_get g y x e = Ok w /\
  forall y' x' e', within d y' x' e' -> (y', x', e') <> (y, x, e) -> f_get g y' x' e' = f_get f y' x' e'.
Proof.
  intros H W. pose proof W as W'. apply (inside_iff d f) in W'; auto. destruct H as (H & H1 & H2 & H3). destruct (c147_set f y x e w H W') as (g & E & G & (S1 & S2 & S3) & G1 & G2).
  exists g. split; [exact E|]. split; [split; [exact G|]; repeat split; congruence|]. split; [exact G1|]. intros y' x' e' Hw Hn. apply G2; auto.
  apply (inside_iff d f); auto. split; auto.
Qed.
Lemma loop_gen d f0 P body : good_step d f0 P body -> forall l f, NoDup l -> (forall c, In c l -> let '(y, x, e) := c in within d y x e) -> of_size d f0 -> of_size d f ->
  (forall y x e, In (y, x, e) l -> f_get f y x e = f_get f0 y x e) ->
  exists g, foldM (fun s c => let '(y, x, e) := c in body s y x e) f l = Ok g /\ of_size d g /\
    (forall y x e, In (y, x, e) l -> exists w, f_get g y x e = Ok w /\ P y x e w) /\
    (forall y x e, within d y x e -> ~ In (y, x, e) l -> f_get g y x e = f_get f y x e).
Proof.
  intros HB. induction l as [|[[y x] e] l IH]; intros f ND HW H0 H HE; cbn [foldM].
  - exists f. split; [reflexivity|]. split; [exact H|]. split; [intros ? ? ? []|auto].
  - assert (W : within d y x e) by (apply (HW (y, x, e)); left; auto). destruct (of_size_get d f0 y x e H0 W) as [v Hv].
    assert (Hv' : f_get f y x e = Ok v) by (rewrite HE; [auto|left; auto]). inversion ND as [|? ? N1 N2]; subst.
    assert (exists f1 w, body f y x e = Ok f1 /\ of_size d f1 /\ f_get f1 y x e = Ok w /\ P y x e w /\
      forall y' x' e', within d y' x' e' -> (y', x', e') <> (y, x, e) -> f_get f1 y' x' e' = f_get f y' x' e') as (f1 & w & E1 & S1 & G1 & P1 & O1).
    { destruct (HB f y x e v H W Hv Hv') as [(w & E & Pw)|[E Pv]].
      - destruct (f_set_size d f y x e w H W) as (g & Eg & Sg & Gg & Og). exists g, w. rewrite E. auto.
      - exists f, v. auto 10. }
    rewrite E1. cbn [bind]. destruct (IH f1 N2) as (g & Eg & Sg & Gg & Og); auto.
    + intros c Hc. apply HW. right; auto.
    + intros y' x' e' Hc. rewrite O1; [apply HE; right; auto| |intros [= -> -> ->]; contradiction]. apply (HW (y', x', e')). right; auto.
    + exists g. split; [exact Eg|]. split; [exact Sg|]. split.
      * intros y' x' e' [[= <- <- <-]|Hc]; [|apply Gg; auto]. exists w. split; [|exact P1]. rewrite Og; auto.
      * intros y' x' e' Hw Hn. rewrite Og; [apply O1; auto|auto|]. { intros [= -> -> ->]. apply Hn. left; auto. } intros Hc. apply Hn. right; auto.
Qed.
Lemma for3_ok d f0 P body : of_size d f0 -> good_step d f0 P body ->
  exists g, for3 d f0 body = Ok g /\ of_size d g /\ forall y x e, within d y x e -> exists w, f_get g y x e = Ok w /\ P y x e w.
Proof.
  intros H HB. destruct (loop_gen d f0 P body HB (cells (d_y d) (d_x d) (d_e d)) f0 (NoDup_cells _ _ _)) as (g & E & S & G & _); auto.
  - intros [[y x] e] Hc. apply in_cells in Hc. exact Hc.
  - exists g. split; [exact E|]. split; [exact S|]. intros y x e W. apply G. apply in_cells. exact W.
Qed.
Lemma empty_ok d fs : shaped d fs -> exists f, empty_field d = Ok f /\ of_size d f.
Proof.
  intros (_ & H1 & H2 & H3 & _). destruct (proj1 (c147_new (d_y d) (d_x d) (d_e d) CMV) H1 H2 H3) as (f & E & F & S1 & S2 & S3 & _).
  exists f. split; [exact E|]. split; auto.
Qed.
Lemma shaped_nth d fs t : shaped d fs -> 0 <= t < d_t d -> exists f, znth fs t = Ok f /\ of_size d f.
Proof.
  intros (_ & _ & _ & _ & L & F) Ht. destruct (znth_some fs t) as [f Hf]; [lia|]. exists f. split; auto. rewrite Forall_forall in F. apply F. eapply znth_In; eauto.
Qed.
Lemma shaped_elem d fs t y x e : shaped d fs -> 0 <= t < d_t d -> within d y x e -> exists v, element fs t y x e v /\ get4 fs t y x e = Ok v.
Proof.
  intros H Ht W. destruct (shaped_nth d fs t H Ht) as (f & Ef & Sf). destruct (of_size_get d f y x e Sf W) as [v Hv]. exists v. split; [exists f; auto|].
  unfold get4. rewrite Ef. exact Hv.
Qed.
Lemma element_get fs t y x e v : element fs t y x e v <-> get4 fs t y x e = Ok v.
Proof. unfold element, get4. split; [intros (f & -> & H); exact H|]. intros H. apply bind_Ok in H as (f & Hf & H). eauto. Qed.
Lemma element_fun fs t y x e v w : element fs t y x e v -> element fs t y x e w -> v = w.
Proof. rewrite !element_get. congruence. Qed.
Lemma each_time_ok d fs body (P : Z -> field -> Prop) : shaped d fs -> (forall t, 0 <= t < d_t d -> exists g, body t = Ok g /\ of_size d g /\ P t g) ->
  exists out, each_time d body = Ok out /\ shaped d out /\ forall t, 0 <= t < d_t d -> exists g, znth out t = Ok g /\ P t g.
Proof.
  intros H HB. destruct H as (H0 & H1 & H2 & H3 & _). unfold each_time.
  destruct (mapM_total body (fun t g => of_size d g /\ P t g) (zrange 0 (d_t d))) as (out & E & L & N).
  { intros t Ht. apply in_zrange in Ht. apply HB; auto. }
  rewrite zlen_zrange in L. exists out. split; [exact E|].
  assert (HN : forall t, 0 <= t < d_t d -> exists g, znth out t = Ok g /\ of_size d g /\ P t g).
  { intros t Ht. destruct (N t t) as (g & Hg & _ & HP); [apply znth_zrange; lia|]. eauto. }
  split.
  - repeat split; auto; [lia|]. apply Forall_forall. intros f Hf. apply In_znth in Hf as [i Hi]. pose proof (znth_range _ _ _ Hi).
    destruct (HN i) as (g & Hg & Sg & _); [lia|]. rewrite Hg in Hi. injection Hi as <-. auto.
  - intros t Ht. destruct (HN t Ht) as (g & Hg & _ & HP). eauto.
Qed.
(** a calibrator that treats the elements one by one *)
Lemma elementwise d fs body (R : Z -> Z -> Z -> Z -> val -> val -> Prop) : shaped d fs ->
  (forall t f0, 0 <= t < d_t d -> znth fs t = Ok f0 -> of_size d f0 -> good_step d f0 (fun y x e w => exists v, f_get f0 y x e = Ok v /\ R t y x e v w) (body t)) ->
  exists out, each_time d (fun t => f <- znth fs t ;; for3 d f (body t)) = Ok out /\ shaped d out /\
    forall t y x e v, 0 <= t < d_t d -> within d y x e -> element fs t y x e v -> exists w, element out t y x e w /\ R t y x e v w.
Proof.
  intros H HB.
  destruct (each_time_ok d fs (fun t => f <- znth fs t ;; for3 d f (body t)) (fun t g => forall y x e, within d y x e -> exists v w, element fs t y x e v /\ f_get g y x e = Ok w /\ R t y x e v w) H) as (out & E & S & G).
  { intros t Ht. destruct (shaped_nth d fs t H Ht) as (f & Ef & Sf). rewrite Ef. cbn [bind].
    destruct (for3_ok d f _ (body t) Sf (HB t f Ht Ef Sf)) as (g & Eg & Sg & Pg). exists g. split; [exact Eg|]. split; [exact Sg|].
    intros y x e W. destruct (Pg y x e W) as (w & Hw & v & Hv & HR). exists v, w. split; [exists f; auto|]. auto. }
  exists out. split; [exact E|]. split; [exact S|]. intros t y x e v Ht W Hv. destruct (G t Ht) as (g & Hg & Pg). destruct (Pg y x e W) as (v' & w & Hv' & Hw & HR).
  rewrite (element_fun _ _ _ _ _ _ _ Hv Hv') in *. exists w. split; [exists g; auto|exact HR].
Qed.
Lemma cvalid_missing v : cvalid v = false <-> missing v.
Proof.
  destruct v; cbn; try tauto; split; auto. - destruct (qeqb_spec q (qz (-999))); [auto|discriminate]. - intros ->. reflexivity.
Qed.
Lemma cvalid_true v : cvalid v = true <-> exists q, v = Fin q /\ q <> missing_number.
Proof.
  destruct v; cbn; [split; [discriminate|intros (? & [=] & _)]..|]. split.
  - destruct (qeqb_spec q (qz (-999))); [discriminate|]. eauto.
  - intros (? & [= <-] & n). destruct (qeqb_spec q (qz (-999))); [exfalso; apply n; auto|reflexivity].
Qed.

(** quality control *)
Lemma c153_gen mMin mMax d fs : shaped d fs -> exists out, qc_calibrator mMin mMax d fs = Ok out /\ shaped d out /\
  forall t y x e v, 0 <= t < d_t d -> within d y x e -> element fs t y x e v ->
    exists w, element out t y x e w /\ (missing v -> w = v) /\ (~ missing v -> w = qc_value mMin mMax v).
Proof.
  intros H. apply (elementwise d fs _ (fun t y x e v w => (missing v -> w = v) /\ (~ missing v -> w = qc_value mMin mMax v))); auto.
  intros t f0 Ht Hf Sf f y x e v S W Hv0 Hv. rewrite Hv. cbn [bind]. destruct (cvalid v) eqn:C.
  - left. eexists. split; [reflexivity|]. exists v. split; [exact Hv0|]. split; [|auto]. intros M. apply cvalid_missing in M. congruence.
  - right. split; [reflexivity|]. exists v. split; [exact Hv0|]. split; [auto|]. intros M. apply cvalid_missing in C. contradiction.
Qed.

Lemma c153 (lo hi : option Qc) d fs : shaped d fs ->
  (forall q, lo = Some q -> q <> missing_number) -> (forall q, hi = Some q -> q <> missing_number) -> (forall a b, lo = Some a -> hi = Some b -> (a <= b)%Qc) ->
  let bound o := match o with Some q => Fin q | None => Fin missing_number end in
  exists out, qc_calibrator (bound lo) (bound hi) d fs = Ok out /\ shaped d out /\
  forall t y x e v, 0 <= t < d_t d -> within d y x e -> element fs t y x e v ->
    exists w, element out t y x e w /\ (missing v -> w = v) /\
      forall q, v = Fin q -> q <> missing_number -> exists r, w = Fin r /\
        (forall a, lo = Some a -> a <= r /\ (q < a -> r = a))%Qc /\ (forall b, hi = Some b -> r <= b /\ (b < q -> r = b))%Qc /\
        ((forall a, lo = Some a -> a <= q)%Qc -> (forall b, hi = Some b -> q <= b)%Qc -> r = q).
Proof.
  intros H Hlo Hhi Hlh bound. destruct (c153_gen (bound lo) (bound hi) d fs H) as (out & E & S & G). exists out. split; [exact E|]. split; [exact S|].
  intros t y x e v Ht W Hv. destruct (G t y x e v Ht W Hv) as (w & Hw & G1 & G2). exists w. split; [exact Hw|]. split; [exact G1|].
  intros q -> Hq. rewrite G2 by (cbn; exact Hq). clear G1 G2 Hw G E S Hv. unfold qc_value.
  assert (CM : cvalid (Fin missing_number) = false) by reflexivity.
  destruct lo as [a|]; destruct hi as [b|]; cbn [bound]; rewrite ?CM; rewrite ?(cvalid_Fin a) by auto; rewrite ?(cvalid_Fin b) by auto; cbn [andb];
    change (vltb (Fin ?u) (Fin ?v)) with (qltb u v).
  - specialize (Hlh a b eq_refl eq_refl). destruct (qltb_spec q a) as [L|L].
    + exists a. split; [auto|]. split; [|split].
      * intros ? [= <-]. split; [apply Qcle_refl|auto].
      * intros ? [= <-]. split; [auto|]. intros; exfalso; qlra.
      * intros A _. specialize (A a eq_refl). exfalso; qlra.
    + destruct (qltb_spec b q) as [L'|L'].
      * exists b. split; [auto|]. split; [|split].
        -- intros ? [= <-]. split; [auto|]. intros; exfalso; qlra.
        -- intros ? [= <-]. split; [apply Qcle_refl|auto].
        -- intros _ B. specialize (B b eq_refl). exfalso; qlra.
      * exists q. split; [auto|]. split; [|split; [|auto]].
        -- intros ? [= <-]. split; [qlra|]. intros; exfalso; qlra.
        -- intros ? [= <-]. split; [qlra|]. intros; exfalso; qlra.
  - destruct (qltb_spec q a) as [L|L].
    + exists a. split; [auto|]. split; [|split; [discriminate|]].
      * intros ? [= <-]. split; [apply Qcle_refl|auto].
      * intros A _. specialize (A a eq_refl). exfalso; qlra.
    + exists q. split; [auto|]. split; [|split; [discriminate|auto]]. intros ? [= <-]. split; [qlra|]. intros; exfalso; qlra.
  - destruct (qltb_spec b q) as [L|L].
    + exists b. split; [auto|]. split; [discriminate|]. split.
      * intros ? [= <-]. split; [apply Qcle_refl|auto].
      * intros _ B. specialize (B b eq_refl). exfalso; qlra.
    + exists q. split; [auto|]. split; [discriminate|]. split; [|auto]. intros ? [= <-]. split; [qlra|]. intros; exfalso; qlra.
  - exists q. split; [auto|]. split; [discriminate|]. split; [discriminate|auto].
Qed.

(** cloud cover *)
Lemma lset_lset {A} (l : list A) : forall n v w, lset (lset l n v) n w = lset l n w.
Proof. induction l as [|a l IH]; intros [|n] v w; cbn; auto. f_equal. apply IH. Qed.
Lemma f_set_twice d f y x e v w : of_size d f -> within d y x e -> (g <- f_set f y x e v ;; f_set g y x e w) = f_set f y x e w.
Proof.
  intros (H & S) W. assert (I : inside f y x e) by (apply (inside_iff d f); auto; split; auto). unfold f_set at 1 3. destruct (f_index_in _ _ _ _ H I) as [-> R]. cbn [bind].
  rewrite !zset_Ok by auto. cbn [bind]. unfold f_set, f_index. cbn [f_ny f_nx f_ne f_values]. destruct I as (I1 & I2 & I3). replace (_ && _) with true by lia. cbn [bind].
  rewrite zset_Ok by (rewrite zlen_lset; auto). cbn [bind]. rewrite lset_lset. reflexivity.
Qed.
Lemma c154 (value : Qc) d precips clouds : shaped d precips -> shaped d clouds ->
  exists out, cloud_calibrator (Fin value) d precips clouds = Ok out /\ shaped d out /\
  forall t y x e p c, 0 <= t < d_t d -> within d y x e -> element precips t y x e p -> element clouds t y x e c ->
    exists w, element out t y x e w /\
      (missing p \/ missing c -> w = c) /\
      (forall pq cq, p = Fin pq -> c = Fin cq -> pq <> missing_number -> cq <> missing_number ->
        (pq <= 0 -> w = c)%Qc /\ (0 < pq -> (value <= cq -> w = c) /\ (cq < value -> w = Fin value))%Qc).
Proof.
  intros HP HC.
  destruct (elementwise d clouds (fun t f i j e => currPrecip <- get4 precips t i j e ;; currCloud <- f_get f i j e ;;
      if cvalid currPrecip && cvalid currCloud then
        f <- f_set f i j e currCloud ;;
        if vltb (fz 0) currPrecip && vltb currCloud (Fin value) then f_set f i j e (Fin value) else Ok f
      else Ok f) (fun t y x e c w => forall p, element precips t y x e p ->
      (missing p \/ missing c -> w = c) /\
      (forall pq cq, p = Fin pq -> c = Fin cq -> pq <> missing_number -> cq <> missing_number ->
        (pq <= 0 -> w = c)%Qc /\ (0 < pq -> (value <= cq -> w = c) /\ (cq < value -> w = Fin value))%Qc)) HC) as (out & E & S & G).
  - intros t f0 Ht Hf Sf f y x e c Sf' W Hc0 Hc. destruct (shaped_elem d precips t y x e HP Ht W) as (p & Ep & Gp). rewrite Gp, Hc. cbn [bind].
    assert (FP : forall p', element precips t y x e p' -> p' = p) by (intros; eapply element_fun; eauto).
    destruct (cvalid p) eqn:Cp; cbn [andb].
    2:{ right. split; auto. exists c. split; [exact Hc0|]. intros p' Hp'. rewrite (FP p' Hp'). split; auto. intros pq cq -> -> n _. rewrite cvalid_Fin in Cp by auto. discriminate. }
    destruct (cvalid c) eqn:Cc.
    2:{ right. split; auto. exists c. split; [exact Hc0|]. intros p' Hp'. rewrite (FP p' Hp'). split; auto. intros pq cq -> -> _ n. rewrite cvalid_Fin in Cc by auto. discriminate. }
    apply cvalid_true in Cp as (pq & -> & np). apply cvalid_true in Cc as (cq & -> & nc).
    assert (NM : ~ (missing (Fin pq) \/ missing (Fin cq))) by (cbn; tauto).
    change (vltb (fz 0) (Fin pq)) with (qltb (qz 0) pq). change (vltb (Fin cq) (Fin value)) with (qltb cq value). left.
    destruct (qltb_spec (qz 0) pq) as [L|L]; rewrite qz_0 in L; cbn [andb]; [destruct (qltb_spec cq value) as [L'|L']|].
    + exists (Fin value). split; [apply (f_set_twice d); auto|]. exists (Fin cq). split; [exact Hc0|]. intros p' Hp'. rewrite (FP p' Hp'). split; [tauto|].
      intros ? ? [= <-] [= <-] _ _. split; [intros; exfalso; qlra|]. intros _. split; [intros; exfalso; qlra|auto].
    + exists (Fin cq). split; [destruct (f_set f y x e (Fin cq)); auto|]. exists (Fin cq). split; [exact Hc0|]. intros p' Hp'. rewrite (FP p' Hp'). split; [tauto|].
      intros ? ? [= <-] [= <-] _ _. split; [auto|]. intros _. split; [auto|intros; exfalso; qlra].
    + exists (Fin cq). split; [destruct (f_set f y x e (Fin cq)); auto|]. exists (Fin cq). split; [exact Hc0|]. intros p' Hp'. rewrite (FP p' Hp'). split; [tauto|].
      intros ? ? [= <-] [= <-] _ _. split; [auto|]. intros; exfalso; qlra.
  - exists out. split; [exact E|]. split; [exact S|]. intros t y x e p c Ht W Hp Hc. destruct (G t y x e c Ht W Hc) as (w & Hw & R). exists w. split; [exact Hw|]. apply R; auto.
Qed.

(** precipitation phase *)
Lemma c155_gen minPrecip snow rain d temps precips phases : shaped d temps -> shaped d precips -> shaped d phases ->
  exists out, phase_calibrator minPrecip snow rain d temps precips phases = Ok out /\ shaped d out /\
  forall t y x e T p, 0 <= t < d_t d -> within d y x e -> element temps t y x e T -> element precips t y x e p -> element out t y x e (phase_value minPrecip snow rain T p).
Proof.
  intros HT HP HF.
  destruct (elementwise d phases (fun t f i j e => temp <- get4 temps t i j e ;; precip <- get4 precips t i j e ;; f_set f i j e (phase_value minPrecip snow rain temp precip))
    (fun t y x e v w => forall T p, element temps t y x e T -> element precips t y x e p -> w = phase_value minPrecip snow rain T p) HF) as (out & E & S & G).
  - intros t f0 Ht Hf Sf f y x e v Sf' W Hv0 Hv. destruct (shaped_elem d temps t y x e HT Ht W) as (T & ET & GT). destruct (shaped_elem d precips t y x e HP Ht W) as (p & Ep & Gp).
    rewrite GT, Gp. cbn [bind]. left. eexists. split; [reflexivity|]. exists v. split; [exact Hv0|]. intros T' p' HT' Hp'.
    rewrite (element_fun _ _ _ _ _ _ _ HT' ET), (element_fun _ _ _ _ _ _ _ Hp' Ep). reflexivity.
  - exists out. split; [exact E|]. split; [exact S|]. intros t y x e T p Ht W H1 H2. destruct (shaped_elem d phases t y x e HF Ht W) as (v & Ev & _).
    destruct (G t y x e v Ht W Ev) as (w & Hw & R). rewrite <- (R T p); auto.
Qed.
Lemma c155 (minPrecip snow rain : Qc) d temps precips phases : shaped d temps -> shaped d precips -> shaped d phases -> (snow <= rain)%Qc ->
  exists out, phase_calibrator (Fin minPrecip) (Fin snow) (Fin rain) d temps precips phases = Ok out /\ shaped d out /\
  forall t y x e T p, 0 <= t < d_t d -> within d y x e -> element temps t y x e T -> element precips t y x e p ->
    exists w, element out t y x e w /\ (missing T \/ missing p -> is_missing_value w) /\
    forall Tq pq, T = Fin Tq -> p = Fin pq -> Tq <> missing_number -> pq <> missing_number ->
      (pq < minPrecip -> w = fz 0)%Qc /\ (minPrecip < pq -> (rain < Tq -> w = fz 1) /\ (snow < Tq /\ Tq <= rain -> w = fz 2) /\ (Tq < snow -> w = fz 3))%Qc /\
      (pq = minPrecip -> w = fz 0) /\ (minPrecip < pq -> Tq = snow -> w = fz 3)%Qc.
Proof.
  intros HT HP HF HR. destruct (c155_gen (Fin minPrecip) (Fin snow) (Fin rain) d temps precips phases HT HP HF) as (out & E & S & G). exists out. split; [exact E|]. split; [exact S|].
  intros t y x e T p Ht W H1 H2. eexists. split; [eapply G; eauto|]. unfold phase_value. split.
  - intros [M|M]; apply cvalid_missing in M; rewrite M; [|rewrite andb_false_r]; reflexivity.
  - intros Tq pq -> -> nT np. rewrite !cvalid_Fin by auto. cbn [andb]. rewrite !P_Stat.vleb_Fin.
    destruct (qleb_spec pq minPrecip) as [A|A]; [|destruct (qleb_spec Tq snow) as [B|B]; [|destruct (qleb_spec Tq rain) as [C|C]]];
      (split; [intros; auto; exfalso; qlra|]); (split; [intros K; split; [|split]; intros; auto; try (exfalso; qlra)|]); (split; [intros ->; auto; exfalso; qlra|intros ? ->; auto; exfalso; qlra]).
Qed.
(** the documentation asks for "no precipitation" below the limit only *)
Lemma c155_refuted : exists minPrecip snow rain d temps precips phases out, shaped d temps /\ shaped d precips /\ shaped d phases /\ (snow < rain)%Qc /\
  phase_calibrator (Fin minPrecip) (Fin snow) (Fin rain) d temps precips phases = Ok out /\
  exists Tq pq, element temps 0 0 0 0 (Fin Tq) /\ element precips 0 0 0 0 (Fin pq) /\ ~ (pq < minPrecip)%Qc /\ (Tq < snow)%Qc /\ element out 0 0 0 0 (fz 0).
Proof.
  set (f := fun v => {| f_values := [v]; f_ny := 1; f_nx := 1; f_ne := 1 |}).
  exists (Q2Qc (1#5)), (qz 273), (qz 274), {| d_y := 1; d_x := 1; d_e := 1; d_t := 1 |}, [f (fz 260)], [f (fq (1#5))], [f (fz 0)], [f (fz 0)].
  assert (SH : forall v, shaped {| d_y := 1; d_x := 1; d_e := 1; d_t := 1 |} [f v]).
  { intros v. unfold shaped; cbn. repeat split; try lia. repeat constructor; cbn; lia. }
  split; [apply SH|]. split; [apply SH|]. split; [apply SH|]. split; [vm_compute; reflexivity|]. split; [vcalc|].
  exists (qz 260), (Q2Qc (1#5)). split; [exists (f (fz 260)); split; reflexivity|]. split; [exists (f (fq (1#5))); split; reflexivity|]. split; [vm_compute; discriminate|]. split; [vm_compute; reflexivity|].
  exists (f (fz 0)); split; reflexivity.
Qed.

(** thresholds *)
Lemma threshold_index_passed (v : Qc) : forall thr es p, StronglySorted Qclt thr -> zlen es = zlen thr ->
  threshold_index (Fin v) p (map Fin thr) es = Ok (p + passed v thr es).
Proof.
  assert (Z0 : forall thr es, (forall c, In c thr -> v < c)%Qc -> passed v thr es = 0).
  { unfold passed. induction thr as [|c thr IH]; intros [|e es] H; auto. cbn [combine filter passes]. destruct (Qclt_le_dec v c) as [L|L]; [apply IH; intros; apply H; right; auto|].
    exfalso. specialize (H c (or_introl eq_refl)). qlra. }
  induction thr as [|c thr IH]; intros es p S L.
  - change (passed v [] es) with 0. cbn. f_equal. lia.
  - destruct es as [|e es]; [rewrite zlen_cons in L; pose proof (zlen_nonneg thr); change (zlen (@nil Z)) with 0 in L; lia|]. rewrite !zlen_cons in L. inversion S as [|? ? S' F]; subst. rewrite Forall_forall in F.
    cbn [map threshold_index tl]. change (vltb (Fin v) (Fin c)) with (qltb v c). rewrite veqb_Fin. unfold passed in *. cbn [combine filter passes].
    destruct (qltb_spec v c) as [A|A]; destruct (Qclt_le_dec v c) as [B|B]; try (exfalso; qlra).
    + rewrite Z0; [f_equal; lia|]. intros c' Hc'. specialize (F c' Hc'). cbn in F. qlra.
    + destruct (qeqb_spec v c) as [->|n].
      * destruct (Qc_eq_dec c c); [|congruence]. destruct (e =? 1) eqn:Ee; cbn [negb].
        -- rewrite Z0; [f_equal; lia|]. intros c' Hc'. specialize (F c' Hc'). exact F.
        -- rewrite IH by (auto; lia). rewrite zlen_cons. f_equal. lia.
      * destruct (Qc_eq_dec v c); [congruence|]. rewrite IH by (auto; lia). rewrite zlen_cons. f_equal. lia.
Qed.
Lemma zlen_filter {A} (f : A -> bool) l : 0 <= zlen (filter f l) <= zlen l.
Proof. induction l as [|a l IH]; cbn [filter]; [change (zlen (@nil A)) with 0; lia|]. rewrite zlen_cons. destruct (f a); rewrite ?zlen_cons; lia. Qed.
Lemma passed_range v thr es : 0 <= passed v thr es <= zlen thr.
Proof.
  unfold passed. destruct (zlen_filter (passes v) (combine thr es)) as [A B]. split; [exact A|]. etransitivity; [exact B|]. unfold zlen. rewrite combine_length. lia.
Qed.
Lemma init1_map {A} (v : A) {B} (l : list B) : init1 (zlen l) v = map (fun _ => v) l.
Proof.
  unfold init1, zlen. induction l as [|c l IH] using rev_ind; [reflexivity|]. rewrite map_app, <- IH, app_length. cbn [length map]. rewrite Nat2Z.inj_add, zrange_snoc by lia.
  rewrite map_app. cbn [map]. replace (Z.of_nat (length l) + Z.of_nat 1 - 1) with (Z.of_nat (length l)) by lia. reflexivity.
Qed.
Lemma c152 thr values equals d fs : shaped d fs -> increasing_thresholds thr -> zlen values = zlen thr + 1 -> (forall l, equals = Some l -> zlen l = zlen thr) ->
  let es := match equals with Some l => l | None => map (fun _ => 0) thr end in
  exists out, threshold_calibrator (map Fin thr) values equals d fs = Ok out /\ shaped d out /\
  forall t y x e v, 0 <= t < d_t d -> within d y x e -> element fs t y x e v ->
    exists w, element out t y x e w /\ (missing v -> w = v) /\ forall q, v = Fin q -> q <> missing_number -> znth values (passed q thr es) = Ok w.
Proof.
  intros H HT HV HE es. unfold threshold_calibrator. rewrite !zlen_map.
  replace (match equals with Some l => l | None => init1 (zlen thr) 0 end) with es.
  2:{ unfold es. destruct equals; auto. symmetry. apply init1_map. }
  assert (Le : zlen es = zlen thr) by (unfold es; destruct equals; [auto|apply zlen_map]).
  replace (zlen values =? zlen thr + 1) with true by lia. replace (zlen es =? zlen thr) with true by lia. cbn [negb].
  apply (elementwise d fs _ (fun t y x e v w => (missing v -> w = v) /\ forall q, v = Fin q -> q <> missing_number -> znth values (passed q thr es) = Ok w)); auto.
  intros t f0 Ht Hf Sf f y x e v S W Hv0 Hv. rewrite Hv. cbn [bind]. destruct (cvalid v) eqn:C.
  - left. apply cvalid_true in C as (q & -> & nq). rewrite threshold_index_passed by auto. cbn [bind]. pose proof (passed_range q thr es). rewrite Z.add_0_l.
    destruct (znth_some values (passed q thr es)) as [w Hw]; [lia|]. rewrite Hw. cbn [bind]. exists w. split; [reflexivity|]. exists (Fin q). split; [exact Hv0|]. split; [cbn; contradiction|].
    intros ? [= <-] _. exact Hw.
  - right. split; [reflexivity|]. exists v. split; [exact Hv0|]. split; [auto|]. intros q -> n. rewrite cvalid_Fin in C by auto. discriminate.
Qed.
Lemma c152_checks thr values equals d fs : (zlen values <> zlen thr + 1 \/ exists l, equals = Some l /\ zlen l <> zlen thr) -> threshold_calibrator thr values equals d fs = Abort.
Proof.
  intros H. unfold threshold_calibrator. destruct (Z.eqb_spec (zlen values) (zlen thr + 1)); auto. cbn [negb]. destruct H as [|(l & -> & H)]; [contradiction|].
  destruct (Z.eqb_spec (zlen l) (zlen thr)); [contradiction|reflexivity].
Qed.

(** a field that is made afresh: every element is given a value *)
Lemma fresh_ok d fs (body : field -> Z -> Z -> Z -> res field) (P : Z -> Z -> Z -> val -> Prop) : shaped d fs ->
  (forall f y x e, of_size d f -> within d y x e -> exists w, body f y x e = f_set f y x e w /\ P y x e w) ->
  exists g, (f <- empty_field d ;; for3 d f body) = Ok g /\ of_size d g /\ forall y x e, within d y x e -> exists w, f_get g y x e = Ok w /\ P y x e w.
Proof.
  intros H HB. destruct (empty_ok d fs H) as (f & E & S). rewrite E. cbn [bind]. apply for3_ok; auto. intros f1 y x e v S1 W _ _. left. apply HB; auto.
Qed.

(** accumulation *)
Fixpoint acc_seq (s : Z -> val) (n : nat) : val :=
  match n with O => fz 0 | S m => if cvalid (s (Z.of_nat n)) && cvalid (acc_seq s m) then vadd (s (Z.of_nat n)) (acc_seq s m) else CMV end.
Definition val_at (fs : list field) (y x e t : Z) : val := match get4 fs t y x e with Ok v => v | _ => NaN end.
Lemma acc_seq_ext s s' n : (forall t, 1 <= t <= Z.of_nat n -> s t = s' t) -> acc_seq s n = acc_seq s' n.
Proof.
  induction n as [|n IH]; intros H; [reflexivity|]. cbn [acc_seq]. rewrite (H (Z.of_nat (S n))) by lia. rewrite IH by (intros; apply H; lia). reflexivity.
Qed.
Lemma accumulate_prefix d fs : shaped d fs -> forall n, Z.of_nat n <= d_t d -> exists acc,
  foldM (fun acc t =>
    f <- empty_field d ;;
    f <- for3 d f (fun f y x e =>
      if t =? 0 then f_set f y x e (fz 0)
      else
        previous <- get4 acc (t - 1) y x e ;; current <- get4 fs t y x e ;;
        f_set f y x e (if cvalid current && cvalid previous then vadd current previous else CMV)) ;;
    Ok (acc ++ [f])) [] (zrange 0 (Z.of_nat n)) = Ok acc /\ zlen acc = Z.of_nat n /\ Forall (of_size d) acc /\
  forall t y x e, (t < n)%nat -> within d y x e -> get4 acc (Z.of_nat t) y x e = Ok (acc_seq (val_at fs y x e) t).
Proof.
  intros H. induction n as [|n IH]; intros Hn.
  - exists []. split; [reflexivity|]. split; [reflexivity|]. split; [constructor|]. intros; lia.
  - destruct IH as (acc & E & L & F & G); [lia|]. rewrite Nat2Z.inj_succ, zrange_snoc by lia. replace (Z.succ (Z.of_nat n) - 1) with (Z.of_nat n) by lia. rewrite foldM_app, E. cbn [bind foldM].
    destruct (fresh_ok d fs (fun f y x e => if Z.of_nat n =? 0 then f_set f y x e (fz 0) else
        previous <- get4 acc (Z.of_nat n - 1) y x e ;; current <- get4 fs (Z.of_nat n) y x e ;;
        f_set f y x e (if cvalid current && cvalid previous then vadd current previous else CMV)) (fun y x e w => w = acc_seq (val_at fs y x e) n) H) as (g & Eg & Sg & Pg).
    { intros f y x e Sf W. destruct n as [|m].
      - exists (fz 0). split; reflexivity.
      - destruct (Z.eqb_spec (Z.of_nat (S m)) 0); [lia|]. replace (Z.of_nat (S m) - 1) with (Z.of_nat m) by lia. rewrite G by (auto; lia). cbn [bind].
        destruct (shaped_elem d fs (Z.of_nat (S m)) y x e H) as (v & _ & Hv); [lia|auto|]. assert (V : val_at fs y x e (Z.of_nat (S m)) = v) by (unfold val_at; rewrite Hv; auto). rewrite Hv. cbn [bind]. eexists. split; [reflexivity|].
        cbn [acc_seq]. rewrite V. reflexivity. }
    destruct (empty_field d) as [f| | |] eqn:Ef; try discriminate. cbn [bind] in Eg |- *. rewrite Eg. cbn [bind]. exists (acc ++ [g]). split; [reflexivity|].
    split; [rewrite zlen_app, L; change (zlen [g]) with 1; lia|]. split; [apply Forall_app; split; auto|].
    intros t y x e Ht W. unfold get4. destruct (Nat.eq_dec t n) as [->|Hne].
    + rewrite <- L. rewrite znth_app_r by lia. rewrite Z.sub_diag. cbn [znth]. destruct (Pg y x e W) as (w & Hw & ->). exact Hw.
    + rewrite znth_app_l by lia. apply (G t y x e); [lia|auto].
Qed.
Lemma accumulate_seq d fs : shaped d fs -> exists out, accumulate d fs = Ok out /\ shaped d out /\
  forall t y x e, 0 <= t < d_t d -> within d y x e -> element out t y x e (acc_seq (val_at fs y x e) (Z.to_nat t)).
Proof.
  intros H. pose proof H as (H0 & H1 & H2 & H3 & _). destruct (accumulate_prefix d fs H (Z.to_nat (d_t d))) as (acc & E & L & F & G); [lia|]. rewrite Z2Nat.id in E, L by auto.
  exists acc. split; [exact E|]. split; [repeat split; auto|]. intros t y x e Ht W. apply element_get. rewrite <- (Z2Nat.id t) at 1 by lia. apply G; [lia|auto].
Qed.
Lemma total_succ q n : total q (Z.of_nat (S n)) = (q (Z.of_nat (S n)) + total q (Z.of_nat n))%Qc.
Proof.
  unfold total. rewrite (zrange_snoc 1 (Z.of_nat (S n) + 1)) by lia. replace (Z.of_nat (S n) + 1 - 1) with (Z.of_nat (S n)) by lia. rewrite map_app, qsum_app.
  replace (Z.of_nat n + 1) with (Z.of_nat (S n)) by lia. cbn [map qsum]. ring.
Qed.
Lemma acc_seq_total s q n : (forall k, 1 <= k <= Z.of_nat n -> s k = Fin (q k) /\ q k <> missing_number) -> (forall k, 1 <= k < Z.of_nat n -> total q k <> missing_number) ->
  acc_seq s n = Fin (total q (Z.of_nat n)).
Proof.
  induction n as [|n IH]; intros H1 H2; [reflexivity|]. cbn [acc_seq]. rewrite IH; [|intros; apply H1; lia|intros; apply H2; lia]. destruct (H1 (Z.of_nat (S n))) as [-> nq]; [lia|].
  rewrite cvalid_Fin by auto. cbn [andb]. replace (cvalid (Fin (total q (Z.of_nat n)))) with true.
  - rewrite total_succ. reflexivity.
  - symmetry. destruct n as [|m]; [reflexivity|]. apply cvalid_Fin. apply H2. lia.
Qed.
Lemma acc_seq_missing s n : (exists k, 1 <= k <= Z.of_nat n /\ missing (s k)) -> acc_seq s n = Fin missing_number.
Proof.
  induction n as [|n IH]; intros (k & Hk & M); [lia|]. cbn [acc_seq]. destruct (Z.eq_dec k (Z.of_nat (S n))) as [->|Hne].
  - apply cvalid_missing in M. rewrite M. reflexivity.
  - rewrite IH; [|exists k; split; [lia|auto]]. change (cvalid (Fin missing_number)) with false. rewrite andb_false_r. reflexivity.
Qed.
Lemma val_at_series fs y x e s n t : series fs y x e s n -> 0 <= t < n -> val_at fs y x e t = s t.
Proof. intros H Ht. unfold val_at. specialize (H t Ht). apply element_get in H. rewrite H. reflexivity. Qed.
Lemma c149 d fs : shaped d fs -> exists out, accumulate d fs = Ok out /\ shaped d out /\
  forall y x e s, within d y x e -> series fs y x e s (d_t d) -> forall t, 0 <= t < d_t d ->
    (forall q, (forall k, 1 <= k <= t -> s k = Fin (q k) /\ q k <> missing_number) -> (forall k, 1 <= k < t -> total q k <> missing_number) -> element out t y x e (Fin (total q t))) /\
    ((exists k, 1 <= k <= t /\ missing (s k)) -> element out t y x e (Fin missing_number)).
Proof.
  intros H. destruct (accumulate_seq d fs H) as (out & E & S & G). exists out. split; [exact E|]. split; [exact S|]. intros y x e s W Hs t Ht. specialize (G t y x e Ht W).
  rewrite (acc_seq_ext _ s) in G by (intros k Hk; apply (val_at_series fs y x e s (d_t d)); auto; lia). split.
  - intros q H1 H2. rewrite (acc_seq_total s q) in G by (rewrite Z2Nat.id by lia; auto). rewrite Z2Nat.id in G by lia. exact G.
  - intros M. rewrite acc_seq_missing in G by (rewrite Z2Nat.id by lia; auto). exact G.
Qed.
Lemma total_nonneg q t : (forall k, 1 <= k <= t -> (0 <= q k)%Qc) -> (0 <= total q t)%Qc.
Proof.
  intros H. unfold total. assert (G : forall l, (forall k, In k l -> 0 <= q k)%Qc -> (0 <= qsum (map q l))%Qc).
  { induction l as [|k l IH]; intros Hl; cbn [map qsum]; [qlra|]. specialize (IH (fun k Hk => Hl k (or_intror Hk))). specialize (Hl k (or_introl eq_refl)). qlra. }
  apply G. intros k Hk. apply in_zrange in Hk. apply H. lia.
Qed.
Lemma nonneg_not_missing q : (0 <= q)%Qc -> q <> missing_number.
Proof. intros H ->. apply (Qclt_not_le missing_number 0); [reflexivity|exact H]. Qed.
(** amounts are accumulated without restrictions *)
Lemma c149_amounts d fs : shaped d fs -> exists out, accumulate d fs = Ok out /\
  forall y x e s q t, within d y x e -> series fs y x e s (d_t d) -> 0 <= t < d_t d -> (forall k, 1 <= k <= t -> s k = Fin (q k) /\ (0 <= q k)%Qc) ->
    element out t y x e (Fin (total q t)) /\ (0 <= total q t)%Qc /\ (t + 1 < d_t d -> forall r, s (t + 1) = Fin r -> (0 <= r)%Qc -> exists w, element out (t + 1) y x e (Fin w) /\ (total q t <= w)%Qc).
Proof.
  intros H. destruct (c149 d fs H) as (out & E & S & G). exists out. split; [exact E|]. intros y x e s q t W Hs Ht Hq.
  assert (TN : forall k, k <= t -> (0 <= total q k)%Qc) by (intros k Hk; apply total_nonneg; intros; apply Hq; lia).
  split.
  { apply (G y x e s W Hs t Ht).
    - intros k Hk. destruct (Hq k Hk) as [-> Hk']. split; [auto|apply nonneg_not_missing; auto].
    - intros k Hk. apply nonneg_not_missing, TN. lia. }
  split; [apply TN; lia|]. intros Ht' r Hr Hr'. set (q' := fun k => if k =? t + 1 then r else q k).
  assert (TE : forall k, 0 <= k <= t -> total q' k = total q k).
  { intros k Hk. unfold total. f_equal. apply map_ext_in. intros a Ha. apply in_zrange in Ha. unfold q'. replace (a =? t + 1) with false by lia. reflexivity. }
  exists (total q' (t + 1)). split.
  - apply (G y x e s W Hs (t + 1)); [lia| |].
    + intros k Hk. unfold q'. destruct (Z.eqb_spec k (t + 1)) as [->|Hne]; [split; [auto|apply nonneg_not_missing; auto]|]. destruct (Hq k) as [-> Hk']; [lia|]. split; [auto|apply nonneg_not_missing; auto].
    + intros k Hk. rewrite TE by lia. apply nonneg_not_missing, TN. lia.
  - replace (t + 1) with (Z.of_nat (Datatypes.S (Z.to_nat t))) by lia. rewrite total_succ. rewrite !Z2Nat.id by lia. rewrite TE by lia. replace (q' (Z.of_nat (Datatypes.S (Z.to_nat t)))) with r; [qlra|]. unfold q'. destruct (Z.eqb_spec (Z.of_nat (Datatypes.S (Z.to_nat t))) (t + 1)) as [_|n]; [reflexivity|clear - n Ht; lia].
Qed.
(** an accumulated value of exactly -999 is taken for missing *)
Lemma c149_refuted : exists d fs s q t out, shaped d fs /\ series fs 0 0 0 s (d_t d) /\ 0 <= t < d_t d /\ (forall k, 0 <= k < d_t d -> s k = Fin (q k) /\ q k <> missing_number) /\
  accumulate d fs = Ok out /\ ~ element out t 0 0 0 (Fin (total q t)).
Proof.
  set (f := fun v => {| f_values := [v]; f_ny := 1; f_nx := 1; f_ne := 1 |}).
  set (q := fun k => if k =? 0 then qz 0 else if k =? 1 then qz (-500) else if k =? 2 then qz (-499) else qz 10).
  exists {| d_y := 1; d_x := 1; d_e := 1; d_t := 4 |}, [f (fz 0); f (fz (-500)); f (fz (-499)); f (fz 10)], (fun k => Fin (q k)), q, 3, [f (fz 0); f (fz (-500)); f (fz (-999)); f (fz (-999))].
  split; [unfold shaped; cbn; repeat split; try lia; repeat constructor; cbn; lia|].
  assert (C : forall t, 0 <= t < 4 -> t = 0 \/ t = 1 \/ t = 2 \/ t = 3) by lia. split; [|split; [cbn; lia|split; [|split; [vcalc|]]]].
  - intros t Ht. cbn in Ht. apply C in Ht as [->|[->|[->| ->]]]; eexists; split; reflexivity.
  - intros k Hk. cbn in Hk. split; [auto|]. apply C in Hk as [->|[->|[->| ->]]]; intros A; apply (f_equal this) in A; vm_compute in A; discriminate.
  - intros (g & Hg & Hv). vm_compute in Hg. injection Hg as <-. vm_compute in Hv. discriminate.
Qed.

(** deaccumulation *)
Lemma c150 window d fs : shaped d fs -> 0 <= window -> exists out, deaccumulate window d fs = Ok out /\ shaped d out /\
  forall y x e s, within d y x e -> series fs y x e s (d_t d) -> forall t, 0 <= t < d_t d -> exists w, element out t y x e w /\
    (t < window -> is_missing_value w) /\
    (window <= t -> (missing (s t) \/ missing (s (t - window)) -> is_missing_value w) /\
      (forall a b, s t = Fin a -> s (t - window) = Fin b -> a <> missing_number -> b <> missing_number -> w = Fin (a - b)%Qc)).
Proof.
  intros H Hw. unfold deaccumulate.
  destruct (each_time_ok d fs (fun t => f <- empty_field d ;; for3 d f (fun f y x e =>
      if t <? window then f_set f y x e CMV
      else
        previous <- get4 fs (t - window) y x e ;; current <- get4 fs t y x e ;;
        f_set f y x e (if cvalid current && cvalid previous then vsub current previous else CMV)))
    (fun t g => forall y x e, within d y x e -> exists w, f_get g y x e = Ok w /\ w = if t <? window then CMV else
      if cvalid (val_at fs y x e t) && cvalid (val_at fs y x e (t - window)) then vsub (val_at fs y x e t) (val_at fs y x e (t - window)) else CMV) H) as (out & E & S & G).
  { intros t Ht. apply (fresh_ok d fs); auto. intros f y x e Sf W. destruct (Z.ltb_spec t window); [eauto|].
    destruct (shaped_elem d fs (t - window) y x e H) as (p & _ & Gp); [lia|auto|]. destruct (shaped_elem d fs t y x e H Ht W) as (v & _ & Gv).
    rewrite Gp, Gv. cbn [bind]. eexists. split; [reflexivity|]. unfold val_at. rewrite Gp, Gv. reflexivity. }
  exists out. split; [exact E|]. split; [exact S|]. intros y x e s W Hs t Ht. destruct (G t Ht) as (g & Hg & Pg). destruct (Pg y x e W) as (w & Hv & ->). eexists. split; [exists g; eauto|].
  destruct (Z.ltb_spec t window) as [L|L]; [split; [reflexivity|lia]|]. split; [lia|]. intros _. rewrite !(val_at_series fs y x e s (d_t d)) by (auto; lia). split.
  - intros [M|M]; apply cvalid_missing in M; rewrite M; [|rewrite andb_false_r]; reflexivity.
  - intros a b -> -> na nb. rewrite !cvalid_Fin by auto. reflexivity.
Qed.
Lemma c150_inverse d fs : shaped d fs -> exists acc out, accumulate d fs = Ok acc /\ deaccumulate 1 d acc = Ok out /\ shaped d out /\
  forall y x e s q t, within d y x e -> series fs y x e s (d_t d) -> 1 <= t < d_t d ->
    (forall k, 1 <= k <= t -> s k = Fin (q k) /\ q k <> missing_number) -> (forall k, 1 <= k <= t -> total q k <> missing_number) -> element out t y x e (s t).
Proof.
  intros H. destruct (accumulate_seq d fs H) as (acc & E & S & _). destruct (c150 1 d acc S) as (out & E' & S' & G'); [lia|]. exists acc, out. split; [exact E|]. split; [exact E'|]. split; [exact S'|].
  intros y x e s q t W Hs Ht Hq HT. destruct (c149 d fs H) as (acc' & Ea & _ & G). assert (acc' = acc) by congruence. subst acc'.
  assert (SA : series acc y x e (val_at acc y x e) (d_t d)).
  { intros k Hk. destruct (shaped_elem d acc k y x e S Hk W) as (v & Ev & Gv). unfold val_at. rewrite Gv. exact Ev. }
  destruct (G' y x e _ W SA t) as (w & Hw & _ & Hd); [lia|]. destruct Hd as [_ Hd]; [lia|].
  assert (A : forall k, 0 <= k <= t -> val_at acc y x e k = Fin (total q k)).
  { intros k Hk. unfold val_at. assert (EA : element acc k y x e (Fin (total q k))). { apply (G y x e s W Hs k); [lia| |]; intros; [apply Hq|apply HT]; lia. } apply element_get in EA. rewrite EA. reflexivity. }
  rewrite (Hd (total q t) (total q (t - 1))) in Hw.
  - destruct (Hq t) as [-> _]; [lia|]. replace (total q t - total q (t - 1))%Qc with (q t) in Hw; [exact Hw|].
    replace t with (Z.of_nat (Datatypes.S (Z.to_nat (t - 1)))) at 2 by lia. rewrite total_succ. rewrite Z2Nat.id by lia. replace (Z.of_nat (Datatypes.S (Z.to_nat (t - 1)))) with t by lia. ring.
  - apply A; lia.
  - apply A; lia.
  - apply HT; lia.
  - destruct (Z.eq_dec t 1) as [->|n]; [|apply HT; lia]. change (total q (1 - 1)) with 0%Qc. apply nonneg_not_missing. apply Qcle_refl.
Qed.

(** sorting of values that are numbers *)
Definition nle (a b : val) : Prop := vltb b a = false.
Lemma nle_vleb a b : number a -> number b -> (vleb a b = true <-> nle a b).
Proof. intros Ha Hb. unfold nle, vleb. destruct (num_cases a b Ha Hb) as [(? & -> & -> & ->)|[(? & -> & -> & ->)|(? & -> & -> & ->)]]; cbn; split; auto; discriminate. Qed.
Lemma nle_total a b : number a -> number b -> nle a b \/ nle b a.
Proof. intros Ha Hb. unfold nle. destruct (num_cases a b Ha Hb) as [(? & ? & ? & ?)|[(? & ? & ? & ?)|(? & ? & ? & ?)]]; auto. Qed.
Lemma nle_trans a b c : number a -> number b -> number c -> nle a b -> nle b c -> nle a c.
Proof.
  unfold nle. intros Ha Hb Hc H1 H2. destruct (vltb c a) eqn:E; [|auto]. exfalso.
  destruct (num_cases a b Ha Hb) as [(-> & _)|[(_ & _ & L & _)|(_ & _ & _ & L)]]; [congruence| |congruence]. pose proof (num_lt_trans _ _ _ E L). congruence.
Qed.
Lemma vinsert_perm x l : Permutation (vinsert x l) (x :: l).
Proof. induction l as [|y l IH]; cbn; [reflexivity|]. destruct (vleb x y); [reflexivity|]. rewrite IH. apply perm_swap. Qed.
Lemma visort_perm l : Permutation (visort l) l.
Proof. induction l as [|x l IH]; cbn; [reflexivity|]. rewrite vinsert_perm. constructor. exact IH. Qed.
Lemma vinsert_sorted x l : number x -> Forall number l -> StronglySorted nle l -> StronglySorted nle (vinsert x l).
Proof.
  intros Hx. induction l as [|y l IH]; intros Hn HS; cbn; [repeat constructor|]. inversion Hn as [|? ? Hy Hl]; subst. inversion HS as [|? ? HS' HF]; subst. destruct (vleb x y) eqn:E.
  - apply nle_vleb in E; auto. constructor; [constructor; auto|]. constructor; auto. rewrite Forall_forall in *. intros z Hz. apply (nle_trans x y z); auto.
  - constructor; [apply IH; auto|]. apply Forall_forall. intros z Hz. apply (Permutation_in _ (vinsert_perm x l)) in Hz as [<-|Hz]; [|rewrite Forall_forall in HF; auto].
    destruct (nle_total x y Hx Hy) as [L|L]; auto. apply nle_vleb in L; auto. congruence.
Qed.
Lemma visort_sorted l : Forall number l -> StronglySorted nle (visort l).
Proof.
  induction l as [|x l IH]; intros H; cbn; [constructor|]. inversion H as [|? ? Hx Hl]; subst. apply vinsert_sorted; auto. apply Forall_forall. intros z Hz. rewrite Forall_forall in Hl. apply Hl.
  apply (Permutation_in _ (visort_perm l)); auto.
Qed.
Lemma filter_insert x l : number x -> Forall number l -> StronglySorted nle l -> cvalid x = true -> filter cvalid (vinsert x l) = vinsert x (filter cvalid l).
Proof.
  intros Hx. induction l as [|y l IH]; intros Hn HS C; cbn; [rewrite C; reflexivity|]. inversion Hn as [|? ? Hy Hl]; subst. inversion HS as [|? ? HS' HF]; subst. rewrite Forall_forall in HF, Hl. destruct (vleb x y) eqn:E.
  - cbn [filter]. rewrite C. destruct (cvalid y) eqn:Cy; [cbn; rewrite E; reflexivity|]. destruct (filter cvalid l) as [|z m] eqn:F; [reflexivity|]. cbn.
    assert (Iz : In z l). { assert (In z (filter cvalid l)) by (rewrite F; left; auto). apply filter_In in H. tauto. }
    apply nle_vleb in E; auto. assert (vleb x z = true) as ->; [|reflexivity]. apply nle_vleb; auto. apply (nle_trans x y z); auto.
  - cbn [filter]. rewrite IH by (auto; apply Forall_forall; auto). destruct (cvalid y) eqn:Cy; [|reflexivity]. cbn. rewrite E. reflexivity.
Qed.
Lemma filter_insert_not x l : cvalid x = false -> filter cvalid (vinsert x l) = filter cvalid l.
Proof.
  intros C. induction l as [|y l IH]; cbn; [rewrite C; reflexivity|]. destruct (vleb x y); cbn [filter]; [rewrite C; reflexivity|]. rewrite IH. reflexivity.
Qed.
Lemma present_cons v l : present (v :: l) = match v with Fin q => if Qc_eq_dec q missing_number then present l else q :: present l | _ => present l end.
Proof. unfold present. destruct v; try reflexivity. cbn. destruct (Qc_eq_dec q missing_number); reflexivity. Qed.
Lemma filter_cvalid l : filter cvalid l = map Fin (present l).
Proof.
  induction l as [|v l IH]; [reflexivity|]. rewrite present_cons. cbn [filter]. rewrite IH. destruct v; try reflexivity. destruct (Qc_eq_dec q missing_number) as [->|n]; [reflexivity|].
  rewrite cvalid_Fin by auto. reflexivity.
Qed.
Lemma visort_present l : Forall number l -> filter cvalid (visort l) = map Fin (qsort (present l)).
Proof.
  induction l as [|x l IH]; intros H; [reflexivity|]. inversion H as [|? ? Hx Hl]; subst. change (visort (x :: l)) with (vinsert x (visort l)). destruct (cvalid x) eqn:C.
  - rewrite filter_insert; auto.
    + rewrite IH by auto. apply cvalid_true in C as (q & -> & n). rewrite present_cons. destruct (Qc_eq_dec q missing_number); [contradiction|]. rewrite vinsert_map. reflexivity.
    + apply Forall_forall. intros z Hz. rewrite Forall_forall in Hl. apply Hl. apply (Permutation_in _ (visort_perm l)); auto.
    + apply visort_sorted; auto.
  - rewrite filter_insert_not by auto. rewrite IH by auto. rewrite present_cons. destruct x; auto. destruct (Qc_eq_dec q missing_number) as [->|n]; auto. rewrite cvalid_Fin in C by auto. discriminate.
Qed.
(** moving the values that are present to the front *)
Lemma lset_app_mid {A} (l : list A) a b m : lset (l ++ a :: m) (length l) b = (l ++ [b]) ++ m.
Proof. induction l as [|c l IH]; cbn; [reflexivity|]. f_equal. exact IH. Qed.
Lemma compact_prefix (s : vec) n : Z.of_nat n <= zlen s ->
  foldM (fun st e => let '(l, counter) := st in v <- znth s e ;; if cvalid v then l <- zset l counter v ;; Ok (l, counter + 1) else Ok (l, counter)) (init1 (zlen s) CMV, 0) (zrange 0 (Z.of_nat n))
  = Ok (filter cvalid (firstn n s) ++ repeat CMV (length s - length (filter cvalid (firstn n s))), zlen (filter cvalid (firstn n s))).
Proof.
  induction n as [|n IH]; intros Hn.
  - cbn [Z.of_nat]. rewrite zrange_nil by lia. cbn [foldM firstn filter app length]. rewrite Nat.sub_0_r. rewrite init1_map. replace (map (fun _ => CMV) s) with (repeat CMV (length s)); [reflexivity|].
    clear. induction s; cbn; congruence.
  - rewrite Nat2Z.inj_succ, zrange_snoc by lia. replace (Z.succ (Z.of_nat n) - 1) with (Z.of_nat n) by lia. rewrite foldM_app, IH by lia. cbn [bind foldM].
    destruct (znth_some s (Z.of_nat n)) as [v Hv]; [lia|]. rewrite Hv. cbn [bind].
    assert (F : firstn (S n) s = firstn n s ++ [v]).
    { clear - Hv. unfold znth in Hv. destruct (Z.of_nat n <? 0); [discriminate|]. rewrite Nat2Z.id in Hv. revert n Hv. induction s as [|a s IH]; intros [|n] Hv; cbn in *; try discriminate; [congruence|]. f_equal. apply IH; auto. }
    rewrite F, filter_app. cbn [filter]. assert (LF : (length (filter cvalid (firstn n s)) <= n)%nat).
    { pose proof (zlen_filter cvalid (firstn n s)) as [_ B]. unfold zlen in B. pose proof (firstn_le_length n s). lia. }
    destruct (cvalid v) eqn:C; [|rewrite app_nil_r; reflexivity]. set (m := filter cvalid (firstn n s)) in *. assert (LS : (n < length s)%nat) by (unfold zlen in Hn; lia).
    rewrite zset_Ok by (rewrite zlen_app; unfold zlen; rewrite repeat_length; lia). cbn [bind]. destruct (length s - length m)%nat as [|k] eqn:K; [lia|]. cbn [repeat].
    unfold zlen at 1. rewrite Nat2Z.id, lset_app_mid. rewrite zlen_app, app_length. change (zlen [v]) with 1. cbn [length]. replace (length s - (length m + 1))%nat with k by lia. reflexivity.
Qed.
Lemma std_sort_numbers l : Forall number l -> std_sort l = Ok (visort l).
Proof.
  intros H. unfold std_sort. replace (existsb is_nan l) with false; [rewrite andb_false_r; reflexivity|]. symmetry. apply not_true_is_false. intros K. apply existsb_exists in K as (v & Hv & N).
  rewrite Forall_forall in H. specialize (H v Hv). destruct v; try discriminate. apply H; reflexivity.
Qed.
Lemma sorted_members_ok n vs : zlen vs = n -> Forall number vs -> exists ws, sorted_members n vs = Ok ws /\ zlen ws = n /\ sorted_present vs ws.
Proof.
  intros L H. unfold sorted_members. rewrite std_sort_numbers by auto. cbn [bind]. assert (LV : length (visort vs) = length vs) by (apply Permutation_length, visort_perm).
  assert (LZ : zlen (visort vs) = n) by (unfold zlen in *; lia). pose proof (compact_prefix (visort vs) (length (visort vs))) as C. change (Z.of_nat (length (visort vs))) with (zlen (visort vs)) in C.
  rewrite LZ in C. rewrite C by lia. clear C. cbn [bind]. rewrite firstn_all, visort_present by auto. eexists. split; [reflexivity|].
  assert (LP : (length (qsort (present vs)) <= length (visort vs))%nat).
  { pose proof (zlen_filter cvalid (visort vs)) as [_ B]. rewrite visort_present in B by auto. unfold zlen in B. rewrite map_length in B. lia. }
  assert (LL : zlen (map Fin (qsort (present vs)) ++ repeat CMV (length (visort vs) - length (map Fin (qsort (present vs))))) = n).
  { unfold zlen in *. rewrite app_length, repeat_length, map_length. lia. }
  split; [exact LL|]. exists (qsort (present vs)), (length (visort vs) - length (map Fin (qsort (present vs))))%nat. split; [apply sorted_qsort|]. split; [apply perm_qsort|]. split; [reflexivity|]. rewrite LL. auto.
Qed.
(** the members of one point are set *)
Lemma set_members d f i j ws : of_size d f -> 0 <= i < d_y d -> 0 <= j < d_x d -> zlen ws = d_e d -> forall n, Z.of_nat n <= d_e d ->
  exists g, foldM (fun f e => v <- znth ws e ;; f_set f i j e v) f (zrange 0 (Z.of_nat n)) = Ok g /\ of_size d g /\
    (forall e, 0 <= e < Z.of_nat n -> f_get g i j e = znth ws e) /\
    (forall y x e, within d y x e -> (y, x) <> (i, j) \/ Z.of_nat n <= e -> f_get g y x e = f_get f y x e).
Proof.
  intros H Hi Hj L. induction n as [|n IH]; intros Hn.
  - exists f. split; [reflexivity|]. split; [auto|]. split; [intros; lia|auto].
  - destruct IH as (g & E & S & G1 & G2); [lia|]. rewrite Nat2Z.inj_succ, zrange_snoc by lia. replace (Z.succ (Z.of_nat n) - 1) with (Z.of_nat n) by lia. rewrite foldM_app, E. cbn [bind foldM].
    destruct (znth_some ws (Z.of_nat n)) as [v Hv]; [lia|]. rewrite Hv. cbn [bind]. destruct (f_set_size d g i j (Z.of_nat n) v S) as (g' & E' & S' & G' & O'); [repeat split; lia|].
    rewrite E'. cbn [bind]. exists g'. split; [reflexivity|]. split; [exact S'|]. split.
    + intros e He. destruct (Z.eq_dec e (Z.of_nat n)) as [->|Hne]; [congruence|]. rewrite O'; [apply G1; lia|repeat split; lia|intros [= ?]; lia].
    + intros y x e W Hd. rewrite O'; auto; [apply G2; auto; destruct Hd; [auto|right; lia]|]. intros [= -> -> ->]. destruct Hd as [Hd|Hd]; [congruence|lia].
Qed.
Lemma in_points nY nX i j : In (i, j) (flat_map (fun i => map (fun j => (i, j)) (zrange 0 nX)) (zrange 0 nY)) <-> 0 <= i < nY /\ 0 <= j < nX.
Proof.
  rewrite in_flat_map. split.
  - intros (y & Hy & H). apply in_map_iff in H as (x & [= <- <-] & Hx). apply in_zrange in Hx, Hy. auto.
  - intros [Hy Hx]. exists i. split; [apply in_zrange; auto|]. apply in_map_iff. exists j. split; auto. apply in_zrange; auto.
Qed.
Lemma NoDup_points nY nX : NoDup (flat_map (fun i => map (fun j => (i, j)) (zrange 0 nX)) (zrange 0 nY)).
Proof.
  apply NoDup_flat_map; [apply NoDup_zrange| |].
  - intros y _. apply FinFun.Injective_map_NoDup; [|apply NoDup_zrange]. intros a b [= ->]. auto.
  - intros a b x _ _ Ha Hb. apply in_map_iff in Ha as (? & <- & _). apply in_map_iff in Hb as (? & [= <- _] & _). auto.
Qed.
Definition point_step (d : dims) (f : field) (c : Z * Z) : res field := let '(i, j) := c in
  values <- f_ens f i j ;; missingLast <- sorted_members (d_e d) values ;; foldM (fun f e => v <- znth missingLast e ;; f_set f i j e v) f (zrange 0 (d_e d)).
Lemma ens_ok d f i j : of_size d f -> 0 <= i < d_y d -> 0 <= j < d_x d -> 0 < d_e d ->
  exists vs, f_ens f i j = Ok vs /\ zlen vs = d_e d /\ forall e, 0 <= e < d_e d -> znth vs e = f_get f i j e.
Proof. intros (H & H1 & H2 & H3) Hi Hj He. destruct (c147_members f i j H) as (vs & E & L & G); [lia..|]. exists vs. rewrite H3 in *. auto. Qed.
Lemma sort_points d f0 : of_size d f0 -> 0 < d_e d -> (forall y x e v, within d y x e -> f_get f0 y x e = Ok v -> number v) ->
  forall l f, NoDup l -> (forall i j, In (i, j) l -> 0 <= i < d_y d /\ 0 <= j < d_x d) -> of_size d f ->
  (forall i j e, In (i, j) l -> within d i j e -> f_get f i j e = f_get f0 i j e) ->
  exists g, foldM (point_step d) f l = Ok g /\ of_size d g /\
    (forall i j, In (i, j) l -> exists vs ws, f_ens f0 i j = Ok vs /\ sorted_present vs ws /\ zlen ws = d_e d /\ forall e, 0 <= e < d_e d -> f_get g i j e = znth ws e) /\
    (forall y x e, within d y x e -> ~ In (y, x) l -> f_get g y x e = f_get f y x e).
Proof.
  intros H0 He HN. induction l as [|[i j] l IH]; intros f ND HI H HE; cbn [foldM].
  - exists f. split; [reflexivity|]. split; [auto|]. split; [intros ? ? []|auto].
  - destruct (HI i j (or_introl eq_refl)) as [Hi Hj]. inversion ND as [|? ? N1 N2]; subst. destruct (ens_ok d f i j H Hi Hj He) as (vs & E & L & G). destruct (ens_ok d f0 i j H0 Hi Hj He) as (vs' & E0 & L0 & G0).
    assert (vs' = vs).
    { apply znth_ext; [congruence|]. intros e He'. rewrite G0, G by lia. symmetry. apply HE; [left; auto|repeat split; lia]. }
    subst vs'. assert (NV : Forall number vs). { apply Forall_forall. intros v Hv. apply In_znth in Hv as [e Hv]. pose proof (znth_range _ _ _ Hv). apply (HN i j e v); [repeat split; lia|]. rewrite <- G0 by lia. exact Hv. }
    destruct (sorted_members_ok (d_e d) vs L NV) as (ws & Ew & Lw & SP). unfold point_step at 1. rewrite E. cbn [bind]. rewrite Ew. cbn [bind].
    destruct (set_members d f i j ws H Hi Hj Lw (Z.to_nat (d_e d))) as (f1 & E1 & S1 & G1 & O1); [lia|]. rewrite Z2Nat.id in * by lia. rewrite E1. cbn [bind].
    destruct (IH f1 N2) as (g & Eg & Sg & Gg & Og); auto.
    + intros; apply HI; right; auto.
    + intros y x e Hc W. rewrite O1; [apply HE; [right; auto|auto]|auto|]. left. intros [= -> ->]. contradiction.
    + exists g. split; [exact Eg|]. split; [exact Sg|]. split.
      * intros y x [[= <- <-]|Hc]; [|apply Gg; auto]. exists vs, ws. split; [exact E0|]. split; [exact SP|]. split; [exact Lw|]. intros e He'. rewrite Og; [apply G1; auto|repeat split; lia|auto].
      * intros y x e W Hn. rewrite Og; auto; [apply O1; auto; left; intros [= -> ->]; apply Hn; left; auto|]. intros Hc. apply Hn. right; auto.
Qed.
Lemma c151 d fs : shaped d fs -> 0 < d_e d -> (forall t y x e v, element fs t y x e v -> v <> NaN) ->
  exists out, sort_calibrator d fs = Ok out /\ shaped d out /\
  forall t y x, 0 <= t < d_t d -> 0 <= y < d_y d -> 0 <= x < d_x d -> forall vs ws, members d fs t y x vs -> members d out t y x ws -> sorted_present vs ws.
Proof.
  intros H He HN. unfold sort_calibrator.
  destruct (each_time_ok d fs (fun t => f <- znth fs t ;; foldM (point_step d) f (flat_map (fun i => map (fun j => (i, j)) (zrange 0 (d_x d))) (zrange 0 (d_y d))))
    (fun t g => forall y x, 0 <= y < d_y d -> 0 <= x < d_x d -> exists f vs ws, znth fs t = Ok f /\ f_ens f y x = Ok vs /\ sorted_present vs ws /\ zlen ws = d_e d /\ forall e, 0 <= e < d_e d -> f_get g y x e = znth ws e) H) as (out & E & S & G).
  { intros t Ht. destruct (shaped_nth d fs t H Ht) as (f & Ef & Sf). rewrite Ef. cbn [bind].
    destruct (sort_points d f Sf He) with (l := flat_map (fun i => map (fun j => (i, j)) (zrange 0 (d_x d))) (zrange 0 (d_y d))) (f := f) as (g & Eg & Sg & Gg & _); auto.
    - intros y x e v W Hv. apply (HN t y x e v). exists f; auto.
    - apply NoDup_points.
    - intros i j Hc. apply in_points in Hc. auto.
    - exists g. split; [exact Eg|]. split; [exact Sg|]. intros y x Hy Hx. destruct (Gg y x) as (vs & ws & A & B & C & D); [apply in_points; auto|]. exists f, vs, ws. auto. }
  exists out. split; [exact E|]. split; [exact S|]. intros t y x Ht Hy Hx vs ws [Lv Mv] [Lw Mw]. destruct (G t Ht) as (g & Hg & P). destruct (P y x Hy Hx) as (f & vs' & ws' & Ef & Ev & SP & Lw' & Gw).
  destruct (shaped_nth d fs t H Ht) as (f' & Ef' & Sf). assert (f' = f) by congruence. subst f'. destruct (ens_ok d f y x Sf Hy Hx He) as (vs2 & Ev2 & Lv2 & Gv2). assert (vs2 = vs') by congruence. subst vs2.
  assert (vs = vs').
  { apply znth_ext; [congruence|]. intros e He'. destruct (znth_some vs e) as [v Hv]; [lia|]. rewrite Hv. destruct (Mv e v Hv) as (f2 & E2 & G2). assert (f2 = f) by congruence. subst f2. rewrite Gv2 by lia. auto. }
  assert (ws = ws').
  { apply znth_ext; [congruence|]. intros e He'. destruct (znth_some ws e) as [v Hv]; [lia|]. rewrite Hv. destruct (Mw e v Hv) as (g2 & E2 & G2). assert (g2 = g) by congruence. subst g2. rewrite <- Gw by lia. auto. }
  subst. exact SP.
Qed.
(** with a missing value given as NaN the order that std::sort is asked for does not exist *)
Lemma c151_refuted : exists d fs, shaped d fs /\ 0 < d_e d /\ sort_calibrator d fs = UB.
Proof.
  exists {| d_y := 1; d_x := 1; d_e := 2; d_t := 1 |}, [{| f_values := [NaN; fz 1]; f_ny := 1; f_nx := 1; f_ne := 2 |}].
  split; [unfold shaped; cbn; repeat split; try lia; repeat constructor; cbn; lia|]. split; [cbn; lia|]. reflexivity.
Qed.

(** statistics of the values in a window *)
Lemma stat_spec E a c q : (c = CQuantile -> 0 <= q <= 1)%Qc -> exists w, calculate_stat E a c (Fin q) = Ok w /\ client_statistic E c q (present a) w.
Proof.
  intros Hq. unfold client_statistic. destruct (list_eq_dec Qc_eq_dec (present a) []) as [N|N].
  { exists (Fin missing_number). split; [apply c143_empty; auto|]. split; [auto|contradiction]. }
  assert (QQ : forall q', (0 <= q' <= 1)%Qc -> exists r, calculate_stat E a CQuantile (Fin q') = Ok (Fin r) /\ is_quantile (present a) q' r).
  { intros q' Hq'. destruct (c142_quantile E a q' Hq') as (r & R1 & R2). assert (N' := N). rewrite <- finites_from in N'. destruct (calc_quantile_is_quantile _ q' Hq' N') as (r' & R1' & Q).
    rewrite R1 in R1'. injection R1' as ->. rewrite finites_from in Q. exists r'. auto. }
  assert (LE : match present a with [] => True | _ => False end -> False) by (destruct (present a); [contradiction|auto]).
  destruct c.
  - destruct (c142 E a CMean Mean (Fin q) I) as (v & R1 & R2). rewrite calc_mean, finites_from in R1. destruct (present a) as [|x l]; [congruence|]. injection R1 as <-.
    eexists. split; [exact R2|]. split; [discriminate|]. intros _. eexists. split; reflexivity.
  - destruct (c142 E a CMin Min (Fin q) I) as (v & R1 & R2). destruct (calc_min E (map from_client a)) as (r & R1' & M); [rewrite finites_from; auto|]. rewrite R1 in R1'. injection R1' as ->. rewrite finites_from in M.
    eexists. split; [exact R2|]. split; [contradiction|]. intros _. eexists. split; [reflexivity|exact M].
  - destruct (QQ (Q2Qc (1#2))) as (r & R & Q); [split; discriminate|]. exists (Fin r). split; [exact R|]. split; [contradiction|]. eauto.
  - destruct (c142 E a CMax Max (Fin q) I) as (v & R1 & R2). destruct (calc_max E (map from_client a)) as (r & R1' & M); [rewrite finites_from; auto|]. rewrite R1 in R1'. injection R1' as ->. rewrite finites_from in M.
    eexists. split; [exact R2|]. split; [contradiction|]. intros _. eexists. split; [reflexivity|exact M].
  - destruct (QQ q) as (r & R & Q); [auto|]. exists (Fin r). split; [exact R|]. split; [contradiction|]. eauto.
  - destruct (c142 E a CStd Std (Fin q) I) as (v & R1 & R2). rewrite calc_var_std, finites_from in R1 by auto. destruct (present a) as [|x l]; [congruence|]. injection R1 as <-.
    cbn [stat_eqb vsqrt] in R2. pose proof (qvar_nonneg (x :: l)) as V. destruct (qltb_spec (qvar (x :: l)) 0) as [L|L]; [exfalso; qlra|].
    eexists. split; [exact R2|]. split; [discriminate|]. intros _. eexists. split; reflexivity.
  - destruct (c142 E a CSum Sum (Fin q) I) as (v & R1 & R2). rewrite calc_sum, finites_from in R1. destruct (present a) as [|x l]; [congruence|]. injection R1 as <-.
    eexists. split; [exact R2|]. split; [discriminate|]. intros _. eexists. split; reflexivity.
Qed.
Lemma present_app a b : present (a ++ b) = present a ++ present b.
Proof. induction a as [|v a IH]; [reflexivity|]. cbn [app]. rewrite !present_cons. destruct v; auto. destruct (Qc_eq_dec q missing_number); [auto|cbn; f_equal; auto]. Qed.
Lemma present_pad a k : present (a ++ repeat CMV k) = present a.
Proof. rewrite present_app. replace (present (repeat CMV k)) with (@nil Qc); [apply app_nil_r|]. induction k; [reflexivity|]. cbn [repeat]. rewrite present_cons. exact IHk. Qed.
Lemma sorted_same l m : StronglySorted Z.lt l -> StronglySorted Z.lt m -> (forall z, In z l <-> In z m) -> l = m.
Proof.
  revert m. induction l as [|a l IH]; intros m Hl Hm H.
  - destruct m as [|b m]; auto. exfalso. apply (proj2 (H b)). left; auto.
  - destruct m as [|b m]; [exfalso; apply (proj1 (H a)); left; auto|]. inversion Hl as [|? ? Hl' Fl]; subst. inversion Hm as [|? ? Hm' Fm]; subst. rewrite Forall_forall in Fl, Fm.
    assert (a = b).
    { destruct (proj1 (H a) (or_introl eq_refl)) as [|Ha]; auto. destruct (proj2 (H b) (or_introl eq_refl)) as [|Hb]; auto. specialize (Fl b Hb). specialize (Fm a Ha). lia. }
    subst b. f_equal. apply IH; auto. intros z. split; intros Hz.
    + destruct (proj1 (H z) (or_intror Hz)) as [<-|]; auto. specialize (Fl _ Hz). lia.
    + destruct (proj2 (H z) (or_intror Hz)) as [<-|]; auto. specialize (Fm _ Hz). lia.
Qed.
Lemma zrange_sorted lo hi : StronglySorted Z.lt (zrange lo hi).
Proof.
  unfold zrange. remember (Z.to_nat (hi - lo)) as n eqn:Hn. assert (G : forall n lo, StronglySorted Z.lt (zrange lo (lo + Z.of_nat n))).
  { clear. induction n as [|n IH]; intros lo; [rewrite zrange_nil by lia; constructor|]. rewrite zrange_cons by lia. replace (lo + Z.of_nat (S n)) with (lo + 1 + Z.of_nat n) by lia. constructor; [apply IH|].
    apply Forall_forall. intros z Hz. apply in_zrange in Hz. lia. }
  destruct (Z.le_gt_cases hi lo). { assert (n = 0%nat) by lia. subst n. rewrite H0. constructor. }
  specialize (G n lo). unfold zrange in G. replace (lo + Z.of_nat n - lo) with (hi - lo) in G by lia. rewrite <- Hn in G. exact G.
Qed.
Lemma window_times_range length before n t l start last : 1 <= length -> 0 <= t < n -> window_bounds length before n t = (start, last) -> window_times length before n t l ->
  l = zrange start (last + 1) /\ 0 <= start <= last /\ last < n /\ last - start + 1 <= length.
Proof.
  intros HL Ht HB [HS HI]. unfold window_bounds in HB. pose proof (Z.quot_div_nonneg (length - 1) 2 ltac:(lia) ltac:(lia)) as Q. rewrite Q in HB. clear Q.
  pose proof (Z.div_mod (length - 1) 2 ltac:(lia)) as D. pose proof (Z.mod_pos_bound (length - 1) 2 ltac:(lia)) as M. set (b := (length - 1) / 2) in *. set (r := (length - 1) mod 2) in *. clearbody b r.
  split.
  - apply sorted_same; [exact HS|apply zrange_sorted|]. intros z. rewrite HI, in_zrange. unfold in_window. destruct before; injection HB as <- <-; [lia|]. split.
    + intros (Hz & b' & a' & E1 & E2 & E3). assert (b' = b) by lia. lia.
    + intros Hz. split; [lia|]. exists b, (length - b - 1). lia.
  - destruct before; injection HB as <- <-; lia.
Qed.
Lemma window_fill fs y x e s n start length : series fs y x e s n -> 0 <= start -> forall m, start + Z.of_nat m <= n -> Z.of_nat m <= length ->
  foldM (fun st tt => let '(w, index, missing) := st in curr <- get4 fs tt y x e ;; w <- zset w index curr ;; Ok (w, index + 1, missing || negb (cvalid curr)))
    (init1 length CMV, 0, false) (zrange start (start + Z.of_nat m)) =
  Ok (map s (zrange start (start + Z.of_nat m)) ++ repeat CMV (Z.to_nat length - m), Z.of_nat m, existsb (fun v => negb (cvalid v)) (map s (zrange start (start + Z.of_nat m)))).
Proof.
  intros Hs H0. induction m as [|m IH]; intros H1 H2.
  - rewrite zrange_nil by lia. cbn [map foldM app existsb Z.of_nat]. rewrite Nat.sub_0_r. repeat f_equal. unfold init1. rewrite <- (Z2Nat.id length) at 1 by lia. generalize (Z.to_nat length). clear. induction n as [|n IH]; [reflexivity|].
    rewrite Nat2Z.inj_succ. rewrite zrange_snoc by lia. rewrite map_app. replace (Z.succ (Z.of_nat n) - 1) with (Z.of_nat n) by lia. rewrite IH. cbn [map repeat]. symmetry. apply repeat_cons.
  - rewrite (zrange_snoc start (start + Z.of_nat (S m))) by lia. replace (start + Z.of_nat (S m) - 1) with (start + Z.of_nat m) by lia. rewrite foldM_app, IH by lia. cbn [bind foldM].
    pose proof (Hs (start + Z.of_nat m) ltac:(lia)) as G. apply element_get in G. rewrite G. cbn [bind]. rewrite map_app. cbn [map].
    assert (LM : zlen (map s (zrange start (start + Z.of_nat m))) = Z.of_nat m) by (rewrite zlen_map, zlen_zrange; lia).
    rewrite zset_Ok by (rewrite zlen_app, LM; unfold zlen; rewrite repeat_length; lia). cbn [bind]. replace (Z.to_nat length - m)%nat with (S (Z.to_nat length - S m))%nat by lia. cbn [repeat].
    replace (Z.to_nat (Z.of_nat m)) with (Datatypes.length (map s (zrange start (start + Z.of_nat m)))) by (unfold zlen in LM; lia). rewrite lset_app_mid. rewrite existsb_app. cbn [existsb]. rewrite orb_false_r.
    replace (Z.of_nat m + 1) with (Z.of_nat (S m)) by lia. reflexivity.
Qed.
Lemma exists_missing l : existsb (fun v => negb (cvalid v)) l = true <-> Exists missing l.
Proof.
  rewrite existsb_exists, Exists_exists. split; intros (v & Hv & M); exists v; split; auto; [apply negb_true_iff in M; apply cvalid_missing; auto|apply cvalid_missing in M; rewrite M; auto].
Qed.
Lemma c156 E length before edgeMissing keepMissing st (q : Qc) d fs : shaped d fs -> 1 <= length -> (st = CQuantile -> 0 <= q <= 1)%Qc ->
  exists out, window_calibrator E length before edgeMissing keepMissing st (Fin q) d fs = Ok out /\ shaped d out /\
  forall y x e s t l, within d y x e -> series fs y x e s (d_t d) -> 0 <= t < d_t d -> window_times length before (d_t d) t l ->
    exists w, element out t y x e w /\
      (edgeMissing = true -> zlen l < length -> is_missing_value w) /\
      (keepMissing = true -> Exists missing (map s l) -> is_missing_value w) /\
      (edgeMissing = false \/ zlen l = length -> keepMissing = false \/ ~ Exists missing (map s l) -> client_statistic E st q (present (map s l)) w).
Proof.
  intros H HL Hq. unfold window_calibrator. replace (length <? 1) with false by lia.
  replace (match st with CQuantile => _ | _ => false end) with false.
  2:{ destruct st; auto. destruct (Hq eq_refl) as [Q1 Q2]. rewrite cvalid_Fin by (apply nonneg_not_missing; auto). cbn [negb orb]. change (vltb (Fin q) (fz 0)) with (qltb q (qz 0)). change (vltb (fz 1) (Fin q)) with (qltb (qz 1) q).
      rewrite qz_0, qz_1. destruct (qltb_spec q 0); [exfalso; qlra|]. destruct (qltb_spec 1 q); [exfalso; qlra|]. reflexivity. }
  match goal with |- context [each_time d ?b] => set (body := b) end.
  destruct (each_time_ok d fs body (fun t g => forall y x e, within d y x e -> exists w, f_get g y x e = Ok w /\
      forall s l, series fs y x e s (d_t d) -> window_times length before (d_t d) t l ->
      (edgeMissing = true -> zlen l < length -> is_missing_value w) /\
      (keepMissing = true -> Exists missing (map s l) -> is_missing_value w) /\
      (edgeMissing = false \/ zlen l = length -> keepMissing = false \/ ~ Exists missing (map s l) -> client_statistic E st q (present (map s l)) w)) H) as (out & Eo & S & G).
  { intros t Ht. unfold body. apply (fresh_ok d fs); auto. intros f y x e Sf W. destruct (window_bounds length before (d_t d) t) as [start last] eqn:B.
    set (s := val_at fs y x e). assert (Hs : series fs y x e s (d_t d)) by (intros k Hk; destruct (shaped_elem d fs k y x e H Hk W) as (v & Ev & Gv); unfold s, val_at; rewrite Gv; exact Ev).
    assert (SE : forall s' l, series fs y x e s' (d_t d) -> l = zrange start (last + 1) -> last < d_t d -> 0 <= start -> map s' l = map s l).
    { intros s' l Hs' -> L1 L2. apply map_ext_in. intros k Hk. apply in_zrange in Hk. apply (element_fun fs k y x e); [apply Hs'|apply Hs]; lia. }
    assert (BB : 0 <= start <= last /\ last < d_t d /\ last - start + 1 <= length).
    { unfold window_bounds in B. rewrite Z.quot_div_nonneg in B by lia. pose proof (Z.div_mod (length - 1) 2 ltac:(lia)) as D. pose proof (Z.mod_pos_bound (length - 1) 2 ltac:(lia)) as M. clear - B D M HL Ht. destruct before; injection B as <- <-; lia. }
    assert (WT : forall l, window_times length before (d_t d) t l -> l = zrange start (last + 1)) by (intros l Hl; apply (window_times_range length before (d_t d) t l start last); auto).
    destruct BB as (B1 & B2 & B3). unfold assert_. replace (last - start + 1 <=? length) with true by lia. cbn [bind].
    assert (LZ : zlen (zrange start (last + 1)) = last - start + 1) by (rewrite zlen_zrange; lia).
    destruct (edgeMissing && negb (last - start + 1 =? length)) eqn:EM.
    { exists CMV. split; [reflexivity|]. intros s' l Hs' Hl. apply WT in Hl. subst l. rewrite LZ. apply andb_true_iff in EM as [-> EM]. split; [reflexivity|]. split; [reflexivity|]. intros [|K]; [discriminate|lia]. }
    pose proof (window_fill fs y x e s (d_t d) start length Hs (proj1 B1) (Z.to_nat (last - start + 1))) as WF. rewrite Z2Nat.id in WF by lia. replace (start + (last - start + 1)) with (last + 1) in WF by lia. rewrite WF by lia. clear WF. cbn [bind].
    set (w0 := map s (zrange start (last + 1))). destruct (keepMissing && existsb (fun v => negb (cvalid v)) w0) eqn:KM.
    { exists CMV. split; [reflexivity|]. intros s' l Hs' Hl. apply WT in Hl. rewrite (SE s' l Hs' Hl) by lia. subst l. split; [reflexivity|]. split; [reflexivity|]. intros _ K. exfalso. apply andb_true_iff in KM as [-> KM].
      apply exists_missing in KM. destruct K as [|K]; [discriminate|]. apply K. exact KM. }
    destruct (stat_spec E (w0 ++ repeat CMV (Z.to_nat length - Z.to_nat (last - start + 1))) st q Hq) as (w & Ew & Sw). rewrite Ew. cbn [bind]. rewrite present_pad in Sw.
    exists w. split; [reflexivity|]. intros s' l Hs' Hl. apply WT in Hl. rewrite (SE s' l Hs' Hl) by lia. subst l. rewrite LZ. fold w0. split; [|split].
    - intros -> K. cbn [andb] in EM. apply negb_false_iff in EM. lia.
    - intros -> K. cbn [andb] in KM. apply exists_missing in K. rewrite K in KM. discriminate.
    - auto. }
  exists out. split; [exact Eo|]. split; [exact S|]. intros y x e s t l W Hs Ht Hl. destruct (G t Ht) as (g & Hg & Pg). destruct (Pg y x e W) as (w & Hw & R). exists w. split; [exists g; auto|]. apply R; auto.
Qed.
Lemma c156_checks E length before edgeMissing keepMissing st (q : Qc) d fs : length < 1 \/ (st = CQuantile /\ ~ (0 <= q <= 1)%Qc) ->
  window_calibrator E length before edgeMissing keepMissing st (Fin q) d fs = Abort.
Proof.
  intros H. unfold window_calibrator. destruct (Z.ltb_spec length 1); auto. destruct H as [|(-> & H)]; [lia|]. change (vltb (Fin q) (fz 0)) with (qltb q (qz 0)). change (vltb (fz 1) (Fin q)) with (qltb (qz 1) q).
  rewrite qz_0, qz_1. destruct (qltb_spec q 0) as [A|A]; [rewrite orb_true_r; reflexivity|]. destruct (qltb_spec 1 q) as [B|B]; [rewrite orb_true_r; reflexivity|]. exfalso. apply H. split; qlra.
Qed.

(** shuffling *)
Lemma NoDup_znth {A} (l : list A) i j a : NoDup l -> znth l i = Ok a -> znth l j = Ok a -> i = j.
Proof.
  intros H Hi Hj. pose proof (znth_range _ _ _ Hi). pose proof (znth_range _ _ _ Hj). rewrite NoDup_nth_error in H. unfold znth in Hi, Hj.
  replace (i <? 0) with false in Hi by lia. replace (j <? 0) with false in Hj by lia. assert (Z.to_nat i = Z.to_nat j); [|lia]. apply H; [unfold zlen in *; lia|].
  destruct (nth_error l (Z.to_nat i)); [|discriminate]. destruct (nth_error l (Z.to_nat j)); [|discriminate]. congruence.
Qed.
Lemma shuffle_fold (after0 copy : vec) (pairs : list (val * Z)) n : zlen pairs = n -> zlen copy = n -> zlen after0 = n -> NoDup (map snd pairs) -> (forall p, In p pairs -> 0 <= snd p < n) ->
  forall m, Z.of_nat m <= n -> exists l, foldM (fun l e => p <- znth pairs e ;; v <- znth copy e ;; zset l (snd p) v) after0 (zrange 0 (Z.of_nat m)) = Ok l /\ zlen l = n /\
    forall k p v, 0 <= k < Z.of_nat m -> znth pairs k = Ok p -> znth copy k = Ok v -> znth l (snd p) = Ok v.
Proof.
  intros L1 L2 L3 ND HR. induction m as [|m IH]; intros Hm.
  - exists after0. split; [reflexivity|]. split; [auto|]. intros; lia.
  - destruct IH as (l & E & L & G); [lia|]. rewrite Nat2Z.inj_succ, zrange_snoc by lia. replace (Z.succ (Z.of_nat m) - 1) with (Z.of_nat m) by lia. rewrite foldM_app, E. cbn [bind foldM].
    destruct (znth_some pairs (Z.of_nat m)) as [p Hp]; [lia|]. destruct (znth_some copy (Z.of_nat m)) as [v Hv]; [lia|]. rewrite Hp, Hv. cbn [bind].
    assert (R : 0 <= snd p < n) by (apply HR; eapply znth_In; eauto). rewrite zset_Ok by lia. cbn [bind]. eexists. split; [reflexivity|]. split; [rewrite zlen_lset; auto|].
    intros k p' v' Hk Hp' Hv'. rewrite znth_lset by lia. destruct (Z.eq_dec k (Z.of_nat m)) as [->|Hne].
    + assert (p' = p) by congruence. assert (v' = v) by congruence. subst. rewrite Z.eqb_refl. reflexivity.
    + replace (snd p' =? snd p) with false; [apply (G k p' v'); auto; lia|]. symmetry. apply Z.eqb_neq. intros Heq.
      assert (N : k = Z.of_nat m); [|contradiction]. apply (NoDup_znth (map snd pairs) k (Z.of_nat m) (snd p)); auto; rewrite znth_map; [rewrite Hp'|rewrite Hp]; cbn; congruence.
Qed.

Lemma sorted_znth {A} (R : A -> A -> Prop) l : StronglySorted R l -> forall i j a b, i < j -> znth l i = Ok a -> znth l j = Ok b -> R a b.
Proof.
  induction 1 as [|c l H IH F]; intros i j a b Hij Ha Hb; pose proof (znth_range _ _ _ Ha) as R1; pose proof (znth_range _ _ _ Hb) as R2.
  - change (zlen (@nil A)) with 0 in R1. lia.
  - rewrite zlen_cons in R1, R2. destruct (Z.eq_dec i 0) as [->|Hi].
    + rewrite znth_cons0 in Ha. injection Ha as ->. rewrite znth_consS in Hb by lia. rewrite Forall_forall in F. apply F. eapply znth_In; eauto.
    + rewrite znth_consS in Ha, Hb by lia. apply (IH (i - 1) (j - 1)); auto; lia.
Qed.
Lemma combine_znth {A B} (l : list A) : forall (m : list B) i a b, znth l i = Ok a -> znth m i = Ok b -> znth (combine l m) i = Ok (a, b).
Proof.
  unfold znth. intros m i a b Ha Hb. destruct (i <? 0); [discriminate|]. revert l m Ha Hb. induction (Z.to_nat i) as [|n IH]; intros [|c l] [|c' m]; cbn; try discriminate; [congruence|]. apply IH.
Qed.
Lemma all_valid l : forallb cvalid (map Fin l) = true <-> no_missing l.
Proof.
  rewrite forallb_forall. unfold no_missing. rewrite Forall_forall. split.
  - intros H q Hq. specialize (H (Fin q) (in_map Fin l q Hq)). apply cvalid_true in H as (? & [= <-] & n). exact n.
  - intros H v Hv. apply in_map_iff in Hv as (q & <- & Hq). apply cvalid_Fin. auto.
Qed.
Lemma c162 sort_pairs before after : sorts_pairs sort_pairs -> zlen before = zlen after -> no_missing before -> no_missing after ->
  exists r, shuffle sort_pairs (map Fin before) (map Fin after) = Ok (map Fin r) /\ Permutation r after /\
  forall i j, 0 <= i < zlen before -> 0 <= j < zlen before -> (qnth before i < qnth before j)%Qc -> (qnth r i <= qnth r j)%Qc.
Proof.
  intros HS HL HB HA. unfold shuffle. rewrite !zlen_map, HL, Z.eqb_refl. cbn [negb]. destruct (Z.eqb_spec (zlen after) 0) as [Z0|Z0].
  { exists after. split; [reflexivity|]. split; [reflexivity|]. intros; lia. }
  rewrite (proj2 (all_valid before) HB), (proj2 (all_valid after) HA). cbn [andb negb]. rewrite std_sort_map. cbn [bind]. set (n := zlen after) in *.
  destruct (HS (combine (map Fin before) (zrange 0 n))) as [P S].
  { apply Forall_forall. intros [v z] Hp. apply in_combine_l in Hp. apply in_map_iff in Hp as (q & <- & _). discriminate. }
  set (pairs := sort_pairs (combine (map Fin before) (zrange 0 n))) in *. assert (LZ : zlen (zrange 0 n) = n) by (rewrite zlen_zrange; pose proof (zlen_nonneg after); lia).
  assert (NN : 0 <= n) by apply zlen_nonneg.
  assert (LB : zlen (map Fin before) = n) by (rewrite zlen_map; auto).
  assert (LC : zlen (combine (map Fin before) (zrange 0 n)) = n) by (unfold zlen in *; rewrite combine_length; lia).
  assert (LP : zlen pairs = n) by (rewrite <- LC; unfold zlen; f_equal; apply Permutation_length; auto).
  assert (SP : Permutation (map snd pairs) (zrange 0 n)).
  { rewrite (Permutation_map snd P). clear - LB LZ. assert (length (map Fin before) = length (zrange 0 n)) by (unfold zlen in *; lia). revert H. generalize (map Fin before) as v, (zrange 0 n) as m. induction v as [|a v IH]; intros [|b m] H; cbn in *; try lia; auto. }
  assert (ND : NoDup (map snd pairs)) by (apply (Permutation_NoDup (Permutation_sym SP)), NoDup_zrange).
  assert (RG : forall p, In p pairs -> 0 <= snd p < n) by (intros p Hp; apply in_zrange, (Permutation_in _ SP), in_map; auto).
  assert (LQ : zlen (map Fin (qsort after)) = n) by (rewrite zlen_map; apply zlen_qsort).
  destruct (shuffle_fold (map Fin after) (map Fin (qsort after)) pairs n LP LQ) with (m := Z.to_nat n) as (l & E & L & G); auto; [rewrite zlen_map; auto|lia|]. rewrite Z2Nat.id in * by lia.
  set (f := fun i => match znth l i with Ok v => v | _ => NaN end).
  assert (E1 : map f (map snd pairs) = map Fin (qsort after)).
  { rewrite map_map. apply znth_ext; [rewrite zlen_map; congruence|]. rewrite zlen_map, LP. intros i Hi. rewrite znth_map. destruct (znth_some pairs i) as [p Hp]; [lia|]. rewrite Hp.
    destruct (znth_some (map Fin (qsort after)) i) as [v Hv]; [lia|]. rewrite Hv. unfold f. rewrite (G i p v) by (auto; lia). reflexivity. }
  assert (E2 : map f (zrange 0 n) = l).
  { apply znth_ext; [rewrite zlen_map; lia|]. rewrite zlen_map, LZ. intros i Hi. rewrite znth_map_zrange by lia. destruct (znth_some l i) as [v Hv]; [lia|]. unfold f. rewrite Z.add_0_l, Hv. reflexivity. }
  assert (PL : Permutation l (map Fin (qsort after))) by (rewrite <- E1, <- E2; apply Permutation_map, Permutation_sym; auto).
  clear E1 E2 f. apply Permutation_map_inv in PL as (r & Er & Pr). subst l. exists r. rewrite E. split; [reflexivity|]. split; [rewrite <- Pr; apply perm_qsort|].
  intros i j Hi Hj Hlt.
  assert (K : forall i, 0 <= i < n -> exists k, 0 <= k < n /\ znth pairs k = Ok (Fin (qnth before i), i)).
  { intros i' Hi'. assert (In (Fin (qnth before i'), i') pairs).
    { apply (Permutation_in _ (Permutation_sym P)). apply (znth_In _ i'). apply combine_znth; [rewrite znth_map, qnth_znth by lia; reflexivity|rewrite znth_zrange by lia; reflexivity]. }
    apply In_znth in H as [k Hk]. exists k. split; [|auto]. pose proof (znth_range _ _ _ Hk). lia. }
  destruct (K i) as (ki & Hki & Pi); [lia|]. destruct (K j) as (kj & Hkj & Pj); [lia|].
  assert (Hk : ki < kj).
  { destruct (Z.lt_trichotomy ki kj) as [|[->|HH]]; auto; exfalso.
    - rewrite Pi in Pj. injection Pj as Q1 Q2. rewrite Q1 in Hlt. qlra.
    - pose proof (sorted_znth _ _ S kj ki _ _ HH Pj Pi) as A. cbn in A. destruct (qltb_spec (qnth before i) (qnth before j)); [discriminate|]. contradiction. }
  assert (Q : forall k i', 0 <= k < n -> 0 <= i' < n -> znth pairs k = Ok (Fin (qnth before i'), i') -> qnth r i' = qnth (qsort after) k).
  { intros k i' Hk' Hi' Hp. assert (LS : zlen (qsort after) = n) by (rewrite zlen_map in LQ; auto). assert (LR : zlen r = n) by (rewrite zlen_map in L; auto).
    pose proof (G k _ (Fin (qnth (qsort after) k)) ltac:(lia) Hp ltac:(rewrite znth_map, qnth_znth by lia; reflexivity)) as A. cbn [snd] in A. rewrite znth_map, qnth_znth in A by lia. congruence. }
  rewrite (Q ki i), (Q kj j) by (auto; lia). apply qnth_mono; [apply sorted_qsort|lia|]. rewrite zlen_map in LQ. lia.
Qed.
Lemma c162_unchanged sort_pairs before after : zlen before <> zlen after \/ Exists missing before \/ Exists missing after -> shuffle sort_pairs before after = Ok after.
Proof.
  intros H. unfold shuffle. destruct (Z.eqb_spec (zlen before) (zlen after)); cbn [negb]; auto. destruct (zlen before =? 0); auto.
  assert (M : forall l, Exists missing l -> forallb cvalid l = false).
  { intros l Hl. apply not_true_is_false. intros K. rewrite forallb_forall in K. apply Exists_exists in Hl as (v & Hv & Mv). apply K in Hv. apply cvalid_missing in Mv. congruence. }
  destruct H as [H|[H|H]]; [contradiction|rewrite (M before H); reflexivity|rewrite (M after H), andb_false_r; reflexivity].
Qed.
