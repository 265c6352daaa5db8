From Verif Require Import Base ListLib M_Stat M_Interp M_Neigh M_Fast M_Sched S_Stat S_Neigh S_Fast S_Sched P_NeighAll P_NeighSafe P_Fast.

Section Lset.
Context {A : Type}.
Lemma nth_lset_same (l : list A) k a b : nth_error l k = Some a -> nth_error (lset l k b) k = Some b.
Proof. intros H. rewrite nth_error_lset; [rewrite Nat.eqb_refl; reflexivity|]. apply nth_error_Some. congruence. Qed.
Lemma nth_lset_other (l : list A) k j b : j <> k -> nth_error (lset l k b) j = nth_error l j.
Proof. revert k j. induction l as [|x l IH]; intros [|k] [|j] H; cbn; try reflexivity; try congruence. apply IH. congruence. Qed.
Lemma nth_lset_inv (l : list A) k a b j t : nth_error l k = Some a -> nth_error (lset l k b) j = Some t -> (j = k /\ t = b) \/ (j <> k /\ nth_error l j = Some t).
Proof.
  intros H. destruct (Nat.eq_dec j k) as [->|N].
  - rewrite (nth_lset_same _ _ _ _ H). intros K. injection K as <-. auto.
  - rewrite nth_lset_other by exact N. auto.
Qed.
Fixpoint msum (f : A -> nat) (l : list A) : nat := match l with [] => O | x :: t => (f x + msum f t)%nat end.
Lemma msum_lset f (l : list A) : forall k a b, nth_error l k = Some a -> (msum f (lset l k b) + f a = msum f l + f b)%nat.
Proof.
  induction l as [|x l IH]; intros [|k] a b H; cbn in *; try discriminate.
  - injection H as ->. lia.
  - specialize (IH k a b H). lia.
Qed.
Lemma find_active (P : A -> Prop) (dec : forall a, {P a} + {~ P a}) (l : list A) : Forall P l \/ exists k a, nth_error l k = Some a /\ ~ P a.
Proof.
  induction l as [|x l IH]; [left; constructor|]. destruct (dec x) as [H|H].
  - destruct IH as [F|(k & a & E & N)]; [left; constructor; assumption|right; exists (S k), a; auto].
  - right. exists O, x. auto.
Qed.
End Lset.

(** ** loops with private state *)
Section Generic.
Context {I V S : Type}.
Variables (wr : S -> I -> V -> res S) (rd : S -> I -> res V) (body : I -> res V) (dom : I -> Prop) (okm : S -> Prop).
Hypothesis WR : forall m i v, okm m -> dom i -> exists m', wr m i v = Ok m' /\ okm m' /\ rd m' i = Ok v /\ forall j, dom j -> j <> i -> rd m' j = rd m j.
Hypothesis EXT : forall m m', okm m -> okm m' -> (forall i, dom i -> rd m i = rd m' i) -> m = m'.
Hypothesis DEC : forall i j : I, {i = j} + {i <> j}.
Definition inv (c : @conf I V S) : Prop :=
  match c with
  | Run m ths => okm m /\
      (forall k t, nth_error ths k = Some t -> (forall i, In i (todo t) -> dom i) /\ (forall i v, pend t = Some (i, v) -> dom i /\ body i = Ok v)) /\
      (forall i, dom i -> (exists v, body i = Ok v /\ rd m i = Ok v) \/ exists k t, nth_error ths k = Some t /\ (In i (todo t) \/ exists v, pend t = Some (i, v)))
  | Fail r => exists i, dom i /\ (forall v, body i <> Ok v) /\ r = fail_of (body i)
  end.
Lemma inv_start m ds : okm m -> (forall i, In i (concat ds) <-> dom i) -> inv (start m ds).
Proof.
  intros HM HD. split; [exact HM|]. split.
  - intros k t H. apply nth_error_In in H. apply in_map_iff in H as (d & <- & Hd). cbn. split; [|discriminate].
    intros i Hi. apply HD, in_concat. eauto.
  - intros i Hi. right. apply HD, in_concat in Hi as (d & Hd & Hi). apply In_nth_error in Hd as (k & Hk). exists k, (Thread d None).
    split; [|left; exact Hi]. erewrite map_nth_error by exact Hk. reflexivity.
Qed.
Lemma inv_step c c' : inv c -> step wr body c c' -> inv c'.
Proof.
  intros HI HS. destruct HS as [m ths k i rest v E1 E2|m ths k i rest E1 E2|m ths k i rest v m' E1 E2|m ths k i rest v E1 E2]; destruct HI as (HM & HT & HC).
  - destruct (HT _ _ E1) as [T1 T2]. split; [exact HM|]. split.
    + intros j t Ht. destruct (nth_lset_inv _ _ _ _ _ _ E1 Ht) as [[-> ->]|[_ H]]; [|exact (HT _ _ H)]. cbn. split; [intros; apply T1; right; assumption|].
      intros i' v' K. injection K as <- <-. split; [apply T1; left; reflexivity|exact E2].
    + intros j Hj. destruct (HC j Hj) as [D|(k' & t & Et & D)]; [left; exact D|right].
      destruct (Nat.eq_dec k' k) as [->|N]; [|exists k', t; split; [rewrite nth_lset_other by exact N; exact Et|exact D]].
      rewrite E1 in Et. injection Et as <-. exists k. eexists. split; [eapply nth_lset_same; exact E1|]. cbn in *.
      destruct D as [[->|D]|(v' & D)]; [right; eauto|left; exact D|discriminate].
  - destruct (HT _ _ E1) as [T1 _]. exists i. split; [apply T1; left; reflexivity|]. split; [exact E2|reflexivity].
  - destruct (HT _ _ E1) as [T1 T2]. destruct (T2 i v eq_refl) as [Di Bi]. destruct (WR m i v HM Di) as (m2 & W & O & R1 & R2). rewrite W in E2. injection E2 as ->.
    split; [exact O|]. split.
    + intros j t Ht. destruct (nth_lset_inv _ _ _ _ _ _ E1 Ht) as [[-> ->]|[_ H]]; [|exact (HT _ _ H)]. cbn. split; [exact T1|discriminate].
    + intros j Hj. destruct (DEC j i) as [->|N]; [left; eauto|].
      destruct (HC j Hj) as [(w & D1 & D2)|(k' & t & Et & D)]; [left; exists w; split; [exact D1|rewrite R2 by assumption; exact D2]|right].
      destruct (Nat.eq_dec k' k) as [->|N']; [|exists k', t; split; [rewrite nth_lset_other by exact N'; exact Et|exact D]].
      rewrite E1 in Et. injection Et as <-. exists k. eexists. split; [eapply nth_lset_same; exact E1|]. cbn in *.
      destruct D as [D|(v' & D)]; [left; exact D|injection D as <- _; congruence].
  - destruct (HT _ _ E1) as [T1 T2]. destruct (T2 i v eq_refl) as [Di Bi]. destruct (WR m i v HM Di) as (m2 & W & _). exfalso. exact (E2 _ W).
Qed.
Lemma inv_steps n c c' : inv c -> steps wr body n c c' -> inv c'.
Proof. intros HI HS. induction HS as [|n a b c HS IH ST]; [exact HI|]. eapply inv_step; [apply IH; exact HI|exact ST]. Qed.
Lemma inv_ends c r : inv c -> ends c r ->
  (exists m, r = Ok m /\ okm m /\ forall i, dom i -> exists v, body i = Ok v /\ rd m i = Ok v) \/
  (exists i, dom i /\ (forall v, body i <> Ok v) /\ r = fail_of (body i)).
Proof.
  destruct c as [m ths|f]; cbn.
  - intros (HM & HT & HC) [-> F]. left. exists m. split; [reflexivity|]. split; [exact HM|]. intros i Hi. destruct (HC i Hi) as [D|(k & t & Et & D)]; [exact D|].
    rewrite Forall_forall in F. rewrite (F t (nth_error_In _ _ Et)) in D. cbn in D. destruct D as [[]|(v & D)]; discriminate.
  - intros H ->. right. exact H.
Qed.
(** progress and termination *)
Definition cost (t : @thread I V) : nat := (2 * length (todo t) + match pend t with Some _ => 1 | None => 0 end)%nat.
Lemma cost_eq l p : cost (Thread l p) = (2 * length l + match p with Some _ => 1 | None => 0 end)%nat.
Proof. reflexivity. Qed.
Definition work (c : @conf I V S) : nat := match c with Run _ ths => msum cost ths | Fail _ => O end.
Lemma step_work c c' : step wr body c c' -> (work c' < work c)%nat.
Proof.
  intros HS. destruct HS as [m ths k i rest v E1 E2|m ths k i rest E1 E2|m ths k i rest v m' E1 E2|m ths k i rest v E1 E2]; cbn [work].
  - pose proof (msum_lset cost _ _ _ (Thread rest (Some (i, v))) E1) as M. rewrite !cost_eq in M. cbn [length] in M. lia.
  - pose proof (msum_lset cost _ _ _ (Thread rest None) E1) as M. rewrite !cost_eq in M. cbn [length] in M. lia.
  - pose proof (msum_lset cost _ _ _ (Thread rest None) E1) as M. rewrite !cost_eq in M. cbn [length] in M. lia.
  - pose proof (msum_lset cost _ _ _ (Thread rest None) E1) as M. rewrite !cost_eq in M. cbn [length] in M. lia.
Qed.
Lemma steps_work n c c' : steps wr body n c c' -> (n + work c' <= work c)%nat.
Proof. intros HS. induction HS as [|n a b c HS IH ST]; [lia|]. apply step_work in ST. lia. Qed.
Lemma start_work m ds : work (start m ds) = (2 * length (concat ds))%nat.
Proof. cbn. induction ds as [|d ds IH]; [reflexivity|]. cbn [map msum concat]. rewrite IH, app_length. unfold cost. cbn. lia. Qed.
Lemma idle_dec (t : @thread I V) : {todo t = [] /\ pend t = None} + {~ (todo t = [] /\ pend t = None)}.
Proof. destruct t as [[|i l] [p|]]; cbn; [right|left|right|right]; [intros [_ K]; discriminate K|split; reflexivity|intros [K _]; discriminate K|intros [K _]; discriminate K]. Qed.
Lemma progress c : (exists r, ends c r) \/ exists c', step wr body c c'.
Proof.
  destruct c as [m ths|f]; [|left; cbn; eauto].
  destruct (find_active (fun t : @thread I V => todo t = [] /\ pend t = None) idle_dec ths) as [F|(k & t & Ek & N)].
  - left. exists (Ok m). cbn. split; [reflexivity|]. eapply Forall_impl; [|exact F]. intros [td p] [A B]. cbn in *. subst. reflexivity.
  - right. destruct t as [td [[i v]|]]; cbn in N.
    + destruct (wr m i v) as [m'|e| |] eqn:W.
      * eexists. eapply step_store; eauto.
      * eexists. eapply step_store_fail; [exact Ek|]. intros; congruence.
      * eexists. eapply step_store_fail; [exact Ek|]. intros; congruence.
      * eexists. eapply step_store_fail; [exact Ek|]. intros; congruence.
    + destruct td as [|i rest]; [exfalso; apply N; auto|]. destruct (body i) as [v|e| |] eqn:B.
      * eexists. eapply step_compute; eauto.
      * eexists. eapply step_fail; [exact Ek|]. intros; congruence.
      * eexists. eapply step_fail; [exact Ek|]. intros; congruence.
      * eexists. eapply step_fail; [exact Ek|]. intros; congruence.
Qed.
Lemma steps_trans n c c' c'' : steps wr body n c c' -> step wr body c' c'' -> steps wr body (Datatypes.S n) c c''.
Proof. intros. econstructor; eauto. Qed.
Lemma terminates c0 : forall w n c, (work c <= w)%nat -> steps wr body n c0 c -> exists n' c' r, steps wr body n' c0 c' /\ ends c' r.
Proof.
  induction w as [|w IH]; intros n c Hw HS.
  - destruct (progress c) as [(r & R)|(c' & ST)]; [eauto|]. apply step_work in ST. lia.
  - destruct (progress c) as [(r & R)|(c' & ST)]; [eauto|]. pose proof (step_work _ _ ST). apply (IH (Datatypes.S n) c'); [lia|econstructor; eauto].
Qed.
Lemma exists_outcome m ds : exists n c r, steps wr body n (start m ds) c /\ ends c r.
Proof. eapply terminates; [reflexivity|constructor]. Qed.
End Generic.

(** ** arrays *)
Lemma wr1_law {A} n (m : list A) i v : zlen m = n -> 0 <= i < n ->
  exists m', wr1 m i v = Ok m' /\ zlen m' = n /\ znth m' i = Ok v /\ forall j, j <> i -> znth m' j = znth m j.
Proof.
  intros L H. unfold wr1. rewrite zset_Ok by lia. eexists. split; [reflexivity|]. split; [rewrite zlen_lset; exact L|].
  split.
  - rewrite znth_lset by lia. rewrite Z.eqb_refl. reflexivity.
  - intros j N. rewrite znth_lset by lia. destruct (Z.eqb_spec j i); [congruence|reflexivity].
Qed.
Lemma wr2_law {A} nY nX (m : list (list A)) (i : Z * Z) v : rect nY nX m -> 0 <= fst i < nY /\ 0 <= snd i < nX ->
  exists m', wr2 m i v = Ok m' /\ rect nY nX m' /\ get2 m' (fst i) (snd i) = Ok v /\
    forall j, 0 <= fst j < nY /\ 0 <= snd j < nX -> j <> i -> get2 m' (fst j) (snd j) = get2 m (fst j) (snd j).
Proof.
  intros HR [H1 H2]. destruct (rect_set2 nY nX m (fst i) (snd i) v HR H1 H2) as (m' & W & R & G). exists m'. split; [exact W|]. split; [exact R|]. split.
  - rewrite G by assumption. rewrite !Z.eqb_refl. reflexivity.
  - intros [j1 j2] [Hj1 Hj2] N. cbn in *. rewrite G by assumption. destruct (Z.eqb_spec j1 (fst i)), (Z.eqb_spec j2 (snd i)); cbn; try reflexivity.
    exfalso. apply N. destruct i. cbn in *. congruence.
Qed.
Lemma pair_dec (i j : Z * Z) : {i = j} + {i <> j}.
Proof. decide equality; apply Z.eq_dec. Qed.
Lemma mapM_fail {A B} (f : A -> res B) l : (forall x, In x l -> exists v, f x = Ok v) \/ exists x, In x l /\ (forall v, f x <> Ok v) /\ fail_of (mapM f l) = (fail_of (f x) : res unit) /\ (forall v, mapM f l <> Ok v).
Proof.
  induction l as [|a l IH]; [left; intros x []|]. destruct (f a) as [b|e| |] eqn:Ea.
  - destruct IH as [IH|(x & Hx & N & F & NM)].
    + left. intros x [<-|Hx]; eauto.
    + right. exists x. split; [right; exact Hx|]. split; [exact N|]. cbn. rewrite Ea. cbn [bind].
      destruct (mapM f l) as [w|e| |] eqn:Em; cbn in *; [exfalso; eapply NM; reflexivity|..]; (split; [exact F|intros; discriminate]).
  - right. exists a. split; [left; reflexivity|]. rewrite Ea. split; [congruence|]. cbn. rewrite Ea. split; [reflexivity|intros; discriminate].
  - right. exists a. split; [left; reflexivity|]. rewrite Ea. split; [congruence|]. cbn. rewrite Ea. split; [reflexivity|intros; discriminate].
  - right. exists a. split; [left; reflexivity|]. rewrite Ea. split; [congruence|]. cbn. rewrite Ea. split; [reflexivity|intros; discriminate].
Qed.

(** ** C24, one-dimensional loops *)
Lemma par1_all {A} n (m0 : list A) body ds : zlen m0 = n -> covers1 n ds ->
  (exists r, par1 m0 body ds r) /\
  (forall k c, steps wr1 body k (start m0 ds) c -> (k <= 2 * length (concat ds))%nat /\ ((exists r, ends c r) \/ exists c', step wr1 body c c')) /\
  (forall out, for1 n m0 body = Ok out -> forall r, par1 m0 body ds r -> r = Ok out) /\
  ((forall out, for1 n m0 body <> Ok out) -> forall r, par1 m0 body ds r -> exists i, 0 <= i < n /\ (forall v, body i <> Ok v) /\ r = fail_of (body i)).
Proof.
  intros HL HC.
  assert (LAW : forall m i v, zlen m = n -> 0 <= i < n -> exists m', wr1 m i v = Ok m' /\ zlen m' = n /\ znth m' i = Ok v /\ forall j, 0 <= j < n -> j <> i -> znth m' j = @znth A m j).
  { intros m i v Lm Hi. destruct (wr1_law n m i v Lm Hi) as (m' & W1 & W2 & W3 & W4). exists m'. repeat (split; [assumption|]). intros j _. apply W4. }
  assert (SEQ : for1 n m0 body = mapM body (zrange 0 n)) by (apply for1_tab; exact HL).
  assert (CASE : forall r, par1 m0 body ds r -> (exists m, r = Ok m /\ zlen m = n /\ forall i, 0 <= i < n -> exists v, body i = Ok v /\ znth m i = Ok v) \/
      exists i, 0 <= i < n /\ (forall v, body i <> Ok v) /\ r = fail_of (body i)).
  { intros r (k & c & HS & HE).
    pose proof (inv_steps wr1 znth body (fun i => 0 <= i < n) (fun m => zlen m = n) LAW Z.eq_dec k _ c
       (inv_start znth body (fun i => 0 <= i < n) (fun m => zlen m = n) m0 ds HL HC) HS) as HI.
    exact (inv_ends znth body (fun i => 0 <= i < n) (fun m => zlen m = n) c r HI HE). }
  split; [|split; [|split]].
  - destruct (exists_outcome wr1 body m0 ds) as (k & c & r & HS & HE). exists r, k, c. auto.
  - intros k c HS. split; [|apply progress]. pose proof (steps_work _ _ _ _ _ HS) as W. rewrite start_work in W. lia.
  - intros out Ho r Hr. rewrite SEQ in Ho. destruct (mapM_inv _ _ _ Ho) as [LO GO]. destruct (CASE r Hr) as [(m & -> & Lm & G)|(i & Hi & N & _)].
    + f_equal. rewrite zlen_zrange in LO. apply znth_ext; [pose proof (zlen_nonneg m); lia|]. intros i Hi. destruct (G i ltac:(lia)) as (v & B & E).
      destruct (GO i i) as (w & E2 & B2); [rewrite znth_zrange by lia; f_equal; lia|]. congruence.
    + exfalso. destruct (GO i i) as (w & _ & B2); [rewrite znth_zrange by lia; f_equal; lia|]. exact (N _ B2).
  - intros NO r Hr. destruct (CASE r Hr) as [(m & -> & Lm & G)|F]; [|exact F]. exfalso.
    destruct (mapM_total body (fun i v => body i = Ok v) (zrange 0 n)) as (l & El & _).
    + intros i Hi. apply in_zrange in Hi. destruct (G i Hi) as (v & B & _). eauto.
    + apply (NO l). rewrite SEQ. exact El.
Qed.
(** ** C24, two-dimensional loops *)
Lemma par2_all {A} nY nX (m0 : list (list A)) body ds : rect nY nX m0 -> 0 <= nX -> covers2 nY nX ds ->
  (exists r, par2 m0 body ds r) /\
  (forall k c, steps wr2 (fun i => body (fst i) (snd i)) k (start m0 ds) c -> (k <= 2 * length (concat ds))%nat /\
     ((exists r, ends c r) \/ exists c', step wr2 (fun i => body (fst i) (snd i)) c c')) /\
  (forall out, for2 nY nX m0 body = Ok out -> forall r, par2 m0 body ds r -> r = Ok out) /\
  ((forall out, for2 nY nX m0 body <> Ok out) -> forall r, par2 m0 body ds r ->
     exists y x, 0 <= y < nY /\ 0 <= x < nX /\ (forall v, body y x <> Ok v) /\ r = fail_of (body y x)).
Proof.
  intros HR HX HC. set (dom := fun i : Z * Z => 0 <= fst i < nY /\ 0 <= snd i < nX). set (rd := fun (m : list (list A)) (i : Z * Z) => get2 m (fst i) (snd i)).
  assert (HY : 0 <= nY) by (destruct HR as [<- _]; apply zlen_nonneg).
  assert (SEQ : for2 nY nX m0 body = tab2 nY nX body) by (apply for2_tab; exact HR).
  set (bd := fun i => body (fst i) (snd i)).
  assert (CASE : forall r, par2 m0 body ds r -> (exists m, r = Ok m /\ rect nY nX m /\ forall i, dom i -> exists v, bd i = Ok v /\ rd m i = Ok v) \/
      exists i, dom i /\ (forall v, bd i <> Ok v) /\ r = fail_of (bd i)).
  { intros r (k & c & HS & HE).
    pose proof (inv_steps wr2 rd bd dom (rect nY nX) (fun m i v R D => wr2_law nY nX m i v R D) pair_dec k _ c (inv_start rd bd dom (rect nY nX) m0 ds HR HC) HS) as HI.
    exact (inv_ends rd bd dom (rect nY nX) c r HI HE). }
  split; [|split; [|split]].
  - destruct (exists_outcome wr2 bd m0 ds) as (k & c & r & HS & HE). exists r, k, c. auto.
  - intros k c HS. split; [|apply progress]. pose proof (steps_work _ _ _ _ _ HS) as W. rewrite start_work in W. lia.
  - intros out Ho r Hr. rewrite SEQ in Ho. destruct (tab2_inv _ _ _ _ HY HX Ho) as [RO GO]. destruct (CASE r Hr) as [(m & -> & Rm & G)|([y x] & [Hy Hx] & N & _)].
    + f_equal. apply (rect_ext nY nX); [exact Rm|exact RO|]. intros y x Hy Hx. destruct (G (y, x) (conj Hy Hx)) as (v & B & E2).
      destruct (GO y x Hy Hx) as (w & E3 & B2). unfold bd, rd in *. cbn in *. congruence.
    + exfalso. cbn in Hy, Hx. destruct (GO y x Hy Hx) as (w & _ & B2). exact (N _ B2).
  - intros NO r Hr. destruct (CASE r Hr) as [(m & -> & Rm & G)|([y x] & [Hy Hx] & F)]; [|exists y, x; auto]. exfalso.
    destruct (tab2_total nY nX body (fun y x v => body y x = Ok v) HY HX) as (l & El & _).
    + intros y x Hy Hx. destruct (G (y, x) (conj Hy Hx)) as (v & B & _). exists v. auto.
    + apply (NO l). rewrite SEQ. exact El.
Qed.
