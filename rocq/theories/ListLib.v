(** Lemmas on the array and loop primitives of Base. *)
From Verif Require Import Base.
From Coq Require Import Permutation Sorting.

Lemma bind_Ok {A B} (r : res A) (k : A -> res B) b :
  bind r k = Ok b -> exists a, r = Ok a /\ k a = Ok b.
Proof. destruct r; cbn; try discriminate; eauto. Qed.

Lemma zlen_nonneg {A} (l : list A) : 0 <= zlen l.
Proof. unfold zlen; lia. Qed.
Lemma zlen_nil {A} : zlen (@nil A) = 0. Proof. reflexivity. Qed.
Lemma zlen_cons {A} (x : A) l : zlen (x :: l) = zlen l + 1.
Proof. unfold zlen; cbn [length]; lia. Qed.
Lemma zlen_app {A} (l m : list A) : zlen (l ++ m) = zlen l + zlen m.
Proof. unfold zlen; rewrite app_length; lia. Qed.
Lemma zlen_map {A B} (f : A -> B) l : zlen (map f l) = zlen l.
Proof. unfold zlen; rewrite map_length; reflexivity. Qed.
Lemma zlen_0_nil {A} (l : list A) : zlen l = 0 -> l = [].
Proof. destruct l; [reflexivity|]. rewrite zlen_cons. pose proof (zlen_nonneg l). lia. Qed.
Lemma zlen_zrange lo hi : zlen (zrange lo hi) = Z.max 0 (hi - lo).
Proof. unfold zlen, zrange. rewrite map_length, seq_length. lia. Qed.
Lemma in_zrange lo hi x : In x (zrange lo hi) <-> lo <= x < hi.
Proof.
  unfold zrange. rewrite in_map_iff. split.
  - intros (k & <- & H). apply in_seq in H. lia.
  - intros H. exists (Z.to_nat (x - lo)). split; [lia|]. apply in_seq. lia.
Qed.
Lemma zrange_nil lo hi : hi <= lo -> zrange lo hi = [].
Proof. intros H. unfold zrange. replace (Z.to_nat (hi - lo)) with O by lia. reflexivity. Qed.
Lemma zrange_cons lo hi : lo < hi -> zrange lo hi = lo :: zrange (lo + 1) hi.
Proof.
  intros H. unfold zrange. replace (Z.to_nat (hi - lo)) with (S (Z.to_nat (hi - (lo + 1)))) by lia.
  cbn [seq map]. f_equal; [lia|]. rewrite <- seq_shift, map_map. apply map_ext. intros; lia.
Qed.
Lemma zrange_app lo mid hi : lo <= mid <= hi -> zrange lo hi = zrange lo mid ++ zrange mid hi.
Proof.
  intros H. remember (Z.to_nat (mid - lo)) as n eqn:E. revert lo H E.
  induction n as [|n IH]; intros lo H E.
  - replace mid with lo by lia. rewrite (zrange_nil lo lo) by lia. reflexivity.
  - rewrite (zrange_cons lo hi), (zrange_cons lo mid) by lia. cbn [app]. f_equal. apply IH; lia.
Qed.
Lemma zrange_snoc lo hi : lo < hi -> zrange lo hi = zrange lo (hi - 1) ++ [hi - 1].
Proof.
  intros H. rewrite (zrange_app lo (hi - 1) hi) by lia. f_equal.
  rewrite zrange_cons by lia. rewrite zrange_nil by lia. reflexivity.
Qed.
Lemma zrange_shift lo hi d : zrange (lo + d) (hi + d) = map (fun z => z + d) (zrange lo hi).
Proof.
  unfold zrange. rewrite map_map. replace (hi + d - (lo + d)) with (hi - lo) by lia.
  apply map_ext. intros; lia.
Qed.
Lemma NoDup_zrange lo hi : NoDup (zrange lo hi).
Proof.
  unfold zrange. apply FinFun.Injective_map_NoDup; [|apply seq_NoDup].
  intros a b H. lia.
Qed.

Lemma znth_Ok {A} (l : list A) i a : znth l i = Ok a <-> (0 <= i /\ nth_error l (Z.to_nat i) = Some a).
Proof.
  unfold znth. destruct (i <? 0) eqn:E.
  - split; [discriminate|]. lia.
  - destruct (nth_error l (Z.to_nat i)) eqn:F; split; intros H; try discriminate.
    + injection H as ->. split; [lia|reflexivity].
    + destruct H as [_ H]. congruence.
    + destruct H; discriminate.
Qed.
Lemma znth_range {A} (l : list A) i a : znth l i = Ok a -> 0 <= i < zlen l.
Proof.
  intros H. apply znth_Ok in H as [H1 H2].
  assert (Z.to_nat i < length l)%nat by (apply nth_error_Some; congruence). unfold zlen; lia.
Qed.
Lemma znth_In {A} (l : list A) i a : znth l i = Ok a -> In a l.
Proof. intros H. apply znth_Ok in H as [_ H]. eapply nth_error_In; eauto. Qed.
Lemma znth_some {A} (l : list A) i : 0 <= i < zlen l -> exists a, znth l i = Ok a.
Proof.
  intros H. destruct (nth_error l (Z.to_nat i)) eqn:E.
  - exists a. apply znth_Ok. split; [lia|exact E].
  - apply nth_error_None in E. unfold zlen in H. lia.
Qed.
Lemma In_znth {A} (l : list A) a : In a l -> exists i, znth l i = Ok a.
Proof.
  intros H. apply In_nth_error in H as [n H]. exists (Z.of_nat n).
  apply znth_Ok. split; [lia|]. rewrite Nat2Z.id. exact H.
Qed.
Lemma znth_out {A} (l : list A) i : ~ (0 <= i < zlen l) -> znth l i = UB.
Proof.
  intros H. destruct (znth l i) eqn:E; try reflexivity.
  - apply znth_range in E. lia.
  - unfold znth in E. destruct (i <? 0); [discriminate|]. destruct (nth_error _ _); discriminate.
  - unfold znth in E. destruct (i <? 0); [discriminate|]. destruct (nth_error _ _); discriminate.
Qed.
Lemma znth_cons0 {A} (x : A) l : znth (x :: l) 0 = Ok x.
Proof. reflexivity. Qed.
Lemma znth_consS {A} (x : A) l i : 0 < i -> znth (x :: l) i = znth l (i - 1).
Proof.
  intros H. unfold znth. replace (i <? 0) with false by lia. replace (i - 1 <? 0) with false by lia.
  replace (Z.to_nat i) with (S (Z.to_nat (i - 1))) by lia. reflexivity.
Qed.
Lemma znth_map {A B} (f : A -> B) l i :
  znth (map f l) i = match znth l i with Ok a => Ok (f a) | Throw e => Throw e | Abort => Abort | UB => UB end.
Proof.
  unfold znth. destruct (i <? 0); [reflexivity|]. rewrite nth_error_map.
  destruct (nth_error l (Z.to_nat i)); reflexivity.
Qed.
Lemma znth_app_l {A} (l m : list A) i : i < zlen l -> znth (l ++ m) i = znth l i.
Proof.
  intros H. unfold znth. destruct (i <? 0) eqn:E; [reflexivity|].
  rewrite nth_error_app1; [reflexivity|]. unfold zlen in H. lia.
Qed.
Lemma znth_app_r {A} (l m : list A) i : zlen l <= i -> znth (l ++ m) i = znth m (i - zlen l).
Proof.
  intros H. unfold znth. pose proof (zlen_nonneg l). replace (i <? 0) with false by lia.
  replace (i - zlen l <? 0) with false by lia.
  rewrite nth_error_app2 by (unfold zlen in *; lia).
  replace (Z.to_nat (i - zlen l)) with (Z.to_nat i - length l)%nat by (unfold zlen in *; lia). reflexivity.
Qed.
Lemma nth_error_seq s n k : (k < n)%nat -> nth_error (seq s n) k = Some (s + k)%nat.
Proof.
  revert s k. induction n as [|n IH]; intros s k H; [lia|].
  destruct k as [|k]; cbn [seq nth_error]; [f_equal; lia|]. rewrite IH by lia. f_equal; lia.
Qed.
Lemma znth_zrange lo hi i : 0 <= i < hi - lo -> znth (zrange lo hi) i = Ok (lo + i).
Proof.
  intros H. unfold zrange. rewrite znth_map. unfold znth.
  replace (i <? 0) with false by lia. rewrite nth_error_seq by lia. f_equal. lia.
Qed.
Lemma znth_map_zrange {A} (f : Z -> A) lo hi i :
  0 <= i < hi - lo -> znth (map f (zrange lo hi)) i = Ok (f (lo + i)).
Proof. intros H. rewrite znth_map, znth_zrange by exact H. reflexivity. Qed.

Lemma znth_ext {A} (l m : list A) :
  zlen l = zlen m -> (forall i, 0 <= i < zlen l -> znth l i = znth m i) -> l = m.
Proof.
  revert m. induction l as [|x l IH]; intros m HL H.
  - symmetry. apply zlen_0_nil. rewrite zlen_nil in HL. lia.
  - destruct m as [|y m]; [rewrite zlen_nil, zlen_cons in HL; pose proof (zlen_nonneg l); lia|].
    rewrite !zlen_cons in HL. pose proof (zlen_nonneg l).
    assert (x = y). { specialize (H 0). rewrite !znth_cons0, zlen_cons in H. assert (Ok x = Ok y) by (apply H; lia). congruence. }
    subst. f_equal. apply IH; [lia|]. intros i Hi.
    specialize (H (i + 1)). rewrite !znth_consS in H by lia. replace (i + 1 - 1) with i in H by lia.
    apply H. rewrite zlen_cons. lia.
Qed.

Lemma length_lset {A} (l : list A) n a : length (lset l n a) = length l.
Proof. revert n; induction l as [|x l IH]; intros [|n]; cbn; auto. Qed.
Lemma nth_error_lset {A} (l : list A) n a m :
  (n < length l)%nat -> nth_error (lset l n a) m = if Nat.eqb m n then Some a else nth_error l m.
Proof.
  revert n m; induction l as [|x l IH]; intros [|n] [|m] H; cbn in *; try lia; try reflexivity.
  apply IH; lia.
Qed.
Lemma zset_Ok {A} (l : list A) i a : 0 <= i < zlen l -> zset l i a = Ok (lset l (Z.to_nat i) a).
Proof. intros H. unfold zset. replace (_ || _)%bool with false by lia. reflexivity. Qed.
Lemma zset_inv {A} (l l' : list A) i a : zset l i a = Ok l' -> 0 <= i < zlen l /\ l' = lset l (Z.to_nat i) a.
Proof.
  unfold zset. destruct ((i <? 0) || (zlen l <=? i))%bool eqn:E; [discriminate|].
  intros H; injection H as <-. split; [lia|reflexivity].
Qed.
Lemma zlen_lset {A} (l : list A) n a : zlen (lset l n a) = zlen l.
Proof. unfold zlen; rewrite length_lset; reflexivity. Qed.
Lemma znth_lset {A} (l : list A) i a j :
  0 <= i < zlen l -> znth (lset l (Z.to_nat i) a) j = if j =? i then Ok a else znth l j.
Proof.
  intros H. unfold znth. destruct (j <? 0) eqn:E.
  - replace (j =? i) with false by lia. reflexivity.
  - rewrite nth_error_lset by (unfold zlen in H; lia).
    destruct (Nat.eqb_spec (Z.to_nat j) (Z.to_nat i)).
    + replace (j =? i) with true by lia. reflexivity.
    + replace (j =? i) with false by lia. reflexivity.
Qed.

Lemma mapM_ok {A B} (f : A -> res B) (g : A -> B) l :
  (forall x, In x l -> f x = Ok (g x)) -> mapM f l = Ok (map g l).
Proof.
  induction l as [|x l IH]; intros H; cbn; [reflexivity|].
  rewrite H by (left; reflexivity). cbn. rewrite IH by (intros; apply H; right; assumption). reflexivity.
Qed.
Lemma mapM_ext {A B} (f g : A -> res B) l :
  (forall x, In x l -> f x = g x) -> mapM f l = mapM g l.
Proof.
  induction l as [|x l IH]; intros H; cbn; [reflexivity|].
  rewrite H by (left; reflexivity). rewrite IH by (intros; apply H; right; assumption). reflexivity.
Qed.
Lemma mapM_inv {A B} (f : A -> res B) l r :
  mapM f l = Ok r -> zlen r = zlen l /\ forall i a, znth l i = Ok a -> exists b, znth r i = Ok b /\ f a = Ok b.
Proof.
  revert r; induction l as [|x l IH]; intros r H; cbn in H.
  - injection H as <-. split; [reflexivity|]. intros i a Hi. apply znth_range in Hi. unfold zlen in Hi; cbn in Hi; lia.
  - apply bind_Ok in H as (y & Hy & H). apply bind_Ok in H as (ys & Hys & H). injection H as <-.
    destruct (IH _ Hys) as [HL IH']. split; [rewrite !zlen_cons; lia|].
    intros i a Hi. destruct (Z.eq_dec i 0) as [->|Hn].
    + rewrite znth_cons0 in Hi. rewrite znth_cons0. injection Hi as <-. eauto.
    + pose proof (znth_range _ _ _ Hi). rewrite znth_consS in Hi by lia. rewrite znth_consS by lia. apply IH'; exact Hi.
Qed.
Lemma mapM_app {A B} (f : A -> res B) l m :
  mapM f (l ++ m) = (a <- mapM f l ;; b <- mapM f m ;; Ok (a ++ b)).
Proof.
  induction l as [|x l IH]; cbn; [destruct (mapM f m); reflexivity|].
  destruct (f x); cbn; try reflexivity. rewrite IH. destruct (mapM f l); cbn; try reflexivity.
  destruct (mapM f m); reflexivity.
Qed.
Lemma foldM_app {S A} (f : S -> A -> res S) s l m :
  foldM f s (l ++ m) = (s' <- foldM f s l ;; foldM f s' m).
Proof. revert s; induction l as [|x l IH]; intros s; cbn; [reflexivity|]. destruct (f s x); cbn; auto. Qed.
Lemma foldM_ok {S A} (f : S -> A -> res S) (g : S -> A -> S) l : forall s,
  (forall s x, In x l -> f s x = Ok (g s x)) -> foldM f s l = Ok (fold_left g l s).
Proof.
  induction l as [|x l IH]; intros s H; cbn; [reflexivity|].
  rewrite H by (left; reflexivity). cbn. apply IH. intros; apply H; right; assumption.
Qed.
(** invariant rule for loops over an integer range *)
Lemma foldM_range {S} (f : S -> Z -> res S) (I : Z -> S -> Prop) lo hi s :
  lo <= hi -> I lo s ->
  (forall i s, lo <= i < hi -> I i s -> exists s', f s i = Ok s' /\ I (i + 1) s') ->
  exists s', foldM f s (zrange lo hi) = Ok s' /\ I hi s'.
Proof.
  intros Hle HI Hstep.
  assert (H : forall n i s, lo <= i -> Z.of_nat n = hi - i -> I i s ->
              exists s', foldM f s (zrange i hi) = Ok s' /\ I hi s').
  { induction n as [|n IH]; intros i s0 Hi Hn HIi.
    - rewrite zrange_nil by lia. exists s0. split; [reflexivity|]. replace hi with i by lia. exact HIi.
    - rewrite zrange_cons by lia. cbn. destruct (Hstep i s0) as (s' & -> & HI'); [lia|exact HIi|].
      cbn. apply IH; [lia|lia|exact HI']. }
  apply (H (Z.to_nat (hi - lo)) lo s); [lia|lia|exact HI].
Qed.

(** rectangular arrays *)
Lemma rect_get2 {A} nY nX (a : list (list A)) i j :
  rect nY nX a -> 0 <= i < nY -> 0 <= j < nX -> exists v, get2 a i j = Ok v.
Proof.
  intros [H1 H2] Hi Hj. unfold get2.
  destruct (znth_some a i) as [r Hr]; [lia|]. rewrite Hr. cbn.
  apply znth_some. rewrite (H2 r); [lia|]. eapply znth_In; eauto.
Qed.
Lemma get2_range {A} nY nX (a : list (list A)) i j v :
  rect nY nX a -> get2 a i j = Ok v -> 0 <= i < nY /\ 0 <= j < nX.
Proof.
  intros [H1 H2] H. unfold get2 in H. apply bind_Ok in H as (r & Hr & H).
  pose proof (znth_range _ _ _ Hr). pose proof (znth_range _ _ _ H). apply znth_In in Hr.
  rewrite (H2 _ Hr) in *. lia.
Qed.
Lemma rect_ext {A} nY nX (a b : list (list A)) :
  rect nY nX a -> rect nY nX b ->
  (forall i j, 0 <= i < nY -> 0 <= j < nX -> get2 a i j = get2 b i j) -> a = b.
Proof.
  intros [Ha1 Ha2] [Hb1 Hb2] H. apply znth_ext; [lia|]. intros i Hi.
  destruct (znth_some a i Hi) as [r Hr]. destruct (znth_some b i) as [s Hs]; [lia|].
  rewrite Hr, Hs. f_equal. pose proof (Ha2 _ (znth_In _ _ _ Hr)). pose proof (Hb2 _ (znth_In _ _ _ Hs)).
  apply znth_ext; [lia|]. intros j Hj. specialize (H i j). unfold get2 in H. rewrite Hr, Hs in H. cbn in H.
  apply H; lia.
Qed.
Lemma rect_map_zrange {A} nY nX (g : Z -> Z -> A) :
  0 <= nY -> 0 <= nX -> rect nY nX (map (fun i => map (fun j => g i j) (zrange 0 nX)) (zrange 0 nY)).
Proof.
  intros HY HX. split.
  - rewrite zlen_map, zlen_zrange. lia.
  - intros r Hr. apply in_map_iff in Hr as (i & <- & _). rewrite zlen_map, zlen_zrange. lia.
Qed.
Lemma get2_map_zrange {A} nY nX (g : Z -> Z -> A) i j :
  0 <= i < nY -> 0 <= j < nX ->
  get2 (map (fun i => map (fun j => g i j) (zrange 0 nX)) (zrange 0 nY)) i j = Ok (g i j).
Proof.
  intros Hi Hj. unfold get2. rewrite znth_map_zrange by lia. cbn. rewrite znth_map_zrange by lia.
  f_equal.
Qed.
Lemma tab2_ok {A} nY nX (f : Z -> Z -> res A) (g : Z -> Z -> A) :
  (forall i j, 0 <= i < nY -> 0 <= j < nX -> f i j = Ok (g i j)) ->
  tab2 nY nX f = Ok (map (fun i => map (fun j => g i j) (zrange 0 nX)) (zrange 0 nY)).
Proof.
  intros H. unfold tab2. apply mapM_ok. intros i Hi. apply in_zrange in Hi.
  apply mapM_ok. intros j Hj. apply in_zrange in Hj. apply H; lia.
Qed.
Lemma tab2_inv {A} nY nX (f : Z -> Z -> res A) r :
  0 <= nY -> 0 <= nX -> tab2 nY nX f = Ok r ->
  rect nY nX r /\ forall i j, 0 <= i < nY -> 0 <= j < nX -> exists v, get2 r i j = Ok v /\ f i j = Ok v.
Proof.
  intros HY HX H. unfold tab2 in H. apply mapM_inv in H as [HL H]. rewrite zlen_zrange in HL.
  assert (Hrow : forall i, 0 <= i < nY -> exists row, znth r i = Ok row /\ zlen row = nX /\
            forall j, 0 <= j < nX -> exists v, znth row j = Ok v /\ f i j = Ok v).
  { intros i Hi. destruct (H i i) as (row & Hr & Hm). { rewrite znth_zrange by lia. f_equal; lia. }
    apply mapM_inv in Hm as [HL2 Hm]. rewrite zlen_zrange in HL2.
    exists row. split; [exact Hr|]. split; [lia|]. intros j Hj. apply Hm. rewrite znth_zrange by lia. f_equal; lia. }
  split.
  - split; [lia|]. intros row Hin. apply In_znth in Hin as [i Hi]. pose proof (znth_range _ _ _ Hi).
    destruct (Hrow i) as (row' & Hr' & HL' & _); [lia|]. congruence.
  - intros i j Hi Hj. destruct (Hrow i Hi) as (row & Hr & _ & Hj'). destruct (Hj' j Hj) as (v & Hv & Hf).
    exists v. split; [|exact Hf]. unfold get2. rewrite Hr. cbn. exact Hv.
Qed.

(** array update *)
Lemma rect_set2 {A} nY nX (a : list (list A)) i j v :
  rect nY nX a -> 0 <= i < nY -> 0 <= j < nX ->
  exists a', set2 a i j v = Ok a' /\ rect nY nX a' /\
    forall i' j', 0 <= i' < nY -> 0 <= j' < nX ->
      get2 a' i' j' = if (i' =? i) && (j' =? j) then Ok v else get2 a i' j'.
Proof.
  intros HR Hi Hj. destruct HR as [H1 H2]. unfold set2.
  destruct (znth_some a i) as [r Hr]; [lia|]. rewrite Hr. cbn.
  pose proof (H2 _ (znth_In _ _ _ Hr)) as Hlr.
  rewrite zset_Ok by lia. cbn. rewrite zset_Ok by lia. eexists; split; [reflexivity|]. split.
  - split; [rewrite zlen_lset; lia|]. intros s Hs. apply In_znth in Hs as [k Hk].
    rewrite znth_lset in Hk by lia. destruct (k =? i).
    + injection Hk as <-. rewrite zlen_lset. exact Hlr.
    + apply H2. eapply znth_In; eauto.
  - intros i' j' Hi' Hj'. unfold get2. rewrite znth_lset by lia.
    destruct (Z.eqb_spec i' i) as [->|Hne]; cbn; [|reflexivity].
    rewrite znth_lset by lia. rewrite Hr. cbn. destruct (j' =? j); reflexivity.
Qed.

(** filling loops compute the table of the body *)
Lemma lset_app {A} (l : list A) x m y : lset (l ++ x :: m) (length l) y = l ++ y :: m.
Proof. induction l as [|z l IH]; cbn; congruence. Qed.
Lemma for1_gen {A} (body : Z -> res A) n : forall pre post, zlen pre + zlen post = n ->
  foldM (fun o i => v <- body i ;; zset o i v) (pre ++ post) (zrange (zlen pre) n)
  = (r <- mapM body (zrange (zlen pre) n) ;; Ok (pre ++ r)).
Proof.
  intros pre post. revert pre. induction post as [|x post IH]; intros pre H.
  - change (zlen (@nil A)) with 0 in H. rewrite zrange_nil by lia. reflexivity.
  - rewrite zlen_cons in H. pose proof (zlen_nonneg post). rewrite zrange_cons by lia. cbn [foldM mapM].
    destruct (body (zlen pre)) as [v| | |]; cbn [bind]; try reflexivity.
    rewrite zset_Ok by (rewrite zlen_app, zlen_cons; pose proof (zlen_nonneg pre); lia). cbn [bind].
    replace (Z.to_nat (zlen pre)) with (length pre) by (unfold zlen; lia). rewrite lset_app.
    specialize (IH (pre ++ [v])). rewrite zlen_app in IH. change (zlen [v]) with 1 in IH.
    rewrite <- app_assoc in IH. cbn [app] in IH. rewrite IH by lia.
    destruct (mapM body (zrange (zlen pre + 1) n)); cbn; try reflexivity. rewrite <- app_assoc. reflexivity.
Qed.
Lemma for1_tab {A} n (init : list A) body : zlen init = n -> for1 n init body = mapM body (zrange 0 n).
Proof.
  intros H. unfold for1. pose proof (for1_gen body n [] init) as G. change (zlen (@nil A)) with 0 in G.
  cbn [app] in G. rewrite G by lia. destruct (mapM body (zrange 0 n)); reflexivity.
Qed.
Lemma set2_row {A} (pre : list (list A)) row post j v :
  set2 (pre ++ row :: post) (zlen pre) j v = (r <- zset row j v ;; Ok (pre ++ r :: post)).
Proof.
  unfold set2. rewrite znth_app_r by lia. rewrite Z.sub_diag, znth_cons0. cbn [bind].
  destruct (zset row j v) as [r| | |]; cbn [bind]; try reflexivity.
  rewrite zset_Ok by (rewrite zlen_app, zlen_cons; pose proof (zlen_nonneg pre); pose proof (zlen_nonneg post); lia).
  replace (Z.to_nat (zlen pre)) with (length pre) by (unfold zlen; lia). rewrite lset_app. reflexivity.
Qed.
Lemma row_loop {A} (body : Z -> res A) l : forall (pre : list (list A)) row post,
  foldM (fun o j => v <- body j ;; set2 o (zlen pre) j v) (pre ++ row :: post) l
  = (r <- foldM (fun o j => v <- body j ;; zset o j v) row l ;; Ok (pre ++ r :: post)).
Proof.
  induction l as [|j l IH]; intros pre row post; cbn [foldM]; [reflexivity|].
  destruct (body j) as [v| | |]; cbn [bind]; try reflexivity. rewrite set2_row.
  destruct (zset row j v) as [r| | |]; cbn [bind]; try reflexivity. apply IH.
Qed.
Lemma for2_gen {A} (body : Z -> Z -> res A) nY nX : forall pre post, zlen pre + zlen post = nY ->
  (forall r, In r post -> zlen r = nX) ->
  foldM (fun o i => foldM (fun o j => v <- body i j ;; set2 o i j v) o (zrange 0 nX)) (pre ++ post) (zrange (zlen pre) nY)
  = (r <- mapM (fun i => mapM (fun j => body i j) (zrange 0 nX)) (zrange (zlen pre) nY) ;; Ok (pre ++ r)).
Proof.
  intros pre post. revert pre. induction post as [|x post IH]; intros pre H Hr.
  - change (zlen (@nil (list A))) with 0 in H. rewrite (zrange_nil (zlen pre) nY) by lia. reflexivity.
  - rewrite zlen_cons in H. pose proof (zlen_nonneg post). rewrite (zrange_cons (zlen pre) nY) by lia. cbn [foldM mapM].
    rewrite row_loop.
    pose proof (for1_tab nX x (fun j => body (zlen pre) j) (Hr x (or_introl eq_refl))) as F. unfold for1 in F. rewrite F.
    destruct (mapM (fun j => body (zlen pre) j) (zrange 0 nX)) as [v| | |]; cbn [bind]; try reflexivity.
    specialize (IH (pre ++ [v])). rewrite zlen_app in IH. change (zlen [v]) with 1 in IH.
    rewrite <- app_assoc in IH. cbn [app] in IH. rewrite IH; [|lia|intros; apply Hr; right; assumption].
    destruct (mapM _ (zrange (zlen pre + 1) nY)); cbn; try reflexivity. rewrite <- app_assoc. reflexivity.
Qed.
Lemma for2_tab {A} nY nX (init : list (list A)) body : rect nY nX init -> for2 nY nX init body = tab2 nY nX body.
Proof.
  intros [H1 H2]. unfold for2. pose proof (for2_gen body nY nX [] init) as G. change (zlen (@nil (list A))) with 0 in G.
  cbn [app] in G. rewrite G by (lia || exact H2). unfold tab2. destruct (mapM _ (zrange 0 nY)); reflexivity.
Qed.
Lemma rect_init2 {A} nY nX (v : A) : 0 <= nY -> 0 <= nX -> rect nY nX (init2 nY nX v).
Proof. intros. apply (rect_map_zrange nY nX (fun _ _ => v)); assumption. Qed.
Lemma zlen_init1 {A} n (v : A) : 0 <= n -> zlen (init1 n v) = n.
Proof. intros. unfold init1. rewrite zlen_map, zlen_zrange. lia. Qed.
Lemma for2_init_tab {A} nY nX (v : A) body : 0 <= nY -> 0 <= nX -> for2 nY nX (init2 nY nX v) body = tab2 nY nX body.
Proof. intros. apply for2_tab. apply rect_init2; assumption. Qed.
Lemma for1_init_tab {A} n (v : A) body : 0 <= n -> for1 n (init1 n v) body = mapM body (zrange 0 n).
Proof. intros. apply for1_tab. apply zlen_init1; assumption. Qed.
Lemma mapM_zrange_znth {A B} (f : A -> res B) l : mapM (fun i => a <- znth l i ;; f a) (zrange 0 (zlen l)) = mapM f l.
Proof.
  assert (G : forall pre, mapM (fun i => a <- znth (pre ++ l) i ;; f a) (zrange (zlen pre) (zlen (pre ++ l))) = mapM f l).
  { induction l as [|x l IH]; intros pre.
    - rewrite app_nil_r, zrange_nil by lia. reflexivity.
    - rewrite zrange_cons by (rewrite zlen_app, zlen_cons; pose proof (zlen_nonneg l); lia). cbn [mapM].
      rewrite znth_app_r by lia. rewrite Z.sub_diag, znth_cons0. cbn [bind].
      specialize (IH (pre ++ [x])). rewrite zlen_app in IH. change (zlen [x]) with 1 in IH. rewrite <- app_assoc in IH.
      cbn [app] in IH. rewrite IH. reflexivity. }
  exact (G []).
Qed.

(** total bodies: the loop succeeds and every cell satisfies its property *)
Lemma mapM_total {A B} (f : A -> res B) (P : A -> B -> Prop) l :
  (forall x, In x l -> exists v, f x = Ok v /\ P x v) ->
  exists r, mapM f l = Ok r /\ zlen r = zlen l /\ forall i x, znth l i = Ok x -> exists v, znth r i = Ok v /\ f x = Ok v /\ P x v.
Proof.
  intros H. assert (exists r, mapM f l = Ok r) as (r & E).
  { clear -H. induction l as [|x l IH]; cbn; [eauto|]. destruct (H x (or_introl eq_refl)) as (v & -> & _).
    destruct IH as (r & ->); [intros; apply H; right; assumption|]. cbn. eauto. }
  exists r. split; [exact E|]. destruct (mapM_inv f l r E) as (L & G). split; [exact L|].
  intros i x Hx. destruct (G i x Hx) as (v & V1 & V2). exists v. split; [exact V1|]. split; [exact V2|].
  destruct (H x (znth_In _ _ _ Hx)) as (v' & V3 & V4). rewrite V2 in V3. injection V3 as ->. exact V4.
Qed.
Lemma tab2_total {A} nY nX (f : Z -> Z -> res A) (P : Z -> Z -> A -> Prop) : 0 <= nY -> 0 <= nX ->
  (forall i j, 0 <= i < nY -> 0 <= j < nX -> exists v, f i j = Ok v /\ P i j v) ->
  exists r, tab2 nY nX f = Ok r /\ rect nY nX r /\
    forall i j, 0 <= i < nY -> 0 <= j < nX -> exists v, get2 r i j = Ok v /\ f i j = Ok v /\ P i j v.
Proof.
  intros HY HX H. unfold tab2.
  destruct (mapM_total (fun i => mapM (fun j => f i j) (zrange 0 nX))
    (fun i row => zlen row = nX /\ forall j, 0 <= j < nX -> exists v, znth row j = Ok v /\ f i j = Ok v /\ P i j v) (zrange 0 nY)) as (r & E & L & G).
  { intros i Hi. apply in_zrange in Hi.
    destruct (mapM_total (fun j => f i j) (P i) (zrange 0 nX)) as (row & E & L & G).
    { intros j Hj. apply in_zrange in Hj. apply H; assumption. }
    exists row. split; [exact E|]. rewrite zlen_zrange in L. split; [lia|].
    intros j Hj. apply (G j). rewrite znth_zrange by lia. reflexivity. }
  exists r. split; [exact E|]. rewrite zlen_zrange in L. split.
  - split; [lia|]. intros row Hr. destruct (In_znth _ _ Hr) as (i & Hi). pose proof (znth_range _ _ _ Hi).
    destruct (G i (0 + i)) as (row' & R1 & _ & R2 & _); [apply znth_zrange; lia|]. congruence.
  - intros i j Hi Hj. destruct (G i i) as (row & R1 & _ & _ & R2); [rewrite znth_zrange by lia; f_equal; lia|].
    destruct (R2 j Hj) as (v & V1 & V2). exists v. split; [|exact V2]. unfold get2. rewrite R1. exact V1.
Qed.
Lemma for_rows_ext {A P} nY nX (out : list (list A)) (pre : Z -> res P) body f :
  (forall i, 0 <= i < nY -> exists p, pre i = Ok p /\ forall j, 0 <= j < nX -> body i p j = f i j) ->
  for_rows nY nX out pre body = for2 nY nX out f.
Proof.
  intros H. unfold for_rows, for2.
  assert (G : forall l out, (forall i, In i l -> 0 <= i < nY) ->
    foldM (fun o i => p <- pre i ;; foldM (fun o j => v <- body i p j ;; set2 o i j v) o (zrange 0 nX)) out l
    = foldM (fun o i => foldM (fun o j => v <- f i j ;; set2 o i j v) o (zrange 0 nX)) out l).
  { induction l as [|i l IH]; intros o Hin; [reflexivity|]. cbn [foldM].
    destruct (H i (Hin i (or_introl eq_refl))) as (p & -> & Hb). cbn [bind].
    assert (F : forall m o, (forall j, In j m -> 0 <= j < nX) ->
      foldM (fun o j => v <- body i p j ;; set2 o i j v) o m = foldM (fun o j => v <- f i j ;; set2 o i j v) o m).
    { clear -Hb. induction m as [|j m IH]; intros o Hm; [reflexivity|]. cbn [foldM]. rewrite Hb by (apply Hm; left; reflexivity).
      destruct (v <- f i j ;; set2 o i j v); cbn [bind]; auto. apply IH. intros; apply Hm; right; assumption. }
    rewrite F by (intros j Hj; apply in_zrange in Hj; lia).
    destruct (foldM _ o (zrange 0 nX)); cbn [bind]; auto. apply IH. intros; apply Hin; right; assumption. }
  apply G. intros i Hi. apply in_zrange in Hi. lia.
Qed.
Lemma for_rows_tab {A P} nY nX (v : A) (pre : Z -> res P) body f : 0 <= nY -> 0 <= nX ->
  (forall i, 0 <= i < nY -> exists p, pre i = Ok p /\ forall j, 0 <= j < nX -> body i p j = f i j) ->
  for_rows nY nX (init2 nY nX v) pre body = tab2 nY nX f.
Proof. intros HY HX H. rewrite (for_rows_ext _ _ _ _ _ f H). apply for2_init_tab; assumption. Qed.
