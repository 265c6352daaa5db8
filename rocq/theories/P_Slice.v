From Verif Require Import Base ListLib S_Slice P_Quant.

(** ** slices *)
Definition slice_from {A} (base : Z) (l : list A) (lo hi : Z) : list A :=
  map snd (filter (fun p => (lo <=? fst p) && (fst p <=? hi)) (combine (zrange base (base + zlen l)) l)).
Lemma slice_from_cons {A} base (x : A) (l : list A) lo hi :
  slice_from base (x :: l) lo hi = (if (lo <=? base) && (base <=? hi) then [x] else []) ++ slice_from (base + 1) l lo hi.
Proof.
  unfold slice_from. rewrite zlen_cons. pose proof (zlen_nonneg l). rewrite zrange_cons by lia.
  replace (base + (zlen l + 1)) with (base + 1 + zlen l) by lia. cbn [combine filter fst].
  destruct ((lo <=? base) && (base <=? hi)); reflexivity.
Qed.
Lemma slice_from_app {A} (l : list A) (m : list A) base lo hi :
  slice_from base (l ++ m) lo hi = slice_from base l lo hi ++ slice_from (base + zlen l) m lo hi.
Proof.
  revert base. induction l as [|x l IH]; intros base; cbn [app].
  - replace (base + zlen (@nil A)) with base by (change (zlen (@nil A)) with 0; lia).
    unfold slice_from at 2. cbn. rewrite combine_nil. reflexivity.
  - rewrite !slice_from_cons, IH, <- app_assoc. do 2 f_equal. rewrite zlen_cons. f_equal. lia.
Qed.
Lemma slice_from_all {A} (l : list A) : forall base lo hi, (lo <= base)%Z -> base + zlen l <= hi + 1 -> slice_from base l lo hi = l.
Proof.
  induction l as [|x l IH]; intros base lo hi H1 H2.
  - unfold slice_from. rewrite combine_nil. reflexivity.
  - rewrite zlen_cons in H2. pose proof (zlen_nonneg l). rewrite slice_from_cons.
    replace ((lo <=? base) && (base <=? hi))%bool with true by lia. cbn [app]. f_equal. apply IH; lia.
Qed.
Lemma slice_from_none {A} (l : list A) : forall base lo hi, base + zlen l <= lo \/ hi < base -> slice_from base l lo hi = [].
Proof.
  induction l as [|x l IH]; intros base lo hi H.
  - unfold slice_from. rewrite combine_nil. reflexivity.
  - rewrite zlen_cons in H. pose proof (zlen_nonneg l). rewrite slice_from_cons.
    replace ((lo <=? base) && (base <=? hi))%bool with false by lia. cbn [app]. apply IH; lia.
Qed.
Lemma slice_is_from {A} (l : list A) lo hi : slice l lo hi = slice_from 0 l lo hi.
Proof. reflexivity. Qed.
(** a slice clipped to the series *)
Lemma slice_clip {A} (l : list A) lo hi : slice l lo hi = slice l (Z.max 0 lo) (Z.min (zlen l - 1) hi).
Proof.
  unfold slice. f_equal. apply filter_ext_in. intros [i v] H. cbn [fst].
  apply in_combine_l in H. apply in_zrange in H. lia.
Qed.
Lemma slice_split {A} (l : list A) a b : 0 <= a <= b -> b <= zlen l ->
  firstn (Z.to_nat b) l = firstn (Z.to_nat a) l ++ slice l a (b - 1).
Proof.
  intros H Hb.
  assert (E : l = firstn (Z.to_nat a) l ++ firstn (Z.to_nat (b - a)) (skipn (Z.to_nat a) l) ++ skipn (Z.to_nat (b - a)) (skipn (Z.to_nat a) l)).
  { rewrite firstn_skipn, firstn_skipn. reflexivity. }
  assert (S : slice l a (b - 1) = firstn (Z.to_nat (b - a)) (skipn (Z.to_nat a) l)).
  { rewrite E at 1. rewrite slice_is_from, !slice_from_app. rewrite !zlen_firstn by (rewrite ?zlen_skipn by lia; lia).
    rewrite (slice_from_none (firstn (Z.to_nat a) l)) by (rewrite zlen_firstn by lia; lia).
    rewrite (slice_from_all (firstn _ (skipn _ _))) by (rewrite ?zlen_firstn by (rewrite ?zlen_skipn by lia; lia); lia).
    rewrite slice_from_none by lia. rewrite app_nil_r. reflexivity. }
  rewrite S. clear -H Hb. 
  replace (Z.to_nat b) with (Z.to_nat a + Z.to_nat (b - a))%nat by lia.
  rewrite <- (firstn_skipn (Z.to_nat a) l) at 1. 
  rewrite firstn_app. rewrite firstn_firstn. rewrite Nat.min_r by lia. f_equal.
  rewrite firstn_length. f_equal. unfold zlen in Hb. lia.
Qed.
Lemma zlen_slice {A} (l : list A) a b : 0 <= a <= b -> b <= zlen l -> zlen (slice l a (b - 1)) = b - a.
Proof.
  intros H Hb. pose proof (f_equal (@zlen A) (slice_split l a b H Hb)) as E.
  rewrite zlen_app, !zlen_firstn in E by lia. lia.
Qed.
Lemma slice_znth {A} (l : list A) a b : 0 <= a <= b -> b <= zlen l -> mapM (fun i => znth l i) (zrange a b) = Ok (slice l a (b - 1)).
Proof.
  intros H Hb. remember (Z.to_nat (b - a)) as n eqn:E. revert b H Hb E. induction n as [|n IH]; intros b H Hb E.
  - assert (b = a) as -> by lia. rewrite zrange_nil by lia. cbn. f_equal.
    rewrite slice_is_from. symmetry. 
    assert (L : zlen (slice l a (a - 1)) = 0) by (rewrite zlen_slice; lia). apply zlen_0_nil in L. exact L.
  - rewrite zrange_snoc by lia. rewrite mapM_app. rewrite (IH (b - 1)) by lia. cbn [bind mapM].
    destruct (znth_some l (b - 1) ltac:(lia)) as (v & Hv). rewrite Hv. cbn [bind]. f_equal.
    apply (app_inv_head (firstn (Z.to_nat a) l)). rewrite app_assoc, <- !slice_split by lia.
    apply znth_ext; [rewrite zlen_app, !zlen_firstn, zlen_cons by lia; change (zlen (@nil A)) with 0; lia|].
    intros i Hi. rewrite zlen_app, zlen_cons, zlen_firstn in Hi by lia. change (zlen (@nil A)) with 0 in Hi.
    destruct (Z.lt_ge_cases i (b - 1)).
    + rewrite znth_app_l by (rewrite zlen_firstn by lia; lia). rewrite !znth_firstn by lia. reflexivity.
    + assert (i = b - 1) as -> by lia. rewrite znth_app_r by (rewrite zlen_firstn by lia; lia).
      rewrite zlen_firstn by lia. rewrite Z.sub_diag, znth_cons0, znth_firstn by lia. congruence.
Qed.
Lemma firstn_step {A} (l : list A) i v : znth l i = Ok v -> firstn (Z.to_nat (i + 1)) l = firstn (Z.to_nat i) l ++ [v].
Proof.
  intros H. pose proof (znth_range _ _ _ H). apply znth_Ok in H as [_ H].
  replace (Z.to_nat (i + 1)) with (S (Z.to_nat i)) by lia. revert l H H0. generalize (Z.to_nat i) as n. clear.
  intros n l H _. revert l H. induction n as [|n IH]; intros [|x l] H; cbn [nth_error] in H; try discriminate.
  - cbn. congruence.
  - specialize (IH l H). rewrite !firstn_cons, IH. reflexivity.
Qed.
Lemma firstn_min {A} (l : list A) k : 0 <= k -> firstn (Z.to_nat k) l = firstn (Z.to_nat (Z.min (zlen l) k)) l.
Proof.
  intros H. destruct (Z.le_ge_cases (zlen l) k).
  - rewrite Z.min_l by lia. unfold zlen in *. rewrite !firstn_all2 by lia. reflexivity.
  - rewrite Z.min_r by lia. reflexivity.
Qed.
Lemma init1_znth {A} n (v : A) i : 0 <= i < n -> znth (init1 n v) i = Ok v.
Proof. intros H. unfold init1. rewrite znth_map_zrange by lia. reflexivity. Qed.
Lemma mapM_ub {A B} (f : A -> res B) l x : (forall y, In y l -> (exists v, f y = Ok v) \/ f y = UB) -> In x l -> f x = UB -> mapM f l = UB.
Proof.
  induction l as [|z l IH]; intros H Hin E; [destruct Hin|]. destruct Hin as [->|Hin]; cbn; [rewrite E; reflexivity|].
  destruct (H z (or_introl eq_refl)) as [(v & ->)| ->]; [|reflexivity]. cbn. rewrite IH; auto. intros; apply H; right; assumption.
Qed.
Lemma mapM_ok_ub {A B} (f : A -> res B) l : (forall y, In y l -> (exists v, f y = Ok v) \/ f y = UB) -> (exists v, mapM f l = Ok v) \/ mapM f l = UB.
Proof.
  induction l as [|z l IH]; intros H; cbn; [eauto|].
  destruct (H z (or_introl eq_refl)) as [(v & ->)| ->]; [|auto]. cbn.
  destruct IH as [(r & ->)| ->]; [intros; apply H; right; assumption| |auto]. cbn. eauto.
Qed.
Lemma tab2_ub {A} nY nX (f : Z -> Z -> res A) y x :
  (forall i j, 0 <= i < nY -> 0 <= j < nX -> (exists v, f i j = Ok v) \/ f i j = UB) -> 0 <= y < nY -> 0 <= x < nX -> f y x = UB -> tab2 nY nX f = UB.
Proof.
  intros H Hy Hx E. unfold tab2. apply (mapM_ub _ _ y).
  - intros i Hi. apply in_zrange in Hi. apply mapM_ok_ub. intros j Hj. apply in_zrange in Hj. auto.
  - apply in_zrange. lia.
  - apply (mapM_ub _ _ x); auto; [|apply in_zrange; lia]. intros j Hj. apply in_zrange in Hj. auto.
Qed.
