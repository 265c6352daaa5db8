From Coq Require Import Ascii String Lia.
From Verif Require Import Base ListLib QcTac M_COpt P_COpt M_CUtil S_CUtil P_CUtil M_CCal S_CCal P_CCal M_CDown M_CFile P_CFile M_CNc S_CNc P_CNc P_CNc2.
Local Open Scope Z_scope.

Lemma NoDup_indices count : (forall c, In c count -> 0 <= c) -> NoDup (indices count).
Proof.
  intros P. apply NoDup_nth_error. intros i j Hi E. destruct (nth_error (indices count) i) as [a|] eqn:Ei; [|apply nth_error_None in Ei; lia]. symmetry in E.
  assert (znth (indices count) (Z.of_nat i) = Ok a) as A by (apply znth_Ok; rewrite Nat2Z.id; split; [lia|auto]). assert (znth (indices count) (Z.of_nat j) = Ok a) as B by (apply znth_Ok; rewrite Nat2Z.id; split; [lia|auto]).
  apply at_indices in A; auto. apply at_indices in B; auto. lia.
Qed.
Lemma zlen_elements a b c : 0 <= a -> 0 <= b -> 0 <= c -> zlen (elements a b c) = a * (b * c).
Proof. intros. unfold elements. apply zlen_flat_map; [|auto]. intros. apply zlen_flat_map; [|auto]. intros. rewrite zlen_map, zlen_zrange. lia. Qed.
(** filling the array *)
Lemma fill_array {C} (ix : C -> Z) (g : C -> val) l : forall b, (forall c, In c l -> 0 <= ix c < zlen b) -> (forall c c', In c l -> In c' l -> ix c = ix c' -> g c = g c') ->
  exists b', foldM (fun b c => zset b (ix c) (Some (g c))) b l = Ok b' /\ zlen b' = zlen b /\ (forall c, In c l -> znth b' (ix c) = Ok (Some (g c))) /\ (forall k, (forall c, In c l -> ix c <> k) -> znth b' k = znth b k).
Proof.
  induction l as [|c l IH]; intros b B I; cbn [foldM].
  - exists b. split; [auto|]. split; [auto|]. split; [intros ? []|auto].
  - rewrite zset_Ok by (apply B; left; auto). cbn [bind]. destruct (IH (lset b (Z.to_nat (ix c)) (Some (g c)))) as (b' & E & L & G & O).
    + intros c' Hc. rewrite zlen_lset. apply B. right; auto.
    + intros c1 c2 H1 H2. apply I; right; auto.
    + rewrite zlen_lset in L. exists b'. split; [exact E|]. split; [exact L|]. split.
      * intros c' [<-|Hc]; [|auto].
        assert ((exists c0, In c0 l /\ ix c0 = ix c) \/ (forall c0, In c0 l -> ix c0 <> ix c)) as [(c0 & H0 & E0)|N].
        { clear. induction l as [|a l IH]; [right; intros ? []|]. destruct (Z.eq_dec (ix a) (ix c)); [left; exists a; split; [left; auto|auto]|]. destruct IH as [(c0 & H & E)|H]; [left; exists c0; split; [right; auto|auto]|]. right. intros c0 [<-|H0]; auto. }
        { rewrite <- E0. rewrite G by auto. f_equal. f_equal. apply I; [right; auto|left; auto|auto]. }
        { rewrite O by auto. rewrite znth_lset by (apply B; left; auto). rewrite Z.eqb_refl. reflexivity. }
      * intros k Hk. rewrite O by (intros; apply Hk; right; auto). rewrite znth_lset by (apply B; left; auto). destruct (Z.eqb_spec k (ix c)); [|reflexivity]. exfalso. apply (Hk c); [left; auto|auto].
Qed.
Lemma grow_at ds d n k : znth (grow ds d n) k = match znth ds k with Ok (m, u) => Ok (if k =? d then Z.max m n else m, u) | r => r end.
Proof.
  revert d k. induction ds as [|[m u] ds IH]; intros d k; cbn [grow].
  - destruct (znth [] k) as [[m u]| | |] eqn:E; auto. apply znth_range in E. change (zlen (@nil (Z * bool))) with 0 in E. lia.
  - destruct (Z.eqb_spec d 0) as [->|N].
    + destruct (Z_lt_le_dec k 0); [rewrite !znth_out by lia; reflexivity|]. destruct (Z.eq_dec k 0) as [->|]; [rewrite !znth_cons0; reflexivity|]. rewrite !znth_consS by lia. destruct (znth ds (k - 1)) as [[m' u']| | |]; auto. replace (k =? 0) with false by (symmetry; apply Z.eqb_neq; lia). reflexivity.
    + destruct (Z_lt_le_dec k 0); [rewrite !znth_out by lia; reflexivity|]. destruct (Z.eq_dec k 0) as [->|]; [rewrite !znth_cons0; replace (0 =? d) with false by (symmetry; apply Z.eqb_neq; lia); reflexivity|]. rewrite !znth_consS by lia. rewrite IH. replace (k - 1 =? d - 1) with (k =? d); [reflexivity|]. destruct (Z.eqb_spec k d), (Z.eqb_spec (k - 1) (d - 1)); auto; lia.
Qed.
Lemma plus_minus a : forall i, zlen a = zlen i -> plus a (minus i a) = i.
Proof.
  induction a as [|x a IH]; intros [|y i] H; rewrite ?zlen_cons in H; cbn [minus plus]; [reflexivity|change (zlen (@nil Z)) with 0 in H; pose proof (zlen_nonneg i); lia|change (zlen (@nil Z)) with 0 in H; pose proof (zlen_nonneg a); lia|]. rewrite IH by lia. f_equal. lia.
Qed.
Lemma minus_plus a : forall i, zlen a = zlen i -> minus (plus a i) a = i.
Proof.
  induction a as [|x a IH]; intros [|y i] H; rewrite ?zlen_cons in H; cbn [minus plus]; [reflexivity|change (zlen (@nil Z)) with 0 in H; pose proof (zlen_nonneg i); lia|change (zlen (@nil Z)) with 0 in H; pose proof (zlen_nonneg a); lia|]. rewrite IH by lia. f_equal. lia.
Qed.
Lemma in_slab_fits s : forall c i, in_slab s c i = true <-> (zlen s = zlen i /\ fits_in c (minus i s)).
Proof.
  induction s as [|s ss IH]; intros [|c cs] [|i is]; cbn [in_slab minus]; rewrite ?zlen_cons; change (zlen (@nil Z)) with 0;
    try (split; [discriminate|intros [H1 H2]]; exfalso; first [now inversion H2|pose proof (zlen_nonneg ss); lia|pose proof (zlen_nonneg is); lia]).
  - split; [intros _; split; [reflexivity|constructor]|auto].
  - rewrite !andb_true_iff, IH, Z.leb_le, Z.ltb_lt. split.
    + intros [[H1 H2] [H3 H4]]. split; [lia|]. constructor; [lia|auto].
    + intros [H1 H2]. inversion H2; subst. split; [lia|]. split; [lia|auto].
Qed.
