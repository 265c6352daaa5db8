(** Finite sums, linear systems and the example instance of the external code. *)
From Coq Require Import Permutation.
From Verif Require Import Base QcTac ListLib M_Geo S_Geo S_Near M_OI S_OI.
Local Open Scope Z_scope.

Lemma tot_ext U f g : (forall k, In k U -> f k = g k) -> tot U f = tot U g.
Proof. intros H. unfold tot. rewrite (map_ext_in _ _ _ H). reflexivity. Qed.
Lemma tot_cons k U f : tot (k :: U) f = (f k + tot U f)%Qc. Proof. reflexivity. Qed.
Lemma tot_app U V f : tot (U ++ V) f = (tot U f + tot V f)%Qc.
Proof. induction U as [|k U IH]; cbn [app]; [unfold tot at 2; cbn [map fold_right]; ring|]. rewrite !tot_cons, IH. ring. Qed.
Lemma tot_add U f g : tot U (fun k => f k + g k)%Qc = (tot U f + tot U g)%Qc.
Proof. induction U as [|k U IH]; [unfold tot; cbn [map fold_right]; ring|]. rewrite !tot_cons, IH. ring. Qed.
Lemma tot_sub U f g : tot U (fun k => f k - g k)%Qc = (tot U f - tot U g)%Qc.
Proof. induction U as [|k U IH]; [unfold tot; cbn [map fold_right]; ring|]. rewrite !tot_cons, IH. ring. Qed.
Lemma tot_mul_r U f c : tot U (fun k => f k * c)%Qc = (tot U f * c)%Qc.
Proof. induction U as [|k U IH]; [unfold tot; cbn [map fold_right]; ring|]. rewrite !tot_cons, IH. ring. Qed.
Lemma tot_mul_l U f c : tot U (fun k => c * f k)%Qc = (c * tot U f)%Qc.
Proof. induction U as [|k U IH]; [unfold tot; cbn [map fold_right]; ring|]. rewrite !tot_cons, IH. ring. Qed.
Lemma tot_zero U f : (forall k, In k U -> f k = 0%Qc) -> tot U f = 0%Qc.
Proof. induction U as [|k U IH]; intros H; [reflexivity|]. rewrite tot_cons, (H k) by (left; reflexivity). rewrite IH by (intros; apply H; right; assumption). ring. Qed.
Lemma tot_swap U V f : tot U (fun i => tot V (fun j => f i j)) = tot V (fun j => tot U (fun i => f i j)).
Proof.
  induction U as [|k U IH]; [symmetry; apply tot_zero; reflexivity|].
  rewrite tot_cons, IH, <- tot_add. apply tot_ext. intros j _. rewrite tot_cons. reflexivity.
Qed.
Lemma tot_perm U V f : Permutation U V -> tot U f = tot V f.
Proof. induction 1; rewrite ?tot_cons; [reflexivity|congruence|ring|congruence]. Qed.
Lemma tot_nonneg U f : (forall k, In k U -> (0 <= f k)%Qc) -> (0 <= tot U f)%Qc.
Proof.
  induction U as [|k U IH]; intros H; [unfold tot; cbn; qlra|]. rewrite tot_cons.
  pose proof (H k (or_introl eq_refl)). pose proof (IH (fun j Hj => H j (or_intror Hj))).
  generalize (tot U f) H1. intros x Hx. generalize (f k) H0. intros. qlra.
Qed.
Lemma tot_delta U f j : NoDup U -> In j U -> tot U (fun i => f i * unit_ i j)%Qc = f j.
Proof.
  induction U as [|k U IH]; intros ND Hj; [destruct Hj|]. inversion ND as [|? ? Hn ND']; subst. rewrite tot_cons.
  unfold unit_ at 1. destruct Hj as [-> | Hj].
  - rewrite Z.eqb_refl, (tot_zero U). { ring. }
    intros i Hi. unfold unit_. destruct (Z.eqb_spec i j); [subst; contradiction|ring].
  - destruct (Z.eqb_spec k j); [subst; contradiction|]. rewrite IH by assumption. ring.
Qed.
Lemma tot_pick U f j c : NoDup U -> In j U -> tot U (fun k => f k + (if k =? j then c k else 0))%Qc = (tot U f + c j)%Qc.
Proof.
  intros ND Hj. rewrite tot_add. f_equal. rewrite <- (tot_delta U c j ND Hj). apply tot_ext. intros k _. unfold unit_.
  destruct (k =? j); ring.
Qed.

(** *** indices of a list of observations *)
Definition ix (U : list Z) (i : Z) : Z := nth (Z.to_nat i) U 0.
Lemma ix_ok U i : 0 <= i < zlen U -> znth U i = Ok (ix U i).
Proof.
  intros H. destruct (znth_some U i H) as [k Hk]. rewrite Hk. apply znth_Ok in Hk as [H0 Hk]. unfold ix.
  f_equal. symmetry. apply nth_error_nth. exact Hk.
Qed.
Lemma map_ix {A} (f : Z -> A) U : map f U = map (fun i => f (ix U i)) (zrange 0 (zlen U)).
Proof.
  apply znth_ext. 
  - rewrite !zlen_map, zlen_zrange. pose proof (zlen_nonneg U). lia.
  - intros i Hi. rewrite zlen_map in Hi. rewrite !znth_map, znth_zrange by lia. cbn. rewrite (ix_ok U i Hi). reflexivity.
Qed.
Lemma tot_ix U f : tot U f = tot (zrange 0 (zlen U)) (fun i => f (ix U i)).
Proof. unfold tot. rewrite (map_ix f U). reflexivity. Qed.
Lemma ix_inj U i j : NoDup U -> 0 <= i < zlen U -> 0 <= j < zlen U -> ix U i = ix U j -> i = j.
Proof.
  intros ND Hi Hj E. unfold ix in E. unfold zlen in *. rewrite (NoDup_nth U 0) in ND.
  specialize (ND (Z.to_nat i) (Z.to_nat j) ltac:(lia) ltac:(lia) E). lia.
Qed.
Lemma ix_In U i : 0 <= i < zlen U -> In (ix U i) U.
Proof. intros H. eapply znth_In. apply ix_ok; exact H. Qed.
Lemma In_ix U k : In k U -> exists i, 0 <= i < zlen U /\ ix U i = k.
Proof.
  intros H. apply In_znth in H as [i Hi]. exists i. pose proof (znth_range _ _ _ Hi) as R. split; [exact R|].
  rewrite (ix_ok U i R) in Hi. injection Hi as E. exact E.
Qed.
(** a function of the position becomes a function of the observation *)
Lemma by_obs U (x : Z -> Qc) : NoDup U -> exists w, forall i, 0 <= i < zlen U -> w (ix U i) = x i.
Proof.
  intros ND. exists (fun k => tot (zrange 0 (zlen U)) (fun i => if k =? ix U i then x i else 0%Qc)).
  intros i Hi. rewrite <- (tot_delta (zrange 0 (zlen U)) x i (NoDup_zrange _ _) (proj2 (in_zrange _ _ _) Hi)).
  apply tot_ext. intros j Hj. apply in_zrange in Hj. unfold unit_.
  destruct (Z.eqb_spec (ix U i) (ix U j)) as [E|E]; destruct (Z.eqb_spec j i) as [E'|E']; try ring.
  - exfalso. apply E'. symmetry. eapply ix_inj; eauto.
  - subst. congruence.
Qed.

(** *** the solution given by the inverse is the only one *)
Section Solve.
Variables (n : Z) (A B : Z -> Z -> Qc) (g : Z -> Qc).
Hypothesis HL : forall i j, 0 <= i < n -> 0 <= j < n -> tot (zrange 0 n) (fun k => B i k * A k j)%Qc = unit_ i j.
Hypothesis HR : forall i j, 0 <= i < n -> 0 <= j < n -> tot (zrange 0 n) (fun k => A i k * B k j)%Qc = unit_ i j.
Definition xsol (j : Z) : Qc := tot (zrange 0 n) (fun i => g i * B i j)%Qc.
Lemma xsol_solves l : 0 <= l < n -> tot (zrange 0 n) (fun j => xsol j * A j l)%Qc = g l.
Proof.
  intros Hl. unfold xsol.
  rewrite (tot_ext _ _ (fun j => tot (zrange 0 n) (fun i => g i * (B i j * A j l))%Qc)).
  2:{ intros j _. rewrite <- tot_mul_r. apply tot_ext. intros. ring. }
  rewrite tot_swap. rewrite (tot_ext _ _ (fun i => g i * unit_ i l)%Qc).
  2:{ intros i Hi. apply in_zrange in Hi. rewrite tot_mul_l, HL by assumption. reflexivity. }
  apply tot_delta; [apply NoDup_zrange|apply in_zrange; exact Hl].
Qed.
Lemma xsol_unique x : (forall l, 0 <= l < n -> tot (zrange 0 n) (fun j => x j * A j l)%Qc = g l) ->
  forall i, 0 <= i < n -> x i = xsol i.
Proof.
  intros H i Hi. unfold xsol.
  rewrite (tot_ext _ _ (fun l => tot (zrange 0 n) (fun j => x j * (A j l * B l i))%Qc)).
  2:{ intros l Hl. apply in_zrange in Hl. rewrite <- (H l Hl), <- tot_mul_r. apply tot_ext. intros. ring. }
  rewrite tot_swap. rewrite (tot_ext _ _ (fun j => x j * unit_ j i)%Qc).
  2:{ intros j Hj. apply in_zrange in Hj. rewrite tot_mul_l, HR by assumption. reflexivity. }
  symmetry. apply tot_delta; [apply NoDup_zrange|apply in_zrange; exact Hi].
Qed.
End Solve.

(** *** the instance L0 meets the contract *)
Lemma ins0_perm e l : Permutation (ins0 e l) (e :: l).
Proof.
  induction l as [|x r IH]; [reflexivity|]. cbn. destruct (vltb _ _); [|reflexivity].
  rewrite IH. apply perm_swap.
Qed.
Lemma sort0_perm l : Permutation (fold_right ins0 [] l) l.
Proof. induction l as [|e l IH]; [reflexivity|]. cbn. rewrite ins0_perm, IH. reflexivity. Qed.
Lemma vleb_total a b : a <> NaN -> b <> NaN -> vltb a b = false -> vleb b a = true.
Proof.
  destruct a, b; unfold vleb; cbn; intros Ha Hb H; try congruence; auto. 
  destruct (qltb_spec q q0); [discriminate|]. destruct (qltb_spec q0 q); [reflexivity|]. cbn.
  destruct (qeqb_spec q0 q) as [|E]; [reflexivity|]. exfalso. apply E. apply Qcle_antisym; qlra.
Qed.
Lemma vleb_trans a b c : vleb a b = true -> vleb b c = true -> vleb a c = true.
Proof.
  destruct a, b, c; unfold vleb; cbn; intros H K; try congruence; auto.
  destruct (qltb_spec q q1); [reflexivity|]. cbn. destruct (qeqb_spec q q1) as [|E]; [reflexivity|]. exfalso. apply E.
  destruct (qltb_spec q q0), (qltb_spec q0 q1), (qeqb_spec q q0), (qeqb_spec q0 q1); cbn in *; try discriminate; subst; try congruence; try (apply Qcle_antisym; qlra).
Qed.
Definition le1 (a b : val * Z) : Prop := vleb (fst a) (fst b) = true.
Lemma ins0_sorted e l : fst e <> NaN -> (forall x, In x l -> fst x <> NaN) -> Sorted.StronglySorted le1 l -> Sorted.StronglySorted le1 (ins0 e l).
Proof.
  intros He. induction l as [|x r IH]; intros Hl S; cbn.
  - constructor; constructor.
  - inversion S as [|? ? S' F]; subst. destruct (vltb (fst x) (fst e)) eqn:E.
    + constructor; [apply IH; [|assumption]; intros; apply Hl; right; assumption|].
      apply Forall_forall. intros z Hz. apply (Permutation_in _ (ins0_perm e r)) in Hz. destruct Hz as [<- | Hz].
      * unfold le1, vleb. rewrite E. reflexivity.
      * rewrite Forall_forall in F. apply F. exact Hz.
    + constructor; [exact S|]. apply Forall_forall. intros z [<- | Hz].
      * apply vleb_total; auto. apply Hl. left; reflexivity.
      * eapply vleb_trans; [apply vleb_total; [apply Hl; left; reflexivity|exact He|exact E]|]. rewrite Forall_forall in F. apply F. exact Hz.
Qed.
Lemma sort0_sorted l : (forall x, In x l -> fst x <> NaN) -> Sorted.StronglySorted le1 (fold_right ins0 [] l).
Proof.
  induction l as [|e l IH]; intros H; [constructor|]. cbn. apply ins0_sorted.
  - apply H. left; reflexivity.
  - intros x Hx. apply H. right. apply (Permutation_in _ (sort0_perm l)). exact Hx.
  - apply IH. intros. apply H. right. assumption.
Qed.
Lemma ssorted_nth l i j a b : (forall x, In x l -> fst x <> NaN) -> Sorted.StronglySorted le1 l -> 0 <= i -> i <= j ->
  znth l i = Ok a -> znth l j = Ok b -> vleb (fst a) (fst b) = true.
Proof.
  revert i j. induction l as [|x l IH]; intros i j NN S Hi Hj Ha Hb.
  - apply znth_range in Ha. unfold zlen in Ha. cbn [length] in Ha. lia.
  - inversion S as [|? ? S' F]; subst. destruct (Z.eq_dec i 0) as [-> | Hi0].
    + rewrite znth_cons0 in Ha. injection Ha as <-. destruct (Z.eq_dec j 0) as [-> | Hj0].
      * rewrite znth_cons0 in Hb. injection Hb as <-. apply vleb_total; try (apply NN; left; reflexivity).
        destruct (fst x); cbn; auto. destruct (qltb_spec q q); [qlra|reflexivity].
      * rewrite znth_consS in Hb by lia. rewrite Forall_forall in F. apply F. eapply znth_In; eauto.
    + rewrite znth_consS in Ha, Hb by lia. eapply (IH (i - 1) (j - 1)); eauto; try lia. intros; apply NN; right; assumption.
Qed.
Lemma NoDup_app_l {A} (l m : list A) : NoDup (l ++ m) -> NoDup l.
Proof.
  induction l as [|a l IH]; intros H; [constructor|]. cbn in H. inversion H; subst. constructor; [|apply IH; assumption].
  intros Hin. apply H2. apply in_or_app. left. exact Hin.
Qed.
