(** The elimination of S_EnsDyn inverts every regular matrix of real numbers, so the example instance meets the contract (the
    proofs of P_OIInv for real numbers). *)
From Coq Require Import Lra.
From Verif Require Import Base QcTac ListLib RBase P_RBase M_Geo S_Geo M_OI S_OI S_EnsMulti S_Ensi M_EnsDyn S_EnsDyn P_OISum P_OIInv P_RSum.
Local Open Scope Z_scope.

Lemma rpivot_some j vs a p b : rpivot j vs = Some (a, p, b) -> vs = a ++ p :: b /\ rat_ p j <> 0%R.
Proof.
  revert a p b. induction vs as [|v vs IH]; intros a p b H; cbn in H; [discriminate|].
  destruct (Req_EM_T (rat_ v j) 0) as [E|E].
  - destruct (rpivot j vs) as [[[a' p'] b']|]; [|discriminate]. injection H as <- <- <-. destruct (IH _ _ _ eq_refl) as [-> HH]. auto.
  - injection H as <- <- <-. auto.
Qed.
Lemma rpivot_none j vs : rpivot j vs = None -> forall v, In v vs -> rat_ v j = 0%R.
Proof.
  induction vs as [|v vs IH]; intros H w Hw; [destruct Hw|]. cbn in H. destruct (Req_EM_T (rat_ v j) 0) as [E|E]; [|discriminate].
  destruct (rpivot j vs) as [[[a' p'] b']|]; [discriminate|]. destruct Hw as [<- |Hw]; auto.
Qed.
Lemma rcomb_app c1 c2 x1 x2 : length c1 = length x1 -> rcomb (c1 ++ c2) (x1 ++ x2) = (rcomb c1 x1 + rcomb c2 x2)%R.
Proof.
  revert x1. induction c1 as [|c c1 IH]; intros [|x x1] H; cbn [length] in H; try lia; cbn [app rcomb]; [ring|]. rewrite IH by lia. ring.
Qed.
Lemma rcomb_zero cs xs : (forall x, In x xs -> x = 0%R) -> rcomb cs xs = 0%R.
Proof.
  revert xs. induction cs as [|c cs IH]; intros [|x xs] H; cbn [rcomb]; try reflexivity.
  rewrite (H x) by (left; reflexivity). rewrite IH by (intros; apply H; right; assumption). ring.
Qed.
Lemma rcomb_sub cs (f g : list R -> R) (vs : list (list R)) : rcomb cs (map (fun v => f v - g v)%R vs) = (rcomb cs (map f vs) - rcomb cs (map g vs))%R.
Proof. revert cs. induction vs as [|v vs IH]; intros [|c cs]; cbn [rcomb map]; try ring. rewrite IH. ring. Qed.
Lemma rcomb_mul cs (f : list R -> R) (vs : list (list R)) c : rcomb cs (map (fun v => f v * c)%R vs) = (rcomb cs (map f vs) * c)%R.
Proof. revert cs. induction vs as [|v vs IH]; intros [|c' cs]; cbn [rcomb map]; try ring. rewrite IH. ring. Qed.
Lemma rdepend_length n vs : length (rdepend n vs) = length vs.
Proof.
  revert vs. induction n as [|j IH]; intros vs; cbn [rdepend].
  - rewrite map_length, seq_length. reflexivity.
  - destruct (rpivot j vs) as [[[a p] b]|] eqn:E; [|apply IH]. apply rpivot_some in E as [-> _].
    set (cs := rdepend j _). assert (L : length cs = length (a ++ b)) by (unfold cs; rewrite IH, map_length; reflexivity).
    rewrite app_length in L. rewrite !app_length. cbn [length]. rewrite firstn_length, skipn_length. lia.
Qed.
Lemma rat_seq (f : nat -> R) n i : (i < n)%nat -> rat_ (map f (seq 0 n)) i = f i.
Proof.
  intros H. unfold rat_. rewrite (nth_indep _ 0%R (f 0%nat)) by (rewrite map_length, seq_length; exact H).
  rewrite map_nth, seq_nth by exact H. reflexivity.
Qed.
Lemma rdepend_ok n vs : (n < length vs)%nat ->
  (exists c, In c (rdepend n vs) /\ c <> 0%R) /\ forall i, (i < n)%nat -> rcomb (rdepend n vs) (map (fun v => rat_ v i) vs) = 0%R.
Proof.
  revert vs. induction n as [|j IH]; intros vs H; cbn [rdepend].
  - split; [|intros; lia]. exists 1%R. split; [|exact R1_neq_R0]. apply in_map_iff. exists 0%nat. split; [reflexivity|]. apply in_seq. lia.
  - destruct (rpivot j vs) as [[[a p] b]|] eqn:E.
    + apply rpivot_some in E as [-> Hp]. rewrite app_length in H. cbn [length] in H.
      destruct (IH (map (relim j p) (a ++ b))) as [(c & Hc & Nc) HZ]; [rewrite map_length, app_length; lia|].
      set (cs := rdepend j (map (relim j p) (a ++ b))) in *.
      assert (Lc : length cs = length (a ++ b)) by (unfold cs; rewrite rdepend_length, map_length; reflexivity). rewrite app_length in Lc.
      set (f := fun v => (rat_ v j / rat_ p j)%R). split.
      * exists c. split; [|exact Nc]. rewrite <- (firstn_skipn (length a) cs) in Hc. apply in_app_or in Hc as [Hc|Hc]; apply in_or_app; cbn; auto.
      * intros i Hi.
        assert (Split : forall g : list R -> R, rcomb cs (map g (a ++ b)) =
            (rcomb (firstn (length a) cs) (map g a) + rcomb (skipn (length a) cs) (map g b))%R).
        { intros g. rewrite map_app. transitivity (rcomb (firstn (length a) cs ++ skipn (length a) cs) (map g a ++ map g b)); [rewrite firstn_skipn; reflexivity|].
          apply rcomb_app. rewrite firstn_length, map_length. lia. }
        rewrite (map_app (fun v => rat_ v i) a (p :: b)). cbn [map]. rewrite rcomb_app by (rewrite firstn_length, map_length; lia). cbn [rcomb].
        fold f. specialize (Split (fun v => rat_ v i)) as Si.
        assert (T : rcomb cs (map (fun v => rat_ v i) (a ++ b)) = (rcomb cs (map f (a ++ b)) * rat_ p i)%R).
        { destruct (Nat.eq_dec i j) as [-> |Nij].
          - rewrite <- rcomb_mul. f_equal. apply map_ext. intros v. unfold f. field. exact Hp.
          - rewrite <- rcomb_mul. specialize (HZ i ltac:(lia)). rewrite map_map in HZ.
            rewrite (map_ext _ (fun v => rat_ v i - f v * rat_ p i)%R) in HZ.
            2:{ intros v. unfold relim. rewrite rat_seq by lia. reflexivity. }
            rewrite rcomb_sub in HZ. lra. }
        rewrite T in Si.
        replace (rcomb (firstn (length a) cs) (map (fun v => rat_ v i) a) + (- rcomb cs (map f (a ++ b)) * rat_ p i + rcomb (skipn (length a) cs) (map (fun v => rat_ v i) b)))%R
          with ((rcomb (firstn (length a) cs) (map (fun v => rat_ v i) a) + rcomb (skipn (length a) cs) (map (fun v => rat_ v i) b)) - rcomb cs (map f (a ++ b)) * rat_ p i)%R by ring.
        rewrite <- Si. ring.
    + destruct (IH vs ltac:(lia)) as [H1 H2]. split; [exact H1|]. intros i Hi. destruct (Nat.eq_dec i j) as [-> |Nij]; [|apply H2; lia].
      apply rcomb_zero. intros x Hx. apply in_map_iff in Hx as (v & <- & Hv). eapply rpivot_none; eauto.
Qed.
(** *** from lists to sums *)
Lemma rcomb_tot cs xs : length cs = length xs ->
  rcomb cs xs = rtot (zrange 0 (zlen xs)) (fun k => rat_ cs (Z.to_nat k) * rat_ xs (Z.to_nat k))%R.
Proof.
  revert xs. induction cs as [|c cs IH]; intros [|x xs] H; cbn [length] in H; try lia; [reflexivity|]. cbn [rcomb].
  pose proof (zlen_nonneg xs). rewrite zlen_cons. rewrite zrange_cons by lia. rewrite rtot_cons. cbn [Z.to_nat rat_ nth]. f_equal.
  rewrite IH by lia. unfold rtot. f_equal. rewrite (zrange_shift 0 (zlen xs) 1), map_map. apply map_ext_in. intros k Hk. apply in_zrange in Hk.
  replace (Z.to_nat (k + 1)) with (S (Z.to_nat k)) by lia. reflexivity.
Qed.
Definition rrow_of (A : Z -> Z -> R) (n : Z) (i : Z) : list R := map (A i) (zrange 0 n).
Lemma rat_znth (l : list R) k q : znth l k = Ok q -> rat_ l (Z.to_nat k) = q.
Proof. intros H. apply znth_Ok in H as [_ H]. apply nth_error_nth. exact H. Qed.
(** the kernel/inverse dichotomy for the rows *)
Section Inv.
Variables (n : Z) (Q : list (list R)) (A : Z -> Z -> R).
Hypothesis Hn : 0 < n.
Hypothesis HQ : zlen Q = n.
Hypothesis HA : forall i j, 0 <= i < n -> 0 <= j < n -> exists row, znth Q i = Ok row /\ rat_ row (Z.to_nat j) = A i j.
Lemma rcol j : 0 <= j < n -> map (fun v => rat_ v (Z.to_nat j)) Q = map (fun i => A i j) (zrange 0 n).
Proof.
  intros Hj. apply znth_ext; [rewrite !zlen_map, zlen_zrange; lia|]. intros i Hi. rewrite zlen_map in Hi.
  rewrite !znth_map, znth_zrange by lia. destruct (HA i j ltac:(lia) Hj) as (row & -> & E). cbn [bind]. rewrite E. reflexivity.
Qed.
Lemma rtl_at cs k : rat_ (tl cs) k = rat_ cs (S k). Proof. destruct cs; [destruct k|]; reflexivity. Qed.
Lemma rrow_cases i : 0 <= i < n ->
  (exists row, rinv_row (Z.to_nat n) Q (Z.to_nat i) = Ok (map RF row) /\ zlen row = n /\
     forall j, 0 <= j < n -> rtot (zrange 0 n) (fun k => rat_ row (Z.to_nat k) * A k j)%R = runit i j) \/
  (rinv_row (Z.to_nat n) Q (Z.to_nat i) = Throw RuntimeError /\
     exists x : Z -> R, (exists i, 0 <= i < n /\ x i <> 0%R) /\ forall j, 0 <= j < n -> rtot (zrange 0 n) (fun i => x i * A i j)%R = 0%R).
Proof.
  intros Hi. unfold rinv_row. set (e := map _ (seq 0 (Z.to_nat n))). 
  assert (Lv : length (e :: Q) = S (Z.to_nat n)) by (cbn [length]; unfold zlen in HQ; lia).
  destruct (rdepend_ok (Z.to_nat n) (e :: Q) ltac:(lia)) as [(c & Hc & Nc) HZ]. pose proof (rdepend_length (Z.to_nat n) (e :: Q)) as Ld.
  set (cs := rdepend (Z.to_nat n) (e :: Q)) in *. clearbody cs. destruct cs as [|c0 cs]; [cbn in Ld; lia|]. cbn [length] in Ld, Lv.
  assert (Ln : length cs = Z.to_nat n) by lia.
  assert (Eq : forall j, 0 <= j < n -> (c0 * runit i j + rtot (zrange 0 n) (fun k => rat_ cs (Z.to_nat k) * A k j) = 0)%R).
  { intros j Hj. specialize (HZ (Z.to_nat j) ltac:(lia)). cbn [map rcomb] in HZ. rewrite (rcol j Hj) in HZ.
    rewrite rcomb_tot in HZ by (rewrite map_length; unfold zrange; rewrite map_length, seq_length; lia).
    rewrite zlen_map, zlen_zrange in HZ. replace (Z.max 0 (n - 0)) with n in HZ by lia.
    rewrite <- HZ. f_equal.
    - f_equal. unfold e. rewrite rat_seq by lia. unfold runit. destruct (Z.eqb_spec i j) as [-> |Nij]; [rewrite Nat.eqb_refl; reflexivity|].
      destruct (Nat.eqb_spec (Z.to_nat i) (Z.to_nat j)); [lia|reflexivity].
    - apply rtot_ext. intros k Hk. apply in_zrange in Hk. f_equal. symmetry. apply rat_znth. rewrite znth_map, znth_zrange by lia. reflexivity. }
  replace (rat_ (c0 :: cs) 0) with c0 by reflexivity. cbn [tl]. destruct (Req_EM_T c0 0) as [E|E].
  - right. split; [reflexivity|]. exists (fun k => rat_ cs (Z.to_nat k)). split.
    + destruct Hc as [<- |Hc]; [contradiction|]. apply In_znth in Hc as [k Hk]. exists k. pose proof (znth_range _ _ _ Hk) as R. unfold zlen in R. split; [lia|].
      rewrite (rat_znth _ _ _ Hk). exact Nc.
    + intros j Hj. rewrite <- (Eq j Hj). rewrite E. ring.
  - left. exists (map (fun x => - x / c0)%R cs). split; [rewrite map_map; reflexivity|]. split; [rewrite zlen_map; unfold zlen; lia|].
    intros j Hj. specialize (Eq j Hj).
    rewrite (rtot_ext _ _ (fun k => (rat_ cs (Z.to_nat k) * A k j) * (- / c0))%R).
    2:{ intros k Hk. apply in_zrange in Hk. destruct (znth_some cs k) as [q Hq]; [unfold zlen; lia|].
        rewrite (rat_znth (map _ cs) k (- q / c0)%R) by (rewrite znth_map, Hq; reflexivity). rewrite (rat_znth _ _ _ Hq). field. exact E. }
    rewrite rtot_mul_r. replace (rtot (zrange 0 n) (fun k => rat_ cs (Z.to_nat k) * A k j)%R) with (- (c0 * runit i j))%R.
    2:{ rewrite <- (Rplus_0_l (- (c0 * runit i j))), <- Eq. ring. }
    field. exact E.
Qed.
(** a left inverse is a right inverse *)
End Inv.
Lemma rleft_right n A B : 0 < n ->
  (forall i j, 0 <= i < n -> 0 <= j < n -> rtot (zrange 0 n) (fun k => B i k * A k j)%R = runit i j) ->
  forall i j, 0 <= i < n -> 0 <= j < n -> rtot (zrange 0 n) (fun k => A i k * B k j)%R = runit i j.
Proof.
  intros Hn HB.
  set (Q := map (fun i => rrow_of B n i) (zrange 0 n)).
  assert (HQ : zlen Q = n) by (unfold Q; rewrite zlen_map, zlen_zrange; lia).
  assert (HA : forall i j, 0 <= i < n -> 0 <= j < n -> exists row, znth Q i = Ok row /\ rat_ row (Z.to_nat j) = B i j).
  { intros i j Hi Hj. exists (rrow_of B n i). unfold Q. rewrite znth_map, znth_zrange by lia. split; [reflexivity|].
    apply rat_znth. unfold rrow_of. rewrite znth_map, znth_zrange by lia. reflexivity. }
  assert (ND : NoDup (zrange 0 n)) by apply NoDup_zrange.
  assert (Un : forall i j, runit i j = runit j i) by (intros; unfold runit; rewrite Z.eqb_sym; reflexivity).
  intros i j Hi Hj. destruct (rrow_cases n Q B Hn HQ HA i Hi) as [(row & _ & _ & HC)|(_ & x & (m & Hm & Nx) & HK)].
  - set (C := fun k => rat_ row (Z.to_nat k)).
    assert (EC : forall k, 0 <= k < n -> C k = A i k).
    { intros k Hk.
      transitivity (rtot (zrange 0 n) (fun l => C l * runit l k)%R); [symmetry; apply rtot_delta; [exact ND|apply in_zrange; lia]|].
      transitivity (rtot (zrange 0 n) (fun l => C l * rtot (zrange 0 n) (fun m => B l m * A m k))%R).
      { apply rtot_ext. intros l Hl. apply in_zrange in Hl. rewrite HB by lia. reflexivity. }
      transitivity (rtot (zrange 0 n) (fun l => rtot (zrange 0 n) (fun m => C l * (B l m * A m k)))%R).
      { apply rtot_ext. intros l Hl. symmetry. apply rtot_mul_l. }
      rewrite rtot_swap.
      transitivity (rtot (zrange 0 n) (fun m => A m k * runit m i)%R); [|apply (rtot_delta _ (fun m => A m k)); [exact ND|apply in_zrange; lia]].
      apply rtot_ext. intros m Hm. apply in_zrange in Hm. rewrite (Un m i). rewrite <- (HC m) by lia. rewrite <- rtot_mul_l. apply rtot_ext. intros l _. unfold C. ring. }
    rewrite <- (HC j Hj). apply rtot_ext. intros k Hk. apply in_zrange in Hk. rewrite <- EC by lia. reflexivity.
  - exfalso. apply Nx.
    transitivity (rtot (zrange 0 n) (fun l => x l * runit l m)%R); [symmetry; apply rtot_delta; [exact ND|apply in_zrange; lia]|].
    transitivity (rtot (zrange 0 n) (fun l => rtot (zrange 0 n) (fun k => x l * (B l k * A k m)))%R).
    { apply rtot_ext. intros l Hl. apply in_zrange in Hl. rewrite <- HB by lia. symmetry. apply rtot_mul_l. }
    rewrite rtot_swap. apply rtot_zero. intros k Hk. apply in_zrange in Hk.
    transitivity (rtot (zrange 0 n) (fun l => (x l * B l k) * A k m)%R); [apply rtot_ext; intros; ring|]. rewrite rtot_mul_r, HK by lia. ring.
Qed.
Definition rqs_of (M : list (list rv)) : list (list R) := map (map (fun v => match v with RF q => q | _ => 0%R end)) M.
Definition rmat (Q : list (list R)) (i j : Z) : R := match znth Q i with Ok row => rat_ row (Z.to_nat j) | _ => 0%R end.
Lemma rinv0_cases n M : 0 < n -> rect n n M ->
  (exists N B, rinv0 M = Ok N /\ rentries n N B /\
     (forall i j, 0 <= i < n -> 0 <= j < n -> rtot (zrange 0 n) (fun k => B i k * rmat (rqs_of M) k j)%R = runit i j)) \/
  (rinv0 M = Throw RuntimeError /\
     exists x : Z -> R, (exists i, 0 <= i < n /\ x i <> 0%R) /\ forall j, 0 <= j < n -> rtot (zrange 0 n) (fun i => x i * rmat (rqs_of M) i j)%R = 0%R).
Proof.
  intros Hn [Hr Hc]. set (Q := rqs_of M). set (A := rmat Q).
  assert (HQ : zlen Q = n) by (unfold Q, rqs_of; rewrite zlen_map; exact Hr).
  assert (HA : forall i j, 0 <= i < n -> 0 <= j < n -> exists row, znth Q i = Ok row /\ rat_ row (Z.to_nat j) = A i j).
  { intros i j Hi Hj. destruct (znth_some Q i ltac:(lia)) as [row Er]. exists row. split; [exact Er|]. unfold A, rmat. rewrite Er. reflexivity. }
  assert (EN : length M = Z.to_nat n) by (unfold zlen in Hr; lia).
  unfold rinv0. fold (rqs_of M). fold Q. rewrite EN.
  assert (Nat_i : forall i, In i (seq 0 (Z.to_nat n)) -> exists z, i = Z.to_nat z /\ 0 <= z < n) by (intros i Hi; apply in_seq in Hi; exists (Z.of_nat i); lia).
  destruct (mapM_cases (rinv_row (Z.to_nat n) Q) (fun _ => True) (seq 0 (Z.to_nat n)) RuntimeError) as [[N EN']|[ET (i & Hi & Ei)]].
  { intros i Hi. destruct (Nat_i i Hi) as (z & -> & Hz). destruct (rrow_cases n Q A Hn HQ HA z Hz) as [(row & E & _)|[E _]]; eauto. }
  - left. assert (LN : zlen N = n) by (apply mapM_inv in EN' as [EN' _]; unfold zlen in *; rewrite seq_length in EN'; lia).
    assert (HN : forall i r, znth N i = Ok r -> exists row, r = map RF row /\ zlen row = n /\
              forall j, 0 <= j < n -> rtot (zrange 0 n) (fun k => rat_ row (Z.to_nat k) * A k j)%R = runit i j).
    { intros i r Er. pose proof (znth_range _ _ _ Er) as Ri. 
      assert (Ei : znth (seq 0 (Z.to_nat n)) i = Ok (Z.to_nat i)).
      { unfold znth. destruct (Z.ltb_spec i 0); [lia|]. rewrite nth_error_seq by lia. reflexivity. }
      destruct (proj2 (mapM_inv _ _ _ EN') i _ Ei) as (r' & Er' & E).
      destruct (rrow_cases n Q A Hn HQ HA i ltac:(lia)) as [(row & E' & Lr & HC)|[E' _]]; [|congruence].
      exists row. split; [congruence|]. auto. }
    exists N, (fun i j => match znth N i with Ok r => match znth r j with Ok (RF q) => q | _ => 0%R end | _ => 0%R end). split; [exact EN'|]. split.
    + split; [split; [exact LN|]|].
      * intros r Hr'. apply In_znth in Hr' as [i Hi]. destruct (HN i r Hi) as (row & -> & Lr & _). rewrite zlen_map. exact Lr.
      * intros i j Hi Hj. destruct (znth_some N i ltac:(lia)) as [r Er]. destruct (HN i r Er) as (row & -> & Lr & _).
        unfold get2. rewrite Er. cbn [bind]. rewrite znth_map. destruct (znth_some row j ltac:(lia)) as [q ->]. reflexivity.
    + intros i j Hi Hj. destruct (znth_some N i ltac:(lia)) as [r Er]. destruct (HN i r Er) as (row & -> & Lr & HC). rewrite <- (HC j Hj).
      rewrite Er. apply rtot_ext. intros k Hk. apply in_zrange in Hk. rewrite znth_map. destruct (znth_some row k ltac:(lia)) as [q Eq]. rewrite Eq. cbn [bind].
      rewrite (rat_znth _ _ _ Eq). reflexivity.
  - right. split; [exact ET|]. destruct (Nat_i i Hi) as (z & -> & Hz). destruct (rrow_cases n Q A Hn HQ HA z Hz) as [(row & E & _)|[_ HK]]; [congruence|exact HK].
Qed.

Lemma rentries_mat n M A : rentries n M A -> forall i j, 0 <= i < n -> 0 <= j < n -> rmat (rqs_of M) i j = A i j.
Proof.
  intros [[Hr Hc] HE] i j Hi Hj. specialize (HE i j Hi Hj). unfold get2 in HE. unfold rmat, rqs_of. rewrite znth_map.
  destruct (znth M i) as [row| | |]; try discriminate. cbn [bind] in *. apply rat_znth. rewrite znth_map, HE. reflexivity.
Qed.
Lemma rlib_ok_RL0 : rlib_ok RL0.
Proof.
  constructor.
  - intros n M A N Hn HE E. cbn in E. destruct (rinv0_cases n M Hn (proj1 HE)) as [(N' & B & E' & HB & HL)|[E' _]]; rewrite E in E'; [|discriminate].
    injection E' as <-. assert (HL' : forall i j, 0 <= i < n -> 0 <= j < n -> rtot (zrange 0 n) (fun k => B i k * A k j)%R = runit i j).
    { intros i j Hi Hj. rewrite <- (HL i j Hi Hj). apply rtot_ext. intros k Hk. apply in_zrange in Hk. rewrite (rentries_mat n M A HE) by lia. reflexivity. }
    exists B. split; [exact HB|]. split; [exact HL'|]. apply (rleft_right n A B Hn HL').
  - intros n M A e Hn HE E. cbn in E. destruct (rinv0_cases n M Hn (proj1 HE)) as [(N' & B & E' & HB & HL)|[_ (x & Hx & HK)]]; [congruence|].
    exists x. split; [exact Hx|]. intros j Hj. rewrite <- (HK j Hj). apply rtot_ext. intros k Hk. apply in_zrange in Hk. rewrite (rentries_mat n M A HE) by lia. reflexivity.
  - intros n M Hn HR. cbn. destruct (rinv0_cases n M Hn HR) as [(N' & B & E' & HB & HL)|[E _]]; [left|right; exact E]. exists N'. split; [exact E'|]. exact (proj1 HB).
Qed.
