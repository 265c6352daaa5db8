(** The elimination of S_OI inverts every regular matrix, so the example instance meets the contract. *)
From Coq Require Import Permutation.
From Verif Require Import Base QcTac ListLib M_Geo S_Geo S_Near M_OI S_OI P_OISum.
Local Open Scope Z_scope.

Lemma pivot_some j vs a p b : pivot j vs = Some (a, p, b) -> vs = a ++ p :: b /\ at_ p j <> 0%Qc.
Proof.
  revert a p b. induction vs as [|v vs IH]; intros a p b H; cbn in H; [discriminate|].
  destruct (qeqb_spec (at_ v j) 0) as [E|E].
  - destruct (pivot j vs) as [[[a' p'] b']|]; [|discriminate]. injection H as <- <- <-. destruct (IH _ _ _ eq_refl) as [-> HH]. auto.
  - injection H as <- <- <-. auto.
Qed.
Lemma pivot_none j vs : pivot j vs = None -> forall v, In v vs -> at_ v j = 0%Qc.
Proof.
  induction vs as [|v vs IH]; intros H w Hw; [destruct Hw|]. cbn in H. destruct (qeqb_spec (at_ v j) 0) as [E|E]; [|discriminate].
  destruct (pivot j vs) as [[[a' p'] b']|]; [discriminate|]. destruct Hw as [<- |Hw]; auto.
Qed.
Lemma comb_app c1 c2 x1 x2 : length c1 = length x1 -> comb (c1 ++ c2) (x1 ++ x2) = (comb c1 x1 + comb c2 x2)%Qc.
Proof.
  revert x1. induction c1 as [|c c1 IH]; intros [|x x1] H; cbn [length] in H; try lia; cbn [app comb]; [ring|]. rewrite IH by lia. ring.
Qed.
Lemma comb_zero cs xs : (forall x, In x xs -> x = 0%Qc) -> comb cs xs = 0%Qc.
Proof.
  revert xs. induction cs as [|c cs IH]; intros [|x xs] H; cbn [comb]; try reflexivity.
  rewrite (H x) by (left; reflexivity). rewrite IH by (intros; apply H; right; assumption). ring.
Qed.
Lemma comb_sub cs (f g : list Qc -> Qc) (vs : list (list Qc)) : comb cs (map (fun v => f v - g v)%Qc vs) = (comb cs (map f vs) - comb cs (map g vs))%Qc.
Proof. revert cs. induction vs as [|v vs IH]; intros [|c cs]; cbn [comb map]; try ring. rewrite IH. ring. Qed.
Lemma comb_mul cs (f : list Qc -> Qc) (vs : list (list Qc)) c : comb cs (map (fun v => f v * c)%Qc vs) = (comb cs (map f vs) * c)%Qc.
Proof. revert cs. induction vs as [|v vs IH]; intros [|c' cs]; cbn [comb map]; try ring. rewrite IH. ring. Qed.
Lemma depend_length n vs : length (depend n vs) = length vs.
Proof.
  revert vs. induction n as [|j IH]; intros vs; cbn [depend].
  - rewrite map_length, seq_length. reflexivity.
  - destruct (pivot j vs) as [[[a p] b]|] eqn:E; [|apply IH]. apply pivot_some in E as [-> _].
    set (cs := depend j _). assert (L : length cs = length (a ++ b)) by (unfold cs; rewrite IH, map_length; reflexivity).
    rewrite app_length in L. rewrite !app_length. cbn [length]. rewrite firstn_length, skipn_length. lia.
Qed.
Lemma at_seq (f : nat -> Qc) n i : (i < n)%nat -> at_ (map f (seq 0 n)) i = f i.
Proof.
  intros H. unfold at_. rewrite (nth_indep _ 0%Qc (f 0%nat)) by (rewrite map_length, seq_length; exact H).
  rewrite map_nth, seq_nth by exact H. reflexivity.
Qed.
Lemma depend_ok n vs : (n < length vs)%nat ->
  (exists c, In c (depend n vs) /\ c <> 0%Qc) /\ forall i, (i < n)%nat -> comb (depend n vs) (map (fun v => at_ v i) vs) = 0%Qc.
Proof.
  revert vs. induction n as [|j IH]; intros vs H; cbn [depend].
  - split; [|intros; lia]. exists 1%Qc. split; [|discriminate]. apply in_map_iff. exists 0%nat. split; [reflexivity|]. apply in_seq. lia.
  - destruct (pivot j vs) as [[[a p] b]|] eqn:E.
    + apply pivot_some in E as [-> Hp]. rewrite app_length in H. cbn [length] in H.
      destruct (IH (map (elim j p) (a ++ b))) as [(c & Hc & Nc) HZ]; [rewrite map_length, app_length; lia|].
      set (cs := depend j (map (elim j p) (a ++ b))) in *.
      assert (Lc : length cs = length (a ++ b)) by (unfold cs; rewrite depend_length, map_length; reflexivity). rewrite app_length in Lc.
      set (f := fun v => (at_ v j / at_ p j)%Qc). split.
      * exists c. split; [|exact Nc]. rewrite <- (firstn_skipn (length a) cs) in Hc. apply in_app_or in Hc as [Hc|Hc]; apply in_or_app; cbn; auto.
      * intros i Hi.
        assert (Split : forall g : list Qc -> Qc, comb cs (map g (a ++ b)) =
            (comb (firstn (length a) cs) (map g a) + comb (skipn (length a) cs) (map g b))%Qc).
        { intros g. rewrite map_app. transitivity (comb (firstn (length a) cs ++ skipn (length a) cs) (map g a ++ map g b)); [rewrite firstn_skipn; reflexivity|].
          apply comb_app. rewrite firstn_length, map_length. lia. }
        rewrite (map_app (fun v => at_ v i) a (p :: b)). cbn [map]. rewrite comb_app by (rewrite firstn_length, map_length; lia). cbn [comb].
        fold f. specialize (Split (fun v => at_ v i)) as Si.
        assert (T : comb cs (map (fun v => at_ v i) (a ++ b)) = (comb cs (map f (a ++ b)) * at_ p i)%Qc).
        { destruct (Nat.eq_dec i j) as [-> |Nij].
          - rewrite <- comb_mul. f_equal. apply map_ext. intros v. unfold f. field. exact Hp.
          - rewrite <- comb_mul. specialize (HZ i ltac:(lia)). rewrite map_map in HZ.
            rewrite (map_ext _ (fun v => at_ v i - f v * at_ p i)%Qc) in HZ.
            2:{ intros v. unfold elim. rewrite at_seq by lia. reflexivity. }
            rewrite comb_sub in HZ. generalize dependent (comb cs (map (fun v => at_ v i) (a ++ b))). intros. 
            replace q with (q - comb cs (map (fun v => f v * at_ p i) (a ++ b)) + comb cs (map (fun v => f v * at_ p i) (a ++ b)))%Qc by ring.
            rewrite HZ. ring. }
        rewrite T in Si.
        replace (comb (firstn (length a) cs) (map (fun v => at_ v i) a) + (- comb cs (map f (a ++ b)) * at_ p i + comb (skipn (length a) cs) (map (fun v => at_ v i) b)))%Qc
          with ((comb (firstn (length a) cs) (map (fun v => at_ v i) a) + comb (skipn (length a) cs) (map (fun v => at_ v i) b)) - comb cs (map f (a ++ b)) * at_ p i)%Qc by ring.
        rewrite <- Si. ring.
    + destruct (IH vs ltac:(lia)) as [H1 H2]. split; [exact H1|]. intros i Hi. destruct (Nat.eq_dec i j) as [-> |Nij]; [|apply H2; lia].
      apply comb_zero. intros x Hx. apply in_map_iff in Hx as (v & <- & Hv). eapply pivot_none; eauto.
Qed.
(** *** from lists to sums *)
Lemma comb_tot cs xs : length cs = length xs ->
  comb cs xs = tot (zrange 0 (zlen xs)) (fun k => at_ cs (Z.to_nat k) * at_ xs (Z.to_nat k))%Qc.
Proof.
  revert xs. induction cs as [|c cs IH]; intros [|x xs] H; cbn [length] in H; try lia; [reflexivity|]. cbn [comb].
  pose proof (zlen_nonneg xs). rewrite zlen_cons. rewrite zrange_cons by lia. rewrite tot_cons. cbn [Z.to_nat at_ nth]. f_equal.
  rewrite IH by lia. unfold tot. f_equal. rewrite (zrange_shift 0 (zlen xs) 1), map_map. apply map_ext_in. intros k Hk. apply in_zrange in Hk.
  replace (Z.to_nat (k + 1)) with (S (Z.to_nat k)) by lia. reflexivity.
Qed.
Definition row_of (A : Z -> Z -> Qc) (n : Z) (i : Z) : list Qc := map (A i) (zrange 0 n).
Lemma at_znth (l : list Qc) k q : znth l k = Ok q -> at_ l (Z.to_nat k) = q.
Proof. intros H. apply znth_Ok in H as [_ H]. apply nth_error_nth. exact H. Qed.
(** the kernel/inverse dichotomy for the rows *)
Section Inv.
Variables (n : Z) (Q : list (list Qc)) (A : Z -> Z -> Qc).
Hypothesis Hn : 0 < n.
Hypothesis HQ : zlen Q = n.
Hypothesis HA : forall i j, 0 <= i < n -> 0 <= j < n -> exists row, znth Q i = Ok row /\ at_ row (Z.to_nat j) = A i j.
Lemma col j : 0 <= j < n -> map (fun v => at_ v (Z.to_nat j)) Q = map (fun i => A i j) (zrange 0 n).
Proof.
  intros Hj. apply znth_ext; [rewrite !zlen_map, zlen_zrange; lia|]. intros i Hi. rewrite zlen_map in Hi.
  rewrite !znth_map, znth_zrange by lia. destruct (HA i j ltac:(lia) Hj) as (row & -> & E). cbn [bind]. rewrite E. reflexivity.
Qed.
Lemma tl_at cs k : at_ (tl cs) k = at_ cs (S k). Proof. destruct cs; [destruct k|]; reflexivity. Qed.
Lemma row_cases i : 0 <= i < n ->
  (exists row, inv_row (Z.to_nat n) Q (Z.to_nat i) = Ok (map Fin row) /\ zlen row = n /\
     forall j, 0 <= j < n -> tot (zrange 0 n) (fun k => at_ row (Z.to_nat k) * A k j)%Qc = unit_ i j) \/
  (inv_row (Z.to_nat n) Q (Z.to_nat i) = Throw RuntimeError /\
     exists x : Z -> Qc, (exists i, 0 <= i < n /\ x i <> 0%Qc) /\ forall j, 0 <= j < n -> tot (zrange 0 n) (fun i => x i * A i j)%Qc = 0%Qc).
Proof.
  intros Hi. unfold inv_row. set (e := map _ (seq 0 (Z.to_nat n))). 
  assert (Lv : length (e :: Q) = S (Z.to_nat n)) by (cbn [length]; unfold zlen in HQ; lia).
  destruct (depend_ok (Z.to_nat n) (e :: Q) ltac:(lia)) as [(c & Hc & Nc) HZ]. pose proof (depend_length (Z.to_nat n) (e :: Q)) as Ld.
  set (cs := depend (Z.to_nat n) (e :: Q)) in *. clearbody cs. destruct cs as [|c0 cs]; [cbn in Ld; lia|]. cbn [length] in Ld, Lv.
  assert (Ln : length cs = Z.to_nat n) by lia.
  assert (Eq : forall j, 0 <= j < n -> (c0 * unit_ i j + tot (zrange 0 n) (fun k => at_ cs (Z.to_nat k) * A k j) = 0)%Qc).
  { intros j Hj. specialize (HZ (Z.to_nat j) ltac:(lia)). cbn [map comb] in HZ. rewrite (col j Hj) in HZ.
    rewrite comb_tot in HZ by (rewrite map_length; unfold zrange; rewrite map_length, seq_length; lia).
    rewrite zlen_map, zlen_zrange in HZ. replace (Z.max 0 (n - 0)) with n in HZ by lia.
    rewrite <- HZ. f_equal.
    - f_equal. unfold e. rewrite at_seq by lia. unfold unit_. destruct (Z.eqb_spec i j) as [-> |Nij]; [rewrite Nat.eqb_refl; reflexivity|].
      destruct (Nat.eqb_spec (Z.to_nat i) (Z.to_nat j)); [lia|reflexivity].
    - apply tot_ext. intros k Hk. apply in_zrange in Hk. f_equal. symmetry. apply at_znth. rewrite znth_map, znth_zrange by lia. reflexivity. }
  replace (at_ (c0 :: cs) 0) with c0 by reflexivity. cbn [tl]. destruct (qeqb_spec c0 0) as [E|E].
  - right. split; [reflexivity|]. exists (fun k => at_ cs (Z.to_nat k)). split.
    + destruct Hc as [<- |Hc]; [contradiction|]. apply In_znth in Hc as [k Hk]. exists k. pose proof (znth_range _ _ _ Hk) as R. unfold zlen in R. split; [lia|].
      rewrite (at_znth _ _ _ Hk). exact Nc.
    + intros j Hj. rewrite <- (Eq j Hj). rewrite E. ring.
  - left. exists (map (fun x => - x / c0)%Qc cs). split; [rewrite map_map; reflexivity|]. split; [rewrite zlen_map; unfold zlen; lia|].
    intros j Hj. specialize (Eq j Hj).
    rewrite (tot_ext _ _ (fun k => (at_ cs (Z.to_nat k) * A k j) * (- / c0))%Qc).
    2:{ intros k Hk. apply in_zrange in Hk. destruct (znth_some cs k) as [q Hq]; [unfold zlen; lia|].
        rewrite (at_znth (map _ cs) k (- q / c0)%Qc) by (rewrite znth_map, Hq; reflexivity). rewrite (at_znth _ _ _ Hq). field. exact E. }
    rewrite tot_mul_r. replace (tot (zrange 0 n) (fun k => at_ cs (Z.to_nat k) * A k j)%Qc) with (- (c0 * unit_ i j))%Qc.
    2:{ rewrite <- (Qcplus_0_l (- (c0 * unit_ i j))), <- Eq. ring. }
    field. exact E.
Qed.
(** a left inverse is a right inverse *)
End Inv.
Lemma left_right n A B : 0 < n ->
  (forall i j, 0 <= i < n -> 0 <= j < n -> tot (zrange 0 n) (fun k => B i k * A k j)%Qc = unit_ i j) ->
  forall i j, 0 <= i < n -> 0 <= j < n -> tot (zrange 0 n) (fun k => A i k * B k j)%Qc = unit_ i j.
Proof.
  intros Hn HB.
  set (Q := map (fun i => row_of B n i) (zrange 0 n)).
  assert (HQ : zlen Q = n) by (unfold Q; rewrite zlen_map, zlen_zrange; lia).
  assert (HA : forall i j, 0 <= i < n -> 0 <= j < n -> exists row, znth Q i = Ok row /\ at_ row (Z.to_nat j) = B i j).
  { intros i j Hi Hj. exists (row_of B n i). unfold Q. rewrite znth_map, znth_zrange by lia. split; [reflexivity|].
    apply at_znth. unfold row_of. rewrite znth_map, znth_zrange by lia. reflexivity. }
  assert (ND : NoDup (zrange 0 n)) by apply NoDup_zrange.
  assert (Un : forall i j, unit_ i j = unit_ j i) by (intros; unfold unit_; rewrite Z.eqb_sym; reflexivity).
  intros i j Hi Hj. destruct (row_cases n Q B Hn HQ HA i Hi) as [(row & _ & _ & HC)|(_ & x & (m & Hm & Nx) & HK)].
  - set (C := fun k => at_ row (Z.to_nat k)).
    assert (EC : forall k, 0 <= k < n -> C k = A i k).
    { intros k Hk.
      transitivity (tot (zrange 0 n) (fun l => C l * unit_ l k)%Qc); [symmetry; apply tot_delta; [exact ND|apply in_zrange; lia]|].
      transitivity (tot (zrange 0 n) (fun l => C l * tot (zrange 0 n) (fun m => B l m * A m k))%Qc).
      { apply tot_ext. intros l Hl. apply in_zrange in Hl. rewrite HB by lia. reflexivity. }
      transitivity (tot (zrange 0 n) (fun l => tot (zrange 0 n) (fun m => C l * (B l m * A m k)))%Qc).
      { apply tot_ext. intros l Hl. symmetry. apply tot_mul_l. }
      rewrite tot_swap.
      transitivity (tot (zrange 0 n) (fun m => A m k * unit_ m i)%Qc); [|apply (tot_delta _ (fun m => A m k)); [exact ND|apply in_zrange; lia]].
      apply tot_ext. intros m Hm. apply in_zrange in Hm. rewrite (Un m i). rewrite <- (HC m) by lia. rewrite <- tot_mul_l. apply tot_ext. intros l _. unfold C. ring. }
    rewrite <- (HC j Hj). apply tot_ext. intros k Hk. apply in_zrange in Hk. rewrite <- EC by lia. reflexivity.
  - exfalso. apply Nx.
    transitivity (tot (zrange 0 n) (fun l => x l * unit_ l m)%Qc); [symmetry; apply tot_delta; [exact ND|apply in_zrange; lia]|].
    transitivity (tot (zrange 0 n) (fun l => tot (zrange 0 n) (fun k => x l * (B l k * A k m)))%Qc).
    { apply tot_ext. intros l Hl. apply in_zrange in Hl. rewrite <- HB by lia. symmetry. apply tot_mul_l. }
    rewrite tot_swap. apply tot_zero. intros k Hk. apply in_zrange in Hk.
    transitivity (tot (zrange 0 n) (fun l => (x l * B l k) * A k m)%Qc); [apply tot_ext; intros; ring|]. rewrite tot_mul_r, HK by lia. ring.
Qed.
Lemma mapM_cases {A B} (f : A -> res B) (P : B -> Prop) (l : list A) e :
  (forall a, In a l -> (exists b, f a = Ok b) \/ f a = Throw e) ->
  (exists bs, mapM f l = Ok bs) \/ (mapM f l = Throw e /\ exists a, In a l /\ f a = Throw e).
Proof.
  induction l as [|a l IH]; intros H; cbn [mapM]; [left; eexists; reflexivity|].
  destruct (H a (or_introl eq_refl)) as [[b ->]|E]; cbn [bind].
  - destruct IH as [[bs ->]|[-> (a' & Ha & Ea)]]; [intros; apply H; right; assumption|left; eexists; reflexivity|].
    right. split; [reflexivity|]. exists a'. split; [right|]; assumption.
  - rewrite E. cbn [bind]. right. split; [reflexivity|]. exists a. split; [left; reflexivity|exact E].
Qed.
Definition qs_of (M : vec2) : list (list Qc) := map (map (fun v => match v with Fin q => q | _ => 0%Qc end)) M.
Definition mat (Q : list (list Qc)) (i j : Z) : Qc := match znth Q i with Ok row => at_ row (Z.to_nat j) | _ => 0%Qc end.
Lemma inv0_cases n M : 0 < n -> rect n n M ->
  (exists N B, inv0 M = Ok N /\ entries n N B /\
     (forall i j, 0 <= i < n -> 0 <= j < n -> tot (zrange 0 n) (fun k => B i k * mat (qs_of M) k j)%Qc = unit_ i j)) \/
  (inv0 M = Throw RuntimeError /\
     exists x : Z -> Qc, (exists i, 0 <= i < n /\ x i <> 0%Qc) /\ forall j, 0 <= j < n -> tot (zrange 0 n) (fun i => x i * mat (qs_of M) i j)%Qc = 0%Qc).
Proof.
  intros Hn [Hr Hc]. set (Q := qs_of M). set (A := mat Q).
  assert (HQ : zlen Q = n) by (unfold Q, qs_of; rewrite zlen_map; exact Hr).
  assert (HA : forall i j, 0 <= i < n -> 0 <= j < n -> exists row, znth Q i = Ok row /\ at_ row (Z.to_nat j) = A i j).
  { intros i j Hi Hj. destruct (znth_some Q i ltac:(lia)) as [row Er]. exists row. split; [exact Er|]. unfold A, mat. rewrite Er. reflexivity. }
  assert (EN : length M = Z.to_nat n) by (unfold zlen in Hr; lia).
  unfold inv0. fold (qs_of M). fold Q. rewrite EN.
  assert (Nat_i : forall i, In i (seq 0 (Z.to_nat n)) -> exists z, i = Z.to_nat z /\ 0 <= z < n) by (intros i Hi; apply in_seq in Hi; exists (Z.of_nat i); lia).
  destruct (mapM_cases (inv_row (Z.to_nat n) Q) (fun _ => True) (seq 0 (Z.to_nat n)) RuntimeError) as [[N EN']|[ET (i & Hi & Ei)]].
  { intros i Hi. destruct (Nat_i i Hi) as (z & -> & Hz). destruct (row_cases n Q A Hn HQ HA z Hz) as [(row & E & _)|[E _]]; eauto. }
  - left. assert (LN : zlen N = n) by (apply mapM_inv in EN' as [EN' _]; unfold zlen in *; rewrite seq_length in EN'; lia).
    assert (HN : forall i r, znth N i = Ok r -> exists row, r = map Fin row /\ zlen row = n /\
              forall j, 0 <= j < n -> tot (zrange 0 n) (fun k => at_ row (Z.to_nat k) * A k j)%Qc = unit_ i j).
    { intros i r Er. pose proof (znth_range _ _ _ Er) as Ri. 
      assert (Ei : znth (seq 0 (Z.to_nat n)) i = Ok (Z.to_nat i)).
      { unfold znth. destruct (Z.ltb_spec i 0); [lia|]. rewrite nth_error_seq by lia. reflexivity. }
      destruct (proj2 (mapM_inv _ _ _ EN') i _ Ei) as (r' & Er' & E).
      destruct (row_cases n Q A Hn HQ HA i ltac:(lia)) as [(row & E' & Lr & HC)|[E' _]]; [|congruence].
      exists row. split; [congruence|]. auto. }
    exists N, (fun i j => match znth N i with Ok r => match znth r j with Ok (Fin q) => q | _ => 0%Qc end | _ => 0%Qc end). split; [exact EN'|]. split.
    + split; [split; [exact LN|]|].
      * intros r Hr'. apply In_znth in Hr' as [i Hi]. destruct (HN i r Hi) as (row & -> & Lr & _). rewrite zlen_map. exact Lr.
      * intros i j Hi Hj. destruct (znth_some N i ltac:(lia)) as [r Er]. destruct (HN i r Er) as (row & -> & Lr & _).
        unfold get2. rewrite Er. cbn [bind]. rewrite znth_map. destruct (znth_some row j ltac:(lia)) as [q ->]. reflexivity.
    + intros i j Hi Hj. destruct (znth_some N i ltac:(lia)) as [r Er]. destruct (HN i r Er) as (row & -> & Lr & HC). rewrite <- (HC j Hj).
      rewrite Er. apply tot_ext. intros k Hk. apply in_zrange in Hk. rewrite znth_map. destruct (znth_some row k ltac:(lia)) as [q Eq]. rewrite Eq. cbn [bind].
      rewrite (at_znth _ _ _ Eq). reflexivity.
  - right. split; [exact ET|]. destruct (Nat_i i Hi) as (z & -> & Hz). destruct (row_cases n Q A Hn HQ HA z Hz) as [(row & E & _)|[_ HK]]; [congruence|exact HK].
Qed.

Lemma entries_mat n M A : entries n M A -> forall i j, 0 <= i < n -> 0 <= j < n -> mat (qs_of M) i j = A i j.
Proof.
  intros [[Hr Hc] HE] i j Hi Hj. specialize (HE i j Hi Hj). unfold get2 in HE. unfold mat, qs_of. rewrite znth_map.
  destruct (znth M i) as [row| | |]; try discriminate. cbn [bind] in *. apply at_znth. rewrite znth_map, HE. reflexivity.
Qed.
Lemma lib_ok_L0 : lib_ok L0.
Proof.
  constructor.
  - intros n M A N Hn HE E. cbn in E. destruct (inv0_cases n M Hn (proj1 HE)) as [(N' & B & E' & HB & HL)|[E' _]]; rewrite E in E'; [|discriminate].
    injection E' as <-. assert (HL' : forall i j, 0 <= i < n -> 0 <= j < n -> tot (zrange 0 n) (fun k => B i k * A k j)%Qc = unit_ i j).
    { intros i j Hi Hj. rewrite <- (HL i j Hi Hj). apply tot_ext. intros k Hk. apply in_zrange in Hk. rewrite (entries_mat n M A HE) by lia. reflexivity. }
    exists B. split; [exact HB|]. split; [exact HL'|]. apply (left_right n A B Hn HL').
  - intros n M A e Hn HE E. cbn in E. destruct (inv0_cases n M Hn (proj1 HE)) as [(N' & B & E' & HB & HL)|[_ (x & Hx & HK)]]; [congruence|].
    exists x. split; [exact Hx|]. intros j Hj. rewrite <- (HK j Hj). apply tot_ext. intros k Hk. apply in_zrange in Hk. rewrite (entries_mat n M A HE) by lia. reflexivity.
  - intros n M Hn HR. cbn. destruct (inv0_cases n M Hn HR) as [(N' & B & E' & HB & HL)|[E _]]; [left|right; exact E]. exists N'. split; [exact E'|]. exact (proj1 HB).
  - apply sort0_perm.
  - intros l H i j a b Hi Hij. apply ssorted_nth; auto; [|apply sort0_sorted; exact H].
    intros x Hx. apply H. apply (Permutation_in _ (sort0_perm l)). exact Hx.
Qed.
