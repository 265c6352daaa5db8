(** Proofs about calc_even_quantiles (C06, C07). *)
From Verif Require Import Base ListLib M_Stat S_Stat P_Stat P_Quant.
From Coq Require Import Qround Lqa.

Definition strict (l : list Qc) : Prop := StronglySorted Qclt l.
Lemma strict_sorted l : strict l -> qsorted l.
Proof.
  unfold strict, qsorted. induction 1; constructor; auto. eapply Forall_impl; [|eassumption].
  intros. apply Qclt_le_weak; assumption.
Qed.
Lemma strict_NoDup l : strict l -> NoDup l.
Proof.
  unfold strict. induction 1 as [|x l H IH F]; constructor; auto. intros Hin. rewrite Forall_forall in F.
  specialize (F x Hin). qlra.
Qed.
Lemma last_cons_default {A} (x d d' : A) l : last (x :: l) d = last (x :: l) d'.
Proof. revert x; induction l as [|y l IH]; intros x; [reflexivity|]. cbn [last]. apply IH. Qed.
Lemma last_In {A} (l : list A) d : l <> [] -> In (last l d) l.
Proof.
  induction l as [|x l IH]; intros H; [congruence|]. destruct l as [|y l]; [left; reflexivity|].
  right. apply IH. discriminate.
Qed.
Lemma last_qnth s d : s <> [] -> last s d = qnth s (zlen s - 1).
Proof.
  intros H. induction s as [|x s IH]; [congruence|]. destruct s as [|y s]; [reflexivity|].
  change (last (x :: y :: s) d) with (last (y :: s) d). rewrite IH by discriminate.
  unfold qnth. rewrite (zlen_cons x). pose proof (zlen_nonneg s).
  replace (Z.to_nat (zlen (y :: s) + 1 - 1)) with (S (Z.to_nat (zlen (y :: s) - 1))) by (rewrite zlen_cons; lia).
  reflexivity.
Qed.

Lemma veqb_Fin x y : veqb (Fin x) (Fin y) = qeqb x y. Proof. reflexivity. Qed.
Lemma push_changes_spec t : forall p, qsorted (p :: t) ->
  exists out, push_changes (Fin p) (map Fin t) = map Fin out /\ strict (p :: out) /\ incl out t /\
    last out p = last t p /\ zlen out <= zlen t /\ (forall x, In x t -> In x (p :: out)).
Proof.
  induction t as [|x t IH]; intros p H.
  - exists []. cbn. repeat split; auto; try lia. repeat constructor. intros y [].
  - apply StronglySorted_inv in H as [H F]. destruct (IH x H) as (out & E & S & I & L & N & C).
    cbn [map push_changes]. rewrite veqb_Fin. rewrite E. destruct (qeqb_spec x p) as [->|Hne].
    + exists out. split; [reflexivity|]. split; [exact S|]. split; [apply incl_tl; exact I|]. split.
      * destruct t as [|z t]; [cbn in *; exact L|]. cbn [last] in *. exact L.
      * rewrite zlen_cons. split; [lia|]. intros y [<-|Hy]; [left; reflexivity|apply C; exact Hy].
    + exists (x :: out). split; [reflexivity|].
      assert (p < x)%Qc as Hlt.
      { inversion F; subst. destruct (qle_lt_or_eq p x) as [G|G]; [assumption|exact G|congruence]. }
      split; [|split; [|split; [|rewrite !zlen_cons; split; [lia|]]]].
      * constructor; [exact S|]. constructor; [exact Hlt|]. apply StronglySorted_inv in S as [_ S].
        eapply Forall_impl; [|exact S]. intros y Hy. cbn in Hy. eapply Qclt_trans; eauto.
      * intros y [<-|Hy]; [left; reflexivity|right; apply I; exact Hy].
      * assert (forall l, last (x :: l) p = last l x) as G.
        { clear. intros l. destruct l as [|y l]; [reflexivity|]. cbn [last]. apply (last_cons_default y p x l). }
        rewrite !G. exact L.
      * intros y [<-|Hy]; [right; left; reflexivity|right; apply C; exact Hy].
Qed.

Lemma leading_run_spec lo s : qsorted s -> (forall x, In x s -> lo <= x)%Qc ->
  let c := leading_run (Fin lo) (map Fin s) in
  0 <= c <= zlen s /\ (forall j, 0 <= j < c -> qnth s j = lo) /\
  (c < zlen s -> (lo < qnth s c)%Qc).
Proof.
  induction s as [|x s IH]; intros S H; cbn [map leading_run].
  - change (zlen (@nil Qc)) with 0. split; [lia|]. split; intros; lia.
  - rewrite veqb_Fin. apply StronglySorted_inv in S as [S F].
    assert (lo <= x)%Qc as Hx by (apply H; left; reflexivity). pose proof (zlen_nonneg s).
    destruct (qeqb_spec x lo) as [->|Hne].
    + destruct IH as (A & B & C); [exact S|intros; apply H; right; assumption|].
      rewrite zlen_cons. set (c := leading_run (Fin lo) (map Fin s)) in *. split; [lia|]. split.
      * intros j Hj. unfold qnth. destruct (Z.eq_dec j 0) as [->|Hj0]; [reflexivity|].
        replace (Z.to_nat j) with (Datatypes.S (Z.to_nat (j - 1))) by lia. cbn [nth]. apply B. lia.
      * intros Hc. unfold qnth. replace (Z.to_nat (1 + c)) with (Datatypes.S (Z.to_nat c)) by lia. cbn [nth]. apply C. lia.
    + rewrite zlen_cons. split; [lia|]. split; [intros; lia|]. intros _. unfold qnth. cbn.
      destruct (qle_lt_or_eq lo x) as [G|G]; [exact Hx|exact G|congruence].
Qed.

Lemma remaining_spec la s : qsorted s -> forall prev,
  match prev with None => True | Some p => (la < p)%Qc /\ (forall x, In x s -> p <= x)%Qc end ->
  exists out, remaining_unique (Fin la) (option_map Fin prev) (map Fin s) = map Fin out /\
    strict out /\ (forall x, In x out <-> In x s /\ (la < x)%Qc /\ prev <> Some x).
Proof.
  intros S. induction S as [|x s S IH F]; intros prev Hp.
  - exists []. repeat split; try constructor; try (intros []; fail); cbn in *; tauto.
  - rewrite Forall_forall in F. cbn [map remaining_unique].
    change (vltb (Fin la) (Fin x)) with (qltb la x).
    destruct (qltb_spec la x) as [L|L].
    + destruct (match option_map Fin prev with None => true | Some p => negb (veqb (Fin x) p) end) eqn:Ep; cbn [andb].
      * destruct (IH (Some x)) as (out & E & So & C). { split; [exact L|]. intros y Hy. apply F; exact Hy. }
        exists (x :: out). change (Some (Fin x)) with (option_map Fin (Some x)). rewrite E.
        split; [reflexivity|]. split.
        { constructor; [exact So|]. apply Forall_forall. intros y Hy. apply C in Hy as (Hy & _ & Hy').
          destruct (qle_lt_or_eq x y) as [G|G]; [apply F; exact Hy|exact G|congruence]. }
        assert (prev <> Some x) as Hpx.
        { destruct prev as [p|]; [|discriminate]. cbn in Ep. rewrite negb_true_iff in Ep.
          destruct (qeqb_spec x p); congruence. }
        intros y. split.
        { intros [<-|Hy]; [split; [left; reflexivity|split; assumption]|].
          apply C in Hy as (A & B & D). split; [right; exact A|]. split; [exact B|].
          destruct prev as [p|]; [|discriminate]. intros [= ->].
          apply Hpx. f_equal. destruct Hp as [_ Hp]. apply Qcle_antisym; [|apply F; exact A]. apply Hp; left; reflexivity. }
        { intros ([<-|A] & B & D); [left; reflexivity|]. destruct (Qc_eq_dec x y) as [->|Hne]; [left; reflexivity|].
          right. apply C. repeat split; auto. congruence. }
      * destruct (IH prev) as (out & E & So & C).
        { destruct prev as [p|]; [|exact I]. destruct Hp as [P1 P2]. split; [exact P1|]. intros y Hy. apply P2; right; exact Hy. }
        exists out. split; [exact E|]. split; [exact So|].
        assert (prev = Some x) as ->.
        { destruct prev as [p|]; [|discriminate]. cbn in Ep. rewrite negb_false_iff in Ep. destruct (qeqb_spec x p); congruence. }
        intros y. rewrite C. cbn [In]. split; [tauto|]. intros ([<-|A] & B & D); [congruence|tauto].
    + cbn [andb]. destruct (IH prev) as (out & E & So & C).
      { destruct prev as [p|]; [|exact I]. destruct Hp as [P1 P2]. split; [exact P1|]. intros y Hy. apply P2; right; exact Hy. }
      exists out. split; [exact E|]. split; [exact So|]. intros y. rewrite C. cbn [In]. split; [tauto|].
      intros ([<-|A] & B & D); [contradiction|tauto].
Qed.

(** the index computed from the float expression *)
Definition even_index (n L i : Z) : Z := let k := n * i / L in if k =? 0 then 0 else k - 1.
Lemma qfloor_ratio a b : 0 < b -> Qfloor (qz a / qz b)%Qc = a / b.
Proof.
  intros Hb. apply qfloor_unique. pose proof (Z.div_mod a b ltac:(lia)). pose proof (Z.mod_pos_bound a b Hb).
  assert (Hb' : (0 < qz b)%Qc). { change 0%Qc with (qz 0). apply qz_lt. lia. }
  split.
  - apply (proj2 (qle_div_iff (qz (a / b)) (qz a) (qz b) Hb')). rewrite <- qz_mul. apply qz_le. lia.
  - rewrite <- qz_1, <- qz_add. destruct (Qclt_le_dec (qz a / qz b) (qz (a / b + 1))) as [L|L]; [exact L|]. exfalso.
    apply (proj1 (qle_div_iff (qz (a / b + 1)) (qz a) (qz b) Hb')) in L. rewrite <- qz_mul in L. apply (proj1 (qz_le _ _)) in L. lia.
Qed.
Lemma ztrunc_floor q : (0 <= q)%Qc -> ztrunc q = Qfloor q.
Proof.
  intros H. unfold ztrunc. assert (0 <= Qnum q) as Hn. { unfold Qcle, Qle in H. cbn in H. lia. }
  rewrite Z.quot_div_nonneg by lia. destruct q as [[n d] c]. reflexivity.
Qed.
Lemma ztrunc_neg_small q : (- (1) < q < 0)%Qc -> ztrunc q = 0.
Proof.
  intros [H1 H2]. unfold ztrunc. unfold Qclt, Qlt in *. cbn in H1, H2.
  rewrite <- (Z.opp_involutive (Qnum q)), Z.quot_opp_l by lia. rewrite Z.quot_small by lia. reflexivity.
Qed.
Lemma even_index_eq n L i : 1 <= n -> 1 <= L -> 1 <= i ->
  to_int (vsub (vmul (fz n) (vdiv (fz i) (fz L))) (fz 1)) = Ok (even_index n L i).
Proof.
  intros Hn HL Hi. unfold fz. rewrite vdiv_Fin by (rewrite <- qz_0; intros H; apply qz_inj in H; lia).
  cbn [vmul vsub vadd vneg to_int]. f_equal.
  assert (HL0 : qz L <> 0%Qc) by (rewrite <- qz_0; intros H; apply qz_inj in H; lia).
  assert (E : (qz n * (qz i / qz L) + - qz 1 = qz (n * i) / qz L - 1)%Qc). { rewrite qz_mul, qz_1. field. exact HL0. }
  rewrite E. set (x := (qz (n * i) / qz L)%Qc). pose proof (qfloor_ratio (n * i) L ltac:(lia)) as F. fold x in F.
  pose proof (qfloor_le x) as X1. pose proof (qlt_floor x) as X2. rewrite F in X1, X2.
  unfold even_index. destruct (Z.eqb_spec (n * i / L) 0) as [Z0|Z0].
  - rewrite Z0, qz_0 in X1, X2. apply ztrunc_neg_small.
    assert (0 < x)%Qc.
    { destruct (Qclt_le_dec 0 x) as [G|G]; [exact G|]. exfalso.
      assert (0 < qz L)%Qc as PL. { change 0%Qc with (qz 0). apply qz_lt. lia. }
      apply (proj1 (qdiv_le_iff 0 (qz (n * i)) (qz L) PL)) in G. rewrite Qcmult_0_l in G. change 0%Qc with (qz 0) in G.
      apply (proj1 (qz_le _ _)) in G. nia. }
    split; qlra.
  - assert (0 <= n * i / L) by (apply Z.div_pos; nia).
    assert (qz 1 <= qz (n * i / L))%Qc as Y by (apply qz_le; lia). rewrite qz_1 in Y.
    rewrite ztrunc_floor by qlra. apply qfloor_unique. rewrite qz_sub, qz_1. split; qlra.
Qed.
Lemma even_index_range n L i : 1 <= n -> 1 <= i <= L -> 0 <= even_index n L i <= n - 1.
Proof.
  intros Hn Hi. unfold even_index. assert (0 <= n * i / L) by (apply Z.div_pos; nia).
  assert (n * i / L <= n). { apply Z.div_le_upper_bound; nia. }
  destruct (Z.eqb_spec (n * i / L) 0); lia.
Qed.
Lemma even_index_mono n L i j : 1 <= n -> 1 <= i -> i <= j -> 1 <= L -> even_index n L i <= even_index n L j.
Proof.
  intros. unfold even_index. assert (n * i / L <= n * j / L) by (apply Z.div_le_mono; nia).
  assert (0 <= n * i / L) by (apply Z.div_pos; nia).
  destruct (Z.eqb_spec (n * i / L) 0), (Z.eqb_spec (n * j / L) 0); lia.
Qed.
Lemma even_index_last n L : 1 <= n -> 1 <= L -> even_index n L L = n - 1.
Proof. intros. unfold even_index. rewrite Z.div_mul by lia. destruct (Z.eqb_spec n 0); lia. Qed.
Lemma even_index_strict n L i j : 1 <= L <= n -> 1 <= i < j -> even_index n L i < even_index n L j.
Proof.
  intros HL Hi. unfold even_index.
  assert (1 <= n * i / L) by (apply Z.div_le_lower_bound; nia).
  assert (n * i / L + 1 <= n * j / L). { rewrite <- Z.div_add by lia. apply Z.div_le_mono; nia. }
  destruct (Z.eqb_spec (n * i / L) 0), (Z.eqb_spec (n * j / L) 0); lia.
Qed.

(** ** main result *)
Lemma sorted_app l m : qsorted l -> qsorted m -> (forall x y, In x l -> In y m -> x <= y)%Qc -> qsorted (l ++ m).
Proof.
  unfold qsorted. induction 1 as [|x l S IH F]; intros Sm H; cbn; [exact Sm|].
  constructor.
  - apply IH; [exact Sm|]. intros; apply H; [right|]; assumption.
  - apply Forall_app. split; [exact F|]. apply Forall_forall. intros y Hy. apply H; [left; reflexivity|exact Hy].
Qed.
Lemma sorted_map_zrange (f : Z -> Qc) lo hi : (forall i j, lo <= i -> i <= j -> j < hi -> (f i <= f j)%Qc) ->
  qsorted (map f (zrange lo hi)).
Proof.
  intros H. remember (Z.to_nat (hi - lo)) as n eqn:E. revert lo H E. induction n as [|n IH]; intros lo H E.
  - rewrite zrange_nil by lia. constructor.
  - rewrite zrange_cons by lia. cbn. constructor.
    + apply IH; [|lia]. intros; apply H; lia.
    + apply Forall_forall. intros y Hy. apply in_map_iff in Hy as (j & <- & Hj). apply in_zrange in Hj. apply H; lia.
Qed.
Lemma NoDup_map_zrange (f : Z -> Qc) lo hi : (forall i j, lo <= i -> i < j -> j < hi -> f i <> f j) ->
  NoDup (map f (zrange lo hi)).
Proof.
  intros H. remember (Z.to_nat (hi - lo)) as n eqn:E. revert lo H E. induction n as [|n IH]; intros lo H E.
  - rewrite zrange_nil by lia. constructor.
  - rewrite zrange_cons by lia. cbn. constructor.
    + intros Hy. apply in_map_iff in Hy as (j & Ej & Hj). apply in_zrange in Hj. symmetry in Ej. revert Ej. apply H; lia.
    + apply IH; [|lia]. intros; apply H; lia.
Qed.
Lemma NoDup_app_intro {A} (l m : list A) : NoDup l -> NoDup m -> (forall x, In x l -> ~ In x m) -> NoDup (l ++ m).
Proof.
  induction 1 as [|x l Hx Hl IH]; intros Hm H; cbn; [exact Hm|]. constructor.
  - rewrite in_app_iff. intros [G|G]; [contradiction|]. apply (H x); [left; reflexivity|exact G].
  - apply IH; [exact Hm|]. intros y Hy. apply H; right; exact Hy.
Qed.
Lemma strict_qnth_inj s i j : strict s -> 0 <= i < j -> j < zlen s -> (qnth s i < qnth s j)%Qc.
Proof.
  intros S Hij Hj. pose proof (strict_NoDup _ S) as ND.
  destruct (qle_lt_or_eq (qnth s i) (qnth s j)) as [G|G]; [apply qnth_mono; [apply strict_sorted; exact S|lia|lia]|exact G|].
  exfalso. unfold qnth in G. rewrite NoDup_nth with (d := 0%Qc) in ND.
  apply ND in G; unfold zlen in *; lia.
Qed.
Lemma distinct_le_len l : distinct l <= zlen l.
Proof.
  unfold distinct, zlen. apply inj_le. apply NoDup_incl_length; [apply NoDup_nodup|]. intros x Hx.
  apply nodup_In in Hx. exact Hx.
Qed.
Lemma distinct_upper l m : NoDup m -> (forall x, In x l -> In x m) -> distinct l <= zlen m.
Proof.
  intros H C. unfold distinct, zlen. apply inj_le. apply NoDup_incl_length; [apply NoDup_nodup|].
  intros x Hx. apply nodup_In in Hx. apply C; exact Hx.
Qed.
Lemma distinct_upper_gen l m : (forall x, In x l -> In x m) -> distinct l <= zlen m.
Proof.
  intros C. unfold distinct, zlen. apply inj_le. apply NoDup_incl_length; [apply NoDup_nodup|].
  intros x Hx. apply nodup_In in Hx. apply C; exact Hx.
Qed.

Definition even_ok (l : list Qc) (num : Z) (out : list Qc) : Prop :=
  out <> [] /\ zlen out <= num /\ incl out l /\ qsorted out /\
  is_min l (qnth out 0) /\ (2 <= num -> is_max l (qnth out (zlen out - 1))) /\
  (num <= distinct l -> zlen out = num /\ NoDup out).

Lemma rest_eq rem L : 1 <= zlen rem ->
  mapM (fun i =>
      let f := vdiv (fz i) (fz L) in
      index <- to_int (vsub (vmul (fz (zlen (map Fin rem))) f) (fz 1)) ;;
      if 0 <=? index then znth (map Fin rem) index else Throw RuntimeError) (zrange 1 (L + 1))
  = Ok (map Fin (map (fun i => qnth rem (even_index (zlen rem) L i)) (zrange 1 (L + 1)))).
Proof.
  intros Hn. rewrite map_map. apply mapM_ok. intros i Hi. apply in_zrange in Hi. cbv zeta. rewrite zlen_map.
  rewrite even_index_eq by lia. cbn [bind].
  pose proof (even_index_range (zlen rem) L i Hn ltac:(lia)).
  replace (0 <=? even_index (zlen rem) L i) with true by lia. rewrite znth_map, qnth_znth by lia. reflexivity.
Qed.

(** common tail of the two general cases: pre-selected levels, then evenly spaced remaining values *)
Lemma even_tail l pre la rem num :
  qsorted pre -> NoDup pre -> pre <> [] -> incl pre l -> is_min l (qnth pre 0) -> last pre 0%Qc = la ->
  strict rem -> (forall x, In x rem <-> In x l /\ (la < x)%Qc) ->
  (forall x, In x l -> In x pre \/ (la < x)%Qc) -> (forall x, In x pre -> x <= la)%Qc ->
  1 <= num -> zlen pre <= num -> (2 <= num -> rem <> [] -> zlen pre < num) ->
  even_ok l num (pre ++ if 0 <? zlen rem then map (fun i => qnth rem (even_index (zlen rem) (num - zlen pre) i)) (zrange 1 (num - zlen pre + 1)) else []).
Proof.
  intros Sp NDp Hne Ip Mp Lp Sr Cr Cov Lela Hnum Hpre Hroom.
  set (L := num - zlen pre) in *.
  set (rest := if 0 <? zlen rem then map (fun i => qnth rem (even_index (zlen rem) L i)) (zrange 1 (L + 1)) else []).
  assert (Hrest : forall x, In x rest -> In x rem).
  { intros x Hx. unfold rest in Hx. destruct (0 <? zlen rem) eqn:E; [|destruct Hx].
    apply in_map_iff in Hx as (i & <- & Hi). apply in_zrange in Hi. apply qnth_In.
    pose proof (even_index_range (zlen rem) L i ltac:(lia) ltac:(lia)). lia. }
  assert (Hlen : zlen rest = if 0 <? zlen rem then L else 0).
  { unfold rest. destruct (0 <? zlen rem); [|reflexivity]. rewrite zlen_map, zlen_zrange. lia. }
  assert (Hpos : 0 < zlen pre) by (apply zlen_pos; exact Hne).
  split; [destruct pre; [congruence|discriminate]|].
  split; [rewrite zlen_app, Hlen; destruct (0 <? zlen rem); lia|].
  split. { apply incl_app; [exact Ip|]. intros x Hx. apply Hrest in Hx. apply Cr in Hx. tauto. }
  split.
  { apply sorted_app; [exact Sp| |].
    - unfold rest. destruct (0 <? zlen rem) eqn:E; [|constructor].
      apply sorted_map_zrange. intros i j Hi Hij Hj. apply qnth_mono; [apply strict_sorted; exact Sr| |].
      + pose proof (even_index_range (zlen rem) L i ltac:(lia) ltac:(lia)).
        pose proof (even_index_mono (zlen rem) L i j ltac:(lia) ltac:(lia) ltac:(lia) ltac:(lia)). lia.
      + pose proof (even_index_range (zlen rem) L j ltac:(lia) ltac:(lia)). lia.
    - intros x y Hx Hy. apply Hrest in Hy. apply Cr in Hy as [_ Hy]. apply Lela in Hx. qlra. }
  assert (H0 : qnth (pre ++ rest) 0 = qnth pre 0).
  { destruct pre as [|z pre]; [congruence|]. reflexivity. }
  split; [rewrite H0; exact Mp|]. split.
  { intros H2. rewrite <- (last_qnth (pre ++ rest) 0%Qc) by (destruct pre; [congruence|discriminate]).
    assert (rem = [] \/ 0 < zlen rem) as [Erem|Hr] by (destruct rem; [left; reflexivity|right; apply zlen_pos; discriminate]).
    - unfold rest. rewrite Erem. change (0 <? zlen (@nil Qc)) with false. cbn iota. rewrite app_nil_r, Lp. split.
      + apply Ip. rewrite <- Lp. apply last_In. exact Hne.
      + intros x Hx. destruct (Cov x Hx) as [G|G]; [apply Lela; exact G|]. exfalso.
        assert (In x rem) as K by (apply Cr; split; assumption). rewrite Erem in K. destruct K.
    - assert (Hrn : rem <> []) by (intros G; rewrite G in Hr; change (zlen (@nil Qc)) with 0 in Hr; lia).
      assert (HL : 1 <= L). { unfold L. specialize (Hroom H2 Hrn). lia. }
      assert (EL : rest = map (fun i => qnth rem (even_index (zlen rem) L i)) (zrange 1 L) ++ [qnth rem (zlen rem - 1)]).
      { unfold rest. replace (0 <? zlen rem) with true by lia. rewrite (zrange_snoc 1 (L + 1)) by lia.
        replace (L + 1 - 1) with L by lia. rewrite map_app. cbn [map]. rewrite (even_index_last (zlen rem) L); [|lia|exact HL]. reflexivity. }
      rewrite EL, app_assoc, last_last.
      pose proof (sorted_max rem (strict_sorted _ Sr) Hrn) as [M1 M2]. split.
      + apply Cr in M1. tauto.
      + intros x Hx. destruct (Cov x Hx) as [G|G].
        * apply Lela in G. apply Cr in M1 as [_ M1]. qlra.
        * apply M2. apply Cr. split; assumption. }
  intros HD.
  assert (Dle : distinct l <= zlen pre + zlen rem).
  { rewrite <- zlen_app. apply distinct_upper_gen. intros x Hx. rewrite in_app_iff. destruct (Cov x Hx); [left; assumption|].
    right. apply Cr. split; assumption. }
  assert (Hnm : L <= zlen rem) by (unfold L; lia).
  split.
  { rewrite zlen_app, Hlen. destruct (0 <? zlen rem) eqn:E; [unfold L; lia|].
    pose proof (zlen_nonneg rem). unfold L in *. lia. }
  apply NoDup_app_intro; [exact NDp| |].
  - unfold rest. destruct (0 <? zlen rem) eqn:E; [|constructor].
    apply NoDup_map_zrange. intros i j Hi Hij Hj.
    pose proof (even_index_strict (zlen rem) L i j ltac:(lia) ltac:(lia)).
    pose proof (even_index_range (zlen rem) L i ltac:(lia) ltac:(lia)).
    pose proof (even_index_range (zlen rem) L j ltac:(lia) ltac:(lia)).
    intros G. assert (qnth rem (even_index (zlen rem) L i) < qnth rem (even_index (zlen rem) L j))%Qc as K
      by (apply strict_qnth_inj; [exact Sr|lia|lia]). rewrite G in K. qlra.
  - intros x Hx Hy. apply Hrest in Hy. apply Cr in Hy as [_ Hy]. apply Lela in Hx. qlra.
Qed.

Lemma calc_even_quantiles_ok l num : l <> [] -> 1 <= num ->
  exists out, calc_even_quantiles (map Fin l) num = Ok (map Fin out) /\ even_ok l num out.
Proof.
  intros Hne Hnum. unfold calc_even_quantiles. rewrite zlen_map.
  pose proof (zlen_pos l Hne) as HN.
  replace (num =? 0) with false by lia. replace (zlen l =? 0) with false by lia. cbn [orb].
  rewrite std_sort_map. cbn [bind].
  set (s := qsort l). assert (Ss : qsorted s) by apply sorted_qsort. assert (Ps : Permutation s l) by apply perm_qsort.
  assert (Hs : zlen s = zlen l) by apply zlen_qsort.
  assert (Hsne : s <> []) by (intros G; rewrite G in Hs; change (zlen (@nil Qc)) with 0 in Hs; lia).
  assert (InS : forall x, In x s <-> In x l).
  { intros x. split; intros G; [eapply Permutation_in; [exact Ps|exact G]|eapply Permutation_in; [symmetry; exact Ps|exact G]]. }
  pose proof (is_min_perm _ _ _ Ps (sorted_min s Ss Hsne)) as Mmin.
  pose proof (is_max_perm _ _ _ Ps (sorted_max s Ss Hsne)) as Mmax.
  rewrite znth_map, qnth_znth by lia. cbn [bind].
  destruct (zlen l <=? num) eqn:Esz.
  { destruct s as [|s0 t] eqn:Es; [congruence|]. cbn [map tl]. change (qnth (s0 :: t) 0) with s0 in *.
    destruct (push_changes_spec t s0 Ss) as (out & E & So & I & L & N & C).
    rewrite E. exists (s0 :: out). split; [reflexivity|].
    rewrite zlen_cons in Hs. split; [discriminate|]. split; [rewrite zlen_cons; lia|].
    split. { intros x [<-|Hx]; apply InS; [left; reflexivity|right; apply I; exact Hx]. }
    split; [apply strict_sorted; exact So|]. split; [exact Mmin|]. split.
    { intros _. rewrite <- (last_qnth (s0 :: out) s0) by discriminate.
      assert (forall m, last (s0 :: m) s0 = last m s0) as G by (intros m; destruct m; reflexivity).
      rewrite G, L, <- G. rewrite (last_qnth (s0 :: t)) by discriminate. exact Mmax. }
    intros HD. split; [|apply strict_NoDup; exact So].
    assert (distinct l <= zlen (s0 :: out)). { apply distinct_upper_gen. intros x Hx. apply InS in Hx.
      destruct Hx as [<-|Hx]; [left; reflexivity|apply C; exact Hx]. }
    pose proof (distinct_le_len l). rewrite zlen_cons in *. lia. }
  rewrite znth_map, qnth_znth by lia. cbn [bind]. rewrite <- Hs in *.
  replace (num <? 0) with false by lia.
  set (lo := qnth s 0) in *. set (hi := qnth s (zlen s - 1)) in *.
  assert (Hlo : forall x, In x s -> (lo <= x)%Qc). { intros x Hx. apply Mmin. apply InS; exact Hx. }
  destruct (leading_run_spec lo s Ss Hlo) as (C0 & C1 & C2).
  set (c := leading_run (Fin lo) (map Fin s)) in *.
  destruct (num =? 2) eqn:E2.
  { rewrite veqb_Fin. destruct (qeqb_spec lo hi) as [Eh|Eh].
    - exists [lo]. split; [reflexivity|]. unfold even_ok. change (zlen [lo]) with 1. split; [discriminate|]. split; [lia|].
      split; [intros x [<-|[]]; apply Mmin|]. split; [repeat constructor|]. split; [exact Mmin|].
      split; [intros _; change (qnth [lo] (1 - 1)) with lo; rewrite Eh; exact Mmax|].
      intros HD. exfalso. assert (distinct l <= zlen [lo]).
      { apply distinct_upper_gen. intros x Hx. left. apply Qcle_antisym; [apply Mmin; exact Hx|].
        rewrite Eh. apply Mmax; exact Hx. }
      change (zlen [lo]) with 1 in *. lia.
    - exists [lo; hi]. split; [reflexivity|]. unfold even_ok. change (zlen [lo; hi]) with 2. split; [discriminate|]. split; [lia|].
      assert (lo <= hi)%Qc as Hle by (apply Mmin; apply Mmax).
      split; [intros x [<-|[<-|[]]]; [apply Mmin|apply Mmax]|]. split; [repeat constructor; exact Hle|].
      split; [exact Mmin|]. split; [intros _; exact Mmax|]. intros _. split; [lia|].
      constructor; [intros [G|[]]; congruence|]. constructor; [intros []|constructor]. }
  assert (Hc1 : 1 <= c). { destruct (Z.le_gt_cases 1 c) as [G|G]; [exact G|]. exfalso. assert (c = 0) as Z0 by lia.
    specialize (C2 ltac:(lia)). rewrite Z0 in C2. fold lo in C2. qlra. }
  assert (NatFirst : forall x, In x s -> x = lo \/ (c < zlen s /\ (qnth s c <= x)%Qc)).
  { intros x Hx. apply In_znth in Hx as [i Hi]. pose proof (znth_range _ _ _ Hi) as R. rewrite qnth_znth in Hi by lia.
    injection Hi as <-. destruct (Z.lt_ge_cases i c) as [G|G]; [left; apply C1; lia|right]. split; [lia|].
    apply qnth_mono; auto; lia. }
  destruct ((c <? zlen s) && (Z.quot (zlen s) num <? c)) eqn:Erep.
  - (* repeated at beginning *)
    apply andb_true_iff in Erep as [R1 R2]. apply Z.ltb_lt in R1, R2.
    rewrite znth_map, qnth_znth by lia. cbn [bind].
    change (zlen [Fin lo; Fin (qnth s c)]) with 2. change (znth [Fin lo; Fin (qnth s c)] (2 - 1)) with (Ok (Fin (qnth s c))).
    cbn [bind]. set (la := qnth s c) in *. specialize (C2 R1).
    destruct (remaining_spec la s Ss None I) as (rem & Er & Sr & Cr). change (option_map Fin None) with (@None val) in Er.
    rewrite Er, zlen_map.
    assert (Hnum3 : 3 <= num).
    { assert (num <> 1); [|lia]. intros ->. rewrite Z.quot_1_r in R2. lia. }
    assert (OK : even_ok l num ([lo; la] ++ if 0 <? zlen rem then map (fun i => qnth rem (even_index (zlen rem) (num - zlen [lo; la]) i)) (zrange 1 (num - zlen [lo; la] + 1)) else [])).
    { apply (even_tail l [lo; la] la rem num).
      - repeat constructor. qlra.
      - constructor; [intros [G|[]]; rewrite G in C2; qlra|]. constructor; [intros []|constructor].
      - discriminate.
      - intros x [<-|[<-|[]]]; [apply Mmin|apply InS, qnth_In; lia].
      - exact Mmin.
      - reflexivity.
      - exact Sr.
      - intros x. rewrite Cr, InS. split; [intros (A & B & _); tauto|intros (A & B); repeat split; auto; discriminate].
      - intros x Hx. apply InS in Hx. destruct (NatFirst x Hx) as [->|[_ G]]; [left; left; reflexivity|].
        destruct (qle_lt_or_eq _ _ G) as [K|<-]; [right; exact K|left; right; left; reflexivity].
      - intros x [<-|[<-|[]]]; qlra.
      - lia.
      - change (zlen [lo; la]) with 2. lia.
      - change (zlen [lo; la]) with 2. lia. }
    change (zlen [lo; la]) with 2 in OK. destruct (0 <? zlen rem) eqn:E0.
    + pose proof (rest_eq rem (num - 2) ltac:(lia)) as RE. rewrite zlen_map in RE. cbv zeta in RE. rewrite RE. cbn [bind].
      eexists. split; [|exact OK]. rewrite map_app. reflexivity.
    + eexists. split; [|exact OK]. rewrite map_app. reflexivity.
  - cbn [bind]. change (zlen [Fin lo]) with 1. change (znth [Fin lo] (1 - 1)) with (Ok (Fin lo)). cbn [bind].
    destruct (remaining_spec lo s Ss None I) as (rem & Er & Sr & Cr). change (option_map Fin None) with (@None val) in Er.
    rewrite Er, zlen_map.
    assert (OK : even_ok l num ([lo] ++ if 0 <? zlen rem then map (fun i => qnth rem (even_index (zlen rem) (num - zlen [lo]) i)) (zrange 1 (num - zlen [lo] + 1)) else [])).
    { apply (even_tail l [lo] lo rem num).
      - repeat constructor.
      - constructor; [intros []|constructor].
      - discriminate.
      - intros x [<-|[]]; apply Mmin.
      - exact Mmin.
      - reflexivity.
      - exact Sr.
      - intros x. rewrite Cr, InS. split; [intros (A & B & _); tauto|intros (A & B); repeat split; auto; discriminate].
      - intros x Hx. assert (lo <= x)%Qc as G by (apply Mmin; exact Hx).
        destruct (qle_lt_or_eq _ _ G) as [K|<-]; [right; exact K|left; left; reflexivity].
      - intros x [<-|[]]; qlra.
      - lia.
      - change (zlen [lo]) with 1. lia.
      - change (zlen [lo]) with 1. lia. }
    change (zlen [lo]) with 1 in OK. destruct (0 <? zlen rem) eqn:E0.
    + pose proof (rest_eq rem (num - 1) ltac:(lia)) as RE. rewrite zlen_map in RE. cbv zeta in RE. rewrite RE. cbn [bind].
      eexists. split; [|exact OK]. rewrite map_app. reflexivity.
    + eexists. split; [|exact OK]. rewrite map_app. reflexivity.
Qed.
