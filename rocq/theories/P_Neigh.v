From Verif Require Import Base ListLib M_Stat M_Neigh S_Stat S_Neigh P_Stat P_Quant P_Even P_Slice M_Window S_Window P_Window.
From Coq Require Import Lqa.

(** ** windows *)
Lemma mapM_bind_map {A B C} (k : A -> res B) (g : B -> C) l :
  mapM (fun i => b <- k i ;; Ok (g b)) l = (r <- mapM k l ;; Ok (map g r)).
Proof.
  induction l as [|x l IH]; [reflexivity|]. cbn. destruct (k x); cbn; try reflexivity. rewrite IH.
  destruct (mapM k l); reflexivity.
Qed.
Lemma in_slice {A} (l : list A) lo hi v : In v (slice l lo hi) <-> exists i, lo <= i <= hi /\ znth l i = Ok v.
Proof.
  rewrite slice_is_from.
  assert (G : forall base, In v (slice_from base l lo hi) <-> exists i, lo <= base + i <= hi /\ znth l i = Ok v).
  { induction l as [|x l IH]; intros base.
    - unfold slice_from. rewrite combine_nil. cbn. split; [tauto|]. intros (i & _ & H). apply znth_range in H. change (zlen (@nil A)) with 0 in H. lia.
    - rewrite slice_from_cons, in_app_iff, IH. split.
      + intros [H|(i & Hi & H)].
        * destruct ((lo <=? base) && (base <=? hi)) eqn:B; [|destruct H]. destruct H as [->|[]]. exists 0. split; [lia|]. apply znth_cons0.
        * exists (i + 1). pose proof (znth_range _ _ _ H). split; [lia|]. rewrite znth_consS by lia. rewrite <- H. f_equal. lia.
      + intros (i & Hi & H). pose proof (znth_range _ _ _ H). destruct (Z.eq_dec i 0) as [->|].
        * left. rewrite znth_cons0 in H. injection H as ->. replace ((lo <=? base) && (base <=? hi)) with true by lia. left. reflexivity.
        * right. exists (i - 1). rewrite znth_consS in H by lia. split; [lia|exact H]. }
  rewrite (G 0). split; intros (i & Hi & H); exists i; (split; [lia|exact H]).
Qed.
Lemma in_around {A} (f : list (list A)) h y x v :
  In v (around f h y x) <-> exists i j, y - h <= i <= y + h /\ x - h <= j <= x + h /\ get2 f i j = Ok v.
Proof.
  unfold around. rewrite in_concat. split.
  - intros (l & Hl & Hv). apply in_map_iff in Hl as (row & <- & Hr). apply in_slice in Hr as (i & Hi & Er).
    apply in_slice in Hv as (j & Hj & Ev). exists i, j. split; [exact Hi|]. split; [exact Hj|]. unfold get2. rewrite Er. exact Ev.
  - intros (i & j & Hi & Hj & E). unfold get2 in E. apply bind_Ok in E as (row & Er & Ev).
    exists (slice row (x - h) (x + h)). split.
    + apply in_map_iff. exists row. split; [reflexivity|]. apply in_slice. eauto.
    + apply in_slice. eauto.
Qed.
Lemma hood_around input nY nX h y x : rect nY nX input -> 0 <= h -> 0 <= y < nY -> 0 <= x < nX ->
  hood input nY nX h y x = Ok (around input h y x).
Proof.
  intros [HY HR] Hh Hy Hx. unfold hood.
  set (c0 := Z.max 0 (x - h)). set (c1 := Z.min (nX - 1) (x + h)).
  set (r0 := Z.max 0 (y - h)). set (r1 := Z.min (nY - 1) (y + h)).
  rewrite (mapM_ext _ (fun ii => row <- znth input ii ;; Ok (slice row c0 c1))).
  2:{ intros ii Hii. apply in_zrange in Hii. destruct (znth_some input ii ltac:(lia)) as (row & Er).
      rewrite (mapM_ext _ (fun jj => znth row jj)) by (intros jj _; unfold get2; rewrite Er; reflexivity). rewrite Er. cbn [bind].
      pose proof (HR row (znth_In _ _ _ Er)). rewrite slice_znth by lia. do 2 f_equal. lia. }
  rewrite mapM_bind_map, slice_znth by lia. cbn [bind]. do 2 f_equal. unfold around.
  rewrite (slice_clip input (y - h) (y + h)). fold r0. replace (Z.min (zlen input - 1) (y + h)) with r1 by (unfold r1; lia).
  replace (r1 + 1 - 1) with r1 by lia. f_equal. apply map_ext_in. intros row Hr. apply in_slice in Hr as (i & _ & Er).
  rewrite (slice_clip row (x - h) (x + h)), (HR row (znth_In _ _ _ Er)). reflexivity.
Qed.

(** ** summed-area table *)
Definition zsum (l : list Z) : Z := fold_right Z.add 0 l.
Lemma zsum_app l m : zsum (l ++ m) = zsum l + zsum m.
Proof. induction l as [|x l IH]; cbn; [reflexivity|]. unfold zsum in *. lia. Qed.
Definition Sq (f : vec2) (i j : Z) : Qc := qsum (map (fun row => psum row j) (firstn (Z.to_nat i) f)).
Definition Cq (f : vec2) (i j : Z) : Z := zsum (map (fun row => pcnt row j) (firstn (Z.to_nat i) f)).
Lemma Sq_row f i j row : znth f i = Ok row -> Sq f (i + 1) j = (Sq f i j + psum row j)%Qc.
Proof. intros H. unfold Sq. rewrite (firstn_step _ _ _ H), map_app, qsum_app. cbn. ring. Qed.
Lemma Cq_row f i j row : znth f i = Ok row -> Cq f (i + 1) j = Cq f i j + pcnt row j.
Proof. intros H. unfold Cq. rewrite (firstn_step _ _ _ H), map_app, zsum_app. cbn. lia. Qed.
Lemma Sq_0j f j : Sq f 0 j = 0%Qc. Proof. reflexivity. Qed.
Lemma Cq_0j f j : Cq f 0 j = 0. Proof. reflexivity. Qed.
Lemma Sq_i0 f i : Sq f i 0 = 0%Qc.
Proof. unfold Sq. induction (firstn (Z.to_nat i) f) as [|r l IH]; [reflexivity|]. cbn [map qsum]. rewrite IH. change (psum r 0) with 0%Qc. ring. Qed.
Lemma Cq_i0 f i : Cq f i 0 = 0.
Proof. unfold Cq. induction (firstn (Z.to_nat i) f) as [|r l IH]; [reflexivity|]. unfold zsum in *. cbn [map fold_right]. rewrite IH. change (pcnt r 0) with 0. reflexivity. Qed.

Section Sat.
Variables (input : vec2) (nY nX : Z).
Hypothesis (HR : rect nY nX input).
Definition done (i j i' j' : Z) : Prop := i' < i \/ (i' = i /\ j' < j).
Definition sat_inv (i j : Z) (s : vec2 * vec2z) : Prop :=
  let '(v, c) := s in
  rect nY nX v /\ rect nY nX c /\
  forall i' j', 0 <= i' < nY -> 0 <= j' < nX ->
    (done i j i' j' -> get2 v i' j' = Ok (Fin (Sq input (i' + 1) (j' + 1))) /\ get2 c i' j' = Ok (Cq input (i' + 1) (j' + 1))) /\
    (~ done i j i' j' -> get2 v i' j' = Ok (fz 0) /\ get2 c i' j' = Ok 0).
Lemma sat_step_ok i j s : 0 <= i < nY -> 0 <= j < nX -> sat_inv i j s -> exists s', sat_step input i s j = Ok s' /\ sat_inv i (j + 1) s'.
Proof.
  intros Hi Hj. destruct s as [v c]. intros (Rv & Rc & H). unfold sat_step.
  assert (STORE : forall x k, x = Sq input (i + 1) (j + 1) -> k = Cq input (i + 1) (j + 1) ->
    exists s', (values' <- set2 v i j (Fin x) ;; counts' <- set2 c i j k ;; Ok (values', counts')) = Ok s' /\ sat_inv i (j + 1) s').
  { intros x k Ex Ek. destruct (rect_set2 nY nX v i j (Fin x) Rv Hi Hj) as (v' & -> & Rv' & Gv).
    destruct (rect_set2 nY nX c i j k Rc Hi Hj) as (c' & -> & Rc' & Gc). cbn [bind]. eexists. split; [reflexivity|].
    split; [exact Rv'|]. split; [exact Rc'|]. intros i' j' Hi' Hj'. rewrite Gv, Gc by assumption.
    destruct (H i' j' Hi' Hj') as [H1 H2]. unfold done in *.
    destruct ((i' =? i) && (j' =? j)) eqn:B.
    - assert (i' = i /\ j' = j) as [-> ->] by lia. rewrite Ex, Ek. split; [auto|]. intros N. exfalso. apply N. lia.
    - split; intros D; [apply H1|apply H2]; lia. }
  destruct HR as [HY HRr]. destruct (znth_some input i ltac:(lia)) as (row & Er). pose proof (HRr row (znth_In _ _ _ Er)) as LR.
  destruct (znth_some row j ltac:(lia)) as (value & Ev). unfold get2 at 1. rewrite Er. cbn [bind]. rewrite Ev. cbn [bind].
  pose proof (Sq_row input i (j + 1) row Er) as S1. pose proof (Sq_row input i j row Er) as S0.
  pose proof (Cq_row input i (j + 1) row Er) as C1. pose proof (Cq_row input i j row Er) as C0.
  rewrite (psum_step row j value Ev) in S1. rewrite (pcnt_step row j value Ev) in C1.
  assert (Z0 : psum row 0 = 0%Qc /\ pcnt row 0 = 0) by (split; reflexivity).
  destruct (Z.eqb_spec j 0) as [->|Hj0]; cbn [andb].
  - destruct (Z.eqb_spec i 0) as [->|Hi0].
    + destruct (H 0 0 Hi Hj) as [_ H0]. destruct H0 as [V0 C00]; [unfold done; lia|].
      rewrite Sq_0j in S1. rewrite Cq_0j in C1. destruct Z0 as [Z1 Z2]. rewrite Z1 in S1. rewrite Z2 in C1.
      assert (KEEP : Sq input (0 + 1) (0 + 1) = 0%Qc -> Cq input (0 + 1) (0 + 1) = 0 -> exists s', Ok (v, c) = Ok s' /\ sat_inv 0 (0 + 1) s').
      { intros E1 E2. eexists. split; [reflexivity|]. split; [exact Rv|]. split; [exact Rc|]. intros i' j' Hi' Hj'.
        destruct (H i' j' Hi' Hj') as [H1 H2]. unfold done in *. split; intros D.
        - assert (i' = 0 /\ j' = 0) as [-> ->] by lia. rewrite E1, E2. split; assumption.
        - apply H2. lia. }
      destruct value as [| | |q]; cbn [is_valid].
      * apply KEEP; [rewrite S1; ring|lia].
      * apply KEEP; [rewrite S1; ring|lia].
      * apply KEEP; [rewrite S1; ring|lia].
      * apply STORE; [rewrite S1; ring|lia].
    + destruct (H (i - 1) 0 ltac:(lia) Hj) as [H1 _]. destruct H1 as [V1 K1]; [unfold done; lia|].
      replace (i - 1 + 1) with i in * by lia. rewrite V1, K1. cbn [bind]. destruct Z0 as [Z1 Z2]. rewrite Z1 in S1. rewrite Z2 in C1.
      destruct value as [| | |q]; cbn [is_valid vadd]; apply STORE; try (rewrite S1; ring); lia.
  - destruct (Z.eqb_spec i 0) as [->|Hi0].
    + destruct (H 0 (j - 1) Hi ltac:(lia)) as [H1 _]. destruct H1 as [V1 K1]; [unfold done; lia|].
      replace (j - 1 + 1) with j in * by lia. rewrite V1, K1. cbn [bind]. rewrite Sq_0j in *. rewrite Cq_0j in *.
      destruct value as [| | |q]; cbn [is_valid vadd]; apply STORE; try (rewrite S1, S0; ring); lia.
    + destruct (H i (j - 1) Hi ltac:(lia)) as [H1 _]. destruct H1 as [V1 K1]; [unfold done; lia|].
      destruct (H (i - 1) j ltac:(lia) Hj) as [H1 _]. destruct H1 as [V2 K2]; [unfold done; lia|].
      destruct (H (i - 1) (j - 1) ltac:(lia) ltac:(lia)) as [H1 _]. destruct H1 as [V3 K3]; [unfold done; lia|].
      replace (j - 1 + 1) with j in * by lia. replace (i - 1 + 1) with i in * by lia.
      rewrite V1, K1, V2, K2, V3, K3. cbn [bind].
      destruct value as [| | |q]; cbn [is_valid vadd vsub vneg]; apply STORE; try (rewrite S1, S0; ring); lia.
Qed.
Lemma sat_ok : 0 <= nY -> 0 <= nX -> exists v c, sat input nY nX = Ok (v, c) /\ sat_inv nY 0 (v, c).
Proof.
  intros PY PX. unfold sat.
  destruct (foldM_range (fun s i => foldM (sat_step input i) s (zrange 0 nX)) (fun i s => sat_inv i 0 s) 0 nY (init2 nY nX (fz 0), init2 nY nX 0)) as ([v c] & E & I).
  - lia.
  - split; [apply rect_init2; lia|]. split; [apply rect_init2; lia|]. intros i' j' Hi' Hj'. unfold init2.
    rewrite !(get2_map_zrange nY nX (fun _ _ => _)) by lia. unfold done. split; [lia|auto].
  - intros i s Hi I. destruct (foldM_range (sat_step input i) (fun j s => sat_inv i j s) 0 nX s) as (s' & E & I').
    + lia.
    + exact I.
    + intros j s0 Hj I0. apply sat_step_ok; assumption.
    + exists s'. split; [exact E|]. destruct s' as [v' c']. destruct I' as (A & B & C). split; [exact A|]. split; [exact B|].
      intros i' j' Hi' Hj'. destruct (C i' j' Hi' Hj') as [C1 C2]. unfold done in *. split; intros D; [apply C1|apply C2]; lia.
  - eauto.
Qed.
(** sums over a window by inclusion-exclusion *)
Lemma qsum_finites_concat (l : list vec) : qsum (finites (concat l)) = qsum (map (fun r => qsum (finites r)) l).
Proof. induction l as [|r l IH]; [reflexivity|]. cbn. rewrite finites_app, qsum_app, IH. reflexivity. Qed.
Lemma zlen_finites_concat (l : list vec) : zlen (finites (concat l)) = zsum (map (fun r => zlen (finites r)) l).
Proof. induction l as [|r l IH]; [reflexivity|]. cbn. rewrite finites_app, zlen_app, IH. reflexivity. Qed.
Lemma qsum_map_sub {A} (g h : A -> Qc) l : qsum (map (fun r => g r - h r)%Qc l) = (qsum (map g l) - qsum (map h l))%Qc.
Proof. induction l as [|r l IH]; cbn; [ring|]. rewrite IH. ring. Qed.
Lemma zsum_map_sub {A} (g h : A -> Z) l : zsum (map (fun r => g r - h r) l) = zsum (map g l) - zsum (map h l).
Proof. induction l as [|r l IH]; cbn; [reflexivity|]. unfold zsum in *. lia. Qed.
Lemma window_sums a b c d : 0 <= a <= b -> b <= nY -> 0 <= c <= d -> d <= nX ->
  let w := concat (map (fun row => slice row c (d - 1)) (slice input a (b - 1))) in
  (qsum (finites w) = Sq input b d - Sq input a d - Sq input b c + Sq input a c)%Qc /\
  zlen (finites w) = Cq input b d - Cq input a d - Cq input b c + Cq input a c.
Proof.
  intros Hab Hb Hcd Hd w. destruct HR as [HY HRr].
  assert (IN : forall row, In row (slice input a (b - 1)) -> zlen row = nX).
  { intros row Hr. apply in_slice in Hr as (i & _ & Er). apply HRr. eapply znth_In; eauto. }
  split.
  - unfold w. rewrite qsum_finites_concat, map_map.
    rewrite (map_ext_in _ (fun row => psum row d - psum row c)%Qc).
    2:{ intros row Hr. pose proof (IN row Hr). rewrite psum_slice by lia. reflexivity. }
    rewrite qsum_map_sub. unfold Sq. rewrite (slice_split input a b) by lia. rewrite !map_app, !qsum_app. ring.
  - unfold w. rewrite zlen_finites_concat, map_map.
    rewrite (map_ext_in _ (fun row => pcnt row d - pcnt row c)).
    2:{ intros row Hr. pose proof (IN row Hr). rewrite pcnt_slice by lia. reflexivity. }
    rewrite zsum_map_sub. unfold Cq. rewrite (slice_split input a b) by lia. rewrite !map_app, !zsum_app. lia.
Qed.
Lemma around_clip h y x : 0 <= h -> 0 <= y < nY -> 0 <= x < nX ->
  around input h y x = concat (map (fun row => slice row (Z.max 0 (x - h)) (Z.min (nX - 1) (x + h))) (slice input (Z.max 0 (y - h)) (Z.min (nY - 1) (y + h)))).
Proof.
  intros Hh Hy Hx. destruct HR as [HY HRr]. unfold around. rewrite (slice_clip input (y - h) (y + h)), HY. f_equal. apply map_ext_in.
  intros row Hr. apply in_slice in Hr as (i & _ & Er). rewrite (slice_clip row (x - h) (x + h)), (HRr row (znth_In _ _ _ Er)). reflexivity.
Qed.
Lemma sat_cell_spec E v c h st i j : sat_inv nY 0 (v, c) -> 0 <= h -> 0 <= i < nY -> 0 <= j < nX ->
  st = Mean \/ st = Sum \/ st = Count ->
  sat_cell v c nY nX h st i j = calc_statistic E (around input h i j) st.
Proof.
  intros (Rv & Rc & H) Hh Hi Hj Hst. unfold sat_cell.
  set (i1 := Z.min (nY - 1) (i + h)). set (j1 := Z.min (nX - 1) (j + h)). set (i0 := i - h - 1). set (j0 := j - h - 1).
  assert (G : forall i' j', 0 <= i' < nY -> 0 <= j' < nX -> get2 v i' j' = Ok (Fin (Sq input (i' + 1) (j' + 1))) /\ get2 c i' j' = Ok (Cq input (i' + 1) (j' + 1))).
  { intros i' j' Hi' Hj'. apply (proj1 (H i' j' Hi' Hj')). unfold done. lia. }
  assert (B : 0 <= i1 < nY /\ 0 <= j1 < nX /\ i0 < i /\ j0 < j) by (unfold i1, j1, i0, j0; lia).
  destruct (G i1 j1 ltac:(lia) ltac:(lia)) as [-> ->]. cbn [bind].
  set (a := Z.max 0 (i - h)). set (cc := Z.max 0 (j - h)).
  destruct (window_sums a (i1 + 1) cc (j1 + 1)) as [WQ WC]; [unfold a, i1; lia|unfold i1; lia|unfold cc, j1; lia|unfold j1; lia|].
  replace (i1 + 1 - 1) with i1 in * by lia. replace (j1 + 1 - 1) with j1 in * by lia.
  rewrite (around_clip h i j Hh Hi Hj). fold a cc i1 j1. set (w := concat _) in *.
  assert (P : exists q00 q10 q01 k00 k10 k01,
    (if (0 <=? i0) && (0 <=? j0) then
       v00 <- get2 v i0 j0 ;; v10 <- get2 v i1 j0 ;; v01 <- get2 v i0 j1 ;;
       c00 <- get2 c i0 j0 ;; c10 <- get2 c i1 j0 ;; c01 <- get2 c i0 j1 ;;
       Ok (v00, v10, v01, c00, c10, c01)
     else if 0 <=? j0 then
       v10 <- get2 v i1 j0 ;; c10 <- get2 c i1 j0 ;; Ok (fz 0, v10, fz 0, 0, c10, 0)
     else if 0 <=? i0 then
       v01 <- get2 v i0 j1 ;; c01 <- get2 c i0 j1 ;; Ok (fz 0, fz 0, v01, 0, 0, c01)
     else Ok (fz 0, fz 0, fz 0, 0, 0, 0)) = Ok (Fin q00, Fin q10, Fin q01, k00, k10, k01)
    /\ q00 = Sq input a cc /\ q10 = Sq input (i1 + 1) cc /\ q01 = Sq input a (j1 + 1)
    /\ k00 = Cq input a cc /\ k10 = Cq input (i1 + 1) cc /\ k01 = Cq input a (j1 + 1)).
  { destruct (Z.leb_spec 0 i0) as [I0|I0]; destruct (Z.leb_spec 0 j0) as [J0|J0]; cbn [andb].
    - destruct (G i0 j0 ltac:(lia) ltac:(lia)) as [-> ->]. destruct (G i1 j0 ltac:(lia) ltac:(lia)) as [-> ->].
      destruct (G i0 j1 ltac:(lia) ltac:(lia)) as [-> ->]. cbn [bind]. replace (i0 + 1) with a by (unfold a; lia). replace (j0 + 1) with cc by (unfold cc; lia).
      do 6 eexists. split; [reflexivity|]. repeat split; reflexivity.
    - destruct (G i0 j1 ltac:(lia) ltac:(lia)) as [-> ->]. cbn [bind]. replace (i0 + 1) with a by (unfold a; lia). replace cc with 0 by (unfold cc; lia).
      do 6 eexists. split; [reflexivity|]. rewrite !Sq_i0, !Cq_i0. repeat split; reflexivity.
    - destruct (G i1 j0 ltac:(lia) ltac:(lia)) as [-> ->]. cbn [bind]. replace a with 0 by (unfold a; lia). replace (j0 + 1) with cc by (unfold cc; lia).
      do 6 eexists. split; [reflexivity|]. rewrite !Sq_0j, !Cq_0j. repeat split; reflexivity.
    - replace a with 0 by (unfold a; lia). replace cc with 0 by (unfold cc; lia).
      do 6 eexists. split; [reflexivity|]. rewrite !Sq_0j, !Cq_0j, !Sq_i0, !Cq_i0. repeat split; reflexivity. }
  destruct P as (q00 & q10 & q01 & k00 & k10 & k01 & -> & E1 & E2 & E3 & E4 & E5 & E6). cbn [bind vadd vsub vneg].
  assert (EC : Cq input (i1 + 1) (j1 + 1) + k00 - k10 - k01 = zlen (finites w)) by lia.
  assert (EQ : (Sq input (i1 + 1) (j1 + 1) + q00 + - q10 + - q01 = qsum (finites w))%Qc) by (rewrite WQ, E1, E2, E3; ring).
  rewrite EC, EQ. pose proof (zlen_nonneg (finites w)).
  destruct Hst as [->|[->| ->]]; cbn [stat_eqb].
  - rewrite calc_mean. destruct (finites w) as [|q t] eqn:F; [reflexivity|]. rewrite zlen_cons. pose proof (zlen_nonneg t).
    replace (0 <? zlen t + 1) with true by lia. unfold fz. rewrite vdiv_Fin; [rewrite <- (zlen_cons q t); reflexivity|].
    rewrite <- (zlen_cons q t). apply (qlen_neq0 (q :: t)). discriminate.
  - rewrite calc_sum. destruct (finites w) as [|q t] eqn:F; [reflexivity|]. rewrite zlen_cons. pose proof (zlen_nonneg t).
    replace (0 <? zlen t + 1) with true by lia. reflexivity.
  - rewrite calc_count. reflexivity.
Qed.
End Sat.

(** ** Min and Max *)
Definition mm (st : statistic) (l : list Qc) (r : Qc) : Prop := if stat_eqb st Min then is_min l r else is_max l r.
Lemma mm_unique st l r r' : mm st l r -> mm st l r' -> r = r'.
Proof. unfold mm. destruct (stat_eqb st Min); [apply is_min_unique|apply is_max_unique]. Qed.
Lemma mm_calc E a st : st = Min \/ st = Max ->
  (finites a = [] -> calc_statistic E a st = Ok MV) /\
  (finites a <> [] -> exists r, calc_statistic E a st = Ok (Fin r) /\ mm st (finites a) r).
Proof.
  intros Hst. split.
  - intros F. destruct (calc_statistic_ok E a st) as (v & -> & V & _). { unfold stat_listed. tauto. }
    rewrite V by exact F. destruct Hst as [->| ->]; reflexivity.
  - intros F. destruct Hst as [->| ->]; [apply calc_min|apply calc_max]; exact F.
Qed.
Lemma mm_set st l m r : (forall x, In x l <-> In x m) -> mm st l r -> mm st m r.
Proof.
  intros H. unfold mm. destruct (stat_eqb st Min); intros [A B]; (split; [apply H; exact A|]; intros x Hx; apply B, H, Hx).
Qed.
Lemma mm_same_set E a b st : st = Min \/ st = Max -> (forall x, In x (finites a) <-> In x (finites b)) ->
  calc_statistic E a st = calc_statistic E b st.
Proof.
  intros Hst H. destruct (mm_calc E a st Hst) as [A1 A2], (mm_calc E b st Hst) as [B1 B2].
  destruct (finites a) as [|x l] eqn:FA.
  - assert (finites b = []) as FB. { destruct (finites b) as [|y m]; [reflexivity|]. exfalso. apply (H y). left. reflexivity. }
    rewrite A1, B1 by auto. reflexivity.
  - assert (finites b <> []) as FB. { intros K. rewrite K in H. apply (H x). left. reflexivity. }
    destruct A2 as (r & -> & R); [discriminate|]. destruct (B2 FB) as (r' & -> & R'). do 2 f_equal.
    apply (mm_unique st (finites b)); [|exact R']. eapply mm_set; eauto.
Qed.
(** min of the per-part minima is the overall minimum *)
Lemma mm_concat E ls vs st : st = Min \/ st = Max -> mapM (fun l => calc_statistic E l st) ls = Ok vs ->
  calc_statistic E vs st = calc_statistic E (concat ls) st.
Proof.
  intros Hst HM.
  assert (KEY : (forall x, In x (finites vs) -> In x (finites (concat ls))) /\
                (forall x, In x (finites (concat ls)) -> exists m, In m (finites vs) /\ if stat_eqb st Min then (m <= x)%Qc else (x <= m)%Qc)).
  { revert vs HM. induction ls as [|l ls IH]; intros vs HM; cbn in HM.
    - injection HM as <-. cbn. split; [tauto|]. intros x [].
    - apply bind_Ok in HM as (v & Ev & HM). apply bind_Ok in HM as (vs' & E' & HM). injection HM as <-.
      destruct (IH vs' E') as [I1 I2]. destruct (mm_calc E l st Hst) as [A1 A2]. cbn [concat]. rewrite finites_app.
      destruct (finites l) as [|x0 l0] eqn:F.
      + rewrite A1 in Ev by reflexivity. injection Ev as <-. cbn [app finites MV]. split; assumption.
      + destruct A2 as (r & Er & R); [discriminate|]. rewrite Ev in Er. injection Er as ->. cbn [finites]. split.
        * intros x [->|Hx]; apply in_or_app; [left|right; auto]. unfold mm in R. destruct (stat_eqb st Min); destruct R; assumption.
        * intros x Hx. apply in_app_or in Hx as [Hx|Hx].
          -- exists r. split; [left; reflexivity|]. unfold mm in R. destruct (stat_eqb st Min); destruct R as [_ R]; auto.
          -- destruct (I2 x Hx) as (m & M1 & M2). exists m. split; [right; exact M1|exact M2]. }
  destruct KEY as [K1 K2]. destruct (mm_calc E vs st Hst) as [A1 A2], (mm_calc E (concat ls) st Hst) as [B1 B2].
  destruct (finites vs) as [|x l] eqn:FV.
  - rewrite A1 by reflexivity. destruct (finites (concat ls)) as [|y m]; [rewrite B1; reflexivity|].
    exfalso. destruct (K2 y (or_introl eq_refl)) as (m0 & [] & _).
  - destruct (finites (concat ls)) as [|y m] eqn:FC. { exfalso. apply (K1 x). left. reflexivity. }
    destruct A2 as (r & -> & R); [discriminate|]. destruct B2 as (r' & -> & R'); [discriminate|]. do 2 f_equal.
    unfold mm in *. destruct (stat_eqb st Min); destruct R as [R1 R2], R' as [R1' R2'].
    + apply Qcle_antisym; [|apply R2'; apply K1; exact R1]. destruct (K2 r' R1') as (m0 & M1 & M2).
      eapply Qcle_trans; [apply R2; exact M1|exact M2].
    + apply Qcle_antisym; [apply R2'; apply K1; exact R1|]. destruct (K2 r' R1') as (m0 & M1 & M2).
      eapply Qcle_trans; [exact M2|apply R2; exact M1].
Qed.
Lemma finites_filter a : finites (filter is_valid a) = finites a.
Proof. rewrite filter_valid. apply finites_map_Fin. Qed.

Section MinMax.
Variables (E : ext) (input : vec2) (nY nX h : Z) (st : statistic).
Hypotheses (HR : rect nY nX input) (Hh : 0 <= h) (Hst : st = Min \/ st = Max).
Lemma st_listed_mm : stat_listed st. Proof. unfold stat_listed. tauto. Qed.
Lemma minmax_row i : 0 <= i < nY ->
  exists p, minmax_pre E input nY nX h st i = Ok p /\
    forall j, 0 <= j < nX -> minmax_cell E input nY nX h st i p j = calc_statistic E (around input h i j) st.
Proof.
  intros Hi. unfold minmax_pre. destruct ((i <? h) || (nY - h <=? i)) eqn:EDGE.
  - exists None. split; [reflexivity|]. intros j Hj. cbn [minmax_cell]. rewrite (hood_around input nY nX) by assumption. cbn [bind].
    apply mm_same_set; [exact Hst|]. intros x. rewrite finites_filter. reflexivity.
  - destruct HR as [HY HRr].
    set (column := fun j => map (fun ii => match get2 input ii j with Ok v => v | _ => NaN end) (zrange (i - h) (i + h + 1))).
    assert (COL : forall j, 0 <= j < nX -> mapM (fun ii => get2 input ii j) (zrange (i - h) (i + h + 1)) = Ok (column j)).
    { intros j Hj. apply mapM_ok. intros ii Hii. apply in_zrange in Hii.
      destruct (rect_get2 nY nX input ii j HR ltac:(lia) Hj) as (v & ->). reflexivity. }
    destruct (Z.eq_dec nX 0) as [X0|X0].
    { subst. exists (Some []). split; [reflexivity|]. lia. }
    assert (PX : 0 <= nX). { destruct (znth_some input i ltac:(lia)) as (row & Er). rewrite <- (HRr row (znth_In _ _ _ Er)). apply zlen_nonneg. }
    rewrite for1_init_tab by lia.
    destruct (mapM_total (fun j => sliver <- mapM (fun ii => get2 input ii j) (zrange (i - h) (i + h + 1)) ;; calc_statistic E sliver st)
       (fun j v => calc_statistic E (column j) st = Ok v) (zrange 0 nX)) as (sl & ES & LS & GS).
    { intros j Hj. apply in_zrange in Hj. rewrite COL by lia. cbn [bind].
      destruct (calc_statistic_ok E (column j) st st_listed_mm) as (v & -> & _). eauto. }
    rewrite ES. cbn [bind]. exists (Some sl). split; [reflexivity|]. intros j Hj. cbn [minmax_cell].
    rewrite zlen_zrange in LS.
    set (c0 := Z.max 0 (j - h)). set (c1 := Z.min (nX - 1) (j + h)).
    assert (CURR : exists curr, mapM (fun jj => znth sl jj) (zrange c0 (c1 + 1)) = Ok curr /\
       mapM (fun l => calc_statistic E l st) (map column (zrange c0 (c1 + 1))) = Ok curr).
    { assert (G : forall l, (forall jj, In jj l -> 0 <= jj < nX) -> exists curr, mapM (fun jj => znth sl jj) l = Ok curr /\ mapM (fun l => calc_statistic E l st) (map column l) = Ok curr).
      { induction l as [|jj l IH]; intros Hl; cbn; [eauto|]. pose proof (Hl jj (or_introl eq_refl)) as Hjj.
        destruct (GS jj jj) as (v & V1 & _ & V2); [rewrite znth_zrange by lia; f_equal; lia|]. rewrite V1, V2. cbn.
        destruct IH as (curr & -> & ->); [intros; apply Hl; right; assumption|]. cbn. eauto. }
      apply G. intros jj Hjj. apply in_zrange in Hjj. unfold c0, c1 in Hjj. lia. }
    destruct CURR as (curr & -> & CM). cbn [bind]. rewrite (mm_concat E _ _ st Hst CM).
    apply mm_same_set; [exact Hst|]. intros x. rewrite !in_finites, in_around, in_concat. split.
    + intros (l & Hl & Hx). apply in_map_iff in Hl as (jj & <- & Hjj). apply in_zrange in Hjj.
      unfold column in Hx. apply in_map_iff in Hx as (ii & Ex & Hii). apply in_zrange in Hii.
      exists ii, jj. split; [lia|]. split; [unfold c0, c1 in Hjj; lia|].
      destruct (get2 input ii jj) as [v| | |] eqn:G; try discriminate. congruence.
    + intros (ii & jj & Hii & Hjj & G). pose proof (get2_range nY nX input ii jj _ HR G) as [R1 R2].
      exists (column jj). split; [apply in_map; apply in_zrange; unfold c0, c1; lia|].
      unfold column. apply in_map_iff. exists ii. split; [rewrite G; reflexivity|apply in_zrange; lia].
Qed.
End MinMax.
