(** Proofs about the argument checks of neighbourhood_quantile_fast for ensembles and about the size of the level field. *)
From Verif Require Import Base ListLib M_Stat M_Interp M_Neigh M_Fast S_Stat S_Interp S_Neigh S_Fast P_Stat P_Quant P_Even P_Interp P_Slice P_Window P_Neigh P_NeighAll P_NeighMore P_NeighSafe P_Fast.
Local Open Scope Z_scope.

Lemma wrong_sizes quantile q0 nY nX : znth quantile 0 = Ok q0 -> ~ (zlen quantile = 1 /\ zlen q0 = 1) -> ~ (zlen quantile = nY /\ zlen q0 = nX) ->
  has_size quantile 1 1 = Ok false /\ has_size quantile nY nX = Ok false.
Proof.
  intros E0 N1 N2. unfold has_size. rewrite E0. cbn [bind]. split.
  - destruct (zlen quantile =? 1) eqn:A; [|reflexivity]. f_equal. lia.
  - destruct (zlen quantile =? nY) eqn:A; [|reflexivity]. f_equal. lia.
Qed.
Lemma quantile_fast2_size E input quantile q0 nY nX h thr : rect nY nX input -> 0 < nY -> 0 < nX ->
  znth quantile 0 = Ok q0 -> ~ (zlen quantile = 1 /\ zlen q0 = 1) -> ~ (zlen quantile = nY /\ zlen q0 = nX) ->
  quantile_fast2 E input quantile h thr = Throw InvalidArgument.
Proof.
  intros HR HY HX E0 N1 N2. unfold quantile_fast2. destruct (h <? 0); [reflexivity|]. pose proof HR as [RL _]. replace (zlen input =? 0) with false by lia.
  destruct (znth_some input 0 ltac:(lia)) as (r & Er). pose proof (proj2 HR r (znth_In _ _ _ Er)) as Lr. rewrite Er. cbn [bind]. replace (zlen r =? 0) with false by lia. rewrite RL, Lr.
  destruct (wrong_sizes _ _ _ _ E0 N1 N2) as [-> S2]. cbn [bind]. rewrite S2. reflexivity.
Qed.
Lemma quantile_fast3_checks E input quantile nY nX nE h thr : rect3 nY nX nE input -> 0 < nY -> 0 < nX -> 0 < nE ->
  (h < 0 -> quantile_fast3 E input quantile h thr = Throw InvalidArgument) /\
  ((exists y x q, get2 quantile y x = Ok q /\ ~ good_level q) -> quantile_fast3 E input quantile h thr = Throw InvalidArgument) /\
  (forall q0, znth quantile 0 = Ok q0 -> ~ (zlen quantile = 1 /\ zlen q0 = 1) -> ~ (zlen quantile = nY /\ zlen q0 = nX) ->
     quantile_fast3 E input quantile h thr = Throw InvalidArgument) /\
  (0 <= h -> (rect 1 1 quantile \/ rect nY nX quantile) -> (forall y x q, get2 quantile y x = Ok q -> good_level q) ->
     quantile_fast3 E input quantile h [] = Ok (map (map (fun _ => MV)) input)).
Proof.
  intros HR HY HX HE. unfold quantile_fast3.
  destruct HR as [HR HE3]. pose proof HR as [RL _]. replace (zlen input =? 0) with false by lia.
  destruct (znth_some input 0 ltac:(lia)) as (r & Er). pose proof (proj2 HR r (znth_In _ _ _ Er)) as Lr. rewrite Er. cbn [bind]. replace (zlen r =? 0) with false by lia. rewrite RL, Lr.
  destruct (znth_some r 0 ltac:(lia)) as (c & Ec). rewrite Ec. cbn [bind].
  assert (Lc : zlen c = nE) by (apply (HE3 r); [exact (znth_In _ _ _ Er)|exact (znth_In _ _ _ Ec)]). rewrite Lc. replace (nE =? 0) with false by lia.
  split; [intros; replace (h <? 0) with true by lia; reflexivity|].
  split; [|split].
  - intros (y & x & q & G & B). destruct (h <? 0); [reflexivity|]. destruct (size_cases quantile nY nX HY HX) as (fixed & full & -> & S2). cbn [bind]. rewrite S2. cbn [bind].
    destruct full; [|reflexivity]. cbn [negb]. rewrite (bad_level_found _ _ _ _ G B). reflexivity.
  - intros q0 E0 N1 N2. destruct (h <? 0); [reflexivity|]. destruct (wrong_sizes _ _ _ _ E0 N1 N2) as [-> S2]. cbn [bind]. rewrite S2. reflexivity.
  - intros Hh HQ HG. replace (h <? 0) with false by lia. destruct (sizes_ok quantile nY nX HY HX HQ HG) as (fixed & -> & S2 & S3 & _). cbn [bind].
    destruct (if fixed then Ok true else has_size quantile nY nX) as [full| | |]; try discriminate S2. cbn [bind] in S2 |- *. injection S2 as ->. cbn [negb].
    rewrite S3. cbn [negb]. unfold fast_tail. change (zlen (@nil val) =? 0) with true. cbn iota. f_equal.
    apply (rect_ext nY nX); [apply rect_init2; lia|apply rect_map; exact HR|]. intros y x Hy Hx. unfold init2. rewrite get2_map_zrange by lia.
    destruct (rect_get2 nY nX input y x HR Hy Hx) as (v & Ev). rewrite (get2_map _ _ _ _ _ Ev). reflexivity.
Qed.
