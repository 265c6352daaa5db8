From Verif Require Import Base ListLib M_Stat M_Window S_Stat S_Window P_Stat P_Quant P_Even P_Slice.
From Coq Require Import Lqa.

(** ** prefix sums *)
Definition psum (row : vec) (k : Z) : Qc := qsum (finites (firstn (Z.to_nat k) row)).
Definition pcnt (row : vec) (k : Z) : Z := zlen (finites (firstn (Z.to_nat k) row)).
Lemma psum_step row i v : znth row i = Ok v -> psum row (i + 1) = (psum row i + match v with Fin x => x | _ => 0 end)%Qc.
Proof. intros H. unfold psum. rewrite (firstn_step _ _ _ H), finites_app, qsum_app. destruct v; cbn; ring. Qed.
Lemma pcnt_step row i v : znth row i = Ok v -> pcnt row (i + 1) = pcnt row i + match v with Fin x => 1 | _ => 0 end.
Proof. intros H. unfold pcnt. rewrite (firstn_step _ _ _ H), finites_app, zlen_app. destruct v; reflexivity. Qed.
Definition accum_inv (row : vec) (i : Z) (s : vec * vec) : Prop :=
  let '(values, counts) := s in
  zlen values = zlen row /\ zlen counts = zlen row /\
  (forall j, 0 <= j < i -> znth values j = Ok (Fin (psum row (j + 1))) /\ znth counts j = Ok (fz (pcnt row (j + 1)))) /\
  (forall j, i <= j < zlen row -> znth values j = Ok (fz 0) /\ znth counts j = Ok (fz 0)).
Lemma accumulate_ok row : exists values counts, accumulate row = Ok (values, counts) /\ accum_inv row (zlen row) (values, counts).
Proof.
  unfold accumulate. pose proof (zlen_nonneg row) as HN.
  destruct (foldM_range (accum_step row) (accum_inv row) 0 (zlen row) (init1 (zlen row) (fz 0), init1 (zlen row) (fz 0))) as ([v c] & E & I).
  - lia.
  - cbn. rewrite !zlen_init1 by lia. repeat split; intros; try lia; apply init1_znth; lia.
  - intros i [v c] Hi (L1 & L2 & H1 & H2). unfold accum_step.
    destruct (znth_some row i Hi) as (a & Ha). rewrite Ha. cbn [bind].
    pose proof (psum_step _ _ _ Ha) as PS. pose proof (pcnt_step _ _ _ Ha) as PC.
    assert (SET : forall x y, Fin x = Fin (psum row (i + 1)) -> y = fz (pcnt row (i + 1)) ->
      exists s', (v0 <- zset v i (Fin x) ;; c0 <- zset c i y ;; Ok (v0, c0)) = Ok s' /\ accum_inv row (i + 1) s').
    { intros x y Ex Ey. rewrite !zset_Ok by lia. cbn [bind]. eexists. split; [reflexivity|]. cbn. rewrite !zlen_lset.
      split; [exact L1|]. split; [exact L2|]. split.
      - intros j Hj. rewrite !znth_lset by lia. destruct (Z.eqb_spec j i) as [->|]; [rewrite Ex, Ey; auto|]. apply H1. lia.
      - intros j Hj. rewrite !znth_lset by lia. replace (j =? i) with false by lia. apply H2. lia. }
    destruct (Z.eqb_spec i 0) as [->|Hi0].
    + assert (P0 : psum row 0 = 0%Qc) by reflexivity. assert (C0 : pcnt row 0 = 0) by reflexivity. rewrite P0 in PS. rewrite C0 in PC.
      assert (KEEP : psum row (0 + 1) = 0%Qc -> pcnt row (0 + 1) = 0 -> exists s', Ok (v, c) = Ok s' /\ accum_inv row (0 + 1) s').
      { intros E1 E2. eexists. split; [reflexivity|]. cbn. split; [exact L1|]. split; [exact L2|]. split.
        - intros j Hj. assert (j = 0) as -> by lia. rewrite E1, E2. apply H2. lia.
        - intros j Hj. apply H2. lia. }
      destruct a as [| | |x]; cbn [is_valid].
      * apply KEEP; [rewrite PS; ring|exact PC].
      * apply KEEP; [rewrite PS; ring|exact PC].
      * apply KEEP; [rewrite PS; ring|exact PC].
      * apply SET; [rewrite PS; f_equal; ring|rewrite PC; reflexivity].
    + destruct (H1 (i - 1) ltac:(lia)) as [V1 C1]. replace (i - 1 + 1) with i in * by lia. rewrite V1, C1. cbn [bind].
      destruct a as [| | |x]; cbn [is_valid].
      * apply SET; [rewrite PS; f_equal; ring|rewrite PC; f_equal; lia].
      * apply SET; [rewrite PS; f_equal; ring|rewrite PC; f_equal; lia].
      * apply SET; [rewrite PS; f_equal; ring|rewrite PC; f_equal; lia].
      * cbn [vadd]. apply SET; [rewrite PS; f_equal; ring|]. rewrite PC. unfold fz. cbn [vadd]. rewrite qz_add. reflexivity.
  - exists v, c. split; [exact E|exact I].
Qed.
Lemma psum_slice row a b : 0 <= a <= b -> b <= zlen row -> (psum row b - psum row a = qsum (finites (slice row a (b - 1))))%Qc.
Proof. intros H Hb. unfold psum. rewrite (slice_split row a b H Hb), finites_app, qsum_app. ring. Qed.
Lemma pcnt_slice row a b : 0 <= a <= b -> b <= zlen row -> pcnt row b - pcnt row a = zlen (finites (slice row a (b - 1))).
Proof. intros H Hb. unfold pcnt. rewrite (slice_split row a b H Hb), finites_app, zlen_app. lia. Qed.
Lemma finites_le a : zlen (finites a) <= zlen a.
Proof. induction a as [|v a IH]; [reflexivity|]. destruct v; cbn [finites]; rewrite ?zlen_cons; lia. Qed.
Lemma has_missing a : existsb (fun v => negb (is_valid v)) a = (zlen (finites a) <? zlen a).
Proof.
  induction a as [|v a IH]; [reflexivity|]. pose proof (finites_le a).
  destruct v; cbn [finites existsb is_valid negb orb]; rewrite ?zlen_cons, ?IH; try (symmetry; apply Z.ltb_lt; lia).
  destruct (Z.ltb_spec (zlen (finites a)) (zlen a)), (Z.ltb_spec (zlen (finites a) + 1) (zlen a + 1)); lia || reflexivity.
Qed.
Lemma count_missing a : (0 <? zlen (filter (fun v => negb (is_valid v)) a)) = existsb (fun v => negb (is_valid v)) a.
Proof.
  induction a as [|v a IH]; [reflexivity|]. cbn [filter existsb]. destruct (negb (is_valid v)); [|exact IH].
  cbn. rewrite zlen_cons. pose proof (zlen_nonneg (filter (fun v0 => negb (is_valid v0)) a)). lia.
Qed.
Lemma half_odd length : 0 < length -> Z.Odd length -> Z.quot length 2 = (length - 1) / 2.
Proof. intros H [k ->]. rewrite Z.quot_div_nonneg by lia. replace (2 * k + 1 - 1) with (k * 2) by lia. rewrite Z.div_mul by lia.
  replace (2 * k + 1) with (1 + k * 2) by lia. rewrite Z.div_add by lia. reflexivity. Qed.

(** ** non-accumulating statistics *)
Lemma slow_cell_spec E row length st before km me x : length_ok length before -> 0 <= x < zlen row ->
  slow_cell E (zlen row) length st before km me row x = window_value E row length st before km me x.
Proof.
  intros [HL HO] Hx. unfold slow_cell, window_value.
  set (lo := win_lo before length x). set (hi := win_hi before length x).
  assert (E1 : (if before then x - length + 1 else x - Z.quot length 2) = lo).
  { unfold lo, win_lo. destruct before; [reflexivity|]. rewrite half_odd by auto. reflexivity. }
  assert (E2 : (if before then x else x + Z.quot length 2) = hi).
  { unfold hi, win_hi. destruct before; [reflexivity|]. rewrite half_odd by auto. reflexivity. }
  rewrite E1, E2.
  assert (B : lo <= x <= hi).
  { unfold lo, hi, win_lo, win_hi. pose proof (Z.div_pos (length - 1) 2 ltac:(lia) ltac:(lia)). destruct before; lia. }
  assert (E3 : (if lo <? 0 then 0 else lo) = Z.max 0 lo) by (destruct (Z.ltb_spec lo 0); lia).
  assert (E4 : (if zlen row - 1 <? hi then zlen row - 1 else hi) = Z.min (zlen row - 1) hi) by (destruct (Z.ltb_spec (zlen row - 1) hi); lia).
  rewrite E3, E4. replace (_ <? 0) with false by lia.
  rewrite slice_znth by lia. cbn [bind]. replace (Z.min (zlen row - 1) hi + 1 - 1) with (Z.min (zlen row - 1) hi) by lia.
  rewrite <- slice_clip, count_missing. replace (zlen row - 1 <? hi) with (zlen row <=? hi) by lia. reflexivity.
Qed.

(** ** accumulating statistics *)
Lemma fz_sub a b : vsub (fz a) (fz b) = fz (a - b).
Proof. unfold fz. cbn. f_equal. rewrite qz_sub. reflexivity. Qed.
Lemma fz_eqb a b : veqb (fz a) (fz b) = (a =? b).
Proof.
  unfold fz. rewrite veqb_Fin. destruct (qeqb_spec (qz a) (qz b)) as [H|H], (Z.eqb_spec a b) as [G|G]; try reflexivity; exfalso.
  - apply G, qz_inj, H. - apply H. congruence.
Qed.
Lemma fz_ltb a b : vltb (fz a) (fz b) = (a <? b).
Proof.
  change (vltb (fz a) (fz b)) with (qltb (qz a) (qz b)). destruct (qltb_spec (qz a) (qz b)) as [H|H], (Z.ltb_spec a b) as [G|G]; try reflexivity; exfalso.
  - destruct (Z.lt_ge_cases a b) as [|K]; [lia|]. apply qz_le in K. qlra.
  - apply H. apply qz_lt. exact G.
Qed.
(** with the value read before the buffer equal to 0 the fast path is correct for Sum and Mean *)
Lemma fast_cell_spec oob E row values counts length st before km me x :
  length_ok length before -> 0 <= x < zlen row -> accum_inv row (zlen row) (values, counts) ->
  oob = Ok (fz 0) \/ (km = false /\ (st = Sum \/ (win_lo before length x <= 0 -> pcnt row (Z.min (zlen row) (win_hi before length x + 1)) = 0))) ->
  st = Sum \/ st = Mean ->
  fast_cell oob (zlen row) length st before km me row values counts x = window_value E row length st before km me x.
Proof.
  intros [HL HO] Hx (L1 & L2 & HV & _) HOK Hst. unfold fast_cell, window_value.
  set (lo := win_lo before length x). set (hi := win_hi before length x).
  pose proof (Z.div_pos (length - 1) 2 ltac:(lia) ltac:(lia)) as Hhalf.
  assert (B : lo <= x <= hi) by (unfold lo, hi, win_lo, win_hi; destruct before; lia).
  assert (E1 : (if before then Z.max 0 (x - length + 1) else Z.max 0 (x - Z.quot length 2)) = Z.max 0 lo).
  { unfold lo, win_lo. destruct before; [reflexivity|]. rewrite half_odd by auto. reflexivity. }
  assert (E2 : (if before then x else Z.min (zlen row - 1) (x + Z.quot length 2)) = Z.min (zlen row - 1) hi).
  { unfold hi, win_hi. destruct before; [lia|]. rewrite half_odd by auto. reflexivity. }
  rewrite E1, E2.
  set (s := Z.max 0 lo). set (e := Z.min (zlen row - 1) hi).
  assert (Hse : 0 <= s <= x /\ x <= e < zlen row) by (unfold s, e; lia).
  rewrite (slice_clip row lo hi). fold s e.
  pose proof (psum_slice row s (e + 1) ltac:(lia) ltac:(lia)) as PS. pose proof (pcnt_slice row s (e + 1) ltac:(lia) ltac:(lia)) as PC.
  replace (e + 1 - 1) with e in PS, PC by lia.
  pose proof (zlen_slice row s (e + 1) ltac:(lia) ltac:(lia)) as LS. replace (e + 1 - 1) with e in LS by lia.
  set (w := slice row s e) in *.
  destruct (HV e ltac:(lia)) as [Ve Ce]. rewrite Ve, Ce. cbn [bind].
  (* value before the flags *)
  set (cb := if s =? 0 then oob else znth counts (s - 1)).
  assert (CB : cb = Ok (fz (pcnt row s)) \/ (km = false /\ (st = Sum \/ pcnt row (e + 1) = 0))).
  { unfold cb. destruct (Z.eqb_spec s 0) as [S0|S0]; [destruct HOK as [->|[K1 K2]]; [left|right; split; [exact K1|]]|].
    - rewrite S0. reflexivity.
    - destruct K2 as [K2|K2]; [left; exact K2|right]. fold lo hi in K2. replace (e + 1) with (Z.min (zlen row) (hi + 1)) by (unfold e; lia).
      apply K2. unfold s in S0. lia.
    - left. destruct (HV (s - 1) ltac:(lia)) as [_ C]. replace (s - 1 + 1) with s in C by lia. exact C. }
  assert (OUT : (if 0 <=? s - 1
    then cs <- znth counts (s - 1) ;;
         (if negb (veqb (vsub (fz (pcnt row (e + 1))) cs) (fz 0))
          then vs <- znth values (s - 1) ;; Ok (vsub (Fin (psum row (e + 1))) vs)
          else Ok MV)
    else if negb (veqb (fz (pcnt row (e + 1))) (fz 0)) then Ok (Fin (psum row (e + 1))) else Ok MV)
    = Ok (if finites w then MV else Fin (qsum (finites w)))).
  { assert (Z0 : (pcnt row (e + 1) - pcnt row s =? 0) = (match finites w with [] => true | _ => false end)).
    { rewrite PC. destruct (finites w) as [|q t]; [reflexivity|]. rewrite zlen_cons. pose proof (zlen_nonneg t). lia. }
    destruct (Z.leb_spec 0 (s - 1)) as [S1|S1].
    - destruct (HV (s - 1) ltac:(lia)) as [V C]. replace (s - 1 + 1) with s in * by lia. rewrite V, C. cbn [bind].
      rewrite fz_sub, fz_eqb, Z0. destruct (finites w) eqn:F; [reflexivity|]. cbn [negb vsub vadd vneg]. do 2 f_equal. rewrite <- PS. ring.
    - assert (S0 : s = 0) by lia. rewrite S0 in *. change (pcnt row 0) with 0 in *. change (psum row 0) with 0%Qc in *.
      rewrite fz_eqb. rewrite Z.sub_0_r in Z0. rewrite Z0. destruct (finites w) eqn:F; [reflexivity|]. cbn [negb]. do 2 f_equal. rewrite <- PS. ring. }
  rewrite OUT. cbn [bind].
  replace (stat_eqb st Count) with false by (destruct Hst as [->| ->]; reflexivity).
  assert (MEAN : (if stat_eqb st Mean && negb (veqb (fz (pcnt row (e + 1))) (fz 0)) then cs <- cb ;; Ok (vdiv (if finites w then MV else Fin (qsum (finites w))) (vsub (fz (pcnt row (e + 1))) cs)) else Ok (if finites w then MV else Fin (qsum (finites w))))
    = calc_statistic E w st).
  { destruct Hst as [->| ->]; cbn [stat_eqb andb]; [rewrite calc_sum; reflexivity|]. rewrite calc_mean.
    destruct CB as [->|[_ [K|K]]]; [|discriminate|].
    2:{ rewrite fz_eqb, K. cbn [Z.eqb negb].
        assert (finites w = []) as ->; [|reflexivity]. apply zlen_0_nil. pose proof (zlen_nonneg (finites w)).
        pose proof (zlen_nonneg (finites (firstn (Z.to_nat s) row))). unfold pcnt in PC at 2. lia. }
    cbn [bind]. rewrite fz_sub, PC, fz_eqb.
    destruct (finites w) as [|q t] eqn:F.
    - destruct (negb (pcnt row (e + 1) =? 0)); reflexivity.
    - assert (P : pcnt row (e + 1) =? 0 = false). { pose proof (zlen_nonneg (finites (firstn (Z.to_nat s) row))). unfold pcnt in PC at 2. rewrite zlen_cons in PC. pose proof (zlen_nonneg t). lia. }
      rewrite P. cbn [negb]. unfold fz. rewrite vdiv_Fin; [reflexivity|]. apply (qlen_neq0 (q :: t)). discriminate. }
  rewrite MEAN.
  destruct (calc_statistic_ok E w st) as (v & EV & _). { destruct Hst as [->| ->]; unfold stat_listed; auto. }
  rewrite EV. cbn [bind].
  assert (KM : (if km then cs <- cb ;; Ok (if vltb (vsub (fz (pcnt row (e + 1))) cs) (fz (e - (s - 1))) then MV else v) else Ok v)
    = Ok (if km && existsb (fun v => negb (is_valid v)) w then MV else v)).
  { destruct km; [|reflexivity]. destruct CB as [->|[K _]]; [|discriminate]. cbn [bind andb]. rewrite fz_sub, fz_ltb, PC, has_missing, LS.
    replace (e - (s - 1)) with (e + 1 - s) by lia. reflexivity. }
  rewrite KM. cbn [bind].
  assert (EDGE : (if before then x <? length - 1 else (x <? Z.quot length 2) || (zlen row <? x + Z.quot length 2 + 1)) = (lo <? 0) || (zlen row <=? hi)).
  { unfold lo, hi, win_lo, win_hi. destruct before; [|rewrite half_odd by auto]; lia. }
  destruct km; cbn [andb]; [destruct (existsb _ w)|]; destruct me; cbn [andb]; try reflexivity;
    try rewrite <- EDGE; destruct before; try destruct (x <? length - 1); try destruct (_ || _); reflexivity.
Qed.
(** Count ignores both flags *)
Lemma fast_cell_count oob E row values counts length before km me x :
  length_ok length before -> 0 <= x < zlen row -> accum_inv row (zlen row) (values, counts) ->
  oob = Ok (fz 0) \/ 0 < win_lo before length x ->
  fast_cell oob (zlen row) length Count before km me row values counts x = window_value E row length Count before false false x.
Proof.
  intros [HL HO] Hx (L1 & L2 & HV & _) HOK. unfold fast_cell, window_value.
  set (lo := win_lo before length x) in *. set (hi := win_hi before length x).
  pose proof (Z.div_pos (length - 1) 2 ltac:(lia) ltac:(lia)) as Hhalf.
  assert (B : lo <= x <= hi) by (unfold lo, hi, win_lo, win_hi; destruct before; lia).
  assert (E1 : (if before then Z.max 0 (x - length + 1) else Z.max 0 (x - Z.quot length 2)) = Z.max 0 lo).
  { unfold lo, win_lo. destruct before; [reflexivity|]. rewrite half_odd by auto. reflexivity. }
  assert (E2 : (if before then x else Z.min (zlen row - 1) (x + Z.quot length 2)) = Z.min (zlen row - 1) hi).
  { unfold hi, win_hi. destruct before; [lia|]. rewrite half_odd by auto. reflexivity. }
  rewrite E1, E2.
  set (s := Z.max 0 lo). set (e := Z.min (zlen row - 1) hi).
  assert (Hse : 0 <= s <= x /\ x <= e < zlen row) by (unfold s, e; lia).
  rewrite (slice_clip row lo hi). fold s e.
  pose proof (pcnt_slice row s (e + 1) ltac:(lia) ltac:(lia)) as PC.
  replace (e + 1 - 1) with e in PC by lia.
  destruct (HV e ltac:(lia)) as [Ve Ce]. rewrite Ve, Ce. cbn [bind stat_eqb andb].
  assert (exists o, (if 0 <=? s - 1
    then cs <- znth counts (s - 1) ;;
         (if negb (veqb (vsub (fz (pcnt row (e + 1))) cs) (fz 0))
          then vs <- znth values (s - 1) ;; Ok (vsub (Fin (psum row (e + 1))) vs)
          else Ok MV)
    else if negb (veqb (fz (pcnt row (e + 1))) (fz 0)) then Ok (Fin (psum row (e + 1))) else Ok MV) = Ok o) as (o & ->).
  { destruct (Z.leb_spec 0 (s - 1)).
    - destruct (HV (s - 1) ltac:(lia)) as [V C]. rewrite V, C. cbn [bind]. destruct (negb _); eauto.
    - destruct (negb _); eauto. }
  cbn [bind].
  assert (CB : (if s =? 0 then oob else znth counts (s - 1)) = Ok (fz (pcnt row s))).
  { destruct (Z.eqb_spec s 0) as [S0|S0]; [destruct HOK as [->|]; [|lia]|].
    - rewrite S0. reflexivity.
    - destruct (HV (s - 1) ltac:(lia)) as [_ C]. replace (s - 1 + 1) with s in C by lia. exact C. }
  rewrite CB. cbn [bind]. rewrite fz_sub, PC, calc_count. reflexivity.
Qed.

(** ** whole function *)
Lemma window_rect oob E nY nX array length st before km me (f : vec -> Z -> res val) :
  rect nY nX array -> 0 < nY -> 0 < nX -> length_ok length before ->
  (forall y row, znth array y = Ok row -> forall x, 0 <= x < nX ->
     if is_fast st then forall v c, accum_inv row nX (v, c) -> fast_cell oob nX length st before km me row v c x = f row x
     else slow_cell E nX length st before km me row x = f row x) ->
  window_gen oob E array length st before km me = omp (tab2 nY nX (fun y x => row <- znth array y ;; f row x)).
Proof.
  intros [HY HR] PY PX [HL HO] H. unfold window_gen. replace (length <=? 0) with false by lia. rewrite HY.
  replace (nY =? 0) with false by lia. destruct (znth_some array 0 ltac:(lia)) as (a0 & E0). rewrite E0. cbn [bind].
  rewrite (HR a0 (znth_In _ _ _ E0)). replace (nX =? 0) with false by lia.
  assert (PAR : (Z.rem length 2 =? 0) && negb before = false).
  { destruct before; [rewrite andb_false_r; reflexivity|]. destruct (HO eq_refl) as [k ->].
    rewrite Z.rem_mod_nonneg by lia. replace (2 * k + 1) with (1 + k * 2) by lia. rewrite Z.mod_add by lia. reflexivity. }
  rewrite PAR. f_equal. rewrite <- (for2_init_tab nY nX MV) by lia. unfold for2.
  assert (G : forall l out, (forall y, In y l -> 0 <= y < nY) -> 
    foldM (fun out y =>
    row <- znth array y ;;
    if is_fast st then
      ' (values, counts) <- accumulate row ;;
      foldM (fun out x => v <- fast_cell oob nX length st before km me row values counts x ;;
                          set2 out y x v) out (zrange 0 (zlen row))
    else
      foldM (fun out x => v <- slow_cell E nX length st before km me row x ;;
                          set2 out y x v) out (zrange 0 (zlen row))) out l
    = foldM (fun o i => foldM (fun o j => v <- (row <- znth array i ;; f row j) ;; set2 o i j v) o (zrange 0 nX)) out l).
  { induction l as [|y l IH]; intros out Hin; [reflexivity|]. cbn [foldM].
    destruct (znth_some array y) as (row & Er). { rewrite HY. apply Hin. left; reflexivity. }
    rewrite Er. cbn [bind]. pose proof (HR row (znth_In _ _ _ Er)) as LR. specialize (H y row Er).
    match goal with |- bind ?a _ = bind ?b _ => assert (Eab : a = b) end.
    { rewrite LR.
      assert (FE : forall (g h : Z -> res val) l out, (forall j, In j l -> g j = h j) ->
        foldM (fun o x => v <- g x ;; set2 o y x v) out l = foldM (fun o x => v <- h x ;; set2 o y x v) out l).
      { clear. induction l as [|j l IH]; intros out Hgh; cbn; [reflexivity|]. rewrite Hgh by (left; reflexivity).
        destruct (v <- h j ;; set2 out y j v); cbn; auto. apply IH. intros; apply Hgh; right; assumption. }
      destruct (is_fast st).
      - destruct (accumulate_ok row) as (v & c & EA & I). rewrite EA. cbn [bind]. apply FE.
        intros j Hj. apply in_zrange in Hj. apply H; [lia|]. rewrite LR in I. exact I.
      - apply FE. intros j Hj. apply in_zrange in Hj. apply H. lia. }
    rewrite Eab. destruct (foldM _ out (zrange 0 nX)); cbn; auto. apply IH. intros; apply Hin; right; assumption. }
  apply G. intros y Hy. apply in_zrange in Hy. lia.
Qed.
Lemma window_value_ok E row length st before km me x : stat_listed st -> exists v, window_value E row length st before km me x = Ok v.
Proof.
  intros H. unfold window_value. destruct (_ && _); [eauto|]. destruct (_ && _); [eauto|].
  destruct (calc_statistic_ok E (slice row (win_lo before length x) (win_hi before length x)) st H) as (v & -> & _). eauto.
Qed.
Definition window_is (E : ext) (oob : res val) (nY nX : Z) (array : vec2) (length : Z) (st : statistic) (before km me km' me' : bool) : Prop :=
  exists out, window_gen oob E array length st before km me = Ok out /\
    window_matches E nY nX array length st before km' me' out.
Lemma window_is_intro E oob nY nX array length st before km me km' me' :
  rect nY nX array -> 0 < nY -> 0 < nX -> length_ok length before -> stat_listed st ->
  (forall y row, znth array y = Ok row -> forall x, 0 <= x < nX ->
     if is_fast st then forall v c, accum_inv row nX (v, c) ->
        fast_cell oob nX length st before km me row v c x = window_value E row length st before km' me' x
     else slow_cell E nX length st before km me row x = window_value E row length st before km' me' x) ->
  window_is E oob nY nX array length st before km me km' me'.
Proof.
  intros HR PY PX HL Hst H. unfold window_is. rewrite (window_rect oob E nY nX array length st before km me _ HR PY PX HL H).
  destruct (tab2_total nY nX (fun y x => row <- znth array y ;; window_value E row length st before km' me' x) (fun _ _ _ => True)) as (r & ER & RR & RC); [lia|lia| |].
  { intros i j Hi Hj. destruct (znth_some array i) as (row & Er); [destruct HR; lia|]. rewrite Er. cbn [bind].
    destruct (window_value_ok E row length st before km' me' j Hst) as (v & ->). eauto. }
  rewrite ER. exists r. split; [reflexivity|]. split; [exact RR|]. intros y x row Er Hx.
  pose proof (znth_range _ _ _ Er) as Ry. destruct HR as [HY _]. rewrite HY in Ry.
  destruct (RC y x Ry Hx) as (v & V1 & V2 & _). exists v. split; [exact V1|]. rewrite Er in V2. exact V2.
Qed.

(** ** when the read before the buffer happens *)
Lemma fast_cell_ok_ub nX length st before km me row v c x : accum_inv row nX (v, c) -> zlen row = nX -> 0 <= x < nX -> 0 < length ->
  (exists o, fast_cell UB nX length st before km me row v c x = Ok o) \/ fast_cell UB nX length st before km me row v c x = UB.
Proof.
  intros (L1 & L2 & HV & _) HN Hx HL. unfold fast_cell.
  set (s := if before then _ else Z.max 0 _). set (e := if before then x else _).
  assert (Q : 0 <= Z.quot length 2) by (apply Z.quot_pos; lia).
  assert (Hse : 0 <= s <= x /\ x <= e < nX) by (unfold s, e; destruct before; lia).
  destruct (HV e ltac:(lia)) as [-> ->]. cbn [bind].
  assert (exists cb, (if s =? 0 then UB else znth c (s - 1)) = cb /\ (cb = UB \/ exists z, cb = Ok z)) as (cb & -> & CB).
  { eexists. split; [reflexivity|]. destruct (Z.eqb_spec s 0); [auto|]. right. apply znth_some. lia. }
  match goal with |- context [bind (if 0 <=? s - 1 then ?A else ?B)] => assert (exists o, (if 0 <=? s - 1 then A else B) = Ok o) as (o & ->) end.
  { destruct (Z.leb_spec 0 (s - 1)).
    - destruct (HV (s - 1) ltac:(lia)) as [V C]. rewrite V, C. cbn [bind]. destruct (negb _); eauto.
    - destruct (negb _); eauto. }
  cbn [bind]. destruct CB as [->|(z & ->)]; cbn [bind];
    destruct (stat_eqb st Count); eauto; destruct (_ && _); cbn [bind]; eauto; destruct km; cbn [bind]; eauto.
Qed.
Lemma fast_cell_ub nX length st before km me row v c x : accum_inv row nX (v, c) -> zlen row = nX -> 0 <= x < nX -> length_ok length before ->
  win_lo before length x <= 0 ->
  st = Count \/ km = true \/ (st = Mean /\ pcnt row (Z.min (zlen row) (win_hi before length x + 1)) <> 0) ->
  fast_cell UB nX length st before km me row v c x = UB.
Proof.
  intros (L1 & L2 & HV & _) HN Hx [HL HO] Hlo H. unfold fast_cell.
  set (lo := win_lo before length x) in *. set (hi := win_hi before length x) in *.
  assert (E1 : (if before then Z.max 0 (x - length + 1) else Z.max 0 (x - Z.quot length 2)) = Z.max 0 lo).
  { unfold lo, win_lo. destruct before; [reflexivity|]. rewrite half_odd by auto. reflexivity. }
  assert (E2 : (if before then x else Z.min (nX - 1) (x + Z.quot length 2)) = Z.min (nX - 1) hi).
  { unfold hi, win_hi. destruct before; [lia|]. rewrite half_odd by auto. reflexivity. }
  pose proof (Z.div_pos (length - 1) 2 ltac:(lia) ltac:(lia)) as Hhalf.
  assert (B : lo <= x <= hi) by (unfold lo, hi, win_lo, win_hi; destruct before; lia).
  rewrite E1, E2. replace (Z.max 0 lo) with 0 by lia. change (0 =? 0) with true. change (0 <=? 0 - 1) with false. cbv iota.
  set (e := Z.min (nX - 1) hi). destruct (HV e ltac:(lia)) as [-> ->]. cbn [bind].
  replace (Z.min (zlen row) (hi + 1)) with (e + 1) in H by (unfold e; lia).
  assert (exists o, (if negb (veqb (fz (pcnt row (e + 1))) (fz 0)) then Ok (Fin (psum row (e + 1))) else Ok MV) = Ok o) as (o & ->) by (destruct (negb _); eauto).
  cbn [bind]. destruct H as [->|[->|[-> H]]].
  - reflexivity.
  - destruct (stat_eqb st Count); [reflexivity|]. destruct (_ && _); reflexivity.
  - cbn [stat_eqb andb]. rewrite fz_eqb. replace (pcnt row (e + 1) =? 0) with false by lia. reflexivity.
Qed.
Lemma pcnt_mono row a b : 0 <= a <= b -> b <= zlen row -> pcnt row a <= pcnt row b.
Proof. intros H Hb. pose proof (pcnt_slice row a b H Hb). pose proof (zlen_nonneg (finites (slice row a (b - 1)))). lia. Qed.
(** the fast-path cell as a function of the row alone *)
Definition fast_row (oob : res val) nX length st before km me (row : vec) (x : Z) : res val :=
  match accumulate row with Ok (v, c) => fast_cell oob nX length st before km me row v c x | _ => UB end.
Lemma accum_inv_fun row v c v' c' : accum_inv row (zlen row) (v, c) -> accum_inv row (zlen row) (v', c') -> v = v' /\ c = c'.
Proof.
  intros (A1 & A2 & A3 & _) (B1 & B2 & B3 & _). split; apply znth_ext; try congruence; intros i Hi.
  - destruct (A3 i ltac:(lia)) as [-> _]. destruct (B3 i ltac:(lia)) as [-> _]. reflexivity.
  - destruct (A3 i ltac:(lia)) as [_ ->]. destruct (B3 i ltac:(lia)) as [_ ->]. reflexivity.
Qed.
Lemma window_reads E nY nX array length st before km me :
  rect nY nX array -> 0 < nY -> 0 < nX -> length_ok length before ->
  reads_before_buffer array length st km -> window E array length st before km me = UB.
Proof.
  intros HR PY PX HL HB.
  assert (Hfast : is_fast st = true).
  { destruct HB as [->|[[[->| ->] _]|[-> _]]]; reflexivity. }
  unfold window. rewrite (window_rect UB E nY nX array length st before km me (fast_row UB nX length st before km me) HR PY PX HL).
  2:{ intros y row Er x Hx. rewrite Hfast. intros v c I. unfold fast_row. destruct (accumulate_ok row) as (v' & c' & -> & I').
      destruct HR as [_ HR]. pose proof (HR row (znth_In _ _ _ Er)) as LR. rewrite LR in I'.
      destruct (accum_inv_fun row v c v' c') as [-> ->]; try (rewrite LR; assumption). reflexivity. }
  pose proof (Z.div_pos (length - 1) 2 ltac:(destruct HL; lia) ltac:(lia)) as Hhalf.
  assert (CELL : exists y x, 0 <= y < nY /\ 0 <= x < nX /\ (row <- znth array y ;; fast_row UB nX length st before km me row x) = UB).
  { assert (G : forall y row x, znth array y = Ok row -> 0 <= x < nX -> win_lo before length x <= 0 ->
       st = Count \/ km = true \/ (st = Mean /\ pcnt row (Z.min (zlen row) (win_hi before length x + 1)) <> 0) ->
       exists y x, 0 <= y < nY /\ 0 <= x < nX /\ (row <- znth array y ;; fast_row UB nX length st before km me row x) = UB).
    { intros y row x Er Hx Hlo H. exists y, x. destruct HR as [HY HR]. pose proof (znth_range _ _ _ Er). split; [lia|]. split; [lia|].
      rewrite Er. cbn [bind]. unfold fast_row. destruct (accumulate_ok row) as (v' & c' & -> & I').
      pose proof (HR row (znth_In _ _ _ Er)) as LR. rewrite LR in I'. apply fast_cell_ub; auto. }
    assert (exists row0, znth array 0 = Ok row0) as (row0 & E0) by (apply znth_some; destruct HR; lia).
    assert (L0 : win_lo before length 0 <= 0) by (destruct HL; unfold win_lo; destruct before; lia).
    destruct HB as [->|[[_ ->]|[-> (y & row & Er & F)]]].
    - apply (G 0 row0 0); auto; lia.
    - apply (G 0 row0 0); auto; lia.
    - pose proof (proj2 HR row (znth_In _ _ _ Er)) as LR.
      set (x := Z.min (nX - 1) (if before then length - 1 else (length - 1) / 2)).
      assert (Hodd : before = false -> 2 * ((length - 1) / 2) = length - 1).
      { intros Hb. destruct HL as [_ HO]. destruct (HO Hb) as [k ->]. replace (2 * k + 1 - 1) with (k * 2) by lia. rewrite Z.div_mul by lia. lia. }
      apply (G y row x Er); unfold x.
      + destruct HL. destruct before; lia.
      + unfold win_lo. destruct before; lia.
      + right. right. split; [reflexivity|].
        replace (Z.min (zlen row) _) with (Z.min (zlen row) length).
        * unfold pcnt. rewrite <- firstn_min by (destruct HL; lia). intros K. apply F, zlen_0_nil, K.
        * unfold win_hi. rewrite LR. destruct HL. destruct before; [lia|]. specialize (Hodd eq_refl). lia. }
  destruct CELL as (y & x & Hy & Hx & Ec). rewrite (tab2_ub nY nX _ y x); auto.
  intros i j Hi Hj. destruct (znth_some array i) as (row & Er); [destruct HR; lia|]. rewrite Er. cbn [bind]. unfold fast_row.
  destruct (accumulate_ok row) as (v' & c' & -> & I'). pose proof (proj2 HR row (znth_In _ _ _ Er)) as LR. rewrite LR in I'.
  apply fast_cell_ok_ub; auto. destruct HL; lia.
Qed.
Lemma window_sum_mean E nY nX array length st before km me :
  rect nY nX array -> 0 < nY -> 0 < nX -> length_ok length before -> st = Sum \/ st = Mean ->
  ~ reads_before_buffer array length st km -> window_is E UB nY nX array length st before km me km me.
Proof.
  intros HR PY PX HL Hst HB. apply window_is_intro; auto. { unfold stat_listed. tauto. }
  intros y row Er x Hx. replace (is_fast st) with true by (destruct Hst as [->| ->]; reflexivity).
  intros v c I. pose proof (proj2 HR row (znth_In _ _ _ Er)) as LR. subst nX. apply fast_cell_spec; auto.
  right. split.
  - destruct km; [|reflexivity]. exfalso. apply HB. right. left. auto.
  - destruct Hst as [->| ->]; [auto|]. right. intros Hlo.
    assert (F : finites (firstn (Z.to_nat length) row) = []).
    { destruct (finites (firstn (Z.to_nat length) row)) eqn:F; [reflexivity|]. exfalso. apply HB. right. right.
      split; [reflexivity|]. exists y, row. split; [exact Er|]. rewrite F. discriminate. }
    assert (P : pcnt row (Z.min (zlen row) length) = 0).
    { unfold pcnt. rewrite <- firstn_min by (destruct HL; lia). rewrite F. reflexivity. }
    pose proof (Z.div_pos (length - 1) 2 ltac:(destruct HL; lia) ltac:(lia)) as Hhalf.
    assert (Hodd : before = false -> 2 * ((length - 1) / 2) = length - 1).
    { intros Hb. destruct HL as [_ HO]. destruct (HO Hb) as [k ->]. replace (2 * k + 1 - 1) with (k * 2) by lia. rewrite Z.div_mul by lia. lia. }
    assert (0 <= win_hi before length x + 1 <= length).
    { unfold win_hi, win_lo in *. destruct before; [lia|]. specialize (Hodd eq_refl). lia. }
    pose proof (pcnt_mono row (Z.min (zlen row) (win_hi before length x + 1)) (Z.min (zlen row) length) ltac:(lia) ltac:(lia)).
    pose proof (zlen_nonneg (finites (firstn (Z.to_nat (Z.min (zlen row) (win_hi before length x + 1))) row))). unfold pcnt in *. lia.
Qed.
Lemma window_slow E oob nY nX array length st before km me :
  rect nY nX array -> 0 < nY -> 0 < nX -> length_ok length before -> stat_listed st -> is_fast st = false ->
  window_is E oob nY nX array length st before km me km me.
Proof.
  intros HR PY PX HL Hst Hs. apply window_is_intro; auto. intros y row Er x Hx. rewrite Hs.
  pose proof (proj2 HR row (znth_In _ _ _ Er)) as LR. subst nX. apply slow_cell_spec; auto.
Qed.
Lemma window_zero_oob E nY nX array length st before km me :
  rect nY nX array -> 0 < nY -> 0 < nX -> length_ok length before ->
  (st = Sum \/ st = Mean -> window_is E (Ok (fz 0)) nY nX array length st before km me km me) /\
  (st = Count -> window_is E (Ok (fz 0)) nY nX array length st before km me false false).
Proof.
  intros HR PY PX HL. split; intros Hst; (apply window_is_intro; auto; [unfold stat_listed; tauto|]).
  - intros y row Er x Hx. replace (is_fast st) with true by (destruct Hst as [->| ->]; reflexivity).
    intros v c I. pose proof (proj2 HR row (znth_In _ _ _ Er)) as LR. subst nX. apply fast_cell_spec; auto.
  - subst st. intros y row Er x Hx. cbn [is_fast stat_eqb orb].
    intros v c I. pose proof (proj2 HR row (znth_In _ _ _ Er)) as LR. subst nX. apply fast_cell_count; auto.
Qed.
Lemma window_errors E array length st before km me :
  (length <= 0 -> window E array length st before km me = Throw InvalidArgument) /\
  (0 < length -> array = [] -> window E array length st before km me = Ok []) /\
  (forall nY nX, 0 < length -> rect nY nX array -> 0 < nY -> 0 < nX -> before = false -> Z.Even length ->
     window E array length st before km me = Throw InvalidArgument).
Proof.
  split; [|split].
  - intros H. unfold window, window_gen. replace (length <=? 0) with true by lia. reflexivity.
  - intros H ->. unfold window, window_gen. replace (length <=? 0) with false by lia. reflexivity.
  - intros nY nX H [HY HR] PY PX -> [k ->]. unfold window, window_gen. replace (2 * k <=? 0) with false by lia. rewrite HY.
    replace (nY =? 0) with false by lia. destruct (znth_some array 0 ltac:(lia)) as (a0 & E0). rewrite E0. cbn [bind].
    rewrite (HR a0 (znth_In _ _ _ E0)). replace (nX =? 0) with false by lia.
    rewrite Z.rem_mod_nonneg by lia. rewrite (Z.mul_comm 2 k), Z.mod_mul by lia. reflexivity.
Qed.

Lemma reads_dec array length st km : reads_before_buffer array length st km \/ ~ reads_before_buffer array length st km.
Proof.
  unfold reads_before_buffer.
  assert (A : (exists y row, znth array y = Ok row /\ finites (firstn (Z.to_nat length) row) <> []) \/
    ~ (exists y row, znth array y = Ok row /\ finites (firstn (Z.to_nat length) row) <> [])).
  { destruct (existsb (fun row => negb (zlen (finites (firstn (Z.to_nat length) row)) =? 0)) array) eqn:EX.
    - left. apply existsb_exists in EX as (row & Hin & H). destruct (In_znth _ _ Hin) as (y & Hy). exists y, row. split; [exact Hy|].
      intros K. rewrite K in H. discriminate.
    - right. intros (y & row & Hy & F). assert (true = false); [|discriminate]. rewrite <- EX. symmetry. apply existsb_exists.
      exists row. split; [eapply znth_In; eauto|]. destruct (finites _) as [|q t]; [congruence|]. rewrite zlen_cons. pose proof (zlen_nonneg t). lia. }
  destruct st; destruct km; destruct A; intuition congruence.
Qed.
Lemma c13_all E nY nX array length st before km me :
  rect nY nX array -> 0 < nY -> 0 < nX -> length_ok length before ->
  ((st = Sum \/ st = Mean) -> ~ reads_before_buffer array length st km ->
     exists out, window E array length st before km me = Ok out /\ window_matches E nY nX array length st before km me out) /\
  ((st = Sum \/ st = Mean) ->
     exists out, window_gen (Ok (fz 0)) E array length st before km me = Ok out /\ window_matches E nY nX array length st before km me out) /\
  (st = Count ->
     exists out, window_gen (Ok (fz 0)) E array length st before km me = Ok out /\ window_matches E nY nX array length st before false false out).
Proof.
  intros HR PY PX HL. split; [|split]; intros Hst.
  - intros. apply window_sum_mean; assumption.
  - apply (window_zero_oob E nY nX array length st before km me HR PY PX HL). exact Hst.
  - apply (window_zero_oob E nY nX array length st before km me HR PY PX HL). exact Hst.
Qed.
Lemma c12_all E nY nX array length st before km me :
  rect nY nX array -> 0 < nY -> 0 < nX -> length_ok length before ->
  st = Min \/ st = Max \/ st = Median \/ st = Variance \/ st = Std ->
  exists out, window E array length st before km me = Ok out /\ window_matches E nY nX array length st before km me out.
Proof.
  intros HR PY PX HL Hst. apply window_slow; auto; [unfold stat_listed; tauto|].
  decompose [or] Hst; subst; reflexivity.
Qed.
Lemma c14_all E nY nX array length st before km me :
  rect nY nX array -> 0 < nY -> 0 < nX -> length_ok length before -> stat_listed st ->
  (window E array length st before km me = UB <-> reads_before_buffer array length st km) /\
  (~ reads_before_buffer array length st km -> exists out, window E array length st before km me = Ok out).
Proof.
  intros HR PY PX HL Hst.
  assert (OK : ~ reads_before_buffer array length st km -> exists out, window E array length st before km me = Ok out).
  { intros HN. destruct (is_fast st) eqn:F.
    - assert (st = Sum \/ st = Mean) as Hsm. { destruct st; try discriminate; auto. exfalso. apply HN. left. reflexivity. }
      destruct (window_sum_mean E nY nX array length st before km me HR PY PX HL Hsm HN) as (out & E1 & _). eauto.
    - destruct (window_slow E UB nY nX array length st before km me HR PY PX HL Hst F) as (out & E1 & _). eauto. }
  split; [|exact OK]. split; [|apply (window_reads E nY nX); assumption].
  intros HU. destruct (reads_dec array length st km) as [|HN]; [assumption|]. destruct (OK HN) as (out & K). congruence.
Qed.
