(** Choice of observations in the ensemble analyses. *)
From Coq Require Import Permutation.
From Verif Require Import Base QcTac ListLib M_Geo S_Geo S_Near M_OI M_EnsMulti S_OI P_Geo P_Neighbours P_Grid P_Points P_Grd P_OISum P_OI P_OICell.
Local Open Scope Z_scope.

Lemma candidates_e_ok obs (ov : Z -> val) loc0 rhos (r : Z -> val) :
  (forall k, In k loc0 -> obs k = Ok (ov k)) -> rhos = map r loc0 ->
  candidates_e obs loc0 rhos =
  Ok (map (fun i => (r (ix loc0 i), i))
        (filter (fun i => is_valid (ov (ix loc0 i)) && vltb (fz 0) (r (ix loc0 i))) (zrange 0 (zlen loc0)))).
Proof.
  intros HR ->. unfold candidates_e.
  assert (K : forall l acc, (forall i, In i l -> 0 <= i < zlen loc0) ->
    foldM (fun acc i => index <- znth loc0 i ;; o <- obs index ;;
      if negb (is_valid o) then Ok acc else
      r0 <- znth (map r loc0) i ;; Ok (if vltb (fz 0) r0 then acc ++ [(r0, i)] else acc)) acc l =
    Ok (acc ++ map (fun i => (r (ix loc0 i), i))
        (filter (fun i => is_valid (ov (ix loc0 i)) && vltb (fz 0) (r (ix loc0 i))) l))).
  { induction l as [|i l IH]; intros acc Hl; cbn [foldM filter map]; [rewrite app_nil_r; reflexivity|].
    assert (Hi : 0 <= i < zlen loc0) by (apply Hl; left; reflexivity). rewrite (ix_ok _ _ Hi). cbn [bind].
    rewrite (HR _ (ix_In _ _ Hi)). cbn [bind].
    rewrite znth_map, (ix_ok _ _ Hi).
    assert (IH' := IH). specialize (IH acc ltac:(intros; apply Hl; right; assumption)).
    destruct (is_valid (ov (ix loc0 i))); cbn [negb andb bind]; [|exact IH].
    destruct (vltb (fz 0) (r (ix loc0 i))); [|exact IH].
    rewrite IH' by (intros; apply Hl; right; assumption). cbn [map]. rewrite <- app_assoc. reflexivity. }
  rewrite K by (intros i Hi; apply in_zrange in Hi; exact Hi). reflexivity.
Qed.

Section Sel.
Variables (G : geo) (L : lib) (S : sfn) (t : ctype) (blas blos las los : list Qc) (bpts pts : points) (obs : Z -> res val) (po : vec) (mp : Z)
  (loc : point -> val) (rho bg : point -> point -> val).
Hypothesis HG : geo_ok G.
Hypothesis HLib : lib_ok L.
Hypothesis HS : behaves S loc rho bg.
Hypothesis HB : at_locations G t blas blos bpts.
Hypothesis HP : at_locations G t las los pts.
Let nS := zlen las.
Let pvec := map (ptk pts) (zrange 0 nS).
Hypothesis HO : forall k, 0 <= k < nS -> obs k = Ok (vk po k).
Hypothesis LO : zlen po = nS.
Hypothesis Hmp : 0 <= mp.
Notation usable' := (usable G t las los pts po po loc bg).
Notation chosen' := (chosen G t las los pts po po loc bg).
Lemma select_ok y la lo p1 : znth blas y = Ok la -> znth blos y = Ok lo -> points_get bpts y = Ok p1 ->
  exists U, chosen' mp p1 (position G t la lo) U /\ (forall k, In k U -> 0 <= k < nS) /\
    select G L S pts pvec obs mp (Fin la) (Fin lo) p1 = Ok (map (fun k => (k, bg p1 (ptk pts k))) U).
Proof.
  intros Hla Hlo Hp1. destruct HS as (S1 & S2 & S3).
  pose proof (znth_range _ _ _ Hla) as Ry.
  destruct (at_get _ _ _ _ _ y HB Ry) as (p & la' & lo' & _ & Hla' & Hlo' & Gla & Glo & V & _).
  assert (la' = la) by congruence. assert (lo' = lo) by congruence. subst la' lo'.
  assert (HT : is_tree G t las los (s_tree pts)) by apply HP.
  destruct (points_search G t las los (s_tree pts) la lo (loc p1) HG HT V) as (I0 & HI & ND & HIn).
  unfold select. rewrite S1. cbn [bind]. rewrite HI. cbn [bind].
  assert (RI : forall k, In k I0 -> 0 <= k < nS).
  { intros k Hk. apply HIn in Hk as (q & Hq & _). eapply point_at_range; eauto. }
  destruct (zlen I0 =? 0) eqn:E0.
  { apply Z.eqb_eq in E0. apply zlen_0_nil in E0. subst I0. exists []. split; [|split; [intros k []|reflexivity]].
    split; [constructor|]. split; [intros k []|]. split; [intros; rewrite zlen_nil; lia|]. split; [|intros k k' []].
    intros _ k (q & pk & o & b' & Hq & C & _). apply (HIn k). exists q. auto. }
  assert (P2 : mapM (fun k => znth pvec k) I0 = Ok (map (ptk pts) I0)).
  { apply mapM_ok. intros k Hk. apply znth_pvec. apply RI; exact Hk. }
  rewrite P2. cbn [bind]. rewrite S3. cbn [bind]. rewrite map_map.
  rewrite (candidates_e_ok obs (vk po) I0 _ (fun k => bg p1 (ptk pts k))); [|intros k Hk; apply HO; apply RI; exact Hk|reflexivity].
  cbn [bind].
  set (test := fun i : Z => (is_valid (vk po (ix I0 i)) && vltb (fz 0) (bg p1 (ptk pts (ix I0 i))))%bool). set (F := filter test (zrange 0 (zlen I0))).
  set (c := map (fun i => (bg p1 (ptk pts (ix I0 i)), i)) F).
  assert (HF : forall i, In i F <-> 0 <= i < zlen I0 /\ test i = true).
  { intros i. unfold F. rewrite filter_In, in_zrange. reflexivity. }
  assert (Hc : forall e, In e c -> In (snd e) F /\ fst e = bg p1 (ptk pts (ix I0 (snd e)))).
  { intros e He. unfold c in He. apply in_map_iff in He as (i & <- & Hi). auto. }
  assert (HU : forall i, In i F -> usable' p1 (position G t la lo) (ix I0 i)).
  { intros i Hi. apply HF in Hi as [Hi Ht]. unfold test in Ht. apply andb_true_iff in Ht as [H1 H3].
    pose proof (ix_In _ _ Hi) as Hk. pose proof (RI _ Hk) as Rk. apply HIn in Hk as (q & Hq & C).
    apply valid_fin in H1 as [o Ho].
    exists q, (ptk pts (ix I0 i)), o, o. split; [exact Hq|]. split; [exact C|]. split; [eapply ptk_ok; eauto|].
    split; [rewrite <- Ho; apply vk_ok; lia|]. split; [rewrite <- Ho; apply vk_ok; lia|exact H3]. }
  assert (HU' : forall k, usable' p1 (position G t la lo) k -> exists i, In i F /\ ix I0 i = k).
  { intros k (q & pk & o & b' & Hq & C & Hpk & Ho & Hb' & Hr).
    assert (Hk : In k I0) by (apply HIn; exists q; auto). destruct (In_ix _ _ Hk) as (i & Hi & Ei). exists i. split; [|exact Ei].
    apply HF. split; [exact Hi|]. unfold test. rewrite Ei. unfold vk. rewrite Ho. cbn [is_valid andb].
    unfold ptk. rewrite Hpk. exact Hr. }
  destruct (pick_obs_ok L mp I0 c HLib) as (A & B & P & E & Hle & Hsz).
  { intros e He. apply Hc in He as [He _]. apply HF in He. tauto. }
  { intros e He. apply Hc in He as [He ->]. apply HF in He as [_ Ht]. unfold test in Ht. apply andb_true_iff in Ht as [_ Ht].
    destruct (bg p1 _); [discriminate Ht| | |]; discriminate. }
  rewrite E.
  assert (HA : forall e, In e A -> In e c) by (intros e He; eapply Permutation_in; [exact P|]; apply in_or_app; auto).
  assert (HBB : forall e, In e c -> In e A \/ In e B) by (intros e He; apply in_app_or; eapply Permutation_in; [symmetry; exact P|exact He]).
  assert (HBc : forall e, In e B -> In e c) by (intros e He; eapply Permutation_in; [exact P|]; apply in_or_app; auto).
  exists (map (fun e => ix I0 (snd e)) A).
  assert (NDs : NoDup (map snd A)).
  { assert (N : NoDup (map snd (A ++ B))).
    { eapply Permutation_NoDup; [apply Permutation_map; symmetry; exact P|]. unfold c. rewrite map_map. cbn [snd]. rewrite map_id.
      apply NoDup_filter. apply NoDup_zrange. }
    rewrite map_app in N. eapply P_OISum.NoDup_app_l; eauto. }
  split; [|split].
  - split; [|split; [|split; [|split]]].
    + clear -NDs HA Hc HF ND. induction A as [|a A IH]; [constructor|]. cbn in *. inversion NDs as [|? ? Hn ND']; subst.
      constructor; [|apply IH; auto]. rewrite in_map_iff. intros (e & Ee & He). apply Hn. apply in_map_iff. exists e. split; [|exact He].
      apply (ix_inj I0); [exact ND| | |exact Ee].
      * apply HF. apply Hc. apply HA. auto.
      * apply HF. apply Hc. apply HA. auto.
    + intros k Hk. apply in_map_iff in Hk as (e & <- & He). apply HU. apply Hc. apply HA. exact He.
    + intros Hm. rewrite zlen_map. destruct Hsz as [(_ & -> & H)|[_ H]]; [apply H; exact Hm|lia].
    + intros Hm k Hk. rewrite zlen_map in Hm. apply HU' in Hk as (i & Hi & <-).
      assert (Hin : In (bg p1 (ptk pts (ix I0 i)), i) c) by (unfold c; apply in_map_iff; exists i; auto).
      apply in_map_iff. exists (bg p1 (ptk pts (ix I0 i)), i). split; [reflexivity|].
      destruct Hsz as [(_ & -> & _)|[H1 H2]]; [exact Hin|]. destruct Hm; lia.
    + intros k k' Hk Hk' Hn. apply in_map_iff in Hk as (e & <- & He). apply HU' in Hk' as (i & Hi & <-).
      assert (Hin : In (bg p1 (ptk pts (ix I0 i)), i) c) by (unfold c; apply in_map_iff; exists i; auto).
      destruct (HBB _ Hin) as [Ha|Hb'].
      * exfalso. apply Hn. apply in_map_iff. exists (bg p1 (ptk pts (ix I0 i)), i). auto.
      * specialize (Hle _ _ He Hb'). cbn [fst] in Hle. destruct (Hc _ (HA _ He)) as [_ Ef]. rewrite Ef in Hle.
        intros pk pk' Hpk Hpk'. unfold ptk in Hle. rewrite Hpk, Hpk' in Hle. exact Hle.
  - intros k Hk. apply in_map_iff in Hk as (e & <- & He). apply RI. apply ix_In. apply HF. apply Hc. apply HA. exact He.
  - f_equal. rewrite map_map. apply map_ext_in. intros e He. f_equal. apply Hc. apply HA. exact He.
Qed.
End Sel.
