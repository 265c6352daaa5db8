(** Optimal interpolation at one background point: choice of observations and result. *)
From Coq Require Import Permutation.
From Verif Require Import Base QcTac ListLib M_Geo S_Geo S_Near M_OI S_OI P_Geo P_Neighbours P_Grid P_Points P_Grd P_OISum P_OI.
Local Open Scope Z_scope.

(** the computation once the observations are chosen *)
Definition finish (L : lib) (S : sfn) (pvec : list point) (pobs pratios pbg : vec) (ex : bool) (b v : val) (U : list Z) (g : vec) : res (val * val) :=
  let lS := zlen U in
  if lS =? 0 then Ok (b, v) else
  M <- system S pvec pratios U ;;
  lObs <- mapM (fun k => znth pobs k) U ;;
  lY <- mapM (fun k => znth pbg k) U ;;
  N <- l_inv L M ;;
  lGSR <- row_mul lS g N ;;
  d <- mapM (fun i => x <- znth lObs i ;; z <- znth lY i ;; Ok (vsub x z)) (zrange 0 lS) ;;
  dx <- vdot lS lGSR d ;;
  let inc := if ex then dx else limit dx (amax d) (amin d) in
  a <- vdot lS lGSR g ;;
  Ok (vadd b inc, vmul v (vsub (fz 1) a)).

Section Cell.
Variables (G : geo) (L : lib) (S : sfn) (t : ctype) (blas blos las los : list Qc) (bpts pts : points)
  (background bvariance pobs pratios pbg : vec) (mp : Z) (ex : bool)
  (loc : point -> val) (rho bg : point -> point -> val).
Hypothesis HG : geo_ok G.
Hypothesis HLib : lib_ok L.
Hypothesis HS : behaves S loc rho bg.
Hypothesis HB : at_locations G t blas blos bpts.
Hypothesis HP : at_locations G t las los pts.
Let nS := zlen las.
Let pvec := map (ptk pts) (zrange 0 nS).
Hypothesis LB : zlen background = zlen blas.
Hypothesis LV : zlen bvariance = zlen blas.
Hypothesis LO : zlen pobs = nS.
Hypothesis LG : zlen pbg = nS.
Hypothesis LR : zlen pratios = nS.
Hypothesis Hmp : 0 <= mp.
Notation cell := (oi_cell G L S bpts background bvariance pts pvec pobs pratios pbg mp ex).
Notation usable' := (usable G t las los pts pobs pbg loc bg).
Notation chosen' := (chosen G t las los pts pobs pbg loc bg).

Lemma cell_missing y b v : znth background y = Ok b -> znth bvariance y = Ok v -> is_valid b = false -> cell y = Ok (b, v).
Proof. intros H1 H2 H3. unfold oi_cell. rewrite H1, H2. cbn [bind]. rewrite H3. reflexivity. Qed.

Lemma valid_fin v : is_valid v = true -> exists q, v = Fin q.
Proof. destruct v; cbn; try discriminate. intros _. eauto. Qed.

Lemma cell_choice y b v la lo p1 : znth background y = Ok (Fin b) -> znth bvariance y = Ok v ->
  znth blas y = Ok la -> znth blos y = Ok lo -> points_get bpts y = Ok p1 ->
  exists U, chosen' mp p1 (position G t la lo) U /\ (forall k, In k U -> 0 <= k < nS) /\
    cell y = finish L S pvec pobs pratios pbg ex (Fin b) v U (map (fun k => bg p1 (ptk pts k)) U).
Proof.
  intros Hb Hv Hla Hlo Hp1. destruct HS as (S1 & S2 & S3).
  pose proof (znth_range _ _ _ Hla) as Ry.
  destruct (at_get _ _ _ _ _ y HB Ry) as (p & la' & lo' & _ & Hla' & Hlo' & Gla & Glo & V & _).
  assert (la' = la) by congruence. assert (lo' = lo) by congruence. subst la' lo'.
  assert (HT : is_tree G t las los (s_tree pts)) by apply HP.
  destruct (points_search G t las los (s_tree pts) la lo (loc p1) HG HT V) as (I0 & HI & ND & HIn).
  unfold oi_cell. rewrite Hb, Hv. cbn [bind is_valid negb]. rewrite Gla, Glo, Hp1. cbn [bind]. rewrite S1. cbn [bind]. rewrite HI. cbn [bind].
  assert (RI : forall k, In k I0 -> 0 <= k < nS).
  { intros k Hk. apply HIn in Hk as (q & Hq & _). eapply point_at_range; eauto. }
  destruct (zlen I0 =? 0) eqn:E0.
  { apply Z.eqb_eq in E0. apply zlen_0_nil in E0. subst I0. exists []. split; [|split; [intros k []|reflexivity]].
    split; [constructor|]. split; [intros k []|]. split; [intros; rewrite zlen_nil; lia|]. split; [|intros k k' []].
    intros _ k (q & pk & o & b' & Hq & C & _). apply (HIn k). exists q. auto. }
  assert (P2 : mapM (fun k => znth pvec k) I0 = Ok (map (ptk pts) I0)).
  { apply mapM_ok. intros k Hk. apply znth_pvec. apply RI; exact Hk. }
  rewrite P2. cbn [bind]. rewrite S3. cbn [bind]. rewrite map_map.
  rewrite (candidates_ok pobs pbg I0 _ (fun k => bg p1 (ptk pts k))); [|intros k Hk; rewrite LO; apply RI; exact Hk|lia|reflexivity].
  cbn [bind].
  set (test := fun i : Z => (is_valid (vk pobs (ix I0 i)) && is_valid (vk pbg (ix I0 i)) && vltb (fz 0) (bg p1 (ptk pts (ix I0 i))))%bool). set (F := filter test (zrange 0 (zlen I0))).
  set (c := map (fun i => (bg p1 (ptk pts (ix I0 i)), i)) F).
  assert (HF : forall i, In i F <-> 0 <= i < zlen I0 /\ test i = true).
  { intros i. unfold F. rewrite filter_In, in_zrange. reflexivity. }
  assert (Hc : forall e, In e c -> In (snd e) F /\ fst e = bg p1 (ptk pts (ix I0 (snd e)))).
  { intros e He. unfold c in He. apply in_map_iff in He as (i & <- & Hi). auto. }
  assert (HU : forall i, In i F -> usable' p1 (position G t la lo) (ix I0 i)).
  { intros i Hi. apply HF in Hi as [Hi Ht]. unfold test in Ht. apply andb_true_iff in Ht as [Ht H3]. apply andb_true_iff in Ht as [H1 H2].
    pose proof (ix_In _ _ Hi) as Hk. pose proof (RI _ Hk) as Rk. apply HIn in Hk as (q & Hq & C).
    apply valid_fin in H1 as [o Ho]. apply valid_fin in H2 as [b' Hb'].
    exists q, (ptk pts (ix I0 i)), o, b'. split; [exact Hq|]. split; [exact C|]. split; [eapply ptk_ok; eauto|].
    split; [rewrite <- Ho; apply vk_ok; lia|]. split; [rewrite <- Hb'; apply vk_ok; lia|exact H3]. }
  assert (HU' : forall k, usable' p1 (position G t la lo) k -> exists i, In i F /\ ix I0 i = k).
  { intros k (q & pk & o & b' & Hq & C & Hpk & Ho & Hb' & Hr).
    assert (Hk : In k I0) by (apply HIn; exists q; auto). destruct (In_ix _ _ Hk) as (i & Hi & Ei). exists i. split; [|exact Ei].
    apply HF. split; [exact Hi|]. unfold test. rewrite Ei. unfold vk. rewrite Ho, Hb'. cbn [is_valid andb].
    unfold ptk. rewrite Hpk. exact Hr. }
  destruct (pick_obs_ok L mp I0 c HLib) as (A & B & P & E & Hle & Hsz).
  { intros e He. apply Hc in He as [He _]. apply HF in He. tauto. }
  { intros e He. apply Hc in He as [He ->]. apply HF in He as [_ Ht]. unfold test in Ht. apply andb_true_iff in Ht as [_ Ht].
    destruct (bg p1 _); [discriminate Ht| | |]; discriminate. }
  rewrite E. cbn [bind]. rewrite !map_map. cbn [fst snd].
  assert (HA : forall e, In e A -> In e c) by (intros e He; eapply Permutation_in; [exact P|]; apply in_or_app; auto).
  assert (HBB : forall e, In e c -> In e A \/ In e B) by (intros e He; apply in_app_or; eapply Permutation_in; [symmetry; exact P|exact He]).
  assert (HBc : forall e, In e B -> In e c) by (intros e He; eapply Permutation_in; [exact P|]; apply in_or_app; auto).
  exists (map (fun e => ix I0 (snd e)) A).
  assert (NDs : NoDup (map snd A)).
  { assert (N : NoDup (map snd (A ++ B))).
    { eapply Permutation_NoDup; [apply Permutation_map; symmetry; exact P|]. unfold c. rewrite map_map. cbn [snd]. rewrite map_id.
      apply NoDup_filter. apply NoDup_zrange. }
    rewrite map_app in N. eapply P_OISum.NoDup_app_l; eauto. }
  split; [|split].
  - split; [|split; [|split; [|split]]].
    + clear -NDs HA Hc HF ND. induction A as [|a A IH]; [constructor|]. cbn in *. inversion NDs as [|? ? Hn ND']; subst.
      constructor; [|apply IH; auto]. rewrite in_map_iff. intros (e & Ee & He). apply Hn. apply in_map_iff. exists e. split; [|exact He].
      apply (ix_inj I0); [exact ND| | |exact Ee].
      * apply HF. apply Hc. apply HA. auto.
      * apply HF. apply Hc. apply HA. auto.
    + intros k Hk. apply in_map_iff in Hk as (e & <- & He). apply HU. apply Hc. apply HA. exact He.
    + intros Hm. rewrite zlen_map. destruct Hsz as [(_ & -> & H)|[_ H]]; [apply H; exact Hm|lia].
    + intros Hm k Hk. rewrite zlen_map in Hm. apply HU' in Hk as (i & Hi & <-).
      assert (Hin : In (bg p1 (ptk pts (ix I0 i)), i) c) by (unfold c; apply in_map_iff; exists i; auto).
      apply in_map_iff. exists (bg p1 (ptk pts (ix I0 i)), i). split; [reflexivity|].
      destruct Hsz as [(_ & -> & _)|[H1 H2]]; [exact Hin|]. destruct Hm; lia.
    + intros k k' Hk Hk' Hn. apply in_map_iff in Hk as (e & <- & He). apply HU' in Hk' as (i & Hi & <-).
      assert (Hin : In (bg p1 (ptk pts (ix I0 i)), i) c) by (unfold c; apply in_map_iff; exists i; auto).
      destruct (HBB _ Hin) as [Ha|Hb'].
      * exfalso. apply Hn. apply in_map_iff. exists (bg p1 (ptk pts (ix I0 i)), i). auto.
      * specialize (Hle _ _ He Hb'). cbn [fst] in Hle. destruct (Hc _ (HA _ He)) as [_ Ef]. rewrite Ef in Hle.
        intros pk pk' Hpk Hpk'. unfold ptk in Hle. rewrite Hpk, Hpk' in Hle. exact Hle.
  - intros k Hk. apply in_map_iff in Hk as (e & <- & He). apply RI. apply ix_In. apply HF. apply Hc. apply HA. exact He.
  - unfold finish. rewrite map_map.
    assert (Eg : map (fun e : val * Z => fst e) A = map (fun e => bg p1 (ptk pts (ix I0 (snd e)))) A).
    { apply map_ext_in. intros e He. apply Hc. apply HA. exact He. }
    rewrite Eg. reflexivity.
Qed.
End Cell.
