(** Optimal interpolation at one background point: which observations are used. *)
From Coq Require Import Permutation.
From Verif Require Import Base QcTac ListLib M_Geo S_Geo S_Near M_OI S_OI P_Geo P_Neighbours P_Grid P_Points P_Grd P_CGrad P_OISum.
Local Open Scope Z_scope.

Lemma is_points_at G t las los P : is_points G t las los P -> at_locations G t las los P.
Proof. intros H. apply points_inv in H. unfold at_locations. tauto. Qed.
Lemma at_size G t las los P : at_locations G t las los P -> points_size P = zlen las.
Proof. intros (_ & E & _). unfold points_size. rewrite E. apply zlen_map. Qed.
Lemma at_type G t las los P : at_locations G t las los P -> points_type P = t.
Proof. intros (_ & _ & _ & H & _). apply (is_tree_type _ _ _ _ _ H). Qed.
Lemma at_get G t las los P i : at_locations G t las los P -> 0 <= i < zlen las ->
  exists p la lo, points_get P i = Ok p /\ znth las i = Ok la /\ znth los i = Ok lo /\ znth (s_lats P) i = Ok (Fin la) /\
    znth (s_lons P) i = Ok (Fin lo) /\ valid_loc t la /\ point_at G t las los i (position G t la lo).
Proof.
  intros (HL & E1 & E2 & HT & L3 & L4) Hi.
  destruct (znth_some las i Hi) as [la Hla]. destruct (znth_some los i ltac:(lia)) as [lo Hlo].
  destruct (znth_some (s_elevs P) i ltac:(lia)) as [e He]. destruct (znth_some (s_lafs P) i ltac:(lia)) as [f Hf].
  pose proof (mk_tree_inv _ _ _ _ _ HT) as (_ & _ & _ & T4 & _). rewrite zlen_map in T4.
  destruct (znth_some (t_pts (s_tree P)) i ltac:(lia)) as [q Hq].
  unfold points_get. rewrite E1, E2, !znth_map, Hla, Hlo, He, Hf, Hq. cbn [bind].
  eexists. exists la, lo. repeat split; auto.
  - eapply valid_of_tree; eauto.
  - exists la, lo. auto.
Qed.
Lemma point_at_range G t las los i q : point_at G t las los i q -> 0 <= i < zlen las.
Proof. intros (la & lo & H & _). eapply znth_range; eauto. Qed.

(** total lookup, used only in proofs *)
Definition dflt : point := {| p_lat := NaN; p_lon := NaN; p_elev := NaN; p_laf := NaN; p_type := Geodetic; p_x := NaN; p_y := NaN; p_z := NaN |}.
Definition ptk (P : points) (k : Z) : point := match points_get P k with Ok p => p | _ => dflt end.
Definition vk (l : vec) (k : Z) : val := match znth l k with Ok v => v | _ => NaN end.
Lemma vk_ok l k : 0 <= k < zlen l -> znth l k = Ok (vk l k).
Proof. intros H. destruct (znth_some l k H) as [v Hv]. unfold vk. rewrite Hv. reflexivity. Qed.
Lemma ptk_ok G t las los P k : at_locations G t las los P -> 0 <= k < zlen las -> points_get P k = Ok (ptk P k).
Proof. intros H Hk. destruct (at_get _ _ _ _ _ _ H Hk) as (p & _ & _ & Hp & _). unfold ptk. rewrite Hp. reflexivity. Qed.
Lemma pvec_ok G t las los P : at_locations G t las los P ->
  mapM (points_get P) (zrange 0 (zlen las)) = Ok (map (ptk P) (zrange 0 (zlen las))).
Proof. intros H. apply mapM_ok. intros k Hk. apply in_zrange in Hk. eapply ptk_ok; eauto. Qed.
Lemma znth_pvec P n k : 0 <= k < n -> znth (map (ptk P) (zrange 0 n)) k = Ok (ptk P k).
Proof. intros H. rewrite znth_map, znth_zrange by lia. reflexivity. Qed.

(** *** candidates *)
Lemma candidates_ok pobs pbg loc0 rhos (r : Z -> val) :
  (forall k, In k loc0 -> 0 <= k < zlen pobs) -> zlen pbg = zlen pobs -> rhos = map r loc0 ->
  candidates pobs pbg loc0 rhos =
  Ok (map (fun i => (r (ix loc0 i), i))
        (filter (fun i => is_valid (vk pobs (ix loc0 i)) && is_valid (vk pbg (ix loc0 i)) && vltb (fz 0) (r (ix loc0 i)))
                (zrange 0 (zlen loc0)))).
Proof.
  intros HR HL ->. unfold candidates.
  assert (K : forall l acc, (forall i, In i l -> 0 <= i < zlen loc0) ->
    foldM (fun acc i => index <- znth loc0 i ;; o <- znth pobs index ;;
      if negb (is_valid o) then Ok acc else b <- znth pbg index ;; if negb (is_valid b) then Ok acc else
      r0 <- znth (map r loc0) i ;; Ok (if vltb (fz 0) r0 then acc ++ [(r0, i)] else acc)) acc l =
    Ok (acc ++ map (fun i => (r (ix loc0 i), i))
        (filter (fun i => is_valid (vk pobs (ix loc0 i)) && is_valid (vk pbg (ix loc0 i)) && vltb (fz 0) (r (ix loc0 i))) l))).
  { induction l as [|i l IH]; intros acc Hl; cbn [foldM filter map]; [rewrite app_nil_r; reflexivity|].
    assert (Hi : 0 <= i < zlen loc0) by (apply Hl; left; reflexivity). rewrite (ix_ok _ _ Hi). cbn [bind].
    pose proof (HR _ (ix_In _ _ Hi)) as Hk. rewrite (vk_ok pobs _ Hk). cbn [bind]. rewrite (vk_ok pbg) by lia.
    rewrite znth_map, (ix_ok _ _ Hi).
    assert (IH' := IH). specialize (IH acc ltac:(intros; apply Hl; right; assumption)).
    destruct (is_valid (vk pobs (ix loc0 i))); cbn [negb andb bind]; [|exact IH].
    destruct (is_valid (vk pbg (ix loc0 i))); cbn [negb andb bind]; [|exact IH].
    destruct (vltb (fz 0) (r (ix loc0 i))); [|exact IH].
    rewrite IH' by (intros; apply Hl; right; assumption). cbn [map]. rewrite <- app_assoc. reflexivity. }
  rewrite K by (intros i Hi; apply in_zrange in Hi; exact Hi). reflexivity.
Qed.

(** *** pick *)
Lemma mapM_rev {A} (s : list A) m : 0 <= m <= zlen s ->
  mapM (fun i => znth s (zlen s - 1 - i)) (zrange 0 m) = Ok (firstn (Z.to_nat m) (rev s)).
Proof.
  intros Hm.
  assert (E : exists s1 s2, s = s1 ++ s2 /\ zlen s2 = m).
  { exists (firstn (length s - Z.to_nat m) s), (skipn (length s - Z.to_nat m) s). split; [symmetry; apply firstn_skipn|].
    unfold zlen in *. rewrite skipn_length. lia. }
  destruct E as (s1 & s2 & -> & E).
  assert (F : firstn (Z.to_nat m) (rev (s1 ++ s2)) = rev s2).
  { rewrite rev_app_distr, firstn_app. replace (Z.to_nat m - length (rev s2))%nat with 0%nat by (rewrite rev_length; unfold zlen in E; lia).
    cbn [firstn]. rewrite app_nil_r. rewrite firstn_all2; [reflexivity|]. rewrite rev_length. unfold zlen in E. lia. }
  rewrite F. clear F Hm. revert s1 m E. induction s2 as [|x s2 IH] using rev_ind; intros s1 m E.
  { rewrite zlen_nil in E. subst m. reflexivity. }
  assert (L1 : zlen [x] = 1) by reflexivity. assert (L2 : zlen (s1 ++ s2 ++ [x]) = zlen (s1 ++ s2) + 1) by (rewrite app_assoc, zlen_app, L1; lia).
  rewrite zlen_app, L1 in E. pose proof (zlen_nonneg s2).
  rewrite zrange_cons by lia. cbn [mapM]. rewrite rev_app_distr. cbn [rev app].
  replace (zlen (s1 ++ s2 ++ [x]) - 1 - 0) with (zlen (s1 ++ s2)) by lia.
  rewrite app_assoc. rewrite znth_app_r by lia. rewrite Z.sub_diag, znth_cons0. cbn [bind].
  replace (zrange (0 + 1) m) with (map (fun z => z + 1) (zrange 0 (m - 1))) by (rewrite <- zrange_shift; f_equal; lia).
  assert (Q : mapM (fun i => znth ((s1 ++ s2) ++ [x]) (zlen ((s1 ++ s2) ++ [x]) - 1 - i)) (map (fun z => z + 1) (zrange 0 (m - 1)))
     = mapM (fun i => znth (s1 ++ s2) (zlen (s1 ++ s2) - 1 - i)) (zrange 0 (m - 1))).
  { rewrite mapM_map. apply mapM_ext. intros i Hi. apply in_zrange in Hi.
    replace (zlen ((s1 ++ s2) ++ [x]) - 1 - (i + 1)) with (zlen (s1 ++ s2) - 1 - i).
    2:{ rewrite (zlen_app (s1 ++ s2)), L1. lia. }
    apply znth_app_l. lia. }
  rewrite Q, (IH s1 (m - 1)) by lia. reflexivity.
Qed.
Lemma mapM_bind {A B C} (f : A -> res B) (h : B -> C) l r : mapM f l = Ok r -> mapM (fun a => b <- f a ;; Ok (h b)) l = Ok (map h r).
Proof.
  revert r. induction l as [|a l IH]; intros r H; cbn in *; [injection H as <-; reflexivity|].
  apply bind_Ok in H as (b & Hb & H). apply bind_Ok in H as (q & Hq & H). injection H as <-. rewrite Hb. cbn. rewrite (IH _ Hq). reflexivity.
Qed.
Lemma pick_obs_ok L mp loc0 c : lib_ok L -> (forall e, In e c -> 0 <= snd e < zlen loc0) -> (forall e, In e c -> fst e <> NaN) ->
  exists A B, Permutation (A ++ B) c /\
    pick_obs L mp loc0 c = Ok (map (fun e => (ix loc0 (snd e), fst e)) A) /\
    (forall a b, In a A -> In b B -> vleb (fst b) (fst a) = true) /\
    (B = [] /\ A = c /\ (0 < mp -> zlen c <= mp) \/ 0 < mp /\ zlen A = mp).
Proof.
  intros HL HR NN. unfold pick_obs.
  assert (K : forall (n : Z) (f : Z -> res (val * Z)) l A, mapM f l = Ok A -> (forall e, In e A -> In e c) ->
    mapM (fun i => e <- f i ;; k <- znth loc0 (snd e) ;; Ok (k, fst e)) l = Ok (map (fun e => (ix loc0 (snd e), fst e)) A)).
  { intros _ f l. induction l as [|a l IH]; intros A H HA; cbn in *; [injection H as <-; reflexivity|].
    apply bind_Ok in H as (b & Hb & H). apply bind_Ok in H as (q & Hq & H). injection H as <-. rewrite Hb. cbn.
    rewrite (ix_ok loc0 (snd b)) by (apply HR, HA; left; reflexivity). cbn. rewrite (IH q Hq) by (intros; apply HA; right; assumption). reflexivity. }
  destruct ((0 <? mp) && (mp <? zlen c))%bool eqn:E.
  - apply andb_true_iff in E as [E1 E2]. pose proof (ok_perm _ HL c) as P. pose proof (ok_sorted _ HL c NN) as SS.
    set (s := l_sort L c) in *. clearbody s.
    assert (Es : zlen s = zlen c) by (unfold zlen; rewrite (Permutation_length P); reflexivity).
    exists (firstn (Z.to_nat mp) (rev s)), (skipn (Z.to_nat mp) (rev s)). split; [|split; [|split]].
    + rewrite firstn_skipn. rewrite <- P. symmetry. apply Permutation_rev.
    + apply (K 0); [apply mapM_rev; lia|]. intros e He. eapply Permutation_in; [exact P|]. apply in_rev.
      rewrite <- (firstn_skipn (Z.to_nat mp) (rev s)). apply in_or_app. left. exact He.
    + intros a b Ha Hb. apply In_znth in Ha as [i Hi]. apply In_znth in Hb as [j Hj].
      assert (Ra : znth (rev s) i = Ok a).
      { rewrite <- (firstn_skipn (Z.to_nat mp) (rev s)). rewrite znth_app_l; [exact Hi|]. apply znth_range in Hi. lia. }
      assert (Ri : 0 <= i < mp). { apply znth_range in Hi. unfold zlen in Hi. rewrite firstn_length in Hi. lia. }
      assert (Lm : zlen (firstn (Z.to_nat mp) (rev s)) = mp).
      { unfold zlen. rewrite firstn_length, rev_length. unfold zlen in Es, E2. lia. }
      assert (Rb : znth (rev s) (mp + j) = Ok b).
      { rewrite <- (firstn_skipn (Z.to_nat mp) (rev s)). rewrite znth_app_r by (apply znth_range in Hj; lia). rewrite Lm. rewrite <- Hj. f_equal. lia. }
      assert (Zr : forall k x, znth (rev s) k = Ok x -> znth s (zlen s - 1 - k) = Ok x).
      { intros k x Hx. pose proof (znth_range _ _ _ Hx) as R. unfold zlen in R. rewrite rev_length in R.
        apply znth_Ok in Hx as [_ Hx]. apply znth_Ok. split; [unfold zlen; lia|].
        assert (G : nth_error s (length s - 1 - Z.to_nat k) = Some x).
        { rewrite <- (rev_involutive s), rev_length. rewrite (nth_error_nth' (rev (rev s)) x) by (rewrite !rev_length; lia).
          rewrite rev_nth by (rewrite rev_length; lia). f_equal. rewrite rev_length.
          replace (length s - S (length s - 1 - Z.to_nat k))%nat with (Z.to_nat k) by lia.
          apply nth_error_nth. exact Hx. }
        rewrite <- G. f_equal. unfold zlen. lia. }
      apply Zr in Ra. apply Zr in Rb. apply znth_range in Hj.
      eapply (SS (zlen s - 1 - (mp + j)) (zlen s - 1 - i)); eauto; try lia. apply znth_range in Rb. lia.
    + right. split; [lia|]. unfold zlen. rewrite firstn_length, rev_length. unfold zlen in Es, E2. lia.
  - exists c, []. split; [rewrite app_nil_r; reflexivity|]. split; [|split].
    + apply (K 0); [|auto]. 
      transitivity (mapM (fun i => a <- znth c i ;; Ok a) (zrange 0 (zlen c))).
      { apply mapM_ext. intros i _. destruct (znth c i); reflexivity. }
      rewrite (mapM_zrange_znth Ok). clear. induction c as [|a c IH]; cbn; [reflexivity|]. rewrite IH. reflexivity.
    + intros a b _ [].
    + left. repeat split. intros. lia.
Qed.
