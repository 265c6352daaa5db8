(** Proofs about the client's NetCDF parameter files: the parameters after reading. *)
From Coq Require Import Ascii String Sorted.
From Verif Require Import Base ListLib M_COpt S_COpt M_CUtil S_CUtil M_CCal P_CCal M_CTree S_CTree P_CTree M_CDown M_CKrig M_CFile M_CNc S_CNc P_CNc M_CPar S_CPar P_CPar M_CParNc S_CParNc P_CParNc P_CParNc2.
Local Open Scope Z_scope.

Section After.
Variables (srt : bool -> list item -> list item) (o : pn_options) (cycle : bool) (F : pn_file) (s : shape).
Let X := pn_x F.
Hypotheses (HSrt : sorts_items srt) (HS : shape_of o F s) (HW : well_shaped X s) (HP : well_placed X s).
Let h := history F s.
Let n := times_of X s.
Lemma HG : good_history h. Proof. exact (history_good F s HW HP). Qed.
Lemma times_pos : 0 < n. Proof. pose proof HW as (_ & _ & _ & _ & _ & _ & _ & _ & _ & _ & _ & _ & _ & WT). unfold n. lia. Qed.
Lemma h_top : top h = n - 1. Proof. apply settings_top; [apply pts_nonempty; auto|apply times_pos]. Qed.
Lemma h_in e : In e h <-> exists i j t, inside X s i j /\ 0 <= t < n /\ e = (t, place_at s i j, set_at X s i j t).
Proof.
  unfold h, history. rewrite in_settings. split.
  - intros ([i j] & t & Hc & Ht & ->). apply in_pts in Hc. exists i, j, t. auto.
  - intros (i & j & t & Hc & Ht & ->). exists (i, j), t. split; [apply in_pts; auto|auto].
Qed.
Lemma place_placed i j : inside X s i j -> placed (place_at s i j).
Proof. intros H. destruct (HP i j H) as (a & b & K). eapply sited_placed; eauto. Qed.
Lemma time_for_used t u : time_for X s cycle t u -> time_used h cycle t u.
Proof.
  pose proof times_pos as Hn. pose proof (sizes_pos F s HW) as (HY & HX & _). fold X in HY, HX. intros [[E ->]|(L & A & B)].
  - left. split; [|auto]. intros e He. apply h_in in He as (i & j & t' & _ & Ht & ->). unfold at_. cbn. unfold n in *. lia.
  - right. split; [|split; [auto|]].
    + exists (1, place_at s 0 0, set_at X s 0 0 1). split; [|unfold at_; cbn; lia]. apply h_in. exists 0, 0, 1. split; [split; lia|]. split; [unfold n; lia|auto].
    + intros C. destruct (B C) as (B1 & m & B2). exists (n - 1). split; [rewrite <- h_top; apply top_last, good_times, HG|]. split; [unfold n; lia|]. exists m. unfold n. rewrite B2. f_equal. f_equal. lia.
Qed.
Lemma time_ok g t u : state_of h cycle g -> 0 <= t -> time_for X s cycle t u -> 0 <= u /\ use_time g t = if n <=? u then Abort else Ok u.
Proof.
  intros S Ht Hu. destruct (use_time_ok h cycle g t S HG) as [_ U]. destruct (U Ht) as (u' & H0 & H1 & E). rewrite (time_used_fun _ _ _ _ _ HG (time_for_used t u Hu) H1) in *. split; [auto|]. rewrite E, h_top. destruct (Z.ltb_spec (n - 1) u'), (Z.leb_spec n u'); auto; lia.
Qed.
Lemma at_all (c : Z * Z) u : 0 <= u < n -> at_list (all_sets (set_at X s) n c) u = set_at X s (fst c) (snd c) u.
Proof.
  intros H. unfold all_sets, at_list. assert (E : znth (map (set_at X s (fst c) (snd c)) (zrange 0 n)) u = Ok (set_at X s (fst c) (snd c) u)) by (rewrite znth_map, znth_zrange by lia; f_equal; f_equal; lia).
  apply znth_Ok in E as [_ E]. apply nth_error_nth with (d := []). exact E.
Qed.
Lemma latest_last i j u : inside X s i j -> last_there X s i j -> 0 <= u < n -> latest h u (place_at s i j) (set_at X s i j u).
Proof.
  intros Hij HL Hu. assert (Hin : In (i, j) (pairs2 (rows X s) (columns X s))) by (apply in_pts; auto). apply in_split in Hin as (b & a & E).
  change (set_at X s i j u) with (set_at X s (fst (i, j)) (snd (i, j)) u). rewrite <- (at_all (i, j) u Hu). unfold h, history. pose proof times_pos as Hn. apply (latest_final (place_at s) (set_at X s) (times_of X s) [] (Z.lt_le_incl _ _ Hn)) with (b := b) (a := a); [exact E|apply same_refl| |lia].
  intros [i' j'] Hc SP. pose proof (pairs_order _ _ _ _ _ E _ Hc) as O. cbn [fst snd] in O. unfold spot_of in SP. cbn [fst snd] in SP. destruct (HL i' j') as [?|?]; [|exact SP|lia|lia]. apply in_pts. fold X. rewrite E. apply in_or_app. right. right. auto.
Qed.
Lemma map_has g i j : state_of h cycle g -> inside X s i j -> exists l v, lookup (p_map g) (place_at s i j) = Some (l, v).
Proof.
  intros S Hij. destruct (lookup (p_map g) (place_at s i j)) as [[l v]|] eqn:E; [eauto|]. exfalso. pose proof times_pos. apply (so_none _ _ _ S (place_at s i j) (place_placed i j Hij) E (0, place_at s i j, set_at X s i j 0)); [|apply same_refl]. apply h_in. exists i, j, 0. split; [auto|]. split; [lia|auto].
Qed.
Lemma latest_set u k p : latest h u k p -> (p = [] /\ forall e, In e h -> ~ about e u k) \/ exists i j, inside X s i j /\ same_place (place_at s i j) k /\ p = set_at X s i j u.
Proof.
  intros [(b & e & a & E & [A1 A2] & W & _)|H]; [right|left; auto]. assert (He : In e h) by (rewrite E; apply in_or_app; right; left; auto). apply h_in in He as (i & j & t & Hij & Ht & ->). unfold at_, where_, what in *. cbn in *. subst. eauto.
Qed.
Lemma map_empty g : state_of h cycle g -> zlen (p_map g) =? 0 = false.
Proof. intros S. pose proof (sizes_pos F s HW) as (HY & HX & _). fold X in HY, HX. destruct (map_has g 0 0 S) as (l & v & E); [split; lia|]. destruct (p_map g); [discriminate|]. rewrite zlen_cons. pose proof (zlen_nonneg e). lia. Qed.

Lemma c269 : exists g, pn_read srt o cycle F = Ok g /\ forall gc t u, (t < 0 -> forall k near, get_parameters gc g t k near = Abort) /\ (0 <= t -> time_for X s cycle t u ->
  (times_of X s <= u -> forall k near, get_parameters gc g t k near = Abort) /\
  (u < times_of X s -> (forall i j, inside X s i j -> last_there X s i j -> get_parameters gc g t (place_at s i j) false = Ok (set_at X s i j u)) /\
    (forall k, placed k -> (forall i j, inside X s i j -> ~ same_place (place_at s i j) k) -> get_parameters gc g t k false = Ok []))).
Proof.
  destruct (read_ok srt o cycle F s HSrt HS HW HP) as (g & E & S & _). exists g. split; [exact E|]. intros gc t u. split; [intros H k near; unfold get_parameters; destruct (use_time_ok h cycle g t S HG) as [U _]; rewrite U by auto; reflexivity|]. intros Ht Hu.
  destruct (time_ok g t u S Ht Hu) as [H0 ET]. fold n. split; [intros L k near; unfold get_parameters; rewrite ET; replace (n <=? u) with true by lia; reflexivity|]. intros L. replace (n <=? u) with false in ET by lia. split.
  - intros i j Hij HL. unfold get_parameters. rewrite ET. cbn [bind]. rewrite (map_empty g S). cbn [bind]. rewrite find_ok by (apply place_placed; auto). cbn [bind]. destruct (map_has g i j S Hij) as (l & v & EL). rewrite EL. rewrite at_list_get by auto. f_equal.
    destruct (so_some _ _ _ S _ l v (place_placed i j Hij) EL) as (_ & _ & Q & _). apply (latest_fun h u (place_at s i j)); [apply Q; auto|apply latest_last; auto].
  - intros k Hk N. unfold get_parameters. rewrite ET. cbn [bind]. rewrite (map_empty g S). cbn [bind]. rewrite find_ok by auto. cbn [bind]. destruct (lookup (p_map g) k) as [[l v]|] eqn:EL; [|reflexivity]. exfalso.
    destruct (so_some _ _ _ S k l v Hk EL) as ((e & He & Ee) & _). apply h_in in He as (i & j & t' & Hij & _ & ->). unfold where_ in Ee. cbn in Ee. apply (N i j Hij). rewrite Ee. apply lookup_In in EL as [_ SK]. apply same_key_spec in SK; auto. rewrite <- Ee. apply place_placed; auto.
Qed.

Lemma c270 D t u k lat lon : zero_at_itself D -> straight D -> 0 <= t -> time_for X s cycle t u -> u < times_of X s -> sited k lat lon -> exists g i j la lo, pn_read srt o cycle F = Ok g /\
  inside X s i j /\ sited (place_at s i j) la lo /\ get_parameters (lift4 D) g t k true = Ok (set_at X s i j u) /\ (forall i' j' la' lo', inside X s i' j' -> sited (place_at s i' j') la' lo' -> (D lat lon la lo <= D lat lon la' lo')%Qc).
Proof.
  intros HZ HSt Ht Hu L Hk. destruct (read_ok srt o cycle F s HSrt HS HW HP) as (g & E & S & f & Sf & Lf & Mf & Tf). fold h in S, Sf. destruct (time_ok g t u S Ht Hu) as [H0 ET]. fold n in L. replace (n <=? u) with false in ET by lia.
  pose proof (sizes_pos F s HW) as (HY & HX & _). fold X in HY, HX. assert (H00 : inside X s 0 0) by (split; lia).
  assert (HAS : forall i j, inside X s i j -> exists p, latest h u (place_at s i j) p /\ p <> []).
  { intros i j Hij. destruct (map_has g i j S Hij) as (l & v & EL). destruct (so_some _ _ _ S _ l v (place_placed i j Hij) EL) as (_ & _ & Q & _). exists (at_list v u). split; [apply Q; auto|]. destruct (latest_set _ _ _ (Q u H0)) as [[_ N]|(i' & j' & _ & _ & ->)]; [|apply set_nonempty; auto].
    exfalso. apply (N (u, place_at s i j, set_at X s i j u)); [apply h_in; exists i, j, u; split; [auto|]; split; [lia|auto]|]. split; [reflexivity|apply same_refl]. }
  destruct (p_map f) as [|[l1 v1] [|[l2 v2] m]] eqn:Em.
  - exfalso. pose proof (map_empty g S) as Z0. rewrite <- Mf in Z0. cbn in Z0. discriminate.
  - (* a single place *)
    assert (K : forall i j, inside X s i j -> same_place (place_at s i j) l1).
    { intros i j Hij. destruct (map_has f i j Sf Hij) as (l & v & EL). apply lookup_In in EL as [Hin SK]. rewrite Em in Hin. destruct Hin as [Hin|[]]. injection Hin as -> ->. apply same_sym, same_key_spec; auto; [|apply place_placed; auto].
      destruct (entry_history h cycle f l v Sf) as (P & _); [rewrite Em; left; auto|exact P]. }
    assert (Hin : In (l1, v1) (p_map g)) by (rewrite <- Mf; left; auto). destruct (entry_history h cycle g l1 v1 S Hin) as (P1 & _ & _ & Q & _).
    destruct (latest_set _ _ _ (Q u H0)) as [[_ N]|(i & j & Hij & SP & Ev)].
    { exfalso. apply (N (u, place_at s 0 0, set_at X s 0 0 u)); [apply h_in; exists 0, 0, u; split; [auto|]; split; [lia|auto]|]. split; [reflexivity|apply K; auto]. }
    destruct (HP i j Hij) as (la & lo & Hs). exists g, i, j, la, lo. split; [auto|]. split; [auto|]. split; [auto|]. split.
    + unfold get_parameters. rewrite ET. cbn [bind]. rewrite (map_empty g S). unfold nearest_location. rewrite <- Mf. cbn [zlen length]. change (zlen [(l1, v1)] =? 1) with true. cbn [bind]. rewrite find_ok by auto. cbn [bind]. rewrite (lookup_entry _ l1 v1); [|rewrite Mf; apply S|left; auto]. rewrite at_list_get by auto. f_equal. exact Ev.
    + intros i' j' la' lo' Hij' Hs'. assert (SS : same_place (place_at s i' j') (place_at s i j)) by (eapply same_trans; [apply K; auto|apply same_sym, K; auto]). apply (sited_same _ _ _ _ SS) in Hs'. destruct (sited_fun _ _ _ _ _ Hs Hs') as [-> ->]. apply Qcle_refl.
  - assert (T2 : two_places h).
    { destruct (entry_history h cycle f l1 v1 Sf) as (P1 & (e1 & I1 & X1) & _); [rewrite Em; left; auto|]. destruct (entry_history h cycle f l2 v2 Sf) as (P2 & (e2 & I2 & X2) & _); [rewrite Em; right; left; auto|]. exists e1, e2. split; [auto|]. split; [auto|]. rewrite X1, X2. intros SP.
      apply lt_neither in SP as [SP _]; auto. destruct (so_sorted _ _ _ Sf) as [SS _]. rewrite Em in SS. unfold keys in SS. cbn [map fst] in SS. inversion SS as [|? ? _ FF]; subst. inversion FF; subst. congruence. }
    destruct (c184_state D srt cycle h f HZ HSt HSrt HG (history_sited F s HP) T2 Sf Lf) as (g' & Eg & R).
    assert (EQ : g' = g). { unfold recompute_tree, location_dependent in Eg. unfold pn_tree in Tf. pose proof (several h cycle f Sf HG T2) as M1. replace (1 <? zlen (p_map f)) with true in Eg by lia. cbn [bind] in Eg. congruence. }
    subst g'. assert (Hn : last_time h (n - 1)) by (rewrite <- h_top; apply top_last, good_times, HG).
    destruct (R t u (n - 1) k lat lon Ht (time_for_used t u Hu) Hn ltac:(lia) Hk) as [(l & p & (_ & N1 & N2 & la & lo & N3 & N4) & EG & _)|(N & _)].
    + destruct (latest_set _ _ _ N1) as [[-> _]|(i & j & Hij & SP & ->)]; [congruence|]. exists g, i, j, la, lo. split; [auto|]. split; [auto|]. split; [apply (sited_same l); auto; apply same_sym; auto|]. split; [exact EG|].
      intros i' j' la' lo' Hij' Hs'. destruct (HAS i' j' Hij') as (p' & A & B). apply (N4 (place_at s i' j') la' lo' p'); auto.
    + exfalso. destruct (HAS 0 0 H00) as (p & A & B). apply B. eapply N; eauto.
Qed.
End After.
