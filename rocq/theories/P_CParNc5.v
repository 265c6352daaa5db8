(** Proofs about the client's NetCDF parameter files: a file that is written and read again. *)
From Coq Require Import Ascii String Sorted.
From Verif Require Import Base ListLib M_COpt S_COpt M_CUtil S_CUtil M_CCal P_CCal M_CTree S_CTree P_CTree M_CDown M_CKrig P_COpt M_CFile P_CFile M_CNc S_CNc P_CNc P_CNc3 P_CNc7 M_CPar S_CPar P_CPar M_CParNc S_CParNc P_CParNc P_CParNc2 P_CParNc3 P_CParNc4.
Local Open Scope Z_scope.

Lemma get_same gc g t k k' : placed k -> same_place k k' -> get_parameters gc g t k false = get_parameters gc g t k' false.
Proof. intros Hk SP. pose proof (placed_same _ _ SP Hk) as Hk'. unfold get_parameters. destruct (use_time g t); cbn [bind]; auto. destruct (zlen (p_map g) =? 0); auto. cbn [bind]. rewrite !find_ok by auto. rewrite (lookup_same _ _ _ SP). reflexivity. Qed.
Lemma tree_state srt cycle h f0 f : set_all h (new_pfile cycle) = Ok f0 -> recompute_tree srt f0 = Ok f -> good_history h -> all_sited h -> h <> [] -> state_of h cycle f /\ p_locs f = map fst (p_map f).
Proof.
  intros E0 E HG HA Hne. assert (S : state_of h cycle f) by (apply (file_state srt); auto; exists f0; auto). split; [exact S|]. destruct (set_all_ok h cycle HG) as (f1 & E1 & S0 & _ & L0). rewrite E0 in E1. injection E1 as <-.
  assert (DEP : location_dependent f0 = Ok true).
  { unfold location_dependent. destruct (Z.ltb_spec 1 (zlen (p_map f0))) as [|L]; [reflexivity|]. pose proof (map_nonempty h cycle f0 S0 HG Hne) as M. destruct (p_map f0) as [|[l v] r] eqn:Em; [congruence|]. f_equal. apply located_valid.
    destruct (entry_history h cycle f0 l v S0) as (_ & (e & He & <-) & _); [rewrite Em; left; auto|]. destruct (HA e He) as (a & b & A1 & A2 & _ & A3 & A4). exists a, b. auto. }
  unfold recompute_tree in E. rewrite DEP in E. cbn [bind] in E. destruct (build_tree srt _ _) as [tr| | |]; try discriminate. cbn [bind] in E. injection E as <-. cbn [p_locs p_map]. rewrite L0. reflexivity.
Qed.
Definition unfilled (v : val) : val := if veqb v fill_float then CMV else v.
Lemma unfilled_missing m : map unfilled (init1 m CMV) = init1 m CMV.
Proof. unfold init1. rewrite map_map. apply map_ext. intros _. reflexivity. Qed.
Lemma c271 srt gc cycle cycle' o h f0 f m e0 t0 p0 n : sorts_items srt -> good_history h -> all_sited h -> last_time h n -> n < 2147483646 -> set_all h (new_pfile cycle) = Ok f0 -> recompute_tree srt f0 = Ok f ->
  0 < m -> (forall t k p, latest h t k p -> p = [] \/ zlen p = m) -> In e0 h -> (forall e, In e h -> loc_ltb2 (where_ e) (where_ e0) = false) -> latest h t0 (where_ e0) p0 -> p0 <> [] ->
  po_dim o = txt "coeff" -> po_xdim o = [] -> po_ydim o = [] -> (forall x, In x [txt "lat"; txt "lon"; txt "latitude"; txt "longitude"; txt "altitude"; txt "time"] -> po_var o <> x) ->
  exists F g, pn_write gc o f = Ok F /\ pn_read srt o cycle' F = Ok g /\ forall t e p, 0 <= t <= n -> In e h -> latest h t (where_ e) p ->
    (p = [] -> get_parameters gc g t (where_ e) false = Ok (init1 m CMV)) /\ (p <> [] -> get_parameters gc g t (where_ e) false = Ok (map (fun v => if veqb v fill_float then CMV else v) p)).
Proof.
  intros HSrt HG HA Hn Hbig E0 E Hm HU He0 Hfirst Hp0 Np0 O1 O2 O3 NV.
  assert (Hne : h <> []) by (intros ->; destruct He0). destruct (tree_state srt cycle h f0 f E0 E HG HA Hne) as [S HL]. rewrite (last_fun _ _ _ Hn (top_last h (good_times h HG))) in *.
  assert (HT : get_times f = zrange 0 (top h + 1)) by (apply (c185_times srt cycle h f); auto; [apply top_last, good_times, HG|exists f0; auto]).
  destruct (write_ok h cycle f gc S HG HA Hne m e0 t0 p0 Hm HU He0 Hfirst Hp0 Np0 o HL HT NV) as (X & vP & vLat & vLon & vElev & vTime & EW & EZ & F1 & F2 & F3 & F4 & F5 & F6 & F7 & D1 & D1f & D2 & D3 & D4 & D5 & DL & DP).
  set (F := {| pn_x := X; pn_names := [(txt "time", 0); (txt "lon", 1); (txt "lat", 2); (txt "coeff", 3)] |}) in *.
  set (s := {| d_lat := 2; d_lon := 1; d_time := Some 0; d_coeff := 3; v_lat := vLat; v_lon := vLon; v_elev := Some vElev; v_par := vP |}).
  pose proof (top_nonneg h HG) as TN. pose proof (L_pos h cycle f S HG Hne e0 He0 Hfirst) as LP.
  assert (A0 : dim_size X 0 = top h + 1) by (unfold dim_size; rewrite EZ; reflexivity). assert (A1 : dim_size X 1 = 1) by (unfold dim_size; rewrite EZ; reflexivity). assert (A2 : dim_size X 2 = zlen (locs f)) by (unfold dim_size; rewrite EZ; reflexivity). assert (A3 : dim_size X 3 = m) by (unfold dim_size; rewrite EZ; reflexivity).
  assert (SH : shape_of o F s).
  { unfold shape_of. cbn [pn_x pn_names F d_lat d_lon d_coeff d_time v_lat v_lon v_elev v_par s]. rewrite O1, O2, O3. split; [right; split; [reflexivity|]; exists [], (txt "lat"), [txt "latitude"; txt "y"]; split; [reflexivity|]; split; [intros ? []|reflexivity]|].
    split; [right; split; [reflexivity|]; exists [], (txt "lon"), [txt "longitude"; txt "x"]; split; [reflexivity|]; split; [intros ? []|reflexivity]|]. split; [reflexivity|].
    split; [exists [txt "lat"], (txt "latitude"), []; split; [reflexivity|]; split; [intros ? [<-|[]]; exact F6|exact F2]|]. split; [exists [txt "lon"], (txt "longitude"), []; split; [reflexivity|]; split; [intros ? [<-|[]]; exact F7|exact F3]|]. split; [exact F4|]. split; [exact F1|]. split; [reflexivity|]. exists vTime. auto. }
  assert (CV : forall v, n_dims v = [2; 1] -> coordinate_var s v). { intros v Hv. unfold coordinate_var. rewrite Hv. cbn [d_lat d_lon s]. split; [discriminate|]. split; [repeat (constructor; [cbn; lia|]); constructor|]. intros d [<-|[<-|[]]]; auto. }
  assert (WS : well_shaped X s).
  { unfold well_shaped. cbn [d_lat d_lon d_time d_coeff v_lat v_lon v_elev v_par s]. rewrite D1. split; [lia|]. split; [lia|]. split; [lia|]. split; [intros d Hd; injection Hd as <-; lia|]. split; [auto|]. split; [auto|]. split; [intros v Hv; injection Hv as <-; auto|].
    split; [repeat (constructor; [cbn; lia|]); constructor|]. split; [cbn; auto|]. split; [cbn; auto|]. split; [cbn; auto|]. split; [vm_compute; discriminate|]. split; [intros d [<-|[<-|[<-|[<-|[]]]]]; lia|]. unfold times_of. cbn [d_time s]. lia. }
  assert (PL : forall i l, znth (locs f) i = Ok l -> place_at s i 0 = l).
  { intros i l Hl. destruct (DL i l Hl) as (B1 & B2 & B3). unfold place_at, stored. cbn [v_lat v_lon v_elev s]. rewrite D2, D3, D4. cbn [map]. change (index_at s i 0 0 0 2) with i. change (index_at s i 0 0 0 1) with 0. rewrite B1, B2, B3. destruct l; reflexivity. }
  assert (IN : forall i j, inside X s i j -> j = 0 /\ exists l, znth (locs f) i = Ok l). { intros i j [Hi Hj]. unfold rows, columns in *. cbn [d_lat d_lon s] in *. split; [lia|]. apply znth_some. lia. }
  assert (WP : well_placed X s). { intros i j Hij. destruct (IN i j Hij) as [-> [l Hl]]. rewrite (PL i l Hl). apply (locs_sited h cycle f S HA). eapply znth_In; eauto. }
  destruct (c269 srt o cycle' F s HSrt SH WS WP) as (g & Eg & R). exists F, g. split; [exact EW|]. split; [exact Eg|].
  assert (MAIN : forall t e p, 0 <= t <= top h -> In e h -> latest h t (where_ e) p -> get_parameters gc g t (where_ e) false = Ok (map unfilled (if zlen p =? 0 then init1 m CMV else p))).
  { intros t e p Ht He Hp. destruct (history_entry h cycle f e S HG He) as (l & v & Hin & SP & _). assert (Hl : In l (locs f)) by (apply in_map_iff; exists (l, v); auto). pose proof (locs_placed h cycle f S HA l Hl) as Pl. pose proof Hl as Hl'. apply In_znth in Hl' as [i Hi].
    rewrite <- (get_same gc g t l (where_ e) Pl SP). destruct (R gc t t) as [_ R']. destruct (R' ltac:(lia)) as [_ R2].
    { unfold time_for, times_of. cbn [d_time s]. change (pn_x F) with X. rewrite A0. destruct (Z.eq_dec (top h) 0) as [T0|]; [left; lia|right]. split; [lia|]. split; [auto|]. intros _. split; [lia|]. exists 0. lia. }
    destruct R2 as [R2 _]; [unfold times_of; cbn [d_time s]; change (pn_x F) with X; rewrite A0; lia|]. rewrite <- (PL i l Hi) at 1. rewrite R2.
    - f_equal. assert (EP : pset f t l = p). { pose proof (pset_latest h cycle f S t l Pl ltac:(lia)) as L. apply (latest_same _ _ _ _ _ SP) in L. exact (latest_fun _ _ _ _ _ L Hp). }
      assert (EW' : (if zlen p =? 0 then init1 m CMV else p) = wrow f m t l) by (unfold wrow; rewrite EP; reflexivity). rewrite EW'. unfold set_at, coefficients. cbn [d_coeff s]. change (pn_x F) with X. rewrite A3.
      pose proof (wrow_len h cycle f S m Hm HU t l Pl ltac:(lia)) as WL. apply znth_ext; [rewrite !zlen_map, zlen_zrange; lia|]. intros k Hk. rewrite zlen_map, zlen_zrange in Hk. rewrite !znth_map, znth_zrange by lia. rewrite Z.add_0_l. rewrite (DP t i k l ltac:(lia) Hi ltac:(lia)).
      f_equal. unfold parameter_at, stored. cbn [v_par s]. rewrite D1. cbn [map]. change (index_at s i 0 t k 0) with t. change (index_at s i 0 t k 2) with i. change (index_at s i 0 t k 1) with 0. change (index_at s i 0 t k 3) with k. unfold fill_of, unfilled. rewrite D1f. reflexivity.
    - pose proof (znth_range _ _ _ Hi). unfold inside, rows, columns. cbn [d_lat d_lon s]. change (pn_x F) with X. lia.
    - intros i' j' Hij' SP'. destruct (IN i' j' Hij') as [-> [l' Hl'']]. rewrite (PL i' l' Hl''), (PL i l Hi) in SP'. destruct (so_sorted _ _ _ S) as [SS _]. pose proof (locs_placed h cycle f S HA l' (znth_In _ _ _ Hl'')) as Pl'. destruct (lt_neither l' l Pl' Pl) as [_ LT]. destruct (LT SP') as [LT1 LT2].
      destruct (Z.lt_trichotomy i' i) as [|[->|L]]; [left; auto|right; split; lia|]. pose proof (sorted_at _ _ SS i i' l l' Hi Hl'' L). cbn beta in *. congruence. }
  intros t e p Ht He Hp. split.
  - intros ->. rewrite (MAIN t e [] Ht He Hp). change (zlen (@nil val) =? 0) with true. cbn iota. rewrite unfilled_missing. reflexivity.
  - intros Np. rewrite (MAIN t e p Ht He Hp). destruct (Z.eqb_spec (zlen p) 0) as [Z0|_]; [apply zlen_nil in Z0; congruence|]. reflexivity.
Qed.
