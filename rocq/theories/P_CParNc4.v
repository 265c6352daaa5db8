(** Proofs about the client's NetCDF parameter files: writing. *)
From Coq Require Import Ascii String Sorted.
From Verif Require Import Base ListLib M_COpt S_COpt M_CUtil S_CUtil M_CCal P_CCal M_CTree S_CTree P_CTree M_CDown M_CKrig P_COpt M_CFile P_CFile M_CNc S_CNc P_CNc P_CNc3 P_CNc7 M_CPar S_CPar P_CPar M_CParNc S_CParNc P_CParNc P_CParNc2 P_CParNc3.
Local Open Scope Z_scope.

Lemma grow_id ds : forall d n m u, znth ds d = Ok (m, u) -> n <= m -> grow ds d n = ds.
Proof.
  intros d n m u E H. apply znth_ext.
  - clear. revert d. induction ds as [|[m u] ds IH]; intros d; cbn [grow]; [reflexivity|]. destruct (d =? 0); rewrite !zlen_cons; [reflexivity|]. rewrite IH. reflexivity.
  - intros k _. rewrite grow_at. destruct (znth ds k) as [[m' u']| | |] eqn:E'; auto. destruct (Z.eqb_spec k d) as [->|]; auto. rewrite E in E'. injection E' as <- <-. rewrite Z.max_l by lia. reflexivity.
Qed.
Lemma dim_known X d : 0 < dim_size X d -> exists u, znth (x_dims X) d = Ok (dim_size X d, u).
Proof. unfold dim_size. destruct (znth (x_dims X) d) as [[m u]| | |]; cbn; intros; try lia. eauto. Qed.
Lemma grow_all_id dims X l : (forall d, In d l -> 0 < dim_size X d) -> dims = x_dims X -> grow_all dims l (map (fun _ => 0) l) (map (dim_size X) l) = dims.
Proof.
  intros H ->. induction l as [|d l IH]; cbn [map grow_all]; [reflexivity|]. destruct (dim_known X d (H d (or_introl eq_refl))) as [u E]. rewrite (grow_id _ d (0 + dim_size X d) _ u E) by lia. apply IH. intros; apply H; right; auto.
Qed.
Lemma allowed_all X w l : (forall d, In d l -> 0 < dim_size X d) -> allowed X w l (map (fun _ => 0) l) (map (dim_size X) l) = true.
Proof.
  induction l as [|d l IH]; intros H; cbn [map allowed]; [reflexivity|]. destruct (dim_known X d (H d (or_introl eq_refl))) as [u ->]. rewrite IH by (intros; apply H; right; auto). replace (0 + dim_size X d <=? dim_size X d) with true by lia. reflexivity.
Qed.
Lemma minus_zero {A} (l : list A) : forall i, zlen l = zlen i -> minus i (map (fun _ => 0) l) = i.
Proof.
  induction l as [|a l IH]; intros [|x i] H; cbn [map minus]; auto.
  - rewrite zlen_cons in H. change (zlen (@nil A)) with 0 in H. pose proof (zlen_nonneg i). lia.
  - rewrite !zlen_cons in H. rewrite IH by lia. f_equal. lia.
Qed.
Definition plain_var (v : nc_var) : Prop := n_fill v = None /\ n_store v = Some.
Lemma put_whole_ok X name v values : find_name (x_vars X) name = Some v -> plain_var v -> (forall d, In d (n_dims v) -> 0 < dim_size X d) -> zlen values = product (map (dim_size X) (n_dims v)) ->
  exists X' v', put_whole X name values = Ok X' /\ x_dims X' = x_dims X /\ find_name (x_vars X') name = Some v' /\ plain_var v' /\ n_dims v' = n_dims v /\
    (forall idx, fits_in (map (dim_size X) (n_dims v)) idx -> znth values (row_major (map (dim_size X) (n_dims v)) idx) = Ok (n_data v' idx)) /\
    forall other, other <> name -> find_name (x_vars X') other = find_name (x_vars X) other.
Proof.
  intros E [P1 P2] HD HL. unfold put_whole. rewrite E. rewrite init1_map. unfold put_vara. rewrite allowed_all by auto. cbn [negb].
  set (sizes := map (dim_size X) (n_dims v)) in *. assert (EM : mapM (fun k => b <- znth (map Some values) k ;; match b with None => UB | Some x => match n_store v x with Some y => Ok y | None => Abort end end) (zrange 0 (product sizes)) = Ok values).
  { rewrite <- HL. pose proof (zlen_nonneg values). rewrite (mapM_ok _ (fun k => match znth values k with Ok x => x | _ => NaN end)).
    - f_equal. apply znth_ext; [rewrite zlen_map, zlen_zrange; lia|]. intros k Hk. rewrite zlen_map, zlen_zrange in Hk. rewrite znth_map, znth_zrange by lia. destruct (znth_some values k) as [x Ex]; [lia|]. rewrite Z.add_0_l, Ex. reflexivity.
    - intros k Hk. apply in_zrange in Hk. rewrite znth_map. destruct (znth_some values k) as [x ->]; [lia|]. cbn [bind]. rewrite P2. reflexivity. }
  cbn beta in EM. rewrite EM. cbn [bind]. eexists. eexists. split; [reflexivity|]. cbn [x_dims x_vars]. split; [unfold sizes; apply grow_all_id; auto|]. split; [rewrite find_store, str_eqb_refl; reflexivity|]. split; [split; auto|]. split; [reflexivity|]. split.
  - intros idx HF. cbn [n_data with_data]. assert (LI : zlen (n_dims v) = zlen idx). { rewrite <- (zlen_map (dim_size X)). fold sizes. clear - HF. induction HF; [reflexivity|]. rewrite !zlen_cons. lia. }
    assert (SL : in_slab (map (fun _ => 0) (n_dims v)) sizes idx = true) by (apply in_slab_fits; rewrite zlen_map, minus_zero by auto; auto). rewrite SL. rewrite minus_zero by auto.
    pose proof (row_major_range _ _ HF) as RR. destruct (znth_some values (row_major sizes idx)) as [x ->]; [rewrite HL; auto|reflexivity].
  - intros other N. rewrite find_store. destruct (str_eqb_spec name other) as [->|]; [congruence|reflexivity].
Qed.

Lemma sorted_at {A} (R : A -> A -> Prop) l : StronglySorted R l -> forall i j a b, znth l i = Ok a -> znth l j = Ok b -> i < j -> R a b.
Proof.
  induction 1 as [|x l S IH Fl]; intros i j a b Ei Ej L; [apply znth_range in Ei; change (zlen (@nil A)) with 0 in Ei; lia|]. pose proof (znth_range _ _ _ Ei). rewrite (znth_consS x l j) in Ej by lia. destruct (Z.eq_dec i 0) as [->|].
  - rewrite znth_cons0 in Ei. injection Ei as <-. rewrite Forall_forall in Fl. apply Fl. eapply znth_In; eauto.
  - rewrite znth_consS in Ei by lia. apply (IH (i - 1) (j - 1)); auto. lia.
Qed.

Section Write.
Variables (h : list setting) (cycle : bool) (f : pfile) (gc : val -> val -> val -> val -> val).
Hypotheses (S : state_of h cycle f) (HG : good_history h) (HA : all_sited h) (Hne : h <> []).
Let N := top h + 1.
Definition locs : list location := map fst (p_map f).
Definition pset (t : Z) (l : location) : vec := match lookup (p_map f) l with Some (_, v) => at_list v t | None => [] end.
Lemma pset_latest t l : placed l -> 0 <= t -> latest h t l (pset t l).
Proof.
  intros Hl Ht. unfold pset. destruct (lookup (p_map f) l) as [[l' v]|] eqn:E; [apply (so_some _ _ _ S l l' v Hl E); auto|]. apply latest_none. intros e He. apply (so_none _ _ _ S l Hl E e He).
Qed.
Lemma early t : 0 <= t < N -> use_time f t = Ok t.
Proof.
  intros Ht. unfold N in Ht. unfold use_time. replace (t <? 0) with false by lia. rewrite (so_timed _ _ _ S), (so_max _ _ _ S), (so_cycle _ _ _ S). destruct (Z.ltb_spec 0 (top h)) as [L|L]; cbn [andb].
  - destruct cycle; cbn [andb]; replace (top h + 1 <=? t) with false by lia; replace (top h <? t) with false by lia; reflexivity.
  - replace (top h <? 0) with false by lia. f_equal. lia.
Qed.
Lemma nonempty_map : p_map f <> []. Proof. apply (map_nonempty h cycle f); auto. Qed.
Lemma get_pset t l : placed l -> 0 <= t < N -> get_parameters gc f t l false = Ok (pset t l).
Proof.
  intros Hl Ht. unfold get_parameters. rewrite early by auto. cbn [bind]. pose proof nonempty_map as M. destruct (Z.eqb_spec (zlen (p_map f)) 0) as [Z0|_]; [apply zlen_nil in Z0; congruence|]. rewrite find_ok by auto. cbn [bind]. unfold pset. destruct (lookup (p_map f) l) as [[l' v]|]; [apply at_list_get; lia|reflexivity].
Qed.
Lemma locs_sited l : In l locs -> exists a b, sited l a b.
Proof. intros Hl. apply in_map_iff in Hl as ([l' v] & <- & Hin). destruct (entry_history h cycle f l' v S Hin) as (_ & (e & He & <-) & _). apply HA; auto. Qed.
Lemma locs_placed l : In l locs -> placed l.
Proof. intros Hl. destruct (locs_sited l Hl) as (a & b & H). eapply sited_placed; eauto. Qed.
Variables (m : Z) (e0 : setting) (t0 : Z) (p0 : vec).
Hypotheses (Hm : 0 < m) (HU : forall t k p, latest h t k p -> p = [] \/ zlen p = m) (He0 : In e0 h) (Hfirst : forall e, In e h -> loc_ltb2 (where_ e) (where_ e0) = false) (Hp0 : latest h t0 (where_ e0) p0) (Np0 : p0 <> []).
Definition wrow (t : Z) (l : location) : vec := if zlen (pset t l) =? 0 then init1 m CMV else pset t l.
Lemma pset_size t l : placed l -> 0 <= t -> zlen (pset t l) = 0 \/ zlen (pset t l) = m.
Proof. intros Hl Ht. destruct (HU t l _ (pset_latest t l Hl Ht)) as [->|E]; [left; reflexivity|auto]. Qed.
Lemma wrow_len t l : placed l -> 0 <= t -> zlen (wrow t l) = m.
Proof. intros Hl Ht. unfold wrow. destruct (pset_size t l Hl Ht) as [E|E]; rewrite E; [cbn; apply zlen_init1; lia|]. replace (m =? 0) with false by lia. exact E. Qed.
Lemma row_ok t l : placed l -> 0 <= t < N -> pn_row gc f m t l = Ok (wrow t l).
Proof.
  intros Hl Ht. unfold pn_row, wrow. rewrite get_pset by auto. cbn [bind]. destruct (pset_size t l Hl ltac:(lia)) as [E|E]; rewrite E.
  - replace (0 =? m) with false by lia. reflexivity.
  - rewrite Z.eqb_refl. replace (m =? 0) with false by lia. reflexivity.
Qed.
Lemma first_loc : exists l1 rest, locs = l1 :: rest /\ same_place l1 (where_ e0).
Proof.
  unfold locs. pose proof nonempty_map as M. destruct (p_map f) as [|[l1 v1] rest] eqn:Em; [congruence|]. exists l1, (map fst rest). split; [reflexivity|].
  destruct (history_entry h cycle f e0 S HG He0) as (l & v & Hin & SP & _). rewrite Em in Hin. destruct Hin as [Hin|Hin]; [injection Hin as -> ->; auto|]. exfalso.
  destruct (entry_history h cycle f l1 v1 S) as (_ & (e & He & Ee) & _); [rewrite Em; left; auto|]. specialize (Hfirst e He). rewrite Ee in Hfirst.
  destruct (so_sorted _ _ _ S) as [SS _]. rewrite Em in SS. unfold keys in SS. cbn [map fst] in SS. inversion SS as [|? ? _ FF]; subst. rewrite Forall_forall in FF. assert (In l (map fst rest)) as Hl by (apply in_map_iff; exists (l, v); auto). specialize (FF l Hl). destruct (lt_same l (where_ e0) (where_ e) SP) as [_ E2]. congruence.
Qed.
Lemma t0_early : 0 <= t0 < N.
Proof.
  destruct Hp0 as [(b & e & a & E & [A1 A2] & W & _)|[-> _]]; [|congruence]. assert (He : In e h) by (rewrite E; apply in_or_app; right; left; auto). destruct (HG e He) as [[G _] _]. destruct (top_last h (good_times h HG)) as (_ & T & _). specialize (T e He). unfold N. lia.
Qed.
Lemma count_ok l1 : same_place l1 (where_ e0) -> In l1 locs -> foldM (fun n t => p <- get_parameters gc f t l1 false ;; Ok (Z.max n (zlen p))) 0 (zrange 0 N) = Ok m.
Proof.
  intros SP Hl. pose proof (locs_placed l1 Hl) as P1. pose proof t0_early as T0.
  destruct (foldM_range (fun n t => p <- get_parameters gc f t l1 false ;; Ok (Z.max n (zlen p))) (fun T n => (n = 0 \/ n = m) /\ forall t, 0 <= t < T -> zlen (pset t l1) = m -> n = m) 0 N 0) as (n & E & _ & Q); [lia|split; [auto|intros; lia]| |].
  - intros t n Ht [A B]. rewrite get_pset by auto. cbn [bind]. eexists. split; [reflexivity|]. destruct (pset_size t l1 P1 ltac:(lia)) as [E|E]; rewrite E.
    + split; [destruct A as [->| ->]; [left|right]; lia|]. intros u Hu Eu. destruct (Z.eq_dec u t) as [->|]; [lia|]. rewrite (B u ltac:(lia) Eu). lia.
    + split; [right; lia|]. intros; lia.
  - rewrite E. f_equal. apply (Q t0 T0). pose proof (pset_latest t0 l1 P1 ltac:(lia)) as L. apply (latest_same _ _ _ _ _ SP) in L. rewrite (latest_fun _ _ _ _ _ L Hp0). destruct (HU _ _ _ Hp0) as [|]; [congruence|auto].
Qed.

Variable (o : pn_options).
Hypotheses (HL : p_locs f = locs) (HT : get_times f = zrange 0 N) (NV : forall x, In x [txt "lat"; txt "lon"; txt "latitude"; txt "longitude"; txt "altitude"; txt "time"] -> po_var o <> x).
Definition wdims : list (Z * bool) := [(N, false); (1, false); (zlen locs, false); (m, false)].
Definition wvalues : vec := flat_map (fun t => flat_map (fun i => match znth locs i with Ok l => wrow t l | _ => [] end) (zrange 0 (zlen locs))) (zrange 0 N).
Lemma locs_range : locs = map (fun i => match znth locs i with Ok l => l | _ => {| l_lat := NaN; l_lon := NaN; l_elev := NaN |} end) (zrange 0 (zlen locs)).
Proof. pose proof (zlen_nonneg locs). apply znth_ext; [rewrite zlen_map, zlen_zrange; lia|]. intros i Hi. rewrite znth_map, znth_zrange by lia. rewrite Z.add_0_l. destruct (znth_some locs i Hi) as [l ->]. reflexivity. Qed.
Lemma N_pos : 0 < N. Proof. pose proof (top_nonneg h HG). unfold N. lia. Qed.
Lemma L_pos : 0 < zlen locs. Proof. destruct first_loc as (l1 & r & -> & _). rewrite zlen_cons. pose proof (zlen_nonneg r). lia. Qed.
Lemma rows_ok : mapM (fun t => rows <- mapM (pn_row gc f m t) locs ;; Ok (concat rows)) (zrange 0 N) = Ok (map (fun t => concat (map (wrow t) locs)) (zrange 0 N)).
Proof.
  apply mapM_ok. intros t Ht. apply in_zrange in Ht. rewrite (mapM_ok _ (wrow t)); [reflexivity|]. intros l Hl. apply row_ok; [apply locs_placed; auto|lia].
Qed.
Lemma values_eq : concat (map (fun t => concat (map (wrow t) locs)) (zrange 0 N)) = wvalues.
Proof.
  unfold wvalues. rewrite <- flat_map_concat_map. apply flat_map_ext. intros t. rewrite <- flat_map_concat_map. rewrite locs_range at 1. rewrite flat_map_concat_map, map_map, <- flat_map_concat_map.
  rewrite !flat_map_concat_map. f_equal. apply map_ext_in. intros i Hi. apply in_zrange in Hi. destruct (znth_some locs i) as [l ->]; [lia|reflexivity].
Qed.
Lemma inner_len t i : 0 <= t -> 0 <= i < zlen locs -> zlen (match znth locs i with Ok l => wrow t l | _ => [] end) = m.
Proof. intros Ht Hi. destruct (znth_some locs i Hi) as [l E]. rewrite E. apply wrow_len; [|auto]. apply locs_placed. eapply znth_In; eauto. Qed.
Lemma outer_len t : 0 <= t -> zlen (flat_map (fun i => match znth locs i with Ok l => wrow t l | _ => [] end) (zrange 0 (zlen locs))) = zlen locs * m.
Proof. intros Ht. apply zlen_flat_map; [|apply zlen_nonneg]. intros i Hi. apply inner_len; auto. Qed.
Lemma values_len : zlen wvalues = N * (zlen locs * m).
Proof. pose proof N_pos. unfold wvalues. apply zlen_flat_map; [|lia]. intros t Ht. apply outer_len. lia. Qed.
Lemma values_at t i k l : 0 <= t < N -> znth locs i = Ok l -> 0 <= k < m -> znth wvalues (t * (zlen locs * m) + (i * m + k)) = znth (wrow t l) k.
Proof.
  intros Ht Hl Hk. pose proof (znth_range _ _ _ Hl) as Hi. unfold wvalues. rewrite (znth_flat_map _ (zlen locs * m)); [|intros; apply outer_len; lia|lia|nia]. rewrite (znth_flat_map _ m); [|intros; apply inner_len; lia|lia|lia]. rewrite Hl. reflexivity.
Qed.
Lemma find_here n d l : find_name ((n, d) :: l) n = Some (d : nc_var).
Proof. cbn [find_name]. rewrite str_eqb_refl. reflexivity. Qed.
Lemma find_there n n' (d : nc_var) l : n <> n' -> find_name ((n, d) :: l) n' = find_name l n'.
Proof. intros H. cbn [find_name]. destruct (str_eqb_spec n n'); [congruence|reflexivity]. Qed.
Lemma write_ok : exists X vP vLat vLon vElev vTime,
  pn_write gc o f = Ok {| pn_x := X; pn_names := [(txt "time", 0); (txt "lon", 1); (txt "lat", 2); (txt "coeff", 3)] |} /\ x_dims X = wdims /\
  find_name (x_vars X) (po_var o) = Some vP /\ find_name (x_vars X) (txt "latitude") = Some vLat /\ find_name (x_vars X) (txt "longitude") = Some vLon /\ find_name (x_vars X) (txt "altitude") = Some vElev /\ find_name (x_vars X) (txt "time") = Some vTime /\
  find_name (x_vars X) (txt "lat") = None /\ find_name (x_vars X) (txt "lon") = None /\
  n_dims vP = [0; 2; 1; 3] /\ n_fill vP = None /\ n_dims vLat = [2; 1] /\ n_dims vLon = [2; 1] /\ n_dims vElev = [2; 1] /\ n_dims vTime = [0] /\
  (forall i l, znth locs i = Ok l -> n_data vLat [i; 0] = l_lat l /\ n_data vLon [i; 0] = l_lon l /\ n_data vElev [i; 0] = l_elev l) /\
  (forall t i k l, 0 <= t < N -> znth locs i = Ok l -> 0 <= k < m -> znth (wrow t l) k = Ok (n_data vP [t; i; 0; k])).
Proof.
  pose proof N_pos as Np. pose proof L_pos as Lp. destruct first_loc as (l1 & r & El & SP). assert (Hl1 : In l1 locs) by (rewrite El; left; auto).
  assert (D1 : po_var o <> txt "lat") by (apply NV; cbn; tauto). assert (D2 : po_var o <> txt "lon") by (apply NV; cbn; tauto). assert (D3 : po_var o <> txt "latitude") by (apply NV; cbn; tauto). assert (D4 : po_var o <> txt "longitude") by (apply NV; cbn; tauto). assert (D5 : po_var o <> txt "altitude") by (apply NV; cbn; tauto). assert (D6 : po_var o <> txt "time") by (apply NV; cbn; tauto).
  remember (pn_write gc o f) as w eqn:Ew. unfold pn_write in Ew. rewrite HL, HT in Ew. cbn zeta in Ew. rewrite El in Ew at 1. rewrite zlen_zrange in Ew. replace (Z.max 0 (N - 0) =? 0) with false in Ew by (pose proof N_pos; lia). rewrite (count_ok l1 SP Hl1) in Ew. cbn [bind] in Ew. replace (m =? 0) with false in Ew by lia.
  assert (EX : existsb (str_eqb (po_var o)) [txt "latitude"; txt "longitude"; txt "altitude"; txt "time"] = false).
  { cbn [existsb]. destruct (str_eqb_spec (po_var o) (txt "latitude")); [congruence|]. destruct (str_eqb_spec (po_var o) (txt "longitude")); [congruence|]. destruct (str_eqb_spec (po_var o) (txt "altitude")); [congruence|]. destruct (str_eqb_spec (po_var o) (txt "time")); [congruence|]. reflexivity. }
  rewrite EX in Ew. replace (Z.max 0 (N - 0)) with N in Ew by lia. fold wdims in Ew.
  set (X0 := {| x_dims := wdims; x_vars := [(po_var o, fresh_var [0; 2; 1; 3]); (txt "latitude", fresh_var [2; 1]); (txt "longitude", fresh_var [2; 1]); (txt "altitude", fresh_var [2; 1]); (txt "time", fresh_var [0])] |}) in Ew.
  assert (SZ : forall X, x_dims X = wdims -> dim_size X 0 = N /\ dim_size X 1 = 1 /\ dim_size X 2 = zlen locs /\ dim_size X 3 = m) by (intros X E; unfold dim_size; rewrite E; auto).
  assert (FV : forall ds, plain_var (fresh_var ds)) by (intros; split; reflexivity).
  assert (PS : forall X, x_dims X = wdims -> forall d, In d [0; 2; 1; 3] -> 0 < dim_size X d) by (intros X E d Hd; destruct (SZ X E) as (-> & -> & -> & ->) || idtac; destruct (SZ X E) as (A0 & A1 & A2 & A3); destruct Hd as [<-|[<-|[<-|[<-|[]]]]]; lia).
  assert (F0 : find_name (x_vars X0) (po_var o) = Some (fresh_var [0; 2; 1; 3])) by apply find_here.
  assert (G0 : forall n, po_var o <> n -> find_name (x_vars X0) n = find_name [(txt "latitude", fresh_var [2; 1]); (txt "longitude", fresh_var [2; 1]); (txt "altitude", fresh_var [2; 1]); (txt "time", fresh_var [0])] n) by (intros; apply find_there; auto).
  assert (Z0 : x_dims X0 = wdims) by reflexivity. clearbody X0.
  assert (C2 : forall X (c : location -> val), x_dims X = wdims -> zlen (map c locs) = product (map (dim_size X) (n_dims (fresh_var [2; 1])))).
  { intros X c E. destruct (SZ X E) as (A0 & A1 & A2 & A3). cbn [n_dims fresh_var map product]. rewrite A1, A2, zlen_map. lia. }
  assert (R2 : forall X (c : location -> val) v, x_dims X = wdims -> (forall idx, fits_in (map (dim_size X) (n_dims (fresh_var [2; 1]))) idx -> znth (map c locs) (row_major (map (dim_size X) (n_dims (fresh_var [2; 1]))) idx) = Ok (n_data v idx)) -> forall i l, znth locs i = Ok l -> n_data v [i; 0] = c l).
  { intros X c v E H i l Hl. destruct (SZ X E) as (A0 & A1 & A2 & A3). cbn [n_dims fresh_var map] in H. rewrite A1, A2 in H. pose proof (znth_range _ _ _ Hl). specialize (H [i; 0]). cbn [row_major product] in H. replace (i * (1 * 1) + (0 * 1 + 0)) with i in H by lia. rewrite znth_map, Hl in H. assert (X1 : fits_in [zlen locs; 1] [i; 0]) by (repeat constructor; lia). specialize (H X1). congruence. }
  assert (P2 : forall X, x_dims X = wdims -> forall d, In d (n_dims (fresh_var [2; 1])) -> 0 < dim_size X d) by (intros X E d Hd; apply PS; auto; cbn in *; tauto).
  destruct (put_whole_ok X0 (txt "latitude") (fresh_var [2; 1]) (map l_lat locs)) as (X1 & vLat & W1 & Z1 & F1 & V1 & N1 & R1 & K1); [rewrite G0 by auto; reflexivity|auto|auto|apply C2; auto|]. rewrite W1 in Ew. cbn [bind] in Ew. rewrite Z0 in Z1.
  destruct (put_whole_ok X1 (txt "longitude") (fresh_var [2; 1]) (map l_lon locs)) as (X2 & vLon & W2 & Z2 & F2 & V2 & N2 & R3 & K2); [rewrite K1, G0 by (auto; discriminate); reflexivity|auto|auto|apply C2; auto|]. rewrite W2 in Ew. cbn [bind] in Ew. rewrite Z1 in Z2.
  destruct (put_whole_ok X2 (txt "altitude") (fresh_var [2; 1]) (map l_elev locs)) as (X3 & vElev & W3 & Z3 & F3 & V3 & N3 & R4 & K3); [rewrite K2, K1, G0 by (auto; discriminate); reflexivity|auto|auto|apply C2; auto|]. rewrite W3 in Ew. cbn [bind] in Ew. rewrite Z2 in Z3.
  destruct (put_whole_ok X3 (txt "time") (fresh_var [0]) (map fz (zrange 0 N))) as (X4 & vTime & W4 & Z4 & F4 & V4 & N4 & _ & K4); [rewrite K3, K2, K1, G0 by (auto; discriminate); reflexivity|auto|intros d Hd; apply PS; auto; cbn in *; tauto| |].
  { destruct (SZ X3 Z3) as (A0 & _). cbn [n_dims fresh_var map product]. rewrite A0, zlen_map, zlen_zrange. lia. }
  rewrite W4 in Ew. cbn [bind] in Ew. rewrite Z3 in Z4. rewrite rows_ok in Ew. cbn [bind] in Ew. rewrite values_eq in Ew.
  destruct (put_whole_ok X4 (po_var o) (fresh_var [0; 2; 1; 3]) wvalues) as (X5 & vP & W5 & Z5 & F5 & V5 & N5 & R5 & K5); [rewrite K4, K3, K2, K1 by auto; exact F0|auto|apply PS; auto| |].
  { destruct (SZ X4 Z4) as (A0 & A1 & A2 & A3). cbn [n_dims fresh_var map product]. rewrite A0, A1, A2, A3, values_len. lia. }
  rewrite W5 in Ew. cbn [bind] in Ew. rewrite Z4 in Z5. exists X5, vP, vLat, vLon, vElev, vTime. split; [exact Ew|]. split; [auto|]. split; [auto|].
  split; [rewrite K5, K4, K3, K2 by (auto; discriminate); exact F1|]. split; [rewrite K5, K4, K3 by (auto; discriminate); exact F2|]. split; [rewrite K5, K4 by (auto; discriminate); exact F3|]. split; [rewrite K5 by auto; exact F4|].
  split; [rewrite K5, K4, K3, K2, K1, G0 by (auto; discriminate); reflexivity|]. split; [rewrite K5, K4, K3, K2, K1, G0 by (auto; discriminate); reflexivity|].
  split; [exact N5|]. split; [apply V5|]. split; [exact N1|]. split; [exact N2|]. split; [exact N3|]. split; [exact N4|]. split.
  - intros i l Hl. split; [exact (R2 X0 l_lat vLat Z0 R1 i l Hl)|]. split; [exact (R2 X1 l_lon vLon Z1 R3 i l Hl)|exact (R2 X2 l_elev vElev Z2 R4 i l Hl)].
  - intros t i k l Ht Hl Hk. rewrite <- (values_at t i k l Ht Hl Hk). destruct (SZ X4 Z4) as (A0 & A1 & A2 & A3). cbn [n_dims fresh_var map] in R5. rewrite A0, A1, A2, A3 in R5. specialize (R5 [t; i; 0; k]). cbn [row_major product] in R5. pose proof (znth_range _ _ _ Hl) as Hi.
    rewrite <- R5 by (repeat constructor; lia). f_equal. lia.
Qed.
End Write.
