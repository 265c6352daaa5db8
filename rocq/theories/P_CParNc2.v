(** Proofs about the client's NetCDF parameter files: reading. *)
From Coq Require Import Ascii String Sorted.
From Verif Require Import Base ListLib M_COpt S_COpt M_CUtil S_CUtil M_CCal P_CCal M_CTree S_CTree P_CTree M_CDown M_CKrig M_CFile M_CNc S_CNc P_CNc P_CNc7 M_CPar S_CPar P_CPar M_CParNc S_CParNc P_CParNc.
Local Open Scope Z_scope.

Section Loops.
Variables (lats lons elevs : list vec) (place : Z -> Z -> location) (sets : Z -> Z -> Z -> vec) (get : Z -> Z -> Z -> res vec) (n : Z) (blank : list vec).
Hypotheses (Hn : 0 <= n) (HB : zlen blank = n).
Definition good_point (c : Z * Z) : Prop := pn_place lats lons elevs (fst c) (snd c) = Ok (place (fst c) (snd c)) /\ placed (place (fst c) (snd c)) /\ forall t, 0 <= t < n -> get (fst c) (snd c) t = Ok (sets (fst c) (snd c) t).
Definition spot_of (c : Z * Z) : location := place (fst c) (snd c).
Definition all_sets (c : Z * Z) : list vec := map (sets (fst c) (snd c)) (zrange 0 n).

(** the map before the parameters are filled in *)
Definition blank_map (pts : list (Z * Z)) (m : entries) : Prop := forall k l v, placed k -> lookup m k = Some (l, v) -> v = blank /\ exists c, In c pts /\ spot_of c = l.
Lemma empty_ok pts cs : forall m, (forall c, In c cs -> good_point c /\ In c pts) -> sorted_map m -> blank_map pts m ->
  exists m', foldM (fun m c => let '(i, j) := c in l <- pn_place lats lons elevs i j ;; if bad_key l then UB else Ok (assign m l blank)) m cs = Ok m' /\ sorted_map m' /\ blank_map pts m' /\
    (forall c, In c cs -> lookup m' (spot_of c) <> None) /\ (forall k, placed k -> lookup m k <> None -> lookup m' k <> None).
Proof.
  induction cs as [|[i j] cs IH]; intros m H S Q; cbn [foldM].
  - exists m. split; [auto|]. split; [auto|]. split; [auto|]. split; [intros c []|auto].
  - destruct (H _ (or_introl eq_refl)) as [(G1 & G2 & _) G4]. cbn [fst snd] in *. rewrite G1. cbn [bind]. rewrite bad_key_placed by auto. cbn [bind].
    destruct (IH (assign m (place i j) blank)) as (m' & E & S' & Q' & A & B).
    + intros c Hc. apply H. right; auto.
    + apply assign_sorted; auto.
    + intros k l v Hk. rewrite lookup_assign by auto. destruct (place_dec (place i j) k) as [s0|s0]; [|apply Q; auto]. intros E. injection E as E1 E2. split; [auto|]. destruct (lookup m (place i j)) as [[l' w]|] eqn:F.
      * subst l'. apply (Q (place i j) l w G2 F).
      * exists (i, j). auto.
    + exists m'. split; [exact E|]. split; [auto|]. split; [auto|].
      assert (K : forall k, placed k -> lookup (assign m (place i j) blank) k <> None -> lookup m' k <> None) by exact B. split.
      * intros c [<-|Hc]; [|auto]. apply K; [exact G2|]. unfold spot_of. cbn [fst snd]. rewrite lookup_assign by auto. destruct (place_dec (place i j) (place i j)) as [|N]; [discriminate|]. exfalso. apply N. apply same_refl.
      * intros k Hk Hm. apply K; auto. rewrite lookup_assign by auto. destruct (place_dec (place i j) k); [discriminate|auto].
Qed.

(** one point *)
Lemma point_ok i j m l0 ps : good_point (i, j) -> sorted_map m -> lookup m (place i j) = Some (l0, ps) -> zlen ps = n ->
  exists m', foldM (fun m t => p <- get i j t ;; e <- find m (place i j) ;; match e with Some (_, ps) => ps <- zset ps t p ;; Ok (assign m (place i j) ps) | None => UB end) m (zrange 0 n) = Ok m' /\
    sorted_map m' /\ lookup m' (place i j) = Some (l0, all_sets (i, j)) /\ forall k, placed k -> ~ same_place (place i j) k -> lookup m' k = lookup m k.
Proof.
  intros (_ & G2 & G3) S E L. cbn [fst snd] in *.
  destruct (foldM_range (fun m t => p <- get i j t ;; e <- find m (place i j) ;; match e with Some (_, ps) => ps <- zset ps t p ;; Ok (assign m (place i j) ps) | None => UB end)
    (fun T m1 => sorted_map m1 /\ (exists q, lookup m1 (place i j) = Some (l0, q) /\ zlen q = n /\ forall t, 0 <= t < T -> znth q t = Ok (sets i j t)) /\ forall k, placed k -> ~ same_place (place i j) k -> lookup m1 k = lookup m k) 0 n m Hn) as (m' & E' & S' & (q & F & Lq & Q) & O).
  - split; [auto|]. split; [|auto]. exists ps. split; [auto|]. split; [auto|]. intros; lia.
  - intros t m1 Ht (S1 & (q & F & Lq & Q) & O). rewrite G3 by lia. cbn [bind]. rewrite find_ok by auto. cbn [bind]. rewrite F. rewrite zset_Ok by lia. cbn [bind]. eexists. split; [reflexivity|]. split; [apply assign_sorted; auto|]. split.
    + exists (lset q (Z.to_nat t) (sets i j t)). rewrite lookup_assign by auto. destruct (place_dec (place i j) (place i j)) as [|N]; [|exfalso; apply N, same_refl]. rewrite F. split; [reflexivity|]. split; [rewrite zlen_lset; auto|].
      intros u Hu. rewrite znth_lset by lia. destruct (Z.eqb_spec u t) as [->|]; [reflexivity|]. apply Q. lia.
    + intros k Hk N. rewrite lookup_assign by auto. destruct (place_dec (place i j) k); [contradiction|]. auto.
  - exists m'. split; [exact E'|]. split; [auto|]. split; [|auto]. rewrite F. f_equal. f_equal. unfold all_sets. apply znth_ext; [rewrite zlen_map, zlen_zrange; lia|]. intros t Ht. rewrite Q by lia. rewrite znth_map, znth_zrange by lia. reflexivity.
Qed.
(** the sets of the last of the points at the place of [k] *)
Definition final (cs : list (Z * Z)) (k : location) (ps v : list vec) : Prop :=
  (exists b c a, cs = b ++ c :: a /\ same_place (spot_of c) k /\ v = all_sets c /\ forall c', In c' a -> ~ same_place (spot_of c') k) \/ (v = ps /\ forall c, In c cs -> ~ same_place (spot_of c) k).
Lemma fill_ok cs : forall m, (forall c, In c cs -> good_point c) -> sorted_map m -> (forall c, In c cs -> exists l0 ps, lookup m (spot_of c) = Some (l0, ps)) -> (forall k l v, placed k -> lookup m k = Some (l, v) -> zlen v = n) ->
  exists m', foldM (fun m c => let '(i, j) := c in
      l <- pn_place lats lons elevs i j ;;
      foldM (fun m t => p <- get i j t ;; e <- find m l ;; match e with Some (_, ps) => ps <- zset ps t p ;; Ok (assign m l ps) | None => UB end) m (zrange 0 n)) m cs = Ok m' /\ sorted_map m' /\
    forall k, placed k -> match lookup m k with None => lookup m' k = None | Some (l0, ps) => exists v, lookup m' k = Some (l0, v) /\ final cs k ps v end.
Proof.
  induction cs as [|[i j] cs IH]; intros m H S Q Z0; cbn [foldM].
  - exists m. split; [auto|]. split; [auto|]. intros k Hk. destruct (lookup m k) as [[l0 ps]|]; [|auto]. exists ps. split; [auto|]. right. split; [auto|]. intros c [].
  - destruct (H _ (or_introl eq_refl)) as (G1 & G2 & G3). cbn [fst snd] in *. rewrite G1. cbn [bind]. destruct (Q (i, j) (or_introl eq_refl)) as (l0 & ps & F). unfold spot_of in F. cbn [fst snd] in F.
    destruct (point_ok i j m l0 ps (H _ (or_introl eq_refl)) S F (Z0 _ _ _ G2 F)) as (m1 & E1 & S1 & F1 & O1). rewrite E1. cbn [bind].
    assert (LK : forall k, placed k -> lookup m1 k = if place_dec (place i j) k then Some (l0, all_sets (i, j)) else lookup m k).
    { intros k Hk. destruct (place_dec (place i j) k) as [s0|s0]; [rewrite <- (lookup_same m1 (place i j) k s0); exact F1|auto]. }
    destruct (IH m1) as (m' & E' & S' & R).
    + intros c Hc. apply H. right; auto.
    + auto.
    + intros c Hc. destruct (H c (or_intror Hc)) as (_ & Pc & _). rewrite LK by exact Pc. destruct (place_dec (place i j) (spot_of c)); [eauto|]. apply Q. right; auto.
    + intros k l v Hk. rewrite LK by auto. destruct (place_dec (place i j) k); [|apply Z0; auto]. intros X. injection X as _ <-. unfold all_sets. rewrite zlen_map, zlen_zrange. lia.
    + exists m'. split; [exact E'|]. split; [auto|]. intros k Hk. specialize (R k Hk). rewrite LK in R by auto. destruct (place_dec (place i j) k) as [s0|s0].
      * rewrite <- (lookup_same m (place i j) k s0), F. destruct R as (v & Ev & [(b & c & a & -> & A1 & A2 & A3)|[-> A]]); (exists v || eexists); (split; [exact Ev|]); left; [exists ((i, j) :: b), c, a; auto|exists [], (i, j), cs; auto].
      * destruct (lookup m k) as [[l1 ps1]|]; [|auto]. destruct R as (v & Ev & [(b & c & a & -> & A1 & A2 & A3)|[-> A]]); (exists v || eexists); (split; [exact Ev|]).
        -- left. exists ((i, j) :: b), c, a. auto.
        -- right. split; [auto|]. intros c [<-|Hc]; [exact s0|auto].
Qed.

(** the history of calls that the points stand for *)
Definition settings_of (cs : list (Z * Z)) : list setting := flat_map (fun c => map (fun t => (t, spot_of c, sets (fst c) (snd c) t)) (zrange 0 n)) cs.
Lemma in_settings cs e : In e (settings_of cs) <-> exists c t, In c cs /\ 0 <= t < n /\ e = (t, spot_of c, sets (fst c) (snd c) t).
Proof.
  unfold settings_of. rewrite in_flat_map. split.
  - intros (c & Hc & He). apply in_map_iff in He as (t & <- & Ht). apply in_zrange in Ht. exists c, t. split; [auto|]. split; [lia|auto].
  - intros (c & t & Hc & Ht & ->). exists c. split; [auto|]. apply in_map_iff. exists t. split; [auto|]. apply in_zrange. lia.
Qed.
Lemma latest_final cs k t b c a : cs = b ++ c :: a -> same_place (spot_of c) k -> (forall c', In c' a -> ~ same_place (spot_of c') k) -> 0 <= t -> latest (settings_of cs) t k (at_list (all_sets c) t).
Proof.
  intros -> SP NA Ht. destruct (Z_lt_le_dec t n) as [L|L].
  - left. exists (settings_of b ++ map (fun t => (t, spot_of c, sets (fst c) (snd c) t)) (zrange 0 t)), (t, spot_of c, sets (fst c) (snd c) t), (map (fun t => (t, spot_of c, sets (fst c) (snd c) t)) (zrange (t + 1) n) ++ settings_of a).
    split.
    + unfold settings_of. rewrite flat_map_app. cbn [flat_map]. rewrite (zrange_app 0 t n) by lia. rewrite (zrange_cons t n) by lia. rewrite map_app. cbn [map]. rewrite <- !app_assoc. reflexivity.
    + split; [split; [reflexivity|exact SP]|]. split.
      * unfold what. cbn [snd]. unfold all_sets, at_list. assert (E : znth (map (sets (fst c) (snd c)) (zrange 0 n)) t = Ok (sets (fst c) (snd c) t)) by (rewrite znth_map, znth_zrange by lia; f_equal; f_equal; lia).
        apply znth_Ok in E as [_ E]. symmetry. apply nth_error_nth with (d := []). exact E.
      * intros e He [A1 A2]. apply in_app_or in He as [He|He].
        -- apply in_map_iff in He as (u & <- & Hu). apply in_zrange in Hu. unfold at_ in A1. cbn in A1. lia.
        -- apply in_settings in He as (c' & u & Hc' & _ & ->). apply (NA c' Hc'). exact A2.
  - right. split.
    + unfold at_list. apply nth_overflow. unfold all_sets. rewrite map_length. assert (zlen (zrange 0 n) = n) by (rewrite zlen_zrange; lia). unfold zlen in *. lia.
    + intros e He [A1 _]. apply in_settings in He as (c' & u & _ & Hu & ->). unfold at_ in A1. cbn in A1. lia.
Qed.
Lemma settings_top cs : cs <> [] -> 0 < n -> top (settings_of cs) = n - 1.
Proof.
  intros Hc H0. assert (NN : forall e, In e (settings_of cs) -> 0 <= at_ e) by (intros e He; apply in_settings in He as (c & t & _ & Ht & ->); unfold at_; cbn; lia).
  apply (last_fun (settings_of cs)); [apply top_last; exact NN|]. split; [lia|]. split.
  - intros e He. apply in_settings in He as (c & t & _ & Ht & ->). unfold at_. cbn. lia.
  - right. destruct cs as [|c cs]; [congruence|]. exists (n - 1, spot_of c, sets (fst c) (snd c) (n - 1)). split; [|reflexivity]. apply in_settings. exists c, (n - 1). split; [left; auto|]. split; [lia|auto].
Qed.
Lemma loops_ok cs cycle : cs <> [] -> 0 < n -> (forall c, In c cs -> good_point c) -> exists m0 m,
  foldM (fun m c => let '(i, j) := c in l <- pn_place lats lons elevs i j ;; if bad_key l then UB else Ok (assign m l blank)) [] cs = Ok m0 /\
  foldM (fun m c => let '(i, j) := c in
      l <- pn_place lats lons elevs i j ;;
      foldM (fun m t => p <- get i j t ;; e <- find m l ;; match e with Some (_, ps) => ps <- zset ps t p ;; Ok (assign m l ps) | None => UB end) m (zrange 0 n)) m0 cs = Ok m /\
  (forall l v, In (l, v) m -> exists c, In c cs /\ v = all_sets c) /\
  state_of (settings_of cs) cycle {| p_map := m; p_timed := 1 <? n; p_max := n - 1; p_cycle := cycle; p_tree := Nil; p_locs := [] |}.
Proof.
  intros Hcs H0 G. destruct (empty_ok cs cs [] (fun c Hc => conj (G c Hc) Hc)) as (m0 & E0 & S0 & B0 & K0 & _); [split; constructor|intros k l v _; discriminate|].
  destruct (fill_ok cs m0 G S0) as (m & E & S & R).
  - intros c Hc. specialize (K0 c Hc). destruct (lookup m0 (spot_of c)) as [[l v]|]; [eauto|congruence].
  - intros k l v Hk F. destruct (B0 k l v Hk F) as [-> _]. exact HB.
  - assert (R' : forall k l v, placed k -> lookup m k = Some (l, v) -> (exists c, In c cs /\ spot_of c = l) /\ exists b c a, cs = b ++ c :: a /\ same_place (spot_of c) k /\ v = all_sets c /\ forall c', In c' a -> ~ same_place (spot_of c') k).
    { intros k l v Hk F. specialize (R k Hk). destruct (lookup m0 k) as [[l0 ps]|] eqn:F0; [|congruence]. destruct R as (v' & F' & D). rewrite F in F'. injection F' as <- <-. destruct (B0 k l ps Hk F0) as [_ (c & Hc & Ec)]. split; [eauto|].
      destruct D as [D|[_ N]]; [exact D|]. exfalso. apply (N c Hc). rewrite Ec. apply lookup_In in F0 as [_ SK]. apply same_key_spec in SK; auto. destruct (G c Hc) as (_ & P & _). unfold spot_of in Ec. rewrite Ec in P. exact P. }
    exists m0, m. split; [exact E0|]. split; [exact E|]. split.
    + intros l v Hin. assert (Pl : placed l). { destruct S as [_ S]. rewrite Forall_forall in S. apply S. apply in_map_iff. exists (l, v). auto. }
      destruct (R' l l v Pl (lookup_entry m l v S Hin)) as [_ (b & c & a & -> & _ & Ev & _)]. exists c. split; [apply in_or_app; right; left; auto|auto].
    + pose proof (settings_top cs Hcs H0) as T. constructor; cbn [p_map p_max p_timed p_cycle]; auto.
      * rewrite T. destruct (Z.ltb_spec 1 n), (Z.ltb_spec 0 (n - 1)); auto; lia.
      * intros k Hk F e He SP. apply in_settings in He as (c & t & Hc & Ht & ->). unfold where_ in SP. cbn in SP. specialize (R k Hk). specialize (K0 c Hc). destruct (lookup m0 k) as [[l0 ps]|] eqn:F0; [destruct R as (v & Ev & _); congruence|]. rewrite (lookup_same m0 (spot_of c) k SP) in K0. congruence.
      * intros k l v Hk F. destruct (R' k l v Hk F) as ((c0 & Hc0 & E0') & b & c & a & Ecs & SP & -> & NA). assert (ZL : zlen (all_sets c) = n) by (unfold all_sets; rewrite zlen_map, zlen_zrange; lia). rewrite ZL, T. split; [|split; [lia|split]].
        -- exists (0, spot_of c0, sets (fst c0) (snd c0) 0). split; [|exact E0']. apply in_settings. exists c0, 0. split; [auto|]. split; [lia|auto].
        -- intros t Ht. apply (latest_final cs k t b c a); auto.
        -- intros e He _. apply in_settings in He as (c' & u & _ & Hu & ->). unfold at_. cbn. lia.
Qed.
End Loops.

(** the last element of a sorted list of points with a property *)
Lemma pairs_order ny nx b c a : pairs2 ny nx = b ++ c :: a -> forall c', In c' a -> fst c < fst c' \/ (fst c = fst c' /\ snd c < snd c').
Proof.
  assert (SS : StronglySorted (fun c c' : Z * Z => fst c < fst c' \/ (fst c = fst c' /\ snd c < snd c')) (pairs2 ny nx)).
  { unfold pairs2. assert (HZ : forall lo hi, StronglySorted Z.lt (zrange lo hi)).
    { intros lo hi. unfold zrange. generalize (Z.to_nat (hi - lo)) as k. intros k. revert lo. induction k as [|k IH]; intros lo; [constructor|]. cbn [seq map]. constructor.
      - rewrite <- seq_shift, map_map. replace (map (fun x => lo + Z.of_nat (Datatypes.S x)) (seq 0 k)) with (map (fun x => (lo + 1) + Z.of_nat x) (seq 0 k)) by (apply map_ext; intros; lia). apply IH.
      - apply Forall_forall. intros x Hx. apply in_map_iff in Hx as (y & <- & Hy). apply in_seq in Hy. lia. }
    generalize (HZ 0 ny). generalize (zrange 0 ny) as l. induction 1 as [|i l Sl IH Fl]; cbn [flat_map]; [constructor|]. rewrite Forall_forall in Fl.
    assert (HR : forall r, StronglySorted Z.lt r -> StronglySorted (fun c c' : Z * Z => fst c < fst c' \/ (fst c = fst c' /\ snd c < snd c')) (map (fun j => (i, j)) r ++ flat_map (fun i => map (fun j => (i, j)) (zrange 0 nx)) l)).
    { induction 1 as [|j r Sr IHr Fr]; cbn [map app]; [exact IH|]. constructor; [exact IHr|]. rewrite Forall_forall in *. intros [i' j'] H. apply in_app_or in H as [H|H].
      - apply in_map_iff in H as (x & E & Hx). injection E as <- <-. right. cbn. split; [auto|]. apply Fr; auto.
      - apply in_flat_map in H as (x & Hx & H). apply in_map_iff in H as (y & E & _). injection E as <- <-. left. cbn. apply Fl; auto. }
    apply HR, HZ. }
  intros E c' Hc'. rewrite E in SS. clear E. induction b as [|d b IH]; cbn [app] in SS; inversion SS as [|? ? S1 F1]; subst; [|auto]. rewrite Forall_forall in F1. apply F1. auto.
Qed.

Section Read.
Variables (srt : bool -> list item -> list item) (o : pn_options) (cycle : bool) (F : pn_file) (s : shape).
Let X := pn_x F.
Hypotheses (HSrt : sorts_items srt) (HS : shape_of o F s) (HW : well_shaped X s) (HP : well_placed X s).
Let pts := pairs2 (rows X s) (columns X s).
Definition history : list setting := settings_of (place_at s) (set_at X s) (times_of X s) pts.
Lemma sizes_pos : 0 < rows X s /\ 0 < columns X s /\ 0 < coefficients X s.
Proof. destruct HW as (_ & _ & _ & _ & _ & _ & _ & _ & W6 & W7 & W8 & _ & W10 & _). unfold rows, columns, coefficients. split; [apply W10; auto|]. split; apply W10; auto. Qed.
Lemma in_pts i j : In (i, j) pts <-> inside X s i j.
Proof. unfold pts, pairs2. rewrite in_points. reflexivity. Qed.
Lemma pts_nonempty : pts <> [].
Proof. pose proof sizes_pos as (A & B & _). intros E. assert (H : In (0, 0) pts) by (apply in_pts; split; lia). rewrite E in H. destruct H. Qed.
Lemma history_good : good_history history.
Proof.
  intros e He. unfold history in He. apply in_settings in He as ([i j] & t & Hc & Ht & ->). apply in_pts in Hc. destruct HW as (_ & _ & _ & _ & _ & _ & _ & _ & _ & _ & _ & _ & _ & WT). unfold at_, where_, is_time. cbn. split; [lia|]. destruct (HP i j Hc) as (a & b & H). eapply sited_placed; eauto.
Qed.
Lemma history_sited : all_sited history.
Proof. intros e He. unfold history in He. apply in_settings in He as ([i j] & t & Hc & Ht & ->). apply in_pts in Hc. apply HP; auto. Qed.
Lemma set_nonempty i j t : set_at X s i j t <> [].
Proof. pose proof sizes_pos as (_ & _ & C). unfold set_at. rewrite zrange_cons by lia. discriminate. Qed.
Lemma num_parameters_all (ps : list vec) k : 0 < k -> ps <> [] -> (forall p, In p ps -> zlen p = k) ->
  match fold_left (fun (st : Z + Z) (p : vec) => match st with inl r => inl r | inr size => if zlen p =? 0 then inl 0 else if negb (size =? -999) && negb (zlen p =? size) then inl (-999) else inr (zlen p) end) ps (inr (-999)) with inl r => r | inr r => r end = k.
Proof.
  intros Hk Hne H. assert (G : forall l st, st = -999 \/ st = k -> (forall p, In p l -> zlen p = k) -> fold_left (fun (st : Z + Z) (p : vec) => match st with inl r => inl r | inr size => if zlen p =? 0 then inl 0 else if negb (size =? -999) && negb (zlen p =? size) then inl (-999) else inr (zlen p) end) l (inr st) = inr (if match l with [] => true | _ => false end then st else k)).
  { induction l as [|p l IH]; intros st Hst Hl; cbn [fold_left]; [reflexivity|]. rewrite (Hl p (or_introl eq_refl)). replace (k =? 0) with false by lia. replace (negb (st =? -999) && negb (k =? st)) with false by (destruct Hst as [->| ->]; [reflexivity|rewrite Z.eqb_refl, andb_false_r; reflexivity]). rewrite IH by (auto; intros; apply Hl; right; auto). destruct l; reflexivity. }
  rewrite G by auto. destruct ps; [congruence|reflexivity].
Qed.
Lemma read_ok : exists g, pn_read srt o cycle F = Ok g /\ state_of history cycle g /\ exists f, state_of history cycle f /\ p_locs f = [] /\ p_map f = p_map g /\ pn_tree srt f = Ok g.
Proof.
  pose proof sizes_pos as (HY & HX & HC). pose proof HW as (W1 & W2 & W3 & W4 & WLat & WLon & WElev & W5 & W6 & W7 & W8 & W9 & W10 & W11).
  destruct HS as (S1 & S2 & S3 & S4 & S5 & S6 & S7 & S8). cbn zeta in *. fold X in S4, S5, S6, S7, S8.
  unfold pn_read, pn_lon_dim, pn_lat_dim. fold X. rewrite (pn_dim_ok _ _ _ _ S2), (pn_dim_ok _ _ _ _ S1). cbn [bind]. rewrite S3. cbn [or_abort bind]. rewrite (first_name_ok _ _ _ S4). cbn [or_abort bind].
  destruct (pn_grid_ok X s W1 HY HX (v_lat s) WLat) as (lats & E1 & _ & G1). rewrite E1. cbn [bind]. rewrite (first_name_ok _ _ _ S5). cbn [or_abort bind].
  destruct (pn_grid_ok X s W1 HY HX (v_lon s) WLon) as (lons & E2 & _ & G2). rewrite E2. cbn [bind]. rewrite S6.
  assert (EE : exists elevs, match v_elev s with Some v => pn_grid X (d_lat s) (d_lon s) v | None => Ok (init1 (dim_size X (d_lat s)) (init1 (dim_size X (d_lon s)) CMV)) end = Ok elevs /\
    forall i j, 0 <= i < rows X s -> 0 <= j < columns X s -> get2 elevs i j = Ok (match v_elev s with Some v => stored s v i j 0 0 | None => CMV end)).
  { destruct (v_elev s) as [v|] eqn:Ev.
    - destruct (pn_grid_ok X s W1 HY HX v (WElev v eq_refl)) as (elevs & E3 & _ & G3). eauto.
    - eexists. split; [reflexivity|]. intros i j Hi Hj. unfold get2, init1. rewrite znth_map, znth_zrange by (unfold rows in *; lia). cbn [bind]. rewrite znth_map, znth_zrange by (unfold columns in *; lia). reflexivity. }
  destruct EE as (elevs & E3 & G3). rewrite E3. cbn [bind].
  assert (ET : match find_name (x_vars X) (txt "time"), find_name (pn_names F) (txt "time") with
                     | Some v, Some d => if dim_size X d <? zlen (whole X v) then UB else Ok (d, dim_size X d)
                     | _, _ => Ok (-999, 1)
                     end = Ok (time_dim s, times_of X s)).
  { unfold time_dim, times_of in *. destruct (d_time s) as [d|].
    - destruct S8 as (-> & v & -> & Ed). unfold whole. rewrite zlen_map, zlen_indices by (rewrite Ed; cbn; intros c [<-|[]]; lia). rewrite Ed. cbn [map product]. replace (dim_size X d <? dim_size X d * 1) with false by lia. reflexivity.
    - destruct S8 as [->| ->]; [destruct (find_name (x_vars X) (txt "time")); reflexivity|reflexivity]. }
  rewrite ET. cbn [bind]. rewrite S7. cbn [or_abort bind]. change (dim_size X (d_lat s)) with (rows X s). change (dim_size X (d_lon s)) with (columns X s). change (dim_size X (d_coeff s)) with (coefficients X s).
  replace (rows X s * columns X s * (times_of X s * coefficients X s) <=? 0) with false by (symmetry; apply Z.leb_gt; nia).
  unfold pn_floats. replace (product (map (dim_size X) (n_dims (v_par s))) <=? 0) with false.
  2:{ symmetry. apply Z.leb_gt. clear - W10. induction (n_dims (v_par s)) as [|d l IH]; cbn [map product]; [lia|]. apply Z.mul_pos_pos; [apply (W10 d); left; auto|apply IH; intros; apply W10; right; auto]. }
  cbn [bind]. destruct (pn_positions (d_lat s) (d_lon s) (time_dim s) (d_coeff s) (n_dims (v_par s))) as [[[py px] pt] pc] eqn:EP.
  assert (PS : forall i j t, inside X s i j -> 0 <= t < times_of X s -> _) by (intros i j t Hij Ht; exact (pn_set_ok X s HW py px pt pc i j t EP Hij Ht)).
  destruct (PS 0 0 0) as (V1 & V2 & V4 & _); [split; lia|lia|].
  destruct (loops_ok lats lons elevs (place_at s) (set_at X s) (pn_set (py, px, pt, pc) (map (dim_size X) (n_dims (v_par s))) (map (fun a => if veqb a (fill_of (v_par s)) then CMV else a) (whole X (v_par s))) (coefficients X s))
    (times_of X s) (init1 (times_of X s) (init1 (coefficients X s) CMV)) ltac:(lia) ltac:(apply zlen_init1; lia) pts cycle pts_nonempty ltac:(lia)) as (m0 & m & L1 & L2 & L3 & L4).
  { intros [i j] Hc. apply in_pts in Hc. pose proof Hc as [Hi Hj]. split; [|split].
    - unfold pn_place. cbn [fst snd]. rewrite G1, G2, G3 by auto. reflexivity.
    - cbn [fst snd]. destruct (HP i j Hc) as (a & b & H). eapply sited_placed; eauto.
    - intros t Ht. cbn [fst snd]. apply PS; auto. }
  unfold pn_empty. fold pts. rewrite L1. cbn [bind]. rewrite V1, V2, V4. cbn [negb]. cbn [bind] in L2. rewrite L2. cbn [bind].
  set (f := {| p_map := m; p_timed := 1 <? times_of X s; p_max := times_of X s - 1; p_cycle := cycle; p_tree := Nil; p_locs := [] |}) in *.
  assert (NE : m <> []). { apply (map_nonempty history cycle f L4 history_good). unfold history. intros E. assert (H : In (0, spot_of (place_at s) (0, 0), set_at X s 0 0 0) (settings_of (place_at s) (set_at X s) (times_of X s) pts)) by (apply in_settings; exists (0, 0), 0; split; [apply in_pts; split; lia|]; split; [lia|reflexivity]). rewrite E in H. destruct H. }
  assert (NP : num_parameters f = coefficients X s).
  { unfold num_parameters. apply num_parameters_all; [auto| |].
    - cbn [p_map f]. destruct m as [|[l v] m']; [congruence|]. destruct (L3 l v (or_introl eq_refl)) as (c & _ & ->). cbn [map concat snd]. unfold all_sets. rewrite zrange_cons by lia. discriminate.
    - intros p Hp. apply in_concat in Hp as (v & Hv & Hp). apply in_map_iff in Hv as ([l v'] & <- & Hin). cbn [snd] in Hp. cbn [p_map f] in Hin. destruct (L3 l v' Hin) as (c & _ & ->). unfold all_sets in Hp. apply in_map_iff in Hp as (t & <- & _). unfold set_at. rewrite zlen_map, zlen_zrange. lia. }
  rewrite NP. replace (coefficients X s <=? 0) with false by lia. unfold pn_tree. cbn [p_map f].
  assert (HK : forall l, In l (map fst m) -> exists a b, sited l a b). { intros l Hl. apply in_map_iff in Hl as ([l' v] & <- & Hin). destruct (entry_history history cycle f l' v L4 Hin) as (_ & (e & He & <-) & _). apply history_sited; auto. }
  assert (HN : 0 < zlen (map fst m)). { destruct m; [congruence|]. cbn [map]. rewrite zlen_cons. pose proof (zlen_nonneg (map fst m)). lia. }
  destruct (build_ok srt (map (fun l => [l_lat l]) (map fst m)) (map (fun l => [l_lon l]) (map fst m)) (zlen (map fst m)) 1 HSrt) as (tr & Etr & _).
  { split; [lia|]. split; [lia|]. split; apply rect_column. }
  { intros i j la lo Hp. apply point_column in Hp as (_ & l & _ & (_ & _ & ?)); auto. }
  { destruct (znth_some (map fst m) 0) as [l Hl]; [lia|]. destruct (HK l (znth_In _ _ _ Hl)) as (a & b & Hs). exists 0, 0, a, b. apply point_column; auto. split; auto. exists l. auto. }
  rewrite Etr. cbn [bind]. eexists. split; [reflexivity|]. split; [destruct L4; constructor; auto|]. exists f. split; [exact L4|]. split; [reflexivity|]. split; [reflexivity|]. unfold pn_tree. cbn [p_map f]. rewrite Etr. reflexivity.
Qed.
End Read.
