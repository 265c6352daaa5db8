(** C69: count. *)
From Verif Require Import Base ListLib M_Geo M_Near S_Stat S_Geo S_Near P_Geo P_Neighbours P_Grid P_Points P_Near P_Grd.

Definition counter (G : geo) (T : kdtree) (r : val) (lat lon : val) : res val := k <- get_num_neighbours G T lat lon r true ;; Ok (fz k).
Lemma counter_points G t las los ip r la lo : geo_ok G -> is_points G t las los ip -> valid_loc t la ->
  exists x, counter G (s_tree ip) r (Fin la) (Fin lo) = Ok x /\ count_value (point_at G t las los) (position G t la lo) r x.
Proof.
  intros HG H V. destruct (points_inv _ _ _ _ _ H) as (_ & _ & _ & HT & _).
  destruct (points_search G t _ _ _ la lo r HG HT V) as (I & HI & ND & K). unfold counter, get_num_neighbours. rewrite HI. cbn [bind].
  eexists. split; [reflexivity|]. exists I. auto.
Qed.
Lemma counter_grid G t Y X lats lons ig r la lo : geo_ok G -> is_grid G t Y X lats lons ig -> valid_loc t la ->
  exists x, counter G (g_tree ig) r (Fin la) (Fin lo) = Ok x /\ count_value (grid_at' G t lats lons) (position G t la lo) r x.
Proof.
  intros HG H V. destruct (grid_search G t Y X lats lons ig la lo r HG H V) as (L & HL & ND & _ & K).
  unfold grid_neighbours in HL. apply bind_Ok in HL as (I & HI & HL). unfold counter, get_num_neighbours. rewrite HI. cbn [bind].
  eexists. split; [reflexivity|]. exists L. split; [exact ND|]. split.
  - intros [y x]. apply K.
  - assert (F : Forall (fun k => 0 <= k) I).
    { pose proof (grid_inv _ _ _ _ _ _ _ H) as (_ & _ & EX & HT & _).
      destruct (points_search G t _ _ _ la lo r HG HT V) as (I' & HI' & _ & K'). rewrite HI in HI'. injection HI' as <-.
      apply Forall_forall. intros i Hi. apply K' in Hi as (q & Hq & _). apply (grid_point_at _ _ _ _ _ _ _ _ _ H) in Hq. lia. }
    rewrite (get_indices_all_ok _ _ _ _ _ _ _ _ H F) in HL. injection HL as <-. rewrite zlen_map. reflexivity.
Qed.
Lemma count_g_ok G T t' Y X lats lons og r (P : Qc -> Qc -> val -> Prop) : is_grid G t' Y X lats lons og ->
  (forall i j la lo, get2 lats i j = Ok la -> get2 lons i j = Ok lo -> exists x, counter G T r (Fin la) (Fin lo) = Ok x /\ P la lo x) ->
  exists out, count_g G T og r = Ok out /\ rect Y X out /\
  forall y x la lo, get2 lats y x = Ok la -> get2 lons y x = Ok lo -> exists v, get2 out y x = Ok v /\ P la lo v.
Proof.
  intros HO HC. unfold count_g. rewrite (grid_size_ok _ _ _ _ _ _ _ HO). cbn [bind].
  destruct (out_grid G t' Y X lats lons og (counter G T r) (fz 0) HO) as (out & Ho & R & K).
  { intros i j la lo H1 H2. destruct (HC i j la lo H1 H2) as (x & Hx & _). eauto. }
  exists out. split; [exact Ho|]. split; [exact R|]. intros y x la lo H1 H2. destruct (K y x la lo H1 H2) as (v & Hv & Hg).
  destruct (HC y x la lo H1 H2) as (w & Hw & HP). exists v. split; [exact Hg|]. congruence.
Qed.
Lemma count_p_ok G T t' las los op r (P : Qc -> Qc -> val -> Prop) : is_points G t' las los op ->
  (forall i la lo, znth las i = Ok la -> znth los i = Ok lo -> exists x, counter G T r (Fin la) (Fin lo) = Ok x /\ P la lo x) ->
  exists out, count_p G T op r = Ok out /\ zlen out = zlen las /\
  forall n la lo, znth las n = Ok la -> znth los n = Ok lo -> exists v, znth out n = Ok v /\ P la lo v.
Proof.
  intros HO HC. unfold count_p.
  destruct (out_points G t' las los op (counter G T r) (fz 0) HO) as (out & Ho & R & K).
  { intros i la lo H1 H2. destruct (HC i la lo H1 H2) as (x & Hx & _). eauto. }
  exists out. split; [exact Ho|]. split; [exact R|]. intros n la lo H1 H2. destruct (K n la lo H1 H2) as (v & Hv & Hg).
  destruct (HC n la lo H1 H2) as (w & Hw & HP). exists v. split; [exact Hg|]. congruence.
Qed.

Lemma c69_all : forall G t r, geo_ok G ->
  (* output locations on a grid *)
  (forall t' Y' X' lats' lons' og, is_grid G t' Y' X' lats' lons' og -> valid_all2 t lats' ->
     (forall Y X lats lons ig, is_grid G t Y X lats lons ig -> exists out, count_g G (g_tree ig) og r = Ok out /\ rect Y' X' out /\
        forall y x la lo, get2 lats' y x = Ok la -> get2 lons' y x = Ok lo ->
          exists v, get2 out y x = Ok v /\ count_value (grid_at' G t lats lons) (position G t la lo) r v) /\
     (forall las los ip, is_points G t las los ip -> exists out, count_g G (s_tree ip) og r = Ok out /\ rect Y' X' out /\
        forall y x la lo, get2 lats' y x = Ok la -> get2 lons' y x = Ok lo ->
          exists v, get2 out y x = Ok v /\ count_value (point_at G t las los) (position G t la lo) r v)) /\
  (* output locations in a list of points *)
  (forall t' las' los' op, is_points G t' las' los' op -> valid_all t las' ->
     (forall Y X lats lons ig, is_grid G t Y X lats lons ig -> exists out, count_p G (g_tree ig) op r = Ok out /\ zlen out = zlen las' /\
        forall n la lo, znth las' n = Ok la -> znth los' n = Ok lo ->
          exists v, znth out n = Ok v /\ count_value (grid_at' G t lats lons) (position G t la lo) r v) /\
     (forall las los ip, is_points G t las los ip -> exists out, count_p G (s_tree ip) op r = Ok out /\ zlen out = zlen las' /\
        forall n la lo, znth las' n = Ok la -> znth los' n = Ok lo ->
          exists v, znth out n = Ok v /\ count_value (point_at G t las los) (position G t la lo) r v)).
Proof.
  intros G t r HG. split.
  - intros t' Y' X' lats' lons' og HO HV. split.
    + intros Y X lats lons ig HI. apply (count_g_ok G _ t' Y' X' lats' lons' og r (fun la lo => count_value (grid_at' G t lats lons) (position G t la lo) r)); [exact HO|].
      intros. eapply counter_grid; eauto. eapply valid_get2; eauto.
    + intros las los ip HI. apply (count_g_ok G _ t' Y' X' lats' lons' og r (fun la lo => count_value (point_at G t las los) (position G t la lo) r)); [exact HO|].
      intros. eapply counter_points; eauto. eapply valid_get2; eauto.
  - intros t' las' los' op HO HV. split.
    + intros Y X lats lons ig HI. apply (count_p_ok G _ t' las' los' op r (fun la lo => count_value (grid_at' G t lats lons) (position G t la lo) r)); [exact HO|].
      intros. eapply counter_grid; eauto. eapply valid_znth; eauto.
    + intros las los ip HI. apply (count_p_ok G _ t' las' los' op r (fun la lo => count_value (point_at G t las los) (position G t la lo) r)); [exact HO|].
      intros. eapply counter_points; eauto. eapply valid_znth; eauto.
Qed.
