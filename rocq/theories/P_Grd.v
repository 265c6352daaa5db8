(** C44-C47: gridding, fill, doping. *)
From Verif Require Import Base ListLib M_Stat M_Geo M_Near M_Grd S_Stat S_Neigh S_Geo S_Near P_Geo P_Neighbours P_Grid P_Points P_NeighAll P_Near.

(** radius search for any radius *)
Lemma points_search G t las los T la lo r : geo_ok G -> is_tree G t las los T -> valid_loc t la ->
  exists I, get_neighbours G T (Fin la) (Fin lo) r true = Ok I /\ NoDup I /\
  forall i, In i I <-> exists q, point_at G t las los i q /\ in_circle (position G t la lo) q r.
Proof.
  intros HG HT V. destruct r as [| | |r].
  - unfold get_neighbours. rewrite (is_tree_type _ _ _ _ _ HT), (convert_ok _ _ _ _ V). cbn [bind].
    eexists. split; [reflexivity|]. split; [apply (ok_q_nodup _ HG)|]. intros i. rewrite (ok_q_in _ HG). unfold sel. cbn.
    split; [intros (q & _ & H); discriminate|intros (q & _ & [])].
  - destruct (neighbours_inf G t las los T la lo true HG HT V) as (I & HI & ND & H). exists I. split; [exact HI|]. split; [exact ND|].
    intros i. rewrite H. cbn. split; intros (q & Hq & _); exists q; auto.
  - unfold get_neighbours. rewrite (is_tree_type _ _ _ _ _ HT), (convert_ok _ _ _ _ V). cbn [bind].
    eexists. split; [reflexivity|]. split; [apply (ok_q_nodup _ HG)|]. intros i. rewrite (ok_q_in _ HG). unfold sel. cbn.
    split; [intros (q & _ & H); discriminate|intros (q & _ & [])].
  - destruct (neighbours_exact G t las los T la lo r true HG HT V) as (I & HI & ND & H). exists I. split; [exact HI|]. split; [exact ND|].
    intros i. rewrite H. cbn. split; intros (q & Hq & K); exists q; tauto.
Qed.
Lemma grid_search G t Y X lats lons g la lo r : geo_ok G -> is_grid G t Y X lats lons g -> valid_loc t la ->
  exists I, grid_neighbours G g (Fin la) (Fin lo) r true = Ok I /\ NoDup I /\
  (forall y x, In (y, x) I -> 0 <= y < Y /\ 0 <= x < X) /\
  forall y x, In (y, x) I <-> exists q, grid_at G t lats lons y x q /\ in_circle (position G t la lo) q r.
Proof.
  intros HG H V. pose proof (is_grid_pos _ _ _ _ _ _ _ H) as [HY HX].
  pose proof (grid_inv _ _ _ _ _ _ _ H) as (_ & _ & EX & HT & _).
  destruct (points_search G t _ _ _ la lo r HG HT V) as (I & HI & ND & HIn).
  unfold grid_neighbours. rewrite HI. cbn [bind].
  assert (F : Forall (fun k => 0 <= k) I).
  { apply Forall_forall. intros i Hi. apply HIn in Hi as (q & Hq & _). apply (grid_point_at _ _ _ _ _ _ _ _ _ H) in Hq. lia. }
  rewrite (get_indices_all_ok _ _ _ _ _ _ _ _ H F). eexists. split; [reflexivity|].
  assert (K : forall y x, In (y, x) (map (fun k => (k / X, k mod X)) I) <-> exists q, grid_at G t lats lons y x q /\ in_circle (position G t la lo) q r).
  { intros y x. rewrite in_map_iff. split.
    + intros (k & E & Hk). injection E as <- <-. apply HIn in Hk as (q & Hq & C). exists q. split; [|exact C].
      apply (grid_point_at _ _ _ _ _ _ _ _ _ H) in Hq. tauto.
    + intros (q & Hq & C). apply (grid_at_lin _ _ _ _ _ _ _ _ _ _ H) in Hq as (Ry & Rx & Hq). exists (y * X + x). split.
      * rewrite lin_div, lin_mod by lia. reflexivity.
      * apply HIn. exists q. auto. }
  split; [|split; [|exact K]].
  - clear -ND HX F. induction I as [|a I IH]; [constructor|]. inversion ND as [|? ? Hn ND']; subst. inversion F as [|? ? Ha F']; subst.
    cbn. constructor; [|apply IH; assumption]. rewrite in_map_iff. intros (b & E & Hb). apply Hn.
    rewrite (divmod_inj X a b) by (assumption || congruence). exact Hb.
  - intros y x Hin. apply K in Hin as (q & Hq & _). apply (grid_at_lin _ _ _ _ _ _ _ _ _ _ H) in Hq. tauto.
Qed.


(** ** C44 *)
Lemma mapM_Forall2 {A B} (f : A -> res B) l r : mapM f l = Ok r -> Forall2 (fun a b => f a = Ok b) l r.
Proof.
  revert r. induction l as [|a l IH]; intros r H; cbn in H; [injection H as <-; constructor|].
  apply bind_Ok in H as (b & Hb & H). apply bind_Ok in H as (o & Ho & H). injection H as <-. constructor; auto.
Qed.
Lemma mapM_exists {A B} (f : A -> res B) l : (forall a, In a l -> exists b, f a = Ok b) -> exists r, mapM f l = Ok r.
Proof.
  induction l as [|a l IH]; intros H; [exists []; reflexivity|]. destruct (H a) as [b Hb]; [left; reflexivity|].
  destruct IH as [r Hr]; [intros; apply H; right; assumption|]. exists (b :: r). cbn. rewrite Hb. cbn. rewrite Hr. reflexivity.
Qed.
Lemma gridding_cell_ok E G t las los ip values r min_num st la lo : geo_ok G -> is_points G t las los ip -> valid_loc t la ->
  zlen values = zlen las -> 0 <= min_num -> stat_listed st ->
  exists x, gridding_cell E G ip values (Fin r) min_num st (Fin la) (Fin lo) = Ok x /\ gridding_value E G t las los values r min_num st la lo x.
Proof.
  intros HG HI V HL Hm Hst. destruct (points_inv _ _ _ _ _ HI) as (_ & _ & _ & HT & _).
  destruct (points_search G t _ _ _ la lo (Fin r) HG HT V) as (I & HS & ND & HIn).
  destruct (mapM_exists (fun i => znth values i) I) as [curr Hc].
  { intros i Hi. apply HIn in Hi as (q & (a & b & Ha & _) & _). apply znth_some. apply znth_range in Ha. lia. }
  unfold gridding_cell. rewrite HS. cbn [bind]. rewrite Hc. cbn [bind].
  destruct (stat_of_calc E curr st Hst) as (x & Hx & SX).
  destruct (Z.leb_spec min_num 0); cbn [orb].
  - exists x. split; [exact Hx|]. exists I, curr. repeat split; [exact ND|apply HIn|apply HIn|apply mapM_Forall2, Hc| |].
    + pose proof (zlen_nonneg I). lia.
    + intros _. exact SX.
  - destruct (Z.leb_spec min_num (zlen I)).
    + exists x. split; [exact Hx|]. exists I, curr. repeat split; [exact ND|apply HIn|apply HIn|apply mapM_Forall2, Hc|lia|]. intros _; exact SX.
    + exists MV. split; [reflexivity|]. exists I, curr. repeat split; [exact ND|apply HIn|apply HIn|apply mapM_Forall2, Hc|lia].
Qed.
Lemma radius_check r : (0 <= r)%Qc -> negb (is_valid (Fin r)) || vltb (Fin r) (fz 0) = false.
Proof. intros H. cbn. destruct (qltb_spec r (qz 0)) as [K|]; [|reflexivity]. exfalso. change (qz 0) with 0%Qc in K. qlra. Qed.
Lemma gridding_g_ok E G t las los ip t' Y X lats lons og values r min_num st : geo_ok G -> is_points G t las los ip ->
  is_grid G t' Y X lats lons og -> valid_all2 t lats -> zlen values = zlen las -> (0 <= r)%Qc -> 0 <= min_num -> stat_listed st ->
  exists out, gridding_g E G og ip values (Fin r) min_num st = Ok out /\ rect Y X out /\
  forall y x la lo, get2 lats y x = Ok la -> get2 lons y x = Ok lo ->
    exists v, get2 out y x = Ok v /\ gridding_value E G t las los values r min_num st la lo v.
Proof.
  intros HG HI HO HV HL Hr Hm Hst. destruct (points_inv _ _ _ _ _ HI) as (_ & E1 & _).
  unfold gridding_g, compat_points1, points_size. rewrite E1, zlen_map, HL, Z.eqb_refl. cbn [negb].
  rewrite radius_check by exact Hr. rewrite (proj2 (Z.ltb_ge min_num 0)) by lia.
  rewrite (grid_size_ok _ _ _ _ _ _ _ HO). cbn [bind].
  destruct (out_grid G t' Y X lats lons og (gridding_cell E G ip values (Fin r) min_num st) MV HO) as (out & Ho & Hr' & K).
  { intros y x la lo Hla Hlo. destruct (gridding_cell_ok E G t las los ip values r min_num st la lo HG HI) as (v & Hv & _); eauto. eapply valid_get2; eauto. }
  exists out. split; [exact Ho|]. split; [exact Hr'|]. intros y x la lo Hla Hlo. destruct (K y x la lo Hla Hlo) as (v & Hv & Hg).
  exists v. split; [exact Hg|].
  destruct (gridding_cell_ok E G t las los ip values r min_num st la lo HG HI) as (v' & Hv' & S); eauto; [eapply valid_get2; eauto|]. congruence.
Qed.
Lemma gridding_p_ok E G t las los ip t' las' los' op values r min_num st : geo_ok G -> is_points G t las los ip ->
  is_points G t' las' los' op -> valid_all t las' -> zlen values = zlen las -> (0 <= r)%Qc -> 0 <= min_num -> stat_listed st ->
  exists out, gridding_p E G op ip values (Fin r) min_num st = Ok out /\ zlen out = zlen las' /\
  forall n la lo, znth las' n = Ok la -> znth los' n = Ok lo ->
    exists v, znth out n = Ok v /\ gridding_value E G t las los values r min_num st la lo v.
Proof.
  intros HG HI HO HV HL Hr Hm Hst. destruct (points_inv _ _ _ _ _ HI) as (_ & E1 & _).
  unfold gridding_p, compat_points1. rewrite (ip_size _ _ _ _ _ HI), HL, Z.eqb_refl. cbn [negb].
  rewrite radius_check by exact Hr. rewrite (proj2 (Z.ltb_ge min_num 0)) by lia.
  destruct (out_points G t' las' los' op (gridding_cell E G ip values (Fin r) min_num st) MV HO) as (out & Ho & L & K).
  { intros n la lo Hla Hlo. destruct (gridding_cell_ok E G t las los ip values r min_num st la lo HG HI) as (v & Hv & _); eauto. eapply valid_znth; eauto. }
  exists out. split; [exact Ho|]. split; [exact L|]. intros n la lo Hla Hlo. destruct (K n la lo Hla Hlo) as (v & Hv & Hg).
  exists v. split; [exact Hg|].
  destruct (gridding_cell_ok E G t las los ip values r min_num st la lo HG HI) as (v' & Hv' & S); eauto; [eapply valid_znth; eauto|]. congruence.
Qed.
Lemma gridding_invalid E G t las los ip og op values r min_num st : is_points G t las los ip ->
  zlen values <> zlen las \/ r = NaN \/ r = PInf \/ r = NInf \/ (exists q, r = Fin q /\ (q < 0)%Qc) \/ min_num < 0 ->
  gridding_g E G og ip values r min_num st = Throw InvalidArgument /\ gridding_p E G op ip values r min_num st = Throw InvalidArgument.
Proof.
  intros HI H. unfold gridding_g, gridding_p, compat_points1. rewrite (ip_size _ _ _ _ _ HI).
  destruct (Z.eqb_spec (zlen las) (zlen values)) as [EL|EL]; cbn [negb]; [|auto].
  destruct (_ || _)%bool eqn:B; [auto|]. destruct (Z.ltb_spec min_num 0) as [|Hm]; [auto|].
  exfalso. destruct H as [H|[->|[->|[->|[(q & -> & Hq)|H]]]]]; try discriminate; try lia.
  cbn in B. destruct (qltb_spec q (qz 0)) as [K|K]; [discriminate|]. apply K. exact Hq.
Qed.
