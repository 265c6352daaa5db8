(** The member by member ensemble analysis with static correlations. *)
From Coq Require Import Permutation.
From Verif Require Import Base QcTac ListLib M_Geo S_Geo S_Near M_OI M_EnsMulti S_OI S_EnsMulti P_Geo P_OISum P_OI P_OISolve P_OICell P_OIAll P_OITotal P_EnsSel P_CGrad.
Local Open Scope Z_scope.

(** *** columns *)
Lemma zlen_col e f : zlen (col e f) = zlen f. Proof. apply zlen_map. Qed.
Lemma vk_col e n m f k : rect n m f -> 0 <= k < n -> 0 <= e < m -> get2 f k e = Ok (vk (col e f) k).
Proof.
  intros R Hk He. destruct (rect_get2 _ _ _ _ _ R Hk He) as [v Hv]. rewrite Hv. f_equal. unfold vk, col. rewrite znth_map.
  unfold get2 in Hv. apply bind_Ok in Hv as (r & Hr & Hv). rewrite Hr, Hv. reflexivity.
Qed.
Lemma znth_col e n m f k : rect n m f -> 0 <= e < m -> 0 <= k -> znth (col e f) k = get2 f k e.
Proof.
  intros R He Hk. unfold col, get2. rewrite znth_map. destruct (znth f k) as [r| | |] eqn:Er; cbn; try reflexivity.
  destruct R as [_ R]. destruct (znth_some r e) as [v Hv]; [rewrite (R r); [lia|]; eapply znth_In; eauto|]. rewrite Hv. reflexivity.
Qed.
(** *** valid members *)
Definition ok_in (f : vec2) (e : Z) : bool := forallb is_valid (col e f).
Lemma all_valid_ok n m f e : rect n m f -> 0 <= e < m -> all_valid f e = Ok (ok_in f e).
Proof.
  intros [_ R] He. unfold all_valid, ok_in, col.
  assert (K : forall l b, (forall r, In r l -> zlen r = m) ->
    foldM (fun b r => v <- znth r e ;; Ok (b && is_valid v)%bool) b l = Ok (b && forallb is_valid (map (fun r => match znth r e with Ok v => v | _ => NaN end) l))%bool).
  { induction l as [|r l IH]; intros b Hl; cbn [foldM map forallb]; [rewrite andb_true_r; reflexivity|].
    destruct (znth_some r e) as [v Hv]; [rewrite Hl by (left; reflexivity); lia|]. rewrite Hv. cbn [bind]. rewrite IH by (intros; apply Hl; right; assumption).
    rewrite andb_assoc. reflexivity. }
  rewrite K by exact R. reflexivity.
Qed.
Lemma complete_ok f e : complete e f <-> ok_in f e = true.
Proof.
  unfold complete, ok_in. rewrite forallb_forall. split; intros H v Hv.
  - destruct (H v Hv) as [q ->]. reflexivity.
  - apply valid_fin. auto.
Qed.
Lemma members_ok nE a b n n' : rect n nE a -> rect n' nE b ->
  members nE [a; b] = Ok (filter (fun e => ok_in a e && ok_in b e)%bool (zrange 0 nE)).
Proof.
  intros Ra Rb. unfold members.
  assert (K : forall l acc, (forall e, In e l -> 0 <= e < nE) ->
    foldM (fun acc e => b <- foldM (fun b f => c <- all_valid f e ;; Ok (b && c)%bool) true [a; b] ;; Ok (if b then acc ++ [e] else acc)) acc l =
    Ok (acc ++ filter (fun e => ok_in a e && ok_in b e)%bool l)).
  { induction l as [|e l IH]; intros acc Hl; cbn [foldM filter]; [rewrite app_nil_r; reflexivity|].
    assert (He : 0 <= e < nE) by (apply Hl; left; reflexivity).
    rewrite (all_valid_ok _ _ _ _ Ra He). cbn [bind]. rewrite (all_valid_ok _ _ _ _ Rb He). cbn [bind andb].
    destruct (ok_in a e && ok_in b e)%bool; cbn [bind]; rewrite IH by (intros; apply Hl; right; assumption); [|reflexivity]. rewrite <- app_assoc. reflexivity. }
  rewrite K; [reflexivity|]. intros e He. apply in_zrange in He. exact He.
Qed.
Lemma filter_all {A} (p : A -> bool) l : (forall x, In x l -> p x = true) -> filter p l = l.
Proof. induction l as [|x l IH]; intros H; cbn; [reflexivity|]. rewrite (H x) by (left; reflexivity). rewrite IH by (intros; apply H; right; assumption). reflexivity. Qed.
Lemma filter_none {A} (p : A -> bool) l : (forall x, In x l -> p x = false) -> filter p l = [].
Proof. induction l as [|x l IH]; intros H; cbn; [reflexivity|]. rewrite (H x) by (left; reflexivity). apply IH. intros; apply H; right; assumption. Qed.
Lemma filter_prefix p m n : 0 <= m <= n -> (forall e, 0 <= e < m -> p e = true) -> (forall e, m <= e < n -> p e = false) -> filter p (zrange 0 n) = zrange 0 m.
Proof.
  intros H H1 H2. rewrite (zrange_app 0 m n) by lia. rewrite filter_app, filter_all, filter_none, app_nil_r; [reflexivity| |].
  - intros x Hx. apply in_zrange in Hx. apply H2. lia.
  - intros x Hx. apply in_zrange in Hx. apply H1. lia.
Qed.
(** *** writing the first [m] entries of a row *)
Lemma write_prefix (f : Z -> val) (g : vec -> Z -> res vec) (v0 : vec) m : 0 <= m <= zlen v0 ->
  (forall a e, 0 <= e < m -> g a e = zset a e (f e)) ->
  exists r, foldM g v0 (zrange 0 m) = Ok r /\ zlen r = zlen v0 /\ (forall e, 0 <= e < m -> znth r e = Ok (f e)) /\ (forall e, m <= e -> znth r e = znth v0 e).
Proof.
  intros Hm Hg.
  assert (K : forall j : nat, Z.of_nat j <= m -> exists r, foldM g v0 (zrange 0 (Z.of_nat j)) = Ok r /\ zlen r = zlen v0 /\
     (forall e, 0 <= e < Z.of_nat j -> znth r e = Ok (f e)) /\ (forall e, Z.of_nat j <= e -> znth r e = znth v0 e)).
  { induction j as [|j IH]; intros Hj.
    - exists v0. split; [reflexivity|]. split; [reflexivity|]. split; [intros; lia|reflexivity].
    - destruct IH as (r & E & El & E1 & E2); [lia|]. rewrite zrange_snoc by lia. replace (Z.of_nat (S j) - 1) with (Z.of_nat j) by lia.
      rewrite foldM_app, E. cbn [bind foldM]. rewrite Hg by lia. rewrite zset_Ok by lia. eexists. split; [reflexivity|]. rewrite zlen_lset. split; [exact El|].
      split; intros e He; rewrite znth_lset by lia.
      + destruct (Z.eqb_spec e (Z.of_nat j)) as [-> |N]; [reflexivity|]. apply E1. lia.
      + replace (e =? Z.of_nat j) with false by lia. apply E2. lia. }
  destruct (K (Z.to_nat m)) as (r & H); [lia|]. rewrite Z2Nat.id in H by lia. exists r. exact H.
Qed.
Lemma innov_row_ok m orow brow : 0 <= m <= zlen orow -> m <= zlen brow ->
  innov_row m (zrange 0 m) orow brow = Ok (map (fun e => vsub (vk orow e) (vk brow e)) (zrange 0 m)).
Proof.
  intros H1 H2. unfold innov_row.
  destruct (write_prefix (fun e => vsub (vk orow e) (vk brow e)) (fun acc ei => o <- znth orow ei ;; b <- znth brow ei ;;
     if ei <? m then zset acc ei (vsub o b) else Throw LogicError) (init1 m (fz 0)) m) as (r & E & El & E1 & _).
  - rewrite zlen_init1; lia.
  - intros a e He. rewrite (vk_ok orow), (vk_ok brow) by lia. cbn [bind]. replace (e <? m) with true by lia. reflexivity.
  - rewrite E. f_equal. rewrite zlen_init1 in El by lia. apply znth_ext; [rewrite zlen_map, zlen_zrange; lia|].
    intros e He. rewrite E1 by lia. rewrite znth_map, znth_zrange by lia. reflexivity.
Qed.
(** *** limiting *)
Lemma limit0_ok x hi lo : (lo <= hi)%Qc -> exists z, limit0 (Fin x) (Fin hi) (Fin lo) = Fin z /\ clipped lo hi x z.
Proof.
  intros H0. unfold limit0. rewrite fz0. cbn [vltb].
  destruct (qltb_spec 0 hi), (qltb_spec hi x), (qltb_spec hi 0), (qltb_spec 0 x), (qltb_spec lo 0), (qltb_spec x lo), (qltb_spec 0 lo), (qltb_spec x 0);
    cbn [andb]; eexists; (split; [reflexivity|]); unfold clipped; repeat split; intros;
    first [reflexivity | exfalso; qlra | apply Qcle_antisym; qlra | exfalso; match goal with N : ?a <> 0%Qc |- _ => apply N; apply Qcle_antisym; qlra end].
Qed.
Lemma vmul_fin a b : vmul (Fin a) (Fin b) = Fin (a * b)%Qc. Proof. reflexivity. Qed.

Section Cell.
Variables (G : geo) (L : lib) (S : sfn) (t : ctype) (blas blos las los : list Qc) (bpts pts : points)
  (bratios : vec) (background pobs pbg : vec2) (pratios : vec) (mp : Z) (ex : bool)
  (loc : point -> val) (rho bg : point -> point -> val) (nE m : Z).
Hypothesis HG : geo_ok G.
Hypothesis HLib : lib_ok L.
Hypothesis HS : behaves S loc rho bg.
Hypothesis HB : at_locations G t blas blos bpts.
Hypothesis HP : at_locations G t las los pts.
Let nS := zlen las.
Let pvec := map (ptk pts) (zrange 0 nS).
Hypothesis Hm : 0 < m <= nE.
Hypothesis RB : rect (zlen blas) nE background.
Hypothesis RO : rect nS nE pobs.
Hypothesis RG : rect nS nE pbg.
Hypothesis LBR : zlen bratios = zlen blas.
Hypothesis LPR : zlen pratios = nS.
Hypothesis Hmp : 0 <= mp.
Notation cell := (ebesc_cell G L S bpts bratios background pts pvec pobs pratios pbg mp ex (zrange 0 m)).
Notation chosen' := (chosen G t las los pts (col 0 pobs) (col 0 pobs) loc bg).

(** departures of member [e] *)
Definition dep (U : list Z) (e : Z) : vec := map (fun k => vsub (vk (col e pobs) k) (vk (col e pbg) k)) U.

Lemma innov_ok U : (forall k, In k U -> 0 <= k < nS) ->
  mapM (fun k => orow <- znth pobs k ;; brow <- znth pbg k ;; innov_row (zlen (zrange 0 m)) (zrange 0 m) orow brow) U =
  Ok (map (fun k => map (fun e => vsub (vk (col e pobs) k) (vk (col e pbg) k)) (zrange 0 m)) U).
Proof.
  intros RU. rewrite zlen_zrange. replace (Z.max 0 (m - 0)) with m by lia. apply mapM_ok. intros k Hk. specialize (RU k Hk).
  destruct RO as [RO1 RO2], RG as [RG1 RG2].
  destruct (znth_some pobs k ltac:(lia)) as [orow Eo]. destruct (znth_some pbg k ltac:(lia)) as [brow Eb]. rewrite Eo, Eb. cbn [bind].
  pose proof (RO2 _ (znth_In _ _ _ Eo)). pose proof (RG2 _ (znth_In _ _ _ Eb)).
  rewrite innov_row_ok by lia. f_equal. apply map_ext_in. intros e He. apply in_zrange in He.
  f_equal; unfold vk, col; rewrite znth_map, ?Eo, ?Eb; cbn [bind].
  - destruct (znth_some orow e ltac:(lia)) as [v Hv]. rewrite Hv. reflexivity.
  - destruct (znth_some brow e ltac:(lia)) as [v Hv]. rewrite Hv. reflexivity.
Qed.
Lemma innov_col U e : 0 <= e < m ->
  mapM (fun r => znth r e) (map (fun k => map (fun e => vsub (vk (col e pobs) k) (vk (col e pbg) k)) (zrange 0 m)) U) = Ok (dep U e).
Proof.
  intros He. unfold dep. rewrite mapM_map. apply mapM_ok. intros k _. rewrite znth_map, znth_zrange by lia. reflexivity.
Qed.

Lemma cell_choice y la lo p1 row s : znth blas y = Ok la -> znth blos y = Ok lo -> points_get bpts y = Ok p1 ->
  znth background y = Ok row -> znth bratios y = Ok s ->
  exists U, chosen' mp p1 (position G t la lo) U /\ (forall k, In k U -> 0 <= k < nS) /\ NoDup U /\
    select G L S pts pvec (fun k => get2 pobs k 0) mp (Fin la) (Fin lo) p1 = Ok (map (fun k => (k, bg p1 (ptk pts k))) U) /\
    (U = [] -> cell y = Ok row) /\
    (U <> [] -> let g := map (fun k => bg p1 (ptk pts k)) U in
       (exists out, cell y = Ok out /\ zlen out = nE /\ (forall e, m <= e -> znth out e = znth row e) /\
          forall e, 0 <= e < m -> exists b x v, znth row e = Ok b /\
            finish L S pvec (col e pobs) pratios (col e pbg) true (Fin 0) (fz 1) U g = Ok (vadd (Fin 0) x, v) /\
            znth out e = Ok (vadd b (if ex then vmul s x else limit0 (vmul s x) (amax (dep U e)) (amin (dep U e))))) \/
       (cell y = Throw RuntimeError /\ exists M, system S pvec pratios U = Ok M /\ l_inv L M = Throw RuntimeError)).
Proof.
  intros Hla Hlo Hp1 Hrow Hs.
  pose proof (znth_range _ _ _ Hla) as Ry.
  destruct (at_get _ _ _ _ _ y HB Ry) as (p & la' & lo' & _ & Hla' & Hlo' & Gla & Glo & V & _).
  assert (la' = la) by congruence. assert (lo' = lo) by congruence. subst la' lo'.
  destruct (select_ok G L S t blas blos las los bpts pts (fun k => get2 pobs k 0) (col 0 pobs) mp loc rho bg HG HLib HS HB HP) with (y := y) (la := la) (lo := lo) (p1 := p1)
    as (U & HU & RU & EU); auto.
  { intros k Hk. eapply vk_col; eauto; lia. }
  { rewrite zlen_col. apply RO. }
  exists U. split; [exact HU|]. split; [exact RU|]. split; [apply HU|]. split; [exact EU|].
  unfold ebesc_cell. rewrite Hrow, Hs, Gla, Glo, Hp1. cbn [bind]. fold nS in EU. fold pvec in EU. rewrite EU. cbn [bind]. rewrite zlen_map.
  split; [intros ->; reflexivity|]. intros NE.
  assert (Hn : 0 < zlen U) by (destruct U as [|u U']; [congruence|]; rewrite zlen_cons; pose proof (zlen_nonneg U'); lia).
  replace (zlen U =? 0) with false by lia. rewrite !map_map. cbn [fst snd]. rewrite map_id. rewrite (innov_ok U RU). cbn [bind].
  destruct (system_rect S pts pratios nS loc rho bg HS LPR U RU) as (M & EM & RM). fold pvec in EM. rewrite EM. cbn [bind].
  unfold update_row. rewrite zlen_map. destruct (ok_inv_size _ HLib (zlen U) M Hn RM) as [(N & EN & RN)|ET].
  2:{ right. rewrite ET. split; [reflexivity|]. exists M. auto. }
  left. rewrite EN. cbn [bind].
  assert (E1 : exists gs, row_mul (zlen U) (map (fun k => bg p1 (ptk pts k)) U) N = Ok gs /\ zlen gs = zlen U).
  { destruct RN as [RN1 RN2].
    destruct (mapM_some (fun j => foldM (fun acc i => x <- znth (map (fun k => bg p1 (ptk pts k)) U) i ;; y <- get2 N i j ;; Ok (vadd acc (vmul x y))) (fz 0) (zrange 0 (zlen U))) (zrange 0 (zlen U))) as [gs Egs].
    - intros j Hj. apply in_zrange in Hj. apply foldM_total. intros acc i Hi. apply in_zrange in Hi.
      rewrite znth_map_ix by exact Hi. cbn [bind]. destruct (znth_some N i ltac:(lia)) as [rw Er]. destruct (znth_some rw j) as [q Eq].
      { rewrite (RN2 rw) by (eapply znth_In; eauto). exact Hj. }
      unfold get2. rewrite Er. cbn [bind]. rewrite Eq. cbn [bind]. eauto.
    - exists gs. split; [exact Egs|]. apply mapM_inv in Egs as [Egs _]. rewrite zlen_zrange in Egs. lia. }
  destruct E1 as (gs & Egs & Lg). rewrite Egs. cbn [bind]. rewrite zlen_zrange. replace (Z.max 0 (m - 0)) with m by lia.
  assert (V2 : forall a b, zlen a = zlen U -> zlen b = zlen U -> exists x, vdot (zlen U) a b = Ok x).
  { intros a b' La Lb. unfold vdot. apply foldM_total. intros acc i Hi. apply in_zrange in Hi. destruct (znth_some a i ltac:(lia)) as [xa ->].
    destruct (znth_some b' i ltac:(lia)) as [xb ->]. cbn [bind]. eauto. }
  set (X := fun e => match vdot (zlen U) gs (dep U e) with Ok x => x | _ => NaN end).
  assert (EX : forall e, vdot (zlen U) gs (dep U e) = Ok (X e)).
  { intros e. destruct (V2 gs (dep U e) Lg) as [x Ex]; [apply zlen_map|]. unfold X. rewrite Ex. reflexivity. }
  rewrite (mapM_ok _ (fun e => if ex then vmul s (X e) else limit0 (vmul s (X e)) (amax (dep U e)) (amin (dep U e)))).
  2:{ intros e He. apply in_zrange in He. rewrite innov_col by lia. cbn [bind]. rewrite EX. reflexivity. }
  cbn [bind].
  assert (Lrow : zlen row = nE) by (apply RB; eapply znth_In; eauto).
  match goal with |- context [foldM ?g row (zrange 0 m)] =>
    destruct (write_prefix (fun e => vadd (vk row e) (if ex then vmul s (X e) else limit0 (vmul s (X e)) (amax (dep U e)) (amin (dep U e)))) g row m) as (out & E & El & Ea & Eb) end.
  { lia. }
  { intros a e He. rewrite znth_zrange by lia. cbn [bind]. replace (0 + e) with e by lia. rewrite (vk_ok row) by lia. cbn [bind].
    rewrite znth_map, znth_zrange by lia. reflexivity. }
  exists out. split; [exact E|]. split; [lia|]. split; [exact Eb|]. intros e He.
  destruct (V2 gs (map (fun k => bg p1 (ptk pts k)) U) Lg (zlen_map _ _)) as [a Ea'].
  exists (vk row e), (X e). eexists. split; [apply vk_ok; lia|]. split; [|rewrite Ea by lia; reflexivity].
  unfold finish. replace (zlen U =? 0) with false by lia. rewrite EM. cbn [bind].
  rewrite (mapM_ok _ (vk (col e pobs))) by (intros k Hk; apply vk_ok; rewrite zlen_col; destruct RO as [-> _]; apply RU; exact Hk). cbn [bind].
  rewrite (mapM_ok _ (vk (col e pbg))) by (intros k Hk; apply vk_ok; rewrite zlen_col; destruct RG as [-> _]; apply RU; exact Hk). cbn [bind].
  rewrite EN. cbn [bind]. rewrite Egs. cbn [bind].
  rewrite (mapM_ok _ (fun i => vsub (vk (col e pobs) (ix U i)) (vk (col e pbg) (ix U i)))).
  2:{ intros i Hi. apply in_zrange in Hi. rewrite !znth_map_ix by exact Hi. reflexivity. }
  cbn [bind]. rewrite <- (map_ix (fun k => vsub (vk (col e pobs) k) (vk (col e pbg) k)) U). fold (dep U e). rewrite EX. cbn [bind].
  rewrite Ea'. cbn [bind]. reflexivity.
Qed.
End Cell.
