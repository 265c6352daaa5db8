(** C57-C62 and C79-C83: optimal interpolation. *)
From Coq Require Import Permutation.
From Verif Require Import Base QcTac ListLib M_Geo S_Geo S_Near M_OI S_OI P_Geo P_Neighbours P_Grid P_Points P_OISum P_OI P_OICell P_OISolve.
Local Open Scope Z_scope.

Definition ctype_eqb (a b : ctype) : bool := match a, b with Geodetic, Geodetic => true | Cartesian, Cartesian => true | _, _ => false end.
Lemma ctype_eqb_spec a b : ctype_eqb a b = true <-> a = b.
Proof. destruct a, b; cbn; split; congruence. Qed.

Section Full.
Variables (G : geo) (L : lib) (S : sfn) (t : ctype) (blas blos las los : list Qc) (bpts pts : points)
  (background bvariance pobs ov pbg bvp : vec) (mp : Z) (av0 : vec) (ex : bool)
  (loc : point -> val) (rho bg : point -> point -> val).
Hypothesis HG : geo_ok G.
Hypothesis HLib : lib_ok L.
Hypothesis HS : behaves S loc rho bg.
Hypothesis HB : at_locations G t blas blos bpts.
Hypothesis HP : at_locations G t las los pts.
Hypothesis LG : zlen pbg = zlen las.
Notation full := (oi_full G L S bpts background bvariance pts pobs ov pbg bvp mp av0 ex).
Let pratios := map (fun s => vdiv (vk ov s) (vk bvp s)) (zrange 0 (zlen las)).
Let pvec := map (ptk pts) (zrange 0 (zlen las)).
Notation cell := (oi_cell G L S bpts background bvariance pts pvec pobs pratios pbg mp ex).

(** the loop body over all background points, once the checks pass *)
Lemma full_eq : 0 <= mp -> zlen background = zlen blas -> zlen bvariance = zlen blas -> zlen pobs = zlen las -> zlen ov = zlen las ->
  zlen bvp = zlen las -> 0 < zlen las ->
  full = (cells <- omp (mapM cell (zrange 0 (zlen blas))) ;; Ok (map fst cells, map snd cells)).
Proof.
  intros H1 H2 H3 H4 H5 H6 H7. unfold oi_full.
  replace (mp <? 0) with false by lia. rewrite (at_type _ _ _ _ _ HB), (at_type _ _ _ _ _ HP), (at_size _ _ _ _ _ HB), (at_size _ _ _ _ _ HP).
  fold (ctype_eqb t t). replace (ctype_eqb t t) with true by (symmetry; apply ctype_eqb_spec; reflexivity). cbn [negb].
  rewrite H2, H3, H4, H5, H6. rewrite !Z.eqb_refl. cbn [negb]. replace (zlen las =? 0) with false by lia.
  rewrite (mapM_ok _ (fun s => vdiv (vk ov s) (vk bvp s))).
  2:{ intros s Hs. apply in_zrange in Hs. rewrite !vk_ok by lia. reflexivity. }
  cbn [bind]. rewrite (pvec_ok _ _ _ _ _ HP). cbn [bind]. reflexivity.
Qed.
Lemma full_sizes out var : full = Ok (out, var) -> 0 <= mp /\ zlen background = zlen blas /\ zlen bvariance = zlen blas /\ zlen pobs = zlen las /\
  zlen ov = zlen las /\ zlen bvp = zlen las.
Proof.
  unfold oi_full. rewrite (at_size _ _ _ _ _ HB), (at_size _ _ _ _ _ HP). intros H.
  destruct (mp <? 0) eqn:E1; [discriminate|]. destruct (negb _) eqn:E2 in H; [discriminate|].
  destruct (zlen background =? zlen blas) eqn:E3; [|discriminate]. destruct (zlen background =? zlen bvariance) eqn:E4; [|discriminate].
  destruct (zlen pobs =? zlen las) eqn:E5; [|discriminate]. destruct (zlen ov =? zlen las) eqn:E6; [|discriminate].
  destruct (zlen bvp =? zlen las) eqn:E7; [|discriminate]. lia.
Qed.
Lemma full_empty out var : las = [] -> full = Ok (out, var) -> out = background /\ var = av0.
Proof.
  intros E H. pose proof (full_sizes _ _ H) as (H1 & H2 & H3 & H4 & H5 & H6). unfold oi_full in H.
  replace (mp <? 0) with false in H by lia. rewrite (at_type _ _ _ _ _ HB), (at_type _ _ _ _ _ HP), (at_size _ _ _ _ _ HB), (at_size _ _ _ _ _ HP) in H.
  fold (ctype_eqb t t) in H. replace (ctype_eqb t t) with true in H by (symmetry; apply ctype_eqb_spec; reflexivity). cbn [negb] in H.
  rewrite H2, H3, H4, H5, H6 in H. rewrite !Z.eqb_refl in H. rewrite E in H. cbn in H. injection H as <- <-. auto.
Qed.
Lemma full_cells out var : 0 < zlen las -> full = Ok (out, var) -> zlen out = zlen blas /\ zlen var = zlen blas /\
  forall y, 0 <= y < zlen blas -> exists o v, cell y = Ok (o, v) /\ znth out y = Ok o /\ znth var y = Ok v.
Proof.
  intros Hn H. pose proof (full_sizes _ _ H) as (H1 & H2 & H3 & H4 & H5 & H6). rewrite full_eq in H by assumption.
  apply bind_Ok in H as (cells & Hc & H). injection H as <- <-. destruct (mapM cell (zrange 0 (zlen blas))) as [c'| | |] eqn:E; try discriminate.
  cbn in Hc. injection Hc as ->. pose proof (mapM_inv _ _ _ E) as [L1 H0]. rewrite zlen_zrange in L1. pose proof (zlen_nonneg blas).
  rewrite !zlen_map. split; [lia|]. split; [lia|]. intros y Hy. destruct (H0 y y) as (c & Hc & Hcell); [rewrite znth_zrange by lia; reflexivity|].
  destruct c as [o v]. exists o, v. rewrite !znth_map, Hc. auto.
Qed.

Lemma bpoint_at y p1 pos : bpoint G t blas blos bpts y p1 pos -> exists la lo, znth blas y = Ok la /\ znth blos y = Ok lo /\ pos = position G t la lo /\ points_get bpts y = Ok p1.
Proof. intros [H (la & lo & H1 & H2 & ->)]. exists la, lo. auto. Qed.
Lemma has_bpoint y : 0 <= y < zlen blas -> exists p1 pos, bpoint G t blas blos bpts y p1 pos.
Proof. intros Hy. destruct (at_get _ _ _ _ _ y HB Hy) as (p & la & lo & Hp & _ & _ & _ & _ & _ & HA). exists p, (position G t la lo). split; assumption. Qed.
Notation usable' := (usable G t las los pts pobs pbg loc bg).
Notation chosen' := (chosen G t las los pts pobs pbg loc bg).

(** every cell with a background: the chosen observations and the computation with them *)
Lemma full_choice out var y b v p1 pos : 0 < zlen las -> full = Ok (out, var) -> znth background y = Ok (Fin b) -> znth bvariance y = Ok v ->
  bpoint G t blas blos bpts y p1 pos ->
  exists U o w, chosen' mp p1 pos U /\ (forall k, In k U -> 0 <= k < zlen las) /\ znth out y = Ok o /\ znth var y = Ok w /\
    finish L S pvec pobs pratios pbg ex (Fin b) v U (map (fun k => bg p1 (ptk pts k)) U) = Ok (o, w).
Proof.
  intros Hn H Hb Hv Hp. pose proof (full_sizes _ _ H) as (H1 & H2 & H3 & H4 & H5 & H6).
  destruct (bpoint_at _ _ _ Hp) as (la & lo & Hla & Hlo & -> & Hp1).
  destruct (full_cells _ _ Hn H) as (_ & _ & HC). destruct (HC y) as (o & w & Ec & Eo & Ew); [eapply znth_range; eauto|].
  destruct (cell_choice G L S t blas blos las los bpts pts background bvariance pobs pratios pbg mp ex loc rho bg HG HLib HS HB HP) with (y := y) (b := b) (v := v) (la := la) (lo := lo) (p1 := p1)
    as (U & HU & RU & E); try assumption; try lia.
  exists U, o, w. split; [exact HU|]. split; [exact RU|]. split; [exact Eo|]. split; [exact Ew|]. fold pvec in E. rewrite <- E. exact Ec.
Qed.

Lemma full_analysis out var y b v p1 pos r ratio g d : 0 < zlen las -> full = Ok (out, var) -> znth background y = Ok (Fin b) -> znth bvariance y = Ok v ->
  bpoint G t blas blos bpts y p1 pos -> known_obs pts (zlen las) rho ov bvp r ratio -> known_cell pts bg p1 g -> departures pobs pbg d ->
  exists U o w, chosen' mp p1 pos U /\ znth out y = Ok o /\ znth var y = Ok w /\ analysis U r ratio g d ex b v o w /\
    (ex = false -> U <> [] -> exists ws lo hi z, weights U r ratio g ws /\ smallest U d lo /\ largest U d hi /\
        limit (Fin (tot U (fun k => ws k * d k))%Qc) (Fin hi) (Fin lo) = Fin z /\ o = Fin (b + z)%Qc).
Proof.
  intros Hn H Hb Hv Hp [KR KV] KC KD. pose proof (full_sizes _ _ H) as (H1 & H2 & H3 & H4 & H5 & H6).
  destruct (full_choice _ _ _ _ _ _ _ Hn H Hb Hv Hp) as (U & o & w & HU & RU & Eo & Ew & E).
  exists U, o, w. split; [exact HU|]. split; [exact Eo|]. split; [exact Ew|].
  assert (C : U = [] \/ U <> []) by (destruct U; [left; reflexivity|right; discriminate]). destruct C as [-> |NE].
  { cbn in E. injection E as <- <-. split; [|congruence]. split; [auto|congruence]. }
  destruct HU as (ND & Hus & HU').
  assert (Dt : exists of yf, (forall k, In k U -> znth pobs k = Ok (Fin (of k))) /\ (forall k, In k U -> znth pbg k = Ok (Fin (yf k)))).
  { exists (fun k => match vk pobs k with Fin q => q | _ => 0%Qc end), (fun k => match vk pbg k with Fin q => q | _ => 0%Qc end).
    split; intros k Hk; destruct (Hus k Hk) as (q & pk & o' & b' & _ & _ & _ & Ho & Hb' & _); unfold vk; rewrite ?Ho, ?Hb'; reflexivity. }
  destruct Dt as (of & yf & Hof & Hyf).
  destruct (finish_ok L S pts pobs pratios pbg (zlen las) ex loc rho bg r ratio g of yf p1 HLib HS U RU ND) with (b := b) (v := v) (res := (o, w))
    as (ws & inc & z & W1 & W2 & W3 & W4 & W5 & W6); auto.
  - intros k Hk. unfold pratios. rewrite znth_map, znth_zrange by (specialize (RU k Hk); lia). cbn [bind]. replace (0 + k) with k by lia.
    destruct (KV k (RU k Hk)) as (vo & vb & E1 & E2 & E3 & ->). unfold vk. rewrite E1, E2. unfold vdiv.
    destruct (qeqb_spec vb 0); [contradiction|]. reflexivity.
  - intros k j Hk Hj. apply KR; eapply ptk_ok; eauto.
  - intros k Hk. apply KC. eapply ptk_ok; eauto.
  - assert (Dd : forall k, In k U -> (of k - yf k)%Qc = d k) by (intros k Hk; symmetry; apply KD; auto).
    assert (Ei : inc = tot U (fun k => ws k * d k)%Qc).
    { rewrite W3. apply tot_ext. intros k Hk. rewrite Dd by exact Hk. reflexivity. }
    assert (Esm : forall m, smallest U (fun k => of k - yf k)%Qc m <-> smallest U d m).
    { intros m. unfold smallest. split; intros [(k & Hk & Ek) Hall]; (split; [exists k; split; [exact Hk|]|intros j Hj]).
      - rewrite <- Dd; assumption. - rewrite <- Dd by assumption. auto. - rewrite Dd; assumption. - rewrite Dd by assumption. auto. }
    assert (Ela : forall m, largest U (fun k => of k - yf k)%Qc m <-> largest U d m).
    { intros m. unfold largest. split; intros [(k & Hk & Ek) Hall]; (split; [exists k; split; [exact Hk|]|intros j Hj]).
      - rewrite <- Dd; assumption. - rewrite <- Dd by assumption. auto. - rewrite Dd; assumption. - rewrite Dd by assumption. auto. }
    injection W6 as -> ->. split.
    + split; [congruence|]. intros _. exists ws. split; [exact W1|]. split; [exact W2|]. split; [|split].
      * intros Hex. rewrite (W4 Hex), Ei. reflexivity.
      * intros Hex lo hi Hlo Hhi N1 N2. destruct (W5 Hex) as (lo' & hi' & Hlo' & Hhi' & El).
        apply Esm in Hlo'. apply Ela in Hhi'.
        assert (lo' = lo). { destruct Hlo as [(k & Hk & <-) A1], Hlo' as [(k' & Hk' & <-) A2]. apply Qcle_antisym; auto. }
        assert (hi' = hi). { destruct Hhi as [(k & Hk & <-) A1], Hhi' as [(k' & Hk' & <-) A2]. apply Qcle_antisym; auto. }
        subst lo' hi'. exists z. split; [|reflexivity]. rewrite <- Ei. apply limit_limited; auto.
        destruct Hlo as [_ A1], Hhi as [(k & Hk & <-) _]. auto.
      * reflexivity.
    + intros Hex _. destruct (W5 Hex) as (lo' & hi' & Hlo' & Hhi' & El). exists ws, lo', hi', z.
      split; [exact W1|]. split; [apply Esm; exact Hlo'|]. split; [apply Ela; exact Hhi'|]. rewrite <- Ei. auto.
Qed.
End Full.
