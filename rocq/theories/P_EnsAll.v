(** The member by member ensemble analysis with static correlations: all points. *)
From Coq Require Import Permutation.
From Verif Require Import Base QcTac ListLib M_Geo S_Geo S_Near M_OI M_EnsMulti S_OI S_EnsMulti P_Geo P_OISum P_OI P_OISolve P_OICell P_OIAll P_OITotal P_EnsSel P_EnsMulti P_OIGrid.
Local Open Scope Z_scope.

Section All.
Variables (G : geo) (L : lib) (S : sfn) (t : ctype) (blas blos las los : list Qc) (bpts pts : points)
  (bratios : vec) (background pobs pbg : vec2) (pratios : vec) (mp : Z) (ex : bool)
  (loc : point -> val) (rho bg : point -> point -> val) (nE m : Z).
Hypothesis HSet : setting G L S t blas blos bpts las los pts loc rho bg.
Let HG := set_geo _ _ _ _ _ _ _ _ _ _ _ _ _ HSet.
Let HLib := set_lib _ _ _ _ _ _ _ _ _ _ _ _ _ HSet.
Let HS := set_sf _ _ _ _ _ _ _ _ _ _ _ _ _ HSet.
Let HB := set_bpts _ _ _ _ _ _ _ _ _ _ _ _ _ HSet.
Let HP := set_pts _ _ _ _ _ _ _ _ _ _ _ _ _ HSet.
Let pvec := map (ptk pts) (zrange 0 (zlen las)).
Hypothesis Hm : 0 <= m <= nE.
Hypothesis RB : rect (zlen blas) nE background.
Hypothesis RO : rect (zlen las) nE pobs.
Hypothesis RG : rect (zlen las) nE pbg.
Hypothesis LBR : zlen bratios = zlen blas.
Hypothesis LPR : zlen pratios = zlen las.
Hypothesis Hmp : 0 <= mp.
Hypothesis Vok : forall e, 0 <= e < m -> complete e background /\ complete e pbg.
Hypothesis Vno : forall e, m <= e < nE -> ~ (complete e background /\ complete e pbg).
Notation run := (ebesc G L S bpts bratios background pts pobs pratios pbg mp ex).
Notation cell := (ebesc_cell G L S bpts bratios background pts pvec pobs pratios pbg mp ex (zrange 0 m)).
Notation chosen' := (chosen G t las los pts (col 0 pobs) (col 0 pobs) loc bg).

Lemma members_prefix : members nE [background; pbg] = Ok (zrange 0 m).
Proof.
  rewrite (members_ok nE background pbg _ _ RB RG). f_equal. apply filter_prefix; [lia| |].
  - intros e He. destruct (Vok e He) as [H1 H2]. apply complete_ok in H1, H2. rewrite H1, H2. reflexivity.
  - intros e He. destruct (ok_in background e) eqn:E1, (ok_in pbg e) eqn:E2; try reflexivity. exfalso. apply (Vno e He). split; apply complete_ok; assumption.
Qed.
Lemma run_eq : run = if zlen las =? 0 then Ok background else
  (r0 <- znth background 0 ;; if m =? 0 then Ok background else mapM cell (zrange 0 (zlen blas))).
Proof.
  unfold ebesc. replace (mp <? 0) with false by lia. rewrite (at_type _ _ _ _ _ HB), (at_type _ _ _ _ _ HP), (at_size _ _ _ _ _ HB), (at_size _ _ _ _ _ HP).
  fold (ctype_eqb t t). replace (ctype_eqb t t) with true by (symmetry; apply ctype_eqb_spec; reflexivity). cbn [negb].
  destruct RB as [LB RB2], RO as [LO _], RG as [LG _]. rewrite LB, LBR, LO, LPR, LG, !Z.eqb_refl. cbn [negb].
  destruct (zlen las =? 0); [reflexivity|].
  destruct (znth background 0) as [r0| | |] eqn:E0; cbn [bind]; try reflexivity.
  rewrite (pvec_ok _ _ _ _ _ HP). cbn [bind]. rewrite (RB2 _ (znth_In _ _ _ E0)). rewrite members_prefix. cbn [bind]. rewrite zlen_zrange.
  replace (Z.max 0 (m - 0)) with m by lia. reflexivity.
Qed.

(** one point: chosen observations, and the row of the result *)
Lemma run_cell out y row s p1 pos : run = Ok out -> 0 < zlen las -> 0 < m -> znth background y = Ok row -> znth bratios y = Ok s -> bpoint G t blas blos bpts y p1 pos ->
  exists U orow, chosen' mp p1 pos U /\ (forall k, In k U -> 0 <= k < zlen las) /\
    (forall la lo, znth blas y = Ok la -> znth blos y = Ok lo -> select G L S pts pvec (fun k => get2 pobs k 0) mp (Fin la) (Fin lo) p1 = Ok (map (fun k => (k, bg p1 (ptk pts k))) U)) /\ znth out y = Ok orow /\ zlen orow = nE /\ (forall e, m <= e -> znth orow e = znth row e) /\
    (U = [] -> orow = row) /\
    (U <> [] -> forall e, 0 <= e < m -> exists b x v, znth row e = Ok b /\
       finish L S pvec (col e pobs) pratios (col e pbg) true (Fin 0) (fz 1) U (map (fun k => bg p1 (ptk pts k)) U) = Ok (vadd (Fin 0) x, v) /\
       znth orow e = Ok (vadd b (if ex then vmul s x else limit0 (vmul s x) (amax (dep pobs pbg U e)) (amin (dep pobs pbg U e))))).
Proof.
  intros H Hn Hm0 Hrow Hs Hp. destruct (bpoint_at _ _ _ _ _ _ _ _ Hp) as (la & lo & Hla & Hlo & -> & Hp1).
  destruct (cell_choice G L S t blas blos las los bpts pts bratios background pobs pbg pratios mp ex loc rho bg nE m HG HLib HS HB HP) with (y := y) (la := la) (lo := lo) (p1 := p1) (row := row) (s := s)
    as (U & HU & RU & ND & ES & U0 & U1); auto; try lia.
  rewrite run_eq in H. replace (zlen las =? 0) with false in H by lia. apply bind_Ok in H as (r0 & Hr0 & H). replace (m =? 0) with false in H by lia.
  apply mapM_inv in H as [Lo HC]. pose proof (znth_range _ _ _ Hla) as Ry. destruct (HC y y) as (orow & Eo & Ec); [rewrite znth_zrange by lia; reflexivity|].
  exists U, orow. split; [exact HU|]. split; [exact RU|]. split; [intros la' lo' H1 H2; assert (la' = la) by congruence; assert (lo' = lo) by congruence; subst la' lo'; exact ES|]. split; [exact Eo|].
  assert (C : U = [] \/ U <> []) by (destruct U; [left; reflexivity|right; discriminate]). fold pvec in U0, U1. destruct C as [E|NE].
  - rewrite (U0 E) in Ec. injection Ec as <-. split; [apply RB; eapply znth_In; eauto|]. split; [reflexivity|]. split; [reflexivity|congruence].
  - destruct (U1 NE) as [(o' & Eo' & L1 & L2 & L3)|[Et _]]; [|congruence]. assert (o' = orow) as -> by congruence.
    split; [exact L1|]. split; [exact L2|]. split; [congruence|]. intros _. exact L3.
Qed.
Lemma run_rect out : run = Ok out -> rect (zlen blas) nE out.
Proof.
  intros H. pose proof H as H0. rewrite run_eq in H. destruct (zlen las =? 0) eqn:E0; [injection H as <-; exact RB|]. apply bind_Ok in H as (r0 & Hr0 & H).
  destruct (m =? 0) eqn:E1; [injection H as <-; exact RB|]. apply mapM_inv in H as [Lo _]. rewrite zlen_zrange in Lo. pose proof (zlen_nonneg blas). split; [lia|].
  intros r Hr. apply In_znth in Hr as [y Hy]. pose proof (znth_range _ _ _ Hy) as Ry. pose proof (zlen_nonneg las).
  destruct (znth_some background y) as [row Hrow]; [destruct RB; lia|]. destruct (znth_some bratios y ltac:(lia)) as [s Hs].
  destruct (has_bpoint G t blas blos bpts HB y ltac:(lia)) as (p1 & pos & Hp).
  destruct (run_cell out y row s p1 pos) as (U & orow & _ & _ & _ & Eo & Eo1 & _); auto; try lia. congruence.
Qed.

(** C104 *)
Lemma c104_all : forall out r ratio, run = Ok out -> known_ratios pts (zlen las) rho pratios r ratio ->
  (forall k o e, get2 pobs k 0 = Ok (Fin o) -> 0 <= e < m -> exists o', get2 pobs k e = Ok (Fin o')) ->
  rect (zlen blas) nE out /\
  (forall y e, m <= e < nE -> get2 out y e = get2 background y e) /\
  (forall y s p1 pos g, znth bratios y = Ok (Fin s) -> bpoint G t blas blos bpts y p1 pos -> known_cell pts bg p1 g ->
     exists U, chosen' mp p1 pos U /\ forall e b d, 0 <= e < m -> get2 background y e = Ok (Fin b) ->
       departures (col e pobs) (col e pbg) d ->
       exists o, get2 out y e = Ok o /\ member_analysis U r ratio g d s ex b o).
Proof.
  intros out r ratio H [KR KV] KO. pose proof (run_rect _ H) as RR. split; [exact RR|].
  assert (Triv : zlen las = 0 \/ m = 0 -> out = background).
  { intros C. rewrite run_eq in H. destruct (zlen las =? 0) eqn:E0; [congruence|]. apply bind_Ok in H as (r0 & _ & H). replace (m =? 0) with true in H by lia. congruence. }
  assert (Dec : zlen las = 0 \/ m = 0 \/ (0 < zlen las /\ 0 < m)) by (pose proof (zlen_nonneg las); lia).
  split.
  - intros y e He. destruct Dec as [C|[C|[Hn Hm0]]]; [rewrite Triv by auto; reflexivity|rewrite Triv by auto; reflexivity|].
    destruct (Z_lt_dec y 0) as [Ny|Py]; [unfold get2, znth; replace (y <? 0) with true by lia; reflexivity|].
    destruct (Z_lt_dec y (zlen blas)) as [Ly|Gy].
    2:{ unfold get2. destruct RR as [RR _], RB as [RB1 _]. destruct (znth out y) eqn:E1; try (apply znth_range in E1; lia);
        destruct (znth background y) eqn:E2; try (apply znth_range in E2; lia); try reflexivity; unfold znth in *;
        destruct (y <? 0); try discriminate; destruct (nth_error _ _); try discriminate; destruct (nth_error _ _); discriminate. }
    destruct (znth_some background y) as [row Hrow]; [destruct RB; lia|]. destruct (znth_some bratios y ltac:(lia)) as [s Hs].
    destruct (has_bpoint G t blas blos bpts HB y ltac:(lia)) as (p1 & pos & Hp).
    destruct (run_cell out y row s p1 pos) as (U & orow & _ & _ & _ & Eo & _ & E2 & _); auto; try lia. unfold get2. rewrite Eo, Hrow. cbn [bind]. apply E2. lia.
  - intros y s p1 pos g Hs Hp KC. destruct Dec as [C|[C|[Hn Hm0]]].
    { exists []. split.
      - split; [constructor|]. split; [intros k []|]. split; [intros; rewrite zlen_nil; lia|]. split; [|intros k k' []].
        intros _ k (q & pk & o & b' & Hq & _). apply point_at_range in Hq. lia.
      - intros e b d He Hb _. exists (Fin b). rewrite Triv by auto. split; [exact Hb|]. split; congruence. }
    { destruct (select_ok G L S t blas blos las los bpts pts (fun k => Ok (vk (col 0 pobs) k)) (col 0 pobs) mp loc rho bg HG HLib HS HB HP)
        with (y := y) (la := match znth blas y with Ok q => q | _ => 0%Qc end) (lo := match znth blos y with Ok q => q | _ => 0%Qc end) (p1 := p1) as (U & HU & _); auto.
      - rewrite zlen_col. apply RO.
      - destruct (bpoint_at _ _ _ _ _ _ _ _ Hp) as (la & lo & -> & _ & _). reflexivity.
      - destruct (bpoint_at _ _ _ _ _ _ _ _ Hp) as (la & lo & _ & -> & _). reflexivity.
      - apply Hp.
      - exists U. split; [|intros; lia]. destruct (bpoint_at _ _ _ _ _ _ _ _ Hp) as (la & lo & E1 & E2 & -> & _). rewrite E1, E2 in HU. exact HU. }
    destruct (bpoint_at _ _ _ _ _ _ _ _ Hp) as (la & lo & Hla & Hlo & Epos & Hp1). pose proof (znth_range _ _ _ Hla) as Ry.
    destruct (znth_some background y) as [row Hrow]; [destruct RB; lia|].
    destruct (run_cell out y row (Fin s) p1 pos) as (U & orow & HU & RU & _ & Eo & Lo & E2 & EU0 & EU1); auto.
    exists U. split; [exact HU|]. intros e b d He Hb KD. unfold get2 in Hb. rewrite Hrow in Hb. cbn [bind] in Hb.
    assert (C : U = [] \/ U <> []) by (destruct U; [left; reflexivity|right; discriminate]). destruct C as [EU|NE].
    { exists (Fin b). unfold get2. rewrite Eo. cbn [bind]. rewrite (EU0 EU). split; [exact Hb|]. split; congruence. }
    destruct (EU1 NE e He) as (b' & x & v & Hb' & EF & Ev). assert (b' = Fin b) as -> by congruence.
    unfold get2. rewrite Eo. cbn [bind]. rewrite Ev. eexists. split; [reflexivity|]. split; [congruence|]. intros _.
    set (of := fun k => match vk (col e pobs) k with Fin q => q | _ => 0%Qc end). set (yf := fun k => match vk (col e pbg) k with Fin q => q | _ => 0%Qc end).
    assert (Hof : forall k, In k U -> znth (col e pobs) k = Ok (Fin (of k))).
    { intros k Hk. destruct HU as (_ & Hus & _). destruct (Hus k Hk) as (q & pk & o' & b' & _ & _ & _ & Ho & _).
      rewrite (znth_col 0 _ _ _ k RO) in Ho by (try lia; apply RU; exact Hk). destruct (KO k o' e Ho He) as [o2 Ho2].
      rewrite <- (znth_col e _ _ _ k RO) in Ho2 by (try lia; apply RU; exact Hk). unfold of, vk. rewrite Ho2. reflexivity. }
    assert (Hyf : forall k, In k U -> znth (col e pbg) k = Ok (Fin (yf k))).
    { intros k Hk. destruct (znth_some (col e pbg) k) as [vv Hv]; [rewrite zlen_col; destruct RG as [-> _]; apply RU; exact Hk|].
      destruct (Vok e He) as [_ Cg]. destruct (Cg vv) as [q ->]; [eapply znth_In; eauto|]. unfold yf, vk. rewrite Hv. reflexivity. }
    assert (Dd : forall k, In k U -> (of k - yf k)%Qc = d k) by (intros k Hk; symmetry; apply KD; auto).
    destruct (finish_ok L S pts (col e pobs) pratios (col e pbg) (zlen las) true loc rho bg r ratio g of yf p1 HLib HS U RU (proj1 HU)) with (b := 0%Qc) (v := fz 1) (res := (vadd (Fin 0) x, v))
      as (ws & inc & z & W1 & W2 & W3 & W4 & _ & W6); auto.
    + intros k j Hk Hj. apply KR; eapply ptk_ok; eauto.
    + intros k Hk. apply KC. eapply ptk_ok; eauto.
    + assert (Ei : inc = tot U (fun k => ws k * d k)%Qc).
      { rewrite W3. apply tot_ext. intros k Hk. rewrite Dd by exact Hk. reflexivity. }
      rewrite (W4 eq_refl) in W6. apply (f_equal fst) in W6. cbn [fst] in W6.
      assert (Ex : x = Fin inc). { destruct x as [| | |q]; try discriminate W6. apply (f_equal (fun v => match v with Fin q => q | _ => 0%Qc end)) in W6. cbn [vadd] in W6. rewrite !Qcplus_0_l in W6. rewrite W6. reflexivity. }
      subst x. rewrite vmul_fin.
      assert (Edep : dep pobs pbg U e = map (fun k => Fin (d k)) U).
      { unfold dep. apply map_ext_in. intros k Hk. unfold vk. rewrite Hof, Hyf by exact Hk. transitivity (Fin (of k - yf k)%Qc); [reflexivity|]. f_equal. apply Dd. exact Hk. }
      rewrite Edep. destruct (amax_ok d U NE) as (hi & Ehi & Hhi). destruct (amin_ok d U NE) as (lo' & Elo & Hlo'). rewrite Ehi, Elo.
      assert (Hlh : (lo' <= hi)%Qc). { destruct Hhi as [(k0 & Hk0 & <-) _]. apply Hlo'. exact Hk0. }
      destruct (limit0_ok (s * inc) hi lo' Hlh) as (z0 & Ez & Cz). rewrite Ez.
      exists ws, (if ex then s * inc else z0)%Qc. split; [exact W1|]. split; [exact W2|]. split; [destruct ex; reflexivity|].
      split; [intros ->; rewrite Ei; reflexivity|]. intros ->. exists lo', hi. split; [exact Hlo'|]. split; [exact Hhi|]. rewrite <- Ei. exact Cz.
Qed.

(** C105: totality *)
Lemma regular_ratios r ratio U M : NoDup U -> U <> [] -> (forall k, In k U -> 0 <= k < zlen las) ->
  known_ratios pts (zlen las) rho pratios r ratio -> (forall c, 0 <= tot U (fun k => tot U (fun j => c k * c j * r k j)))%Qc -> (forall k, 0 <= k < zlen las -> (0 < ratio k)%Qc) ->
  system S pvec pratios U = Ok M -> forall e, l_inv L M <> Throw e.
Proof.
  intros ND NU RU [KR KV] VC HR EM.
  assert (Ep : map (fun s => vdiv (vk pratios s) (vk (init1 (zlen pratios) (fz 1)) s)) (zrange 0 (zlen las)) = pratios).
  { apply znth_ext; [rewrite zlen_map, zlen_zrange; pose proof (zlen_nonneg las); lia|]. intros i Hi. rewrite zlen_map, zlen_zrange in Hi.
    rewrite znth_map, znth_zrange by lia. cbn [bind]. replace (0 + i) with i by lia. rewrite KV by lia. unfold vk. rewrite KV by lia. rewrite znth_init1 by lia. 
    unfold vdiv, fz. destruct (qeqb_spec (qz 1) 0) as [E|_]; [discriminate E|]. do 2 f_equal. change (qz 1) with 1%Qc. field. discriminate. }
  eapply (regular G L S t blas blos bpts las los pts loc rho bg pratios (init1 (zlen pratios) (fz 1)) HSet r ratio U M ND NU RU); auto.
  - split; [exact KR|]. intros k Hk. exists (ratio k), 1%Qc. split; [apply KV; exact Hk|]. split; [apply znth_init1; lia|]. split; [discriminate|]. field. discriminate.
  - rewrite Ep. exact EM.
Qed.
Lemma c105_all : (blas <> [] \/ las = []) ->
  ((exists out, run = Ok out) \/ run = Throw RuntimeError) /\
  (forall r ratio, known_ratios pts (zlen las) rho pratios r ratio ->
     (forall U c, NoDup U -> (forall k, In k U -> 0 <= k < zlen las) -> (0 <= tot U (fun k => tot U (fun j => c k * c j * r k j)))%Qc) ->
     (forall k, 0 <= k < zlen las -> (0 < ratio k)%Qc) -> exists out, run = Ok out).
Proof.
  intros NB. rewrite run_eq.
  assert (C : zlen las = 0 \/ m = 0 \/ (0 < zlen las /\ 0 < m)) by (pose proof (zlen_nonneg las); lia).
  destruct (zlen las =? 0) eqn:E0; [split; [left|intros]; eexists; reflexivity|].
  assert (HB0 : 0 < zlen blas).
  { destruct NB as [NB|NB]; [|subst las; discriminate E0]. destruct blas as [|q l0]; [congruence|]. rewrite zlen_cons. pose proof (zlen_nonneg l0). lia. }
  destruct (znth_some background 0) as [r0 Hr0]; [destruct RB; lia|]. rewrite Hr0. cbn [bind].
  destruct (m =? 0) eqn:E1; [split; [left|intros]; eexists; reflexivity|].
  assert (T : forall y, 0 <= y < zlen blas -> (exists o, cell y = Ok o) \/
     (cell y = Throw RuntimeError /\ exists U M, NoDup U /\ U <> [] /\ (forall k, In k U -> 0 <= k < zlen las) /\ system S pvec pratios U = Ok M /\ l_inv L M = Throw RuntimeError)).
  { intros y Hy. destruct (has_bpoint G t blas blos bpts HB y Hy) as (p1 & pos & Hp). destruct (bpoint_at _ _ _ _ _ _ _ _ Hp) as (la & lo & Hla & Hlo & -> & Hp1).
    destruct (znth_some background y) as [row Hrow]; [destruct RB; lia|]. destruct (znth_some bratios y ltac:(lia)) as [s Hs].
    destruct (cell_choice G L S t blas blos las los bpts pts bratios background pobs pbg pratios mp ex loc rho bg nE m HG HLib HS HB HP) with (y := y) (la := la) (lo := lo) (p1 := p1) (row := row) (s := s)
      as (U & HU & RU & ND & ES & U0 & U1); auto; try lia. fold pvec in U0, U1.
    assert (C2 : U = [] \/ U <> []) by (destruct U; [left; reflexivity|right; discriminate]). destruct C2 as [EU|NE]; [left; eauto|].
    destruct (U1 NE) as [(o' & Eo' & _)|[Et (M & EM & EI)]]; [left; eauto|]. right. split; [exact Et|]. exists U, M. auto. }
  destruct (mapM_throw cell RuntimeError (zrange 0 (zlen blas))) as [[bs E]|[E (y & Hy & Ey)]].
  - intros y Hy. apply in_zrange in Hy. destruct (T y Hy) as [HH|[HH _]]; auto.
  - rewrite E. split; [left|intros]; eexists; reflexivity.
  - split; [right; exact E|]. intros r ratio K1 K2 K3. exfalso. apply in_zrange in Hy. destruct (T y Hy) as [[o Ho]|[_ (U & M & ND & NU & RU & EM & EI)]]; [congruence|].
    eapply regular_ratios; eauto.
Qed.

(** C106: with unit scale and extrapolation, every member gets its own optimal interpolation *)
Lemma finish_shift o p b v x w U g : finish L S pvec o pratios p true (Fin 0) (fz 1) U g = Ok (vadd (Fin 0) x, w) -> U <> [] -> exists w', finish L S pvec o pratios p true b v U g = Ok (vadd b x, w').
Proof.
  intros H NE. unfold finish in *. assert (Hn : 0 < zlen U) by (destruct U as [|u U']; [congruence|]; rewrite zlen_cons; pose proof (zlen_nonneg U'); lia).
  replace (zlen U =? 0) with false in * by lia. destruct (system S pvec pratios U) as [M| | |]; try discriminate. cbn [bind] in *.
  destruct (mapM _ U) as [lO| | |] in *; try discriminate. cbn [bind] in *. destruct (mapM _ U) as [lY| | |] in *; try discriminate. cbn [bind] in *.
  destruct (l_inv L M) as [N| | |]; try discriminate. cbn [bind] in *. destruct (row_mul _ _ _) as [gs| | |]; try discriminate. cbn [bind] in *.
  destruct (mapM _ _) as [d| | |] in *; try discriminate. cbn [bind] in *. destruct (vdot _ gs d) as [dx| | |]; try discriminate. cbn [bind] in *.
  destruct (vdot _ gs g) as [a| | |]; try discriminate. cbn [bind] in *. apply (f_equal (fun r => match r with Ok p => fst p | _ => NaN end)) in H. cbn [fst] in H.
  assert (Z0 : forall u, vadd (Fin 0) u = u) by (intros [| | |q]; try reflexivity; cbn [vadd]; rewrite Qcplus_0_l; reflexivity).
  rewrite !Z0 in H. subst dx. eexists. reflexivity.
Qed.
Lemma oi_cell_select e y b v la lo p1 U : 0 <= e < m -> (forall k, 0 <= k < zlen las -> is_valid (vk (col e pobs) k) = is_valid (vk (col 0 pobs) k)) ->
  znth (col e background) y = Ok (Fin b) -> znth blas y = Ok la -> znth blos y = Ok lo -> points_get bpts y = Ok p1 ->
  select G L S pts pvec (fun k => get2 pobs k 0) mp (Fin la) (Fin lo) p1 = Ok (map (fun k => (k, bg p1 (ptk pts k))) U) ->
  znth v y = Ok (fz 1) ->
  oi_cell G L S bpts (col e background) v pts pvec (col e pobs) pratios (col e pbg) mp true y =
  finish L S pvec (col e pobs) pratios (col e pbg) true (Fin b) (fz 1) U (map (fun k => bg p1 (ptk pts k)) U).
Proof.
  intros He HV Hb Hla Hlo Hp1 HSel Hv. destruct HS as (S1 & S2 & S3). pose proof (znth_range _ _ _ Hla) as Ry.
  destruct (at_get _ _ _ _ _ y HB Ry) as (p & la' & lo' & _ & Hla' & Hlo' & Gla & Glo & V & _).
  assert (la' = la) by congruence. assert (lo' = lo) by congruence. subst la' lo'.
  assert (HT : is_tree G t las los (s_tree pts)) by apply HP.
  destruct (P_Grd.points_search G t las los (s_tree pts) la lo (loc p1) HG HT V) as (I0 & HI & ND & HIn).
  assert (RI : forall k, In k I0 -> 0 <= k < zlen las).
  { intros k Hk. apply HIn in Hk as (q & Hq & _). eapply point_at_range; eauto. }
  unfold oi_cell. rewrite Hb, Hv. cbn [bind is_valid negb]. rewrite Gla, Glo, Hp1. cbn [bind]. rewrite S1. cbn [bind]. rewrite HI. cbn [bind].
  unfold select in HSel. rewrite S1 in HSel. cbn [bind] in HSel. rewrite HI in HSel. cbn [bind] in HSel.
  destruct (zlen I0 =? 0) eqn:E0.
  { injection HSel as HSel. symmetry in HSel. apply map_eq_nil in HSel. subst U. reflexivity. }
  assert (P2 : mapM (fun k => znth pvec k) I0 = Ok (map (ptk pts) I0)) by (apply mapM_ok; intros k Hk; apply znth_pvec; apply RI; exact Hk).
  rewrite P2 in *. cbn [bind] in *. rewrite S3 in *. cbn [bind] in *. rewrite map_map in *.
  rewrite (candidates_ok (col e pobs) (col e pbg) I0 _ (fun k => bg p1 (ptk pts k))); [| |rewrite !zlen_col; destruct RG, RO; lia|reflexivity].
  2:{ intros k Hk. rewrite zlen_col. destruct RO as [-> _]. apply RI. exact Hk. }
  rewrite (candidates_e_ok (fun k => get2 pobs k 0) (vk (col 0 pobs)) I0 _ (fun k => bg p1 (ptk pts k))) in HSel; [| |reflexivity].
  2:{ intros k Hk. apply (vk_col 0 (zlen las) nE); [exact RO|apply RI; exact Hk|lia]. }
  cbn [bind] in *.
  rewrite (filter_ext_in _ (fun i => is_valid (vk (col 0 pobs) (ix I0 i)) && vltb (fz 0) (bg p1 (ptk pts (ix I0 i))))%bool).
  2:{ intros i Hi. apply in_zrange in Hi. pose proof (RI _ (ix_In _ _ Hi)) as Rk. rewrite HV by exact Rk.
      replace (is_valid (vk (col e pbg) (ix I0 i))) with true; [rewrite andb_true_r; reflexivity|].
      destruct (Vok e He) as [_ Cg]. destruct (Cg (vk (col e pbg) (ix I0 i))) as [q ->]; [|reflexivity].
      eapply znth_In. apply vk_ok. rewrite zlen_col. destruct RG as [-> _]. exact Rk. }
  rewrite HSel. cbn [bind]. rewrite !map_map. cbn [fst snd]. rewrite map_id. unfold finish. reflexivity.
Qed.
Lemma c106_all : forall out e, run = Ok out -> ex = true -> (forall y, 0 <= y < zlen blas -> znth bratios y = Ok (fz 1)) -> 0 <= e < m ->
  (forall k, 0 <= k < zlen las -> is_valid (vk (col e pobs) k) = is_valid (vk (col 0 pobs) k)) -> (forall v, In v pratios -> is_valid v = true) ->
  oi_points G L S bpts (col e background) pts (col e pobs) pratios (col e pbg) mp true = Ok (col e out).
Proof.
  intros out e H Hex Hs He HV HR. pose proof (run_rect _ H) as RR.
  assert (LB : zlen (col e background) = zlen blas) by (rewrite zlen_col; apply RB). assert (LO : zlen (col e pobs) = zlen las) by (rewrite zlen_col; apply RO).
  assert (LG : zlen (col e pbg) = zlen las) by (rewrite zlen_col; apply RG).
  unfold oi_points. replace (mp <? 0) with false by lia. rewrite (at_type _ _ _ _ _ HB), (at_type _ _ _ _ _ HP), (at_size _ _ _ _ _ HB), (at_size _ _ _ _ _ HP).
  fold (ctype_eqb t t). replace (ctype_eqb t t) with true by (symmetry; apply ctype_eqb_spec; reflexivity). cbn [negb].
  rewrite LB, LO, LPR, !Z.eqb_refl. cbn [negb].
  assert (Ep : map (fun s => vdiv (vk pratios s) (vk (init1 (zlen las) (fz 1)) s)) (zrange 0 (zlen las)) = pratios).
  { apply znth_ext; [rewrite zlen_map, zlen_zrange; pose proof (zlen_nonneg las); lia|]. intros i Hi. rewrite zlen_map, zlen_zrange in Hi.
    rewrite znth_map, znth_zrange by lia. cbn [bind]. replace (0 + i) with i by lia. rewrite (vk_ok pratios) by lia. f_equal.
    destruct (valid_fin (vk pratios i)) as [q ->]; [apply HR; eapply znth_In; apply vk_ok; lia|]. unfold vk. rewrite znth_init1 by lia.
    unfold vdiv, fz. destruct (qeqb_spec (qz 1) 0) as [E|_]; [discriminate E|]. f_equal. change (qz 1) with 1%Qc. field. discriminate. }
  destruct (Z.eq_dec (zlen las) 0) as [El|Nl].
  { rewrite run_eq in H. rewrite El in H. cbn in H. injection H as <-. assert (las = []) as El' by (apply zlen_0_nil; exact El).
    rewrite full_checked with (t := t) (blas := blas) (blos := blos) (las := las) (los := los) (loc := loc) (rho := rho) (bg := bg); auto; try lia; rewrite ?zlen_init1; try lia; pose proof (zlen_nonneg blas); try lia; reflexivity. }
  rewrite (full_eq G L S t blas blos las los bpts pts _ _ _ _ _ _ mp [] true HB HP); auto; try lia; rewrite ?zlen_init1; try lia; try (pose proof (zlen_nonneg blas); lia); try (pose proof (zlen_nonneg las); lia).
  rewrite Ep. fold pvec.
  pose proof (zlen_nonneg blas) as NB. pose proof (zlen_nonneg las) as NL.
  assert (HC : forall y, In y (zrange 0 (zlen blas)) -> exists c, oi_cell G L S bpts (col e background) (init1 (zlen blas) (fz 1)) pts pvec (col e pobs) pratios (col e pbg) mp true y = Ok c /\ znth (col e out) y = Ok (fst c)).
  { intros y Hy. apply in_zrange in Hy. destruct (has_bpoint G t blas blos bpts HB y Hy) as (p1 & pos & Hp).
    destruct (bpoint_at _ _ _ _ _ _ _ _ Hp) as (la & lo & Hla & Hlo & -> & Hp1).
    destruct (znth_some background y) as [row Hrow]; [destruct RB; lia|]. pose proof (Hs y Hy) as Hsy.
    assert (Bv : exists b, znth (col e background) y = Ok (Fin b)).
    { destruct (znth_some (col e background) y ltac:(lia)) as [vb Hvb]. destruct (Vok e He) as [Cb _]. destruct (Cb vb) as [q ->]; [eapply znth_In; eauto|]. eauto. }
    destruct Bv as [b Hb].
    destruct (run_cell out y row (fz 1) p1 (position G t la lo)) as (U & orow & HU & RU & EU & Eo & _ & _ & EU0 & EU1); auto; try lia.
    pose proof (oi_cell_select e y b (init1 (zlen blas) (fz 1)) la lo p1 U He HV Hb Hla Hlo Hp1 (EU la lo Hla Hlo) (znth_init1 _ _ _ Hy)) as EC. rewrite EC.
    rewrite (znth_col e (zlen blas) nE out y RR) by lia. rewrite (znth_col e (zlen blas) nE background y RB) in Hb by lia. unfold get2 in Hb |- *. rewrite Hrow in Hb. cbn [bind] in Hb. rewrite Eo. cbn [bind].
    assert (C2 : U = [] \/ U <> []) by (destruct U; [left; reflexivity|right; discriminate]). destruct C2 as [E0|NE].
    { rewrite (EU0 E0), Hb. subst U. eexists. split; reflexivity. }
    destruct (EU1 NE e He) as (b' & x & w & Hb' & EF & Ev). rewrite Hex in Ev. assert (b' = Fin b) as -> by congruence.
    destruct (finish_shift _ _ (Fin b) (fz 1) x w U _ EF NE) as (w' & EW). rewrite EW. eexists. split; [reflexivity|]. rewrite Ev. cbn [fst]. f_equal. f_equal.
    destruct x as [| | |q]; try (vm_compute; reflexivity). unfold fz. cbn [vmul]. change (qz 1) with 1%Qc. rewrite Qcmult_1_l. reflexivity. }
  destruct (mapM_some (oi_cell G L S bpts (col e background) (init1 (zlen blas) (fz 1)) pts pvec (col e pobs) pratios (col e pbg) mp true) (zrange 0 (zlen blas))) as [cs Ecs].
  { intros y Hy. destruct (HC y Hy) as (c & Hc & _). eauto. }
  rewrite Ecs. cbn [omp bind]. f_equal. apply mapM_inv in Ecs as [Lc Hcs]. rewrite zlen_zrange in Lc.
  apply znth_ext; [rewrite zlen_map, zlen_col; destruct RR; lia|]. intros y Hy. rewrite zlen_map in Hy.
  destruct (HC y) as (c & Hc & Ec); [apply in_zrange; lia|]. destruct (Hcs y y) as (c' & Hc' & Ec'); [rewrite znth_zrange by lia; reflexivity|].
  rewrite Ec, znth_map, Hc'. cbn [bind]. congruence.
Qed.
End All.
