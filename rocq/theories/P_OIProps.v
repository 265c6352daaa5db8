(** C57-C62 and C79-C84: properties of optimal interpolation. *)
From Coq Require Import Permutation.
From Verif Require Import Base QcTac ListLib M_Geo S_Geo S_Near M_OI S_OI P_Geo P_Neighbours P_Grid P_Points P_OISum P_OI P_OICell P_OISolve P_OIAll.
Local Open Scope Z_scope.

Lemma limit_bounds x hi lo z : (lo <= hi)%Qc -> limit (Fin x) (Fin hi) (Fin lo) = Fin z ->
  (hi <> 0%Qc -> (z <= hi \/ z <= 0)%Qc) /\ (lo <> 0%Qc -> (lo <= z \/ 0 <= z)%Qc).
Proof.
  intros LH El. assert (H1 : hi <> 0%Qc -> (hi < 0 \/ 0 < hi)%Qc) by (intros N; destruct (Qc_dec hi 0) as [[|]|]; auto; contradiction).
  assert (H2 : lo <> 0%Qc -> (lo < 0 \/ 0 < lo)%Qc) by (intros N; destruct (Qc_dec lo 0) as [[|]|]; auto; contradiction).
  unfold limit in El. rewrite fz0 in El. cbn [vltb] in El.
  assert (F : (z = hi \/ z = lo \/ (z = x /\ ((0 < hi)%Qc -> (x <= hi)%Qc) /\ ((hi < 0)%Qc -> (x <= 0)%Qc) /\ ((lo < 0)%Qc -> (lo <= x)%Qc) /\ ((0 < lo)%Qc -> (0 <= x)%Qc)))).
  { destruct (qltb_spec 0 hi) as [a|a]; destruct (qltb_spec hi x) as [b|b]; cbn [andb] in El; try (injection El as <-; auto; fail);
    destruct (qltb_spec hi 0) as [a'|a']; destruct (qltb_spec 0 x) as [b'|b']; cbn [andb] in El; try (injection El as <-; auto; fail);
    destruct (qltb_spec lo 0) as [a2|a2]; destruct (qltb_spec x lo) as [b2|b2]; cbn [andb] in El; try (injection El as <-; auto; fail);
    destruct (qltb_spec 0 lo) as [a3|a3]; destruct (qltb_spec x 0) as [b3|b3]; cbn [andb] in El; try (injection El as <-; auto; fail);
    injection El as <-; right; right; (split; [reflexivity|]); repeat split; intros; try (apply Qcnot_lt_le; assumption); try contradiction; apply Qcnot_lt_le; intros; contradiction. }
  destruct F as [-> |[-> |(-> & F1 & F2 & F3 & F4)]].
  - split; intros; left; [apply Qcle_refl|exact LH].
  - split; intros; left; [exact LH|apply Qcle_refl].
  - split; intros N; [destruct (H1 N)|destruct (H2 N)]; auto.
Qed.
Lemma limit_inside x hi lo : (lo <= x)%Qc -> (x <= hi)%Qc -> limit (Fin x) (Fin hi) (Fin lo) = Fin x.
Proof.
  intros H1 H2. unfold limit. rewrite fz0. cbn [vltb].
  destruct (qltb_spec hi x) as [H|_]; [exfalso; qlra|]. destruct (qltb_spec x lo) as [H|_]; [exfalso; qlra|]. rewrite !Bool.andb_false_r.
  destruct (qltb_spec hi 0) as [a|a], (qltb_spec 0 x) as [b|b]; cbn [andb]; try (exfalso; qlra);
  destruct (qltb_spec 0 lo) as [a2|a2], (qltb_spec x 0) as [b2|b2]; cbn [andb]; try (exfalso; qlra); reflexivity.
Qed.

Section Props.
Variables (G : geo) (L : lib) (S : sfn) (t : ctype) (blas blos : list Qc) (bpts : points) (las los : list Qc) (pts : points)
  (loc : point -> val) (rho bg : point -> point -> val) (background bvariance pobs ov pbg bvp : vec) (mp : Z) (av0 : vec) (ex : bool).
Hypothesis HSet : setting G L S t blas blos bpts las los pts loc rho bg.
Hypothesis LG : zlen pbg = zlen las.
Notation full := (oi_full G L S bpts background bvariance pts pobs ov pbg bvp mp av0 ex).
Notation usable' := (usable G t las los pts pobs pbg loc bg).
Notation chosen' := (chosen G t las los pts pobs pbg loc bg).
Let HG := set_geo _ _ _ _ _ _ _ _ _ _ _ _ _ HSet.
Let HLib := set_lib _ _ _ _ _ _ _ _ _ _ _ _ _ HSet.
Let HS := set_sf _ _ _ _ _ _ _ _ _ _ _ _ _ HSet.
Let HB := set_bpts _ _ _ _ _ _ _ _ _ _ _ _ _ HSet.
Let HP := set_pts _ _ _ _ _ _ _ _ _ _ _ _ _ HSet.

Lemma las_cases : las = [] \/ (las <> [] /\ 0 < zlen las).
Proof. destruct las; [left; reflexivity|right; split; [discriminate|]]. rewrite zlen_cons. pose proof (zlen_nonneg l). lia. Qed.
Lemma chosen_nil p1 pos U : chosen' mp p1 pos U -> (forall k, ~ usable' p1 pos k) -> U = [].
Proof. intros (_ & H & _) N. destruct U as [|k U]; [reflexivity|]. exfalso. apply (N k). apply H. left; reflexivity. Qed.

Lemma c57_all :
  (forall out var, full = Ok (out, var) ->
     zlen out = zlen background /\ (las = [] -> out = background) /\
     (forall y b, znth background y = Ok b -> is_valid b = false ->
        znth out y = Ok b /\ (las <> [] -> znth var y = znth bvariance y)) /\
     (forall y b p1 pos, znth background y = Ok b -> bpoint G t blas blos bpts y p1 pos -> (forall k, ~ usable' p1 pos k) ->
        znth out y = Ok b /\ (las <> [] -> znth var y = znth bvariance y))) /\
  (0 <= mp -> zlen background = zlen blas -> zlen bvariance = zlen blas -> zlen pobs = zlen las -> zlen ov = zlen las -> zlen bvp = zlen las ->
   (forall y p1 pos k, bpoint G t blas blos bpts y p1 pos -> ~ usable' p1 pos k) ->
   exists var, full = Ok (background, var) /\ (las <> [] -> var = bvariance)).
Proof.
  split.
  - intros out var H. pose proof (full_sizes G L S t blas blos las los bpts pts background bvariance pobs ov pbg bvp mp av0 ex HB HP out var H) as (H1 & H2 & H3 & H4 & H5 & H6).
    destruct las_cases as [E|[NE Hn]].
    + destruct (full_empty G L S t blas blos las los bpts pts background bvariance pobs ov pbg bvp mp av0 ex HB HP out var E H) as [-> ->].
      split; [reflexivity|]. split; [reflexivity|]. split; intros; (split; [assumption|congruence]).
    + destruct (full_cells G L S t blas blos las los bpts pts background bvariance pobs ov pbg bvp mp av0 ex HB HP out var Hn H) as (L1 & L2 & HC).
      split; [lia|]. split; [congruence|].
      assert (MISS : forall y b, znth background y = Ok b -> is_valid b = false -> znth out y = Ok b /\ (las <> [] -> znth var y = znth bvariance y)).
      { intros y b Hb Hv. pose proof (znth_range _ _ _ Hb) as Ry. destruct (znth_some bvariance y ltac:(lia)) as [v Ev].
        destruct (HC y ltac:(lia)) as (o & w & Ec & Eo & Ew). unfold oi_cell in Ec. rewrite Hb, Ev in Ec. cbn [bind] in Ec. rewrite Hv in Ec. cbn [negb] in Ec.
        injection Ec as <- <-. rewrite Ev. auto. }
      split; [exact MISS|]. intros y b p1 pos Hb Hp HN. destruct (is_valid b) eqn:Hv; [|apply MISS; assumption].
      destruct (valid_fin _ Hv) as [q ->]. pose proof (znth_range _ _ _ Hb) as Ry. destruct (znth_some bvariance y ltac:(lia)) as [v Ev].
      destruct (full_choice G L S t blas blos las los bpts pts background bvariance pobs ov pbg bvp mp av0 ex loc rho bg HG HLib HS HB HP LG out var y q v p1 pos Hn H Hb Ev Hp)
        as (U & o & w & HU & _ & Eo & Ew & EF). rewrite (chosen_nil _ _ _ HU HN) in EF. cbn in EF. injection EF as <- <-. rewrite Ev. auto.
  - intros H1 H2 H3 H4 H5 H6 HN. destruct las_cases as [E|[NE Hn]].
    + exists av0. split; [|congruence]. unfold oi_full.
      replace (mp <? 0) with false by lia. rewrite (at_type _ _ _ _ _ HB), (at_type _ _ _ _ _ HP), (at_size _ _ _ _ _ HB), (at_size _ _ _ _ _ HP).
      fold (ctype_eqb t t). replace (ctype_eqb t t) with true by (symmetry; apply ctype_eqb_spec; reflexivity). cbn [negb].
      rewrite H2, H3, H4, H5, H6. rewrite !Z.eqb_refl. rewrite E. reflexivity.
    + exists bvariance. split; [|reflexivity].
      rewrite (full_eq G L S t blas blos las los bpts pts background bvariance pobs ov pbg bvp mp av0 ex HB HP) by assumption.
      rewrite (mapM_ok _ (fun y => (vk background y, vk bvariance y))).
      2:{ intros y Hy. apply in_zrange in Hy. destruct (is_valid (vk background y)) eqn:Hv.
          - destruct (valid_fin _ Hv) as [q Eq]. destruct (has_bpoint G t blas blos bpts HB y Hy) as (p1 & pos & Hp).
            destruct (bpoint_at _ _ _ _ _ _ _ _ Hp) as (la & lo & Hla & Hlo & -> & Hp1).
            assert (Hb : znth background y = Ok (Fin q)) by (rewrite <- Eq; apply vk_ok; lia).
            edestruct (cell_choice G L S t blas blos las los bpts pts background bvariance pobs
              (map (fun s => vdiv (vk ov s) (vk bvp s)) (zrange 0 (zlen las))) pbg mp ex loc rho bg HG HLib HS HB HP) as (U & HU & _ & EF); eauto; try lia.
            + apply vk_ok. lia.
            + rewrite EF. rewrite (chosen_nil _ _ _ HU) by (intros k; apply (HN y p1 _ k Hp)). rewrite Eq. reflexivity.
          - unfold oi_cell. rewrite !vk_ok by lia. cbn [bind]. rewrite Hv. reflexivity. }
      cbn [omp bind]. rewrite !map_map. cbn [fst snd]. f_equal. f_equal.
      * apply znth_ext; [rewrite zlen_map, zlen_zrange; pose proof (zlen_nonneg blas); lia|]. intros i Hi. rewrite zlen_map, zlen_zrange in Hi.
        rewrite znth_map, znth_zrange by lia. cbn [bind]. replace (0 + i) with i by lia. symmetry. apply vk_ok. lia.
      * apply znth_ext; [rewrite zlen_map, zlen_zrange; pose proof (zlen_nonneg blas); lia|]. intros i Hi. rewrite zlen_map, zlen_zrange in Hi.
        rewrite znth_map, znth_zrange by lia. cbn [bind]. replace (0 + i) with i by lia. symmetry. apply vk_ok. lia.
Qed.

Variables (r : Z -> Z -> Qc) (ratio : Z -> Qc) (d : Z -> Qc).
Hypothesis KO : known_obs pts (zlen las) rho ov bvp r ratio.
Hypothesis KD : departures pobs pbg d.

Lemma c59_all : forall out var y b v p1 pos g, full = Ok (out, var) -> znth background y = Ok (Fin b) -> znth bvariance y = Ok v ->
  bpoint G t blas blos bpts y p1 pos -> known_cell pts bg p1 g ->
  exists U o, chosen' mp p1 pos U /\ znth out y = Ok o /\
    (las <> [] -> exists w, znth var y = Ok w /\ analysis U r ratio g d ex b v o w).
Proof.
  intros out var y b v p1 pos g H Hb Hv Hp KC. destruct las_cases as [E|[NE Hn]].
  - destruct (full_empty G L S t blas blos las los bpts pts background bvariance pobs ov pbg bvp mp av0 ex HB HP out var E H) as [-> ->].
    exists [], (Fin b). split; [|split; [exact Hb|congruence]]. split; [constructor|]. split; [intros k []|]. split; [intros; unfold zlen; cbn; lia|].
    assert (NU : forall k, ~ usable' p1 pos k).
    { intros k (q & pk & o & b' & Hq & _). apply point_at_range in Hq. rewrite E in Hq. unfold zlen in Hq. cbn in Hq. lia. }
    split; [intros _ k Hk; exfalso; exact (NU k Hk)|]. intros k k' [].
  - destruct (full_analysis G L S t blas blos las los bpts pts background bvariance pobs ov pbg bvp mp av0 ex loc rho bg HG HLib HS HB HP LG
      out var y b v p1 pos r ratio g d Hn H Hb Hv Hp KO KC KD) as (U & o & w & HU & Eo & Ew & HA & _).
    exists U, o. split; [exact HU|]. split; [exact Eo|]. intros _. exists w. auto.
Qed.

Lemma c58_all : forall out var g, full = Ok (out, var) -> known_bg pts bpts (zlen blas) bg g -> (forall k, d k = 0%Qc) -> out = background.
Proof.
  intros out var g H KC Hd. destruct c57_all as [HA _]. destruct (HA out var H) as (HL & H0 & HM & _).
  pose proof (full_sizes G L S t blas blos las los bpts pts background bvariance pobs ov pbg bvp mp av0 ex HB HP out var H) as (H1 & H2 & H3 & H4 & H5 & H6).
  destruct las_cases as [E|[NE Hn]]; [auto|]. apply znth_ext; [lia|]. intros y Hy.
  rewrite (vk_ok background y) by lia. destruct (is_valid (vk background y)) eqn:Hv; [|apply HM; [apply vk_ok; lia|exact Hv]].
  destruct (valid_fin _ Hv) as [b Eb]. rewrite Eb. destruct (has_bpoint G t blas blos bpts HB y ltac:(lia)) as (p1 & pos & Hp).
  destruct (znth_some bvariance y ltac:(lia)) as [v Ev].
  destruct (full_analysis G L S t blas blos las los bpts pts background bvariance pobs ov pbg bvp mp av0 ex loc rho bg HG HLib HS HB HP LG
      out var y b v p1 pos r ratio (g y) d Hn H) as (U & o & w & HU & Eo & Ew & [A1 A2] & A3); auto.
  { rewrite <- Eb. apply vk_ok. lia. } { apply KC; [lia|apply Hp]. }
  rewrite Eo. f_equal. destruct U as [|k0 U0]; [apply A1; reflexivity|]. destruct (A2 ltac:(discriminate)) as (ws & _ & _ & HE & _ & _).
  assert (T0 : forall w, tot (k0 :: U0) (fun k => w k * d k)%Qc = 0%Qc) by (intros; apply tot_zero; intros; rewrite Hd; ring).
  destruct ex.
  - rewrite HE by reflexivity. rewrite T0. f_equal. ring.
  - destruct (A3 eq_refl ltac:(discriminate)) as (ws' & lo & hi & z & _ & [(kl & _ & <-) _] & [(kh & _ & <-) _] & El & ->).
    rewrite T0, !Hd in El. cbn in El. injection El as <-. f_equal. ring.
Qed.

Lemma c60_all : forall out var y b v p1 pos g k, full = Ok (out, var) -> znth background y = Ok (Fin b) -> znth bvariance y = Ok (Fin v) ->
  bpoint G t blas blos bpts y p1 pos -> known_cell pts bg p1 g -> (forall j, usable' p1 pos j <-> j = k) ->
  r k k = 1%Qc -> (0 <= ratio k)%Qc -> (g k <= 1)%Qc ->
  exists inc, znth out y = Ok (Fin (b + inc)%Qc) /\ inc = (g k / (1 + ratio k) * d k)%Qc /\
    ((0 <= d k)%Qc -> (0 <= inc <= d k)%Qc) /\ ((d k <= 0)%Qc -> (d k <= inc <= 0)%Qc) /\
    exists av, znth var y = Ok (Fin av) /\ av = (v * (1 - g k * g k / (1 + ratio k)))%Qc /\ ((0 <= v)%Qc -> (0 <= av <= v)%Qc).
Proof.
  intros out var y b v p1 pos g k H Hb Hv Hp KC HU1 Hr Hra Hg. assert (Uk : usable' p1 pos k) by (apply HU1; reflexivity).
  assert (Hn : 0 < zlen las). { destruct Uk as (q & pk & o & b' & Hq & _). apply point_at_range in Hq. lia. }
  destruct (full_analysis G L S t blas blos las los bpts pts background bvariance pobs ov pbg bvp mp av0 ex loc rho bg HG HLib HS HB HP LG
      out var y b (Fin v) p1 pos r ratio g d Hn H Hb Hv Hp KO KC KD) as (U & o & w & HU & Eo & Ew & [A1 A2] & A3).
  pose proof (full_sizes G L S t blas blos las los bpts pts background bvariance pobs ov pbg bvp mp av0 ex HB HP out var H) as (H1 & _).
  destruct HU as (ND & Sub & HU2 & HU3 & _).
  assert (EU : U = [k]).
  { destruct U as [|a [|a' U]].
    - exfalso. apply (HU3 ltac:(unfold zlen; cbn; lia) k Uk).
    - f_equal. apply HU1. apply Sub. left; reflexivity.
    - exfalso. assert (a = k) by (apply HU1, Sub; cbn; auto). assert (a' = k) by (apply HU1, Sub; cbn; auto). subst. inversion ND. apply H3. cbn; auto. }
  subst U. destruct (A2 ltac:(discriminate)) as (ws & W & _ & HE & _ & HV).
  assert (T1 : forall f, tot [k] f = f k) by (intros f; unfold tot; cbn [map fold_right]; ring).
  specialize (W k (or_introl eq_refl)). rewrite T1, Hr, Z.eqb_refl in W. rewrite T1 in HV.
  assert (Hg0 : (0 < g k)%Qc).
  { destruct Uk as (q & pk & o' & b' & _ & _ & Hk & _ & _ & Hpos). rewrite (KC k pk Hk) in Hpos. rewrite fz0 in Hpos. cbn in Hpos. destruct (qltb_spec 0 (g k)); [assumption|discriminate]. }
  assert (N1 : (1 + ratio k)%Qc <> 0%Qc) by (intros E; qlra).
  assert (Ews : ws k = (g k / (1 + ratio k))%Qc) by (rewrite <- W; field; exact N1).
  set (q := (g k / (1 + ratio k))%Qc) in *.
  assert (Eq : (q * (1 + ratio k) = g k)%Qc) by (unfold q; field; exact N1).
  assert (Q1 : (0 < q)%Qc). { apply Qcnot_le_lt. intros HH. clearbody q. assert (q * (1 + ratio k) <= 0)%Qc by qnra. qlra. }
  assert (Q2 : (q <= 1)%Qc). { clearbody q. qnra. }
  assert (Eo' : o = Fin (b + q * d k)%Qc).
  { destruct ex; [rewrite HE by reflexivity; rewrite T1, Ews; reflexivity|].
    destruct (A3 eq_refl ltac:(discriminate)) as (ws' & lo & hi & z & W' & [(kl & [<- |[]] & <-) _] & [(kh & [<- |[]] & <-) _] & El & ->).
    specialize (W' k (or_introl eq_refl)). rewrite T1, Hr, Z.eqb_refl in W'. rewrite T1 in El.
    assert (Ew' : ws' k = q) by (unfold q; rewrite <- W'; field; exact N1). rewrite Ew' in El. do 2 f_equal.
    unfold limit in El. rewrite fz0 in El. cbn [vltb] in El. clear HE HV. clearbody q. generalize dependent (d k). intros dk El.
    destruct (qltb_spec 0 dk), (qltb_spec dk (q * dk)), (qltb_spec dk 0), (qltb_spec 0 (q * dk)), (qltb_spec (q * dk) dk), (qltb_spec (q * dk) 0);
      cbn [andb] in El; injection El as <-; try reflexivity; exfalso; qnra. }
  exists (q * d k)%Qc. rewrite Eo, Eo'. split; [reflexivity|]. split; [reflexivity|].
  assert (Q1' : (0 <= q)%Qc) by (apply Qclt_le_weak; exact Q1). 
  split; [intros; clearbody q; generalize dependent (d k); intros; split; qnra|]. split; [intros; clearbody q; generalize dependent (d k); intros; split; qnra|].
  exists (v * (1 - q * g k))%Qc. rewrite Ew, HV, Ews. split; [reflexivity|]. split; [unfold q; field; exact N1|].
  intros V0. clearbody q. generalize dependent (g k). intros gk. intros. clear HE HV.
  assert (P1 : (0 <= q * gk)%Qc) by qnra. assert (P2 : (q * gk <= 1)%Qc) by qnra. generalize dependent (q * gk)%Qc. intros p. intros. split; qnra.
Qed.

(** *** limited increments *)
Lemma c61_partial : forall out var y b v p1 pos g, full = Ok (out, var) -> ex = false -> las <> [] -> znth background y = Ok (Fin b) -> znth bvariance y = Ok v ->
  bpoint G t blas blos bpts y p1 pos -> known_cell pts bg p1 g ->
  exists U, chosen' mp p1 pos U /\ (U = [] -> znth out y = Ok (Fin b)) /\
    (U <> [] -> exists z lo hi, znth out y = Ok (Fin (b + z)%Qc) /\ smallest U d lo /\ largest U d hi /\
       (hi <> 0%Qc -> (z <= hi \/ z <= 0)%Qc) /\ (lo <> 0%Qc -> (lo <= z \/ 0 <= z)%Qc)).
Proof.
  intros out var y b v p1 pos g H -> NE Hb Hv Hp KC. destruct las_cases as [E|[_ Hn]]; [contradiction|].
  destruct (full_analysis G L S t blas blos las los bpts pts background bvariance pobs ov pbg bvp mp av0 false loc rho bg HG HLib HS HB HP LG
      out var y b v p1 pos r ratio g d Hn H Hb Hv Hp KO KC KD) as (U & o & w & HU & Eo & Ew & [A1 A2] & A3).
  exists U. split; [exact HU|]. split; [intros E; rewrite Eo; f_equal; apply A1; exact E|]. intros NU.
  destruct (A3 eq_refl NU) as (ws & lo & hi & z & _ & Hlo & Hhi & El & ->). exists z, lo, hi. split; [exact Eo|]. split; [exact Hlo|]. split; [exact Hhi|].
  assert (LH : (lo <= hi)%Qc). { destruct Hlo as [_ A4], Hhi as [(k & Hk & <-) _]. auto. }
  eapply limit_bounds; eauto.
Qed.

(** *** valid correlations *)
Lemma tot_le U f : (forall k, In k U -> (0 <= f k)%Qc) -> forall k, NoDup U -> In k U -> (f k <= tot U f)%Qc.
Proof.
  intros Hf k ND Hk. induction U as [|a U IH]; [destruct Hk|]. rewrite tot_cons. inversion ND; subst.
  assert (T : (0 <= tot U f)%Qc) by (apply tot_nonneg; intros; apply Hf; right; assumption).
  destruct Hk as [<- |Hk].
  - set (x := tot U f) in *. clearbody x. generalize (f a). intros. qlra.
  - assert (A1 : (f k <= tot U f)%Qc) by (apply IH; auto; intros; apply Hf; right; assumption). specialize (Hf a (or_introl eq_refl)).
    set (x := tot U f) in *. set (u := f a) in *. set (u' := f k) in *. clearbody x u u'. qlra.
Qed.
Lemma quad_form U w (b : Z -> Qc) : NoDup U -> (forall j, In j U -> tot U (fun k => w k * (r k j + (if (k =? j)%Z then ratio k else 0)))%Qc = b j) ->
  tot U (fun j => w j * b j)%Qc = (tot U (fun k => tot U (fun j => w k * w j * r k j)) + tot U (fun k => w k * w k * ratio k))%Qc.
Proof.
  intros ND HW.
  transitivity (tot U (fun j => tot U (fun k => w k * w j * r k j) + w j * w j * ratio j)%Qc).
  - apply tot_ext. intros j Hj. rewrite <- (HW j Hj). rewrite <- tot_mul_l.
    rewrite <- (tot_pick U (fun k => w k * w j * r k j)%Qc j (fun k => w k * w k * ratio k)%Qc ND Hj). apply tot_ext. intros k Hk.
    destruct (Z.eqb_spec k j) as [-> |N]; ring.
  - rewrite tot_add. f_equal. rewrite tot_swap. reflexivity.
Qed.
Lemma c79_all : forall out var y b v p1 pos g, full = Ok (out, var) -> las <> [] -> znth background y = Ok (Fin b) -> znth bvariance y = Ok (Fin v) ->
  bpoint G t blas blos bpts y p1 pos -> known_cell pts bg p1 g ->
  valid_corr (zlen las) r g -> (forall k, 0 <= k < zlen las -> (0 <= ratio k)%Qc) -> (0 <= v)%Qc ->
  exists av, znth var y = Ok (Fin av) /\ (0 <= av <= v)%Qc.
Proof.
  intros out var y b v p1 pos g H NE Hb Hv Hp KC VC HR V0. destruct las_cases as [E|[_ Hn]]; [contradiction|].
  destruct (full_analysis G L S t blas blos las los bpts pts background bvariance pobs ov pbg bvp mp av0 ex loc rho bg HG HLib HS HB HP LG
      out var y b (Fin v) p1 pos r ratio g d Hn H Hb Hv Hp KO KC KD) as (U & o & w & HU & Eo & Ew & [A1 A2] & _).
  destruct U as [|k0 U0]; [destruct (A1 eq_refl) as [_ ->]; exists v; split; [exact Ew|split; [exact V0|apply Qcle_refl]]|].
  destruct (A2 ltac:(discriminate)) as (ws & W & _ & _ & _ & ->). set (U := k0 :: U0) in *. rewrite Ew. cbn [vmul]. eexists. split; [reflexivity|].
  destruct HU as (ND & Sub & _). assert (RU : forall k, In k U -> 0 <= k < zlen las).
  { intros k Hk. destruct (Sub k Hk) as (q & pk & o' & b' & Hq & _). eapply point_at_range; eauto. }
  assert (Q := quad_form U ws g ND W). pose proof (VC U 1%Qc (fun k => - ws k)%Qc ND RU) as V1. pose proof (VC U 0%Qc ws ND RU) as V2.
  rewrite (tot_ext _ (fun k => (- ws k) * g k)%Qc (fun k => (ws k * g k) * (-(1)))%Qc) in V1 by (intros; ring). rewrite tot_mul_r in V1.
  rewrite (tot_ext _ (fun k => tot U (fun j => (- ws k) * (- ws j) * r k j))%Qc (fun k => tot U (fun j => ws k * ws j * r k j))%Qc) in V1 by (intros; apply tot_ext; intros; ring).
  assert (R0 : (0 <= tot U (fun k => ws k * ws k * ratio k))%Qc).
  { apply tot_nonneg. intros k Hk. pose proof (HR k (RU k Hk)) as R1. generalize (ws k), (ratio k), R1. intros. assert (0 <= q * q)%Qc by qnra. generalize dependent (q * q)%Qc. intros. qnra. }
  set (R := tot U (fun k => ws k * ws k * ratio k)%Qc) in *. set (P := tot U (fun k => tot U (fun j => ws k * ws j * r k j))%Qc) in *.
  set (A := tot U (fun k => ws k * g k)%Qc) in *. clearbody R P A. clear - Q V1 V2 R0 V0.
  assert (B1 : (0 <= A)%Qc) by qlra. assert (B2 : (A <= 1)%Qc) by qlra. split; qnra.
Qed.
Lemma c80_all : forall out var y b v p1 pos g m, full = Ok (out, var) -> mp = 0 -> znth background y = Ok (Fin b) -> znth bvariance y = Ok (Fin v) ->
  bpoint G t blas blos bpts y p1 pos -> known_cell pts bg p1 g ->
  usable' p1 pos m -> (forall j, usable' p1 pos j -> g j = r m j) -> ratio m = 0%Qc ->
  znth out y = Ok (Fin (b + d m)%Qc) /\ znth var y = Ok (Fin (v * (1 - g m))%Qc).
Proof.
  intros out var y b v p1 pos g m H Emp Hb Hv Hp KC Um Hm Rm.
  assert (Hn : 0 < zlen las). { destruct Um as (q & pk & o & b' & Hq & _). apply point_at_range in Hq. lia. }
  destruct (full_analysis G L S t blas blos las los bpts pts background bvariance pobs ov pbg bvp mp av0 ex loc rho bg HG HLib HS HB HP LG
      out var y b (Fin v) p1 pos r ratio g d Hn H Hb Hv Hp KO KC KD) as (U & o & w & (ND & Sub & _ & All & _) & Eo & Ew & [A1 A2] & A3).
  assert (Mu : In m U) by (apply All; [left; exact Emp|exact Um]).
  assert (NU : U <> []) by (intros ->; destruct Mu).
  assert (WD : weights U r ratio g (fun k => if k =? m then 1 else 0)%Qc).
  { intros j Hj. rewrite (tot_ext _ _ (fun k => (r k j + (if (k =? j)%Z then ratio k else 0)) * unit_ k m)%Qc).
    2:{ intros k Hk. unfold unit_. destruct (k =? m); ring. }
    rewrite (tot_delta U (fun k => r k j + (if (k =? j)%Z then ratio k else 0))%Qc) by assumption. rewrite (Hm j) by (apply Sub; exact Hj). rewrite Rm.
    destruct (m =? j); ring. }
  destruct (A2 NU) as (ws & W & Uniq & HE & _ & HV).
  assert (Tm : forall w' f, weights U r ratio g w' -> tot U (fun k => w' k * f k)%Qc = f m).
  { intros w' f W'. rewrite <- (tot_delta U f m ND Mu). apply tot_ext. intros k Hk. rewrite (Uniq w' W' k Hk), <- (Uniq _ WD k Hk).
    unfold unit_. destruct (k =? m); ring. }
  split.
  - rewrite Eo. f_equal. destruct ex; [rewrite HE by reflexivity; rewrite (Tm ws d W); reflexivity|].
    destruct (A3 eq_refl NU) as (ws' & lo & hi & z & W' & [_ Hlo] & [_ Hhi] & El & ->). rewrite (Tm ws' d W') in El. specialize (Hlo m Mu). specialize (Hhi m Mu).
    rewrite limit_inside in El by assumption. injection El as <-. reflexivity.
  - rewrite Ew, HV. rewrite (Tm ws g W). reflexivity.
Qed.
End Props.
