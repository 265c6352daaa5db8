(** C81: the order of the observations does not matter. *)
From Coq Require Import Permutation.
From Verif Require Import Base QcTac ListLib M_Geo S_Geo S_Near M_OI S_OI P_Geo P_Neighbours P_Grid P_Points P_OISum P_OI P_OICell P_OISolve P_OIAll P_OIProps.
Local Open Scope Z_scope.

Lemma tot_map (f : Z -> Z) U h : tot (map f U) h = tot U (fun k => h (f k)).
Proof. unfold tot. rewrite map_map. reflexivity. Qed.
Lemma get_lat G t las los P k p : at_locations G t las los P -> points_get P k = Ok p ->
  exists la lo, znth las k = Ok la /\ znth los k = Ok lo /\ p_lat p = Fin la /\ p_lon p = Fin lo.
Proof.
  intros (HL & E1 & E2 & _) H. unfold points_get in H. rewrite E1, E2 in H. rewrite !znth_map in H.
  destruct (znth las k) as [la| | |]; try discriminate. destruct (znth los k) as [lo| | |]; try discriminate. cbn [bind] in H.
  destruct (znth (s_elevs P) k); try discriminate. destruct (znth (s_lafs P) k); try discriminate. destruct (znth (t_pts (s_tree P)) k); try discriminate.
  cbn [bind] in H. injection H as <-. exists la, lo. auto.
Qed.

Section Perm.
Variables (G : geo) (L : lib) (S : sfn) (t : ctype) (blas blos : list Qc) (bpts : points) (las los las' los' : list Qc) (pts pts' : points)
  (loc : point -> val) (rho bg : point -> point -> val) (background bvariance pobs ov pbg bvp pobs' ov' pbg' bvp' : vec) (av0 : vec) (ex : bool) (f h : Z -> Z).
Hypothesis HSet : setting G L S t blas blos bpts las los pts loc rho bg.
Hypothesis HSet' : setting G L S t blas blos bpts las' los' pts' loc rho bg.
Hypothesis LN : zlen las' = zlen las.
Hypothesis RE : reordered (zlen las) f h pts pts' [pobs; ov; pbg; bvp] [pobs'; ov'; pbg'; bvp'].
Hypothesis LG : zlen pbg = zlen las.
Let HP := set_pts _ _ _ _ _ _ _ _ _ _ _ _ _ HSet.
Let HP' := set_pts _ _ _ _ _ _ _ _ _ _ _ _ _ HSet'.
Notation us := (usable G t las los pts pobs pbg loc bg).
Notation us' := (usable G t las' los' pts' pobs' pbg' loc bg).

Lemma usable_perm p1 pos k : 0 <= k < zlen las -> us p1 pos k <-> us' p1 pos (f k).
Proof.
  intros Hk. destruct RE as (F1 & F2 & F3 & F4).
  inversion F4 as [|? ? ? ? [_ Fo] F5]; subst. inversion F5 as [|? ? ? ? [_ Fv] F6]; subst. inversion F6 as [|? ? ? ? [_ Fb] F7]; subst.
  assert (PA : forall q, point_at G t las los k q <-> point_at G t las' los' (f k) q).
  { intros q. pose proof (ptk_ok _ _ _ _ _ k HP Hk) as E. destruct (get_lat _ _ _ _ _ _ _ HP E) as (la & lo & A1 & A2 & A3 & A4).
    rewrite <- (F3 k Hk) in E. destruct (get_lat _ _ _ _ _ _ _ HP' E) as (la' & lo' & B1 & B2 & B3 & B4).
    assert (la' = la) by congruence. assert (lo' = lo) by congruence. subst. unfold point_at. rewrite A1, A2, B1, B2. reflexivity. }
  unfold usable. rewrite (F3 k Hk), (Fo k Hk), (Fb k Hk).
  split; intros (q & pk & o & b & Hq & HH); exists q, pk, o, b; (split; [apply PA; exact Hq|exact HH]).
Qed.
Lemma usable_range p1 pos k : us p1 pos k -> 0 <= k < zlen las.
Proof. intros (q & pk & o & b & Hq & _). eapply point_at_range; eauto. Qed.
Lemma usable_range' p1 pos k : us' p1 pos k -> 0 <= k < zlen las.
Proof. intros (q & pk & o & b & Hq & _). rewrite <- LN. eapply point_at_range; eauto. Qed.

Lemma c81_all : forall out var out' var' r ratio d g,
  oi_full G L S bpts background bvariance pts pobs ov pbg bvp 0 av0 ex = Ok (out, var) ->
  oi_full G L S bpts background bvariance pts' pobs' ov' pbg' bvp' 0 av0 ex = Ok (out', var') ->
  known_obs pts (zlen las) rho ov bvp r ratio -> departures pobs pbg d -> known_bg pts bpts (zlen blas) bg g ->
  out' = out /\ var' = var.
Proof.
  intros out var out' var' r ratio d g H H' KO KD KB. pose proof RE as (F1 & F2 & F3 & F4).
  inversion F4 as [|? ? ? ? [Lo Fo] F5]; subst. inversion F5 as [|? ? ? ? [Lv Fv] F6]; subst. inversion F6 as [|? ? ? ? [Lb Fb] F7]; subst. inversion F7 as [|? ? ? ? [Lw Fw] F8]; subst.
  set (HG := set_geo _ _ _ _ _ _ _ _ _ _ _ _ _ HSet). set (HLib := set_lib _ _ _ _ _ _ _ _ _ _ _ _ _ HSet). set (HS := set_sf _ _ _ _ _ _ _ _ _ _ _ _ _ HSet). set (HB := set_bpts _ _ _ _ _ _ _ _ _ _ _ _ _ HSet).
  assert (LG' : zlen pbg' = zlen las') by lia.
  pose proof (c57_all G L S t blas blos bpts las los pts loc rho bg background bvariance pobs ov pbg bvp 0 av0 ex HSet LG) as [C57 _]. destruct (C57 _ _ H) as (LL & HE & HM & _).
  pose proof (c57_all G L S t blas blos bpts las' los' pts' loc rho bg background bvariance pobs' ov' pbg' bvp' 0 av0 ex HSet' LG') as [C57' _]. destruct (C57' _ _ H') as (LL' & HE' & HM' & _).
  assert (C : las = [] \/ 0 < zlen las). { destruct las; [left; reflexivity|right]. rewrite zlen_cons. pose proof (zlen_nonneg l). lia. }
  destruct C as [E|Hn].
  { assert (E' : las' = []). { destruct las'; [reflexivity|]. rewrite E in LN. rewrite zlen_cons in LN. pose proof (zlen_nonneg l). unfold zlen at 2 in LN. cbn in LN. lia. }
    destruct (full_empty G L S t blas blos las los bpts pts background bvariance pobs ov pbg bvp 0 av0 ex HB HP out var E H) as [-> ->].
    destruct (full_empty G L S t blas blos las' los' bpts pts' background bvariance pobs' ov' pbg' bvp' 0 av0 ex HB HP' out' var' E' H') as [-> ->]. auto. }
  assert (Hn' : 0 < zlen las') by lia.
  destruct (full_cells G L S t blas blos las los bpts pts background bvariance pobs ov pbg bvp 0 av0 ex HB HP out var Hn H) as (L1 & L2 & _).
  destruct (full_cells G L S t blas blos las' los' bpts pts' background bvariance pobs' ov' pbg' bvp' 0 av0 ex HB HP' out' var' Hn' H') as (L1' & L2' & _).
  pose proof (full_sizes G L S t blas blos las los bpts pts background bvariance pobs ov pbg bvp 0 av0 ex HB HP out var H) as (_ & S2 & S3 & _).
  assert (CELL : forall y, 0 <= y < zlen blas -> znth out' y = znth out y /\ znth var' y = znth var y).
  { intros y Hy. destruct (is_valid (vk background y)) eqn:Hv.
    2:{ assert (NE : las <> []) by (intros E; rewrite E in Hn; unfold zlen in Hn; cbn in Hn; lia). assert (NE' : las' <> []) by (intros E; rewrite E in Hn'; unfold zlen in Hn'; cbn in Hn'; lia).
        destruct (HM y (vk background y)) as [A1 A2]; [apply vk_ok; lia|exact Hv|]. destruct (HM' y (vk background y)) as [B1 B2]; [apply vk_ok; lia|exact Hv|].
        rewrite A1, B1, (A2 NE), (B2 NE'). auto. }
    destruct (valid_fin _ Hv) as [b Eb]. assert (Hb : znth background y = Ok (Fin b)) by (rewrite <- Eb; apply vk_ok; lia).
    assert (Hbv : znth bvariance y = Ok (vk bvariance y)) by (apply vk_ok; lia).
    destruct (has_bpoint G t blas blos bpts HB y Hy) as (p1 & pos & Hp).
    set (r' := fun k j => r (h k) (h j)). set (ratio' := fun k => ratio (h k)). set (d' := fun k => d (h k)). set (g' := fun k => g y (h k)).
    assert (KC : known_cell pts bg p1 (g y)) by (apply KB; [exact Hy|apply Hp]).
    assert (PB : forall k pk, points_get pts' k = Ok pk -> 0 <= k < zlen las).
    { intros k pk Hk. destruct (get_lat _ _ _ _ _ _ _ HP' Hk) as (la & lo & A1 & _). apply znth_range in A1. lia. }
    assert (PQ : forall k pk, points_get pts' k = Ok pk -> points_get pts (h k) = Ok pk).
    { intros k pk Hk. pose proof (PB k pk Hk) as Rk. destruct (F2 k Rk) as [R1 R2]. rewrite <- (F3 (h k) R1), R2. exact Hk. }
    assert (KO' : known_obs pts' (zlen las') rho ov' bvp' r' ratio').
    { destruct KO as [K1 K2]. split.
      - intros k j pk pj Hk Hj. apply K1; apply PQ; assumption.
      - intros k Hk. rewrite LN in Hk. destruct (F2 k Hk) as [R1 R2]. destruct (K2 (h k) R1) as (vo & vb & A1 & A2 & A3 & A4). exists vo, vb.
        rewrite <- (Fv (h k) R1), R2 in A1. rewrite <- (Fw (h k) R1), R2 in A2. auto. }
    assert (KC' : known_cell pts' bg p1 g') by (intros k pk Hk; apply KC; apply PQ; exact Hk).
    assert (KD' : departures pobs' pbg' d').
    { intros k o b' Ho Hb'. assert (Rk : 0 <= k < zlen las). { apply znth_range in Hb'. lia. } destruct (F2 k Rk) as [R1 R2]. unfold d'. apply KD.
      - rewrite <- (Fo (h k) R1), R2. exact Ho. - rewrite <- (Fb (h k) R1), R2. exact Hb'. }
    destruct (full_analysis G L S t blas blos las los bpts pts background bvariance pobs ov pbg bvp 0 av0 ex loc rho bg HG HLib HS HB HP LG
      out var y b (vk bvariance y) p1 pos r ratio (g y) d Hn H Hb Hbv Hp KO KC KD) as (U & o & w & (ND & Sub & _ & All & _) & Eo & Ew & [A1 A2] & A3).
    destruct (full_analysis G L S t blas blos las' los' bpts pts' background bvariance pobs' ov' pbg' bvp' 0 av0 ex loc rho bg HG HLib HS HB HP' LG'
      out' var' y b (vk bvariance y) p1 pos r' ratio' g' d' Hn' H' Hb Hbv Hp KO' KC' KD') as (U' & o' & w' & (ND' & Sub' & _ & All' & _) & Eo' & Ew' & [B1 B2] & B3).
    rewrite Eo, Ew, Eo', Ew'.
    assert (RU : forall k, In k U -> 0 <= k < zlen las) by (intros k Hk; eapply usable_range; apply Sub; exact Hk).
    assert (hf : forall k, In k U -> h (f k) = k) by (intros k Hk; apply F1; apply RU; exact Hk).
    assert (PU : Permutation U' (map f U)).
    { apply NoDup_Permutation; [exact ND'| |].
      - apply NoDup_nth_error. intros i j Hi E. rewrite !nth_error_map in E. rewrite map_length in Hi.
        destruct (nth_error U i) as [a|] eqn:Ea; [|apply nth_error_None in Ea; lia]. destruct (nth_error U j) as [c|] eqn:Ec; [|discriminate].
        cbn in E. injection E as E. assert (a = c). { rewrite <- (hf a), <- (hf c), E by (eapply nth_error_In; eauto). reflexivity. } subst c.
        apply (proj1 (NoDup_nth_error U) ND); [exact Hi|congruence].
      - intros k. split.
        + intros Hk. pose proof (Sub' k Hk) as Us. pose proof (usable_range' _ _ _ Us) as Rk. destruct (F2 k Rk) as [R1 R2].
          apply in_map_iff. exists (h k). split; [exact R2|]. apply All; [left; reflexivity|]. apply usable_perm; [exact R1|]. rewrite R2. exact Us.
        + intros Hk. apply in_map_iff in Hk as (k0 & <- & Hk0). apply All'; [left; reflexivity|]. apply usable_perm; [apply RU; exact Hk0|]. apply Sub. exact Hk0. }
    assert (TT : forall F, tot U' F = tot U (fun k => F (f k))) by (intros F; rewrite (tot_perm _ _ _ PU); apply tot_map).
    assert (C : U = [] \/ U <> []) by (destruct U; [left; reflexivity|right; discriminate]). destruct C as [E|NU].
    { assert (E' : U' = []) by (rewrite E in PU; apply Permutation_nil; symmetry; exact PU).
      destruct (A1 E) as [-> ->]. destruct (B1 E') as [-> ->]. auto. }
    assert (NU' : U' <> []). { intros E'. apply NU. rewrite E' in PU. apply Permutation_nil in PU. destruct U; [reflexivity|discriminate]. }
    assert (WT : forall v, weights U' r' ratio' g' v -> weights U r ratio (g y) (fun k => v (f k))).
    { intros v W j Hj. assert (Ij : In (f j) U'). { apply (Permutation_in _ (Permutation_sym PU)). apply in_map. exact Hj. }
      specialize (W (f j) Ij). rewrite TT in W. unfold r', ratio', g' in W. rewrite (hf j Hj) in W. rewrite <- W. apply tot_ext. intros k Hk. rewrite (hf k Hk).
      f_equal. f_equal. destruct (Z.eqb_spec k j) as [-> |N]; [rewrite Z.eqb_refl; reflexivity|]. destruct (Z.eqb_spec (f k) (f j)) as [E|_]; [|reflexivity].
      exfalso. apply N. rewrite <- (hf k Hk), <- (hf j Hj), E. reflexivity. }
    destruct (A2 NU) as (ws & W & Un & AE & _ & AV). destruct (B2 NU') as (ws' & W' & Un' & BE & _ & BV).
    assert (DT : forall v, weights U' r' ratio' g' v -> tot U' (fun k => v k * d' k)%Qc = tot U (fun k => ws k * d k)%Qc).
    { intros v Wv. rewrite TT. apply tot_ext. intros k Hk. unfold d'. rewrite (hf k Hk). f_equal. apply (Un _ (WT v Wv) k Hk). }
    split.
    - f_equal. destruct ex; [rewrite AE, BE by reflexivity; rewrite (DT ws' W'); reflexivity|].
      destruct (A3 eq_refl NU) as (v & lo & hi & z & Wv & Hlo & Hhi & El & ->). destruct (B3 eq_refl NU') as (v' & lo' & hi' & z' & Wv' & Hlo' & Hhi' & El' & ->).
      rewrite (DT v' Wv') in El'. rewrite (tot_ext _ _ (fun k => ws k * d k)%Qc) in El by (intros k Hk; rewrite (Un _ Wv k Hk); reflexivity).
      assert (TR : forall k, In k U -> In (f k) U' /\ d' (f k) = d k).
      { intros k Hk. split; [apply (Permutation_in _ (Permutation_sym PU)); apply in_map; exact Hk|]. unfold d'. rewrite (hf k Hk). reflexivity. }
      assert (TL : forall k, In k U' -> exists k0, In k0 U /\ d k0 = d' k).
      { intros k Hk. apply (Permutation_in _ PU) in Hk. apply in_map_iff in Hk as (k0 & <- & Hk0). exists k0. split; [exact Hk0|]. unfold d'. rewrite (hf k0 Hk0). reflexivity. }
      assert (lo' = lo).
      { destruct Hlo as [(k & Hk & <-) Hl], Hlo' as [(k' & Hk' & <-) Hl']. destruct (TR k Hk) as [I1 I2]. destruct (TL k' Hk') as (k0 & I3 & I4).
        apply Qcle_antisym; [rewrite <- I2; apply Hl'; exact I1|rewrite <- I4; apply Hl; exact I3]. }
      assert (hi' = hi).
      { destruct Hhi as [(k & Hk & <-) Hl], Hhi' as [(k' & Hk' & <-) Hl']. destruct (TR k Hk) as [I1 I2]. destruct (TL k' Hk') as (k0 & I3 & I4).
        apply Qcle_antisym; [rewrite <- I4; apply Hl; exact I3|rewrite <- I2; apply Hl'; exact I1]. }
      subst. rewrite El in El'. injection El' as <-. reflexivity.
    - f_equal. rewrite AV, BV. do 2 f_equal. f_equal. rewrite TT. apply tot_ext. intros k Hk. unfold g'. rewrite (hf k Hk). f_equal. apply (Un _ (WT ws' W') k Hk). }
  split; apply znth_ext; try lia; intros i Hi; apply CELL; lia.
Qed.
End Perm.
