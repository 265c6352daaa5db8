(** C62, C82 and C83: the Points and Grid versions of optimal interpolation. *)
From Coq Require Import Permutation.
From Verif Require Import Base QcTac ListLib M_Geo S_Geo S_Near M_OI S_OI P_Geo P_Neighbours P_Grid P_Points P_OISum P_OI P_OICell P_OISolve P_OIAll P_OIProps P_OITotal.
Local Open Scope Z_scope.

Lemma grid_points G t Y X lats lons g : is_grid G t Y X lats lons g ->
  exists P, to_points g = Ok P /\ at_locations G t (concat lats) (concat lons) P /\ grid_type g = t /\ grid_size g = Ok (Y, X) /\ 0 < Y /\ 0 < X /\
    zlen (concat lats) = Y * X /\
    (forall y x p, 0 <= y < Y -> 0 <= x < X -> grid_get g y x = Ok p -> points_get P (y * X + x) = Ok p).
Proof.
  intros H. destruct (c35_all _ _ _ _ _ _ _ H) as (HS & _ & _ & P & HP & SP & TP & HG).
  pose proof (is_grid_pos _ _ _ _ _ _ _ H) as [HY HX]. destruct (is_grid_rect _ _ _ _ _ _ _ H) as [R1 R2].
  pose proof (grid_inv _ _ _ _ _ _ _ H) as (E1 & E2 & EX & HT & Re & Rf).
  pose proof (mk_tree_inv _ _ _ _ _ HT) as (T1 & T2 & T3 & T4 & T5).
  exists P. split; [exact HP|]. split; [|split; [|split; [exact HS|]]].
  - unfold to_points in HP. rewrite HS in HP. cbn [bind] in HP. rewrite !(tab2_get2 Y X) in HP by (assumption || lia). cbn [bind] in HP. injection HP as <-.
    unfold at_locations. cbn [points_of_tree s_lats s_lons s_elevs s_lafs s_tree].
    rewrite !(zlen_concat Y X) by assumption. auto 10.
  - unfold grid_type. exact T3.
  - split; [exact HY|]. split; [exact HX|]. split; [apply zlen_concat; exact R1|]. intros y x p Hy Hx Hp.
    destruct (HG (y * X + x) y x) as (p' & H1 & H2 & _); [nia|rewrite (get_indices_ok _ _ _ _ _ _ _ _ H) by nia; rewrite lin_div, lin_mod by lia; reflexivity|]. congruence.
Qed.
Lemma znth_init1 {A} n (v : A) k : 0 <= k < n -> znth (init1 n v) k = Ok v.
Proof. intros H. unfold init1. rewrite znth_map, znth_zrange by lia. reflexivity. Qed.
Lemma flat_ok Y X f : 0 <= Y -> 0 <= X -> rect Y X f -> flat Y X f = Ok (concat f).
Proof. intros HY HX H. unfold flat. rewrite (tab2_get2 Y X) by assumption. reflexivity. Qed.
Lemma unflat_ok Y X l : 0 <= Y -> 0 <= X -> zlen l = Y * X -> exists out, unflat Y X l = Ok out /\ rect Y X out /\
  forall y x, 0 <= y < Y -> 0 <= x < X -> get2 out y x = znth l (y * X + x).
Proof.
  intros HY HX H. destruct (tab2_total Y X (fun y x => znth l (y * X + x)) (fun y x v => znth l (y * X + x) = Ok v) HY HX) as (out & E & R & HE).
  - intros y x Hy Hx. destruct (znth_some l (y * X + x)) as [v Hv]; [nia|]. eauto.
  - exists out. split; [exact E|]. split; [exact R|]. intros y x Hy Hx. destruct (HE y x Hy Hx) as (v & H1 & H2 & _). congruence.
Qed.
Lemma fits_ok g Y X f : grid_size g = Ok (Y, X) -> 0 < Y -> rect Y X f -> fits g f = Ok true.
Proof.
  intros H HY [R1 R2]. unfold fits. rewrite H. cbn [bind]. rewrite R1, Z.eqb_refl. cbn [negb]. destruct (znth_some f 0 ltac:(lia)) as [r0 Hr]. rewrite Hr. cbn [bind].
  rewrite (R2 r0) by (eapply znth_In; eauto). rewrite Z.eqb_refl. reflexivity.
Qed.
Lemma row0 Y X (f : vec2) : 0 < Y -> rect Y X f -> exists r0, znth f 0 = Ok r0 /\ zlen r0 = X.
Proof. intros HY [R1 R2]. destruct (znth_some f 0 ltac:(lia)) as [r0 Hr]. exists r0. split; [exact Hr|]. apply R2. eapply znth_In; eauto. Qed.
Lemma znth_lin Y X (f : vec2) y x : rect Y X f -> 0 <= y -> 0 <= x < X -> znth (concat f) (y * X + x) = get2 f y x.
Proof. intros R Hy Hx. rewrite (znth_concat Y X) by (assumption || nia). rewrite lin_div, lin_mod by lia. reflexivity. Qed.
Lemma get2_rng Y X (f : vec2) y x v : rect Y X f -> get2 f y x = Ok v -> 0 <= y < Y /\ 0 <= x < X.
Proof. apply get2_range. Qed.
Lemma full_not_ub_mp G L S bpts b v pts o ov pbg bvp mp av ex r : oi_full G L S bpts b v pts o ov pbg bvp mp av ex = Ok r -> 0 <= mp.
Proof. unfold oi_full. destruct (Z.ltb_spec mp 0); [discriminate|lia]. Qed.

Section Pts.
Variables (G : geo) (L : lib) (S : sfn) (t : ctype) (blas blos : list Qc) (bpts : points) (las los : list Qc) (pts : points)
  (loc : point -> val) (rho bg : point -> point -> val) (background pobs pratios pbg : vec) (mp : Z) (ex : bool).
Hypothesis HSet : setting G L S t blas blos bpts las los pts loc rho bg.
Hypothesis LG : zlen pbg = zlen las.
Lemma points_full out : oi_points G L S bpts background pts pobs pratios pbg mp ex = Ok out ->
  exists var, oi_full G L S bpts background (init1 (zlen background) (fz 1)) pts pobs pratios pbg (init1 (zlen pratios) (fz 1)) mp [] ex = Ok (out, var) /\
    zlen pratios = zlen las /\ zlen background = zlen blas.
Proof.
  unfold oi_points. intros H. destruct (mp <? 0); [discriminate|]. destruct (negb _) in H; [discriminate|].
  rewrite (at_size _ _ _ _ _ (set_bpts _ _ _ _ _ _ _ _ _ _ _ _ _ HSet)), (at_size _ _ _ _ _ (set_pts _ _ _ _ _ _ _ _ _ _ _ _ _ HSet)) in H.
  destruct (zlen background =? zlen blas) eqn:E1; [|discriminate]. destruct (zlen pobs =? zlen las); [|discriminate]. destruct (zlen pratios =? zlen las) eqn:E2; [|discriminate].
  cbn [negb] in H. apply bind_Ok in H as ([o var] & HF & H). injection H as <-. exists var. split; [exact HF|]. lia.
Qed.
Lemma ones_known r ratio : zlen pratios = zlen las -> known_ratios pts (zlen las) rho pratios r ratio ->
  known_obs pts (zlen las) rho pratios (init1 (zlen pratios) (fz 1)) r ratio.
Proof.
  intros E [K1 K2]. split; [exact K1|]. intros k Hk. exists (ratio k), 1%Qc. split; [apply K2; exact Hk|]. split; [rewrite znth_init1 by lia; reflexivity|].
  split; [discriminate|]. field. discriminate.
Qed.
Lemma c82_points : forall out r ratio d, oi_points G L S bpts background pts pobs pratios pbg mp ex = Ok out ->
  known_ratios pts (zlen las) rho pratios r ratio -> departures pobs pbg d ->
  zlen out = zlen background /\
  forall y b p1 pos g, znth background y = Ok (Fin b) -> bpoint G t blas blos bpts y p1 pos -> known_cell pts bg p1 g ->
  exists U o w, chosen G t las los pts pobs pbg loc bg mp p1 pos U /\ znth out y = Ok o /\ analysis U r ratio g d ex b (Fin 1) o w.
Proof.
  intros out r ratio d H KR KD. destruct (points_full out H) as (var & HF & E1 & E2).
  pose proof (c57_all G L S t blas blos bpts las los pts loc rho bg background (init1 (zlen background) (fz 1)) pobs pratios pbg (init1 (zlen pratios) (fz 1)) mp [] ex HSet LG) as [C57 _].
  split; [apply (C57 _ _ HF)|]. intros y b p1 pos g Hb Hp KC. pose proof (znth_range _ _ _ Hb) as Ry.
  destruct (c59_all G L S t blas blos bpts las los pts loc rho bg background (init1 (zlen background) (fz 1)) pobs pratios pbg (init1 (zlen pratios) (fz 1)) mp [] ex HSet LG r ratio d
     (ones_known r ratio E1 KR) KD out var y b (Fin 1) p1 pos g HF Hb) as (U & o & HU & Eo & HA); auto.
  { rewrite znth_init1 by lia. reflexivity. }
  assert (C : las = [] \/ las <> []) by (destruct las; [left; reflexivity|right; discriminate]). destruct C as [E|NE].
  - exists U, o, (Fin 1). split; [exact HU|]. split; [exact Eo|]. assert (EU : U = []).
    { destruct U as [|k U]; [reflexivity|]. exfalso. destruct HU as (_ & Sub & _). destruct (Sub k (or_introl eq_refl)) as (q & pk & o' & b' & Hq & _).
      apply point_at_range in Hq. rewrite E in Hq. unfold zlen in Hq. cbn in Hq. lia. }
    split; [|congruence]. intros _. split; [|reflexivity]. destruct (C57 _ _ HF) as (_ & HE & _). rewrite (HE E) in Eo. congruence.
  - destruct (HA NE) as (w & _ & A). exists U, o, w. auto.
Qed.
End Pts.

Section Grd.
Variables (G : geo) (L : lib) (S : sfn) (t : ctype) (Y X : Z) (lats lons : list (list Qc)) (g : grid) (las los : list Qc) (pts : points)
  (loc : point -> val) (rho bg : point -> point -> val) (background bvariance : vec2) (pobs ov pbg bvp pratios : vec) (mp : Z) (ex : bool).
Hypothesis HSet : gsetting G L S t Y X lats lons g las los pts loc rho bg.
Lemma g_setting : exists P, to_points g = Ok P /\ setting G L S t (concat lats) (concat lons) P las los pts loc rho bg /\ grid_type g = t /\ points_type pts = t /\ points_size pts = zlen las /\
  grid_size g = Ok (Y, X) /\ 0 < Y /\ 0 < X /\ zlen (concat lats) = Y * X /\
  (forall y x p, 0 <= y < Y -> 0 <= x < X -> grid_get g y x = Ok p -> points_get P (y * X + x) = Ok p).
Proof.
  destruct HSet as [H1 H2 H3 H4 H5]. destruct (grid_points _ _ _ _ _ _ _ H4) as (P & E1 & E2 & E3 & E4 & E5 & E6 & E7 & E8). exists P.
  split; [exact E1|]. split; [constructor; assumption|]. split; [exact E3|]. split; [eapply at_type; eauto|]. split; [eapply at_size; eauto|]. auto.
Qed.
Lemma grid_bpoint P y x p1 pos : (forall y x p, 0 <= y < Y -> 0 <= x < X -> grid_get g y x = Ok p -> points_get P (y * X + x) = Ok p) ->
  grid_get g y x = Ok p1 -> grid_at G t lats lons y x pos -> 0 <= y < Y /\ 0 <= x < X /\ bpoint G t (concat lats) (concat lons) P (y * X + x) p1 pos.
Proof.
  intros HH Hp Hq. apply (grid_at_lin _ _ _ _ _ _ _ _ _ _ (gset_grid _ _ _ _ _ _ _ _ _ _ _ _ _ _ _ HSet)) in Hq as (Hy & Hx & Hq).
  split; [exact Hy|]. split; [exact Hx|]. split; [apply HH; assumption|exact Hq].
Qed.
(** the grid versions are the Points versions on the flattened fields *)
Lemma oi_grid_eq P : rect Y X background -> to_points g = Ok P -> zlen pbg = zlen las ->
  oi_grid G L S g background pts pobs pratios pbg mp ex = (o1 <- oi_points G L S P (concat background) pts pobs pratios pbg mp ex ;; unflat Y X o1).
Proof.
  intros RB EP LG. destruct g_setting as (P' & E1 & ES & E2 & E3 & E4 & E5 & HY & HX & E6 & _). rewrite EP in E1. injection E1 as <-.
  destruct (row0 Y X background HY RB) as (r0 & Hr0 & Lr0).
  unfold oi_grid, oi_points. rewrite (at_size _ _ _ _ _ (set_bpts _ _ _ _ _ _ _ _ _ _ _ _ _ ES)), (at_type _ _ _ _ _ (set_bpts _ _ _ _ _ _ _ _ _ _ _ _ _ ES)).
  rewrite E2, E3, E4. destruct (mp <? 0) eqn:Em; [reflexivity|]. destruct (negb _) eqn:Et; [reflexivity|].
  rewrite (fits_ok g Y X) by assumption. cbn [bind negb]. rewrite E6, (zlen_concat Y X) by assumption. rewrite Z.eqb_refl. cbn [negb].
  destruct (zlen pobs =? zlen las) eqn:Eo; cbn [negb]; [|reflexivity]. destruct (zlen pratios =? zlen las) eqn:Er; cbn [negb]; [|reflexivity].
  rewrite LG, Z.eqb_refl. cbn [negb]. rewrite Hr0. cbn [bind]. rewrite EP. cbn [bind]. rewrite (proj1 RB), Lr0. rewrite flat_ok by (assumption || lia). cbn [bind].
  rewrite (at_size _ _ _ _ _ (set_bpts _ _ _ _ _ _ _ _ _ _ _ _ _ ES)), (at_type _ _ _ _ _ (set_bpts _ _ _ _ _ _ _ _ _ _ _ _ _ ES)).
  rewrite E6, (zlen_concat Y X) by assumption. rewrite Z.eqb_refl. cbn [negb]. rewrite ?Et. reflexivity.
Qed.
Lemma oi_full_grid_eq P : rect Y X background -> rect Y X bvariance -> to_points g = Ok P -> zlen pbg = zlen las -> zlen bvp = zlen las ->
  oi_full_grid G L S g background bvariance pts pobs ov pbg bvp mp ex =
  ('(o1, a1) <- oi_full G L S P (concat background) (concat bvariance) pts pobs ov pbg bvp mp [] ex ;;
   out <- unflat Y X o1 ;; av <- unflat Y X a1 ;; Ok (out, av)).
Proof.
  intros RB RV EP LG LV. destruct g_setting as (P' & E1 & ES & E2 & E3 & E4 & E5 & HY & HX & E6 & _). rewrite EP in E1. injection E1 as <-.
  destruct (row0 Y X background HY RB) as (r0 & Hr0 & Lr0).
  unfold oi_full_grid, oi_full. rewrite (at_size _ _ _ _ _ (set_bpts _ _ _ _ _ _ _ _ _ _ _ _ _ ES)), (at_type _ _ _ _ _ (set_bpts _ _ _ _ _ _ _ _ _ _ _ _ _ ES)).
  rewrite E2, E3, E4. destruct (mp <? 0) eqn:Em; [reflexivity|]. destruct (negb _) eqn:Et; [reflexivity|].
  rewrite (fits_ok g Y X) by assumption. cbn [bind negb]. rewrite E6, !(zlen_concat Y X) by assumption. rewrite !Z.eqb_refl. cbn [negb].
  destruct (zlen pobs =? zlen las) eqn:Eo; cbn [negb]; [|reflexivity]. destruct (zlen ov =? zlen las) eqn:Er; cbn [negb]; [|reflexivity].
  rewrite LG, Z.eqb_refl. cbn [negb]. rewrite Hr0. cbn [bind]. rewrite EP. cbn [bind]. rewrite (proj1 RB), Lr0. rewrite !flat_ok by (assumption || lia). cbn [bind].
  rewrite (at_size _ _ _ _ _ (set_bpts _ _ _ _ _ _ _ _ _ _ _ _ _ ES)), (at_type _ _ _ _ _ (set_bpts _ _ _ _ _ _ _ _ _ _ _ _ _ ES)).
  rewrite E6, !(zlen_concat Y X) by assumption. rewrite !Z.eqb_refl. cbn [negb]. rewrite ?Et. reflexivity.
Qed.
Lemma c82_grid : forall out r ratio d, oi_grid G L S g background pts pobs pratios pbg mp ex = Ok out -> rect Y X background -> zlen pbg = zlen las ->
  known_ratios pts (zlen las) rho pratios r ratio -> departures pobs pbg d ->
  rect Y X out /\
  (exists P o, to_points g = Ok P /\ oi_points G L S P (concat background) pts pobs pratios pbg mp ex = Ok o /\ concat out = o) /\
  forall y x b p1 pos c, get2 background y x = Ok (Fin b) -> grid_get g y x = Ok p1 -> grid_at G t lats lons y x pos -> known_cell pts bg p1 c ->
  exists U o w, chosen G t las los pts pobs pbg loc bg mp p1 pos U /\ get2 out y x = Ok o /\ analysis U r ratio c d ex b (Fin 1) o w.
Proof.
  intros out r ratio d H RB LG KR KD. destruct g_setting as (P & E1 & ES & _ & _ & _ & _ & HY & HX & E6 & HP).
  rewrite (oi_grid_eq P RB E1 LG) in H. apply bind_Ok in H as (o1 & Ho1 & Hu).
  destruct (c82_points G L S t _ _ P las los pts loc rho bg (concat background) pobs pratios pbg mp ex ES LG o1 r ratio d Ho1 KR KD) as [Lo HC].
  rewrite (zlen_concat Y X) in Lo by exact RB. destruct (unflat_ok Y X o1) as (out' & Eu & Ru & Gu); try lia. rewrite Hu in Eu. injection Eu as <-.
  split; [exact Ru|]. split.
  - exists P, o1. split; [exact E1|]. split; [exact Ho1|]. apply znth_ext; [rewrite (zlen_concat Y X); assumption || lia|].
    intros k Hk. rewrite (zlen_concat Y X) in Hk by exact Ru. rewrite (znth_concat Y X) by (assumption || lia).
    rewrite Gu by (first [apply Z.mod_pos_bound; lia | split; [apply Z.div_pos; lia|apply Z.div_lt_upper_bound; lia]]).
    f_equal. rewrite (Z.div_mod k X) at 3 by lia. lia.
  - intros y x b p1 pos c Hb Hg Hq KC. destruct (grid_bpoint P y x p1 pos HP Hg Hq) as (Hy & Hx & Hbp).
    destruct (HC (y * X + x) b p1 pos c) as (U & o & w & HU & Eo & A); auto.
    { rewrite (znth_lin Y X) by (assumption || lia). exact Hb. }
    exists U, o, w. rewrite Gu by assumption. auto.
Qed.
Lemma c82_full_grid : forall out av r ratio d, oi_full_grid G L S g background bvariance pts pobs ov pbg bvp mp ex = Ok (out, av) ->
  rect Y X background -> rect Y X bvariance -> zlen pbg = zlen las -> zlen bvp = zlen las -> las <> [] ->
  known_obs pts (zlen las) rho ov bvp r ratio -> departures pobs pbg d ->
  rect Y X out /\ rect Y X av /\
  (forall y x b, get2 background y x = Ok b -> is_valid b = false -> get2 out y x = Ok b /\ get2 av y x = get2 bvariance y x) /\
  forall y x b v p1 pos c, get2 background y x = Ok (Fin b) -> get2 bvariance y x = Ok v -> grid_get g y x = Ok p1 -> grid_at G t lats lons y x pos -> known_cell pts bg p1 c ->
  exists U o w, chosen G t las los pts pobs pbg loc bg mp p1 pos U /\ get2 out y x = Ok o /\ get2 av y x = Ok w /\ analysis U r ratio c d ex b v o w.
Proof.
  intros out av r ratio d H RB RV LG LV NE KR KD. destruct g_setting as (P & E1 & ES & _ & _ & _ & _ & HY & HX & E6 & HP).
  rewrite (oi_full_grid_eq P RB RV E1 LG LV) in H. apply bind_Ok in H as ([o1 a1] & Ho1 & Hu).
  pose proof (c59_all G L S t _ _ P las los pts loc rho bg (concat background) (concat bvariance) pobs ov pbg bvp mp [] ex ES LG r ratio d KR KD o1 a1) as HC.
  destruct (c57_all G L S t _ _ P las los pts loc rho bg (concat background) (concat bvariance) pobs ov pbg bvp mp [] ex ES LG) as [C57 _].
  destruct (C57 _ _ Ho1) as (Lo & _ & HM & _). rewrite (zlen_concat Y X) in Lo by exact RB.
  assert (Hn : 0 < zlen las). { destruct las; [congruence|]. rewrite zlen_cons. pose proof (zlen_nonneg l). lia. }
  destruct (full_cells G L S t _ _ las los P pts _ _ pobs ov pbg bvp mp [] ex (set_bpts _ _ _ _ _ _ _ _ _ _ _ _ _ ES) (set_pts _ _ _ _ _ _ _ _ _ _ _ _ _ ES) o1 a1 Hn Ho1) as (_ & La & _).
  rewrite E6 in La.
  destruct (unflat_ok Y X o1) as (out' & Eu & Ru & Gu); try lia. destruct (unflat_ok Y X a1) as (av' & Ea & Ra & Ga); try lia.
  rewrite Eu, Ea in Hu. cbn [bind] in Hu. injection Hu as <- <-.
  split; [exact Ru|]. split; [exact Ra|]. split.
  - intros y x b Hb Hv. destruct (get2_rng Y X _ _ _ _ RB Hb) as [Hy Hx]. rewrite Gu, Ga by assumption.
    destruct (HM (y * X + x) b) as [H1 H2]; [rewrite (znth_lin Y X) by (assumption || lia); exact Hb|exact Hv|]. split; [exact H1|]. rewrite (H2 NE). apply (znth_lin Y X); assumption || lia.
  - intros y x b v p1 pos c Hb Hv Hg Hq KC. destruct (grid_bpoint P y x p1 pos HP Hg Hq) as (Hy & Hx & Hbp).
    destruct (HC (y * X + x) b v p1 pos c) as (U & o & HU & Eo & A); auto.
    { rewrite (znth_lin Y X) by (assumption || lia). exact Hb. } { rewrite (znth_lin Y X) by (assumption || lia). exact Hv. }
    destruct (A NE) as (w & Ew & HA). exists U, o, w. rewrite Gu, Ga by assumption. auto.
Qed.
Lemma c62_partial : rect Y X background -> rect Y X bvariance -> 0 <= mp -> zlen pobs = zlen las -> zlen ov = zlen las -> zlen pbg = zlen las -> zlen bvp = zlen las -> las <> [] ->
  ((exists out av, oi_full_grid G L S g background bvariance pts pobs ov pbg bvp mp ex = Ok (out, av) /\ rect Y X out /\ rect Y X av) \/
   oi_full_grid G L S g background bvariance pts pobs ov pbg bvp mp ex = Abort) /\
  (forall r ratio, known_obs pts (zlen las) rho ov bvp r ratio ->
     (forall U c, NoDup U -> (forall k, In k U -> 0 <= k < zlen las) -> (0 <= tot U (fun k => tot U (fun j => c k * c j * r k j)))%Qc) ->
     (forall k, 0 <= k < zlen las -> (0 < ratio k)%Qc) ->
     exists out av, oi_full_grid G L S g background bvariance pts pobs ov pbg bvp mp ex = Ok (out, av) /\ rect Y X out /\ rect Y X av).
Proof.
  intros RB RV Hmp L1 L2 LG LV NE. destruct g_setting as (P & E1 & ES & _ & _ & _ & _ & HY & HX & E6 & HP).
  rewrite (oi_full_grid_eq P RB RV E1 LG LV).
  assert (Lb : zlen (concat background) = zlen (concat lats)) by (rewrite (zlen_concat Y X) by exact RB; lia).
  assert (Lv : zlen (concat bvariance) = zlen (concat lats)) by (rewrite (zlen_concat Y X) by exact RV; lia).
  assert (UF : forall o1 a1, zlen o1 = Y * X -> zlen a1 = Y * X -> exists out av, (out <- unflat Y X o1 ;; av <- unflat Y X a1 ;; Ok (out, av)) = Ok (out, av) /\ rect Y X out /\ rect Y X av).
  { intros o1 a1 Lo La. destruct (unflat_ok Y X o1) as (out' & Eu & Ru & Gu); try lia. destruct (unflat_ok Y X a1) as (av' & Ea & Ra & Ga); try lia.
    exists out', av'. rewrite Eu, Ea. auto. }
  split.
  - destruct (full_total G L S t _ _ P las los pts loc rho bg (concat background) (concat bvariance) pobs ov pbg bvp mp [] ex ES LG Hmp Lb Lv L1 L2 LV) as [(o1 & a1 & EF & Lo & La)|[EF _]]; rewrite EF.
    + left. cbn [bind]. apply UF; [lia|rewrite La by exact NE; lia].
    + right. reflexivity.
  - intros r ratio KO PS HR. destruct (c84_all G L S t _ _ P las los pts loc rho bg (concat background) (concat bvariance) pobs ov pbg bvp mp [] ex ES LG Hmp Lb Lv L1 L2 LV r ratio KO PS HR) as (o1 & a1 & EF & Lo & La).
    rewrite EF. cbn [bind]. apply UF; [lia|rewrite La by exact NE; lia].
Qed.
End Grd.

(** mismatching arguments *)
Lemma c83_partial : forall G L S bpts background bvariance pts pobs ov pbg bvp mp av0 ex,
  (mp < 0 \/ points_type bpts <> points_type pts \/ zlen background <> points_size bpts \/ zlen bvariance <> zlen background \/
   zlen pobs <> points_size pts \/ zlen ov <> points_size pts \/ zlen bvp <> points_size pts ->
   oi_full G L S bpts background bvariance pts pobs ov pbg bvp mp av0 ex = Throw InvalidArgument) /\
  (mp < 0 \/ points_type bpts <> points_type pts \/ zlen background <> points_size bpts \/
   zlen pobs <> points_size pts \/ zlen ov <> points_size pts ->
   oi_points G L S bpts background pts pobs ov pbg mp ex = Throw InvalidArgument).
Proof.
  intros. assert (TE : (match points_type bpts, points_type pts with Geodetic, Geodetic => true | Cartesian, Cartesian => true | _, _ => false end) = true -> points_type bpts = points_type pts)
    by (destruct (points_type bpts), (points_type pts); congruence).
  split; intros H; [unfold oi_full|unfold oi_points]; destruct (Z.ltb_spec mp 0); try reflexivity;
  destruct (match points_type bpts, points_type pts with Geodetic, Geodetic => true | Cartesian, Cartesian => true | _, _ => false end) eqn:ET; cbn [negb]; try reflexivity; specialize (TE eq_refl);
  destruct (Z.eqb_spec (zlen background) (points_size bpts)); cbn [negb]; try reflexivity.
  - destruct (Z.eqb_spec (zlen background) (zlen bvariance)); cbn [negb]; try reflexivity. destruct (Z.eqb_spec (zlen pobs) (points_size pts)); cbn [negb]; try reflexivity.
    destruct (Z.eqb_spec (zlen ov) (points_size pts)); cbn [negb]; try reflexivity. destruct (Z.eqb_spec (zlen bvp) (points_size pts)); cbn [negb]; try reflexivity.
    exfalso. intuition lia.
  - destruct (Z.eqb_spec (zlen pobs) (points_size pts)); cbn [negb]; try reflexivity.
    destruct (Z.eqb_spec (zlen ov) (points_size pts)); cbn [negb]; try reflexivity. exfalso. intuition lia.
Qed.
Lemma c83_grid : forall G L S t Y X lats lons g background bvariance pts pobs ov pbg bvp mp ex, is_grid G t Y X lats lons g -> background <> [] ->
  (mp < 0 \/ t <> points_type pts \/ zlen background <> Y \/ (exists r, znth background 0 = Ok r /\ zlen r <> X) \/
   zlen pobs <> points_size pts \/ zlen ov <> points_size pts \/ zlen pbg <> points_size pts ->
   oi_full_grid G L S g background bvariance pts pobs ov pbg bvp mp ex = Throw InvalidArgument /\
   oi_grid G L S g background pts pobs ov pbg mp ex = Throw InvalidArgument).
Proof.
  intros G L S t Y X lats lons g background bvariance pts pobs ov pbg bvp mp ex HG NB H.
  destruct (grid_points _ _ _ _ _ _ _ HG) as (P & _ & _ & E3 & E4 & E5 & E6 & _). unfold oi_full_grid, oi_grid. rewrite E3.
  destruct (Z.ltb_spec mp 0); [split; reflexivity|].
  assert (TE : (match t, points_type pts with Geodetic, Geodetic => true | Cartesian, Cartesian => true | _, _ => false end) = true -> t = points_type pts)
    by (destruct t, (points_type pts); congruence).
  destruct (match t, points_type pts with Geodetic, Geodetic => true | Cartesian, Cartesian => true | _, _ => false end); [|split; reflexivity]. specialize (TE eq_refl). cbn [negb].
  unfold fits. rewrite E4. cbn [bind]. destruct (Z.eqb_spec (zlen background) Y); cbn [negb bind]; [|split; reflexivity].
  destruct background as [|r0 br]; [congruence|]. rewrite znth_cons0. rewrite znth_cons0 in H. cbn [bind]. destruct (Z.eqb_spec (zlen r0) X); cbn [negb]; [|split; reflexivity].
  destruct (Z.eqb_spec (zlen pobs) (points_size pts)); cbn [negb]; [|split; reflexivity]. destruct (Z.eqb_spec (zlen ov) (points_size pts)); cbn [negb]; [|split; reflexivity].
  destruct (Z.eqb_spec (zlen pbg) (points_size pts)); cbn [negb]; [|split; reflexivity]. exfalso.
  destruct H as [H|[H|[H|[(r & Hr & H)|[H|[H|H]]]]]]; try lia; try congruence.
Qed.
