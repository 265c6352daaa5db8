(** Proofs about the client's gradient downscaler. *)
From Coq Require Import Permutation Sorted.
From Verif Require Import Base ListLib QcTac M_Stat S_Stat S_Search P_Stat M_COpt M_CUtil S_CUtil P_CUtil M_CCal S_CCal P_CCal M_CCal2 S_CCal2 P_CCal2 M_CTree S_CTree P_CTree M_CDown S_CDown P_CDown M_CGradient S_CGradient.
Local Open Scope Z_scope.

Lemma cvalid_quantity v : cvalid v = if quantity v then true else false.
Proof. destruct (quantity v) as [q|] eqn:E.
  - destruct v; cbn in E; try discriminate. destruct (Qc_eq_dec q0 missing_number); [discriminate|]. apply cvalid_true. eauto.
  - apply cvalid_missing. destruct v; cbn in *; auto. destruct (Qc_eq_dec q missing_number); [auto|discriminate].
Qed.
Lemma quantity_Some v q : quantity v = Some q <-> v = Fin q /\ q <> missing_number.
Proof. destruct v; cbn; try (split; [discriminate|intros [[=] _]]). destruct (Qc_eq_dec q0 missing_number); split; try discriminate; [intros [[= <-] n]; contradiction|intros [= ->]; auto|intros [[= ->] _]; reflexivity]. Qed.
Lemma quantity_None v : quantity v = None <-> missing v.
Proof. destruct v; cbn; try tauto. destruct (Qc_eq_dec q missing_number); split; auto; [discriminate|contradiction]. Qed.
Lemma quantity_Fin q : q <> missing_number -> quantity (Fin q) = Some q.
Proof. intros H. apply quantity_Some. auto. Qed.
Lemma square_close ny nx r a b p : In p (square ny nx r a b) <-> close ny nx r a b p.
Proof. apply window_points. Qed.
Lemma square_neighbours ny nx r a b : neighbours ny nx r a b (square ny nx r a b).
Proof. split; [apply NoDup_window; apply NoDup_zrange|]. intros p. apply square_close. Qed.
Lemma at2_get ny nx g p r a b : rect ny nx g -> In p (square ny nx r a b) -> get2 g (fst p) (snd p) = Ok (at2 g p).
Proof. intros R H. apply square_close in H as (H1 & H2 & _). destruct (rect_get2 _ _ g (fst p) (snd p) R H1 H2) as [v Hv]. unfold at2. rewrite Hv. reflexivity. Qed.
Lemma atf_get d f e p r a b : of_size d f -> 0 <= e < d_e d -> In p (square (d_y d) (d_x d) r a b) -> f_get f (fst p) (snd p) e = Ok (atf f e p).
Proof. intros R He H. apply square_close in H as (H1 & H2 & _). destruct (of_size_get d f (fst p) (snd p) e R) as [v Hv]; [repeat split; lia|]. unfold atf. rewrite Hv. reflexivity. Qed.

(** the elevation gradient *)
Definition esums_of (s : esums) (l : list (Qc * Qc)) : Prop :=
  es_xy s = Fin (s_of l) /\ es_x s = Fin (s_f l) /\ es_y s = Fin (s_o l) /\ es_xx s = Fin (s_ff l) /\ es_n s = zlen l /\ Forall (fun p => snd p <> missing_number) l /\
  (l = [] -> es_min s = CMV /\ es_max s = CMV) /\ (l <> [] -> exists a b, es_min s = Fin a /\ es_max s = Fin b /\ is_min (map snd l) a /\ is_max (map snd l) b).
Lemma esums_step s l y x : esums_of s l -> x <> missing_number ->
  esums_of {| es_xy := vadd (es_xy s) (vmul (Fin x) (Fin y)); es_x := vadd (es_x s) (Fin x); es_y := vadd (es_y s) (Fin y); es_xx := vadd (es_xx s) (vmul (Fin x) (Fin x)); es_n := es_n s + 1;
          es_min := if negb (cvalid (es_min s)) || vltb (Fin x) (es_min s) then Fin x else es_min s;
          es_max := if negb (cvalid (es_max s)) || vltb (es_max s) (Fin x) then Fin x else es_max s |} (l ++ [(y, x)]).
Proof.
  intros (H1 & H2 & H3 & H4 & H5 & H6 & H7 & H8) Hx. destruct (sums_app l [(y, x)]) as (A1 & A2 & A3 & A4). unfold esums_of; cbn [es_xy es_x es_y es_xx es_n es_min es_max]. rewrite H1, H2, H3, H4, H5.
  split; [cbn [vadd vmul]; f_equal; unfold s_of; rewrite map_app, qsum_app; cbn; ring|].
  split; [cbn [vadd vmul]; f_equal; unfold s_f; rewrite map_app, qsum_app; cbn; ring|].
  split; [cbn [vadd vmul]; f_equal; unfold s_o; rewrite map_app, qsum_app; cbn; ring|].
  split; [cbn [vadd vmul]; f_equal; unfold s_ff; rewrite map_app, qsum_app; cbn; ring|].
  split; [rewrite zlen_app; reflexivity|]. split; [apply Forall_app; auto|]. split; [destruct l; discriminate|]. intros _. rewrite map_app. cbn [map snd].
  destruct l as [|p0 l0].
  - destruct H7 as [-> ->]; auto. cbn. exists x, x. split; [reflexivity|]. split; [reflexivity|]. split; (split; [left; auto|intros z [<-|[]]; apply Qcle_refl]).
  - destruct H8 as (a & b & E1 & E2 & [I1 M1] & [I2 M2]); [discriminate|]. set (l := p0 :: l0) in *. rewrite E1, E2.
    assert (V : forall q, In q (map snd l) -> cvalid (Fin q) = true). { intros q Hq. apply in_map_iff in Hq as (p & <- & Hp). apply cvalid_true. exists (snd p). split; auto. rewrite Forall_forall in H6. apply H6; auto. }
    rewrite (V a I1), (V b I2). cbn [negb orb]. change (vltb (Fin x) (Fin a)) with (qltb x a). change (vltb (Fin b) (Fin x)) with (qltb b x).
    exists (if qltb x a then x else a), (if qltb b x then x else b). split; [destruct (qltb x a); auto|]. split; [destruct (qltb b x); auto|]. split.
    + destruct (qltb_spec x a) as [L|L]; (split; [apply in_or_app; cbn; auto|]); intros z Hz; apply in_app_or in Hz as [Hz|[<-|[]]].
      * specialize (M1 z Hz). qlra. * apply Qcle_refl. * apply M1; auto. * apply Qcnot_lt_le. exact L.
    + destruct (qltb_spec b x) as [L|L]; (split; [apply in_or_app; cbn; auto|]); intros z Hz; apply in_app_or in Hz as [Hz|[<-|[]]].
      * specialize (M2 z Hz). qlra. * apply Qcle_refl. * apply M2; auto. * apply Qcnot_lt_le. exact L.
Qed.
Definition tr_of (lg : val -> val) (o : gopts) (v : val) : val := if g_log o then lg v else v.
Definition epairs (lg : val -> val) (o : gopts) (minLaf : Qc) (gf : field) (ielevs ilafs : list vec) (e : Z) (l : list (Z * Z)) : list (Qc * Qc) :=
  flat_map (fun p => elev_pair (tr_of lg o) minLaf (at2 ielevs p) (atf gf e p) (at2 ilafs p)) l.
Lemma elev_fold lg o minLaf d gf ielevs ilafs e r a b : g_min_laf o = Fin minLaf -> of_size d gf -> rect (d_y d) (d_x d) ielevs -> rect (d_y d) (d_x d) ilafs -> 0 <= e < d_e d ->
  forall pts, incl pts (square (d_y d) (d_x d) r a b) -> forall s l, esums_of s l -> exists s', foldM (elev_step lg o gf ielevs ilafs e) s pts = Ok s' /\ esums_of s' (l ++ epairs lg o minLaf gf ielevs ilafs e pts).
Proof.
  intros HL SF RE RL He. induction pts as [|p pts IH]; intros HI s l HS; cbn [foldM].
  - exists s. split; [reflexivity|]. unfold epairs. cbn. rewrite app_nil_r. exact HS.
  - assert (Hp : In p (square (d_y d) (d_x d) r a b)) by (apply HI; left; auto).
    unfold elev_step at 1. destruct p as [ii jj]. pose proof (at2_get _ _ ielevs _ _ _ _ RE Hp) as E1. pose proof (at2_get _ _ ilafs _ _ _ _ RL Hp) as E2. pose proof (atf_get _ gf e _ _ _ _ SF He Hp) as E3. cbn [fst snd] in E1, E2, E3. rewrite E1, E2, E3. cbn [bind].
    fold (tr_of lg o (atf gf e (ii, jj))). rewrite HL. unfold epairs. cbn [flat_map]. fold (epairs lg o minLaf gf ielevs ilafs e pts). rewrite app_assoc.
    assert (HI' : incl pts (square (d_y d) (d_x d) r a b)) by (intros z Hz; apply HI; right; auto).
    rewrite (cvalid_quantity (at2 ielevs (ii, jj))), (cvalid_quantity (tr_of lg o (atf gf e (ii, jj)))), (cvalid_quantity (at2 ilafs (ii, jj))). unfold elev_pair. destruct (quantity (at2 ielevs (ii, jj))) as [x|] eqn:Q1.
    2:{ cbn [andb]. rewrite app_nil_r. apply IH; auto. }
    destruct (quantity (tr_of lg o (atf gf e (ii, jj)))) as [y|] eqn:Q2.
    2:{ cbn [andb]. rewrite app_nil_r. apply IH; auto. }
    cbn [andb]. apply quantity_Some in Q1 as [-> N1], Q2 as [-> N2]. pose proof (esums_step s l y x HS N1) as HS'.
    destruct (quantity (at2 ilafs (ii, jj))) as [c|] eqn:Q3; cbn [negb orb].
    + apply quantity_Some in Q3 as [-> N3]. rewrite vleb_Fin. destruct (qleb_spec minLaf c) as [L|L]; destruct (Qclt_le_dec c minLaf) as [L'|L'].
      * exfalso. qlra.
      * cbn [bind]. apply IH. auto. exact HS'.
      * cbn [bind]. rewrite app_nil_r. apply IH; auto.
      * exfalso. auto.
    + apply IH; auto.
Qed.

Lemma clamp_lo v raw : (if cvalid v && vltb (Fin raw) v then v else Fin raw) = Fin (not_below (quantity v) raw).
Proof.
  rewrite cvalid_quantity. destruct (quantity v) as [a|] eqn:Q; [|reflexivity]. apply quantity_Some in Q as [-> _]. cbn [andb not_below]. change (vltb (Fin raw) (Fin a)) with (qltb raw a).
  destruct (qltb_spec raw a), (Qclt_le_dec raw a); auto; exfalso; [qlra|auto].
Qed.
Lemma clamp_hi v raw : (if cvalid v && vltb v (Fin raw) then v else Fin raw) = Fin (not_above (quantity v) raw).
Proof.
  rewrite cvalid_quantity. destruct (quantity v) as [a|] eqn:Q; [|reflexivity]. apply quantity_Some in Q as [-> _]. cbn [andb not_above]. change (vltb (Fin a) (Fin raw)) with (qltb a raw).
  destruct (qltb_spec a raw), (Qclt_le_dec a raw); auto; exfalso; [qlra|auto].
Qed.
Lemma variance_zero l : l <> [] -> (s_ff l / qlen l - s_f l / qlen l * (s_f l / qlen l) = 0)%Qc -> forall p p', In p l -> In p' l -> snd p = snd p'.
Proof.
  intros HN K p p' Hp Hp'. pose proof (qlen_ne l HN) as N. set (n := qlen l) in *.
  assert (Z0 : ((- (s_f l / n)) * (- (s_f l / n)) * qlen l + (1+1) * (- (s_f l / n)) * 1 * s_f l + 1 * 1 * s_ff l = 0)%Qc).
  { fold n. transitivity (n * (s_ff l / n - s_f l / n * (s_f l / n)))%Qc; [field; exact N|]. rewrite K. ring. }
  pose proof (residual_zero l _ _ Z0 p Hp) as R1. pose proof (residual_zero l _ _ Z0 p' Hp') as R2. set (m := (s_f l / n)%Qc) in *. clearbody m. clear - R1 R2.
  transitivity m; [|symmetry]; (match goal with |- snd ?z = _ => match goal with HH : (_ + 1 * snd z = 0)%Qc |- _ => transitivity (m + (- m + 1 * snd z))%Qc; [ring|rewrite HH; ring] end end).
Qed.
Lemma variance_same l c : l <> [] -> (forall p, In p l -> snd p = c) -> (s_ff l / qlen l - s_f l / qlen l * (s_f l / qlen l) = 0)%Qc.
Proof.
  intros HN HC. pose proof (qlen_ne l HN) as N. assert (E : s_f l = (qlen l * c)%Qc /\ s_ff l = (qlen l * (c * c))%Qc).
  { clear HN N. unfold s_f, s_ff, qlen. induction l as [|p l IH]; cbn [map qsum]; [change (zlen (@nil (Qc * Qc))) with 0; rewrite qz_0; split; ring|]. destruct IH as [-> ->]; [intros; apply HC; right; auto|]. rewrite zlen_cons, qz_add, qz_1, (HC p) by (left; auto). split; ring. }
  destruct E as [-> ->]. field. exact N.
Qed.
Lemma best_slope_formula l : l <> [] -> (s_ff l / qlen l - s_f l / qlen l * (s_f l / qlen l) <> 0)%Qc ->
  best_slope l ((s_of l / qlen l - s_f l / qlen l * (s_o l / qlen l)) / (s_ff l / qlen l - s_f l / qlen l * (s_f l / qlen l)))%Qc.
Proof.
  intros HN V. pose proof (qlen_ne l HN) as N. set (n := qlen l) in *. set (b := ((s_of l / n - s_f l / n * (s_o l / n)) / (s_ff l / n - s_f l / n * (s_f l / n)))%Qc).
  assert (W : (s_ff l * n - s_f l * s_f l)%Qc <> 0%Qc).
  { intros K. apply V. transitivity ((s_ff l * n - s_f l * s_f l) / (n * n))%Qc; [field; exact N|]. rewrite K. field. exact N. }
  exists (s_o l / n - b * (s_f l / n))%Qc. intros a' b'. apply normal_minimises; fold n; unfold b; field; repeat split; auto.
Qed.
Lemma pair_dec (p q : Qc * Qc) : {p = q} + {p <> q}.
Proof. destruct p as [a b], q as [c d]. destruct (Qc_eq_dec a c), (Qc_eq_dec b d); [left; congruence|right; congruence..]. Qed.
Lemma elev_ok lg o minLaf minDiff default d ifd gf ielevs ilafs e a b : g_min_laf o = Fin minLaf -> g_min_diff o = Fin minDiff -> g_default o = Fin default ->
  of_size d ifd -> of_size d gf -> rect (d_y d) (d_x d) ielevs -> rect (d_y d) (d_x d) ilafs -> 0 <= e < d_e d ->
  let l := epairs lg o minLaf gf ielevs ilafs e (square (d_y d) (d_x d) (g_radius o) a b) in
  exists g, elev_gradient lg o ifd gf ielevs ilafs e a b = Ok (Fin g) /\ ((quantity (g_constant o) = None -> not_unstable l) -> elev_rule o minDiff default l g).
Proof.
  intros HL HD HF SI SF RE RL He l. unfold elev_gradient.
  assert (FIN : forall (gv : res val) (q : option Qc), gv = Ok (match q with Some c => Fin c | None => CMV end) -> (forall c, q = Some c -> True) -> 
    (let raw := match q with Some c => if Qc_eq_dec c missing_number then default else c | None => default end in
    (g <- gv ;; let g := if cvalid g then g else g_default o in let g := if cvalid (g_min o) && vltb g (g_min o) then g_min o else g in Ok (if cvalid (g_max o) && vltb (g_max o) g then g_max o else g)) =
     Ok (Fin (not_above (quantity (g_max o)) (not_below (quantity (g_min o)) raw))))).
  { intros gv q -> _. cbn [bind]. rewrite HF. assert (E : (if cvalid match q with Some c => Fin c | None => CMV end then match q with Some c => Fin c | None => CMV end else Fin default) = Fin match q with Some c => if Qc_eq_dec c missing_number then default else c | None => default end).
    { rewrite cvalid_quantity. destruct q as [c|]; [|reflexivity]. cbn [quantity]. destruct (Qc_eq_dec c missing_number); reflexivity. }
    rewrite E. cbv zeta. rewrite clamp_lo, clamp_hi. reflexivity. }
  rewrite (cvalid_quantity (g_constant o)). destruct (quantity (g_constant o)) as [c|] eqn:QC.
  { eexists. split; [apply (FIN _ (Some c)); [apply quantity_Some in QC as [-> _]; reflexivity|auto]|]. intros _. exists c. rewrite QC. split; [reflexivity|]. apply quantity_Some in QC as [_ n]. destruct (Qc_eq_dec c missing_number); [contradiction|reflexivity]. }
  destruct SI as (_ & -> & -> & _).
  match goal with |- context [foldM _ ?s0 _] => destruct (elev_fold lg o minLaf d gf ielevs ilafs e (g_radius o) a b HL SF RE RL He (square (d_y d) (d_x d) (g_radius o) a b) (incl_refl _) s0 []) as (s & Es & HS) end.
  { repeat split; auto. congruence. }
  rewrite Es. cbn [bind]. cbn [app] in HS. fold l in HS. destruct HS as (S1 & S2 & S3 & S4 & S5 & S6 & S7 & S8).
  destruct (list_eq_dec pair_dec l []) as [N|N].
  { destruct (S7 N) as [-> ->]. change (cvalid CMV) with false. cbn [andb bind]. change (cvalid CMV) with false. rewrite andb_false_r. cbn [andb]. eexists. split; [apply (FIN _ None); auto|]. intros _. eexists. rewrite QC. split; [|reflexivity]. split; [|auto]. intros (_ & (p & ? & Hp & _) & _). rewrite N in Hp. contradiction. }
  destruct (S8 N) as (mn & mx & E1 & E2 & [I1 M1] & [I2 M2]). rewrite E1, E2.
  assert (V : forall q, In q (map snd l) -> cvalid (Fin q) = true). { intros q Hq. apply in_map_iff in Hq as (p & <- & Hp). apply cvalid_true. exists (snd p). split; auto. rewrite Forall_forall in S6. apply S6; auto. }
  rewrite (V mn I1), (V mx I2). cbn [andb]. assert (LE : (mn <= mx)%Qc) by (apply M1; auto). rewrite vleb_Fin. destruct (qleb_spec mn mx) as [_|K]; [|contradiction]. cbn [assert_ bind]. rewrite vsub_Fin.
  assert (VD : cvalid (Fin (mx - mn)) = true). { apply cvalid_true. eexists. split; [reflexivity|]. intros K. assert (missing_number < 0)%Qc by reflexivity. clear - K LE H. qlra. }
  rewrite VD, S5, HD, vleb_Fin, S1, S2, S3, S4. cbn [vmul].
  assert (HE : forall lo, (lo <= mx - mn <-> exists p p', In p l /\ In p' l /\ lo <= snd p' - snd p)%Qc).
  { intros lo. split.
    - intros H. apply in_map_iff in I1 as (p & P1 & P2), I2 as (p' & P1' & P2'). exists p, p'. rewrite P1, P1'. auto.
    - intros (p & p' & Hp & Hp' & H). specialize (M1 (snd p) (in_map _ _ _ Hp)). specialize (M2 (snd p') (in_map _ _ _ Hp')). clear - H M1 M2. qlra. }
  assert (ND : forall A (x y : A) (bb : bool), (if bb && true && true then x else y) = if bb then x else y) by (intros; destruct bb; reflexivity).
  destruct (Z.leb_spec (g_min_num o) (zlen l)) as [L1|L1]; cbn [andb].
  2:{ eexists. split; [apply (FIN _ None); auto|]. intros _. eexists. rewrite QC. split; [|reflexivity]. split; [|auto]. intros (K & _). lia. }
  destruct (qleb_spec minDiff (mx - mn)) as [L2|L2]; cbn [andb].
  2:{ eexists. split; [apply (FIN _ None); auto|]. intros _. eexists. rewrite QC. split; [|reflexivity]. split; [|auto]. intros (_ & K & _). apply HE in K. contradiction. }
  assert (QN : forall x, vdiv (Fin x) (fz (zlen l)) = Fin (x / qlen l)%Qc). { intros x. apply (vdiv_ne x (qz (zlen l))). apply (qlen_ne l N). }
  rewrite !QN. cbn [vmul]. rewrite !vsub_Fin. cbv zeta. change (veqb (Fin (s_ff l)) (Fin (s_f l * s_f l)%Qc)) with (qeqb (s_ff l) (s_f l * s_f l)%Qc). destruct (qeqb_spec (s_ff l) (s_f l * s_f l)%Qc) as [K|K]; cbn [negb].
  { eexists. split; [apply (FIN _ None); auto|]. intros H. exfalso. apply (H eq_refl). exact K. }
  change (veqb (Fin (s_ff l / qlen l - s_f l / qlen l * (s_f l / qlen l))%Qc) (fz 0)) with (qeqb (s_ff l / qlen l - s_f l / qlen l * (s_f l / qlen l))%Qc 0%Qc).
  destruct (qeqb_spec (s_ff l / qlen l - s_f l / qlen l * (s_f l / qlen l))%Qc 0%Qc) as [Z0|Z0]; cbn [negb].
  - eexists. split; [apply (FIN _ None); auto|]. intros _. eexists. rewrite QC. split; [|reflexivity]. split; [|auto]. intros (_ & _ & p & p' & Hp & Hp' & Hd). exfalso. apply Hd. apply (variance_zero l N Z0 p p'); auto.
  - rewrite vdiv_ne by exact Z0. pose proof (best_slope_formula l N Z0) as B. set (bs := (_ / (_ - _ * (_ / _)))%Qc) in *. eexists. split; [apply (FIN _ (Some bs)); auto|]. intros _. eexists. rewrite QC. split; [|reflexivity]. split; [intros _; exists bs; auto|].
    intros K'. exfalso. apply K'. split; [auto|]. split; [apply HE; auto|].
    destruct l as [|p0 l0] eqn:EL; [congruence|]. rewrite <- EL in *. clear S7 S8 QN. 
    assert (DEC : forall c (m : list (Qc * Qc)), (exists p, In p m /\ snd p <> c) \/ forall p, In p m -> snd p = c).
    { intros c m. induction m as [|p m [(q & Hq & Hc)|IH]]; [right; intros ? []|left; exists q; split; [right|]; auto|]. destruct (Qc_eq_dec (snd p) c); [right; intros q [<-|Hq]; auto|left; exists p; split; [left|]; auto]. }
    destruct (DEC (snd p0) l) as [(p & Hp & Hc)|H]; [exists p, p0; split; [auto|]; split; [rewrite EL; left; auto|auto]|]. exfalso. apply Z0. apply (variance_same l (snd p0)); auto.
Qed.

(** the gradient of the land fraction *)
Definition lpts (ielevs ilafs : list vec) (ifd : field) (e : Z) (l : list (Z * Z)) : list (Qc * val * Qc) := flat_map (fun p => laf_point (at2 ilafs p) (at2 ielevs p) (atf ifd e p)) l.
Definition used_of (ifd : field) (e : Z) (l : list (Z * Z)) := filter (fun p => if quantity (atf ifd e p) then true else false) l.
Definition seas_of (ilafs : list vec) (ifd : field) (e : Z) (l : list (Z * Z)) := filter (fun p => sea (at2 ilafs p)) (used_of ifd e l).
Definition as_vals (p : Qc * val * Qc) : val * val * val := (Fin (fst (fst p)), snd (fst p), Fin (snd p)).
Definition lst (s : lstate) (pts : list (Qc * val * Qc)) : Prop :=
  Forall (fun p => fst (fst p) <> missing_number) pts /\ (pts = [] -> ls_min s = (CMV, CMV, CMV) /\ ls_max s = (CMV, CMV, CMV)) /\
  (pts <> [] -> exists p q, ls_min s = as_vals p /\ ls_max s = as_vals q /\ lowest pts p /\ highest pts q).
Lemma sea_ltb v : vltb v (fq (1 # 2)) = sea v.
Proof.
  destruct v; try reflexivity. cbn [sea]. change (vltb (Fin q) (fq (1 # 2))) with (qltb q (Q2Qc (1 # 2))). destruct (qltb_spec q (Q2Qc (1 # 2))), (Qclt_le_dec q (Q2Qc (1 # 2))) as [?|L2]; auto; exfalso; apply (Qclt_not_le _ _ q0 L2).
Qed.
Lemma lst_step s pts c el y : lst s pts -> c <> missing_number ->
  lst {| ls_min := if negb (cvalid (fst (fst (ls_min s)))) || vltb (Fin c) (fst (fst (ls_min s))) then (Fin c, el, Fin y) else ls_min s;
         ls_max := if negb (cvalid (fst (fst (ls_max s)))) || vltb (fst (fst (ls_max s))) (Fin c) then (Fin c, el, Fin y) else ls_max s |} (pts ++ [(c, el, y)]).
Proof.
  intros (H1 & H2 & H3) Hc. split; [apply Forall_app; auto|]. split; [destruct pts; discriminate|]. intros _. cbn [ls_min ls_max]. destruct pts as [|p0 pts0].
  - destruct (H2 eq_refl) as [-> ->]. cbn [fst snd]. change (cvalid CMV) with false. cbn. exists (c, el, y), (c, el, y). split; [reflexivity|]. split; [reflexivity|]. split; (split; [left; auto|intros z [<-|[]]; apply Qcle_refl]).
  - destruct H3 as (p & q & E1 & E2 & [I1 M1] & [I2 M2]); [discriminate|]. set (pts := p0 :: pts0) in *. rewrite E1, E2. cbn [as_vals fst snd]. unfold as_vals. cbn [fst snd].
    assert (V : forall z, In z pts -> cvalid (Fin (fst (fst z))) = true). { intros z Hz. apply cvalid_true. eexists. split; [reflexivity|]. rewrite Forall_forall in H1. apply H1; auto. }
    rewrite (V p I1), (V q I2). cbn [negb orb]. change (vltb (Fin c) (Fin (fst (fst p)))) with (qltb c (fst (fst p))). change (vltb (Fin (fst (fst q))) (Fin c)) with (qltb (fst (fst q)) c).
    exists (if qltb c (fst (fst p)) then (c, el, y) else p), (if qltb (fst (fst q)) c then (c, el, y) else q). split; [destruct (qltb c (fst (fst p))); auto|]. split; [destruct (qltb (fst (fst q)) c); auto|]. split.
    + destruct (qltb_spec c (fst (fst p))) as [L|L]; (split; [apply in_or_app; cbn; auto|]); intros z Hz; apply in_app_or in Hz as [Hz|[<-|[]]]; cbn [fst snd].
      * specialize (M1 z Hz). clear - M1 L. qlra.
      * apply Qcle_refl.
      * apply M1; auto.
      * apply Qcnot_lt_le. exact L.
    + destruct (qltb_spec (fst (fst q)) c) as [L|L]; (split; [apply in_or_app; cbn; auto|]); intros z Hz; apply in_app_or in Hz as [Hz|[<-|[]]]; cbn [fst snd].
      * specialize (M2 z Hz). clear - M2 L. qlra.
      * apply Qcle_refl.
      * apply M2; auto.
      * apply Qcnot_lt_le. exact L.
Qed.
Lemma laf_fold d ifd ielevs ilafs e r a b : of_size d ifd -> rect (d_y d) (d_x d) ielevs -> rect (d_y d) (d_x d) ilafs -> 0 <= e < d_e d ->
  forall nb, incl nb (square (d_y d) (d_x d) r a b) -> forall s pts ns n, lst s pts ->
  exists s', foldM (laf_step ifd ielevs ilafs e) (s, ns, n) nb = Ok (s', ns + zlen (seas_of ilafs ifd e nb), n + zlen (used_of ifd e nb)) /\ lst s' (pts ++ lpts ielevs ilafs ifd e nb).
Proof.
  intros SF RE RL He. induction nb as [|p nb IH]; intros HI s pts ns n HS; cbn [foldM].
  - exists s. unfold lpts, seas_of, used_of. cbn. rewrite !Z.add_0_r, app_nil_r. auto.
  - assert (Hp : In p (square (d_y d) (d_x d) r a b)) by (apply HI; left; auto). assert (HI' : incl nb (square (d_y d) (d_x d) r a b)) by (intros z Hz; apply HI; right; auto).
    unfold laf_step at 1. destruct p as [ii jj]. pose proof (at2_get _ _ ielevs _ _ _ _ RE Hp) as E1. pose proof (at2_get _ _ ilafs _ _ _ _ RL Hp) as E2. pose proof (atf_get _ ifd e _ _ _ _ SF He Hp) as E3. cbn [fst snd] in E1, E2, E3. rewrite E1, E2, E3. cbn [bind].
    rewrite (cvalid_quantity (at2 ilafs (ii, jj))), (cvalid_quantity (atf ifd e (ii, jj))). unfold lpts. cbn [flat_map]. fold (lpts ielevs ilafs ifd e nb). rewrite app_assoc. unfold laf_point.
    unfold seas_of, used_of. cbn [filter]. destruct (quantity (atf ifd e (ii, jj))) as [y|] eqn:Q1; cbn [andb].
    + fold (used_of ifd e nb). cbn [filter]. rewrite sea_ltb. fold (seas_of ilafs ifd e nb). rewrite zlen_cons.
      assert (ES : ns + zlen (if sea (at2 ilafs (ii, jj)) then (ii, jj) :: seas_of ilafs ifd e nb else seas_of ilafs ifd e nb) = (if sea (at2 ilafs (ii, jj)) then ns + 1 else ns) + zlen (seas_of ilafs ifd e nb)).
      { destruct (sea (at2 ilafs (ii, jj))); [rewrite zlen_cons; lia|reflexivity]. }
      rewrite ES. replace (n + (zlen (used_of ifd e nb) + 1)) with (n + 1 + zlen (used_of ifd e nb)) by lia.
      destruct (quantity (at2 ilafs (ii, jj))) as [c|] eqn:Q2.
      * apply quantity_Some in Q1 as [E1' _], Q2 as [E2' N2]. rewrite E1', E2' in *. cbn [bind]. apply IH; auto. apply lst_step; auto.
      * rewrite app_nil_r. cbn [bind]. apply IH; auto.
    + cbn [bind]. assert (EE : match quantity (at2 ilafs (ii, jj)) with Some _ | _ => @nil (Qc * val * Qc) end = []) by (destruct (quantity (at2 ilafs (ii, jj))); reflexivity). rewrite EE, app_nil_r. apply IH; auto.
Qed.

Lemma nil_dec {A} (l : list A) : {l = []} + {l <> []}.
Proof. destruct l; [left; auto|right; discriminate]. Qed.
Lemma lpts_used ielevs ilafs ifd e nb : lpts ielevs ilafs ifd e nb <> [] -> 0 < zlen (used_of ifd e nb).
Proof.
  unfold lpts, used_of. induction nb as [|p nb IH]; cbn [flat_map filter]; [contradiction|]. unfold laf_point. destruct (quantity (atf ifd e p)).
  - intros _. rewrite zlen_cons. pose proof (zlen_nonneg (filter (fun p => if quantity (atf ifd e p) then true else false) nb)). lia.
  - destruct (quantity (at2 ilafs p)); apply IH.
Qed.
Lemma qfrac_le (a s : Qc) n : 0 < n -> (a <= s / qz n <-> a * qz n <= s)%Qc.
Proof.
  intros Hn. assert (P : (0 < qz n)%Qc) by (rewrite <- qz_0; apply qz_lt; lia). assert (N : qz n <> 0%Qc) by (intros K; rewrite K in P; revert P; apply Qclt_not_eq || discriminate).
  split; intros H.
  - apply (Qcmult_le_compat_r _ _ (qz n)) in H; [|apply Qclt_le_weak; auto]. replace (s / qz n * qz n)%Qc with s in H by (field; auto). exact H.
  - apply (Qcmult_lt_0_le_reg_r _ _ (qz n)); auto. replace (s / qz n * qz n)%Qc with s by (field; auto). exact H.
Qed.
Lemma radius_step o d ifd ielevs ilafs e a b g md ms r rad w s pts value counter tw :
  of_size d ifd -> rect (d_y d) (d_x d) ielevs -> rect (d_y d) (d_x d) ilafs -> 0 <= e < d_e d -> g_min_laf_diff o = Fin md -> g_min_sea o = Fin ms ->
  znth (g_laf_radii o) r = Ok rad -> znth (g_laf_weights o) r = Ok (Fin w) -> lst s pts ->
  let nb := square (d_y d) (d_x d) rad a b in let cur := lpts ielevs ilafs ifd e nb in
  exists s' value' counter' tw', laf_radius_step o ifd ielevs ilafs e a b (Fin g) (s, value, counter, tw) r = Ok (s', value', counter', tw') /\ lst s' (pts ++ cur) /\
  (incl pts cur -> (0 < md)%Qc -> exists k, radius_rule md ms g (at2 ielevs) (at2 ilafs) (atf ifd e) nb k /\
    match k with None => value' = value /\ counter' = counter /\ tw' = tw | Some q => value' = vadd value (Fin (q * w)%Qc) /\ counter' = counter + 1 /\ tw' = vadd tw (Fin w) end).
Proof.
  intros SF RE RL He HM HS Er Ew HL nb cur. unfold laf_radius_step. rewrite Er. cbn [bind]. pose proof SF as (_ & S1 & S2 & _). rewrite S1, S2. fold nb.
  destruct (laf_fold d ifd ielevs ilafs e rad a b SF RE RL He nb (incl_refl _) s pts 0 0 HL) as (s' & Es & HL'). rewrite Es. cbn [bind]. rewrite !Z.add_0_l. fold cur in HL'. rewrite HM, HS. pose proof HL' as (F1 & F2 & F3).
  unfold radius_rule. cbv zeta. change (flat_map (fun p => laf_point (at2 ilafs p) (at2 ielevs p) (atf ifd e p)) nb) with cur. change (filter (fun p => if quantity (atf ifd e p) then true else false) nb) with (used_of ifd e nb).
  change (filter (fun p => sea (at2 ilafs p)) (used_of ifd e nb)) with (seas_of ilafs ifd e nb).
  destruct (nil_dec (pts ++ cur)) as [N|N].
  { destruct (F2 N) as [-> ->]. change (cvalid CMV) with false. cbn [andb]. eexists _, _, _, _. split; [reflexivity|]. split; [exact HL'|]. intros _ _. exists None. apply app_eq_nil in N as [_ N]. rewrite N. split; [|auto]. split; [auto|congruence]. }
  destruct (F3 N) as ([[c1 e1] y1] & [[c2 e2] y2] & E1 & E2 & [I1 M1] & [I2 M2]). rewrite E1, E2. unfold as_vals. cbn [fst snd]. rewrite Forall_forall in F1.
  assert (V1 : cvalid (Fin c1) = true) by (apply cvalid_true; exists c1; split; [auto|apply (F1 _ I1)]). assert (V2 : cvalid (Fin c2) = true) by (apply cvalid_true; exists c2; split; [auto|apply (F1 _ I2)]).
  rewrite V1, V2. cbn [andb]. rewrite vsub_Fin, vleb_Fin. rewrite Ew.
  assert (CUR : incl pts cur -> cur <> [] /\ lowest cur (c1, e1, y1) /\ highest cur (c2, e2, y2)).
  { intros HI. assert (A : forall z, In z (pts ++ cur) <-> In z cur) by (intros z; rewrite in_app_iff; split; [intros [H|H]; auto|auto]). split; [intros K; apply A in I1; rewrite K in I1; contradiction|].
    split; (split; [apply A; auto|]); intros z Hz; [apply M1|apply M2]; apply A; auto. }
  destruct (qleb_spec md (c2 - c1)) as [L1|L1]; cbn [andb].
  2:{ eexists _, _, _, _. split; [reflexivity|]. split; [exact HL'|]. intros HI _. destruct (CUR HI) as (HN & Lo & Hi). exists None. split; [|auto]. split; [auto|]. intros _. exists c1, e1, y1, c2, e2, y2. split; [exact Lo|]. split; [exact Hi|]. split; [|auto]. intros z1 z2 _ _ (K & _). contradiction. }
  assert (SEA : (incl pts cur -> vleb (Fin ms) (vdiv (fz (zlen (seas_of ilafs ifd e nb))) (fz (zlen (used_of ifd e nb)))) = true) <-> (incl pts cur -> (ms * qz (zlen (used_of ifd e nb)) <= qz (zlen (seas_of ilafs ifd e nb)))%Qc)).
  { split; intros H HI; specialize (H HI); destruct (CUR HI) as (HN & _); apply lpts_used in HN; unfold fz in *; (assert (NZ : qz (zlen (used_of ifd e nb)) <> 0%Qc) by (rewrite <- qz_0; intros K; apply qz_inj in K; lia)).
    - rewrite vdiv_ne, vleb_Fin in H by exact NZ. destruct (qleb_spec ms (qz (zlen (seas_of ilafs ifd e nb)) / qz (zlen (used_of ifd e nb)))); [|discriminate]. apply qfrac_le; auto.
    - rewrite vdiv_ne, vleb_Fin by exact NZ. apply (qfrac_le _ _ _ HN) in H. destruct (qleb_spec ms (qz (zlen (seas_of ilafs ifd e nb)) / qz (zlen (used_of ifd e nb)))); auto. }
  destruct (vleb (Fin ms) (vdiv (fz (zlen (seas_of ilafs ifd e nb))) (fz (zlen (used_of ifd e nb))))) eqn:ESEA.
  2:{ eexists _, _, _, _. split; [reflexivity|]. split; [exact HL'|]. intros HI _. destruct (CUR HI) as (HN & Lo & Hi). exists None. split; [|auto]. split; [auto|]. intros _. exists c1, e1, y1, c2, e2, y2. split; [exact Lo|]. split; [exact Hi|]. split; [|auto]. intros z1 z2 _ _ (_ & K & _). destruct SEA as [_ SEA]. specialize (SEA (fun _ => K) HI). discriminate. }
  destruct SEA as [SEA _]. rewrite (cvalid_quantity e1), (cvalid_quantity e2). destruct (quantity e2) as [z2|] eqn:Q2; cbn [andb].
  2:{ eexists _, _, _, _. split; [reflexivity|]. split; [exact HL'|]. intros HI _. destruct (CUR HI) as (HN & Lo & Hi). exists None. split; [|auto]. split; [auto|]. intros _. exists c1, e1, y1, c2, e2, y2. split; [exact Lo|]. split; [exact Hi|]. split; [|auto]. intros z1 z2 _ _ (_ & _ & _ & K). apply quantity_None in Q2. contradiction. }
  destruct (quantity e1) as [z1|] eqn:Q1.
  2:{ eexists _, _, _, _. split; [reflexivity|]. split; [exact HL'|]. intros HI _. destruct (CUR HI) as (HN & Lo & Hi). exists None. split; [|auto]. split; [auto|]. intros _. exists c1, e1, y1, c2, e2, y2. split; [exact Lo|]. split; [exact Hi|]. split; [|auto]. intros z1 z2' _ _ (_ & _ & K & _). apply quantity_None in Q1. contradiction. }
  cbn [bind]. eexists _, _, _, _. split; [reflexivity|]. split; [exact HL'|]. intros HI Hmd. destruct (CUR HI) as (HN & Lo & Hi). exists (Some ((y2 - g * (z2 - z1) - y1) / (c2 - c1))%Qc). apply quantity_Some in Q1 as [-> n1], Q2 as [-> n2]. split.
  - split; [congruence|]. intros _. exists c1, (Fin z1), y1, c2, (Fin z2), y2. split; [exact Lo|]. split; [exact Hi|]. split; [intros ? ? [= <-] [= <-] _; reflexivity|]. intros K. exfalso. apply K. split; [exact L1|]. split; [apply SEA; [intros _; reflexivity|exact HI]|]. cbn. auto.
  - rewrite !vsub_Fin. cbn [vmul]. rewrite vsub_Fin, vsub_Fin, vdiv_ne; [auto|]. intros K. rewrite K in L1. clear - L1 Hmd. qlra.
Qed.
Lemma znth_app_mid {A} (l : list A) x m : znth (l ++ x :: m) (zlen l) = Ok x.
Proof. rewrite znth_app_r by lia. rewrite Z.sub_diag. reflexivity. Qed.
Lemma close_mono ny nx r r' a b p : r <= r' -> close ny nx r a b p -> close ny nx r' a b p.
Proof. unfold close. intros; lia. Qed.
Lemma lpts_mono ielevs ilafs ifd e ny nx r r' a b : r <= r' -> incl (lpts ielevs ilafs ifd e (square ny nx r a b)) (lpts ielevs ilafs ifd e (square ny nx r' a b)).
Proof.
  intros H z Hz. unfold lpts in *. apply in_flat_map in Hz as (p & Hp & Hz). apply in_flat_map. exists p. split; [|exact Hz]. apply square_close in Hp. apply square_close. eapply close_mono; eauto.
Qed.
Definition weighted (ks : list (option Qc)) (ws : list Qc) : list (Qc * Qc) := flat_map (fun kw => match fst kw with Some s => [(s, snd kw)] | None => [] end) (combine ks ws).
Section LafLoop.
  Variables (o : gopts) (d : dims) (ifd : field) (ielevs ilafs : list vec) (e a b : Z) (g md ms : Qc).
  Hypothesis SF : of_size d ifd. Hypothesis RE : rect (d_y d) (d_x d) ielevs. Hypothesis RL : rect (d_y d) (d_x d) ilafs. Hypothesis He : 0 <= e < d_e d.
  Hypothesis HM : g_min_laf_diff o = Fin md. Hypothesis HS : g_min_sea o = Fin ms.
  Lemma laf_loop : forall sr sw pr pw s value counter tw done, g_laf_radii o = pr ++ sr -> g_laf_weights o = map Fin (pw ++ sw) -> zlen pr = zlen pw -> zlen sr = zlen sw -> lst s done ->
    (forall z, In z done -> exists r', In r' pr /\ In z (lpts ielevs ilafs ifd e (square (d_y d) (d_x d) r' a b))) ->
    exists s' v' c' t', foldM (laf_radius_step o ifd ielevs ilafs e a b (Fin g)) (s, value, counter, tw) (zrange (zlen pr) (zlen pr + zlen sr)) = Ok (s', v', c', t') /\
    ((0 < md)%Qc -> StronglySorted Z.le (pr ++ sr) -> exists ks,
      Forall2 (fun r k => exists nb, neighbours (d_y d) (d_x d) r a b nb /\ radius_rule md ms g (at2 ielevs) (at2 ilafs) (atf ifd e) nb k) sr ks /\
      forall vq tq, value = Fin vq -> tw = Fin tq -> v' = Fin (vq + qsum (map (fun x => fst x * snd x) (weighted ks sw)))%Qc /\ c' = counter + zlen (weighted ks sw) /\ t' = Fin (tq + qsum (map snd (weighted ks sw)))%Qc).
  Proof.
    induction sr as [|rad sr IH]; intros sw pr pw s value counter tw done ER EW L1 L2 HL HD.
    - change (zlen (@nil Z)) with 0. rewrite Z.add_0_r, zrange_nil by lia. cbn [foldM]. eexists _, _, _, _. split; [reflexivity|]. intros _ _. exists []. split; [constructor|]. intros vq tq -> ->. cbn. change (zlen (@nil (Qc * Qc))) with 0. rewrite Z.add_0_r, !Qcplus_0_r. auto.
    - destruct sw as [|w sw]; [exfalso; change (zlen (@nil Qc)) with 0 in L2; rewrite zlen_cons in L2; pose proof (zlen_nonneg sr); lia|].
      rewrite !zlen_cons in *. pose proof (zlen_nonneg sr). rewrite zrange_cons by lia. cbn [foldM].
      assert (Er : znth (g_laf_radii o) (zlen pr) = Ok rad). { rewrite ER. apply znth_app_mid. }
      assert (Ew : znth (g_laf_weights o) (zlen pr) = Ok (Fin w)). { rewrite EW, L1, map_app. cbn [map]. rewrite <- (zlen_map Fin pw). apply znth_app_mid. }
      destruct (radius_step o d ifd ielevs ilafs e a b g md ms (zlen pr) rad w s done value counter tw SF RE RL He HM HS Er Ew HL) as (s' & v' & c' & t' & Es & HL' & HK). rewrite Es. cbn [bind].
      destruct (IH sw (pr ++ [rad]) (pw ++ [w]) s' v' c' t' (done ++ lpts ielevs ilafs ifd e (square (d_y d) (d_x d) rad a b))) as (s2 & v2 & c2 & t2 & E2 & H2).
      + rewrite <- app_assoc. exact ER.
      + rewrite <- app_assoc. exact EW.
      + rewrite !zlen_app, !zlen_cons. change (zlen (@nil Z)) with 0. change (zlen (@nil Qc)) with 0. lia.
      + lia.
      + exact HL'.
      + intros z Hz. apply in_app_or in Hz as [Hz|Hz]; [destruct (HD z Hz) as (r' & R1 & R2); exists r'; split; [apply in_or_app; auto|auto]|exists rad; split; [apply in_or_app; cbn; auto|auto]].
      + rewrite zlen_app, zlen_cons in E2. change (zlen (@nil Z)) with 0 in E2. replace (zlen pr + (0 + 1)) with (zlen pr + 1) in E2 by lia. replace (zlen pr + (zlen sr + 1)) with (zlen pr + 1 + zlen sr) by lia.
        exists s2, v2, c2, t2. split; [exact E2|]. intros Hmd HSo. rewrite <- app_assoc in H2. destruct (H2 Hmd HSo) as (ks & K1 & K2).
        destruct HK as (k & Rk & Hk); auto.
        { intros z Hz. destruct (HD z Hz) as (r' & R1 & R2). revert R2. apply lpts_mono. clear - HSo R1. induction pr as [|p pr IH]; [contradiction|]. inversion HSo as [|? ? S1 S2]; subst. destruct R1 as [->|R1]; [rewrite Forall_forall in S2; apply S2; apply in_or_app; cbn; auto|apply IH; auto]. }
        exists (k :: ks). split; [constructor; [eexists; split; [apply square_neighbours|exact Rk]|exact K1]|].
        intros vq tq -> ->. unfold weighted. cbn [combine flat_map fst snd]. fold (weighted ks sw). destruct k as [q|].
        * destruct Hk as (-> & -> & ->). cbn [vadd] in K2. destruct (K2 _ _ eq_refl eq_refl) as (-> & -> & ->). cbn [app map qsum fst snd]. rewrite zlen_cons. split; [f_equal; ring|]. split; [lia|f_equal; ring].
        * destruct Hk as (-> & -> & ->). cbn [app]. apply K2; reflexivity.
  Qed.
  Lemma laf_ok ws : g_laf_weights o = map Fin ws -> zlen (g_laf_radii o) = zlen ws ->
    exists l, (if 0 <? zlen (g_laf_radii o) then laf_gradient o ifd ielevs ilafs e a b (Fin g) else Ok CMV) = Ok l /\
    ((0 < md)%Qc -> StronglySorted Z.le (g_laf_radii o) -> Forall (fun w => 0 < w)%Qc ws -> laf_rule (d_y d) (d_x d) a b md ms g (at2 ielevs) (at2 ilafs) (atf ifd e) (g_laf_radii o) ws l).
  Proof.
    intros EW EL. destruct (laf_loop (g_laf_radii o) ws [] [] {| ls_min := (CMV, CMV, CMV); ls_max := (CMV, CMV, CMV) |} (fz 0) 0 (fz 0) []) as (s' & v' & c' & t' & E & H); auto.
    { split; [constructor|]. split; [auto|congruence]. }
    { intros z []. }
    change (zlen (@nil Z)) with 0 in E. rewrite Z.add_0_l in E. unfold laf_gradient.
    destruct (Z.ltb_spec 0 (zlen (g_laf_radii o))) as [HN|HN].
    - rewrite E. cbn [bind]. eexists. split; [reflexivity|]. intros Hmd HSo HW. destruct (H Hmd HSo) as (ks & K1 & K2). exists ks. split; [exact K1|]. fold (weighted ks ws). cbv zeta.
      destruct (K2 (qz 0) (qz 0) eq_refl eq_refl) as (-> & -> & ->). rewrite qz_0, !Qcplus_0_l, Z.add_0_l.
      assert (POS : weighted ks ws <> [] -> (0 < qsum (map snd (weighted ks ws)))%Qc).
      { assert (F : Forall (fun w => 0 < w)%Qc (map snd (weighted ks ws))).
        { apply Forall_forall. intros w Hw. apply in_map_iff in Hw as ([s w'] & <- & Hw). unfold weighted in Hw. apply in_flat_map in Hw as ([k w2] & Hk & Hw). cbn [fst snd] in Hw. destruct k; [|contradiction]. destruct Hw as [[= _ <-]|[]]. apply in_combine_r in Hk. rewrite Forall_forall in HW. apply HW; auto. }
        destruct (weighted ks ws) as [|x l]; [congruence|]. intros _. cbn [map] in *. inversion F as [|? ? F1 F2]; subst. cbn [qsum]. assert (0 <= qsum (map snd l))%Qc. { clear - F2. induction (map snd l) as [|y l' IH]; [apply Qcle_refl|]. inversion F2; subst. specialize (IH H2). cbn [qsum]. clear - IH H1. qlra. } clear - F1 H0. qlra. }
      set (S := qsum (map (fun x => fst x * snd x)%Qc (weighted ks ws))). rewrite (cvalid_quantity (Fin S)). cbn [quantity]. split.
      + intros [K|K]; [rewrite K; reflexivity|]. destruct (Qc_eq_dec S missing_number); [|contradiction]. cbn [negb]. rewrite orb_true_r. reflexivity.
      + intros N1 N2. destruct (Qc_eq_dec S missing_number); [contradiction|]. cbn [negb]. assert (0 < zlen (weighted ks ws)) by (destruct (weighted ks ws) as [|x l]; [congruence|]; rewrite zlen_cons; pose proof (zlen_nonneg l); lia). replace (zlen (weighted ks ws) =? 0) with false by lia. cbn [orb].
        rewrite vdiv_ne; [reflexivity|]. specialize (POS N1). intros K. rewrite K in POS. revert POS. apply Qclt_not_le || idtac. intros POS. discriminate POS.
    - exists CMV. split; [reflexivity|]. intros _ _ _. exists []. assert (g_laf_radii o = []) as -> by (destruct (g_laf_radii o) as [|x l]; [auto|]; rewrite zlen_cons in HN; pose proof (zlen_nonneg l); lia). split; [constructor|]. split; [auto|]. cbn. congruence.
  Qed.
End LafLoop.

(** the land fraction of a point *)
Lemma mean_fold ny nx r a b (g : list vec) : rect ny nx g -> forall pts, incl pts (square ny nx r a b) -> forall t n,
  foldM (fun s p => let '(total, count) := s in v <- get2 g (fst p) (snd p) ;; Ok (if cvalid v then (vadd total v, count + 1) else (total, count))) (Fin t, n) pts =
  Ok (Fin (t + qsum (present (map (at2 g) pts)))%Qc, n + zlen (present (map (at2 g) pts))).
Proof.
  intros R. induction pts as [|p pts IH]; intros HI t n; cbn [foldM map].
  - cbn. change (zlen (@nil Qc)) with 0. rewrite Z.add_0_r, Qcplus_0_r. reflexivity.
  - rewrite (at2_get _ _ g p _ _ _ R) by (apply HI; left; auto). cbn [bind]. rewrite present_cons, cvalid_quantity. assert (HI' : incl pts (square ny nx r a b)) by (intros z Hz; apply HI; right; auto).
    destruct (at2 g p) as [| | |q] eqn:E; cbn [quantity]; try (apply IH; auto). destruct (Qc_eq_dec q missing_number); [apply IH; auto|]. cbn [vadd]. rewrite IH by auto. cbn [qsum]. rewrite zlen_cons. f_equal. f_equal; [f_equal; ring|lia].
Qed.
Lemma point_laf_ok o d olafs i j : rect (d_y d) (d_x d) olafs -> 0 <= i < d_y d -> 0 <= j < d_x d ->
  exists v, point_laf o d olafs i j = Ok v /\ laf_of_point (d_y d) (d_x d) (g_laf_radius o) i j olafs (quantity v).
Proof.
  intros R Hi Hj. unfold point_laf, laf_of_point. destruct (Z.eqb_spec (g_laf_radius o) 0) as [E|E].
  - destruct (rect_get2 _ _ olafs i j R Hi Hj) as [v Hv]. exists v. split; [exact Hv|]. split; [intros _; unfold at2; cbn [fst snd]; rewrite Hv; reflexivity|congruence].
  - change (fz 0) with (Fin 0%Qc). rewrite (mean_fold _ _ _ _ _ olafs R _ (incl_refl _)). cbn [bind]. rewrite Z.add_0_l, Qcplus_0_l. eexists. split; [reflexivity|]. split; [congruence|]. intros _. eexists. split; [apply square_neighbours|]. cbv zeta.
    set (l := present _). split.
    + intros ->. reflexivity.
    + intros N. assert (LP : 0 < zlen l) by (destruct l; [congruence|]; rewrite zlen_cons; pose proof (zlen_nonneg l); lia). replace (0 <? zlen l) with true by lia. unfold fz. rewrite vdiv_ne; [reflexivity|]. rewrite <- qz_0. intros K. apply qz_inj in K. lia.
Qed.
(** the limits *)
Definition lim_step (s : val * val) (q : Qc) : val * val :=
  let '(mn, mx) := s in if negb (cvalid mn) || vltb (Fin q) mn then (Fin q, mx) else if negb (cvalid mx) || vltb mx (Fin q) then (mn, Fin q) else (mn, mx).
Lemma lim_fold d ifd e r a b : of_size d ifd -> 0 <= e < d_e d -> forall pts, incl pts (square (d_y d) (d_x d) r a b) -> forall s,
  foldM (fun s p => let '(mn, mx) := s in curr <- f_get ifd (fst p) (snd p) e ;;
     Ok (if cvalid curr then if negb (cvalid mn) || vltb curr mn then (curr, mx) else if negb (cvalid mx) || vltb mx curr then (mn, curr) else (mn, mx) else (mn, mx))) s pts =
  Ok (fold_left lim_step (present (map (atf ifd e) pts)) s).
Proof.
  intros SF He. induction pts as [|p pts IH]; intros HI [mn mx]; cbn [foldM map]; [reflexivity|]. rewrite (atf_get _ ifd e p _ _ _ SF He) by (apply HI; left; auto). cbn [bind]. assert (HI' : incl pts (square (d_y d) (d_x d) r a b)) by (intros z Hz; apply HI; right; auto).
  rewrite present_cons, (cvalid_quantity (atf ifd e p)). destruct (atf ifd e p) as [| | |q] eqn:E; cbn [quantity]; try (apply IH; auto). destruct (Qc_eq_dec q missing_number); [apply IH; auto|]. cbn [fold_left]. apply IH; auto.
Qed.
Lemma lim_inv l : Forall (fun q => q <> missing_number) l -> l <> [] -> exists mn mx, fold_left lim_step l (CMV, CMV) = (Fin mn, mx) /\ is_min l mn /\
  (mx = CMV \/ exists b, mx = Fin b /\ In b l) /\ (forall m, In m (tl l) -> is_max l m -> mx = Fin m).
Proof.
  induction l as [|x l IH] using rev_ind; intros HF HN; [congruence|]. rewrite fold_left_app. cbn [fold_left]. apply Forall_app in HF as [HF Hx]. inversion Hx as [|? ? Hx' _]; subst.
  destruct (nil_dec l) as [->|N].
  { cbn. exists x, CMV. split; [reflexivity|]. split; [split; [left; auto|intros z [<-|[]]; apply Qcle_refl]|]. split; [auto|]. intros m []. }
  destruct (IH HF N) as (mn & mx & -> & [I1 M1] & HB & HM). rewrite Forall_forall in HF. unfold lim_step.
  assert (V : forall q, In q l -> cvalid (Fin q) = true) by (intros q Hq; apply cvalid_true; exists q; split; [auto|apply HF; auto]). rewrite (V mn I1). cbn [negb orb]. change (vltb (Fin x) (Fin mn)) with (qltb x mn).
  assert (TL : forall m, In m (tl (l ++ [x])) <-> In m (tl l) \/ m = x). { intros m. destruct l as [|y l']; [congruence|]. cbn [app tl]. rewrite in_app_iff. cbn. intuition. }
  assert (MX : forall m, is_max (l ++ [x]) m -> In m l -> is_max l m). { intros m [_ H] Hm. split; [auto|]. intros z Hz. apply H. apply in_or_app; auto. }
  assert (TI : forall m, In m (tl l) -> In m l). { intros m Hm. destruct l; [contradiction|right; exact Hm]. }
  destruct (qltb_spec x mn) as [L|L].
  - exists x, mx. split; [reflexivity|]. split; [split; [apply in_or_app; cbn; auto|]; intros z Hz; apply in_app_or in Hz as [Hz|[<-|[]]]; [specialize (M1 z Hz); clear - L M1; qlra|apply Qcle_refl]|].
    split; [destruct HB as [HB|(b & Eb & Hb)]; [auto|right; exists b; split; [auto|apply in_or_app; auto]]|]. intros m Hm Hmax. apply TL in Hm as [Hm| ->]; [apply HM; auto|]. exfalso. destruct Hmax as [_ Hmax]. specialize (Hmax mn (in_or_app _ _ _ (or_introl I1))). clear - Hmax L. qlra.
  - assert (MN : is_min (l ++ [x]) mn). { split; [apply in_or_app; auto|]. intros z Hz. apply in_app_or in Hz as [Hz|[<-|[]]]; [apply M1; auto|apply Qcnot_lt_le; exact L]. }
    destruct HB as [->|(b & -> & Hb)].
    + change (cvalid CMV) with false. cbn [negb orb]. exists mn, (Fin x). split; [reflexivity|]. split; [exact MN|]. split; [right; exists x; split; [auto|apply in_or_app; cbn; auto]|].
      intros m Hm Hmax. apply TL in Hm as [Hm| ->]; [|reflexivity]. exfalso. specialize (HM m Hm (MX m Hmax (TI m Hm))). injection HM as <-. rewrite Forall_forall in Hx. apply (HF (qz (-999))); [apply TI; exact Hm|reflexivity].
    + rewrite (V b Hb). cbn [negb orb]. change (vltb (Fin b) (Fin x)) with (qltb b x). destruct (qltb_spec b x) as [L2|L2].
      * exists mn, (Fin x). split; [reflexivity|]. split; [exact MN|]. split; [right; exists x; split; [auto|apply in_or_app; cbn; auto]|]. intros m Hm Hmax. apply TL in Hm as [Hm| ->]; [|reflexivity]. exfalso. specialize (HM m Hm (MX m Hmax (TI m Hm))). injection HM as <-. destruct Hmax as [_ Hmax]. assert (Ix : In x (l ++ [x])) by (apply in_or_app; cbn; auto). specialize (Hmax x Ix). clear - Hmax L2. qlra.
      * exists mn, (Fin b). split; [reflexivity|]. split; [exact MN|]. split; [right; exists b; split; [auto|apply in_or_app; auto]|]. intros m Hm Hmax. apply TL in Hm as [Hm| ->]; [apply HM; auto|]. f_equal. apply Qcle_antisym; [|apply Qcnot_lt_le; exact L2]. destruct Hmax as [_ Hmax]. apply Hmax. apply in_or_app; auto.
Qed.
Lemma sorted_square ny nx r a b : StronglySorted before (square ny nx r a b).
Proof.
  unfold square. generalize (Z.max 0 (b - r)), (Z.min (nx - 1) (b + r) + 1). intros j0 j1.
  assert (R : forall i, StronglySorted before (map (fun jj => (i, jj)) (zrange j0 j1))).
  { intros i. remember (Z.to_nat (j1 - j0)) as n eqn:E. revert j0 E. induction n as [|n IH]; intros j0 E; [rewrite zrange_nil by lia; constructor|]. rewrite zrange_cons by lia. cbn [map]. constructor; [apply IH; lia|]. apply Forall_forall. intros z Hz. apply in_map_iff in Hz as (j & <- & Hj). apply in_zrange in Hj. right. cbn. lia. }
  generalize (Z.max 0 (a - r)), (Z.min (ny - 1) (a + r) + 1). intros i0 i1. remember (Z.to_nat (i1 - i0)) as n eqn:E. revert i0 E. induction n as [|n IH]; intros i0 E; [rewrite (zrange_nil i0 i1) by lia; constructor|]. rewrite (zrange_cons i0 i1) by lia. cbn [flat_map].
  assert (A : forall (x y : list (Z * Z)), StronglySorted before x -> StronglySorted before y -> (forall p q, In p x -> In q y -> before p q) -> StronglySorted before (x ++ y)).
  { induction x as [|p x IHx]; intros y Hx Hy H; [exact Hy|]. inversion Hx; subst. cbn [app]. constructor; [apply IHx; auto; intros; apply H; [right|]; auto|]. apply Forall_app. split; [auto|]. apply Forall_forall. intros q Hq. apply H; [left|]; auto. }
  apply A; [apply R|apply IH; lia|]. intros p q Hp Hq. apply in_map_iff in Hp as (j & <- & Hj). apply in_flat_map in Hq as (i & Hi & Hq). apply in_map_iff in Hq as (j' & <- & Hj'). apply in_zrange in Hi. left. cbn. lia.
Qed.
Lemma not_first ifd e ny nx r a b p p' m : In p (square ny nx r a b) -> In p' (square ny nx r a b) -> before p' p -> atf ifd e p = Fin m -> m <> missing_number -> ~ missing (atf ifd e p') ->
  In m (tl (present (map (atf ifd e) (square ny nx r a b)))).
Proof.
  intros Hp Hp' HB E N HM. pose proof (sorted_square ny nx r a b) as S. apply in_split in Hp as (s1 & s2 & ES). rewrite ES in *. apply in_app_or in Hp' as [Hp'|[->|Hp']].
  - rewrite map_app, present_app. cbn [map]. rewrite E, present_cons. destruct (Qc_eq_dec m missing_number); [contradiction|].
    assert (K : present (map (atf ifd e) s1) <> []). { apply in_split in Hp' as (t1 & t2 & ->). rewrite map_app, present_app. cbn [map]. rewrite present_cons. destruct (atf ifd e p') as [| | |q]; cbn in HM; try tauto. destruct (Qc_eq_dec q missing_number); [contradiction|]. destruct (present (map (atf ifd e) t1)); discriminate. }
    destruct (present (map (atf ifd e) s1)) as [|y l]; [congruence|]. cbn [app tl]. apply in_or_app. right. left. reflexivity.
  - exfalso. destruct HB; lia.
  - exfalso. assert (K : before p p'). { clear - S Hp'. induction s1 as [|x s1 IH]; cbn [app] in S; inversion S as [|? ? S1 S2]; subst; [rewrite Forall_forall in S2; auto|apply IH; auto]. } destruct HB, K; lia.
Qed.
Lemma limit_ok o d ifd e a b u : of_size d ifd -> 0 <= e < d_e d ->
  let nb := square (d_y d) (d_x d) (g_radius o) a b in let l := present (map (atf ifd e) nb) in
  exists w, limit_value o ifd e a b (Fin u) = Ok w /\
  ((forall q, In q l -> missing_number < q)%Qc -> forall mn mx, is_min l mn -> is_max l mx -> exists q, w = Fin q /\ (mn <= q <= mx)%Qc /\
    ((exists p p', In p nb /\ In p' nb /\ before p' p /\ atf ifd e p = Fin mx /\ ~ missing (atf ifd e p')) -> q = not_below (Some mn) (not_above (Some mx) u))).
Proof.
  intros SF He nb l. unfold limit_value. pose proof SF as (_ & S1 & S2 & _). rewrite S1, S2. fold nb. rewrite (lim_fold d ifd e (g_radius o) a b SF He nb (incl_refl _)). fold l. cbn [bind].
  assert (HF : Forall (fun q => q <> missing_number) l). { apply Forall_forall. intros q Hq. unfold l, present in Hq. apply filter_In in Hq as [_ Hq]. destruct (Qc_eq_dec q missing_number); [discriminate|auto]. }
  destruct (fold_left lim_step l (CMV, CMV)) as [mnv mxv] eqn:EF. eexists. split; [reflexivity|]. intros HG mn mx [I1 M1] [I2 M2]. assert (N : l <> []) by (intros K; rewrite K in I1; contradiction).
  destruct (lim_inv l HF N) as (mn' & mx' & E' & [J1 J2] & HB & HM). rewrite E' in EF. injection EF as <- <-. assert (mn' = mn) as -> by (apply Qcle_antisym; auto).
  assert (NB : forall z, (if vltb (Fin z) (Fin mn) then Fin mn else Fin z) = Fin (not_below (Some mn) z)). { intros z. change (vltb (Fin z) (Fin mn)) with (qltb z mn). cbn [not_below]. destruct (qltb_spec z mn), (Qclt_le_dec z mn) as [?|L]; auto; exfalso; [apply (Qclt_not_le _ _ q L)|auto]. }
  assert (NA : forall z y, (if vltb (Fin z) (Fin y) then Fin z else Fin y) = Fin (not_above (Some z) y)). { intros z y. change (vltb (Fin z) (Fin y)) with (qltb z y). cbn [not_above]. destruct (qltb_spec z y), (Qclt_le_dec z y) as [?|L]; auto; exfalso; [apply (Qclt_not_le _ _ q L)|auto]. }
  assert (LE : (mn <= mx)%Qc) by (apply M1; auto). destruct HB as [->|(b' & -> & Hb)].
  - change CMV with (Fin missing_number). rewrite NA, NB. eexists. split; [reflexivity|]. assert (E : not_below (Some mn) (not_above (Some missing_number) u) = mn).
    { specialize (HG mn I1). cbn [not_below not_above]. destruct (Qclt_le_dec missing_number u) as [L|L]; destruct (Qclt_le_dec _ mn) as [L2|L2]; auto; exfalso; clear - HG L L2; qlra. }
    rewrite E. split; [split; [apply Qcle_refl|exact LE]|]. intros (p & p' & Hp & Hp' & HB & Ep & Em). assert (Nm : mx <> missing_number) by (rewrite Forall_forall in HF; apply HF; auto).
    pose proof (HM mx (not_first ifd e _ _ _ _ _ p p' mx Hp Hp' HB Ep Nm Em)) as K. specialize (K (conj I2 M2)). exfalso. injection K as K. apply Nm. unfold missing_number. congruence.
  - rewrite NA, NB. eexists. split; [reflexivity|]. split.
    + pose proof (M1 b' Hb). pose proof (M2 b' Hb). cbn [not_below not_above]. destruct (Qclt_le_dec b' u) as [L|L]; destruct (Qclt_le_dec _ mn) as [L2|L2]; split; try apply Qcle_refl; auto. apply Qcle_trans with b'; auto.
    + intros (p & p' & Hp & Hp' & HB & Ep & Em). assert (Nm : mx <> missing_number) by (rewrite Forall_forall in HF; apply HF; auto). pose proof (HM mx (not_first ifd e _ _ _ _ _ p p' mx Hp Hp' HB Ep Nm Em) (conj I2 M2)) as K. injection K as ->. reflexivity.
Qed.

(** the value of an element *)
Lemma allowed_ok vmin vmax base u : (if (cvalid vmin && vltb (Fin u) vmin) || (cvalid vmax && vltb vmax (Fin u)) then Fin base else Fin u) = Fin (allowed vmin vmax base u).
Proof.
  assert (D : forall p q, qltb p q = if Qclt_le_dec p q then true else false). { intros p q. destruct (qltb_spec p q) as [L|L], (Qclt_le_dec p q) as [L2|L2]; auto; exfalso; apply (Qclt_not_le _ _ L L2). }
  unfold allowed. rewrite !cvalid_quantity. destruct (quantity vmin) as [a|] eqn:Q1; destruct (quantity vmax) as [b|] eqn:Q2; repeat match goal with H : quantity _ = Some _ |- _ => apply quantity_Some in H as [-> _] end; cbn [andb orb];
    try change (vltb (Fin u) (Fin a)) with (qltb u a); try change (vltb (Fin b) (Fin u)) with (qltb b u); rewrite ?D; repeat match goal with |- context [Qclt_le_dec ?x ?y] => destruct (Qclt_le_dec x y) end; reflexivity.
Qed.
Lemma moved_ok (expo : Qc -> Qc) (logt : bool) (base g : Qc) (elev1 elev0 l laf1 laf0 : val) :
  (let value := if cvalid elev1 && cvalid elev0 then let dElev : val := vsub elev1 elev0 in if logt then vmul (Fin base) (lift1 expo (vmul dElev (Fin g))) else vadd (Fin base) (vmul dElev (Fin g)) else Fin base in
   if cvalid laf1 && cvalid laf0 && cvalid l then vadd value (vmul (vsub laf1 laf0) l) else value) = Fin (moved expo logt base g elev1 elev0 l (quantity laf1) laf0).
Proof.
  unfold moved. rewrite !cvalid_quantity.
  assert (E : (if (if quantity elev1 then true else false) && (if quantity elev0 then true else false) then let dElev : val := vsub elev1 elev0 in if logt then vmul (Fin base) (lift1 expo (vmul dElev (Fin g))) else vadd (Fin base) (vmul dElev (Fin g)) else Fin base) =
    Fin match quantity elev1, quantity elev0 with Some z1, Some z0 => if logt then (base * expo ((z1 - z0) * g))%Qc else (base + (z1 - z0) * g)%Qc | _, _ => base end).
  { destruct (quantity elev1) as [z1|] eqn:Q1; [|reflexivity]. destruct (quantity elev0) as [z0|] eqn:Q0; [|reflexivity]. apply quantity_Some in Q1 as [-> _], Q0 as [-> _]. cbn [andb]. cbv zeta. rewrite vsub_Fin. destruct logt; reflexivity. }
  cbv zeta in *. rewrite E. destruct (quantity laf1) as [c1|] eqn:Q1; [|reflexivity]. destruct (quantity laf0) as [c0|] eqn:Q0; [|reflexivity]. destruct (quantity l) as [q|] eqn:Q; [|reflexivity]. apply quantity_Some in Q1 as [-> _], Q0 as [-> _], Q as [-> _]. reflexivity.
Qed.
Section File.
  Variables (D : Qc -> Qc -> Qc -> Qc -> Qc) (expo : Qc -> Qc) (lg : val -> val) (vmin vmax : val) (di d : dims) (ilats ilons ielevs ilafs olats olons oelevs olafs : list vec) (m : list (list (Z * Z))) (ifs gfs ofs : list field)
    (o : gopts) (minDiff minLaf default minLafDiff minSea : Qc) (ws : list Qc).
  Hypothesis ST : setting D di d ilats ilons ielevs ilafs olats olons oelevs olafs m ifs gfs ofs o minDiff minLaf default minLafDiff minSea ws.
  Definition pairs_of (gfd : field) (e : Z) (nb : list (Z * Z)) : list (Qc * Qc) := flat_map (fun p => elev_pair (if g_log o then lg else fun v => v) minLaf (at2 ielevs p) (atf gfd e p) (at2 ilafs p)) nb.
  Definition laf_conditions : Prop := (0 < minLafDiff)%Qc /\ StronglySorted Z.le (g_laf_radii o) /\ Forall (fun w => 0 < w)%Qc ws.
  Definition result_rule (ifd gfd : field) (y x e a b : Z) (base w : val) : Prop :=
    (missing base -> w = base) /\
    (forall q, base = Fin q -> ~ missing base -> exists nb g l c, neighbours (d_y di) (d_x di) (g_radius o) a b nb /\
      ((quantity (g_constant o) = None -> not_unstable (pairs_of gfd e nb)) -> elev_rule o minDiff default (pairs_of gfd e nb) g) /\
      (laf_conditions -> laf_rule (d_y di) (d_x di) a b minLafDiff minSea g (at2 ielevs) (at2 ilafs) (atf ifd e) (g_laf_radii o) ws l) /\
      laf_of_point (d_y d) (d_x d) (g_laf_radius o) y x olafs c /\
      (g_save o = SaveElev -> w = Fin g) /\ (g_save o = SaveLaf -> w = l) /\
      (g_save o = SaveNothing -> let u := allowed vmin vmax q (moved expo (g_log o) q g (at2 oelevs (y, x)) (at2 ielevs (a, b)) l c (at2 ilafs (a, b))) in
        (g_limit o = false -> w = Fin u) /\ (g_limit o = true -> limited nb (atf ifd e) u w))).
  Lemma value_ok ifd gfd ei li y x e a b base : of_size di ifd -> of_size di gfd -> 0 <= y < d_y d -> 0 <= x < d_x d -> 0 <= e < d_e di -> get2 m y x = Ok (a, b) -> 0 <= a < d_y di -> 0 <= b < d_x di ->
    get2 ei y x = Ok (at2 ielevs (a, b)) -> get2 li y x = Ok (at2 ilafs (a, b)) ->
    exists w, gradient_value (lift1 expo) lg o vmin vmax d ifd gfd ielevs ilafs oelevs olafs ei li m base y x e = Ok w /\ result_rule ifd gfd y x e a b base w.
  Proof.
    intros SI SG Hy Hx He Em Ha Hb Eei Eli. destruct ST. unfold gradient_value. rewrite Em. cbn [bind]. destruct (point_laf_ok o d olafs y x st_olafs Hy Hx) as (cv & Ec & Hc). rewrite Ec. cbn [bind].
    unfold result_rule. rewrite (cvalid_quantity base). destruct (quantity base) as [q|] eqn:QB; cbn [negb].
    2:{ exists base. split; [reflexivity|]. apply quantity_None in QB. split; [auto|]. intros q _ K. contradiction. }
    destruct (elev_ok lg o minLaf minDiff default di ifd gfd ielevs ilafs e a b st_min_laf st_min_diff st_default SI SG st_ielevs st_ilafs He) as (g & Eg & Hg). rewrite Eg. cbn [bind].
    destruct (laf_ok o di ifd ielevs ilafs e a b g minLafDiff minSea SI st_ielevs st_ilafs He st_min_laf_diff st_min_sea ws st_weights st_lengths) as (l & El & Hl). rewrite El. cbn [bind].
    set (nb := square (d_y di) (d_x di) (g_radius o) a b) in *. assert (EP : epairs lg o minLaf gfd ielevs ilafs e nb = pairs_of gfd e nb). { unfold epairs, pairs_of, tr_of. destruct (g_log o); reflexivity. } rewrite EP in Hg.
    assert (Hl' : laf_conditions -> laf_rule (d_y di) (d_x di) a b minLafDiff minSea g (at2 ielevs) (at2 ilafs) (atf ifd e) (g_laf_radii o) ws l) by (intros (A1 & A2 & A3); apply Hl; auto).
    apply quantity_Some in QB as [-> NB]. assert (M0 : forall w, missing (Fin q) -> w = Fin q) by (intros w K; cbn in K; contradiction).
    destruct (g_save o) eqn:ESV.
    - rewrite Eei, Eli. destruct (rect_get2 _ _ oelevs y x st_oelevs Hy Hx) as [oe Eoe]. rewrite Eoe. cbn [bind]. assert (Aoe : at2 oelevs (y, x) = oe) by (unfold at2; cbn [fst snd]; rewrite Eoe; reflexivity).
      pose proof (moved_ok expo (g_log o) q g oe (at2 ielevs (a, b)) l cv (at2 ilafs (a, b))) as EM. cbv zeta in EM |- *. rewrite EM. rewrite allowed_ok. rewrite <- Aoe. set (u := allowed vmin vmax q _). fold u.
      destruct (g_limit o) eqn:ELM.
      + destruct (limit_ok o di ifd e a b u SI He) as (w & Ew & Hw). exists w. split; [exact Ew|]. split; [intros K; apply M0; auto|]. intros q0 [= <-] _. exists nb, g, l, (quantity cv). split; [apply square_neighbours|]. split; [exact Hg|]. split; [exact Hl'|]. split; [exact Hc|]. split; [discriminate|]. split; [discriminate|]. intros _. split; [discriminate|]. intros _. exact Hw.
      + eexists. split; [reflexivity|]. split; [intros K; apply M0; auto|]. intros q0 [= <-] _. exists nb, g, l, (quantity cv). split; [apply square_neighbours|]. split; [exact Hg|]. split; [exact Hl'|]. split; [exact Hc|]. split; [discriminate|]. split; [discriminate|]. intros _. split; [intros _; reflexivity|discriminate].
    - eexists. split; [reflexivity|]. split; [intros K; apply M0; auto|]. intros q0 [= <-] _. exists nb, g, l, (quantity cv). split; [apply square_neighbours|]. split; [exact Hg|]. split; [exact Hl'|]. split; [exact Hc|]. split; [auto|]. split; [discriminate|discriminate].
    - eexists. split; [reflexivity|]. split; [intros K; apply M0; auto|]. intros q0 [= <-] _. exists nb, g, l, (quantity cv). split; [apply square_neighbours|]. split; [exact Hg|]. split; [exact Hl'|]. split; [exact Hc|]. split; [discriminate|]. split; [auto|discriminate].
  Qed.
  Lemma nearest_at y x lat lon : point olats olons y x lat lon -> exists a b, get2 m y x = Ok (a, b) /\ is_nearest (D lat lon) ilats ilons a b /\ 0 <= a < d_y di /\ 0 <= b < d_x di.
  Proof.
    intros HP. destruct ST. pose proof HP as (E1 & E2 & _). destruct st_map as [_ NM]. destruct (NM y x _ _ E1 E2) as [_ N2]. destruct (N2 lat lon HP) as (a & b & Em & Ne). destruct (nearest_in _ _ _ _ _ _ _ st_input Ne) as [Ha Hb]. eauto 6.
  Qed.
  Lemma nearest_vec_ok g : rect (d_y di) (d_x di) g -> all_points d olats olons -> exists out, nearest_vec m d g = Ok out /\ forall y x a b, 0 <= y < d_y d -> 0 <= x < d_x d -> get2 m y x = Ok (a, b) -> get2 out y x = Ok (at2 g (a, b)).
  Proof.
    intros R HA. destruct (st_output _ _ _ _ _ _ _ _ _ _ _ _ _ _ _ _ _ _ _ _ _ _ ST) as (Gy & Gx & _). unfold nearest_vec.
    destruct (map2_ok (d_y d) (d_x d) (fun i j => '(Ic, Jc) <- get2 m i j;; _ <- assert_ ((0 <=? Ic) && (Ic <? zlen g));; row <- znth g Ic;; _ <- assert_ ((0 <=? Jc) && (Jc <? zlen row));; znth row Jc) (fun y x v => forall a b, get2 m y x = Ok (a, b) -> v = at2 g (a, b))) as (out & Eo & _ & Ho); [lia|lia| |].
    - intros y x Hy Hx. destruct (HA y x Hy Hx) as (lat & lon & HP). destruct (nearest_at y x lat lon HP) as (a & b & Em & _ & Ha & Hb). rewrite Em. cbn [bind]. rewrite (proj1 R). replace ((0 <=? a) && (a <? d_y di)) with true by lia. cbn [assert_ bind].
      destruct (rect_get2 _ _ g a b R Ha Hb) as [v Hv]. assert (Av : at2 g (a, b) = v) by (unfold at2; cbn [fst snd]; rewrite Hv; reflexivity). unfold get2 in Hv. apply bind_Ok in Hv as (row & Hr & Hv). rewrite Hr. cbn [bind]. rewrite (proj2 R row) by (eapply znth_In; eauto). replace ((0 <=? b) && (b <? d_x di)) with true by lia. cbn [assert_ bind]. exists v. split; [exact Hv|]. intros a' b' [= <- <-]. auto.
    - exists out. split; [exact Eo|]. intros y x a b Hy Hx Em. destruct (Ho y x Hy Hx) as (v & Ev & _ & Hv). rewrite Ev. f_equal. apply Hv. exact Em.
  Qed.
  Lemma file_ok : all_points d olats olons ->
    exists out, downscale (d_t di) d ofs (gradient_downscaler (lift1 expo) lg o vmin vmax ielevs ilafs oelevs olafs m ifs gfs) = Ok (true, out) /\ shaped d out /\
    forall t y x e lat lon, 0 <= t < d_t d -> within d y x e -> point olats olons y x lat lon -> exists a b ifd gfd v w,
      is_nearest (D lat lon) ilats ilons a b /\ znth ifs t = Ok ifd /\ znth gfs t = Ok gfd /\ element ifs t a b e v /\ element out t y x e w /\ result_rule ifd gfd y x e a b v w.
  Proof.
    intros HA. pose proof ST as ST'. destruct ST'. unfold downscale. rewrite st_times, Z.eqb_refl. cbn [negb]. unfold gradient_downscaler. rewrite st_weights, zlen_map, st_lengths, Z.eqb_refl. cbn [assert_ bind].
    destruct (nearest_vec_ok ielevs st_ielevs HA) as (ei & Eei & Hei). destruct (nearest_vec_ok ilafs st_ilafs HA) as (li & Eli & Hli).
    match goal with |- context [each_time d ?bd] => destruct (each_time_ok d ofs bd (fun t g => forall y x e, within d y x e -> exists w, f_get g y x e = Ok w /\ forall a b, get2 m y x = Ok (a, b) -> exists ifd gfd v, znth ifs t = Ok ifd /\ znth gfs t = Ok gfd /\ element ifs t a b e v /\ result_rule ifd gfd y x e a b v w) st_ofs) as (out & E & S & G) end.
    { intros t Ht. destruct (shaped_nth di ifs t st_ifs) as (ifd & Ei & Si); [lia|]. destruct (shaped_nth di gfs t st_gfs) as (gfd & Eg & Sg); [lia|]. destruct (shaped_nth d ofs t st_ofs Ht) as (f & Ef & Sf). rewrite Ei, Eg, Ef, Eei, Eli. cbn [bind]. apply for3_ok; [exact Sf|].
      intros f1 y x e v0 S1 (W1 & W2 & W3) _ _. left. destruct (HA y x W1 W2) as (lat & lon & HP). destruct (nearest_at y x lat lon HP) as (a & b & Em & _ & Ha & Hb).
      destruct (shaped_elem di ifs t a b e st_ifs) as (v & Ev & Ev'); [lia|repeat split; lia|]. unfold nearest_value. rewrite Em. cbn [bind]. rewrite !ivalid_nonneg by lia. cbn [andb]. rewrite Ev'. cbn [bind].
      destruct (value_ok ifd gfd ei li y x e a b v) as (w & Ew & Hw); auto; [lia|]. rewrite Ew. cbn [bind]. exists w. split; [reflexivity|]. intros a' b' E'. injection E' as <- <-. exists ifd, gfd, v. auto. }
    rewrite E. cbn [bind]. exists out. split; [reflexivity|]. split; [exact S|]. intros t y x e lat lon Ht W HP. destruct (nearest_at y x lat lon HP) as (a & b & Em & Ne & _). destruct (G t Ht) as (gg & Egg & Hgg). destruct (Hgg y x e W) as (w & Ew & Hw). destruct (Hw a b Em) as (ifd & gfd & v & Ei & Eg & Ev & HR).
    exists a, b, ifd, gfd, v, w. repeat split; auto; try apply HR; try (exists gg; auto). 
  Qed.
End File.

Lemma c178 D expo lg vmin vmax di d ilats ilons ielevs ilafs olats olons oelevs olafs m ifs gfs ofs o minDiff minLaf default minLafDiff minSea ws :
  setting D di d ilats ilons ielevs ilafs olats olons oelevs olafs m ifs gfs ofs o minDiff minLaf default minLafDiff minSea ws -> all_points d olats olons -> g_save o = SaveElev ->
  exists out, downscale (d_t di) d ofs (gradient_downscaler (lift1 expo) lg o vmin vmax ielevs ilafs oelevs olafs m ifs gfs) = Ok (true, out) /\ shaped d out /\
  forall t y x e lat lon, 0 <= t < d_t d -> within d y x e -> point olats olons y x lat lon -> exists a b gfd v w,
    is_nearest (D lat lon) ilats ilons a b /\ znth gfs t = Ok gfd /\ element ifs t a b e v /\ element out t y x e w /\
    (missing v -> w = v) /\
    (~ missing v -> exists nb g, neighbours (d_y di) (d_x di) (g_radius o) a b nb /\ w = Fin g /\
      let l := flat_map (fun p => elev_pair (if g_log o then lg else fun v => v) minLaf (at2 ielevs p) (atf gfd e p) (at2 ilafs p)) nb in
      ((quantity (g_constant o) = None -> not_unstable l) -> elev_rule o minDiff default l g)).
Proof.
  intros ST HA HS. destruct (file_ok D expo lg vmin vmax di d ilats ilons ielevs ilafs olats olons oelevs olafs m ifs gfs ofs o minDiff minLaf default minLafDiff minSea ws ST HA) as (out & E & S & H). exists out. split; [exact E|]. split; [exact S|].
  intros t y x e lat lon Ht W HP. destruct (H t y x e lat lon Ht W HP) as (a & b & ifd & gfd & v & w & Ne & Ei & Eg & Ev & Ew & R1 & R2). exists a, b, gfd, v, w. split; [exact Ne|]. split; [exact Eg|]. split; [exact Ev|]. split; [exact Ew|]. split; [exact R1|].
  intros HM. destruct v as [| | |q]; try (exfalso; apply HM; exact Logic.I). destruct (R2 q eq_refl HM) as (nb & g & l & c & Nb & Hg & _ & _ & Hw & _). exists nb, g. split; [exact Nb|]. split; [auto|]. exact Hg.
Qed.
Lemma c179 D expo lg vmin vmax di d ilats ilons ielevs ilafs olats olons oelevs olafs m ifs gfs ofs o minDiff minLaf default minLafDiff minSea ws :
  setting D di d ilats ilons ielevs ilafs olats olons oelevs olafs m ifs gfs ofs o minDiff minLaf default minLafDiff minSea ws -> all_points d olats olons -> g_save o = SaveLaf ->
  (0 < minLafDiff)%Qc -> StronglySorted Z.le (g_laf_radii o) -> Forall (fun w => 0 < w)%Qc ws ->
  exists out, downscale (d_t di) d ofs (gradient_downscaler (lift1 expo) lg o vmin vmax ielevs ilafs oelevs olafs m ifs gfs) = Ok (true, out) /\ shaped d out /\
  forall t y x e lat lon, 0 <= t < d_t d -> within d y x e -> point olats olons y x lat lon -> exists a b ifd gfd v w,
    is_nearest (D lat lon) ilats ilons a b /\ znth ifs t = Ok ifd /\ znth gfs t = Ok gfd /\ element ifs t a b e v /\ element out t y x e w /\
    (missing v -> w = v) /\
    (~ missing v -> exists nb g, neighbours (d_y di) (d_x di) (g_radius o) a b nb /\
      (let l := flat_map (fun p => elev_pair (if g_log o then lg else fun v => v) minLaf (at2 ielevs p) (atf gfd e p) (at2 ilafs p)) nb in
       (quantity (g_constant o) = None -> not_unstable l) -> elev_rule o minDiff default l g) /\
      laf_rule (d_y di) (d_x di) a b minLafDiff minSea g (at2 ielevs) (at2 ilafs) (atf ifd e) (g_laf_radii o) ws w).
Proof.
  intros ST HA HS L1 L2 L3. destruct (file_ok D expo lg vmin vmax di d ilats ilons ielevs ilafs olats olons oelevs olafs m ifs gfs ofs o minDiff minLaf default minLafDiff minSea ws ST HA) as (out & E & S & H). exists out. split; [exact E|]. split; [exact S|].
  intros t y x e lat lon Ht W HP. destruct (H t y x e lat lon Ht W HP) as (a & b & ifd & gfd & v & w & Ne & Ei & Eg & Ev & Ew & R1 & R2). exists a, b, ifd, gfd, v, w. split; [exact Ne|]. split; [exact Ei|]. split; [exact Eg|]. split; [exact Ev|]. split; [exact Ew|]. split; [exact R1|].
  intros HM. destruct v as [| | |q]; try (exfalso; apply HM; exact Logic.I). destruct (R2 q eq_refl HM) as (nb & g & l & c & Nb & Hg & Hl & _ & _ & Hw & _). exists nb, g. split; [exact Nb|]. split; [exact Hg|]. rewrite (Hw HS). apply Hl. repeat split; auto.
Qed.
Lemma c180 D expo lg vmin vmax di d ilats ilons ielevs ilafs olats olons oelevs olafs m ifs gfs ofs o minDiff minLaf default minLafDiff minSea ws :
  setting D di d ilats ilons ielevs ilafs olats olons oelevs olafs m ifs gfs ofs o minDiff minLaf default minLafDiff minSea ws -> all_points d olats olons -> g_save o = SaveNothing -> g_limit o = false ->
  (0 < minLafDiff)%Qc -> StronglySorted Z.le (g_laf_radii o) -> Forall (fun w => 0 < w)%Qc ws ->
  exists out, downscale (d_t di) d ofs (gradient_downscaler (lift1 expo) lg o vmin vmax ielevs ilafs oelevs olafs m ifs gfs) = Ok (true, out) /\ shaped d out /\
  forall t y x e lat lon, 0 <= t < d_t d -> within d y x e -> point olats olons y x lat lon -> exists a b ifd gfd v w,
    is_nearest (D lat lon) ilats ilons a b /\ znth ifs t = Ok ifd /\ znth gfs t = Ok gfd /\ element ifs t a b e v /\ element out t y x e w /\
    (missing v -> w = v) /\
    (forall q, v = Fin q -> ~ missing v -> exists nb g l c, neighbours (d_y di) (d_x di) (g_radius o) a b nb /\
      (let l := flat_map (fun p => elev_pair (if g_log o then lg else fun v => v) minLaf (at2 ielevs p) (atf gfd e p) (at2 ilafs p)) nb in
       (quantity (g_constant o) = None -> not_unstable l) -> elev_rule o minDiff default l g) /\
      laf_rule (d_y di) (d_x di) a b minLafDiff minSea g (at2 ielevs) (at2 ilafs) (atf ifd e) (g_laf_radii o) ws l /\
      laf_of_point (d_y d) (d_x d) (g_laf_radius o) y x olafs c /\
      w = Fin (allowed vmin vmax q (moved expo (g_log o) q g (at2 oelevs (y, x)) (at2 ielevs (a, b)) l c (at2 ilafs (a, b))))).
Proof.
  intros ST HA HS HL L1 L2 L3. destruct (file_ok D expo lg vmin vmax di d ilats ilons ielevs ilafs olats olons oelevs olafs m ifs gfs ofs o minDiff minLaf default minLafDiff minSea ws ST HA) as (out & E & S & H). exists out. split; [exact E|]. split; [exact S|].
  intros t y x e lat lon Ht W HP. destruct (H t y x e lat lon Ht W HP) as (a & b & ifd & gfd & v & w & Ne & Ei & Eg & Ev & Ew & R1 & R2). exists a, b, ifd, gfd, v, w. split; [exact Ne|]. split; [exact Ei|]. split; [exact Eg|]. split; [exact Ev|]. split; [exact Ew|]. split; [exact R1|].
  intros q Eq HM. destruct (R2 q Eq HM) as (nb & g & l & c & Nb & Hg & Hl & Hc & _ & _ & Hw). exists nb, g, l, c. split; [exact Nb|]. split; [exact Hg|]. split; [apply Hl; repeat split; auto|]. split; [exact Hc|]. apply (Hw HS). exact HL.
Qed.
Lemma c181 D expo lg vmin vmax di d ilats ilons ielevs ilafs olats olons oelevs olafs m ifs gfs ofs o minDiff minLaf default minLafDiff minSea ws :
  setting D di d ilats ilons ielevs ilafs olats olons oelevs olafs m ifs gfs ofs o minDiff minLaf default minLafDiff minSea ws -> all_points d olats olons -> g_save o = SaveNothing -> g_limit o = true ->
  exists out, downscale (d_t di) d ofs (gradient_downscaler (lift1 expo) lg o vmin vmax ielevs ilafs oelevs olafs m ifs gfs) = Ok (true, out) /\ shaped d out /\
  forall t y x e lat lon, 0 <= t < d_t d -> within d y x e -> point olats olons y x lat lon -> exists a b ifd gfd v w,
    is_nearest (D lat lon) ilats ilons a b /\ znth ifs t = Ok ifd /\ znth gfs t = Ok gfd /\ element ifs t a b e v /\ element out t y x e w /\
    (missing v -> w = v) /\
    (forall q, v = Fin q -> ~ missing v -> exists nb g l c, neighbours (d_y di) (d_x di) (g_radius o) a b nb /\
      (let l := flat_map (fun p => elev_pair (if g_log o then lg else fun v => v) minLaf (at2 ielevs p) (atf gfd e p) (at2 ilafs p)) nb in
       (quantity (g_constant o) = None -> not_unstable l) -> elev_rule o minDiff default l g) /\
      ((0 < minLafDiff)%Qc /\ StronglySorted Z.le (g_laf_radii o) /\ Forall (fun w => 0 < w)%Qc ws ->
       laf_rule (d_y di) (d_x di) a b minLafDiff minSea g (at2 ielevs) (at2 ilafs) (atf ifd e) (g_laf_radii o) ws l) /\
      laf_of_point (d_y d) (d_x d) (g_laf_radius o) y x olafs c /\
      limited nb (atf ifd e) (allowed vmin vmax q (moved expo (g_log o) q g (at2 oelevs (y, x)) (at2 ielevs (a, b)) l c (at2 ilafs (a, b)))) w).
Proof.
  intros ST HA HS HL. destruct (file_ok D expo lg vmin vmax di d ilats ilons ielevs ilafs olats olons oelevs olafs m ifs gfs ofs o minDiff minLaf default minLafDiff minSea ws ST HA) as (out & E & S & H). exists out. split; [exact E|]. split; [exact S|].
  intros t y x e lat lon Ht W HP. destruct (H t y x e lat lon Ht W HP) as (a & b & ifd & gfd & v & w & Ne & Ei & Eg & Ev & Ew & R1 & R2). exists a, b, ifd, gfd, v, w. split; [exact Ne|]. split; [exact Ei|]. split; [exact Eg|]. split; [exact Ev|]. split; [exact Ew|]. split; [exact R1|].
  intros q Eq HM. destruct (R2 q Eq HM) as (nb & g & l & c & Nb & Hg & Hl & Hc & _ & _ & Hw). exists nb, g, l, c. split; [exact Nb|]. split; [exact Hg|]. split; [intros K; apply Hl; exact K|]. split; [exact Hc|]. apply (Hw HS). exact HL.
Qed.
(** points without coordinates *)
Lemma mapM_abort {A B} (f : A -> res B) l : (forall x, In x l -> (exists v, f x = Ok v) \/ f x = Abort) -> (exists x, In x l /\ f x = Abort) -> mapM f l = Abort.
Proof.
  induction l as [|x l IH]; intros H (z & Hz & Ez); [contradiction|]. cbn [mapM]. destruct (H x (or_introl eq_refl)) as [[v Ev]|Ev]; rewrite Ev; [|reflexivity]. cbn [bind].
  rewrite IH; [reflexivity|intros; apply H; right; auto|]. exists z. destruct Hz as [->|Hz]; [congruence|auto].
Qed.
Lemma mapM_outcome {A B} (f : A -> res B) l : (forall x, In x l -> (exists v, f x = Ok v) \/ f x = Abort) -> (exists v, mapM f l = Ok v) \/ mapM f l = Abort.
Proof.
  induction l as [|x l IH]; intros H; cbn [mapM]; [left; eauto|]. destruct (H x (or_introl eq_refl)) as [[v Ev]|Ev]; rewrite Ev; [|auto]. cbn [bind]. destruct IH as [[w Ew]|Ew]; [intros; apply H; right; auto| |]; rewrite Ew; cbn [bind]; [left; eauto|auto].
Qed.
Lemma c180_coordinates D expo lg vmin vmax di d ilats ilons ielevs ilafs olats olons oelevs olafs m ifs gfs ofs o minDiff minLaf default minLafDiff minSea ws :
  setting D di d ilats ilons ielevs ilafs olats olons oelevs olafs m ifs gfs ofs o minDiff minLaf default minLafDiff minSea ws -> 0 < d_t d ->
  (exists y x, 0 <= y < d_y d /\ 0 <= x < d_x d /\ forall lat lon, ~ point olats olons y x lat lon) ->
  downscale (d_t di) d ofs (gradient_downscaler (lift1 expo) lg o vmin vmax ielevs ilafs oelevs olafs m ifs gfs) = Abort.
Proof.
  intros ST HT (y0 & x0 & Hy0 & Hx0 & HP0). pose proof ST as ST'. destruct ST'. unfold downscale. rewrite st_times, Z.eqb_refl. cbn [negb]. unfold gradient_downscaler. rewrite st_weights, zlen_map, st_lengths, Z.eqb_refl. cbn [assert_ bind].
  assert (NV : nearest_vec m d ielevs = Abort).
  { destruct st_output as (Gy & Gx & R1 & R2). destruct st_map as [Rm NM]. unfold nearest_vec.
    assert (PT : forall y x, 0 <= y < d_y d -> 0 <= x < d_x d -> (exists a b, get2 m y x = Ok (a, b) /\ 0 <= a < d_y di /\ 0 <= b < d_x di /\ exists lat lon, point olats olons y x lat lon) \/ get2 m y x = Ok (-999, -999)).
    { intros y x Hy Hx. destruct (rect_get2 _ _ olats y x R1 Hy Hx) as [la Ela]. destruct (rect_get2 _ _ olons y x R2 Hy Hx) as [lo Elo]. destruct (NM y x la lo Ela Elo) as [N1 N2].
      destruct (outcome_cases la lo) as [K|[K|(lat & lon & -> & -> & n1 & n2)]]; [right; apply N1; auto..|]. left. assert (HP : point olats olons y x lat lon) by (repeat split; auto).
      destruct (N2 lat lon HP) as (a & b & Em & Ne). destruct (nearest_in _ _ _ _ _ _ _ st_input Ne) as [Ha Hb]. exists a, b. eauto 8. }
    match goal with |- mapM (fun i => mapM (@?F i) _) _ = _ => pose (f := F); change (mapM (fun i => mapM (f i) (zrange 0 (d_x d))) (zrange 0 (d_y d)) = Abort) end.
    assert (FO : forall y x, 0 <= y < d_y d -> 0 <= x < d_x d -> (exists v, f y x = Ok v) \/ f y x = Abort).
    { intros y x Hy Hx. unfold f. destruct (PT y x Hy Hx) as [(a & b & Em & Ha & Hb & _)|Em]; rewrite Em; cbn [bind]; [|right; reflexivity]. left. rewrite (proj1 st_ielevs). replace ((0 <=? a) && (a <? d_y di)) with true by lia. cbn [assert_ bind].
      destruct (rect_get2 _ _ ielevs a b st_ielevs Ha Hb) as [v Hv]. unfold get2 in Hv. apply bind_Ok in Hv as (row & Hr & Hv). rewrite Hr. cbn [bind]. rewrite (proj2 st_ielevs row) by (eapply znth_In; eauto). replace ((0 <=? b) && (b <? d_x di)) with true by lia. cbn [assert_ bind]. eauto. }
    apply mapM_abort.
    - intros y Hy. apply in_zrange in Hy. apply mapM_outcome. intros x Hx. apply in_zrange in Hx. apply FO; lia.
    - exists y0. split; [apply in_zrange; lia|]. apply mapM_abort; [intros x Hx; apply in_zrange in Hx; apply FO; lia|]. exists x0. split; [apply in_zrange; lia|]. unfold f. destruct (PT y0 x0 Hy0 Hx0) as [(a & b & _ & _ & _ & lat & lon & HP)|Em]; [exfalso; apply (HP0 lat lon HP)|]. rewrite Em. reflexivity. }
  unfold each_time. rewrite mapM_abort; [reflexivity| |].
  - intros t Ht. apply in_zrange in Ht. right. destruct (shaped_nth di ifs t st_ifs) as (ifd & Ei & _); [lia|]. destruct (shaped_nth di gfs t st_gfs) as (gfd & Eg & _); [lia|]. destruct (shaped_nth d ofs t st_ofs Ht) as (f & Ef & _). rewrite Ei, Eg, Ef, NV. reflexivity.
  - exists 0. split; [apply in_zrange; lia|]. destruct (shaped_nth di ifs 0 st_ifs) as (ifd & Ei & _); [lia|]. destruct (shaped_nth di gfs 0 st_gfs) as (gfd & Eg & _); [lia|]. destruct (shaped_nth d ofs 0 st_ofs) as (f & Ef & _); [lia|]. rewrite Ei, Eg, Ef, NV. reflexivity.
Qed.

(** cases *)
Lemma rect3 (a b c : val) : rect 1 3 (row3 a b c).
Proof. split; [reflexivity|]. intros r [<-|[]]. reflexivity. Qed.
Lemma rect1 {A} (a : A) : rect 1 1 [[a]].
Proof. split; [reflexivity|]. intros r [<-|[]]. reflexivity. Qed.
Lemma shaped3 a b c : shaped dims3 [field3 a b c].
Proof. repeat split; cbn; try lia. constructor; [|constructor]. repeat split; cbn; lia. Qed.
Lemma demo e0 e1 e2 l0 l1 l2 v0 v1 v2 g0 g1 g2 oe ol o minDiff minLaf default minLafDiff minSea ws :
  g_min_diff o = Fin minDiff -> g_min_laf o = Fin minLaf -> g_default o = Fin default -> g_min_laf_diff o = Fin minLafDiff -> g_min_sea o = Fin minSea -> g_laf_weights o = map Fin ws -> zlen (g_laf_radii o) = zlen ws ->
  setting east dims3 (dims1 1) (row3 (fz 60) (fz 60) (fz 60)) (row3 (fz 10) (fz 11) (fz 12)) (row3 e0 e1 e2) (row3 l0 l1 l2) [[fz 60]] [[fz 10]] [[oe]] [[ol]] [[(0, 0)]] [field3 v0 v1 v2] [field3 g0 g1 g2] [field1 CMV]
    o minDiff minLaf default minLafDiff minSea ws.
Proof.
  intros. constructor; auto; try apply rect3; try apply rect1; try apply shaped3; try (cbn; lia).
  - repeat split; try (cbn; lia); intros r [<-|[]]; reflexivity.
  - repeat split; try (cbn; lia); intros r [<-|[]]; reflexivity.
  - split; [apply rect1|]. intros i j la lo E1 E2. destruct (get2_range _ 1 1 i j _ (rect1 _) E1) as [Hi Hj]. assert (i = 0) by lia. assert (j = 0) by lia. subst i j. split.
    + cbn in E1, E2. injection E1 as <-. injection E2 as <-. intros [K|K]; vm_compute in K; discriminate K.
    + intros lat lon (P1 & P2 & _). cbn in P1, P2. injection P1 as <-. injection P2 as <-. exists 0, 0. split; [reflexivity|]. exists (qz 60), (qz 10). split; [repeat split; vm_compute; discriminate|].
      intros i j la' lo' (Q1 & Q2 & _). unfold east. replace ((qz 10 - qz 10) * (qz 10 - qz 10))%Qc with 0%Qc by ring. apply qsq_nonneg.
  - apply (shaped1 [CMV]).
Qed.
Lemma demo_points : all_points (dims1 1) [[fz 60]] [[fz 10]].
Proof. intros y x Hy Hx. cbn in Hy, Hx. assert (y = 0) by lia. assert (x = 0) by lia. subst. exists (qz 60), (qz 10). repeat split; vm_compute; discriminate. Qed.
Lemma c178_refuted : exists o ielevs ilafs oelevs olafs vs minDiff minLaf default minLafDiff minSea ws,
  setting east dims3 (dims1 1) (row3 (fz 60) (fz 60) (fz 60)) (row3 (fz 10) (fz 11) (fz 12)) ielevs ilafs [[fz 60]] [[fz 10]] oelevs olafs [[(0, 0)]] [vs] [vs] [field1 CMV] o minDiff minLaf default minLafDiff minSea ws /\
  all_points (dims1 1) [[fz 60]] [[fz 10]] /\ g_save o = SaveElev /\ quantity (g_constant o) = None /\ quantity (g_min o) = None /\ quantity (g_max o) = None /\
  (let nb := [(0, 0); (0, 1); (0, 2)] in let l := flat_map (fun p => elev_pair (fun v => v) minLaf (at2 ielevs p) (atf vs 0 p) (at2 ilafs p)) nb in
   neighbours 1 3 (g_radius o) 0 0 nb /\ enough (g_min_num o) minDiff l /\ ~ best_slope l 0 /\
   forall expo lg vmin vmax, downscale 1 (dims1 1) [field1 CMV] (gradient_downscaler (lift1 expo) lg o vmin vmax ielevs ilafs oelevs olafs [[(0, 0)]] [vs] [vs]) = Ok (true, [field1 (Fin 0%Qc)])).
Proof.
  exists {| g_constant := CMV; g_radius := 3; g_min_diff := fz 30; g_default := fz 0; g_min := CMV; g_max := CMV; g_min_laf := fz 0; g_min_num := 2;
    g_laf_radius := 0; g_min_laf_diff := fq (1 # 10); g_min_sea := fz 0; g_laf_radii := []; g_laf_weights := []; g_laf_lo := CMV; g_laf_hi := CMV; g_log := false; g_limit := false; g_save := SaveElev |},
    (row3 (fz 0) (fz 100) (fz 0)), (row3 (fz 1) (fz 1) (fz 1)), [[fz 50]], [[fz 1]], (field3 (fz 280) (fz 270) (fz 280)), (qz 30), (qz 0), (qz 0), (Q2Qc (1 # 10)), (qz 0), [].
  split; [apply demo; reflexivity|]. split; [exact demo_points|]. split; [reflexivity|]. split; [reflexivity|]. split; [reflexivity|]. split; [reflexivity|]. cbv zeta.
  assert (EL : flat_map (fun p => elev_pair (fun v => v) (qz 0) (at2 (row3 (fz 0) (fz 100) (fz 0)) p) (atf (field3 (fz 280) (fz 270) (fz 280)) 0 p) (at2 (row3 (fz 1) (fz 1) (fz 1)) p)) [(0, 0); (0, 1); (0, 2)] = [(qz 280, qz 0); (qz 270, qz 100); (qz 280, qz 0)]).
  { vm_compute. repeat f_equal; veq. }
  rewrite EL. split; [apply square_neighbours|]. split.
  { split; [vm_compute; discriminate|]. split; [exists (qz 280, qz 0), (qz 270, qz 100); repeat split; [left; auto|right; left; auto|vm_compute; discriminate]|exists (qz 280, qz 0), (qz 270, qz 100); repeat split; [left; auto|right; left; auto|vm_compute; discriminate]]. }
  split.
  - set (tenth := Q2Qc (-1 # 10)). intros (a & H). specialize (H (qz 280) tenth). unfold squared_error in H. cbn [map qsum] in H. set (x := (qz 280 - (a + 0 * qz 0))%Qc) in *. set (y := (qz 270 - (a + 0 * qz 100))%Qc) in *.
    match type of H with (_ <= ?r)%Qc => replace r with 0%Qc in H by (vm_compute; veq) end.
    pose proof (qsq_nonneg x) as X. pose proof (qsq_nonneg y) as Y. assert (XY : (x - y = qz 10)%Qc) by (unfold x, y; replace (qz 10) with (qz 280 - qz 270)%Qc by reflexivity; ring).
    assert (X0 : (x * x = 0)%Qc) by (apply Qcle_antisym; [|exact X]; clearbody x y; clear - H X Y; qlra). assert (Y0 : (y * y = 0)%Qc) by (apply Qcle_antisym; [|exact Y]; clearbody x y; clear - H X Y; qlra).
    apply Qcmult_integral in X0, Y0. assert (x = 0%Qc) as E1 by (destruct X0; auto). assert (y = 0%Qc) as E2 by (destruct Y0; auto). rewrite E1, E2 in XY. vm_compute in XY. discriminate XY.
  - intros. vm_compute. reflexivity.
Qed.
(** options of the cases: the defaults but for the land fractions *)
Lemma c179_refuted_bound : exists o ielevs ilafs oelevs olafs vs minDiff minLaf default minLafDiff minSea ws hi q,
  setting east dims3 (dims1 1) (row3 (fz 60) (fz 60) (fz 60)) (row3 (fz 10) (fz 11) (fz 12)) ielevs ilafs [[fz 60]] [[fz 10]] oelevs olafs [[(0, 0)]] [vs] [vs] [field1 CMV] o minDiff minLaf default minLafDiff minSea ws /\
  all_points (dims1 1) [[fz 60]] [[fz 10]] /\ g_save o = SaveLaf /\ g_laf_hi o = Fin hi /\ hi <> missing_number /\ (hi < q)%Qc /\
  forall expo lg vmin vmax, downscale 1 (dims1 1) [field1 CMV] (gradient_downscaler (lift1 expo) lg o vmin vmax ielevs ilafs oelevs olafs [[(0, 0)]] [vs] [vs]) = Ok (true, [field1 (Fin q)]).
Proof.
  exists {| g_constant := fz 0; g_radius := 3; g_min_diff := fz 30; g_default := fz 0; g_min := CMV; g_max := CMV; g_min_laf := fz 0; g_min_num := 2;
    g_laf_radius := 0; g_min_laf_diff := fq (1 # 10); g_min_sea := fz 0; g_laf_radii := [1]; g_laf_weights := [fz 1]; g_laf_lo := CMV; g_laf_hi := fz 2; g_log := false; g_limit := false; g_save := SaveLaf |},
    (row3 (fz 0) (fz 0) (fz 0)), (row3 (fz 1) (fz 0) (fz 0)), [[fz 0]], [[fz 1]], (field3 (fz 10) (fz 5) (fz 0)), (qz 30), (qz 0), (qz 0), (Q2Qc (1 # 10)), (qz 0), [qz 1], (qz 2), (qz 5).
  split; [apply demo; reflexivity|]. split; [exact demo_points|]. split; [reflexivity|]. split; [reflexivity|]. split; [vm_compute; discriminate|]. split; [reflexivity|]. intros. vm_compute. do 6 f_equal; veq.
Qed.
Definition with_radii (l : list Z) : gopts := {| g_constant := fz 0; g_radius := 3; g_min_diff := fz 30; g_default := fz 0; g_min := CMV; g_max := CMV; g_min_laf := fz 0; g_min_num := 2;
    g_laf_radius := 0; g_min_laf_diff := fq (1 # 10); g_min_sea := fz 0; g_laf_radii := l; g_laf_weights := [fz 1; fz 1]; g_laf_lo := CMV; g_laf_hi := CMV; g_log := false; g_limit := false; g_save := SaveLaf |}.
Lemma c179_refuted_order : exists ielevs ilafs oelevs olafs vs (f : list Z -> gopts) r r' q q', q <> q' /\
  (forall l, g_laf_radii (f l) = l /\ g_laf_weights (f l) = [fz 1; fz 1] /\ g_save (f l) = SaveLaf) /\
  (forall l, zlen l = 2 -> exists minDiff minLaf default minLafDiff minSea ws, setting east dims3 (dims1 1) (row3 (fz 60) (fz 60) (fz 60)) (row3 (fz 10) (fz 11) (fz 12)) ielevs ilafs [[fz 60]] [[fz 10]] oelevs olafs [[(0, 0)]] [vs] [vs] [field1 CMV] (f l) minDiff minLaf default minLafDiff minSea ws) /\
  forall expo lg vmin vmax,
    downscale 1 (dims1 1) [field1 CMV] (gradient_downscaler (lift1 expo) lg (f [r; r']) vmin vmax ielevs ilafs oelevs olafs [[(0, 0)]] [vs] [vs]) = Ok (true, [field1 (Fin q)]) /\
    downscale 1 (dims1 1) [field1 CMV] (gradient_downscaler (lift1 expo) lg (f [r'; r]) vmin vmax ielevs ilafs oelevs olafs [[(0, 0)]] [vs] [vs]) = Ok (true, [field1 (Fin q')]).
Proof.
  exists (row3 (fz 0) (fz 0) (fz 0)), (row3 (fz 1) (fq (1 # 2)) (fz 0)), [[fz 0]], [[fz 1]], (field3 (fz 10) (fz 6) (fz 0)), with_radii, 1, 2, (qz 9), (qz 10).
  split; [vm_compute; discriminate|]. split; [intros l; repeat split|]. split.
  - intros l Hl. exists (qz 30), (qz 0), (qz 0), (Q2Qc (1 # 10)), (qz 0), [qz 1; qz 1]. apply demo; try reflexivity. exact Hl.
  - intros. split; vm_compute; do 6 f_equal; veq.
Qed.
Lemma c181_refuted : exists o ielevs ilafs oelevs olafs vs minDiff minLaf default minLafDiff minSea ws mn mx u,
  setting east dims3 (dims1 1) (row3 (fz 60) (fz 60) (fz 60)) (row3 (fz 10) (fz 11) (fz 12)) ielevs ilafs [[fz 60]] [[fz 10]] oelevs olafs [[(0, 0)]] [vs] [vs] [field1 CMV] o minDiff minLaf default minLafDiff minSea ws /\
  all_points (dims1 1) [[fz 60]] [[fz 10]] /\ g_save o = SaveNothing /\ g_limit o = true /\
  (let l := present (map (atf vs 0) [(0, 0); (0, 1); (0, 2)]) in neighbours 1 3 (g_radius o) 0 0 [(0, 0); (0, 1); (0, 2)] /\ is_min l mn /\ is_max l mx /\ (mn < u < mx)%Qc) /\
  u = moved (fun x => x) false (qz 5) (qz (-1)) (at2 oelevs (0, 0)) (at2 ielevs (0, 0)) CMV None CMV /\ g_constant o = fz (-1) /\ g_laf_radii o = [] /\ atf vs 0 (0, 0) = fz 5 /\
  forall expo lg, downscale 1 (dims1 1) [field1 CMV] (gradient_downscaler (lift1 expo) lg o CMV CMV ielevs ilafs oelevs olafs [[(0, 0)]] [vs] [vs]) = Ok (true, [field1 (Fin mn)]).
Proof.
  exists {| g_constant := fz (-1); g_radius := 3; g_min_diff := fz 30; g_default := fz 0; g_min := CMV; g_max := CMV; g_min_laf := fz 0; g_min_num := 2;
    g_laf_radius := 0; g_min_laf_diff := fq (1 # 10); g_min_sea := fz 0; g_laf_radii := []; g_laf_weights := []; g_laf_lo := CMV; g_laf_hi := CMV; g_log := false; g_limit := true; g_save := SaveNothing |},
    (row3 (fz 0) (fz 0) (fz 0)), (row3 (fz 1) (fz 1) (fz 1)), [[fz 1]], [[fz 1]], (field3 (fz 5) (fz 3) CMV), (qz 30), (qz 0), (qz 0), (Q2Qc (1 # 10)), (qz 0), [], (qz 3), (qz 5), (qz 4).
  split; [apply demo; reflexivity|]. split; [exact demo_points|]. split; [reflexivity|]. split; [reflexivity|]. split.
  - cbv zeta. split; [apply square_neighbours|]. assert (EL : present (map (atf (field3 (fz 5) (fz 3) CMV) 0) [(0, 0); (0, 1); (0, 2)]) = [qz 5; qz 3]) by (vm_compute; veq). rewrite EL.
    split; [split; [right; left; auto|intros z [<-|[<-|[]]]; vm_compute; discriminate]|]. split; [split; [left; auto|intros z [<-|[<-|[]]]; vm_compute; discriminate]|]. split; reflexivity.
  - split; [vm_compute; veq|]. split; [reflexivity|]. split; [reflexivity|]. split; [reflexivity|]. intros. vm_compute. do 6 f_equal; veq.
Qed.
