(** C72 and C73: gradients of a field with respect to another. *)
From Verif Require Import QcTac Base ListLib M_Stat M_Neigh S_Stat P_Stat P_Slice S_Neigh P_Neigh P_NeighAll M_Geo M_Near M_Bilin M_Down S_Down P_Grad.

Lemma foldM_ext_in {S A} (f g : S -> A -> res S) l : (forall s a, In a l -> f s a = g s a) -> forall s, foldM f s l = foldM g s l.
Proof.
  induction l as [|x l IH]; intros H s; cbn; [reflexivity|]. rewrite H by (left; reflexivity). destruct (g s x); cbn; try reflexivity. apply IH. intros; apply H; right; assumption.
Qed.
Lemma for2r_for2 {A} nY nX base (out : list (list A)) body : rect nY nX base -> for2r base out body = for2 nY nX out body.
Proof.
  intros [H1 H2]. unfold for2r, for2. rewrite H1. apply foldM_ext_in. intros s y Hy. apply in_zrange in Hy.
  destruct (znth_some base y) as [r Hr]; [lia|]. rewrite Hr. cbn [bind]. rewrite (H2 r) by (eapply znth_In; eauto). reflexivity.
Qed.
(** ** the zipped field *)
Lemma znth_combine {A B} (l : list A) (m : list B) k : zlen l = zlen m -> znth (combine l m) k = (a <- znth l k ;; b <- znth m k ;; Ok (a, b)).
Proof.
  revert m k. induction l as [|x l IH]; intros m k H.
  - cbn [combine]. rewrite !znth_out by (unfold zlen; cbn; lia). reflexivity.
  - destruct m as [|y m]; [rewrite zlen_cons in H; pose proof (zlen_nonneg l); unfold zlen in H at 2; cbn in H; lia|].
    rewrite !zlen_cons in H. cbn [combine]. destruct (Z.eq_dec k 0) as [->|N]; [rewrite !znth_cons0; reflexivity|].
    destruct (Z_lt_le_dec k 0); [rewrite !znth_out by lia; reflexivity|]. rewrite !znth_consS by lia. apply IH. lia.
Qed.
Lemma zlen_combine {A B} (l : list A) (m : list B) : zlen l = zlen m -> zlen (combine l m) = zlen l.
Proof. intros H. unfold zlen in *. rewrite combine_length. lia. Qed.
Section Zip.
Variables (nY nX : Z) (base values : vec2).
Hypothesis RB : rect nY nX base.
Hypothesis RV : rect nY nX values.
Lemma get2_zip y x : get2 (zip2 base values) y x = (a <- get2 base y x ;; b <- get2 values y x ;; Ok (a, b)).
Proof.
  destruct RB as [B1 B2], RV as [V1 V2]. unfold zip2, get2. rewrite znth_map, znth_combine by lia.
  destruct (znth base y) as [r| | |] eqn:E1; cbn [bind].
  - destruct (znth_some values y) as [s Hs]; [apply znth_range in E1; lia|]. rewrite Hs. cbn [bind fst snd]. apply znth_combine. rewrite (B2 r), (V2 s); [reflexivity| |]; eapply znth_In; eauto.
  - reflexivity.
  - reflexivity.
  - reflexivity.
Qed.
Lemma rect_zip : rect nY nX (zip2 base values).
Proof.
  destruct RB as [B1 B2], RV as [V1 V2]. split.
  - unfold zip2. rewrite zlen_map, zlen_combine; lia.
  - intros r Hr. unfold zip2 in Hr. apply in_map_iff in Hr as ([a b] & <- & Hin). cbn [fst snd]. pose proof (in_combine_l _ _ _ _ Hin). pose proof (in_combine_r _ _ _ _ Hin).
    rewrite zlen_combine; [auto|]. rewrite B2, V2 by assumption. reflexivity.
Qed.
End Zip.
Lemma mapM_flat_map {A B C} (f : B -> res C) (g : A -> list B) l : mapM f (flat_map g l) = (ls <- mapM (fun a => mapM f (g a)) l ;; Ok (concat ls)).
Proof.
  induction l as [|a l IH]; [reflexivity|]. cbn [flat_map mapM]. rewrite mapM_app, IH. destruct (mapM f (g a)); cbn; try reflexivity.
  destruct (mapM (fun a => mapM f (g a)) l); reflexivity.
Qed.
Lemma mapM_map {A B C} (f : B -> res C) (g : A -> B) l : mapM f (map g l) = mapM (fun a => f (g a)) l.
Proof. induction l as [|a l IH]; [reflexivity|]. cbn. rewrite IH. reflexivity. Qed.
Lemma window_around {A} (P : list (list A)) nY nX h y x : rect nY nX P -> 0 <= h -> 0 <= y < nY -> 0 <= x < nX ->
  mapM (fun c => get2 P (fst c) (snd c)) (window_cells nY nX h y x) = Ok (around P h y x).
Proof.
  intros [HY HR] Hh Hy Hx. unfold window_cells. rewrite mapM_flat_map.
  set (c0 := Z.max 0 (x - h)). set (c1 := Z.min (nX - 1) (x + h)). set (r0 := Z.max 0 (y - h)). set (r1 := Z.min (nY - 1) (y + h)).
  rewrite (mapM_ext _ (fun ii => row <- znth P ii ;; Ok (slice row c0 c1))).
  2:{ intros ii Hii. apply in_zrange in Hii. destruct (znth_some P ii ltac:(lia)) as (row & Er). rewrite mapM_map. cbn [fst snd].
      rewrite (mapM_ext _ (fun jj => znth row jj)) by (intros jj _; unfold get2; rewrite Er; reflexivity). rewrite Er. cbn [bind].
      pose proof (HR row (znth_In _ _ _ Er)). rewrite slice_znth by lia. do 2 f_equal. lia. }
  rewrite mapM_bind_map, slice_znth by lia. cbn [bind]. do 2 f_equal. unfold around.
  rewrite (slice_clip P (y - h) (y + h)). fold r0. replace (Z.min (zlen P - 1) (y + h)) with r1 by (unfold r1; lia).
  replace (r1 + 1 - 1) with r1 by lia. f_equal. apply map_ext_in. intros row Hr. apply in_slice in Hr as (i & _ & Er).
  rewrite (slice_clip row (x - h) (x + h)), (HR row (znth_In _ _ _ Er)). reflexivity.
Qed.
Lemma complete_app l m : complete (l ++ m) = complete l ++ complete m.
Proof. induction l as [|[[| | |a] [| | |b]] l IH]; cbn; congruence. Qed.

(** ** MinMax *)
Definition mm_inv (values : vec2) (s : mm) (l : list (Qc * Qc)) : Prop :=
  mm_count s = zlen l /\ (l = [] -> mm_max s = MV /\ mm_min s = MV) /\
  (l <> [] -> exists p q, first_max l p /\ first_min l q /\ mm_max s = Fin (fst p) /\ mm_min s = Fin (fst q) /\
    get2 values (fst (mm_imax s)) (snd (mm_imax s)) = Ok (Fin (snd p)) /\ get2 values (fst (mm_imin s)) (snd (mm_imin s)) = Ok (Fin (snd q))).
Lemma first_max_snoc l p x : first_max l p -> (fst x <= fst p)%Qc -> first_max (l ++ [x]) p.
Proof. intros (l1 & l2 & -> & H1 & H2) H. exists l1, (l2 ++ [x]). rewrite <- app_assoc. split; [reflexivity|]. split; [exact H1|]. apply Forall_app. auto. Qed.
Lemma first_min_snoc l p x : first_min l p -> (fst p <= fst x)%Qc -> first_min (l ++ [x]) p.
Proof. intros (l1 & l2 & -> & H1 & H2) H. exists l1, (l2 ++ [x]). rewrite <- app_assoc. split; [reflexivity|]. split; [exact H1|]. apply Forall_app. auto. Qed.
Lemma first_max_new l p x : first_max l p -> (fst p < fst x)%Qc -> first_max (l ++ [x]) x.
Proof.
  intros (l1 & l2 & -> & H1 & H2) H. exists (l1 ++ p :: l2), []. split; [reflexivity|]. split; [|constructor]. rewrite Forall_forall in *.
  intros q Hq. apply in_app_iff in Hq as [Hq|[<-|Hq]]; [specialize (H1 _ Hq); cbn in H1|exact H|specialize (H2 _ Hq); cbn in H2]; qlra.
Qed.
Lemma first_min_new l p x : first_min l p -> (fst x < fst p)%Qc -> first_min (l ++ [x]) x.
Proof.
  intros (l1 & l2 & -> & H1 & H2) H. exists (l1 ++ p :: l2), []. split; [reflexivity|]. split; [|constructor]. rewrite Forall_forall in *.
  intros q Hq. apply in_app_iff in Hq as [Hq|[<-|Hq]]; [specialize (H1 _ Hq); cbn in H1|exact H|specialize (H2 _ Hq); cbn in H2]; qlra.
Qed.
Lemma mm_step_ok base values s l c pr : mm_inv values s l -> get2 base (fst c) (snd c) = Ok (fst pr) -> get2 values (fst c) (snd c) = Ok (snd pr) ->
  exists s', mm_step base values s c = Ok s' /\ mm_inv values s' (l ++ complete [pr]).
Proof.
  intros (I1 & I2 & I3) Hb Hv. unfold mm_step. rewrite Hb. cbn [bind]. destruct pr as [b v]; cbn [fst snd] in *.
  assert (SKIP : complete [(b, v)] = [] -> exists s', Ok s = Ok s' /\ mm_inv values s' (l ++ complete [(b, v)])).
  { intros ->. exists s. rewrite app_nil_r. split; [reflexivity|]. split; auto. }
  destruct b as [| | |b]; cbn [is_valid negb]; try (apply SKIP; reflexivity). rewrite Hv. cbn [bind].
  destruct v as [| | |v]; cbn [is_valid negb]; try (apply SKIP; reflexivity). clear SKIP. eexists. split; [reflexivity|].
  cbn [complete]. split; [cbn [mm_count]; rewrite zlen_app, I1; reflexivity|]. split; [intros K; destruct l; discriminate|]. intros _. cbn [mm_max mm_min mm_imax mm_imin].
  destruct l as [|a l].
  - destruct (I2 eq_refl) as [-> ->]. cbn. exists (b, v), (b, v). split; [exists [], []; repeat constructor|]. split; [exists [], []; repeat constructor|]. auto.
  - destruct I3 as (p & q & P1 & P2 & -> & -> & P5 & P6); [discriminate|]. cbn [is_valid negb orb]. unfold vltb.
    destruct (qltb_spec (fst p) b) as [L1|L1]; destruct (qltb_spec b (fst q)) as [L2|L2].
    + exists (b, v), (b, v). split; [eapply first_max_new; eauto|]. split; [eapply first_min_new; eauto|]. auto.
    + exists (b, v), q. split; [eapply first_max_new; eauto|]. split; [eapply first_min_snoc; eauto; cbn; qlra|]. auto.
    + exists p, (b, v). split; [eapply first_max_snoc; eauto; cbn; qlra|]. split; [eapply first_min_new; eauto|]. auto.
    + exists p, q. split; [eapply first_max_snoc; eauto; cbn; qlra|]. split; [eapply first_min_snoc; eauto; cbn; qlra|]. auto.
Qed.
Lemma mm_fold_ok base values cells prs : Forall2 (fun c pr => get2 base (fst c) (snd c) = Ok (fst pr) /\ get2 values (fst c) (snd c) = Ok (snd pr)) cells prs ->
  forall s l, mm_inv values s l -> exists s', foldM (mm_step base values) s cells = Ok s' /\ mm_inv values s' (l ++ complete prs).
Proof.
  induction 1 as [|c pr cells prs [H1 H2] _ IH]; intros s l I; [exists s; cbn; rewrite app_nil_r; auto|]. cbn [foldM].
  destruct (mm_step_ok base values s l c pr I H1 H2) as (s' & Hs & I'). rewrite Hs. cbn [bind]. destruct (IH s' _ I') as (s2 & Hs2 & I2). exists s2. split; [exact Hs2|].
  replace (l ++ complete (pr :: prs)) with ((l ++ complete [pr]) ++ complete prs); [exact I2|]. rewrite <- app_assoc. f_equal. symmetry. exact (complete_app [pr] prs).
Qed.
Lemma first_max_fun l p p' : first_max l p -> first_max l p' -> p = p'.
Proof.
  intros (l1 & l2 & E1 & A1 & A2) (m1 & m2 & E2 & B1 & B2). rewrite Forall_forall in *.
  assert (L1 : forall x, In x l -> (fst x <= fst p)%Qc). { intros x Hx. rewrite E1 in Hx. apply in_app_iff in Hx as [Hx|[<-|Hx]]; [apply Qclt_le_weak; auto|apply Qcle_refl|auto]. }
  assert (L2 : forall x, In x l -> (fst x <= fst p')%Qc). { intros x Hx. rewrite E2 in Hx. apply in_app_iff in Hx as [Hx|[<-|Hx]]; [apply Qclt_le_weak; auto|apply Qcle_refl|auto]. }
  assert (EQ : fst p = fst p'). { apply Qcle_antisym; [apply L2; rewrite E1; apply in_app_iff; right; left; reflexivity|apply L1; rewrite E2; apply in_app_iff; right; left; reflexivity]. }
  rewrite E1 in E2. clear -E2 A1 B1 EQ. revert m1 E2 B1. induction l1 as [|a l1 IH]; intros [|b m1] E2 B1; cbn in E2; injection E2 as H1 H2; [exact H1| | |].
  - exfalso. subst. specialize (B1 b (or_introl eq_refl)). cbn in B1. rewrite EQ in B1. qlra.
  - exfalso. subst. specialize (A1 p' (or_introl eq_refl)). cbn in A1. rewrite EQ in A1. qlra.
  - apply (IH (fun x H => A1 x (or_intror H)) m1 H2). intros x Hx. apply B1. right. exact Hx.
Qed.
Lemma first_min_fun l p p' : first_min l p -> first_min l p' -> p = p'.
Proof.
  intros (l1 & l2 & E1 & A1 & A2) (m1 & m2 & E2 & B1 & B2). rewrite Forall_forall in *.
  assert (L1 : forall x, In x l -> (fst p <= fst x)%Qc). { intros x Hx. rewrite E1 in Hx. apply in_app_iff in Hx as [Hx|[<-|Hx]]; [apply Qclt_le_weak; auto|apply Qcle_refl|auto]. }
  assert (L2 : forall x, In x l -> (fst p' <= fst x)%Qc). { intros x Hx. rewrite E2 in Hx. apply in_app_iff in Hx as [Hx|[<-|Hx]]; [apply Qclt_le_weak; auto|apply Qcle_refl|auto]. }
  assert (EQ : fst p = fst p'). { apply Qcle_antisym; [apply L1; rewrite E2; apply in_app_iff; right; left; reflexivity|apply L2; rewrite E1; apply in_app_iff; right; left; reflexivity]. }
  rewrite E1 in E2. clear -E2 A1 B1 EQ. revert m1 E2 B1. induction l1 as [|a l1 IH]; intros [|b m1] E2 B1; cbn in E2; injection E2 as H1 H2; [exact H1| | |].
  - exfalso. subst. specialize (B1 b (or_introl eq_refl)). cbn in B1. rewrite EQ in B1. qlra.
  - exfalso. subst. specialize (A1 p' (or_introl eq_refl)). cbn in A1. rewrite EQ in A1. qlra.
  - apply (IH (fun x H => A1 x (or_intror H)) m1 H2). intros x Hx. apply B1. right. exact Hx.
Qed.
Section Field.
Variables (nY nX : Z) (base values : vec2).
Hypothesis RB : rect nY nX base.
Hypothesis RV : rect nY nX values.
Hypothesis PY : 0 < nY.
Hypothesis PX : 0 < nX.
Lemma window_pairs h y x : 0 <= h -> 0 <= y < nY -> 0 <= x < nX ->
  Forall2 (fun c pr => get2 base (fst c) (snd c) = Ok (fst pr) /\ get2 values (fst c) (snd c) = Ok (snd pr)) (window_cells nY nX h y x) (around (zip2 base values) h y x).
Proof.
  intros Hh Hy Hx. pose proof (window_around (zip2 base values) nY nX h y x (rect_zip _ _ _ _ RB RV) Hh Hy Hx) as H. apply Forall2_mapM in H.
  induction H as [|c [a b] l m Hc _ IH]; constructor; [|exact IH]. cbn beta in Hc. rewrite (get2_zip nY nX base values RB RV) in Hc. apply bind_Ok in Hc as (a' & Ha & Hc). apply bind_Ok in Hc as (b' & Hb & Hc).
  injection Hc as <- <-. auto.
Qed.
Lemma minmax_ok h num_min min_range default y x : 0 <= h -> 0 <= y < nY -> 0 <= x < nX ->
  exists r, minmax_gradient base values nY nX h num_min min_range default y x = Ok r /\ minmax_value (pairs_around base values h y x) num_min min_range default r.
Proof.
  intros Hh Hy Hx. unfold minmax_gradient, pairs_around.
  destruct (mm_fold_ok base values _ _ (window_pairs h y x Hh Hy Hx) {| mm_max := MV; mm_min := MV; mm_imax := (0, 0); mm_imin := (0, 0); mm_count := 0 |} []) as (s & Hs & I).
  { split; [reflexivity|]. split; [auto|congruence]. }
  rewrite Hs. cbn [bind]. cbn [app] in I. set (l := complete (around (zip2 base values) h y x)) in *. destruct I as (I1 & I2 & I3). rewrite I1.
  destruct (Z.ltb_spec (zlen l) num_min) as [L|L].
  - exists default. split; [reflexivity|]. split; [auto|]. split; [auto|]. intros. lia.
  - destruct l as [|a l'] eqn:EL.
    + destruct (I2 eq_refl) as [-> ->]. cbn. exists default. split; [reflexivity|]. split; [auto|]. split; [auto|]. intros p q _ (l1 & l2 & K & _). destruct l1; discriminate.
    + rewrite <- EL in *. destruct I3 as (p & q & P1 & P2 & E1 & E2 & P5 & P6); [rewrite EL; discriminate|]. rewrite E1, E2. cbn [is_valid negb orb].
      assert (GE : (fst q <= fst p)%Qc).
      { destruct P1 as (l1 & l2 & Q & _ & _). destruct P2 as (m1 & m2 & Q' & H1 & H2). assert (Hin : In p l) by (rewrite Q; apply in_app_iff; right; left; reflexivity).
        rewrite Q' in Hin. rewrite Forall_forall in *. apply in_app_iff in Hin as [Hin|[<-|Hin]]; [apply Qclt_le_weak; auto|apply Qcle_refl|auto]. }
      assert (AB : vabs (vsub (Fin (fst p)) (Fin (fst q))) = Fin (fst p - fst q)%Qc).
      { cbn. f_equal. destruct (qltb_spec (fst p + - fst q) 0)%Qc as [K|K]; [exfalso; qlra|reflexivity]. }
      rewrite AB. destruct (vleb (Fin (fst p - fst q)%Qc) min_range) eqn:EV.
      * exists default. split; [reflexivity|]. split; [auto|]. split; [auto|]. intros p' q' _ F1 F2. rewrite (first_max_fun _ _ _ F1 P1), (first_min_fun _ _ _ F2 P2). split; [auto|congruence].
      * rewrite P5, P6. cbn [bind]. eexists. split; [reflexivity|]. split; [lia|]. split; [rewrite EL; discriminate|]. intros p' q' _ F1 F2.
        rewrite (first_max_fun _ _ _ F1 P1), (first_min_fun _ _ _ F2 P2). split; [congruence|]. intros _ NE.
        change (vsub (Fin (snd p)) (Fin (snd q))) with (Fin (snd p - snd q)%Qc). change (vsub (Fin (fst p)) (Fin (fst q))) with (Fin (fst p - fst q)%Qc).
        apply vdiv_Fin. intros K. apply NE. replace (fst p) with (fst p - fst q + fst q)%Qc by ring. rewrite K. ring.
Qed.
End Field.

(** ** LinearRegression *)
Lemma sse_expand l a b : sse l a b =
  (qsum (map (fun p => snd p * snd p) l) - (1 + 1) * a * qsum (map snd l) - (1 + 1) * b * qsum (map (fun p => fst p * snd p) l)
   + qlen l * a * a + (1 + 1) * a * b * qsum (map fst l) + b * b * qsum (map (fun p => fst p * fst p) l))%Qc.
Proof.
  unfold sse. induction l as [|[x y] l IH]; [cbn [map qsum]; replace (qlen (@nil (Qc * Qc))) with 0%Qc by reflexivity; ring|]. cbn [map qsum fst snd]. rewrite IH. unfold qlen. rewrite zlen_cons. replace (qz (zlen l + 1)) with (qz (zlen l) + 1)%Qc; [ring|]. rewrite qz_add. reflexivity.
Qed.
Lemma line_expand l a b : qsum (map (fun p : Qc * Qc => (a + b * fst p) * (a + b * fst p)) l)%Qc =
  (qlen l * a * a + (1 + 1) * a * b * qsum (map fst l) + b * b * qsum (map (fun p => fst p * fst p) l))%Qc.
Proof.
  induction l as [|[x y] l IH]; [cbn [map qsum]; replace (qlen (@nil (Qc * Qc))) with 0%Qc by reflexivity; ring|]. cbn [map qsum fst snd]. rewrite IH. unfold qlen. rewrite zlen_cons. replace (qz (zlen l + 1)) with (qz (zlen l) + 1)%Qc; [ring|]. rewrite qz_add. reflexivity.
Qed.
Lemma normal_equations l a b :
  qsum (map snd l) = (qlen l * a + b * qsum (map fst l))%Qc ->
  qsum (map (fun p => fst p * snd p) l)%Qc = (a * qsum (map fst l) + b * qsum (map (fun p => fst p * fst p) l))%Qc ->
  least_squares l b.
Proof.
  intros N1 N2. exists a. intros a' b'. rewrite !sse_expand, N1, N2.
  assert (K : (0 <= qsum (map (fun p : Qc * Qc => ((a' - a) + (b' - b) * fst p) * ((a' - a) + (b' - b) * fst p)) l))%Qc).
  { apply qsum_nonneg. intros z Hz. apply in_map_iff in Hz as (p & <- & _). apply qsq_nonneg. }
  rewrite line_expand in K. revert K. generalize (qsum (map (fun p => fst p * fst p) l))%Qc (qsum (map fst l)) (qlen l) (qsum (map (fun p => snd p * snd p) l))%Qc. intros sxx sx n syy K.
  apply Qcle_minus_iff. apply Qcle_minus_iff in K.
  match goal with |- (0 <= ?u)%Qc => match type of K with (0 <= ?w)%Qc => replace u with w by ring; exact K end end.
Qed.
Lemma qmean_sum l : l <> [] -> qsum l = (qlen l * qmean l)%Qc.
Proof. intros H. unfold qmean. field. apply qlen_neq0. exact H. Qed.
Lemma regression_slope l : l <> [] -> qvar (map fst l) <> 0%Qc ->
  least_squares l ((qmean (map (fun p => fst p * snd p) l) - qmean (map fst l) * qmean (map snd l)) / qvar (map fst l))%Qc.
Proof.
  intros NE NV. set (b := (_ / _)%Qc). apply (normal_equations l (qmean (map snd l) - b * qmean (map fst l))%Qc).
  - rewrite !qmean_sum by (destruct l; discriminate + congruence). unfold qlen. rewrite !zlen_map. ring.
  - assert (NQ : qlen l <> 0%Qc) by (apply qlen_neq0; exact NE).
    rewrite !qmean_sum by (destruct l; discriminate + congruence).
    assert (VV : qmean (map (fun p : Qc * Qc => fst p * fst p)%Qc l) = (qvar (map fst l) + qmean (map fst l) * qmean (map fst l))%Qc).
    { rewrite <- (sq_mean_var (map fst l)) by (destruct l; discriminate + congruence). rewrite map_map. ring. }
    rewrite VV. unfold qlen. rewrite !zlen_map. fold (qlen l). unfold b. field. exact NV.
Qed.
Definition pick (f : val -> val -> val) (p : val * val) : val := if is_valid (fst p) && is_valid (snd p) then f (fst p) (snd p) else MV.
Lemma finites_pick f F w : (forall a b, f (Fin a) (Fin b) = Fin (F a b)) -> finites (map (pick f) w) = map (fun p => F (fst p) (snd p)) (complete w).
Proof.
  intros H. induction w as [|[a b] w IH]; [reflexivity|]. cbn [map complete]. unfold pick at 1. cbn [fst snd].
  destruct a as [| | |a]; cbn [is_valid andb finites]; try exact IH; destruct b as [| | |b]; cbn [is_valid finites]; try exact IH.
  rewrite H. cbn [finites map fst snd]. f_equal. exact IH.
Qed.
Definition ind (p : val * val) : val := if is_valid (fst p) && is_valid (snd p) then fz 1 else fz 0.
Lemma sum_ind w : qsum (finites (map ind w)) = qlen (complete w).
Proof.
  induction w as [|[a b] w IH]; [reflexivity|]. cbn [map complete]. unfold ind at 1. cbn [fst snd].
  assert (Z0 : qsum (qz 0 :: finites (map ind w)) = qlen (complete w)). { cbn [qsum]. rewrite IH. change (qz 0) with 0%Qc. ring. }
  destruct a as [| | |a]; cbn [is_valid andb finites fz]; try exact Z0; destruct b as [| | |b]; cbn [is_valid finites fz]; try exact Z0.
  cbn [qsum]. rewrite IH. unfold qlen. rewrite zlen_cons, qz_add, qz_1. ring.
Qed.
Section Reg.
Variables (E : ext) (nY nX : Z) (base values : vec2).
Hypothesis RB : rect nY nX base.
Hypothesis RV : rect nY nX values.
Hypothesis PY : 0 < nY.
Hypothesis PX : 0 < nX.
Lemma aux_field (F : val * val -> val) init : for2 nY nX (init2 nY nX init) (fun y x => b <- get2 base y x ;; v <- get2 values y x ;; Ok (F (b, v))) = Ok (map (map F) (zip2 base values)).
Proof.
  rewrite for2_init_tab by lia. destruct (tab2_total nY nX (fun y x => b <- get2 base y x ;; v <- get2 values y x ;; Ok (F (b, v))) (fun _ _ _ => True)) as (r & Hr & R & Hc); [lia|lia| |].
  - intros i j Hi Hj. destruct (rect_get2 _ _ _ i j RB Hi Hj) as [a Ha]. destruct (rect_get2 _ _ _ i j RV Hi Hj) as [b Hb]. rewrite Ha, Hb. cbn. eauto.
  - rewrite Hr. f_equal. pose proof (rect_zip _ _ _ _ RB RV) as RZ. apply (rect_ext nY nX); [exact R|apply P_Grid.rect_mapmap; exact RZ|].
    intros i j Hi Hj. destruct (Hc i j Hi Hj) as (v & Hv & Hb & _). rewrite Hv, P_Grid.get2_mapmap, (get2_zip nY nX base values RB RV).
    destruct (rect_get2 _ _ _ i j RB Hi Hj) as [a Ha]. destruct (rect_get2 _ _ _ i j RV Hi Hj) as [b Hb']. rewrite Ha, Hb' in *. cbn [bind] in *. congruence.
Qed.
Lemma aux_mean h f F : 0 <= h -> (forall a b, f (Fin a) (Fin b) = Fin (F a b)) ->
  exists m, neighbourhood E (map (map (pick f)) (zip2 base values)) h Mean = Ok m /\ rect nY nX m /\
    forall y x, 0 <= y < nY -> 0 <= x < nX -> exists v, get2 m y x = Ok v /\
      (pairs_around base values h y x = [] -> v = MV) /\ (pairs_around base values h y x <> [] -> v = Fin (qmean (map (fun p => F (fst p) (snd p)) (pairs_around base values h y x)))).
Proof.
  intros Hh HF. destruct (neigh_all E (map (map (pick f)) (zip2 base values)) nY nX h Mean) as (m & Hm & _ & [R C]); [apply P_Grid.rect_mapmap, rect_zip; assumption|assumption|assumption|assumption|left; reflexivity|].
  exists m. split; [exact Hm|]. split; [exact R|]. intros y x Hy Hx. destruct (C y x Hy Hx) as (v & Hv & Sv). exists v. split; [exact Hv|].
  rewrite around_map, (finites_pick f F _ HF) in Sv. fold (pairs_around base values h y x) in Sv. destruct (pairs_around base values h y x) as [|p l]; cbn [map] in Sv; cbn in Sv.
  - split; [auto|congruence].
  - split; [discriminate|]. intros _. exact Sv.
Qed.
Lemma aux_count h : 0 <= h ->
  exists m, neighbourhood E (map (map ind) (zip2 base values)) h Sum = Ok m /\ rect nY nX m /\
    forall y x, 0 <= y < nY -> 0 <= x < nX -> exists v, get2 m y x = Ok v /\
      (v = MV /\ pairs_around base values h y x = [] \/ v = Fin (qlen (pairs_around base values h y x))).
Proof.
  intros Hh. destruct (neigh_all E (map (map ind) (zip2 base values)) nY nX h Sum) as (m & Hm & _ & [R C]); [apply P_Grid.rect_mapmap, rect_zip; assumption|assumption|assumption|assumption|right; left; reflexivity|].
  exists m. split; [exact Hm|]. split; [exact R|]. intros y x Hy Hx. destruct (C y x Hy Hx) as (v & Hv & Sv). exists v. split; [exact Hv|].
  rewrite around_map in Sv. pose proof (sum_ind (around (zip2 base values) h y x)) as SI. fold (pairs_around base values h y x) in SI.
  destruct (finites (map ind (around (zip2 base values) h y x))) as [|p l] eqn:EF.
  - left. split; [exact Sv|]. cbn [qsum] in SI. unfold qlen in SI. assert (K : zlen (pairs_around base values h y x) = 0) by (apply qz_inj; rewrite <- SI; reflexivity).
    destruct (pairs_around base values h y x) as [|q l']; [reflexivity|]. rewrite zlen_cons in K. pose proof (zlen_nonneg l'). lia.
  - right. cbn in Sv. rewrite Sv. f_equal. exact SI.
Qed.
Lemma regression_ok h num_min min_range default : 0 <= h -> exists out,
    (base0 <- omp (for2 nY nX (init2 nY nX MV) (fun y x => b <- get2 base y x ;; v <- get2 values y x ;; Ok (if is_valid b && is_valid v then b else MV))) ;;
    values0 <- omp (for2 nY nX (init2 nY nX MV) (fun y x => b <- get2 base y x ;; v <- get2 values y x ;; Ok (if is_valid b && is_valid v then v else MV))) ;;
    bxb <- omp (for2 nY nX (init2 nY nX MV) (fun y x => b <- get2 base y x ;; v <- get2 values y x ;; Ok (if is_valid b && is_valid v then vmul b b else MV))) ;;
    bxv <- omp (for2 nY nX (init2 nY nX MV) (fun y x => b <- get2 base y x ;; v <- get2 values y x ;; Ok (if is_valid b && is_valid v then vmul b v else MV))) ;;
    isv <- omp (for2 nY nX (init2 nY nX (fz 0)) (fun y x => b <- get2 base y x ;; v <- get2 values y x ;; Ok (if is_valid b && is_valid v then fz 1 else fz 0))) ;;
    mX <- neighbourhood E base0 h Mean ;; mY <- neighbourhood E values0 h Mean ;;
    mXX <- neighbourhood E bxb h Mean ;; mXY <- neighbourhood E bxv h Mean ;; cnt <- neighbourhood E isv h Sum ;;
    omp (for2 nY nX (init2 nY nX default) (regression_cell E mX mY mXX mXY cnt num_min min_range default))) = Ok out /\
    filtered nY nX (fun y x r => regression_value E (pairs_around base values h y x) num_min min_range default r) out.
Proof.
  intros Hh.
  pose proof (aux_field (pick (fun b v => b)) MV) as A1. pose proof (aux_field (pick (fun b v => v)) MV) as A2.
  pose proof (aux_field (pick (fun b v => vmul b b)) MV) as A3. pose proof (aux_field (pick (fun b v => vmul b v)) MV) as A4. pose proof (aux_field ind (fz 0)) as A5.
  unfold pick, ind in A1, A2, A3, A4, A5. cbn [fst snd] in A1, A2, A3, A4, A5. rewrite A1, A2, A3, A4, A5. cbn [omp bind]. clear A1 A2 A3 A4 A5.
  destruct (aux_mean h (fun b v => b) (fun a b => a) Hh (fun a b => eq_refl)) as (mX & H1 & _ & C1).
  destruct (aux_mean h (fun b v => v) (fun a b => b) Hh (fun a b => eq_refl)) as (mY & H2 & _ & C2).
  destruct (aux_mean h (fun b v => vmul b b) (fun a b => a * a)%Qc Hh (fun a b => eq_refl)) as (mXX & H3 & _ & C3).
  destruct (aux_mean h (fun b v => vmul b v) (fun a b => a * b)%Qc Hh (fun a b => eq_refl)) as (mXY & H4 & _ & C4).
  destruct (aux_count h Hh) as (cnt & H5 & _ & C5). unfold pick in H1, H2, H3, H4. unfold ind in H5. rewrite H1, H2, H3, H4, H5. cbn [bind]. rewrite for2_init_tab by lia. clear H1 H2 H3 H4 H5.
  match goal with |- context[tab2 nY nX ?f] => destruct (tab2_total nY nX f (fun y x r => regression_value E (pairs_around base values h y x) num_min min_range default r)) as (r & Hr & R & Hc); [lia|lia| |] end.
  2:{ exists r. rewrite Hr. split; [reflexivity|]. split; [exact R|]. intros y x Hy Hx. destruct (Hc y x Hy Hx) as (v & ? & _ & ?). eauto. }
  intros y x Hy Hx. unfold regression_cell. destruct (C1 y x Hy Hx) as (x1 & -> & N1 & M1). destruct (C2 y x Hy Hx) as (x2 & -> & N2 & M2). destruct (C3 y x Hy Hx) as (x3 & -> & N3 & M3).
  destruct (C4 y x Hy Hx) as (x4 & -> & N4 & M4). destruct (C5 y x Hy Hx) as (x5 & -> & C). cbn [bind]. set (l := pairs_around base values h y x) in *.
  assert (DEF : (zlen l < num_min \/ l = [] \/ qvar (map fst l) = 0%Qc \/ (exists m, min_range = Fin m /\ (ext_sqrt E (qvar (map fst l)) < m)%Qc)) -> exists v, Ok default = Ok v /\ regression_value E l num_min min_range default v).
  { intros H. exists default. split; [reflexivity|]. split; [auto|]. intros K1 K2 K3 K4. exfalso. destruct H as [H|[H|[H|(m & H & H')]]]; [lia|contradiction|contradiction|]. specialize (K4 m H). qlra. }
  destruct (vleb (fz num_min) x5) eqn:EC; cbn [negb].
  2:{ apply DEF. destruct C as [[-> C]| ->]; [auto|]. left. unfold fz in EC. rewrite vleb_Fin in EC. destruct (qleb_spec (qz num_min) (qlen l)) as [K|K]; [discriminate|]. unfold qlen in K. apply qz_lt in K || idtac. 
      destruct (Z_lt_le_dec (zlen l) num_min) as [?|L]; [assumption|]. apply qz_le in L. exfalso. qlra. }
  assert (HC : num_min <= zlen l). { destruct C as [[-> C]| ->]; [discriminate|]. unfold fz in EC. rewrite vleb_Fin in EC. destruct (qleb_spec (qz num_min) (qlen l)) as [K|K]; [|discriminate]. apply qz_le. exact K. }
  clear EC C. destruct (list_eq_dec (fun a b : Qc * Qc => ltac:(decide equality; apply Qc_eq_dec)) l []) as [EL|NE].
  { rewrite (N3 EL). cbn [is_valid negb MV]. apply DEF. auto. }
  rewrite (M1 NE), (M2 NE), (M3 NE), (M4 NE). cbn [is_valid negb vmul].
  assert (VV : vsub (Fin (qmean (map (fun p : Qc * Qc => fst p * fst p)%Qc l))) (Fin (qmean (map (fun p : Qc * Qc => fst p) l) * qmean (map (fun p : Qc * Qc => fst p) l))%Qc) = Fin (qvar (map fst l))).
  { rewrite <- (sq_mean_var (map fst l)) by (destruct l; discriminate + congruence). rewrite map_map. reflexivity. }
  rewrite VV. destruct (veqb (Fin (qvar (map fst l))) (fz 0)) eqn:EV.
  { apply DEF. right; right; left. cbn in EV. destruct (Qc_eq_dec (qvar (map fst l)) 0) as [?|N]; [assumption|]. exfalso. destruct (qeqb_spec (qvar (map fst l)) (qz 0)); [contradiction|discriminate]. }
  assert (NV : qvar (map fst l) <> 0%Qc). { intros K. rewrite K in EV. discriminate. }
  assert (QV : vsqrt E (Fin (qvar (map fst l))) = Fin (ext_sqrt E (qvar (map fst l)))).
  { cbn. destruct (qltb_spec (qvar (map fst l)) 0) as [K|K]; [pose proof (qvar_nonneg (map fst l)); exfalso; qlra|reflexivity]. }
  rewrite QV. cbn [is_valid negb orb].
  destruct (is_valid min_range && vltb (Fin (ext_sqrt E (qvar (map fst l)))) min_range)%bool eqn:ER.
  { apply DEF. right; right; right. destruct min_range as [| | |m]; try discriminate. exists m. split; [reflexivity|]. cbn in ER. destruct (qltb_spec (ext_sqrt E (qvar (map fst l))) m); [assumption|discriminate]. }
  eexists. split; [reflexivity|]. split.
  - intros [K|[K|[K|(m & K & K')]]]; [lia|contradiction|contradiction|]. subst min_range. cbn in ER. destruct (qltb_spec (ext_sqrt E (qvar (map fst l))) m); [discriminate|contradiction].
  - intros _ _ _ _. cbn [vmul]. change (map (fun p : Qc * Qc => fst p) l) with (map fst l). change (map (fun p : Qc * Qc => snd p) l) with (map snd l). eexists. split; [|apply regression_slope; assumption].
    apply vdiv_Fin. exact NV.
Qed.
End Reg.
(** ** the whole function *)
Lemma compat22_ok nY nX a b : rect nY nX a -> rect nY nX b -> compatible22 a b = true.
Proof.
  intros [A1 A2] [B1 B2]. unfold compatible22. assert (L : zlen a = zlen b) by lia. clear A1 B1. revert b B2 L. induction a as [|r a IH]; intros [|s b] B2 L; rewrite ?zlen_cons in L; cbn in *; try reflexivity.
  - pose proof (zlen_nonneg b). unfold zlen in L at 1. cbn in L. lia.
  - pose proof (zlen_nonneg a). unfold zlen in L at 2. cbn in L. lia.
  - rewrite (A2 r), (B2 s), Z.eqb_refl by (left; reflexivity). apply IH; [auto|auto|lia].
Qed.

Lemma gradient_enter E nY nX base values gt h num_min min_range default : gradient_args nY nX base values h num_min min_range ->
  calc_gradient E base values gt h num_min min_range default =
  match gt with
  | MinMax => for2 nY nX (init2 nY nX default) (minmax_gradient base values nY nX h num_min min_range default)
  | LinearRegression =>
    (base0 <- omp (for2 nY nX (init2 nY nX MV) (fun y x => b <- get2 base y x ;; v <- get2 values y x ;; Ok (if is_valid b && is_valid v then b else MV))) ;;
    values0 <- omp (for2 nY nX (init2 nY nX MV) (fun y x => b <- get2 base y x ;; v <- get2 values y x ;; Ok (if is_valid b && is_valid v then v else MV))) ;;
    bxb <- omp (for2 nY nX (init2 nY nX MV) (fun y x => b <- get2 base y x ;; v <- get2 values y x ;; Ok (if is_valid b && is_valid v then vmul b b else MV))) ;;
    bxv <- omp (for2 nY nX (init2 nY nX MV) (fun y x => b <- get2 base y x ;; v <- get2 values y x ;; Ok (if is_valid b && is_valid v then vmul b v else MV))) ;;
    isv <- omp (for2 nY nX (init2 nY nX (fz 0)) (fun y x => b <- get2 base y x ;; v <- get2 values y x ;; Ok (if is_valid b && is_valid v then fz 1 else fz 0))) ;;
    mX <- neighbourhood E base0 h Mean ;; mY <- neighbourhood E values0 h Mean ;;
    mXX <- neighbourhood E bxb h Mean ;; mXY <- neighbourhood E bxv h Mean ;; cnt <- neighbourhood E isv h Sum ;;
    omp (for2 nY nX (init2 nY nX default) (regression_cell E mX mY mXX mXY cnt num_min min_range default)))
  | OtherGradientType => Ok (init2 nY nX default)
  end.
Proof.
  intros (RB & RV & PY & PX & Hh & Hn & HM). unfold calc_gradient.
  rewrite (proj2 (Z.leb_gt h 0)) by lia. rewrite (proj2 (Z.ltb_ge num_min 0)) by lia. rewrite (compat22_ok nY nX) by assumption. cbn [negb].
  replace (is_valid min_range && vltb min_range (fz 0))%bool with false.
  2:{ destruct min_range as [| | |m]; try reflexivity. cbn. specialize (HM m eq_refl). destruct (qltb_spec m (qz 0)) as [K|K]; [change (qz 0) with 0%Qc in K; exfalso; qlra|reflexivity]. }
  pose proof RB as [R1 R2]. rewrite R1. rewrite (proj2 (Z.eqb_neq nY 0)) by lia. destruct (znth_some base 0) as [r Hr]; [lia|]. rewrite Hr. cbn [bind]. rewrite (R2 r) by (eapply znth_In; eauto).
  destruct gt; try reflexivity. rewrite (for2r_for2 nY nX) by assumption. reflexivity.
Qed.
Lemma c72_minmax E nY nX base values h num_min min_range default : gradient_args nY nX base values h num_min min_range ->
  exists out, calc_gradient E base values MinMax h num_min min_range default = Ok out /\
    filtered nY nX (fun y x r => minmax_value (pairs_around base values h y x) num_min min_range default r) out.
Proof.
  intros A. rewrite (gradient_enter E nY nX) by exact A. destruct A as (RB & RV & PY & PX & Hh & Hn & HM). rewrite for2_init_tab by lia.
  destruct (tab2_total nY nX (minmax_gradient base values nY nX h num_min min_range default) (fun y x r => minmax_value (pairs_around base values h y x) num_min min_range default r)) as (r & Hr & R & Hc); [lia|lia| |].
  - intros i j Hi Hj. apply minmax_ok; try assumption; lia.
  - exists r. split; [exact Hr|]. split; [exact R|]. intros y x Hy Hx. destruct (Hc y x Hy Hx) as (v & ? & _ & ?). eauto.
Qed.
Lemma c73_regression E nY nX base values h num_min min_range default : gradient_args nY nX base values h num_min min_range ->
  exists out, calc_gradient E base values LinearRegression h num_min min_range default = Ok out /\
    filtered nY nX (fun y x r => regression_value E (pairs_around base values h y x) num_min min_range default r) out.
Proof.
  intros A. rewrite (gradient_enter E nY nX) by exact A. destruct A as (RB & RV & PY & PX & Hh & Hn & HM). apply regression_ok; try assumption. lia.
Qed.
(** ** consequences that mention the function only: shift invariance, recovery of an exact linear relation *)
Lemma least_squares_line l a b : qvar (map fst l) <> 0%Qc -> l <> [] -> (forall p, In p l -> snd p = a + b * fst p)%Qc -> forall b', least_squares l b' -> b' = b.
Proof.
  intros NV NE HL b' (a' & LS). assert (Z0 : sse l a b = 0%Qc).
  { unfold sse. clear -HL. induction l as [|p l IH]; [reflexivity|]. cbn [map qsum]. rewrite IH by (intros; apply HL; right; assumption). rewrite (HL p) by (left; reflexivity). ring. }
  specialize (LS a b). rewrite Z0 in LS.
  assert (EACH : forall p, In p l -> (snd p - a' - b' * fst p = 0)%Qc).
  { unfold sse in LS. clear -LS. induction l as [|q l IH]; [contradiction|]. cbn [map qsum] in LS.
    assert (N1 : (0 <= (snd q - a' - b' * fst q) * (snd q - a' - b' * fst q))%Qc) by apply qsq_nonneg.
    assert (N2 : (0 <= qsum (map (fun p : Qc * Qc => (snd p - a' - b' * fst p) * (snd p - a' - b' * fst p)) l))%Qc). { apply qsum_nonneg. intros z Hz. apply in_map_iff in Hz as (p & <- & _). apply qsq_nonneg. }
    intros p [<-|Hp].
    - assert (K : ((snd q - a' - b' * fst q) * (snd q - a' - b' * fst q) = 0)%Qc) by (apply Qcle_antisym; [revert LS N1 N2; generalize ((snd q - a' - b' * fst q) * (snd q - a' - b' * fst q))%Qc (qsum (map (fun p : Qc * Qc => (snd p - a' - b' * fst p) * (snd p - a' - b' * fst p)) l))%Qc; intros; qlra|exact N1]).
      apply Qcmult_integral in K. destruct K; assumption.
    - apply IH; [|exact Hp]. revert LS N1 N2; generalize ((snd q - a' - b' * fst q) * (snd q - a' - b' * fst q))%Qc (qsum (map (fun p : Qc * Qc => (snd p - a' - b' * fst p) * (snd p - a' - b' * fst p)) l))%Qc; intros; qlra. }
  destruct (Qc_eq_dec b' b) as [|ND]; [assumption|]. exfalso. apply NV.
  assert (CST : forall p, In p l -> fst p = ((a - a') / (b' - b))%Qc).
  { intros p Hp. pose proof (EACH p Hp) as E1. rewrite (HL p Hp) in E1. assert (D : (b' - b <> 0)%Qc) by (intros K; apply ND; replace b' with (b' - b + b)%Qc by ring; rewrite K; ring).
    assert (E2 : (fst p * (b' - b) = a - a')%Qc). { replace (a - a')%Qc with (a + b * fst p - a' - b' * fst p + fst p * (b' - b))%Qc by ring. rewrite E1. ring. }
    rewrite <- E2. field. exact D. }
  set (c := ((a - a') / (b' - b))%Qc) in CST. clearbody c.
  assert (MM : map fst l = map (fun _ => c) l) by (apply map_ext_in; intros; auto).
  assert (SM : qsum (map (fun _ : Qc * Qc => c) l) = (qlen l * c)%Qc). { clear. induction l as [|p l IH]; [cbn [map qsum]; change (qlen (@nil (Qc * Qc))) with 0%Qc; ring|]. cbn [map qsum]. rewrite IH. unfold qlen. rewrite zlen_cons, qz_add, qz_1. ring. }
  assert (ME : qmean (map fst l) = c). { unfold qmean. rewrite MM, SM. unfold qlen. rewrite zlen_map. fold (qlen l). field. apply qlen_neq0. exact NE. }
  unfold qvar. rewrite ME, MM, map_map. replace (qsum (map (fun x : Qc * Qc => (c - c) * (c - c)) l))%Qc with 0%Qc; [unfold Qcdiv; ring|].
  clear. induction l as [|p l IH]; [reflexivity|]. cbn [map qsum]. rewrite <- IH. ring.
Qed.
(** values that depend linearly on the base give that slope (or the default) *)
Lemma c73_linear E nY nX base values h num_min min_range default a b out y x r : gradient_args nY nX base values h num_min min_range ->
  calc_gradient E base values LinearRegression h num_min min_range default = Ok out ->
  0 <= y < nY -> 0 <= x < nX -> (forall p, In p (pairs_around base values h y x) -> snd p = a + b * fst p)%Qc -> get2 out y x = Ok r -> r = Fin b \/ r = default.
Proof.
  intros A H Hy Hx HL Hr. destruct (c73_regression E nY nX base values h num_min min_range default A) as (out' & H' & _ & C). assert (out' = out) by congruence. subst out'.
  destruct (C y x Hy Hx) as (v & Hv & D & L). assert (v = r) by congruence. subst v. remember (pairs_around base values h y x) as l eqn:EQL. clear EQL.
  destruct (Z_lt_le_dec (zlen l) num_min) as [K1|K1]; [auto|]. assert (NE : l = [] \/ l <> []) by (destruct l; [left; reflexivity|right; discriminate]). destruct NE as [NE|NE]; [auto|].
  destruct (Qc_eq_dec (qvar (map fst l)) 0) as [K2|K2]; [right; apply D; tauto|].
  assert (SL : (forall m, min_range = Fin m -> (m <= ext_sqrt E (qvar (map fst l)))%Qc) -> r = Fin b \/ r = default).
  { intros K. destruct (L K1 NE K2 K) as (b' & -> & LS). left. f_equal. apply (least_squares_line l a b); auto. }
  destruct min_range as [| | |m]; try (apply SL; discriminate).
  destruct (Qclt_le_dec (ext_sqrt E (qvar (map fst l))) m) as [K3|K3]; [right; apply D; right; right; right; eauto|].
  apply SL. intros m' K. injection K as <-. exact K3.
Qed.
Lemma compat22_inv a b : compatible22 a b = true -> zlen a = zlen b.
Proof.
  revert b. induction a as [|r a IH]; intros [|s b] H; try discriminate; [reflexivity|]. rewrite !zlen_cons. f_equal. apply IH. unfold compatible22 in *. cbn in H. apply andb_true_iff in H. tauto.
Qed.
Lemma c72_rejects E base values gt h num_min min_range default :
  h <= 0 \/ num_min < 0 \/ base = [] \/ zlen base <> zlen values \/ (exists m, min_range = Fin m /\ (m < 0)%Qc) ->
  calc_gradient E base values gt h num_min min_range default = Throw InvalidArgument.
Proof.
  intros H. unfold calc_gradient. destruct (Z.leb_spec h 0) as [?|Hh]; [reflexivity|]. destruct (is_valid min_range && vltb min_range (fz 0))%bool eqn:EM; [reflexivity|].
  destruct (Z.ltb_spec num_min 0) as [?|Hn]; [reflexivity|]. destruct (Z.eqb_spec (zlen base) 0) as [?|Hb]; [reflexivity|].
  destruct (compatible22 base values) eqn:EC; [|reflexivity]. exfalso. apply compat22_inv in EC. destruct H as [H|[H|[->|[H|(m & -> & H)]]]]; [lia|lia|apply Hb; reflexivity|lia|].
  cbn in EM. destruct (qltb_spec m (qz 0)) as [?|K]; [discriminate|]. change (qz 0) with 0%Qc in K. contradiction.
Qed.
(** flat terrain: with the default arguments (min_range missing) the result is not the default gradient *)
Lemma c72_flat_refuted E : exists nY nX base values h num_min default,
  gradient_args nY nX base values h num_min MV /\ num_min <= zlen (pairs_around base values h 0 0) /\
  (forall p q, In p (pairs_around base values h 0 0) -> In q (pairs_around base values h 0 0) -> fst p = fst q) /\
  exists out r, calc_gradient E base values MinMax h num_min MV (Fin default) = Ok out /\ get2 out 0 0 = Ok r /\ missing r.
Proof.
  exists 1, 2, [[fz 5; fz 5]], [[fz 1; fz 3]], 1, 2, 0%Qc. split.
  { split; [split; [reflexivity|intros r [<-|[]]; reflexivity]|]. split; [split; [reflexivity|intros r [<-|[]]; reflexivity]|]. repeat (split; [lia|]). discriminate. }
  split; [vm_compute; discriminate|]. split; [cbn; intros p q [<-|[<-|[]]] [<-|[<-|[]]]; reflexivity|]. eexists _, _. split; [vm_compute; reflexivity|]. split; reflexivity.
Qed.
