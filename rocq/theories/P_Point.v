From Verif Require Import Base ListLib M_Stat M_Interp M_Curve M_TfVec S_Stat S_Interp S_Curve S_Point P_Stat P_Interp P_NeighAll P_Search P_Curve.

Lemma mapM_pointwise {A B} (f : A -> res B) l out : mapM f l = Ok out <-> pointwise f l out.
Proof.
  split.
  - revert out. induction l as [|x l IH]; cbn; intros out E; [injection E as <-; constructor|].
    apply bind_Ok in E. destruct E as (y & E1 & E). apply bind_Ok in E. destruct E as (ys & E2 & E). injection E as <-. constructor; [exact E1|apply IH; exact E2].
  - induction 1 as [|x y l out H F IH]; cbn; [reflexivity|]. rewrite H. cbn. rewrite IH. reflexivity.
Qed.
Lemma omp_Ok {A} (r : res A) a : omp r = Ok a <-> r = Ok a.
Proof. destruct r; cbn; split; congruence. Qed.
Lemma for1_pointwise {A B} (f : A -> res B) l v out : for1 (zlen l) (init1 (zlen l) v) (fun i => a <- znth l i ;; f a) = Ok out <-> pointwise f l out.
Proof. rewrite for1_init_tab by apply zlen_nonneg. rewrite mapM_zrange_znth. apply mapM_pointwise. Qed.
Lemma pointwise_iff {A B} (f : A -> res B) (P : A -> B -> Prop) l out : (forall x y, f x = Ok y <-> P x y) -> (pointwise f l out <-> Forall2 P l out).
Proof. intros H. split; induction 1; constructor; auto; apply H; assumption. Qed.
Lemma pointwise_map {A B} (f : A -> B) l out : pointwise (fun x => Ok (f x)) l out <-> out = map f l.
Proof.
  split; [|intros ->; induction l; constructor; auto].
  induction 1 as [|x y l out E F IH]; [reflexivity|]. injection E as <-. cbn. congruence.
Qed.
Lemma for1_map {A B} (f : A -> B) l v : for1 (zlen l) (init1 (zlen l) v) (fun i => a <- znth l i ;; Ok (f a)) = Ok (map f l).
Proof. apply (for1_pointwise (fun a => Ok (f a))). apply pointwise_map. reflexivity. Qed.
Lemma for1_body_ext {A} n (init : list A) b b' : zlen init = n -> (forall i, 0 <= i < n -> b i = b' i) -> for1 n init b = for1 n init b'.
Proof. intros HL H. rewrite !for1_tab by exact HL. apply mapM_ext. intros i Hi. apply in_zrange in Hi. auto. Qed.
Lemma tf_vec_ok {A} mv (f : A -> A) l : tf_vec mv f l = Ok (map f l).
Proof. apply for1_map. Qed.
Lemma tf_vec2_ok {A} mv (f : A -> A) l : tf_vec2 mv f l = Ok (map (map f) l).
Proof.
  unfold tf_vec2. cbv zeta. rewrite <- (for1_map (map f) l []). apply for1_body_ext; [apply zlen_init1, zlen_nonneg|]. intros y Hy.
  destruct (znth_some l y Hy) as [row Hr]. rewrite Hr. cbn [bind]. rewrite <- (for1_map f row mv). apply for1_body_ext; [apply zlen_init1, zlen_nonneg|].
  intros x _. unfold get2. rewrite Hr. reflexivity.
Qed.
Lemma tf_vec3_ok {A} mv (f : A -> A) l : tf_vec3 mv f l = Ok (map (map (map f)) l).
Proof.
  unfold tf_vec3. cbv zeta. rewrite <- (for1_map (map (map f)) l []). apply for1_body_ext; [apply zlen_init1, zlen_nonneg|]. intros y Hy.
  destruct (znth_some l y Hy) as [row Hr]. rewrite Hr. cbn [bind]. rewrite <- (for1_map (map f) row []). apply for1_body_ext; [apply zlen_init1, zlen_nonneg|].
  intros x Hx. unfold get3, get2. rewrite Hr. cbn [bind]. destruct (znth_some row x Hx) as [col Hc]. rewrite Hc. cbn [bind]. apply for1_map.
Qed.

Lemma interpolate_vec_pw x iX iY out : zlen iX = zlen iY -> (interpolate_vec x iX iY = Ok out <-> pointwise (fun v => interpolate v iX iY) x out).
Proof. intros HL. unfold interpolate_vec. replace (zlen iX =? zlen iY) with true by lia. cbn [negb]. rewrite omp_Ok. apply for1_pointwise. Qed.
Lemma apply_curve_vec_pw fcst ref cf pb pa out : zlen ref = zlen cf -> ref <> [] ->
  (apply_curve_vec fcst ref cf pb pa = Ok out <-> pointwise (fun v => apply_curve v ref cf pb pa) fcst out).
Proof.
  intros HL NE. pose proof (zlen_pos' ref NE). unfold apply_curve_vec. replace (zlen ref =? zlen cf) with true by lia. cbn [negb]. replace (zlen ref =? 0) with false by lia.
  rewrite omp_Ok. apply for1_pointwise.
Qed.
Lemma apply_curve_vec2_pw fcst ref cf pb pa out : zlen ref = zlen cf -> ref <> [] ->
  (apply_curve_vec2 fcst ref cf pb pa = Ok out <-> pointwise2 (fun v => apply_curve v ref cf pb pa) fcst out).
Proof.
  intros HL NE. pose proof (zlen_pos' ref NE). unfold apply_curve_vec2. replace (zlen ref =? zlen cf) with true by lia. cbn [negb]. replace (zlen ref =? 0) with false by lia.
  rewrite for1_pointwise. apply pointwise_iff. intros row o. apply apply_curve_vec_pw; assumption.
Qed.
Lemma tab2_pw {A} nY nX (f : Z -> Z -> res A) (out : list (list A)) : 0 <= nY -> 0 <= nX ->
  (tab2 nY nX f = Ok out <-> rect nY nX out /\ forall y x, 0 <= y < nY -> 0 <= x < nX -> f y x = get2 out y x).
Proof.
  intros HY HX. split.
  - intros E. destruct (tab2_inv _ _ _ _ HY HX E) as [R H]. split; [exact R|]. intros y x Hy Hx. destruct (H y x Hy Hx) as (v & V1 & V2). congruence.
  - intros [R H]. destruct (tab2_total nY nX f (fun y x v => get2 out y x = Ok v) HY HX) as (r & E & RR & HR).
    + intros y x Hy Hx. rewrite (H y x Hy Hx). destruct (rect_get2 nY nX out y x R Hy Hx) as [v V]. eauto.
    + rewrite E. f_equal. apply (rect_ext nY nX); [exact RR|exact R|]. intros y x Hy Hx. destruct (HR y x Hy Hx) as (v & V1 & V2 & V3). congruence.
Qed.
Lemma same_lens_refl {A B} (f : A -> B -> bool) n : forall (a : list A) (b : list B), zlen a = n -> zlen b = n -> (forall x y, In x a -> In y b -> f x y = true) -> same_lens f a b = true.
Proof.
  intros a b Ha Hb H. assert (HL : length a = length b) by (unfold zlen in *; lia). clear Ha Hb n. revert b HL H. induction a as [|x a IH]; intros b HL H; destruct b as [|y b]; try discriminate HL; [reflexivity|].
  cbn. rewrite H by (left; reflexivity). cbn. apply IH; [injection HL; auto|]. intros; apply H; right; assumption.
Qed.
Lemma compat23_rect nY nX (a : vec2) (b : vec3) : 0 < nY -> rect nY nX a -> rect nY nX b -> compatible_size_23 a b = Ok true.
Proof.
  intros HY Ra Rb. unfold compatible_size_23. destruct Ra as [La Ha], Rb as [Lb Hb]. rewrite La, Lb. replace (nY =? 0) with false by lia. rewrite Z.eqb_refl. cbn [andb negb].
  destruct (znth_some a 0) as [a0 E0]; [lia|]. destruct (znth_some b 0) as [b0 E1]; [lia|]. rewrite E0, E1. cbn [bind]. rewrite (Ha a0), (Hb b0), Z.eqb_refl; [reflexivity|eapply znth_In; exact E1|eapply znth_In; exact E0].
Qed.
Lemma compat33_rect nY nX nC (a b : vec3) : rect3 nY nX nC a -> rect3 nY nX nC b -> compatible33 a b = true.
Proof.
  intros [[La Ha] Ka] [[Lb Hb] Kb]. apply (same_lens_refl _ nY); auto. intros r s Hr Hs. apply (same_lens_refl _ nX); auto. intros c d Hc Hd. rewrite (Ka r c Hr Hc), (Kb s d Hs Hd). apply Z.eqb_refl.
Qed.
Lemma apply_curve_vec3_pw nY nX nC (fcst out : vec2) (ref cf : vec3) pb pa : 0 < nY -> 0 <= nX -> rect nY nX fcst -> rect3 nY nX nC ref -> rect3 nY nX nC cf ->
  (apply_curve_vec3 fcst ref cf pb pa = Ok out <->
   rect nY nX out /\ forall y x, 0 <= y < nY -> 0 <= x < nX ->
     exists v r c w, get2 fcst y x = Ok v /\ get2 ref y x = Ok r /\ get2 cf y x = Ok c /\ get2 out y x = Ok w /\ apply_curve v r c pb pa = Ok w).
Proof.
  intros HY HX RF RR RC. unfold apply_curve_vec3. rewrite (compat33_rect nY nX nC ref cf RR RC). cbn [negb].
  rewrite (compat23_rect nY nX fcst ref HY RF (proj1 RR)), (compat23_rect nY nX fcst cf HY RF (proj1 RC)). cbn [bind negb].
  destruct (znth_some fcst 0) as [f0 E0]; [destruct RF; lia|]. rewrite E0. cbn [bind]. rewrite (proj2 RF f0) by (eapply znth_In; exact E0). rewrite (proj1 RF).
  rewrite omp_Ok, for2_init_tab by lia. rewrite tab2_pw by lia. split; intros [R H]; (split; [exact R|]); intros y x Hy Hx; specialize (H y x Hy Hx).
  - destruct (rect_get2 nY nX fcst y x RF Hy Hx) as [v V], (rect_get2 nY nX ref y x (proj1 RR) Hy Hx) as [r Er], (rect_get2 nY nX cf y x (proj1 RC) Hy Hx) as [c Ec], (rect_get2 nY nX out y x R Hy Hx) as [w W].
    rewrite V, Er, Ec in H. cbn [bind] in H. exists v, r, c, w. rewrite W in H. auto.
  - destruct H as (v & r & c & w & V & Er & Ec & W & E). rewrite V, Er, Ec, W. cbn [bind]. exact E.
Qed.
Lemma calc_quantile_vec2_pw array q out : calc_quantile_vec2 array q = Ok out <-> pointwise (fun row => calc_quantile row q) array out.
Proof. apply for1_pointwise. Qed.
Lemma calc_statistic_vec2_pw E array st out : calc_statistic_vec2 E array st = Ok out <-> pointwise (fun row => calc_statistic E row st) array out.
Proof. apply for1_pointwise. Qed.
Lemma calc_quantile_vec3_pw nY nX nE (array : vec3) (q out : vec2) : 0 < nY -> 0 < nX -> 0 < nE -> rect3 nY nX nE array -> rect nY nX q ->
  (calc_quantile_vec3 array q = Ok out <->
   rect nY nX out /\ forall y x, 0 <= y < nY -> 0 <= x < nX ->
     exists a l w, get2 array y x = Ok a /\ get2 q y x = Ok l /\ get2 out y x = Ok w /\ calc_quantile a l = Ok w).
Proof.
  intros HY HX HE RA RQ. unfold calc_quantile_vec3. rewrite (compat23_rect nY nX q array HY RQ (proj1 RA)). cbn [bind negb].
  destruct RA as [RA KA]. destruct (znth_some array 0) as [a0 E0]; [destruct RA; lia|]. assert (I0 : In a0 array) by (eapply znth_In; exact E0).
  pose proof (proj2 RA a0 I0) as L0. destruct (znth_some a0 0) as [a00 E00]; [lia|]. assert (I00 : In a00 a0) by (eapply znth_In; exact E00). pose proof (KA a0 a00 I0 I00) as L00.
  rewrite (proj1 RA), E0. replace (nY =? 0) with false by lia. cbn [bind]. rewrite L0. replace (nX =? 0) with false by lia. rewrite E00. cbn [bind]. rewrite L00. replace (nE =? 0) with false by lia.
  rewrite for2_init_tab by lia. rewrite tab2_pw by lia. split; intros [R H]; (split; [exact R|]); intros y x Hy Hx; specialize (H y x Hy Hx).
  - destruct (rect_get2 nY nX array y x RA Hy Hx) as [a V], (rect_get2 nY nX q y x RQ Hy Hx) as [l Er], (rect_get2 nY nX out y x R Hy Hx) as [w W].
    rewrite V, Er in H. cbn [bind] in H. exists a, l, w. rewrite W in H. auto.
  - destruct H as (a & l & w & V & Er & W & E). rewrite V, Er, W. cbn [bind]. exact E.
Qed.

Lemma c11_partial :
  (forall x iX iY out, zlen iX = zlen iY -> (interpolate_vec x iX iY = Ok out <-> pointwise (fun v => interpolate v iX iY) x out)) /\
  (forall fcst ref cf pb pa out, zlen ref = zlen cf -> ref <> [] ->
     (apply_curve_vec fcst ref cf pb pa = Ok out <-> pointwise (fun v => apply_curve v ref cf pb pa) fcst out)) /\
  (forall fcst ref cf pb pa out, zlen ref = zlen cf -> ref <> [] ->
     (apply_curve_vec2 fcst ref cf pb pa = Ok out <-> pointwise2 (fun v => apply_curve v ref cf pb pa) fcst out)) /\
  (forall nY nX nC (fcst out : vec2) (ref cf : vec3) pb pa, 0 < nY -> 0 <= nX -> rect nY nX fcst -> rect3 nY nX nC ref -> rect3 nY nX nC cf ->
     (apply_curve_vec3 fcst ref cf pb pa = Ok out <->
      rect nY nX out /\ forall y x, 0 <= y < nY -> 0 <= x < nX ->
        exists v r c w, get2 fcst y x = Ok v /\ get2 ref y x = Ok r /\ get2 cf y x = Ok c /\ get2 out y x = Ok w /\ apply_curve v r c pb pa = Ok w)) /\
  (forall array q out, calc_quantile_vec2 array q = Ok out <-> pointwise (fun row => calc_quantile row q) array out) /\
  (forall E array st out, st <> RandomChoice -> (calc_statistic_vec2 E array st = Ok out <-> pointwise (fun row => calc_statistic E row st) array out)) /\
  (forall nY nX nE (array : vec3) (q out : vec2), 0 < nY -> 0 < nX -> 0 < nE -> rect3 nY nX nE array -> rect nY nX q ->
     (calc_quantile_vec3 array q = Ok out <->
      rect nY nX out /\ forall y x, 0 <= y < nY -> 0 <= x < nX ->
        exists a l w, get2 array y x = Ok a /\ get2 q y x = Ok l /\ get2 out y x = Ok w /\ calc_quantile a l = Ok w)) /\
  (forall (A : Type) (mv : A) (f : A -> A), (forall l, tf_vec mv f l = Ok (map f l)) /\ (forall l, tf_vec2 mv f l = Ok (map (map f) l)) /\ (forall l, tf_vec3 mv f l = Ok (map (map (map f)) l))).
Proof.
  split; [exact interpolate_vec_pw|]. split; [exact apply_curve_vec_pw|]. split; [exact apply_curve_vec2_pw|]. split; [exact apply_curve_vec3_pw|].
  split; [exact calc_quantile_vec2_pw|]. split; [intros; apply calc_statistic_vec2_pw|]. split; [exact calc_quantile_vec3_pw|].
  intros A mv f. split; [intros; apply tf_vec_ok|]. split; [intros; apply tf_vec2_ok|intros; apply tf_vec3_ok].
Qed.
(** an array of two rows without columns loses its rows; an empty field with empty curve fields is undefined *)
Lemma c11_refuted :
  (exists array q, rect3 2 0 0 array /\ rect 2 0 q /\ calc_quantile_vec3 array q = Ok [] /\ zlen array <> zlen (@nil vec)) /\
  apply_curve_vec3 [] [] [] OneToOne OneToOne = UB.
Proof.
  split; [|reflexivity]. exists [[]; []], [[]; []]. split.
  - split; [split; [reflexivity|intros r [<-|[<-|[]]]; reflexivity]|]. intros r c [<-|[<-|[]]] [].
  - split; [split; [reflexivity|intros r [<-|[<-|[]]]; reflexivity]|]. split; [reflexivity|]. intros K. discriminate K.
Qed.
