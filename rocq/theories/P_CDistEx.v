From Coq Require Import Permutation.
From Verif Require Import Base ListLib QcTac M_Stat S_Stat P_Stat P_Even M_COpt M_CUtil S_CUtil P_CUtil M_CCal S_CCal P_CCal M_CCal2 M_CGradient P_CGrad P_CDown M_CDist S_CDist P_CDist P_CGauss P_CBct P_CZaga P_CPop P_CZaga2.
Local Open Scope Z_scope.

(** functions on the rational numbers with the assumed properties: the assumptions about exp, pow and the distributions can be met *)
Definition expo (x : Qc) : Qc := if Qclt_le_dec x 0 then (/ (1 - x))%Qc else (1 + x)%Qc.
Definition loga (y : Qc) : Qc := if Qclt_le_dec y 1 then (1 - / y)%Qc else (y - 1)%Qc.
Definition half : Qc := Q2Qc (1 # 2).
Definition tdist (tau x : Qc) : Qc := if Qclt_le_dec x 0 then (half * / (1 - x))%Qc else (1 - half * / (1 + x))%Qc.
Definition tquant (tau p : Qc) : Qc := if Qclt_le_dec p half then (1 - half * / p)%Qc else (half * / (1 - p) - 1)%Qc.
Definition gdist (shape scale x : Qc) : Qc := (1 - / (1 + x))%Qc.
Definition gquant (shape scale p : Qc) : Qc := (/ (1 - p) - 1)%Qc.
Definition lift1 (f : Qc -> Qc) (v : val) : val := match v with Fin x => Fin (f x) | _ => NaN end.
Definition lift2 (f : Qc -> Qc -> Qc) (v w : val) : val := match v, w with Fin x, Fin y => Fin (f x y) | _, PInf => Fin 1%Qc | _, _ => NaN end.
Definition lift3 (f : Qc -> Qc -> Qc -> Qc) (u v w : val) : val := match u, v, w with Fin x, Fin y, Fin z => Fin (f x y z) | _, _, _ => NaN end.
Lemma inv_pos x : (0 < x -> 0 < / x)%Qc.
Proof. intros H. assert (X : (x * / x = 1)%Qc) by (field; intros ->; exfalso; qlra). destruct (Qclt_le_dec 0 (/ x)) as [K|K]; [exact K|]. exfalso. set (a := (/ x)%Qc) in *. clearbody a. qnra. Qed.
Lemma inv_anti x y : (0 < x -> x < y -> / y < / x)%Qc.
Proof.
  intros H L. assert (X : (x * / x = 1)%Qc) by (field; intros ->; exfalso; qlra). assert (Y : (y * / y = 1)%Qc) by (field; intros ->; exfalso; qlra).
  destruct (Qclt_le_dec (/ y) (/ x)) as [K|K]; [exact K|]. exfalso. assert (BP : (0 < / y)%Qc) by (apply inv_pos; qlra). set (a := (/ x)%Qc) in *. set (b := (/ y)%Qc) in *. clearbody a b. assert (Z : ((y - x) * b + x * (b - a) = 0)%Qc) by (transitivity (y * b - x * a)%Qc; [ring|rewrite X, Y; ring]). assert (Z1 : (0 < (y - x) * b)%Qc) by (apply mul_pos; qlra). assert (Z2 : (0 <= x * (b - a))%Qc) by qnra. set (m := ((y - x) * b)%Qc) in *. set (n := (x * (b - a))%Qc) in *. clearbody m n. qlra.
Qed.
Lemma mul_nonneg a b : (0 <= a -> 0 <= b -> 0 <= a * b)%Qc.
Proof. intros. qnra. Qed.
Lemma add_ne x : (0 < x -> 1 + x <> 0)%Qc.
Proof. intros H Z. exfalso. qlra. Qed.
Lemma half_eq : (half + half = 1)%Qc. Proof. apply Qc_is_canon. reflexivity. Qed.
Lemma expo_pos : positive expo.
Proof. intros x. unfold expo. destruct (Qclt_le_dec x 0); [apply inv_pos|]; qlra. Qed.
Lemma inv_inv x : (0 < x -> / / x = x)%Qc.
Proof. intros H. field. assert (N : x <> 0%Qc) by (intros ->; exfalso; qlra). split; [exact N|discriminate]. Qed.
Lemma inv_lt1 x : (1 < x -> / x < 1)%Qc.
Proof. intros H. assert (K : (/ x < / 1)%Qc) by (apply inv_anti; qlra). replace (/ 1)%Qc with 1%Qc in K by (apply Qc_is_canon; reflexivity). exact K. Qed.
Lemma inv_le1 x : (1 <= x -> / x <= 1)%Qc.
Proof. intros H. destruct (Qc_eq_dec x 1) as [->|N]. { replace (/ 1)%Qc with 1%Qc by (apply Qc_is_canon; reflexivity). apply Qcle_refl. } apply Qclt_le_weak. apply inv_lt1. destruct (Qclt_le_dec 1 x); auto. exfalso. apply N. apply Qcle_antisym; auto. Qed.
Lemma loga_expo x : loga (expo x) = x.
Proof.
  unfold loga, expo. destruct (Qclt_le_dec x 0) as [A|A].
  - assert (K : (/ (1 - x) < 1)%Qc) by (apply inv_lt1; qlra). destruct (Qclt_le_dec (/ (1 - x)) 1) as [B|B]; [|exfalso; qlra]. rewrite inv_inv by qlra. ring.
  - destruct (Qclt_le_dec (1 + x) 1) as [B|B]; [exfalso; qlra|ring].
Qed.
Lemma student_t : student tdist tquant.
Proof.
  pose proof half_eq as HE. assert (HH : (0 < half < 1)%Qc) by (split; reflexivity). generalize half_eq. unfold student, tdist, tquant. set (h := half) in *. clearbody h. intros _.
  split; [|split; [|split]].
  - intros _ x. destruct (Qclt_le_dec x 0) as [A|A].
    + assert (K : (/ (1 - x) < 1)%Qc) by (apply inv_lt1; qlra). assert (P : (0 < / (1 - x))%Qc) by (apply inv_pos; qlra). set (u := (/ (1 - x))%Qc) in *. clearbody u. split; qnra.
    + assert (K : (/ (1 + x) <= 1)%Qc) by (apply inv_le1; qlra). assert (P : (0 < / (1 + x))%Qc) by (apply inv_pos; qlra). set (u := (/ (1 + x))%Qc) in *. clearbody u. split; qnra.
  - intros _ x y L. destruct (Qclt_le_dec x 0) as [A|A]; destruct (Qclt_le_dec y 0) as [B|B].
    + assert (K : (/ (1 - x) < / (1 - y))%Qc) by (apply inv_anti; qlra). set (u := (/ (1 - x))%Qc) in *. set (v := (/ (1 - y))%Qc) in *. clearbody u v. qnra.
    + assert (K : (/ (1 - x) < 1)%Qc) by (apply inv_lt1; qlra). assert (K' : (/ (1 + y) <= 1)%Qc) by (apply inv_le1; qlra). set (u := (/ (1 - x))%Qc) in *. set (v := (/ (1 + y))%Qc) in *. clearbody u v. qnra.
    + exfalso. qlra.
    + assert (K : (/ (1 + y) < / (1 + x))%Qc) by (apply inv_anti; qlra). set (u := (/ (1 + x))%Qc) in *. set (v := (/ (1 + y))%Qc) in *. clearbody u v. qnra.
  - intros _ x. destruct (Qclt_le_dec x 0) as [A|A]; destruct (Qclt_le_dec (- x) 0) as [B|B].
    + exfalso. qlra.
    + replace (1 + - x)%Qc with (1 - x)%Qc by ring. ring.
    + replace (1 - - x)%Qc with (1 + x)%Qc by ring. ring.
    + assert (x = 0)%Qc by (apply Qcle_antisym; [qlra|auto]). subst. replace (1 + - 0)%Qc with 1%Qc by ring. replace (1 + 0)%Qc with 1%Qc by ring. replace (/ 1)%Qc with 1%Qc by (apply Qc_is_canon; reflexivity). apply Qcle_antisym; qlra.
  - intros _ p [P1 P2]. destruct (Qclt_le_dec p h) as [A|A].
    + assert (PP : (p * / p = 1)%Qc) by (field; intros ->; exfalso; qlra). assert (N : (1 - h * / p < 0)%Qc). { set (u := (/ p)%Qc) in *. clearbody u. qnra. }
      destruct (Qclt_le_dec (1 - h * / p) 0) as [B|B]; [|exfalso; qlra]. replace (1 - (1 - h * / p))%Qc with (h * / p)%Qc by ring. field. split; intros Z; subst; exfalso; qlra.
    + assert (PP : ((1 - p) * / (1 - p) = 1)%Qc) by (field; apply sub_ne; auto). assert (N : (0 <= h * / (1 - p) - 1)%Qc). { set (u := (/ (1 - p))%Qc) in *. clearbody u. qnra. }
      destruct (Qclt_le_dec (h * / (1 - p) - 1) 0) as [B|B]; [exfalso; qlra|]. replace (1 + (h * / (1 - p) - 1))%Qc with (h * / (1 - p))%Qc by ring. assert (IH : (h * / (h * / (1 - p)) = 1 - p)%Qc). { field. split; [apply sub_ne; auto|]. intros Z. subst. exfalso. qlra. } rewrite IH. ring.
Qed.
Lemma gamma_g : gamma_functions gdist gquant.
Proof.
  intros shape scale _ _. unfold gdist, gquant. split; [|split].
  - intros x H. assert (K : (/ (1 + x) < 1)%Qc) by (apply inv_lt1; qlra). assert (P : (0 < / (1 + x))%Qc) by (apply inv_pos; qlra). set (u := (/ (1 + x))%Qc) in *. clearbody u. split; qlra.
  - intros x y [H L]. destruct (Qc_eq_dec x y) as [->|N]; [apply Qcle_refl|]. assert (K : (/ (1 + y) < / (1 + x))%Qc). { apply inv_anti; [qlra|]. destruct (Qclt_le_dec x y); [qlra|]. exfalso. apply N, Qcle_antisym; auto. } set (u := (/ (1 + x))%Qc) in *. set (v := (/ (1 + y))%Qc) in *. clearbody u v. qlra.
  - intros p [P1 P2]. assert (PP : ((1 - p) * / (1 - p) = 1)%Qc) by (field; apply sub_ne; auto). assert (UP : (0 < / (1 - p))%Qc) by (apply inv_pos; qlra). set (u := (/ (1 - p))%Qc) in *. clearbody u. assert (PU : (u - 1 = p * u)%Qc) by (rewrite <- PP; ring).
    assert (NN : (0 <= p * u)%Qc) by (apply mul_nonneg; qlra). split; [rewrite PU; auto|]. split.
    + rewrite PU. split; intros L; [|assert (p = 0)%Qc by (apply Qcle_antisym; auto); subst; qlra]. destruct (Qclt_le_dec 0 p) as [K|K]; [|auto]. exfalso. pose proof (mul_pos p u K UP). qlra.
    + intros x Hx. assert (XX : ((1 + x) * / (1 + x) = 1)%Qc) by (field; apply add_ne; auto). assert (VP : (0 < / (1 + x))%Qc) by (apply inv_pos; qlra). set (v := (/ (1 + x))%Qc) in *. clearbody v.
      assert (UV : ((1 + x - u) * ((1 - p) * v) = 1 - p - v)%Qc). { transitivity ((1 - p) * ((1 + x) * v) - v * ((1 - p) * u))%Qc; [ring|]. rewrite XX, PP. ring. }
      assert (WP : (0 < (1 - p) * v)%Qc) by (apply mul_pos; qlra). set (w := ((1 - p) * v)%Qc) in *. clearbody w. split; intros L.
      * assert (0 <= (1 + x - u) * w)%Qc by (apply mul_nonneg; qlra). rewrite UV in *. qlra.
      * destruct (Qclt_le_dec (1 + x) u) as [K|K]; [|qlra]. exfalso. assert (0 < (u - (1 + x)) * w)%Qc by (apply mul_pos; qlra). replace ((u - (1 + x)) * w)%Qc with (- ((1 + x - u) * w))%Qc in * by ring. rewrite UV in *. qlra.
Qed.
Lemma power_p : power (fun x _ => x).
Proof. split; auto. Qed.
Lemma lifted1 f : on_numbers1 (lift1 f) f. Proof. intros x. reflexivity. Qed.
Lemma lifted2 f : on_numbers2 (lift2 f) f. Proof. intros x y. reflexivity. Qed.
Lemma lifted2' f : on_nonneg2 (lift2 f) f. Proof. intros x y _. reflexivity. Qed.
Lemma lifted3 f : on_numbers3 (lift3 f) f. Proof. intros x y z. reflexivity. Qed.
Lemma bct_functions : exact_functions (lift1 expo) (lift2 (fun x _ => x)) (lift2 tdist) (lift2 tquant) expo (fun x _ => x) tdist tquant.
Proof. split; [apply lifted1|]. split; [apply lifted2'|]. split; [apply lifted2|]. split; [apply lifted2|]. reflexivity. Qed.
Lemma E0_sqrt : sqrt_nonneg E0. Proof. intros x H. exact H. Qed.
(** fields with 1 x n points and m members *)
Definition dims2 (x e t : Z) : dims := {| d_y := 1; d_x := x; d_e := e; d_t := t |}.
Definition row (x e : Z) (l : vec) : field := {| f_values := l; f_ny := 1; f_nx := x; f_ne := e |}.
Lemma row_size x e t l : 0 <= x -> 0 <= e -> zlen l = x * e -> of_size (dims2 x e t) (row x e l).
Proof. intros Hx He H. unfold of_size, row, dims2, field_ok; cbn. repeat split; auto; lia. Qed.
Lemma row_shaped x e l : (0 <=? x) = true -> (0 <=? e) = true -> (zlen l =? x * e) = true -> shaped (dims2 x e 1) [row x e l].
Proof. intros A B C. apply Z.leb_le in A. apply Z.leb_le in B. apply Z.eqb_eq in C. repeat split; try (cbn; lia). constructor; [apply row_size; auto|constructor]. Qed.
Ltac fcalc := vm_compute; repeat match goal with |- Ok _ = Ok _ => f_equal | |- Fin _ = Fin _ => f_equal | |- @eq (list _) (_ :: _) (_ :: _) => f_equal | |- @eq field _ _ => f_equal | |- @eq Qc _ _ => apply Qc_is_canon; vm_compute; reflexivity | |- _ => reflexivity end.
Definition at_mean (mu sigma p : val) : val := mu.
(** the gaussian calibrator gives values to missing members *)
Lemma c198_refuted : exists sp E ex exq nq pars d fs out t y x e v w, shaped d fs /\ sorts_pairs sp /\ sqrt_nonneg E /\ on_numbers1 ex exq /\ positive exq /\ (forall t y x, 2 <= zlen (pars t y x)) /\
  gaussian_calibrator sp E ex nq 0 pars d fs = Ok out /\ element fs t y x e v /\ missing v /\ element out t y x e w /\ ~ missing w.
Proof.
  exists sort_pairs, E0, (lift1 expo), expo, at_mean, (fun _ _ _ => [fz 0; fz 0]), (dims2 1 2 1), [row 1 2 [CMV; fz 2]], [row 1 2 [fz 2; fz 2]], 0, 0, 0, 0, CMV, (fz 2).
  split; [apply row_shaped; reflexivity|]. split; [exact sort_pairs_ok|]. split; [exact E0_sqrt|]. split; [apply lifted1|]. split; [exact expo_pos|]. split; [intros; reflexivity|].
  split; [vcalc|]. split; [exists (row 1 2 [CMV; fz 2]); split; reflexivity|]. split; [reflexivity|]. split; [exists (row 1 2 [fz 2; fz 2]); split; reflexivity|]. intros K. apply qz_inj in K. lia.
Qed.
(** with a neighbourhood, points that are already calibrated are used for the points after them *)
Lemma c198_neighbourhood_refuted : exists sp E ex exq nq pars d fs out y x l a vs ws, shaped d fs /\ sorts_pairs sp /\ sqrt_nonneg E /\ on_numbers1 ex exq /\ positive exq /\ (forall t y x, 2 <= zlen (pars t y x)) /\
  gaussian_calibrator sp E ex nq 1 pars d fs = Ok out /\ hood d 1 y x l /\ (forall y' x' e, In (y', x', e) l -> element fs 0 y' x' e (Fin (a (y', x', e))) /\ a (y', x', e) <> missing_number) /\ members d fs 0 y x vs /\ members d out 0 y x ws /\
  ~ outcome (gaussian_law exq nq (pars 0 y x) (qmean (map a l)) (ext_sqrt E (qvar (map a l)))) vs ws.
Proof.
  exists sort_pairs, E0, (lift1 expo), expo, at_mean, (fun _ _ _ => [fz 0; fz 0]), (dims2 2 1 1), [row 2 1 [fz 2; fz 4]], [row 2 1 [fz 3; fq (7 # 2)]], 0, 1, [(0, 0, 0); (0, 1, 0)], (fun c => qz (2 + 2 * snd (fst c))), [fz 4], [fq (7 # 2)].
  split; [apply row_shaped; reflexivity|]. split; [exact sort_pairs_ok|]. split; [exact E0_sqrt|]. split; [apply lifted1|]. split; [exact expo_pos|]. split; [intros; reflexivity|].
  split; [fcalc|]. split.
  { split; [repeat constructor; cbn; intuition congruence|]. intros y' x' e. unfold within. cbn. split.
    - intros [K|[K|[]]]; injection K as <- <- <-; lia.
    - intros K. assert (C : x' = 0 \/ x' = 1) by lia. assert (y' = 0 /\ e = 0) as [-> ->] by lia. destruct C as [->| ->]; auto. }
  split. { intros y' x' e [K|[K|[]]]; injection K as <- <- <-; (split; [exists (row 2 1 [fz 2; fz 4]); split; reflexivity|]); intros K; apply qz_inj in K; cbn in K; lia. }
  split. { split; [reflexivity|]. intros e v K. pose proof (znth_range _ _ _ K) as R. unfold zlen in R. cbn [length] in R. assert (e = 0) by lia. subst. injection K as <-. exists (row 2 1 [fz 2; fz 4]). split; reflexivity. }
  split. { split; [reflexivity|]. intros e v K. pose proof (znth_range _ _ _ K) as R. unfold zlen in R. cbn [length] in R. assert (e = 0) by lia. subst. injection K as <-. exists (row 2 1 [fz 3; fq (7 # 2)]). split; reflexivity. }
  intros [_ O]. destruct (O [qz 3]) as [_ O2]; [vcalc|constructor; [intros K; apply qz_inj in K; lia|constructor]|].
  destruct (O2 [qz 4]) as (cal & E & P & _); [reflexivity|constructor; [intros K; apply qz_inj in K; lia|constructor]|]. apply Permutation_sym, Permutation_length_1_inv in P. subst cal. injection E as E. revert E. vm_compute. discriminate.
Qed.
(** the distribution function and the quantiles in the code belong together *)
Lemma c199 ex pw gc gq exq pwq gcq gqq par m fr P0 shape scale : on_numbers1 ex exq -> on_nonneg2 pw pwq -> positive exq -> on_numbers3 gc gcq -> on_numbers3 gq gqq -> gamma_functions gcq gqq -> (0 <= m)%Qc -> (0 <= fr <= 1)%Qc -> 8 <= zlen par ->
  zaga_parameters exq pwq par m fr = Some (P0, shape, scale) ->
  exists F Q, (forall x, (0 <= x)%Qc -> zaga_cdf ex pw gc (Fin m) (Fin fr) par (Fin x) = Ok (Fin (F x))) /\ (forall p, (0 < p < 1)%Qc -> zaga_inv ex pw gq (Fin m) (Fin fr) par (Fin p) = Ok (Fin (Q p))) /\
  (0 < P0 < 1)%Qc /\ F 0%Qc = P0 /\ (forall x, (0 < x)%Qc -> F x = P0 + (1 - P0) * gcq shape scale x)%Qc /\
  (forall x, (0 <= x)%Qc -> 0 <= F x <= 1)%Qc /\ (forall x y, (0 <= x <= y)%Qc -> (F x <= F y)%Qc) /\ (forall p, (0 < p < 1)%Qc -> (0 <= Q p)%Qc) /\ (forall p x, (0 < p < 1)%Qc -> (0 <= x)%Qc -> (Q p <= x <-> p <= F x)%Qc).
Proof.
  intros HX HW HP HC HQ HG Hm Hf HL HZ. exists (zaga_probability gcq P0 shape scale), (zaga_quantile gqq P0 shape scale).
  destruct (zaga_parameters_range exq pwq par m fr P0 shape scale HP HZ) as (R1 & R2 & R3). destruct (zaga_consistent gcq gqq P0 shape scale HG R1 R2 R3) as (C1 & C2 & C3 & C4).
  split. { intros x Hx. rewrite (zaga_cdf_ok ex pw exq pwq HX HW HP m fr par Hm Hf HL gc gcq gqq x HC HG Hx). rewrite HZ. reflexivity. }
  split. { intros p Hp. rewrite (zaga_inv_ok ex pw exq pwq HX HW HP m fr par Hm Hf HL gq gqq gcq p HQ HG Hp). unfold zaga_law. rewrite HZ. reflexivity. }
  split; [exact R1|]. split. { unfold zaga_probability. destruct (Qclt_le_dec 0 0) as [K|K]; [exfalso; qlra|]. destruct (Qc_eq_dec 0 0); [reflexivity|contradiction]. }
  split. { intros x Hx. unfold zaga_probability. destruct (Qclt_le_dec x 0) as [K|K]; [exfalso; qlra|]. destruct (Qc_eq_dec x 0) as [K'|K']; [exfalso; qlra|reflexivity]. }
  split; [intros; apply C1|]. split; [intros; apply C2; tauto|]. split; [intros; apply C3; qlra|]. intros; apply C4; auto.
Qed.
Lemma c199_missing ex pw gc gq exq pwq gcq gqq par m fr : on_numbers1 ex exq -> on_nonneg2 pw pwq -> positive exq -> on_numbers3 gc gcq -> on_numbers3 gq gqq -> gamma_functions gcq gqq -> (0 <= m)%Qc -> (0 <= fr <= 1)%Qc -> 8 <= zlen par -> known par = None ->
  (forall x, (0 <= x)%Qc -> zaga_cdf ex pw gc (Fin m) (Fin fr) par (Fin x) = Ok (Fin missing_number)) /\ (forall p, (0 < p < 1)%Qc -> zaga_inv ex pw gq (Fin m) (Fin fr) par (Fin p) = Ok (Fin missing_number)).
Proof.
  intros HX HW HP HC HQ HG Hm Hf HL HZ. assert (N : zaga_parameters exq pwq par m fr = None) by (unfold zaga_parameters; rewrite HZ; reflexivity). split.
  - intros x Hx. rewrite (zaga_cdf_ok ex pw exq pwq HX HW HP m fr par Hm Hf HL gc gcq gqq x HC HG Hx). rewrite N. reflexivity.
  - intros p Hp. rewrite (zaga_inv_ok ex pw exq pwq HX HW HP m fr par Hm Hf HL gq gqq gcq p HQ HG Hp). unfold zaga_law. rewrite N. reflexivity.
Qed.
(** six hours without a variable for the probability: fields before the first are read *)
Lemma c201 sp ex pw gq o thr mx pars d fs : shaped d fs -> 0 < d_t d -> 0 < d_y d -> 0 < d_x d -> 0 < d_e d -> sound_options o thr mx -> z_6h o = true -> zaga_calibrator sp ex pw gq o pars d fs = UB.
Proof.
  intros H Ht Hy Hx He HO H6. unfold zaga_calibrator. rewrite (checks_ok o thr mx HO). cbn [bind]. rewrite (zrange_cons 0 (d_t d)) by lia. cbn [foldM].
  assert (PT : exists r, points d = (0, 0) :: r). { unfold points. rewrite (zrange_cons 0 (d_y d)), (zrange_cons 0 (d_x d)) by lia. eexists. reflexivity. } destruct PT as [r ->]. cbn [foldM].
  assert (PU : zaga_predictors o d fs 0 0 0 = UB).
  { unfold zaga_predictors, zaga_sums. destruct HO as (_ & _ & _ & HS). pose proof (around_ne d (z_size o) 0 0 HS He ltac:(lia) ltac:(lia)) as NE. destruct (around d (z_size o) 0 0) as [|[[y x] e] l]; [contradiction|]. cbn [foldM].
    unfold window_total, z_window. rewrite H6. change (zrange (0 - 6 + 1) (0 + 1)) with [-5; -4; -3; -2; -1; 0]. cbn [foldM]. unfold get4, znth. reflexivity. }
  rewrite PU. reflexivity.
Qed.
(** training: the fraction is 0 or 1 *)
Lemma c202_refuted : exists E ens thr mean fr, zaga_train_predictors E (Fin thr) ens = Ok (mean, Fin fr) /\ fr <> fraction thr (present ens).
Proof. exists E0, [fz 0; fz 3; fz 0], 1%Qc, (fz 1), (qz 0). split; [vcalc|]. vm_compute. discriminate. Qed.
Lemma finites_cons v a : finites (v :: a) = match v with Fin q => q :: finites a | _ => finites a end.
Proof. destruct v; reflexivity. Qed.
Lemma train_counts thr ens : zlen (filter cvalid ens) = zlen (present ens) /\ zlen (filter (fun v => cvalid v && vleb v (Fin thr)) ens) = zlen (filter (fun q => if Qclt_le_dec thr q then false else true) (present ens)).
Proof.
  induction ens as [|v ens [I1 I2]]; [split; reflexivity|]. unfold present in *. rewrite finites_cons. cbn [filter]. destruct v as [| | |q]; try exact (conj I1 I2). cbn [filter].
  destruct (Qc_eq_dec q missing_number) as [->|N].
  - replace (cvalid (Fin missing_number)) with false by reflexivity. exact (conj I1 I2).
  - rewrite (cvalid_Fin q N). cbn [andb filter]. rewrite !zlen_cons. split; [lia|]. rewrite vleb_Fin. destruct (Qclt_le_dec thr q) as [L|L]; destruct (qleb_spec q thr) as [L'|L']; try (exfalso; qlra); [exact I2|rewrite !zlen_cons; lia].
Qed.
Lemma c202 E ens thr : present ens <> [] -> exists fr, zaga_train_predictors E (Fin thr) ens = Ok (Fin (qmean (present ens)), Fin fr) /\
  (Forall (fun q => (q <= thr)%Qc) (present ens) -> fr = 1%Qc) /\ (Exists (fun q => (thr < q)%Qc) (present ens) -> fr = 0%Qc).
Proof.
  intros HP. unfold zaga_train_predictors. destruct (stat_spec E ens CMean 0%Qc) as (w & Ew & _ & Sw); [discriminate|]. destruct (Sw HP) as (r & -> & ->). unfold fz at 1. rewrite qz_0, Ew. cbn [bind]. destruct (train_counts thr ens) as [-> ->].
  assert (LP : 0 < zlen (present ens)) by (destruct (present ens) as [|a l]; [contradiction|]; rewrite zlen_cons; pose proof (zlen_nonneg l); lia). destruct (Z.ltb_spec 0 (zlen (present ens))); [|lia]. eexists. split; [reflexivity|].
  set (l := present ens) in *. clearbody l. split.
  - intros A. assert (K : filter (fun q => if Qclt_le_dec thr q then false else true) l = l). { clear -A. induction l as [|q l IH]; [reflexivity|]. inversion A; subst. cbn [filter]. destruct (Qclt_le_dec thr q); [exfalso; qlra|]. f_equal. auto. } rewrite K, Z.quot_same by lia. apply qz_1.
  - intros A. assert (K : 0 <= zlen (filter (fun q => if Qclt_le_dec thr q then false else true) l) < zlen l).
    { split; [apply zlen_nonneg|]. clear -A. induction A as [q l L|q l A IH]; cbn [filter].
      - destruct (Qclt_le_dec thr q); [|exfalso; qlra]. rewrite zlen_cons. pose proof (zlen_filter (fun q => if Qclt_le_dec thr q then false else true) l). lia.
      - rewrite zlen_cons. destruct (Qclt_le_dec thr q); rewrite ?zlen_cons; lia. }
    rewrite Z.quot_small by lia. apply qz_0.
Qed.
Lemma c202_empty E ens thr : present ens = [] -> zaga_train_predictors E (Fin thr) ens = Abort.
Proof. intros HP. unfold zaga_train_predictors. destruct (stat_spec E ens CMean 0%Qc) as (w & Ew & _); [discriminate|]. unfold fz at 1. rewrite qz_0, Ew. cbn [bind]. destruct (train_counts thr ens) as [-> _]. rewrite HP. reflexivity. Qed.
Lemma fin_or_CMV q : (if cvalid (Fin q) then Fin q else CMV) = Fin q.
Proof. destruct (Qc_eq_dec q missing_number) as [->|N]; [reflexivity|]. rewrite cvalid_Fin by auto. reflexivity. Qed.
Lemma c199_gaussian ex nc nq exq ncq nqq par a b r mean spread : on_numbers1 ex exq -> positive exq -> on_numbers3 nc ncq -> on_numbers3 nq nqq -> (forall mu sigma x, (0 < sigma)%Qc -> 0 <= ncq mu sigma x <= 1)%Qc ->
  known par = Some (a :: b :: r) -> (0 < mean)%Qc -> (0 <= spread)%Qc ->
  (forall x, x <> missing_number -> gaussian_cdf ex nc (Fin mean) (Fin spread) par (Fin x) = Ok (Fin (ncq mean (exq (a + b * spread)%Qc) x))) /\
  (forall p, (0 <= p < 1)%Qc -> gaussian_inv ex nq (Fin mean) (Fin spread) par (Fin p) = Ok (Fin (nqq mean (exq (a + b * spread)%Qc) p))).
Proof.
  intros HX HP HC HQ HR HK Hm Hs. pose proof (HP (a + b * spread)%Qc) as SP. destruct (known_some par _ HK) as [EK NM]. pose proof (known_valid _ NM) as V. rewrite <- EK in V.
  assert (G0 : par_get par 0 = Ok (Fin a)) by (rewrite EK; reflexivity). assert (G1 : par_get par 1 = Ok (Fin b)) by (rewrite EK; reflexivity).
  assert (C0 : forall q, (0 <= q)%Qc -> cvalid (Fin q) = true) by (intros; apply cvalid_nonneg; auto).
  assert (S2 : (0 < exq (a + b * spread) * exq (a + b * spread))%Qc) by (apply mul_pos; auto).
  assert (S3 : (0 < exq (a + b * spread) * exq (a + b * spread) * mean)%Qc) by (apply mul_pos; auto).
  assert (S4 : (0 <= 1 / (exq (a + b * spread) * exq (a + b * spread)))%Qc) by (apply Qclt_le_weak, qdiv_pos; [reflexivity|auto]).
  split.
  - intros x Hx. unfold gaussian_cdf. rewrite (cvalid_Fin x Hx), !C0 by qlra. cbn [negb orb]. unfold fz. rewrite qz_0, qz_1. rewrite !vltb_false by qlra. cbn [orb]. rewrite V. cbn [negb]. rewrite G0, G1. cbn [bind]. cbv zeta. rewrite !vmul_F, !vadd_F, !HX, !vmul_F.
    replace (Fin 0%Qc) with (fz 0) by (unfold fz; rewrite qz_0; reflexivity). rewrite !vleb_pos by auto. cbn [orb]. rewrite !C0 by qlra. cbn [negb orb]. rewrite vdiv_Fin by (intros K; rewrite K in S2; exfalso; qlra). rewrite !C0 by (auto; qlra). cbn [negb orb]. rewrite !HC. destruct (HR mean (exq (a + b * spread)%Qc) x SP) as [R1 R2]. rewrite C0 by auto. cbn [negb].
    unfold fz. rewrite qz_0. unfold assert_. rewrite !vleb_Fin. destruct (qleb_spec (ncq mean (exq (a + b * spread)%Qc) x) 1) as [K|K]; [|exfalso; qlra]. cbn [bind]. destruct (qleb_spec 0 (ncq mean (exq (a + b * spread)%Qc) x)) as [K'|K']; [|exfalso; qlra]. reflexivity.
  - intros p Hp. unfold gaussian_inv. unfold fz. rewrite qz_0, qz_1. rewrite (vltb_false p) by qlra. rewrite vleb_Fin. destruct (qleb_spec 1 p) as [K|K]; [exfalso; qlra|]. cbn [orb]. rewrite !C0 by qlra. cbn [negb orb]. rewrite !vltb_false by qlra. cbn [orb]. rewrite V. cbn [negb]. rewrite G0, G1. cbn [bind]. cbv zeta. rewrite !vmul_F, !vadd_F, !HX.
    replace (Fin 0%Qc) with (fz 0) by (unfold fz; rewrite qz_0; reflexivity). rewrite !vleb_pos by auto. cbn [orb]. rewrite !C0 by qlra. cbn [negb orb]. rewrite !HQ. rewrite fin_or_CMV. reflexivity.
Qed.
Lemma hood_pair : hood (dims2 2 1 1) 1 0 0 [(0, 0, 0); (0, 1, 0)].
Proof.
  split; [repeat constructor; cbn; intuition congruence|]. intros y' x' e. unfold within. cbn. split.
  - intros [K|[K|[]]]; injection K as <- <- <-; lia.
  - intros K. assert (C : x' = 0 \/ x' = 1) by lia. assert (y' = 0 /\ e = 0) as [-> ->] by lia. destruct C as [->| ->]; auto.
Qed.
