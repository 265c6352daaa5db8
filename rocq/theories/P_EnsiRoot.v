(** Uniqueness of the positive semidefinite square root, and the instance of the external code. *)
From Coq Require Import Lra.
From Verif Require Import Base QcTac ListLib RBase P_RBase M_Geo S_Geo M_OI S_OI P_OISum P_OIInv M_Ensi S_EnsMulti S_Ensi P_RSum P_EnsiAlg.
Local Open Scope Z_scope.

Section Unique.
Variable I : list Z.
Hypothesis ND : NoDup I.
Notation form A c d := (rtot I (fun i => c i * rtot I (fun j => A i j * d j))%R).
Definition psd (A : Z -> Z -> R) : Prop := (forall e f, In e I -> In f I -> A e f = A f e) /\ forall c, (0 <= form A c c)%R.

Lemma form_sym A c d : (forall e f, In e I -> In f I -> A e f = A f e) -> form A c d = form A d c.
Proof.
  intros H. rewrite (rtot_ext I _ (fun i => rtot I (fun j => c i * A i j * d j))%R) by (intros; rewrite <- rtot_mul_l; apply rtot_ext; intros; ring).
  rewrite rtot_swap. apply rtot_ext. intros j Hj. rewrite <- rtot_mul_l. apply rtot_ext. intros i Hi. rewrite (H i j Hi Hj). ring.
Qed.
Lemma form_add A c d t : form A (fun i => c i + t * d i)%R (fun i => c i + t * d i)%R = (form A c c + t * form A c d + t * form A d c + t * t * form A d d)%R.
Proof.
  rewrite <- !rtot_mul_l, <- !rtot_add. apply rtot_ext. intros i _.
  rewrite (rtot_ext I (fun j => A i j * (c j + t * d j))%R (fun j => A i j * c j + t * (A i j * d j))%R) by (intros; ring). rewrite rtot_add, rtot_mul_l. ring.
Qed.
(** a vector on which the form vanishes is in the kernel *)
Lemma psd_kernel A c : psd A -> form A c c = 0%R -> forall i, In i I -> rtot I (fun j => A i j * c j)%R = 0%R.
Proof.
  intros [S P] Z.
  set (y := fun i => rtot I (fun j => A i j * c j)%R). set (q := rtot I (fun i => y i * y i)%R). set (p := form A y y).
  assert (Q : q = 0%R).
  { assert (Ey : form A y c = q) by reflexivity. assert (Ey' : form A c y = q) by (rewrite form_sym by exact S; exact Ey).
    assert (T : forall t, (0 <= 2 * t * q + t * t * p)%R).
    { intros t. pose proof (P (fun i => c i + t * y i)%R) as H. cbn beta in H. pose proof (form_add A c y t) as FA. cbn beta in FA. rewrite FA, Z, Ey, Ey' in H. fold p in H. lra. }
    pose proof (P y) as Pp. fold p in Pp.
    pose proof (rtot_nonneg I (fun i => y i * y i)%R ltac:(intros; nra)) as Pq. fold q in Pq.
    destruct (Req_dec p 0) as [Ep|Np].
    - pose proof (T (-1)%R) as H. rewrite Ep in H. lra.
    - assert (0 < p)%R by lra. pose proof (T (- q / p)%R) as H0.
      replace (2 * (- q / p) * q + - q / p * (- q / p) * p)%R with (- (q * q) / p)%R in H0 by (field; lra).
      assert (q * q <= 0)%R. { apply Rmult_le_reg_r with (/ p)%R; [apply Rinv_0_lt_compat; lra|]. unfold Rdiv in H0. lra. }
      nra. }
  intros i Hi. pose proof (rtot_zero_each I (fun i => y i * y i)%R Q ltac:(intros; nra) i Hi) as H. cbn beta in H. fold (y i). nra.
Qed.
Lemma sqrt_unique A B : psd A -> psd B -> (forall i j, In i I -> In j I -> rtot I (fun k => A i k * A k j)%R = rtot I (fun k => B i k * B k j)%R) ->
  forall i j, In i I -> In j I -> A i j = B i j.
Proof.
  intros PA PB E. set (D := fun i j => (A i j - B i j)%R).
  assert (DS : forall i j, In i I -> In j I -> D i j = D j i) by (intros i j Hi Hj; unfold D; rewrite (proj1 PA i j), (proj1 PB i j) by assumption; reflexivity).
  (* A D + D B = 0 *)
  assert (C : forall i j, In i I -> In j I -> (rtot I (fun k => A i k * D k j) + rtot I (fun k => D i k * B k j) = 0)%R).
  { intros i j Hi Hj. rewrite <- rtot_add. rewrite (rtot_ext I _ (fun k => A i k * A k j - B i k * B k j)%R) by (intros; unfold D; ring).
    rewrite rtot_sub, E by assumption. ring. }
  (* sum over columns of D of the two forms *)
  assert (T : (rtot I (fun j => form A (fun i => D i j) (fun i => D i j)) + rtot I (fun j => form B (fun i => D i j) (fun i => D i j)) = 0)%R).
  { assert (E1 : rtot I (fun j => form B (fun i => D i j) (fun i => D i j))%R = rtot I (fun j => rtot I (fun i => D i j * rtot I (fun k => D i k * B k j)))%R).
    { rewrite (rtot_ext I (fun j => form B (fun i => D i j) (fun i => D i j))%R (fun j => rtot I (fun i => rtot I (fun k => D i j * B i k * D k j)))%R).
      2:{ intros j _. apply rtot_ext. intros i _. rewrite <- rtot_mul_l. apply rtot_ext. intros; ring. }
      rewrite (rtot_ext I (fun j => rtot I (fun i => D i j * rtot I (fun k => D i k * B k j)))%R (fun j => rtot I (fun i => rtot I (fun k => D i j * D i k * B k j)))%R).
      2:{ intros j _. apply rtot_ext. intros i _. rewrite <- rtot_mul_l. apply rtot_ext. intros; ring. }
      (* rename: left (j,i,k) -> right (k?) *)
      rewrite (rtot_swap I I). rewrite (rtot_swap I I (fun j i => rtot I (fun k => D i j * D i k * B k j))%R).
      (* left: sum_i sum_j sum_k D i j B i k D k j ; right: sum_i sum_j sum_k D i j D i k B k j *)
      rewrite (rtot_ext I (fun j0 => rtot I (fun i => rtot I (fun k => D j0 i * B j0 k * D k i)))%R (fun i => rtot I (fun k => rtot I (fun j => D i j * B i k * D k j)))%R).
      2:{ intros i _. apply rtot_swap. }
      rewrite (rtot_ext I (fun j => rtot I (fun i => rtot I (fun k => D j i * D j k * B k i)))%R (fun i => rtot I (fun j => rtot I (fun k => B k j * (D i j * D i k))))%R).
      2:{ intros i _. apply rtot_ext. intros j _. apply rtot_ext. intros; ring. }
      rewrite (rtot_swap I I (fun i j => rtot I (fun k => B k j * (D i j * D i k)))%R). apply rtot_ext. intros i Hi.
      rewrite (rtot_swap I I (fun i0 k => B k i * (D i0 i * D i0 k))%R). apply rtot_ext. intros k Hk. apply rtot_ext. intros j Hj.
      rewrite (proj1 PB k i) by assumption. rewrite (DS j i), (DS j k) by assumption. ring. }
    rewrite E1, <- rtot_add. transitivity (rtot I (fun _ => 0)%R); [|clear; induction I as [|k U IH]; [reflexivity|rewrite rtot_cons, IH; ring]].
    apply rtot_ext. intros j Hj. rewrite <- rtot_add. transitivity (rtot I (fun _ => 0)%R); [|clear; induction I as [|k U IH]; [reflexivity|rewrite rtot_cons, IH; ring]].
    apply rtot_ext. intros i Hi. rewrite <- Rmult_plus_distr_l, C by assumption. ring. }
  pose proof (rtot_nonneg I (fun j => form A (fun i => D i j) (fun i => D i j))%R (fun j _ => proj2 PA _)) as NA.
  pose proof (rtot_nonneg I (fun j => form B (fun i => D i j) (fun i => D i j))%R (fun j _ => proj2 PB _)) as NB.
  assert (KA : forall j, In j I -> forall i, In i I -> rtot I (fun k => A i k * D k j)%R = 0%R).
  { intros j Hj. apply (psd_kernel A (fun i => D i j) PA). apply (rtot_zero_each I (fun j => form A (fun i => D i j) (fun i => D i j))%R); [lra|intros; apply PA|exact Hj]. }
  assert (KB : forall j, In j I -> forall i, In i I -> rtot I (fun k => B i k * D k j)%R = 0%R).
  { intros j Hj. apply (psd_kernel B (fun i => D i j) PB). apply (rtot_zero_each I (fun j => form B (fun i => D i j) (fun i => D i j))%R); [lra|intros; apply PB|exact Hj]. }
  intros i j Hi Hj.
  assert (Z : rtot I (fun k => D k j * D k j)%R = 0%R).
  { rewrite (rtot_ext I _ (fun k => A j k * D k j - B j k * D k j)%R).
    - rewrite rtot_sub, KA, KB by assumption. ring.
    - intros k Hk. rewrite (DS k j) at 1 by assumption. unfold D at 1. ring. }
  pose proof (rtot_zero_each I (fun k => D k j * D k j)%R Z ltac:(intros; nra) i Hi) as H. cbn beta in H. unfold D in H. nra.
Qed.
End Unique.

(** the transform is determined *)
Lemma transform_unique U ms b s g T T' : NoDup ms -> transform U ms b s g T -> transform U ms b s g T' -> forall e f, In e ms -> In f ms -> T e f = T' e f.
Proof.
  intros ND (S1 & P1 & I1) (S2 & P2 & I2).
  set (F := fun e f => qr (precision U ms b s g e f)).
  assert (FS : forall e f, F e f = F f e).
  { intros e f. unfold F. f_equal. unfold precision. unfold unit_. rewrite (Z.eqb_sym e f). f_equal. f_equal. apply tot_ext. intros; unfold Qcdiv; ring. }
  set (T2 := fun e f => rtot ms (fun i => T e i * T i f)%R). set (T2' := fun e f => rtot ms (fun i => T' e i * T' i f)%R).
  assert (Sq : forall (A : Z -> Z -> R) e f, In e ms -> In f ms -> (forall e f, In e ms -> In f ms -> A e f = A f e) ->
     rtot ms (fun i => A e i * A i f)%R = rtot ms (fun i => A f i * A i e)%R).
  { intros A e f He Hf HA. apply rtot_ext. intros i Hi. rewrite (HA e i He Hi), (HA i f Hi Hf). ring. }
  assert (J1 : forall e f, In e ms -> In f ms -> rtot ms (fun j => T2 e j * F j f)%R = runit e f).
  { intros e f He Hf. rewrite <- (I1 e f He Hf). rewrite (rtot_swap ms ms). apply rtot_ext. intros j Hj. unfold T2. rewrite <- rtot_mul_r. reflexivity. }
  assert (J2 : forall e f, In e ms -> In f ms -> rtot ms (fun j => T2' e j * F j f)%R = runit e f).
  { intros e f He Hf. rewrite <- (I2 e f He Hf). rewrite (rtot_swap ms ms). apply rtot_ext. intros j Hj. unfold T2'. rewrite <- rtot_mul_r. reflexivity. }
  assert (J1' : forall e f, In e ms -> In f ms -> rtot ms (fun j => F e j * T2 j f)%R = runit e f).
  { intros e f He Hf. rewrite runit_sym, <- (J1 f e Hf He). apply rtot_ext. intros j Hj. rewrite (FS e j). unfold T2. rewrite (Sq T j f Hj Hf S1). ring. }
  intros e f He Hf. apply (sqrt_unique ms T T'); auto; [split; auto|split; auto|].
  intros i j Hi Hj. fold (T2 i j) (T2' i j).
  assert (E : T2' i j = rtot ms (fun k => T2' i k * rtot ms (fun h => F k h * T2 h j))%R).
  { rewrite (rtot_ext ms _ (fun k => T2' i k * runit k j)%R) by (intros k Hk; rewrite J1' by assumption; reflexivity).
    symmetry. apply (rtot_delta ms (fun k => T2' i k) j ND Hj). }
  rewrite E.
  rewrite (rtot_ext ms _ (fun k => rtot ms (fun h => T2' i k * F k h * T2 h j))%R) by (intros; rewrite <- rtot_mul_l; apply rtot_ext; intros; ring).
  rewrite rtot_swap. rewrite (rtot_ext ms _ (fun h => T2 h j * runit h i)%R).
  - symmetry. apply (rtot_delta ms (fun h => T2 h j) i ND Hi).
  - intros h Hh. rewrite rtot_mul_r, J2 by assumption. rewrite (runit_sym i h). ring.
Qed.

(** ** The instance of the external code meets its contract *)
Lemma kernel0 n A B : (forall i j, 0 <= i < n -> 0 <= j < n -> tot (zrange 0 n) (fun k => A i k * B k j)%Qc = unit_ i j) -> ~ singular n A.
Proof.
  intros AB (x & (i & Hi & Nz) & HK). apply Nz.
  assert (E : tot (zrange 0 n) (fun h => x h * unit_ h i)%Qc = 0%Qc).
  { rewrite (tot_ext _ _ (fun h => tot (zrange 0 n) (fun k => x h * A h k * B k i))%Qc).
    - rewrite tot_swap. rewrite (tot_ext _ _ (fun _ => 0%Qc)); [apply tot_zero; auto|]. intros k Hk. apply in_zrange in Hk. rewrite tot_mul_r, HK by exact Hk. ring.
    - intros h Hh. apply in_zrange in Hh. rewrite <- AB by assumption. rewrite <- tot_mul_l. apply tot_ext. intros; ring. }
  rewrite <- E. symmetry. apply tot_delta; [apply NoDup_zrange|apply in_zrange; exact Hi].
Qed.
Lemma rect22 {A} (M : list (list A)) a b c d n : M = [[a; b]; [c; d]] -> rect n n M -> n = 2.
Proof. intros -> [H _]. unfold zlen in H. cbn in H. lia. Qed.
Lemma eig0_some M lam V : eig0 M = Some (lam, V) -> exists a b d, M = [[Fin a; Fin b]; [Fin b; Fin d]] /\ eig2 (qr a) (qr b) (qr d) = (lam, V).
Proof.
  unfold eig0. intros H.
  repeat match type of H with match ?x with _ => _ end = _ => destruct x eqn:?; try discriminate end.
  subst. match goal with X : qeqb ?u ?v = true |- _ => destruct (qeqb_spec u v) as [-> |]; [|discriminate] end. do 3 eexists. split; [reflexivity|congruence].
Qed.
Lemma rtot2 f : rtot (zrange 0 2) f = (f 0%Z + f 1%Z)%R.
Proof. unfold rtot. change (zrange 0 2) with [0; 1]. cbn [map fold_right]. ring. Qed.
Lemma elib_ok_EL0 : elib_ok EL0.
Proof.
  constructor.
  - intros n M A Hn HE. cbn [EL0 e_rcond]. pose proof (ok_inv L0 lib_ok_L0) as O1. pose proof (ok_inv_sing L0 lib_ok_L0) as O2.
    destruct (ok_inv_size L0 lib_ok_L0 n M Hn (proj1 HE)) as [(N & E & _)|E]; cbn in E; rewrite E.
    + split; [discriminate|]. intros HS. exfalso. destruct (O1 n M A N Hn HE E) as (B & _ & _ & HB). exact (kernel0 n A B HB HS).
    + split; [|reflexivity]. intros _. exact (O2 n M A _ Hn HE E).
  - intros n M A lam V Hn [HR HE] HS E. apply eig0_some in E as (a & b & d & -> & E). pose proof (rect22 _ _ _ _ _ _ eq_refl HR) as ->.
    assert (E00 : A 0 0 = a) by (pose proof (HE 0 0 ltac:(lia) ltac:(lia)) as H; cbn in H; injection H as H; symmetry; exact H).
    assert (E01 : A 0 1 = b) by (pose proof (HE 0 1 ltac:(lia) ltac:(lia)) as H; cbn in H; injection H as H; symmetry; exact H).
    assert (E10 : A 1 0 = b) by (pose proof (HE 1 0 ltac:(lia) ltac:(lia)) as H; cbn in H; injection H as H; symmetry; exact H).
    assert (E11 : A 1 1 = d) by (pose proof (HE 1 1 ltac:(lia) ltac:(lia)) as H; cbn in H; injection H as H; symmetry; exact H).
    assert (C2 : forall i, 0 <= i < 2 -> i = 0 \/ i = 1) by (intros; lia).
    unfold eig2 in E. destruct (Req_EM_T (qr b) 0) as [Eb|Nb].
    + injection E as <- <-. exists (fun i => if i =? 0 then qr a else qr d), (fun i j => if i =? j then 1%R else 0%R).
      split; [reflexivity|]. split; [intros i Hi; destruct (C2 i Hi) as [-> | ->]; reflexivity|]. split; [|split].
      * split; [split; [reflexivity|intros r [<-|[<-|[]]]; reflexivity]|]. intros i j Hi Hj. destruct (C2 i Hi) as [-> | ->], (C2 j Hj) as [-> | ->]; reflexivity.
      * intros i j Hi Hj. rewrite rtot2. destruct (C2 i Hi) as [-> | ->], (C2 j Hj) as [-> | ->]; cbn; ring.
      * intros i j Hi Hj. rewrite rtot2. destruct (C2 i Hi) as [-> | ->], (C2 j Hj) as [-> | ->]; rewrite ?E00, ?E01, ?E10, ?E11; cbn; lra.
    + set (dl := ((qr a - qr d) / 2)%R) in E. set (rho := sqrt (dl * dl + qr b * qr b)) in E. set (t := (rho - dl)%R) in E.
      set (nn := sqrt (qr b * qr b + t * t)) in E. cbv zeta in E. injection E as <- <-.
      assert (Rb : (0 < qr b * qr b)%R) by nra.
      assert (Rr : (rho * rho = dl * dl + qr b * qr b)%R) by (apply R_sqrt.sqrt_sqrt; nra).
      assert (Rn : (nn * nn = qr b * qr b + t * t)%R) by (apply R_sqrt.sqrt_sqrt; nra).
      assert (Nn : nn <> 0%R) by (intros Z0; rewrite Z0 in Rn; nra).
      exists (fun i => if i =? 0 then ((qr a + qr d) / 2 + rho)%R else ((qr a + qr d) / 2 - rho)%R),
        (fun i j => if i =? 0 then (if j =? 0 then qr b / nn else - t / nn)%R else (if j =? 0 then t / nn else qr b / nn)%R).
      split; [reflexivity|]. split; [intros i Hi; destruct (C2 i Hi) as [-> | ->]; reflexivity|]. split; [|split].
      * split; [split; [reflexivity|intros r [<-|[<-|[]]]; reflexivity]|]. intros i j Hi Hj. destruct (C2 i Hi) as [-> | ->], (C2 j Hj) as [-> | ->]; reflexivity.
      * assert (K : ((qr b * qr b + t * t) / (nn * nn) = 1)%R) by (rewrite <- Rn; field; exact Nn).
        intros i j Hi Hj. rewrite rtot2. destruct (C2 i Hi) as [-> | ->], (C2 j Hj) as [-> | ->]; cbn -[Rmult Rplus Rdiv Ropp]; try rewrite <- K; field; exact Nn.
      * assert (Ea : qr a = ((qr a + qr d) / 2 + dl)%R) by (unfold dl; lra). assert (Ed : qr d = ((qr a + qr d) / 2 - dl)%R) by (unfold dl; lra).
        revert Ea Ed. generalize ((qr a + qr d) / 2)%R. intros m Ea Ed.
        assert (Et : rho = (t + dl)%R) by (unfold t; ring).
        assert (Eb2 : (qr b * qr b = t * t + 2 * t * dl)%R) by (rewrite Et in Rr; nra).
        assert (Np : (qr b * qr b + t * t <> 0)%R) by nra.
        intros i j Hi Hj. rewrite rtot2. destruct (C2 i Hi) as [-> | ->], (C2 j Hj) as [-> | ->]; rewrite ?E00, ?E01, ?E10, ?E11; cbn -[Rmult Rplus Rdiv Ropp Rminus].
        -- rewrite Ea. transitivity ((qr b * qr b * (m + rho) + t * t * (m - rho)) / (nn * nn))%R; [|field; exact Nn]. rewrite Rn.
           apply Rmult_eq_reg_r with (qr b * qr b + t * t)%R; [|exact Np]. unfold Rdiv. rewrite (Rmult_assoc _ (/ _)), Rinv_l, Rmult_1_r by exact Np. rewrite Eb2, Et. ring.
        -- transitivity (qr b * t * (2 * rho) / (nn * nn))%R; [|field; exact Nn]. rewrite Rn.
           apply Rmult_eq_reg_r with (qr b * qr b + t * t)%R; [|exact Np]. unfold Rdiv. rewrite (Rmult_assoc _ (/ _)), Rinv_l, Rmult_1_r by exact Np. rewrite Eb2, Et. ring.
        -- transitivity (qr b * t * (2 * rho) / (nn * nn))%R; [|field; exact Nn]. rewrite Rn.
           apply Rmult_eq_reg_r with (qr b * qr b + t * t)%R; [|exact Np]. unfold Rdiv. rewrite (Rmult_assoc _ (/ _)), Rinv_l, Rmult_1_r by exact Np. rewrite Eb2, Et. ring.
        -- rewrite Ed. transitivity ((t * t * (m + rho) + qr b * qr b * (m - rho)) / (nn * nn))%R; [|field; exact Nn]. rewrite Rn.
           apply Rmult_eq_reg_r with (qr b * qr b + t * t)%R; [|exact Np]. unfold Rdiv. rewrite (Rmult_assoc _ (/ _)), Rinv_l, Rmult_1_r by exact Np. rewrite Eb2, Et. ring.
  - intros n M lam V Hn HR E. apply eig0_some in E as (a & b & d & -> & E). pose proof (rect22 _ _ _ _ _ _ eq_refl HR) as ->.
    unfold eig2 in E. destruct (Req_EM_T (qr b) 0); injection E as <- <-; (split; [reflexivity|split; [reflexivity|intros r [<-|[<-|[]]]; reflexivity]]).
Qed.
