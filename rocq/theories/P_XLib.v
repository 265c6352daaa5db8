(** The eigenvalues of two by two matrices of real numbers: the instance of the external code meets its contract. *)
From Coq Require Import Lra.
From Verif Require Import Base ListLib RBase P_RBase M_OI M_Ensi M_EnsDyn M_EnsUtem S_OI S_Ensi S_EnsDyn S_EnsUtem P_RSum P_EnsiRoot P_RInv.
Local Open Scope Z_scope.

Lemma rkernel n A B : (forall i j, 0 <= i < n -> 0 <= j < n -> rtot (zrange 0 n) (fun k => A i k * B k j)%R = runit i j) -> ~ rsingular n A.
Proof.
  intros AB (x & (i & Hi & Nz) & HK). apply Nz.
  assert (E : rtot (zrange 0 n) (fun h => x h * runit h i)%R = 0%R).
  { rewrite (rtot_ext _ _ (fun h => rtot (zrange 0 n) (fun k => x h * A h k * B k i))%R).
    - rewrite rtot_swap. apply rtot_zero. intros k Hk. apply in_zrange in Hk. rewrite rtot_mul_r, HK by exact Hk. ring.
    - intros h Hh. apply in_zrange in Hh. rewrite <- AB by assumption. rewrite <- rtot_mul_l. apply rtot_ext. intros; ring. }
  rewrite <- E. symmetry. apply (rtot_delta (zrange 0 n) x i); [apply NoDup_zrange|apply in_zrange; exact Hi].
Qed.
Lemma rtot1 f : rtot (zrange 0 1) f = f 0%Z.
Proof. unfold rtot. change (zrange 0 1) with [0]. cbn [map fold_right]. ring. Qed.
Lemma eig2_ok (a b d : R) lam V : eig2 a b d = (lam, V) ->
  exists l v, zlen lam = 2 /\ (forall i, 0 <= i < 2 -> znth lam i = Ok (RF (l i))) /\ rentries 2 V v /\
    (forall i j, 0 <= i < 2 -> 0 <= j < 2 -> rtot (zrange 0 2) (fun k => v k i * v k j)%R = runit i j) /\
    (forall i j, 0 <= i < 2 -> 0 <= j < 2 -> (if i =? 0 then (if j =? 0 then a else b) else (if j =? 0 then b else d)) = rtot (zrange 0 2) (fun k => v i k * l k * v j k)%R).
Proof.
  intros E. assert (C2 : forall i, 0 <= i < 2 -> i = 0 \/ i = 1) by (intros; lia).
  unfold eig2 in E. destruct (Req_EM_T b 0) as [Eb|Nb].
  + injection E as <- <-. exists (fun i => if i =? 0 then a else d), (fun i j => if i =? j then 1%R else 0%R).
    split; [reflexivity|]. split; [intros i Hi; destruct (C2 i Hi) as [-> | ->]; reflexivity|]. split; [|split].
    * split; [split; [reflexivity|intros r [<-|[<-|[]]]; reflexivity]|]. intros i j Hi Hj. destruct (C2 i Hi) as [-> | ->], (C2 j Hj) as [-> | ->]; reflexivity.
    * intros i j Hi Hj. rewrite rtot2. destruct (C2 i Hi) as [-> | ->], (C2 j Hj) as [-> | ->]; cbn; ring.
    * intros i j Hi Hj. rewrite rtot2. destruct (C2 i Hi) as [-> | ->], (C2 j Hj) as [-> | ->]; cbn; lra.
  + set (dl := ((a - d) / 2)%R) in E. set (rho := sqrt (dl * dl + b * b)) in E. set (t := (rho - dl)%R) in E.
    set (nn := sqrt (b * b + t * t)) in E. cbv zeta in E. injection E as <- <-.
    assert (Rb : (0 < b * b)%R) by nra.
    assert (Rr : (rho * rho = dl * dl + b * b)%R) by (apply R_sqrt.sqrt_sqrt; nra).
    assert (Rn : (nn * nn = b * b + t * t)%R) by (apply R_sqrt.sqrt_sqrt; nra).
    assert (Nn : nn <> 0%R) by (intros Z0; rewrite Z0 in Rn; nra).
    exists (fun i => if i =? 0 then ((a + d) / 2 + rho)%R else ((a + d) / 2 - rho)%R),
      (fun i j => if i =? 0 then (if j =? 0 then b / nn else - t / nn)%R else (if j =? 0 then t / nn else b / nn)%R).
    split; [reflexivity|]. split; [intros i Hi; destruct (C2 i Hi) as [-> | ->]; reflexivity|]. split; [|split].
    * split; [split; [reflexivity|intros r [<-|[<-|[]]]; reflexivity]|]. intros i j Hi Hj. destruct (C2 i Hi) as [-> | ->], (C2 j Hj) as [-> | ->]; reflexivity.
    * assert (K : ((b * b + t * t) / (nn * nn) = 1)%R) by (rewrite <- Rn; field; exact Nn).
      intros i j Hi Hj. rewrite rtot2. destruct (C2 i Hi) as [-> | ->], (C2 j Hj) as [-> | ->]; cbn -[Rmult Rplus Rdiv Ropp]; try rewrite <- K; field; exact Nn.
    * assert (Ea : a = ((a + d) / 2 + dl)%R) by (unfold dl; lra). assert (Ed : d = ((a + d) / 2 - dl)%R) by (unfold dl; lra).
      assert (Et : rho = (t + dl)%R) by (unfold t; ring). clearbody dl rho t nn.
      revert Ea Ed. generalize ((a + d) / 2)%R. intros m Ea Ed.
      assert (Eb2 : (b * b = t * t + 2 * t * dl)%R) by (rewrite Et in Rr; nra).
      assert (Np : (b * b + t * t <> 0)%R) by nra.
      intros i j Hi Hj. rewrite rtot2. destruct (C2 i Hi) as [-> | ->], (C2 j Hj) as [-> | ->]; cbn -[Rmult Rplus Rdiv Ropp Rminus].
      -- rewrite Ea. transitivity ((b * b * (m + rho) + t * t * (m - rho)) / (nn * nn))%R; [|field; exact Nn]. rewrite Rn.
         apply Rmult_eq_reg_r with (b * b + t * t)%R; [|exact Np]. unfold Rdiv. rewrite (Rmult_assoc _ (/ _)), Rinv_l, Rmult_1_r by exact Np. rewrite Eb2, Et. ring.
      -- transitivity (b * t * (2 * rho) / (nn * nn))%R; [|field; exact Nn]. rewrite Rn.
         apply Rmult_eq_reg_r with (b * b + t * t)%R; [|exact Np]. unfold Rdiv. rewrite (Rmult_assoc _ (/ _)), Rinv_l, Rmult_1_r by exact Np. rewrite Eb2, Et. ring.
      -- transitivity (b * t * (2 * rho) / (nn * nn))%R; [|field; exact Nn]. rewrite Rn.
         apply Rmult_eq_reg_r with (b * b + t * t)%R; [|exact Np]. unfold Rdiv. rewrite (Rmult_assoc _ (/ _)), Rinv_l, Rmult_1_r by exact Np. rewrite Eb2, Et. ring.
      -- rewrite Ed. transitivity ((t * t * (m + rho) + b * b * (m - rho)) / (nn * nn))%R; [|field; exact Nn]. rewrite Rn.
         apply Rmult_eq_reg_r with (b * b + t * t)%R; [|exact Np]. unfold Rdiv. rewrite (Rmult_assoc _ (/ _)), Rinv_l, Rmult_1_r by exact Np. rewrite Eb2, Et. ring.
Qed.
Lemma xeig0_some M lam V : xeig0 M = Some (lam, V) ->
  (exists a, M = [[RF a]] /\ lam = [RF a] /\ V = [[RF 1%R]]) \/ (exists a b d, M = [[RF a; RF b]; [RF b; RF d]] /\ eig2 a b d = (lam, V)).
Proof.
  unfold xeig0. intros H.
  repeat match type of H with match ?x with _ => _ end = _ => destruct x eqn:?; try discriminate end.
  - left. injection H as <- <-. subst. eauto.
  - right. subst. do 3 eexists. split; [reflexivity|congruence].
Qed.
Lemma rect11 {A} (a : A) n : rect n n [[a]] -> n = 1.
Proof. intros [H _]. unfold zlen in H. cbn in H. lia. Qed.
Lemma xlib_ok_XL0 : xlib_ok XL0.
Proof.
  constructor.
  - intros n M A Hn HE. cbn [XL0 x_rcond].
    destruct (ok_rinv_size RL0 rlib_ok_RL0 n M Hn (proj1 HE)) as [(N & E & _)|E]; cbn in E; rewrite E.
    + split. { intros H. apply rleb_RF in H. exfalso. lra. }
      intros HS. exfalso. destruct (ok_rinv RL0 rlib_ok_RL0 n M A N Hn HE E) as (B & _ & _ & HB). exact (rkernel n A B HB HS).
    + split; [|intros _; apply rleb_RF; lra]. intros _. exact (ok_rinv_sing RL0 rlib_ok_RL0 n M A _ Hn HE E).
  - intros n M A lam V Hn [HR HE] HS E. apply xeig0_some in E as [(a & -> & -> & ->)|(a & b & d & -> & E)].
    + pose proof (rect11 _ _ HR) as ->. exists (fun _ => a), (fun _ _ => 1%R).
      split; [reflexivity|]. split; [intros i Hi; assert (i = 0) as -> by lia; reflexivity|]. split; [|split].
      * split; [split; [reflexivity|intros r [<-|[]]; reflexivity]|]. intros i j Hi Hj. assert (i = 0) as -> by lia. assert (j = 0) as -> by lia. reflexivity.
      * intros i j Hi Hj. rewrite rtot1. assert (i = 0) as -> by lia. assert (j = 0) as -> by lia. unfold runit. cbn. ring.
      * intros i j Hi Hj. rewrite rtot1. assert (i = 0) as -> by lia. assert (j = 0) as -> by lia. specialize (HE 0 0 ltac:(lia) ltac:(lia)). cbn in HE. injection HE as <-. ring.
    + pose proof (rect22 _ _ _ _ _ _ eq_refl HR) as ->. destruct (eig2_ok a b d lam V E) as (l & v & H1 & H2 & H3 & H4 & H5). exists l, v. split; [exact H1|]. split; [exact H2|]. split; [exact H3|]. split; [exact H4|].
      intros i j Hi Hj. rewrite <- H5 by assumption. specialize (HE i j Hi Hj). assert (C : (i = 0 \/ i = 1) /\ (j = 0 \/ j = 1)) by lia.
      destruct C as [[-> | ->] [-> | ->]]; cbn in HE |- *; injection HE as HE; symmetry; exact HE.
  - intros n M lam V Hn HR E. apply xeig0_some in E as [(a & -> & -> & ->)|(a & b & d & -> & E)].
    + pose proof (rect11 _ _ HR) as ->. split; [reflexivity|split; [reflexivity|intros r [<-|[]]; reflexivity]].
    + pose proof (rect22 _ _ _ _ _ _ eq_refl HR) as ->. destruct (eig2_ok a b d lam V E) as (l & v & H1 & _ & H3 & _). split; [exact H1|apply H3].
Qed.
