(** Linear regression of the client. *)
From Verif Require Import Base QcTac ListLib M_Geo S_Geo M_Stat S_Stat M_OI S_OI P_OISum P_OIInv M_EnsMulti M_Ensi P_EnsiAlg P_EnsiCell M_COpt M_CUtil S_CUtil M_CCal S_CCal M_CTrain S_CTrain.
Local Open Scope Z_scope.

Lemma lu0_ok n : 0 < n -> lu_inverts lu0 n.
Proof.
  intros Hn M A HE. unfold lu0. destruct (inv0 M) as [N|e| |] eqn:E.
  - destruct (ok_inv _ lib_ok_L0 n M A N Hn HE E) as (B & HB & _ & HR). exists B. auto.
  - apply (ok_inv_sing _ lib_ok_L0 n M A e Hn HE E).
  - destruct (ok_inv_size _ lib_ok_L0 n M Hn (proj1 HE)) as [(N & K & _)|K]; cbn in K; congruence.
  - destruct (ok_inv_size _ lib_ok_L0 n M Hn (proj1 HE)) as [(N & K & _)|K]; cbn in K; congruence.
Qed.
Lemma qsquare_nonneg (a : Qc) : (0 <= a * a)%Qc.
Proof. qnra. Qed.
Section LSQ.
Variables (T n : Z) (X : Z -> Z -> Qc) (y b : Z -> Qc).
Let U := zrange 0 T.
Let V := zrange 0 n.
(** normal equations *)
Hypothesis HN : forall k, 0 <= k < n -> tot U (fun t => X t k * (y t - fit n X b t))%Qc = 0%Qc.
Lemma misfit_split b' : misfit T n X y b' = (misfit T n X y b + tot U (fun t => (fit n X b t - fit n X b' t) * (fit n X b t - fit n X b' t)))%Qc.
Proof.
  unfold misfit. fold U.
  assert (C : tot U (fun t => (fit n X b t - fit n X b' t) * (y t - fit n X b t))%Qc = 0%Qc).
  { transitivity (tot U (fun t => tot V (fun k => (b k - b' k) * (X t k * (y t - fit n X b t)))))%Qc.
    - apply tot_ext. intros t _. unfold fit at 1 2. fold V. rewrite <- tot_sub, <- tot_mul_r. apply tot_ext. intros k _. ring.
    - rewrite tot_swap. apply tot_zero. intros k Hk. apply in_zrange in Hk. rewrite tot_mul_l, HN by exact Hk. ring. }
  transitivity (tot U (fun t => ((y t - fit n X b t) * (y t - fit n X b t) + (fit n X b t - fit n X b' t) * (fit n X b t - fit n X b' t)) + (1 + 1) * ((fit n X b t - fit n X b' t) * (y t - fit n X b t))))%Qc.
  - apply tot_ext. intros t _. ring.
  - rewrite !tot_add, tot_mul_l, C. ring.
Qed.
Lemma fit_sub v w t : fit n X (fun k => v k - w k)%Qc t = (fit n X v t - fit n X w t)%Qc.
Proof. unfold fit. rewrite <- tot_sub. apply tot_ext. intros k _. ring. Qed.
Lemma best_of_normal : ~ dependent T n X -> best_fit T n X y b.
Proof.
  intros HD b'. rewrite (misfit_split b'). pose proof (tot_nonneg U (fun t => (fit n X b t - fit n X b' t) * (fit n X b t - fit n X b' t))%Qc (fun t _ => qsquare_nonneg _)) as P.
  split. { set (u := tot U _) in *. generalize (misfit T n X y b). intros. clearbody u. qlra. }
  intros E k Hk. assert (Z0 : tot U (fun t => (fit n X b t - fit n X b' t) * (fit n X b t - fit n X b' t))%Qc = 0%Qc).
  { set (u := tot U _) in *. revert E. generalize (misfit T n X y b). intros m E. clearbody u. apply Qcle_antisym; qlra. }
  destruct (Qc_eq_dec (b k) (b' k)); [auto|]. exfalso. apply HD. exists (fun k => b k - b' k)%Qc. split. { exists k. split; [exact Hk|]. intros K. apply n0. replace (b k) with ((b k - b' k) + b' k)%Qc by ring. rewrite K. ring. }
  intros t Ht. rewrite fit_sub. assert (S : ((fit n X b t - fit n X b' t) * (fit n X b t - fit n X b' t))%Qc = 0%Qc) by (apply (tot_zero_each U _ Z0); [intros; apply qsquare_nonneg|apply in_zrange; exact Ht]).
  apply Qcmult_integral in S. tauto.
Qed.
End LSQ.

(** *** the code *)
Lemma znth_nth {A} (l : list A) (dflt : A) i : 0 <= i < zlen l -> znth l i = Ok (nth (Z.to_nat i) l dflt).
Proof. intros H. destruct (znth_some l i H) as [v E]. rewrite E. f_equal. unfold znth in E. destruct (i <? 0); [discriminate|]. destruct (nth_error l (Z.to_nat i)) eqn:K; [|discriminate]. injection E as ->. symmetry. apply nth_error_nth. exact K. Qed.
Lemma predictors_at T (preds : list (list Qc)) (ac : bool) t k : (forall p, In p preds -> zlen p = T) -> 0 <= t < T -> 0 <= k < zlen preds + (if ac then 1 else 0) ->
  (if ac : bool then if k =? 0 then Ok (fz 1) else p <- znth (map (map Fin) preds) (k - 1) ;; znth p t else p <- znth (map (map Fin) preds) k ;; znth p t) = Ok (Fin (predictor_value preds ac t k)).
Proof.
  intros HP Ht Hk.
  assert (G : forall k, 0 <= k < zlen preds -> (p <- znth (map (map Fin) preds) k ;; znth p t) = Ok (Fin (qnth (nth (Z.to_nat k) preds []) t))).
  { intros i Hi. rewrite znth_map, (znth_nth preds []) by exact Hi. cbn [bind]. assert (L : zlen (nth (Z.to_nat i) preds []) = T) by (apply HP; apply nth_In; unfold zlen in Hi; lia).
    rewrite znth_map, (znth_nth _ 0%Qc) by lia. reflexivity. }
  unfold predictor_value. destruct ac; [destruct (Z.eqb_spec k 0); [reflexivity|apply G; lia]|apply G; lia].
Qed.
Lemma dec_dependent_none T n X : 0 < n -> forall B : Z -> Z -> Qc, (forall i j, 0 <= i < n -> 0 <= j < n -> tot (zrange 0 n) (fun k => tot (zrange 0 T) (fun t => X t i * X t k) * B k j)%Qc = unit_ i j) -> ~ dependent T n X.
Proof.
  intros Hn B HB (v & (k & Hk & Nk) & HV). apply Nk.
  (* v_k = sum_i v_i delta_ik = sum_i v_i sum_l (X'X)_il B_lk = sum_l (sum_t X_tl sum_i X_ti v_i) B_lk = 0 *)
  rewrite <- (tot_delta (zrange 0 n) v k) by (apply NoDup_zrange || (apply in_zrange; exact Hk)).
  transitivity (tot (zrange 0 n) (fun l => tot (zrange 0 T) (fun t => X t l * fit n X v t) * B l k))%Qc.
  - transitivity (tot (zrange 0 n) (fun i => tot (zrange 0 n) (fun l => tot (zrange 0 T) (fun t => X t i * X t l * v i) * B l k)))%Qc.
    + apply tot_ext. intros i Hi. apply in_zrange in Hi. rewrite <- (HB i k Hi Hk), <- tot_mul_l. apply tot_ext. intros l _. rewrite tot_mul_r. ring.
    + rewrite tot_swap. apply tot_ext. intros l _. rewrite tot_mul_r. f_equal. rewrite tot_swap. apply tot_ext. intros t _. unfold fit. rewrite <- tot_mul_l. apply tot_ext. intros i _. ring.
  - apply tot_zero. intros l _. rewrite (tot_zero (zrange 0 T)); [ring|]. intros t Ht. apply in_zrange in Ht. rewrite HV by exact Ht. ring.
Qed.
Lemma singular_dependent T n X v : (forall j, 0 <= j < n -> tot (zrange 0 n) (fun i => v i * tot (zrange 0 T) (fun t => X t i * X t j))%Qc = 0%Qc) -> forall t, 0 <= t < T -> fit n X v t = 0%Qc.
Proof.
  intros HV. assert (S : tot (zrange 0 T) (fun t => fit n X v t * fit n X v t)%Qc = 0%Qc).
  { transitivity (tot (zrange 0 n) (fun j => v j * tot (zrange 0 n) (fun i => v i * tot (zrange 0 T) (fun t => X t i * X t j)))%Qc).
    - transitivity (tot (zrange 0 T) (fun t => tot (zrange 0 n) (fun j => v j * (X t j * fit n X v t))))%Qc.
      + apply tot_ext. intros t _. unfold fit at 1. rewrite <- tot_mul_r. apply tot_ext. intros j _. ring.
      + rewrite tot_swap. apply tot_ext. intros j _. rewrite tot_mul_l. f_equal. transitivity (tot (zrange 0 T) (fun t => tot (zrange 0 n) (fun i => v i * (X t i * X t j))))%Qc.
        * apply tot_ext. intros t _. unfold fit. rewrite <- tot_mul_l. apply tot_ext. intros i _. ring.
        * rewrite tot_swap. apply tot_ext. intros i _. apply tot_mul_l.
    - apply tot_zero. intros j Hj. apply in_zrange in Hj. rewrite HV by exact Hj. ring. }
  intros t Ht. assert (Q : (fit n X v t * fit n X v t)%Qc = 0%Qc) by (apply (tot_zero_each (zrange 0 T) _ S); [intros; apply qsquare_nonneg|apply in_zrange; exact Ht]). apply Qcmult_integral in Q. tauto.
Qed.
Lemma column_mat ys : mat (zlen ys) 1 (map (fun v => [v]) (map Fin ys)) (fun t _ => qnth ys t).
Proof.
  split; [split; [rewrite !zlen_map; reflexivity|]|].
  - intros r Hr. apply in_map_iff in Hr as (v & <- & _). reflexivity.
  - intros i j Hi Hj. replace j with 0 by lia. unfold get2. rewrite !znth_map, (znth_nth ys 0%Qc) by exact Hi. reflexivity.
Qed.
Lemma regression_run lu ys (preds : list (list Qc)) (ac : bool) : let n := zlen preds + (if ac then 1 else 0) in let X := predictor_value preds ac in
  lu_inverts lu n -> 0 < n -> 2 <= zlen ys -> (forall p, In p preds -> zlen p = zlen ys) ->
  (dependent (zlen ys) n X /\ regression lu (map Fin ys) (map (map Fin) preds) ac = Abort) \/
  (~ dependent (zlen ys) n X /\ exists bs, regression lu (map Fin ys) (map (map Fin) preds) ac = Ok (map Fin bs) /\ zlen bs = n /\ best_fit (zlen ys) n X (qnth ys) (qnth bs)).
Proof.
  intros n X HL Hn HT HP. set (T := zlen ys) in *. unfold regression. rewrite !zlen_map. fold T n. destruct (Z.ltb_spec T 2); [lia|].
  replace (forallb (fun p : vec => zlen p =? T) (map (map Fin) preds)) with true; [cbn [negb]|]. 2:{ symmetry. apply forallb_forall. intros p Hp. apply in_map_iff in Hp as (p' & <- & Hp). rewrite zlen_map. apply Z.eqb_eq. apply HP. exact Hp. }
  destruct (tab2_mat T n (fun t k => if ac then if k =? 0 then Ok (fz 1) else p <- znth (map (map Fin) preds) (k - 1) ;; znth p t else p <- znth (map (map Fin) preds) k ;; znth p t) X) as (A & EA & MA); [lia..| |].
  { intros t k Ht Hk. apply (predictors_at T); auto. }
  unfold design. rewrite EA. cbn [bind]. destruct (transp_ok T n A X) as (XT & EX & MX); [lia..|exact MA|]. rewrite EX. cbn [bind].
  destruct (mmul_ok n T n XT A (fun i j => X j i) X) as (XX & EXX & MXX); [lia..|exact MX|exact MA|]. rewrite EXX. cbn [bind].
  specialize (HL XX _ MXX). destruct (lu XX) as [N|].
  - right. destruct HL as (B & HB & HI). assert (ND : ~ dependent T n X) by (apply (dec_dependent_none T n X Hn B); intros i j Hi Hj; rewrite <- (HI i j Hi Hj); apply tot_ext; intros k _; reflexivity).
    split; [exact ND|]. destruct (mmul_ok n n T N XT B (fun i j => X j i)) as (P & EP & MP); [lia..|exact HB|exact MX|]. rewrite EP. cbn [bind].
    destruct (mmul_ok n T 1 P (map (fun v => [v]) (map Fin ys)) _ (fun t _ => qnth ys t) ltac:(lia) ltac:(lia) MP (column_mat ys)) as (S & ES & MS). rewrite ES. cbn [bind].
    set (b := fun i => tot (zrange 0 T) (fun t => tot (zrange 0 n) (fun l => B i l * X t l) * qnth ys t)%Qc).
    exists (map b (zrange 0 n)). assert (QB : forall k, 0 <= k < n -> qnth (map b (zrange 0 n)) k = b k).
    { intros k Hk. assert (K : znth (map b (zrange 0 n)) k = Ok (b k)) by (rewrite znth_map, znth_zrange by lia; rewrite Z.add_0_l; reflexivity). rewrite (znth_nth _ 0%Qc) in K by (rewrite zlen_map, zlen_zrange by lia; lia). injection K as K. exact K. }
    split; [|split].
    + rewrite map_map. apply mapM_ok. intros i Hi. apply in_zrange in Hi. apply (proj2 MS); lia.
    + rewrite zlen_map, zlen_zrange by lia. lia.
    + apply best_of_normal; [|exact ND]. intros k Hk.
      (* X' y - X'X b = 0 *)
      assert (F : forall t, fit n X (qnth (map b (zrange 0 n))) t = fit n X b t) by (intros t; apply tot_ext; intros i Hi; apply in_zrange in Hi; rewrite QB by lia; reflexivity).
      transitivity (tot (zrange 0 T) (fun t => X t k * qnth ys t) - tot (zrange 0 T) (fun t => X t k * fit n X b t))%Qc.
      { rewrite <- tot_sub. apply tot_ext. intros t _. rewrite F. ring. }
      enough (K : tot (zrange 0 T) (fun t => X t k * fit n X b t)%Qc = tot (zrange 0 T) (fun t => X t k * qnth ys t)%Qc) by (rewrite K; ring).
      transitivity (tot (zrange 0 n) (fun i => tot (zrange 0 T) (fun t => X t k * X t i) * b i))%Qc.
      { unfold fit. transitivity (tot (zrange 0 T) (fun t => tot (zrange 0 n) (fun i => X t k * X t i * b i)))%Qc. { apply tot_ext. intros t _. rewrite <- tot_mul_l. apply tot_ext. intros i _. ring. }
        rewrite tot_swap. apply tot_ext. intros i _. apply tot_mul_r. }
      transitivity (tot (zrange 0 n) (fun i => tot (zrange 0 n) (fun l => (tot (zrange 0 T) (fun t => X t k * X t i) * B i l) * tot (zrange 0 T) (fun s => X s l * qnth ys s))))%Qc.
      { apply tot_ext. intros i _. unfold b. transitivity (tot (zrange 0 T) (fun t => X t k * X t i) * tot (zrange 0 n) (fun l => B i l * tot (zrange 0 T) (fun s => X s l * qnth ys s)))%Qc.
        - f_equal. transitivity (tot (zrange 0 T) (fun t => tot (zrange 0 n) (fun l => B i l * (X t l * qnth ys t))))%Qc. { apply tot_ext. intros t _. rewrite <- tot_mul_r. apply tot_ext. intros l _. ring. }
          rewrite tot_swap. apply tot_ext. intros l _. apply tot_mul_l.
        - rewrite <- tot_mul_l. apply tot_ext. intros l _. ring. }
      rewrite tot_swap. transitivity (tot (zrange 0 n) (fun l => tot (zrange 0 T) (fun s => X s l * qnth ys s) * unit_ l k))%Qc.
      { apply tot_ext. intros l Hl. apply in_zrange in Hl. rewrite tot_mul_r, (HI k l) by lia. rewrite Qcmult_comm. f_equal. unfold unit_. destruct (Z.eqb_spec k l), (Z.eqb_spec l k); congruence. }
      apply tot_delta; [apply NoDup_zrange|apply in_zrange; lia].
  - left. destruct HL as (v & Hv & HV). split; [|reflexivity]. exists v. split; [exact Hv|]. apply singular_dependent. intros j Hj. rewrite <- (HV j Hj). apply tot_ext. intros i _. reflexivity.
Qed.
Lemma c250 lu ys (preds : list (list Qc)) (ac : bool) : let n := zlen preds + (if ac then 1 else 0) in let X := predictor_value preds ac in
  lu_inverts lu n -> 0 < n -> 2 <= zlen ys -> (forall p, In p preds -> zlen p = zlen ys) ->
  (dependent (zlen ys) n X -> regression lu (map Fin ys) (map (map Fin) preds) ac = Abort) /\
  (~ dependent (zlen ys) n X -> exists bs, regression lu (map Fin ys) (map (map Fin) preds) ac = Ok (map Fin bs) /\ zlen bs = n /\ best_fit (zlen ys) n X (qnth ys) (qnth bs)).
Proof.
  intros n X HL Hn HT HP. destruct (regression_run lu ys preds ac HL Hn HT HP) as [[D E]|[D E]]; split; auto; intros K; contradiction.
Qed.
Lemma c250_checks lu y preds ac : zlen y < 2 \/ (exists p, In p preds /\ zlen p <> zlen y) -> regression lu y preds ac = Abort.
Proof.
  intros H. unfold regression. destruct (Z.ltb_spec (zlen y) 2); [reflexivity|]. destruct H as [H|(p & Hp & NE)]; [lia|].
  destruct (forallb (fun p0 : vec => zlen p0 =? zlen y) preds) eqn:F; [|reflexivity]. rewrite forallb_forall in F. apply F in Hp. apply Z.eqb_eq in Hp. contradiction.
Qed.
