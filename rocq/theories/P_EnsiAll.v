(** The ensemble-based analysis: statements about the whole function. *)
From Coq Require Import Permutation Lra.
From Verif Require Import Base QcTac ListLib RBase P_RBase M_Geo S_Geo S_Near M_OI M_EnsMulti M_Ensi S_OI P_Geo P_OISum P_OI P_OIAll P_OITotal S_EnsMulti P_EnsMulti S_Ensi P_RSum P_EnsiAlg P_EnsiSpec P_EnsiRoot P_Ensi.
Local Open Scope Z_scope.

Section All.
Variables (E : ext) (G : geo) (L : lib) (EL : elib) (S : sfn) (t : ctype) (blas blos las los : list Qc) (bpts pts : points)
  (background pbg : vec2) (pobs psigmas : vec) (mp : Z) (ex : bool)
  (loc : point -> val) (rho bg : point -> point -> val) (nE : Z).
Hypothesis HSet : setting G L S t blas blos bpts las los pts loc rho bg.
Hypothesis HEL : elib_ok EL.
Let HB := set_bpts _ _ _ _ _ _ _ _ _ _ _ _ _ HSet.
Hypothesis HI : ensi_input (zlen blas) (zlen las) nE background pobs psigmas pbg.
Let RB := ei_bg _ _ _ _ _ _ _ HI.
Hypothesis Hmp : 0 <= mp.
Notation run := (ensi E G L EL S bpts background pts pobs psigmas pbg mp ex).
Notation chosen' := (chosen G t las los pts pobs pobs loc bg).
Notation RE := (run_eq E G L EL S t blas blos las los bpts pts background pbg pobs psigmas mp ex loc rho bg nE HSet HI Hmp).

Lemma no_stations p1 pos : zlen las = 0 -> chosen' mp p1 pos [].
Proof.
  intros C. split; [constructor|]. split; [intros k []|]. split; [intros; rewrite zlen_nil; lia|]. split; [|intros k k' []].
  intros _ k (q & pk & o & b' & Hq & _). apply point_at_range in Hq. lia.
Qed.
Lemma row_of y p1 pos : bpoint G t blas blos bpts y p1 pos -> exists row, znth background y = Ok row /\ 0 <= y < zlen blas.
Proof.
  intros Hp. destruct (bpoint_at _ _ _ _ _ _ _ _ Hp) as (la & lo & Hla & _). apply znth_range in Hla. destruct (znth_some background y) as [row Hr]; [destruct RB; lia|]. eauto.
Qed.
(** the result is the list of the cells' results *)
Lemma run_cells out : run = Ok out -> 0 < zlen las -> zlen out = zlen blas /\
  forall y, 0 <= y < zlen blas -> exists r, znth out y = Ok r /\
    ensi_cell G L EL S bpts background pts (map (ptk pts) (zrange 0 (zlen las))) pobs psigmas (map (gYv E pbg nE) (zrange 0 (zlen las))) mp ex (filter (ok_in background) (zrange 0 nE)) y = Ok r.
Proof.
  intros H Hn. rewrite RE in H. replace (zlen las =? 0) with false in H by lia. apply bind_Ok in H as (r0 & _ & H).
  apply mapM_inv in H as [Lo HC]. rewrite zlen_zrange in Lo. pose proof (zlen_nonneg blas). split; [lia|]. intros y Hy. apply HC. rewrite znth_zrange by lia. reflexivity.
Qed.
(** C114 *)
Lemma c114_sec out : run = Ok out -> rect (zlen blas) nE out /\
  (forall y e v, ~ complete e background -> get2 background y e = Ok v -> get2 out y e = Ok (v2r v)) /\
  (forall y p1 pos, bpoint G t blas blos bpts y p1 pos -> exists U, chosen' mp p1 pos U /\ (U = [] -> unchanged background out y)).
Proof.
  intros H. pose proof (zlen_nonneg las) as Hl. destruct (Z.eq_dec (zlen las) 0) as [E0|N0].
  { rewrite RE in H. replace (zlen las =? 0) with true in H by lia. injection H as <-. destruct RB as [R1 R2]. split; [|split].
    - split; [rewrite zlen_map; exact R1|]. intros r Hr. apply in_map_iff in Hr as (r' & <- & Hr). rewrite zlen_map. auto.
    - intros y e v _ Hv. unfold get2 in *. rewrite znth_map. destruct (znth background y) as [r| | |]; try discriminate. cbn [bind] in *. rewrite znth_map, Hv. reflexivity.
    - intros y p1 pos Hp. exists []. split; [apply no_stations; exact E0|]. intros _. destruct (row_of y p1 pos Hp) as (row & Hr & _). exists row. split; [exact Hr|]. rewrite znth_map, Hr. reflexivity. }
  destruct (run_cells out H ltac:(lia)) as [Lo HC].
  assert (K : forall y p1 pos row r, bpoint G t blas blos bpts y p1 pos -> znth background y = Ok row -> znth out y = Ok r -> exists U, chosen' mp p1 pos U /\
     zlen r = nE /\ (forall e, ~ complete e background -> 0 <= e < nE -> znth r e = znth (map v2r row) e) /\ (U = [] -> r = map v2r row)).
  { intros y p1 pos row r Hp Hr Ho. destruct (HC y) as (r' & Er & Ec). { destruct (row_of y p1 pos Hp) as (? & _ & Hy). exact Hy. }
    assert (r' = r) as -> by congruence. 
    destruct (cell_total E G L EL S t blas blos las los bpts pts background pbg pobs psigmas mp ex loc rho bg nE HSet HEL HI Hmp y row p1 pos Hr Hp) as (U & HU & [(o & Eo & L1 & L2 & L3)|[Et _]]); [|congruence].
    assert (o = r) as -> by congruence. exists U. split; [exact HU|]. split; [exact L1|]. split; [|auto].
    intros e Ne He. apply L2. rewrite filter_In, <- complete_ok. tauto. }
  split; [|split].
  - split; [exact Lo|]. intros r Hr. apply In_znth in Hr as [y Hy]. pose proof (znth_range _ _ _ Hy) as Ry.
    destruct (has_bpoint G t blas blos bpts HB y ltac:(lia)) as (p1 & pos & Hp). destruct (row_of y p1 pos Hp) as (row & Hr & _).
    destruct (K y p1 pos row r Hp Hr Hy) as (U & _ & L1 & _). exact L1.
  - intros y e v Ne Hv. pose proof Hv as Hv'. unfold get2 in Hv. apply bind_Ok in Hv as (row & Hr & Hv). pose proof (znth_range _ _ _ Hr) as Ry. rewrite (proj1 RB) in Ry.
    destruct (has_bpoint G t blas blos bpts HB y Ry) as (p1 & pos & Hp). destruct (HC y Ry) as (r & Er & _).
    destruct (K y p1 pos row r Hp Hr Er) as (U & _ & L1 & L2 & _). unfold get2. rewrite Er. cbn [bind]. rewrite L2; [rewrite znth_map, Hv; reflexivity|exact Ne|].
    pose proof (znth_range _ _ _ Hv) as R. rewrite (proj2 RB row) in R by (eapply znth_In; eauto). exact R.
  - intros y p1 pos Hp. destruct (row_of y p1 pos Hp) as (row & Hr & Ry). destruct (HC y Ry) as (r & Er & _).
    destruct (K y p1 pos row r Hp Hr Er) as (U & HU & _ & _ & L3). exists U. split; [exact HU|]. intros X. exists row. split; [exact Hr|]. rewrite <- (L3 X). exact Er.
Qed.
(** C115 *)
Lemma c115_sec : (blas <> [] \/ las = []) -> (exists out, run = Ok out) \/ (run = Throw RuntimeError /\ exists M, l_inv L M = Throw RuntimeError).
Proof.
  intros C. rewrite RE. pose proof (zlen_nonneg las) as Hl. destruct (zlen las =? 0) eqn:E0; [left; eauto|].
  destruct C as [C| ->]; [|discriminate].
  assert (Hb : 0 < zlen blas) by (destruct blas; [congruence|]; rewrite zlen_cons; pose proof (zlen_nonneg l); lia).
  destruct (znth_some background 0) as [r0 E1]; [destruct RB; lia|]. rewrite E1. cbn [bind].
  set (cell := ensi_cell _ _ _ _ _ _ _ _ _ _ _ _ _ _).
  assert (T : forall y, 0 <= y < zlen blas -> (exists r, cell y = Ok r) \/ (cell y = Throw RuntimeError /\ exists M, l_inv L M = Throw RuntimeError)).
  { intros y Hy. destruct (has_bpoint G t blas blos bpts HB y Hy) as (p1 & pos & Hp). destruct (row_of y p1 pos Hp) as (row & Hr & _).
    destruct (cell_total E G L EL S t blas blos las los bpts pts background pbg pobs psigmas mp ex loc rho bg nE HSet HEL HI Hmp y row p1 pos Hr Hp) as (U & _ & [(o & Eo & _)|O]); [left; eauto|right; exact O]. }
  assert (T' : forall l, (forall y, In y l -> 0 <= y < zlen blas) -> (exists r, mapM cell l = Ok r) \/ (mapM cell l = Throw RuntimeError /\ exists M, l_inv L M = Throw RuntimeError)).
  { induction l as [|y l IH]; intros Hl'; [left; cbn; eauto|]. cbn [mapM]. destruct (T y) as [[r ->]|[-> X]]; [apply Hl'; left; reflexivity| |right; auto]. cbn [bind].
    destruct IH as [[r' ->]|[-> X]]; [intros; apply Hl'; right; assumption| |right; auto]. left. cbn [bind]. eauto. }
  apply T'. intros y Hy. apply in_zrange in Hy. exact Hy.
Qed.

Variables (b : Z -> Z -> Qc) (s o : Z -> Qc).
Hypothesis HD : ensi_data (zlen las) nE background pobs psigmas pbg b s o.
(** C110 to C113 *)
Lemma c110_sec out y p1 pos g x : run = Ok out -> bpoint G t blas blos bpts y p1 pos -> known_cell pts bg p1 g -> row_data nE background y x ->
  exists ms U, members_of nE background ms /\ chosen' mp p1 pos U /\
    (U = [] \/ zlen ms <= 1 -> unchanged background out y) /\
    (U <> [] -> 2 <= zlen ms ->
      (solver_failed EL ms (precision U ms b s g) /\ unchanged background out y) \/
      exists a, kalman_update U ms x b o s g a /\
        forall e, In e ms -> exists z, get2 out y e = Ok (RF z) /\ (ex = true -> z = a e) /\
          (ex = false -> forall k, U = [k] -> rlimited (qr (o k - b k e)%Qc) (a e - qr (x e)) (z - qr (x e)))).
Proof.
  intros H Hp KC RX. destruct (row_of y p1 pos Hp) as (row & Hr & Ry). exists (filter (ok_in background) (zrange 0 nE)).
  pose proof (zlen_nonneg las) as Hl. destruct (Z.eq_dec (zlen las) 0) as [E0|N0].
  { exists []. split; [apply members_of_filter|]. split; [apply no_stations; exact E0|]. rewrite RE in H. replace (zlen las =? 0) with true in H by lia. injection H as <-.
    split; [|congruence]. intros _. exists row. split; [exact Hr|]. rewrite znth_map, Hr. reflexivity. }
  destruct (run_cells out H ltac:(lia)) as [Lo HC]. destruct (HC y Ry) as (r & Er & Ec).
  destruct (cell_data E G L EL S t blas blos las los bpts pts background pbg pobs psigmas mp ex loc rho bg nE HSet HEL HI Hmp b s o HD y row p1 pos g x Hr Hp KC RX) as (U & HU & RU & H0 & H1).
  exists U. split; [apply members_of_filter|]. split; [exact HU|]. rewrite Ec in H0. split.
  { intros C. specialize (H0 C). exists row. split; [exact Hr|]. congruence. }
  intros NU H2. rewrite Ec in H1. destruct (H1 NU H2) as [[F X]|(a & KU & o' & Eo & L1 & L2 & L3)].
  - left. split; [exact F|]. exists row. split; [exact Hr|]. congruence.
  - right. exists a. split; [exact KU|]. injection Eo as <-. intros e He. destruct (L3 e He) as (z & Ez & Z). exists z. split; [|exact Z]. unfold get2. rewrite Er. exact Ez.
Qed.
Lemma c115_data : (blas <> [] \/ las = []) -> (forall y p1 pos, bpoint G t blas blos bpts y p1 pos -> exists g, known_cell pts bg p1 g) -> exists out, run = Ok out.
Proof.
  intros C KG. rewrite RE. pose proof (zlen_nonneg las) as Hl. destruct (zlen las =? 0) eqn:E0; [eauto|].
  destruct C as [C| ->]; [|discriminate].
  assert (Hb : 0 < zlen blas) by (destruct blas; [congruence|]; rewrite zlen_cons; pose proof (zlen_nonneg l); lia).
  destruct (znth_some background 0) as [r0 E1]; [destruct RB; lia|]. rewrite E1. cbn [bind]. apply mapM_some. intros y Hy. apply in_zrange in Hy.
  destruct (has_bpoint G t blas blos bpts HB y Hy) as (p1 & pos & Hp). destruct (row_of y p1 pos Hp) as (row & Hr & _). destruct (KG y p1 pos Hp) as [g KC].
  assert (RX : row_data nE background y (fun e => match get2 background y e with Ok (Fin q) => q | _ => 0%Qc end)).
  { intros e He Hc. unfold complete in Hc. rewrite <- (znth_col e (zlen blas) nE background y RB He ltac:(lia)). destruct (znth_some (col e background) y) as [v Hv]; [rewrite zlen_col; destruct RB; lia|].
    rewrite Hv. destruct (Hc v) as [q ->]; [eapply znth_In; eauto|]. reflexivity. }
  destruct (cell_data E G L EL S t blas blos las los bpts pts background pbg pobs psigmas mp ex loc rho bg nE HSet HEL HI Hmp b s o HD y row p1 pos g _ Hr Hp KC RX) as (U & HU & RU & H0 & H1).
  assert (CU : U = [] \/ U <> []) by (destruct U; [left; reflexivity|right; discriminate]).
  destruct CU as [CU|CU]; [rewrite H0 by auto; eauto|]. destruct (Z_le_dec (zlen (filter (ok_in background) (zrange 0 nE))) 1) as [C1|C1]; [rewrite H0 by auto; eauto|].
  destruct (H1 CU ltac:(lia)) as [[_ X]|(a & _ & o' & X & _)]; rewrite X; eauto.
Qed.
End All.
