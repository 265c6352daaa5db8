(** Proofs about details of the client that the properties of the earlier files leave open. *)
From Coq Require Import Lia Field.
From Verif Require Import Base ListLib QcTac M_Stat S_Stat M_COpt M_CUtil S_CUtil P_CUtil M_CCal S_CCal P_CCal M_CCal2 S_CCal2 M_CTree S_CTree M_CDown S_CDown P_CDown M_CBilin S_CBilin P_CBilin M_CKrig S_CKrig P_CKrig P_CKrigEx M_COi S_COi P_CCoast S_Bilin P_Bilin P_Stat.
Local Open Scope Z_scope.

(** ** C266: cells that are parallelograms *)
Local Open Scope Qc_scope.
Lemma para_st E x0 y0 ux uy wx wy s r : ux * wy - uy * wx <> 0 ->
  calc_st E (Fin (x0 + s * wx + r * ux)) (Fin (y0 + s * wy + r * uy)) (Fin x0) (Fin (x0 + ux)) (Fin (x0 + wx)) (Fin (x0 + ux + wx)) (Fin y0) (Fin (y0 + uy)) (Fin (y0 + wy)) (Fin (y0 + uy + wy)) = Ok (Fin s, Fin (1 - r)).
Proof.
  intros N. unfold calc_st. rewrite !vsub_F, !vmul_F, !vsub_F. unfold vabs at 1 2.
  replace ((x0 - (x0 + ux)) * (y0 + wy - (y0 + uy + wy)) - (x0 + wx - (x0 + ux + wx)) * (y0 - (y0 + uy))) with 0 by ring.
  replace ((x0 + ux + wx - (x0 + ux)) * (y0 + wy - y0) - (x0 + wx - x0) * (y0 + uy + wy - (y0 + uy))) with 0 by ring.
  match goal with |- (if ?b then _ else _) = _ => replace b with true by (vm_compute; reflexivity) end.
  unfold client_parallelogram. rewrite !vsub_F, !vmul_F, !vneg_F.
  assert (D : (x0 + ux + wx - (x0 + ux)) * (y0 - (y0 + uy)) - (x0 - (x0 + ux)) * (y0 + uy + wy - (y0 + uy)) = ux * wy - uy * wx) by ring.
  replace (veqb _ _) with false; [cbn [negb assert_ bind]|].
  - rewrite !vsub_F, D. unfold fz at 1 2. rewrite !vdiv_F by exact N. rewrite !vmul_F, !vadd_F, !vmul_F. change (qz 1) with 1. f_equal. f_equal; f_equal; field; exact N.
  - symmetry. cbn [veqb]. match goal with |- qeqb ?a ?b = _ => destruct (qeqb_spec a b) as [e|]; auto end. exfalso. apply N. rewrite <- D, e. ring.
Qed.
Lemma c266 E x0 y0 ux uy wx wy s r v0 v1 v2 v3 : ux * wy - uy * wx <> 0 -> unit_range s -> unit_range r ->
  client_cell E (Fin (x0 + s * wx + r * ux)) (Fin (y0 + s * wy + r * uy)) (Fin x0) (Fin (x0 + ux)) (Fin (x0 + wx)) (Fin (x0 + ux + wx)) (Fin y0) (Fin (y0 + uy)) (Fin (y0 + wy)) (Fin (y0 + uy + wy)) (Fin v0) (Fin v1) (Fin v2) (Fin v3)
    = Ok (Fin ((1 - s) * (1 - r) * v0 + (1 - s) * r * v1 + s * (1 - r) * v2 + s * r * v3)).
Proof.
  intros N Us Ur. pose proof (unit_flip r Ur) as Uf. destruct (cell_value_ok E _ _ _ _ _ _ _ _ _ _ v0 v1 v2 v3 _ _ (para_st E x0 y0 ux uy wx wy s r N)) as (s' & t' & Cs & Ct & _ & _ & ->); try (apply unit_nearly; assumption).
  rewrite (clamped_unit _ _ Cs Us), (clamped_unit _ _ Ct Uf). unfold blend. f_equal. f_equal. ring.
Qed.
Lemma c266_linear E x0 y0 ux uy wx wy s r a b c : ux * wy - uy * wx <> 0 -> unit_range s -> unit_range r -> let h x y := a + b * x + c * y in let x := x0 + s * wx + r * ux in let y := y0 + s * wy + r * uy in
  client_cell E (Fin x) (Fin y) (Fin x0) (Fin (x0 + ux)) (Fin (x0 + wx)) (Fin (x0 + ux + wx)) (Fin y0) (Fin (y0 + uy)) (Fin (y0 + wy)) (Fin (y0 + uy + wy))
    (Fin (h x0 y0)) (Fin (h (x0 + ux) (y0 + uy))) (Fin (h (x0 + wx) (y0 + wy))) (Fin (h (x0 + ux + wx) (y0 + uy + wy))) = Ok (Fin (h x y)).
Proof. intros N Us Ur h x y. unfold h, x, y. rewrite c266 by auto. f_equal. f_equal. ring. Qed.
Local Open Scope Z_scope.

(** ** C267: a station without a bias *)
Lemma final_missing_inv bs : forall ws a w b, krig_final bs ws a = Ok w -> In b bs -> missing b -> w = CMV.
Proof.
  induction bs as [|b0 bs IH]; intros ws a w b H HI M; [destruct HI|]. cbn [krig_final] in H. destruct (cvalid b0) eqn:V; cbn [negb] in H.
  - destruct HI as [->|HI]; [apply cvalid_missing in M; congruence|]. destruct ws as [|w0 ws]; [discriminate|]. eauto.
  - congruence.
Qed.
Lemma correction_missing inv cross M inverse bs S w b : krig_correction inv cross M inverse bs S = Ok w -> In b bs -> missing b -> w = CMV.
Proof.
  intros H HI HM. unfold krig_correction in H. destruct cross; cbv zeta in H.
  - do 5 (apply bind_Ok in H as (? & _ & H)). eapply final_missing_inv; eauto.
  - apply bind_Ok in H as (? & _ & H). eapply final_missing_inv; eauto.
Qed.
Lemma foldM_stays {S A} (f : S -> A -> res S) l : (forall s a s', f s a = Ok s' -> s' = s) -> forall s s', foldM f s l = Ok s' -> s' = s.
Proof. intros HF. induction l as [|a l IH]; intros s s' H; [cbn in H; congruence|]. cbn [foldM] in H. apply bind_Ok in H as (s1 & E & H). apply HF in E. subst s1. eauto. Qed.
Lemma bias_missing op v rest : missing v -> missing (krig_bias op (v :: rest)).
Proof. intros M. unfold krig_bias. rewrite (proj2 (cvalid_missing v) M). exact M. Qed.
Lemma c267 gc ex pw inv k aux dep locs pars lats lons elevs d fs out t l v rest : shaped d fs -> kriging_calibrator gc ex pw inv k aux dep locs pars lats lons elevs d fs = Ok out -> 0 <= t < d_t d -> In l locs -> pars t l = v :: rest -> missing v ->
  forall y x e w, element fs t y x e w -> element out t y x e w.
Proof.
  intros SH H Ht HL HP HM y x e w (f & Ef & Hw). unfold kriging_calibrator in H. apply bind_Ok in H as (hv & _ & H). destruct hv; cbn [negb] in H; [|injection H as <-; exists f; auto]. destruct dep; cbn [negb] in H; [|discriminate].
  apply bind_Ok in H as (M & _ & H). cbv zeta in H. apply bind_Ok in H as (tb & _ & H). apply each_time_inv in H as [_ H]; [|lia]. destruct (H t Ht) as (g & Eg & Hg). rewrite Ef in Hg. cbn [bind] in Hg.
  exists g. split; [exact Eg|]. replace g with f; [exact Hw|]. symmetry. revert Hg. apply foldM_stays. intros s [i j] s' HS. apply bind_Ok in HS as (S & _ & HS). destruct (zlen S =? 0); [congruence|].
  apply bind_Ok in HS as (fb & EB & HS). assert (fb = CMV) as ->. { eapply correction_missing; [exact EB|apply in_map_iff; exists l; split; [reflexivity|exact HL]|]. rewrite HP. apply bias_missing. exact HM. }
  unfold krig_point in HS. change (cvalid CMV) with false in HS. cbv iota in HS. congruence.
Qed.

(** ** C268: parameters of optimal interpolation *)
Lemma c268 gc ga ex rf sortp inv nn ens o nPar locs pars lats lons elevs lafs d fs : rect (d_y d) (d_x d) lats -> rect (d_y d) (d_x d) lons -> rect (d_y d) (d_x d) elevs -> 3 < nPar ->
  oi_calibrator gc ga ex rf sortp inv nn ens o nPar locs pars lats lons elevs lafs d fs = Abort \/
  (oi_calibrator gc ga ex rf sortp inv nn ens o nPar locs pars lats lons elevs lafs d fs = Ok fs /\ forall y x l, 0 <= y < d_y d -> 0 <= x < d_x d -> located_at lats lons elevs y x l -> unsettled l).
Proof.
  intros RA RO RE HN. unfold oi_calibrator. destruct (valid_found lats lons elevs d RA RO RE) as [->|[-> HV]]; cbn [bind negb].
  - left. replace (3 <? nPar) with true by lia. reflexivity.
  - right. split; [reflexivity|]. intros y x l Hy Hx HL. specialize (HV y x l Hy Hx HL). unfold place_valid in HV. rewrite !andb_false_iff, !cvalid_missing in HV. unfold unsettled. tauto.
Qed.
