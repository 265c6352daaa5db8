(** The ensemble mode of the client's optimal interpolation: from the field to the members. *)
From Coq Require Import Lra Permutation.
From Verif Require P_Ensi.
From Verif Require Import Base QcTac ListLib RBase P_RBase M_Geo S_Geo M_Stat S_Stat M_OI S_OI P_OISum P_OI M_Ensi S_EnsMulti S_Ensi P_RSum P_EnsiAlg P_EnsiCell P_EnsiSpec M_COpt M_CUtil S_CUtil P_CUtil M_CCal S_CCal P_CCal M_CTree S_CTree P_Bilin P_CDown P_CDist M_CKrig S_CKrig P_CKrig M_COi S_COi P_COi P_COi2 M_COiEns S_COiEns P_COiEns P_COiEns2.
Local Open Scope Z_scope.

Lemma tot_perm l l' f : Permutation l l' -> tot l f = tot l' f.
Proof. unfold tot. induction 1 as [| |y x l|]; cbn [map fold_right]; [reflexivity|congruence| |congruence]. rewrite !Qcplus_assoc. f_equal. apply Qcplus_comm. Qed.
Lemma zlen_perm {A} (l l' : list A) : Permutation l l' -> zlen l = zlen l'.
Proof. intros H. unfold zlen. rewrite (Permutation_length H). reflexivity. Qed.
Section Back.
Variables (f : field) (Yy Xx : Z) (c : Qc) (bg : Z -> Qc).
Definition vb (e : Z) : bool := match f_get f Yy Xx e with Ok v => cvalid v | _ => false end.
Hypothesis Hbg : forall e q, f_get f Yy Xx e = Ok (Fin q) -> q <> missing_number -> bg e = (q + c)%Qc.
Lemma back_fold : forall l ys T n, (forall e, In e l -> exists v, f_get f Yy Xx e = Ok v) ->
  foldM (fun st e => let '(ys, total, count) := st in
      value <- f_get f Yy Xx e ;;
      Ok (if cvalid value then (ys ++ [vadd value (Fin c)], vadd total (vadd value (Fin c)), count + 1) else (ys ++ [fz 0], total, count))) (ys, Fin T, n) l =
  Ok (ys ++ map (fun e => if vb e then Fin (bg e) else fz 0) l, Fin (T + tot (filter vb l) bg)%Qc, n + zlen (filter vb l)).
Proof.
  induction l as [|e l IH]; intros ys T n Hl.
  - cbn [foldM map filter]. rewrite app_nil_r, zlen_nil, Z.add_0_r. unfold tot. cbn [map fold_right]. do 3 f_equal. f_equal. ring.
  - cbn [foldM]. destruct (Hl e (or_introl eq_refl)) as [v Ev]. rewrite Ev. cbn [bind].
    assert (Hl' : forall e, In e l -> exists v, f_get f Yy Xx e = Ok v) by (intros; apply Hl; right; assumption).
    cbn [map filter]. assert (Eb : vb e = cvalid v) by (unfold vb; rewrite Ev; reflexivity). rewrite Eb. destruct (cvalid v) eqn:CV.
    + apply cvalid_true in CV as (q & -> & Nq). rewrite (Hbg e q Ev Nq). rewrite !vadd_F. rewrite IH by exact Hl'. rewrite <- app_assoc, zlen_cons. cbn [app]. unfold tot. cbn [map fold_right]. rewrite (Hbg e q Ev Nq).
      do 2 f_equal; [f_equal|lia]. f_equal. ring.
    + rewrite IH by exact Hl'. rewrite <- app_assoc. reflexivity.
Qed.
End Back.
Lemma back_ens d o elevs f st gr (a : Z -> place) (b : Z -> Z -> place) i ms bg : of_size d f -> 0 <= d_e d -> 0 <= st_y st < d_y d -> 0 <= st_x st < d_x d ->
  (oi_gradient o = Fin gr /\ gr <> missing_number) \/ (missing (oi_gradient o) /\ gr = 0%Qc) -> station_at st (a i) -> (get2 elevs (st_y st) (st_x st) = Ok (Fin (p_el (b (st_y st) (st_x st)))) /\ p_el (b (st_y st) (st_x st)) <> missing_number) ->
  (forall e q, f_get f (st_y st) (st_x st) e = Ok (Fin q) -> q <> missing_number -> (missing_number < q + lapse gr a b i st)%Qc) ->
  NoDup ms -> ms <> [] -> (forall e, In e ms <-> 0 <= e < d_e d /\ exists q, f_get f (st_y st) (st_x st) e = Ok (Fin q) /\ q <> missing_number) ->
  (forall e q, In e ms -> f_get f (st_y st) (st_x st) e = Ok (Fin q) -> bg e = (q + lapse gr a b i st)%Qc) ->
  exists ys, oi_background o elevs (d_e d) f st = Ok (ys, Fin (avg ms bg)) /\ zlen ys = d_e d /\ forall e, In e ms -> znth ys e = Ok (Fin (dev ms bg e)).
Proof.
  intros SF He Hy Hx HG (A1 & A2 & A3 & A4 & A5 & A6 & A7) [EE NE] HB ND NN HM Hbg. unfold oi_background. set (c := lapse gr a b i st) in *.
  match goal with |- exists ys, bind ?e _ = _ /\ _ => assert (EC : e = Ok (Fin c)) end.
  { destruct HG as [[-> n]|[M ->]].
    - rewrite cvalid_Fin by auto. cbn [andb]. change (veqb (Fin gr) (fz 0)) with (qeqb gr 0). destruct (qeqb_spec gr 0) as [->|NZ]; cbn [negb].
      + unfold c, lapse. change (fz 0) with (Fin 0%Qc). do 2 f_equal. ring.
      + rewrite EE. cbn [bind]. rewrite A3, !cvalid_Fin by auto. cbn [andb]. rewrite vsub_F, vmul_F. reflexivity.
    - apply cvalid_missing in M. rewrite M. cbn [andb]. unfold c, lapse. change (fz 0) with (Fin 0%Qc). do 2 f_equal. ring. }
  rewrite EC. cbn [bind]. clear EC. change (fz 0) with (Fin 0%Qc) at 2.
  set (bg' := fun e => match f_get f (st_y st) (st_x st) e with Ok (Fin q) => (q + c)%Qc | _ => 0%Qc end).
  rewrite (back_fold f (st_y st) (st_x st) c bg'). 2:{ intros e q E _. unfold bg'. rewrite E. reflexivity. }
  2:{ intros e Hin. apply in_zrange in Hin. apply (of_size_get d f); [exact SF|]. unfold within. auto. }
  cbn [bind app]. rewrite Qcplus_0_l, Z.add_0_l. set (vv := vb f (st_y st) (st_x st)).
  assert (Hvv : forall e, vv e = true <-> exists q, f_get f (st_y st) (st_x st) e = Ok (Fin q) /\ q <> missing_number).
  { intros e. unfold vv, vb. destruct (f_get f (st_y st) (st_x st) e) as [v| | |]; [|split; [discriminate|intros (q & E & _); discriminate E]..]. split.
    - intros CV. apply cvalid_true in CV as (q & -> & Nq). eauto. - intros (q & [= ->] & Nq). apply cvalid_Fin. exact Nq. }
  assert (Pm : Permutation (filter vv (zrange 0 (d_e d))) ms).
  { apply NoDup_Permutation; [apply NoDup_filter, NoDup_zrange|exact ND|]. intros e. rewrite filter_In, in_zrange, HM, Hvv. tauto. }
  assert (Eb : forall e, In e ms -> bg' e = bg e). { intros e Hin. pose proof (proj1 (HM e) Hin) as (_ & q & Eq & _). unfold bg'. rewrite Eq. symmetry. apply Hbg; assumption. }
  rewrite (tot_perm _ _ _ Pm), (zlen_perm _ _ Pm), (tot_ext ms bg' bg Eb).
  assert (Lm : 0 < zlen ms) by (destruct ms; [congruence|rewrite zlen_cons; pose proof (zlen_nonneg ms); lia]). replace (0 <? zlen ms) with true by lia.
  change (fz (zlen ms)) with (Fin (qz (zlen ms))). rewrite vdiv_ok by (apply qz_neq0; lia). fold (avg ms bg).
  assert (Nm : avg ms bg <> missing_number).
  { unfold avg. assert (G : (qz (zlen ms) * missing_number < tot ms bg)%Qc).
    { assert (K : forall l, l <> [] -> (forall e, In e l -> missing_number < bg e)%Qc -> (qz (zlen l) * missing_number < tot l bg)%Qc).
      { induction l as [|e l IH]; [congruence|]. intros _ H. rewrite zlen_cons, qz_S, tot_cons. pose proof (H e (or_introl eq_refl)) as H1. destruct l as [|e' l].
        - rewrite zlen_nil. change (qz 0) with 0%Qc. unfold tot. cbn [map fold_right]. replace ((0 + 1) * missing_number)%Qc with missing_number by ring. replace (bg e + 0)%Qc with (bg e) by ring. exact H1.
        - specialize (IH ltac:(discriminate) (fun e0 He0 => H e0 (or_intror He0))). set (u := (qz (zlen (e' :: l)) * missing_number)%Qc) in *. set (t := tot (e' :: l) bg) in *.
          replace ((qz (zlen (e' :: l)) + 1) * missing_number)%Qc with (u + missing_number)%Qc by (unfold u; ring). clearbody u t. generalize dependent (bg e). intros w H1. generalize dependent missing_number. intros. qlra. }
      apply K; [exact NN|]. intros e Hin. pose proof (proj1 (HM e) Hin) as (_ & q & Eq & Nq). rewrite (Hbg e q Hin Eq). apply (HB e); assumption. }
    assert (Pn : (0 < qz (zlen ms))%Qc) by (apply qz_pos; exact Lm).
    intros e0. assert (H : (tot ms bg = missing_number * qz (zlen ms))%Qc). { rewrite <- e0. field. intros e1. rewrite e1 in Pn. discriminate Pn. }
    rewrite H, (Qcmult_comm missing_number) in G. apply Qclt_not_le in G. apply G. apply Qcle_refl. }
  eexists. split; [reflexivity|]. split; [rewrite !zlen_map, zlen_zrange; lia|]. intros e Hin. pose proof (proj1 (HM e) Hin) as (Re & q & Eq & Nq).
  rewrite znth_map, znth_map, znth_zrange by lia. cbn [bind]. replace (0 + e) with e by lia.
  assert (Ve : vv e = true) by (apply Hvv; eauto). rewrite Ve. rewrite (Eb e Hin).
  assert (Nb : bg e <> missing_number). { rewrite (Hbg e q Hin Eq). pose proof (HB e q Eq Nq) as H. intros E0. rewrite E0 in H. apply Qclt_not_le in H. apply H. apply Qcle_refl. }
  rewrite !cvalid_Fin by assumption. cbn [andb]. rewrite vsub_F. reflexivity.
Qed.
(** ** A point *)
Definition stk (ss : list station) (k : Z) : station := match znth ss k with Ok s => s | _ => {| st_loc := {| l_lat := NaN; l_lon := NaN; l_elev := NaN |}; st_obs := NaN; st_ci := NaN; st_y := 0; st_x := 0; st_laf := NaN |} end.
Lemma stk_ok ss k : 0 <= k < zlen ss -> znth ss k = Ok (stk ss k).
Proof. intros H. destruct (znth_some ss k H) as [s E]. unfold stk. rewrite E. reflexivity. Qed.
Lemma full_cvalid d f e : of_size d f -> (0 <= e < d_e d /\ forall y x v, 0 <= y < d_y d -> 0 <= x < d_x d -> f_get f y x e = Ok v -> cvalid v = true) <-> full d f e.
Proof.
  intros SF. split.
  - intros [He H]. split; [exact He|]. intros y x Hy Hx. destruct (of_size_get d f y x e SF) as [v Ev]; [unfold within; auto|]. pose proof (H y x v Hy Hx Ev) as CV. apply cvalid_true in CV as (q & -> & Nq). eauto.
  - intros [He H]. split; [exact He|]. intros y x v Hy Hx Ev. destruct (H y x Hy Hx) as (q & Eq & Nq). rewrite Eq in Ev. injection Ev as <-. apply cvalid_Fin. exact Nq.
Qed.
Lemma members_full d f : of_size d f -> 0 <= d_e d -> exists ms, oi_members d f = Ok ms /\ full_members d f ms.
Proof.
  intros SF He. destruct (members_found d f SF He) as (ms & E & ND & H). exists ms. split; [exact E|]. split; [exact ND|]. intros e. rewrite H. apply full_cvalid. exact SF.
Qed.
Lemma row_get d f y x : of_size d f -> 0 <= y < d_y d -> 0 <= x < d_x d -> 0 <= d_e d -> exists row, mapM (f_get f y x) (zrange 0 (d_e d)) = Ok row /\ zlen row = d_e d /\ forall e, 0 <= e < d_e d -> exists v, f_get f y x e = Ok v /\ znth row e = Ok v.
Proof.
  intros SF Hy Hx He. destruct (mapM_total (f_get f y x) (fun _ _ => True) (zrange 0 (d_e d))) as (row & E & Lr & H).
  { intros e Hin. apply in_zrange in Hin. destruct (of_size_get d f y x e SF) as [v Ev]; [unfold within; auto|]. eauto. }
  exists row. split; [exact E|]. rewrite zlen_zrange in Lr. split; [lia|]. intros e Hi. destruct (H e e) as (v & Z1 & Z2 & _); [rewrite znth_zrange by lia; f_equal; lia|]. eauto.
Qed.
Section Point.
Variables (L : lib) (EL : elib) (radar : res (list rv)) (o : oi_options) (eo : ens_options) (elevs : list vec) (d : dims) (ss : list station) (f : field) (sel : list (val * Z)) (gr sg dl : Qc) (U : list Z) (a : Z -> place) (b : Z -> Z -> place)
  (g ob ci : Z -> Qc) (bg : Z -> Z -> Qc).
Hypothesis HLib : lib_ok L.
Hypothesis HE : elib_ok EL.
Hypothesis HC : ens_case o eo elevs d ss f sel gr sg dl U a b g ob ci bg.
Hypothesis HA : all_or_nothing d ss f U.
Notation rr := (error_var sg g ci).
Variables (y x : Z) (q : Z -> Qc).
Hypothesis Hy : 0 <= y < d_y d.
Hypothesis Hx : 0 <= x < d_x d.
Hypothesis Hq : point_data d f y x q.
Notation run := (oe_point (l_inv L) EL radar o eo 2 elevs d ss f sel y x).
Lemma backs ms : full_members d f ms -> ms <> [] -> exists back, mapM (oi_background o elevs (d_e d) f) ss = Ok back /\
  forall k, In k U -> exists ys, znth back k = Ok (ys, Fin (avg ms (bg k))) /\ forall e, In e ms -> znth ys e = Ok (Fin (dev ms (bg k) e)).
Proof.
  intros [ND HM] NN. destruct HC as [[SF He] [RE EV] HG _ _ HSt [_ [_ [_ HU]]] _ HB].
  destruct (mapM_total (oi_background o elevs (d_e d) f) (fun _ _ => True) ss) as (back & E & Lb & H).
  { intros st Hin. apply In_znth in Hin as [i Hi]. destruct (HSt i st Hi) as (S1 & S2 & S3 & S4).
    destruct (background_ok d o elevs f st gr a b i SF RE He S2 S3 HG S1 (EV _ _ S2 S3) S4) as (ys & mean & -> & _). eauto. }
  exists back. split; [exact E|]. intros k Hk. destruct (HU k Hk) as [Rk _]. pose proof (stk_ok ss k Rk) as Ek. set (st := stk ss k) in *. destruct (HSt k st Ek) as (S1 & S2 & S3 & S4).
  destruct (H k st Ek) as (r & Zr & Er & _).
  destruct (back_ens d o elevs f st gr a b k ms (bg k) SF He S2 S3 HG S1 (EV _ _ S2 S3) S4 ND NN) as (ys & Eb & _ & Hys).
  { intros e. rewrite HM. split.
    - intros F. split; [apply F|]. apply F; assumption.
    - intros (Re & v & Ev & Nv). destruct (in_dec Z.eq_dec e ms) as [Hin|Hn]; [apply HM; exact Hin|]. exfalso.
      assert (M : missing (Fin v)). { apply (HA k st e (Fin v) Hk Ek Re); [intros F; apply Hn; apply HM; exact F|exact Ev]. }
      apply cvalid_missing in M. rewrite cvalid_Fin in M by exact Nv. discriminate M. }
  { intros e v Hin Ev. apply (HB k st e v Hk Ek); [apply HM; exact Hin|exact Ev]. }
  rewrite Eb in Er. injection Er as <-. exists ys. auto.
Qed.
Lemma point_core ms back row : oi_members d f = Ok ms -> mapM (oi_background o elevs (d_e d) f) ss = Ok back -> mapM (f_get f y x) (zrange 0 (d_e d)) = Ok row ->
  (forall k, In k U -> exists ys, znth back k = Ok (ys, Fin (avg ms (bg k))) /\ forall e, In e ms -> znth ys e = Ok (Fin (dev ms (bg k) e))) ->
  run = ecore (l_inv L) EL eo ms (zlen U) (map (fun k => Fin (g k)) U) (map (fun k => Fin (ci k)) U) (map (fun k => Fin (ob k)) U) (map (fun k => Fin (avg ms (bg k))) U)
    (map (fun k => map (fun e => Fin (dev ms (bg k) e)) ms) U) row (map (fun _ => v2r CMV) (zrange 0 (d_e d))).
Proof.
  intros EM EB ER HBk. unfold oe_point. rewrite EB, EM, ER. cbn [bind]. destruct HC as [_ _ _ _ _ _ [-> [_ [_ HU]]] HO _]. unfold oe_row.
  change (2 =? 3) with false. change (negb (2 =? 2)) with false. cbv iota.
  assert (Es : mapM (fun p : val * Z => znth ss (snd p)) (map (fun k => (Fin (g k), k)) U) = Ok (map (stk ss) U)).
  { rewrite (mapM_ok _ (fun p => stk ss (snd p))); [rewrite map_map; reflexivity|]. intros p Hp. apply in_map_iff in Hp as (k & <- & Hk). cbn [snd]. apply stk_ok. apply HU. exact Hk. }
  set (bk := fun k => match znth back k with Ok r => r | _ => ([], NaN) end).
  assert (Eb : mapM (fun p : val * Z => znth back (snd p)) (map (fun k => (Fin (g k), k)) U) = Ok (map bk U)).
  { rewrite (mapM_ok _ (fun p => bk (snd p))); [rewrite map_map; reflexivity|]. intros p Hp. apply in_map_iff in Hp as (k & <- & Hk). cbn [snd]. unfold bk. destruct (HBk k Hk) as (ys & -> & _). reflexivity. }
  rewrite Es, Eb. cbn [bind].
  assert (EY : mapM (fun b0 : vec * val => mapM (fun ei => znth (fst b0) ei) ms) (map bk U) = Ok (map (fun k => map (fun e => Fin (dev ms (bg k) e)) ms) U)).
  { assert (K : forall l, (forall k, In k l -> In k U) -> mapM (fun b0 : vec * val => mapM (fun ei => znth (fst b0) ei) ms) (map bk l) = Ok (map (fun k => map (fun e => Fin (dev ms (bg k) e)) ms) l)).
    { induction l as [|k l IH]; intros Hl; [reflexivity|]. cbn [map mapM]. destruct (HBk k (Hl k (or_introl eq_refl))) as (ys & Ek & Hys).
      rewrite (mapM_ok _ (fun e => Fin (dev ms (bg k) e))); [|intros e He; unfold bk; rewrite Ek; cbn [fst]; apply Hys; exact He]. cbn [bind]. rewrite IH by (intros; apply Hl; right; assumption). reflexivity. }
    apply K. auto. }
  rewrite EY. cbn [bind]. rewrite zlen_map, !map_map. cbn [fst].
  assert (E1 : map (fun k => st_obs (stk ss k)) U = map (fun k => Fin (ob k)) U) by (apply map_ext_in; intros k Hk; apply (HO k (stk ss k) Hk); apply stk_ok; apply HU; exact Hk).
  assert (E2 : map (fun k => st_ci (stk ss k)) U = map (fun k => Fin (ci k)) U) by (apply map_ext_in; intros k Hk; apply (HO k (stk ss k) Hk); apply stk_ok; apply HU; exact Hk).
  assert (E3 : map (fun k => snd (bk k)) U = map (fun k => Fin (avg ms (bg k))) U) by (apply map_ext_in; intros k Hk; unfold bk; destruct (HBk k Hk) as (ys & -> & _); reflexivity).
  rewrite E1, E2, E3. unfold ecore. reflexivity.
Qed.
Lemma precision_eq ms p i j : NoDup ms -> (forall i, 0 <= i < zlen ms -> p (ix ms i) = i) -> 2 <= zlen ms -> 0 <= i < zlen ms -> 0 <= j < zlen ms ->
  (pinv U (Yd ms bg) (erin sg g ci) (eN ms dl) i j / qz (zlen ms - 1))%Qc = filter_precision dl U ms bg rr (ix ms i) (ix ms j).
Proof.
  intros ND Hp Hn Hi Hj. destruct HC as [_ _ _ [_ Nsg] [_ Pdl] _ [_ [_ [_ HU]]] HO _]. unfold filter_precision, pinv.
  assert (Eq : unit_ (ix ms i) (ix ms j) = unit_ i j).
  { unfold unit_. destruct (Z.eqb_spec i j) as [-> |Ne]; [rewrite Z.eqb_refl; reflexivity|]. destruct (Z.eqb_spec (ix ms i) (ix ms j)) as [E|_]; [|reflexivity].
    exfalso. apply Ne. exact (ix_inj ms i j ND Hi Hj E). }
  rewrite Eq. rewrite (tot_ext U (fun k => Yd ms bg k i * erin sg g ci k * Yd ms bg k j)%Qc (fun k => dev ms (bg k) (ix ms i) * dev ms (bg k) (ix ms j) / rr k)%Qc).
  - set (t := tot U _). clearbody t. unfold eN. assert (N1 : qz (zlen ms - 1) <> 0%Qc) by (apply qz_neq0; lia). assert (N2 : dl <> 0%Qc) by (apply pos_nz; exact Pdl). field. split; assumption.
  - intros k Hk. unfold Yd, erin, error_var. destruct (HU k Hk) as [Rk Pg]. destruct (HO k (stk ss k) Hk (stk_ok ss k Rk)) as (_ & _ & Pc). pose proof (pos_nz _ Pc). pose proof (pos_nz _ Pg). field. repeat split; auto.
Qed.
Lemma ens_point : exists ms, full_members d f ms /\ (2 <= zlen ms ->
  (solver_failed EL ms (filter_precision dl U ms bg rr) /\ exists out, run = Ok out /\ kept d f y x out) \/
  exists an z out, run = Ok out /\ filtered dl U ms q bg ob rr an /\ written d ms z out /\
    (en_savediff eo = true -> forall e, In e ms -> z e = (an e - qr (avg ms q))%R) /\
    (en_savediff eo = false -> en_extrapolate eo = true -> forall e, In e ms -> z e = an e) /\
    (en_savediff eo = false -> en_extrapolate eo = false -> forall k e, U = [k] -> In e ms -> rlimited (qr (ob k - bg k e)%Qc) (an e - qr (q e)) (z e - qr (q e)))).
Proof.
  pose proof HC as HC0. destruct HC0 as [[SF He] _ _ [Esg Nsg] [Edl Pdl] _ [_ [NU [NDU HU]]] HO _].
  destruct (members_full d f SF He) as (ms & EM & FM). exists ms. split; [exact FM|]. intros Hn.
  assert (NM : ms <> []) by (intros E; rewrite E, zlen_nil in Hn; lia).
  destruct (backs ms FM NM) as (back & EB & HBk). destruct (row_get d f y x SF Hy Hx He) as (row & ER & LR & HR).
  pose proof (point_core ms back row EM EB ER HBk) as Erun. destruct FM as [NDM HM].
  assert (Hc : forall k, In k U -> (0 < ci k)%Qc). { intros k Hk. destruct (HU k Hk) as [Rk _]. apply (HO k (stk ss k) Hk (stk_ok ss k Rk)). }
  assert (Hg : forall k, In k U -> (0 < g k)%Qc) by (intros k Hk; apply HU; exact Hk).
  assert (LU : 0 < zlen U) by (destruct U; [congruence|rewrite zlen_cons; pose proof (zlen_nonneg l); lia]).
  destruct (positions ms NDM) as (p & Hp & Hp').
  pose proof (ecore_fin L EL eo ms (zlen U) (d_e d) (map (fun k => Fin (g k)) U) (map (fun k => Fin (ci k)) U) (map (fun k => Fin (ob k)) U) (map (fun k => Fin (avg ms (bg k))) U)
    (map (fun k => map (fun e => Fin (dev ms (bg k) e)) ms) U) row (map (fun _ => v2r CMV) (zrange 0 (d_e d))) HLib HE LU NDM) as CF.
  assert (ZU : forall (h : Z -> Qc) i, 0 <= i < zlen U -> znth (map (fun k => Fin (h k)) U) i = Ok (Fin (h (ix U i)))) by (intros h i Hi; rewrite znth_map, (ix_ok U i Hi); reflexivity).
  specialize (CF ltac:(intros e He'; apply HM in He'; apply He') LR ltac:(rewrite zlen_map, zlen_zrange; lia) U (Yd ms bg) sg dl g ci ob (fun k => avg ms (bg k)) (fun i => q (ix ms i)) eq_refl Hn Esg Nsg Edl Pdl).
  specialize (CF ltac:(intros i Hi; split; [apply ZU; exact Hi|apply Hg, ix_In; exact Hi]) ltac:(intros i Hi; split; [apply ZU; exact Hi|apply Hc, ix_In; exact Hi]) ltac:(intros i Hi; apply ZU; exact Hi) ltac:(intros i Hi; apply (ZU (fun k => avg ms (bg k))); exact Hi)).
  assert (MY : mat (zlen U) (zlen ms) (map (fun k => map (fun e => Fin (dev ms (bg k) e)) ms) U) (fun i e => Yd ms bg (ix U i) e)).
  { split.
    - split; [apply zlen_map|]. intros r Hr. apply in_map_iff in Hr as (k & <- & _). apply zlen_map.
    - intros i j Hi Hj. unfold get2. rewrite znth_map, (ix_ok U i Hi). cbn [bind]. rewrite znth_map, (ix_ok ms j Hj). reflexivity. }
  specialize (CF MY).
  assert (Fx : forall i, 0 <= i < zlen ms -> znth row (ix ms i) = Ok (Fin (q (ix ms i)))).
  { intros i Hi. pose proof (proj1 (HM _) (ix_In ms i Hi)) as F. destruct (HR (ix ms i) (proj1 F)) as (v & Ev & ->). f_equal. apply Hq; assumption. }
  specialize (CF Fx).
  destruct CF as [(M & A & MA & IA & EE & Er)|(P & l & v & HS & out & Er & L1 & L2 & L3)].
  - left. split.
    + exists M, (fun e h => A (p e) (p h)). split; [apply MA|]. split; [|split; [|exact EE]].
      * intros i j e h Ei Ej. pose proof (znth_range _ _ _ Ei) as Ri. pose proof (znth_range _ _ _ Ej) as Rj. rewrite (ix_ok ms i Ri) in Ei. rewrite (ix_ok ms j Rj) in Ej. injection Ei as <-. injection Ej as <-. rewrite !Hp by assumption. apply MA; assumption.
      * intros e h Hin Hin'. destruct (Hp' e Hin) as [Rp Ep]. destruct (Hp' h Hin') as [Rp' Ep']. rewrite tot_ix.
        assert (Eu : unit_ e h = unit_ (p e) (p h)).
        { rewrite <- Ep at 1. rewrite <- Ep' at 1. unfold unit_. destruct (Z.eqb_spec (p e) (p h)) as [-> |Ne]; [rewrite Z.eqb_refl; reflexivity|]. destruct (Z.eqb_spec (ix ms (p e)) (ix ms (p h))) as [E|_]; [|reflexivity]. exfalso. apply Ne. exact (ix_inj ms _ _ NDM Rp Rp' E). }
        rewrite Eu, <- (IA (p e) (p h)) by (apply in_zrange; assumption). apply tot_ext. intros k Hk. apply in_zrange in Hk. rewrite Hp by exact Hk. rewrite (precision_eq ms p k (p h) NDM Hp Hn Hk Rp'). rewrite Ep'. reflexivity.
    + exists (map v2r row). split; [rewrite Erun; exact Er|]. split; [rewrite zlen_map; exact LR|]. intros e w Re Ew. destruct (HR e Re) as (v & Ev & Zv). rewrite Ev in Ew. injection Ew as <-. rewrite znth_map, Zv. reflexivity.
  - right.
    assert (Eb : exb ms (fun i => q (ix ms i)) = avg ms q) by (unfold exb, avg; rewrite <- tot_ix; reflexivity).
    assert (Ed : forall i, exd ms (fun i => q (ix ms i)) i = dev ms q (ix ms i)) by (intros i; unfold exd, dev; rewrite Eb; reflexivity).
    set (an := fun e => fmem ms U bg sg g ci ob q P l v (p e)).
    assert (Han : forall e, 0 <= e < zlen ms -> an (ix ms e) = fmem ms U bg sg g ci ob q P l v e) by (intros e Re; unfold an; rewrite Hp by exact Re; reflexivity).
    assert (Einc : forall e, eincr ms U (Yd ms bg) sg g ci ob (fun k => avg ms (bg k)) (fun i => q (ix ms i)) P l v e = (fmem ms U bg sg g ci ob q P l v e - qr (avg ms q))%R).
    { intros e. unfold eincr, fmem. rewrite (rtot_ext _ _ (fun k => qr (dev ms q (ix ms k)) * (root (zlen ms) v l k e + qr (wvec (zlen ms) U (Yd ms bg) (erin sg g ci) P (fun k => ob k - avg ms (bg k))%Qc k)))%R) by (intros k _; rewrite Ed; reflexivity). ring. }
    set (z := fun e => match znth out e with Ok (RF w) => w | _ => 0%R end).
    exists an, z, out. split; [rewrite Erun; exact Er|]. split; [apply (fa_filtered ms U bg sg dl g ci ob q NDM NDU Hn Nsg Pdl Hg Hc P l v HS an Han)|].
    assert (Hz : forall i, 0 <= i < zlen ms -> exists w, znth out (ix ms i) = Ok (RF (z (ix ms i))) /\ z (ix ms i) = (if en_savediff eo then w else qr (avg ms q) + w)%R /\
      (en_savediff eo = true \/ en_extrapolate eo = true -> w = (an (ix ms i) - qr (avg ms q))%R) /\
      (en_savediff eo = false -> en_extrapolate eo = false -> RF w = oe_limit (RF (an (ix ms i) - qr (avg ms q))) (RF (qr (dev ms q (ix ms i)))) (v2r (amax (estdep (zlen U) U (Yd ms bg) ob (fun k => avg ms (bg k)) i))) (v2r (amin (estdep (zlen U) U (Yd ms bg) ob (fun k => avg ms (bg k)) i))))).
    { intros i Hi. destruct (L3 i Hi) as (w & Zw & W1 & W2). rewrite Eb in Zw. exists w. unfold z. rewrite Zw. split; [reflexivity|]. split; [reflexivity|]. rewrite Han by exact Hi. rewrite Einc, Ed in *. auto. }
    split; [|split; [|split]].
    + split; [exact L1|]. split.
      * intros e Hin. destruct (Hp' e Hin) as [Rp <-]. destruct (Hz _ Rp) as (w & Zw & _). exact Zw.
      * intros e Re Hn'. rewrite (L2 e Hn'). rewrite znth_map, znth_zrange by lia. reflexivity.
    + intros Sd e Hin. destruct (Hp' e Hin) as [Rp <-]. destruct (Hz _ Rp) as (w & _ & -> & W1 & _). rewrite Sd. apply W1. auto.
    + intros Sd Ex e Hin. destruct (Hp' e Hin) as [Rp <-]. destruct (Hz _ Rp) as (w & _ & -> & W1 & _). rewrite Sd, W1 by auto. ring.
    + intros Sd Ex k e EU Hin. destruct (Hp' e Hin) as [Rp Ep]. rewrite <- Ep. destruct (Hz _ Rp) as (w & _ & -> & _ & W2). rewrite Sd. specialize (W2 Sd Ex).
      assert (Es : estdep (zlen U) U (Yd ms bg) ob (fun k => avg ms (bg k)) (p e) = [Fin (ob k - bg k (ix ms (p e)))%Qc]).
      { unfold estdep. rewrite EU. cbn [map]. rewrite zlen_cons, zlen_nil. change (0 + 1) with 1. rewrite Z.mod_1_r, Z.div_1_r. change (ix [k] 0) with k. unfold Yd, dev. do 2 f_equal. ring. }
      rewrite Es in W2. change (v2r (amax [Fin (ob k - bg k (ix ms (p e)))%Qc])) with (RF (qr (ob k - bg k (ix ms (p e)))%Qc)) in W2. change (v2r (amin [Fin (ob k - bg k (ix ms (p e)))%Qc])) with (RF (qr (ob k - bg k (ix ms (p e)))%Qc)) in W2.
      pose proof (P_Ensi.limit_one (an (ix ms (p e)) - qr (q (ix ms (p e)))) (qr (dev ms q (ix ms (p e)))) (qr (ob k - bg k (ix ms (p e)))%Qc) w) as LO.
      assert (Q1 : (an (ix ms (p e)) - qr (q (ix ms (p e))) + qr (dev ms q (ix ms (p e))) = an (ix ms (p e)) - qr (avg ms q))%R) by (unfold dev; rewrite qr_sub; ring).
      rewrite Q1 in LO. specialize (LO W2). replace (qr (avg ms q) + w - qr (q (ix ms (p e))))%R with (w - qr (dev ms q (ix ms (p e))))%R by (unfold dev; rewrite qr_sub; ring). exact LO.
Qed.
End Point.
