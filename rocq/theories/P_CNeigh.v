(** Proofs about the client's neighbourhood calibrator. *)
From Coq Require Import Permutation.
From Verif Require Import Base QcTac ListLib M_Stat S_Stat P_Stat P_Quant P_Even M_Neigh S_Neigh P_Slice P_Window P_Neigh P_NeighAll P_NeighMore P_CGrad
  M_COpt M_CUtil S_CUtil P_CUtil M_CCal S_CCal P_CCal M_CCal2 M_CNeigh S_CNeigh P_CDown.
Local Open Scope Z_scope.

Definition clean (v : val) : val := if cvalid v then v else NaN.
Lemma clean_valid v : is_valid (clean v) = cvalid v.
Proof. unfold clean. destruct (cvalid v) eqn:C; [|reflexivity]. apply cvalid_true in C as (q & -> & _). reflexivity. Qed.
Lemma finites_clean l : finites (map clean l) = present l.
Proof.
  induction l as [|v l IH]; [reflexivity|]. rewrite present_cons. cbn [map]. unfold clean at 1. destruct v as [| | |q]; try exact IH.
  destruct (Qc_eq_dec q missing_number) as [->|n]; [exact IH|]. rewrite cvalid_Fin by auto. cbn [finites]. f_equal. exact IH.
Qed.
Lemma csat_clean input nY nX : rect nY nX input -> csat input nY nX = sat (map (map clean) input) nY nX.
Proof.
  intros R. unfold csat, sat. apply foldM_ext_in. intros s i Hi. apply in_zrange in Hi. apply foldM_ext_in. clear s. intros s j Hj. apply in_zrange in Hj.
  destruct (rect_get2 nY nX input i j R ltac:(lia) ltac:(lia)) as [v Ev]. unfold csat_step, sat_step. destruct s as [vs cs].
  rewrite Ev, (get2_map input clean i j v Ev). cbn [bind]. rewrite clean_valid. unfold clean. destruct (cvalid v) eqn:C; [reflexivity|]. cbv zeta. repeat match goal with |- context [if ?b then _ else _] => destruct b end; reflexivity.
Qed.
Lemma csat_cell_sat v c nY nX h st i j : st = CMean \/ st = CSum ->
  sat_cell v c nY nX h (match st with CMean => Mean | _ => Sum end) i j = (o <- csat_cell v c nY nX h st i j ;; Ok (match o with Some w => w | None => MV end)).
Proof.
  intros Hst. unfold sat_cell, csat_cell. cbv zeta. destruct (get2 v _ _); try reflexivity. cbn [bind]. destruct (get2 c _ _); try reflexivity. cbn [bind].
  match goal with |- context [bind ?b _] => destruct b as [[[[[[? ?] ?] ?] ?] ?]| | |]; try reflexivity end. cbn [bind].
  destruct Hst as [->| ->]; cbn [stat_eqb]; match goal with |- context [0 <? ?n] => destruct (0 <? n) end; reflexivity.
Qed.

Section Plane.
Variables (d : dims) (e : Z).
Lemma in_plane y x e' : In (y, x, e') (plane_cells d e) <-> 0 <= y < d_y d /\ 0 <= x < d_x d /\ e' = e.
Proof.
  unfold plane_cells. rewrite in_flat_map. split.
  - intros (y' & Hy & H). apply in_zrange in Hy. apply in_map_iff in H as (x' & [= <- <- <-] & Hx). apply in_zrange in Hx. auto.
  - intros (Hy & Hx & ->). exists y. split; [apply in_zrange; lia|]. apply in_map_iff. exists x. split; [reflexivity|apply in_zrange; lia].
Qed.
Lemma NoDup_plane : NoDup (plane_cells d e).
Proof.
  apply NoDup_flat_map; [apply NoDup_zrange| |].
  - intros y _. apply FinFun.Injective_map_NoDup; [|apply NoDup_zrange]. intros a b [= ->]. auto.
  - intros a b x _ _ Ha Hb. apply in_map_iff in Ha as (? & <- & _). apply in_map_iff in Hb as (? & [= <- _] & _). auto.
Qed.
Lemma for_plane_ok f0 P body : of_size d f0 -> 0 <= e < d_e d -> good_step d f0 P body ->
  exists g, for_plane d f0 e body = Ok g /\ of_size d g /\
    (forall y x, within d y x e -> exists w, f_get g y x e = Ok w /\ P y x e w) /\
    (forall y x e', within d y x e' -> e' <> e -> f_get g y x e' = f_get f0 y x e').
Proof.
  intros H He HB. destruct (loop_gen d f0 P body HB (plane_cells d e) f0 NoDup_plane) as (g & E & S & G & O); auto.
  - intros [[y x] e'] Hc. apply in_plane in Hc as (H1 & H2 & ->). repeat split; lia.
  - exists g. split; [exact E|]. split; [exact S|]. split.
    + intros y x (W1 & W2 & _). apply G. apply in_plane. auto.
    + intros y x e' W N. apply O; [exact W|]. intros K. apply in_plane in K as (_ & _ & K). contradiction.
Qed.
Lemma plane_ok f : of_size d f -> 0 <= d_y d -> 0 <= d_x d -> 0 <= e < d_e d -> exists g, plane d f e = Ok g /\ rect (d_y d) (d_x d) g /\ forall y x, 0 <= y < d_y d -> 0 <= x < d_x d -> get2 g y x = f_get f y x e.
Proof.
  intros H Hy Hx He. destruct (map2_ok (d_y d) (d_x d) (fun y x => f_get f y x e) (fun _ _ _ => True)) as (m & E & R & N); try lia.
  - intros i j Hi Hj. destruct (of_size_get d f i j e H) as [v Hv]; [repeat split; lia|]. eauto.
  - exists m. split; [exact E|]. split; [exact R|]. intros y x Hy' Hx'. destruct (N y x Hy' Hx') as (v & V1 & V2 & _). congruence.
Qed.
End Plane.

Section Member.
Variables (E : ext) (st : cstat) (q : Qc) (nY nX h : Z) (input : vec2).
Hypotheses (Hq : (st = CQuantile -> 0 <= q <= 1)%Qc) (R : rect nY nX input) (Hh : 0 <= h).
Lemma around_stat_ok i j : 0 <= i < nY -> 0 <= j < nX -> exists w, around_stat E st (Fin q) nY nX h input i j = Ok w /\ client_statistic E st q (present (around input h i j)) w.
Proof.
  intros Hi Hj. unfold around_stat. cbv zeta. unfold assert_.
  replace (0 <? Z.min (nY - 1) (i + h) - Z.max 0 (i - h) + 1) with true by lia. replace (0 <? Z.min (nX - 1) (j + h) - Z.max 0 (j - h) + 1) with true by lia. cbn [bind].
  rewrite (hood_around input nY nX) by auto. cbn [bind]. apply stat_spec. exact Hq.
Qed.
Definition column (i j : Z) : vec := map (fun ii => match get2 input ii j with Ok v => v | _ => NaN end) (zrange (i - h) (i + h + 1)).
Definition columns (j : Z) : list Z := zrange (Z.max 0 (j - h)) (Z.min (nX - 1) (j + h) + 1).
(** the slivers of a row *)
Definition by_slivers (i j : Z) (w : val) : Prop := exists rs, Forall2 (fun jj r => client_statistic E st q (present (column i jj)) r) (columns j) rs /\ client_statistic E st q (present rs) w.
Lemma sliver_row_ok i : 0 <= nX -> 0 <= i < nY -> exists row, sliver_row E st (Fin q) nY nX h input i = Ok row /\ zlen row = nX /\ forall j, 0 <= j < nX -> exists w, znth row j = Ok w /\
  (client_statistic E st q (present (around input h i j)) w \/ (h <= i < nY - h /\ by_slivers i j w)).
Proof.
  intros PX Hi. unfold sliver_row. destruct ((i <? h) || (nY - h <=? i)) eqn:EDGE.
  - destruct (mapM_total (around_stat E st (Fin q) nY nX h input i) (fun j w => client_statistic E st q (present (around input h i j)) w) (zrange 0 nX)) as (row & Er & L & N).
    { intros j Hj. apply in_zrange in Hj. apply around_stat_ok; lia. }
    exists row. split; [exact Er|]. rewrite zlen_zrange in L. split; [lia|]. intros j Hj. destruct (N j j) as (w & W1 & _ & W2); [apply znth_zrange; lia|]. eauto.
  - apply orb_false_iff in EDGE as [E1 E2].
    destruct (mapM_total (fun j => if 2 * h + 1 <? 0 then Abort else sliver <- mapM (fun ii => get2 input ii j) (zrange (i - h) (i + h + 1)) ;; calculate_stat E sliver st (Fin q))
      (fun j w => client_statistic E st q (present (column i j)) w) (zrange 0 nX)) as (sl & Es & L & N).
    { intros j Hj. apply in_zrange in Hj. replace (2 * h + 1 <? 0) with false by lia.
      rewrite (mapM_ok _ (fun ii => match get2 input ii j with Ok v => v | _ => NaN end)).
      - cbn [bind]. apply stat_spec. exact Hq.
      - intros ii Hii. apply in_zrange in Hii. destruct (rect_get2 nY nX input ii j R ltac:(lia) ltac:(lia)) as [v ->]. reflexivity. }
    rewrite Es. cbn [bind]. rewrite zlen_zrange in L.
    destruct (mapM_total (fun j => curr <- mapM (fun jj => znth sl jj) (zrange (Z.max 0 (j - h)) (Z.min (nX - 1) (j + h) + 1)) ;; calculate_stat E curr st (Fin q)) (fun j w => by_slivers i j w) (zrange 0 nX)) as (row & Er & L' & N').
    { intros j Hj. apply in_zrange in Hj.
      assert (G : forall l, (forall jj, In jj l -> 0 <= jj < nX) -> exists rs, mapM (fun jj => znth sl jj) l = Ok rs /\ Forall2 (fun jj r => client_statistic E st q (present (column i jj)) r) l rs).
      { induction l as [|jj l IH]; intros Hl; [exists []; split; [reflexivity|constructor]|]. cbn [mapM]. destruct (N jj jj) as (w & W1 & _ & W2); [rewrite znth_zrange by (specialize (Hl jj (or_introl eq_refl)); lia); f_equal; lia|].
        rewrite W1. cbn [bind]. destruct IH as (rs & -> & F); [intros; apply Hl; right; auto|]. cbn [bind]. exists (w :: rs). split; [reflexivity|]. constructor; auto. }
      destruct (G (columns j)) as (rs & Ers & F). { intros jj Hjj. apply in_zrange in Hjj. lia. }
      unfold columns in Ers. rewrite Ers. cbn [bind]. destruct (stat_spec E rs st q Hq) as (w & Ew & Sw). exists w. split; [exact Ew|]. exists rs. auto. }
    exists row. split; [exact Er|]. rewrite zlen_zrange in L'. split; [lia|]. intros j Hj. destruct (N' j j) as (w & W1 & _ & W2); [apply znth_zrange; lia|]. exists w. split; [exact W1|]. right. split; [lia|exact W2].
Qed.
Hypothesis (NM : num_missing input = 0).
Lemma no_missing_get i j v : get2 input i j = Ok v -> exists r, v = Fin r /\ r <> missing_number.
Proof.
  intros H. apply cvalid_true. unfold num_missing in NM. destruct (filter (fun v => negb (cvalid v)) (concat input)) as [|x l] eqn:F; [|rewrite zlen_cons in NM; pose proof (zlen_nonneg l); lia].
  unfold get2 in H. apply bind_Ok in H as (row & Hr & Hv). apply not_false_is_true. intros C. assert (In v []) as []. rewrite <- F. apply filter_In. split; [|rewrite C; reflexivity]. apply in_concat. exists row. split; eapply znth_In; eauto.
Qed.
Lemma present_in l r : In r (present l) <-> In (Fin r) l /\ r <> missing_number.
Proof. unfold present. rewrite filter_In, in_finites. destruct (Qc_eq_dec r missing_number); intuition congruence. Qed.
Lemma column_around i j : h <= i < nY - h -> 0 <= j < nX -> forall r, In r (present (around input h i j)) <-> exists jj, In jj (columns j) /\ In r (present (column i jj)).
Proof.
  intros Hi Hj r. rewrite present_in, in_around. split.
  - intros ((ii & jj & Hii & Hjj & G) & n). pose proof (ListLib.get2_range nY nX input ii jj _ R G) as [R1 R2]. exists jj. split; [apply in_zrange; lia|]. apply present_in. split; [|exact n].
    unfold column. apply in_map_iff. exists ii. rewrite G. split; [reflexivity|apply in_zrange; lia].
  - intros (jj & Hjj & H). apply in_zrange in Hjj. apply present_in in H as [H n]. split; [|exact n]. unfold column in H. apply in_map_iff in H as (ii & Ev & Hii). apply in_zrange in Hii. exists ii, jj. split; [lia|]. split; [lia|].
    destruct (get2 input ii jj); congruence.
Qed.
Lemma column_some i j : h <= i < nY - h -> 0 <= j < nX -> present (column i j) <> [].
Proof.
  intros Hi Hj K. destruct (rect_get2 nY nX input i j R ltac:(lia) Hj) as [v Hv]. destruct (no_missing_get _ _ _ Hv) as (r & -> & n).
  assert (In r []) as []. rewrite <- K. apply present_in. split; [|exact n]. unfold column. apply in_map_iff. exists i. rewrite Hv. split; [reflexivity|apply in_zrange; lia].
Qed.
Lemma around_some i j : 0 <= i < nY -> 0 <= j < nX -> present (around input h i j) <> [].
Proof.
  intros Hi Hj K. destruct (rect_get2 nY nX input i j R Hi Hj) as [v Hv]. destruct (no_missing_get _ _ _ Hv) as (r & -> & n).
  assert (In r []) as []. rewrite <- K. apply present_in. split; [|exact n]. apply in_around. exists i, j. repeat split; try lia. exact Hv.
Qed.
Lemma slivers_numbers i j rs : h <= i < nY - h -> 0 <= j < nX -> Forall2 (fun jj r => client_statistic E st q (present (column i jj)) r) (columns j) rs ->
  forall P : Qc -> Prop, (forall jj r, In jj (columns j) -> client_statistic E st q (present (column i jj)) (Fin r) -> P r) -> (forall v, In v rs -> exists r, v = Fin r /\ P r).
Proof.
  intros Hi Hj F P HP v Hv. assert (HC : forall jj, In jj (columns j) -> 0 <= jj < nX) by (intros jj K; apply in_zrange in K; lia). revert HC HP v Hv. induction F as [|jj w l ws Hw F IH]; intros HC HP v Hv; [destruct Hv|].
  destruct Hv as [<-|Hv]; [|apply IH; auto; intros; [apply HC|eapply HP]; eauto; right; auto].
  pose proof Hw as [_ K]. destruct K as (r & -> & _); [apply column_some; auto; apply HC; left; auto|]. exists r. split; [reflexivity|]. apply (HP jj); [left; reflexivity|exact Hw].
Qed.
Lemma Forall2_in_l {A B} (P : A -> B -> Prop) l m a : Forall2 P l m -> In a l -> exists b, In b m /\ P a b.
Proof. induction 1 as [|x y l m Hxy F IH]; intros K; [destruct K|]. destruct K as [<-|K]; [exists y; split; [left|]; auto|]. destruct (IH K) as (b & Hb & HP). exists b. split; [right|]; auto. Qed.
Lemma slivers_extreme i j w : is_extreme st = true -> h <= i < nY - h -> 0 <= j < nX -> by_slivers i j w -> client_statistic E st q (present (around input h i j)) w.
Proof.
  intros X Hi Hj (rs & F & [W0 W1]). split; [intros K; exfalso; apply (around_some i j) in K; auto; lia|]. intros _.
  assert (INr : forall r, In r (present rs) -> In r (present (around input h i j))).
  { intros r Hr. apply present_in in Hr as [Hr n]. destruct (slivers_numbers i j rs Hi Hj F (fun r => In r (present (around input h i j)))) with (v := Fin r) as (r' & [= <-] & K); auto.
    intros jj r0 Hjj [_ C]. destruct C as (r1 & [= <-] & C); [apply column_some; auto; apply in_zrange in Hjj; lia|]. apply column_around; auto. exists jj. split; [exact Hjj|]. destruct st; try discriminate; destruct C; auto. }
  assert (LOW : forall x, In x (present (around input h i j)) -> exists r, In r (present rs) /\ match st with CMin => (r <= x)%Qc | _ => (x <= r)%Qc end).
  { intros x Hx. apply column_around in Hx as (jj & Hjj & Hx); auto. destruct (Forall2_in_l _ _ _ _ F Hjj) as (v & Hv & [_ C]). destruct C as (r & -> & C); [intros K; rewrite K in Hx; destruct Hx|].
    exists r. split.
    - apply present_in. split; [exact Hv|]. assert (K : In r (present (column i jj))) by (destruct st; try discriminate; destruct C; auto). apply present_in in K. tauto.
    - destruct st; try discriminate; destruct C as [_ C]; auto. }
  destruct W1 as (r & -> & W1).
  { intros K. destruct (present (around input h i j)) as [|x l] eqn:A; [apply (around_some i j) in A; auto; lia|]. destruct (LOW x (or_introl eq_refl)) as (r & Hr & _). rewrite K in Hr. destruct Hr. }
  exists r. split; [reflexivity|]. destruct st; try discriminate; destruct W1 as [W1 W2]; split; auto; intros x Hx; destruct (LOW x Hx) as (r1 & Hr1 & L); pose proof (W2 r1 Hr1); eapply Qcle_trans; eauto.
Qed.
Lemma level_between l w lo hi : takes_levels st -> l <> [] -> (forall x, In x l -> lo <= x <= hi)%Qc -> client_statistic E st q l w -> exists r, w = Fin r /\ (lo <= r <= hi)%Qc.
Proof.
  intros T N B [_ C]. destruct (C N) as (r & -> & C'). exists r. split; [reflexivity|]. destruct (min_exists l N) as (a & Ha). destruct (max_exists l N) as (b & Hb).
  assert (a <= r <= b)%Qc as [K1 K2]. { destruct T as [->| ->]; eapply is_quantile_between; eauto. exact half_unit. }
  destruct Ha as [Ha _], Hb as [Hb _]. apply B in Ha, Hb. split; eapply Qcle_trans; eauto; tauto.
Qed.
Lemma slivers_level i j w lo hi : takes_levels st -> h <= i < nY - h -> 0 <= j < nX -> (forall x, In x (present (around input h i j)) -> lo <= x <= hi)%Qc -> by_slivers i j w -> exists r, w = Fin r /\ (lo <= r <= hi)%Qc.
Proof.
  intros T Hi Hj B (rs & F & W).
  assert (BR : forall v, In v rs -> exists r, v = Fin r /\ (lo <= r <= hi)%Qc).
  { apply (slivers_numbers i j rs Hi Hj F). intros jj r Hjj C. assert (0 <= jj < nX) by (apply in_zrange in Hjj; lia). destruct (level_between (present (column i jj)) (Fin r) lo hi T (column_some i jj Hi H)) as (r' & [= <-] & K); auto.
    intros x Hx. apply B. apply column_around; auto. eauto. }
  destruct (list_eq_dec Qc_eq_dec (present rs) []) as [N|N].
  - destruct W as [W _]. rewrite (W N). exists missing_number. split; [reflexivity|]. assert (In j (columns j)) as Hc by (apply in_zrange; lia).
    destruct (Forall2_in_l _ _ _ _ F Hc) as (v & Hv & _). destruct (BR v Hv) as (r & -> & K). destruct (Qc_eq_dec r missing_number) as [<-|n]; [exact K|]. assert (In r []) as []. rewrite <- N. apply present_in. auto.
  - apply (level_between (present rs) w); auto. intros x Hx. apply present_in in Hx as [Hx _]. destruct (BR _ Hx) as (r & [= <-] & K). exact K.
Qed.
End Member.
Section Field.
Variables (E : ext) (fast approx : bool) (st : cstat) (q : Qc) (d : dims) (h : Z) (raw : field).
Hypotheses (Hq : (st = CQuantile -> 0 <= q <= 1)%Qc) (SZ : of_size d raw) (Hy : 0 <= d_y d) (Hx : 0 <= d_x d) (He : 0 <= d_e d) (Hh : 0 <= h).
Definition cell_spec (g : vec2) (y x : Z) (w : val) : Prop :=
  let l := present (around g h y x) in
  (approx = false \/ ~ takes_levels st -> filtered_value E st q l w) /\
  (takes_levels st -> l <> [] -> exists r lo hi, w = Fin r /\ is_min l lo /\ is_max l hi /\ (lo <= r <= hi)%Qc).
Definition done_spec (f : field) (e : Z) : Prop := exists g, rect (d_y d) (d_x d) g /\ (forall y x v, get2 g y x = Ok v -> f_get raw y x e = Ok v) /\
  forall y x, 0 <= y < d_y d -> 0 <= x < d_x d -> exists w, f_get f y x e = Ok w /\ cell_spec g y x w.
Lemma exact_spec g y x w : client_statistic E st q (present (around g h y x)) w -> cell_spec g y x w.
Proof.
  intros C. split.
  - intros _. split; [|auto]. intros N. destruct C as [C _]. rewrite (C N). reflexivity.
  - intros T N. destruct (min_exists _ N) as (lo & Hlo). destruct (max_exists _ N) as (hi & Hhi). destruct (level_between E st q Hq _ w lo hi T N) as (r & -> & B); auto.
    + intros z Hz. split; [apply Hlo; auto|apply Hhi; auto].
    + exists r, lo, hi. auto.
Qed.
Lemma sum_exact g vs cs i j o : rect (d_y d) (d_x d) g -> 0 <= i < d_y d -> 0 <= j < d_x d -> is_sum st = true -> sat_inv (map (map clean) g) (d_y d) (d_x d) (d_y d) 0 (vs, cs) -> csat_cell vs cs (d_y d) (d_x d) h st i j = Ok o ->
  match o with
  | Some w => cell_spec g i j w
  | None => present (around g h i j) = []
  end.
Proof.
  intros R Hi Hj S SI Ho. assert (HS : st = CMean \/ st = CSum) by (destruct st; try discriminate; auto).
  pose proof (csat_cell_sat vs cs (d_y d) (d_x d) h st i j HS) as K. rewrite Ho in K. cbn [bind] in K.
  rewrite (sat_cell_spec _ _ _ (rect_map _ _ _ clean R) E) in K by (auto; destruct HS as [->| ->]; auto). rewrite around_map in K.
  assert (NL : ~ takes_levels st) by (unfold takes_levels; destruct HS as [->| ->]; intuition discriminate).
  assert (V : exists v, calc_statistic E (map clean (around g h i j)) (match st with CMean => Mean | _ => Sum end) = Ok v /\
    (present (around g h i j) = [] -> v = MV) /\ (present (around g h i j) <> [] -> client_statistic E st q (present (around g h i j)) v)).
  { destruct HS as [->| ->]; [rewrite calc_mean|rewrite calc_sum]; rewrite finites_clean; destruct (present (around g h i j)) as [|z l] eqn:P; eexists; (split; [reflexivity|]); (split; [intros; try discriminate; reflexivity|]); intros N; try congruence; (split; [discriminate|]); intros _; eexists; split; reflexivity. }
  destruct V as (v & Ev & V0 & V1). rewrite Ev in K. injection K as K. destruct o as [w|].
  - subst v. split; [|intros T; contradiction]. intros _. split; auto. intros N. rewrite (V0 N). exact I.
  - subst v. destruct (list_eq_dec Qc_eq_dec (present (around g h i j)) []) as [N|N]; auto. destruct (V1 N) as [_ C]. destruct (C N) as (r & K & _). discriminate.
Qed.
Lemma around_self g y x v : get2 g y x = Ok v -> present (around g h y x) = [] -> missing v.
Proof.
  intros G N. apply cvalid_missing. apply not_true_is_false. intros C. apply cvalid_true in C as (r & -> & n). assert (In r []) as []. rewrite <- N. apply present_in. split; [|exact n]. apply in_around. exists y, x. repeat split; try lia. exact G.
Qed.
Definition member_step (out : field) (e : Z) : res field :=
    input <- plane d raw e ;;
    if fast && is_sum st then sum_member (d_y d) (d_x d) h st d input e out
    else
      values <- (if (num_missing input =? 0) && (fast && is_extreme st || approx && is_level st) then mapM (sliver_row E st (Fin q) (d_y d) (d_x d) h input) (zrange 0 (d_y d))
                 else mapM (fun i => mapM (around_stat E st (Fin q) (d_y d) (d_x d) h input i) (zrange 0 (d_x d))) (zrange 0 (d_y d))) ;;
      for_plane d out e (fun f i j e => v <- get2 values i j ;; f_set f i j e v).
Lemma member_ok out e : of_size d out -> 0 <= e < d_e d -> (forall y x, within d y x e -> f_get out y x e = f_get raw y x e) ->
  exists g, member_step out e = Ok g /\ of_size d g /\ done_spec g e /\ forall y x e', within d y x e' -> e' <> e -> f_get g y x e' = f_get out y x e'.
Proof.
  intros SO He' HO. unfold member_step. destruct (plane_ok d e raw SZ Hy Hx He') as (g & Eg & Rg & Gg). rewrite Eg. cbn [bind].
  assert (GR : forall y x v, get2 g y x = Ok v -> f_get raw y x e = Ok v). { intros y x v G. destruct (ListLib.get2_range _ _ _ _ _ _ Rg G). rewrite <- Gg; auto. }
  destruct (fast && is_sum st) eqn:FS.
  - apply andb_true_iff in FS as [_ FS]. unfold sum_member. rewrite csat_clean by auto. destruct (sat_ok _ _ _ (rect_map _ _ _ clean Rg) Hy Hx) as (vs & cs & Es & SI). rewrite Es. cbn [bind].
    destruct (for_plane_ok d e out (fun y x e' w => e' = e -> cell_spec g y x w) (fun f i j e => r <- csat_cell vs cs (d_y d) (d_x d) h st i j ;; match r with Some v => f_set f i j e v | None => Ok f end) SO He') as (f & Ef & Sf & Pf & Of).
    { intros f y x e' v Sf W G1 G2. destruct W as (W1 & W2 & W3).
      assert (exists o, csat_cell vs cs (d_y d) (d_x d) h st y x = Ok o) as (o & Eo).
      { assert (HS : st = CMean \/ st = CSum) by (destruct st; try discriminate; auto). pose proof (csat_cell_sat vs cs (d_y d) (d_x d) h st y x HS) as K.
        rewrite (sat_cell_spec _ _ _ (rect_map _ _ _ clean Rg) E) in K by (auto; destruct HS as [->| ->]; auto).
        destruct (csat_cell vs cs (d_y d) (d_x d) h st y x) as [o| | |]; [eauto| | |]; cbn [bind] in K; destruct HS as [->| ->]; rewrite ?calc_mean, ?calc_sum in K; destruct (finites _); discriminate. }
      rewrite Eo. cbn [bind]. pose proof (sum_exact g vs cs y x o Rg W1 W2 FS SI Eo) as K. destruct o as [w|]; [left; exists w; auto|]. right. split; [reflexivity|]. intros ->.
      rewrite HO in G1 by (repeat split; lia). assert (G : get2 g y x = Ok v) by (rewrite Gg; auto). split.
      - intros _. split; [intros _; apply (around_self g y x); auto|contradiction].
      - intros _ N. contradiction. }
    exists f. split; [exact Ef|]. split; [exact Sf|]. split; [|exact Of]. exists g. split; [exact Rg|]. split; [exact GR|]. intros y x Hy' Hx'. destruct (Pf y x) as (w & W1 & W2); [repeat split; lia|]. eauto.
  - match goal with |- context [bind ?b _] => assert (V : exists values, b = Ok values /\ rect (d_y d) (d_x d) values /\ forall y x, 0 <= y < d_y d -> 0 <= x < d_x d -> exists w, get2 values y x = Ok w /\ cell_spec g y x w) end.
    { destruct ((num_missing g =? 0) && (fast && is_extreme st || approx && is_level st)) eqn:SL.
      - apply andb_true_iff in SL as [NM SL]. assert (NM' : num_missing g = 0) by lia.
        destruct (mapM_total (sliver_row E st (Fin q) (d_y d) (d_x d) h g) (fun i row => zlen row = d_x d /\ forall j, 0 <= j < d_x d -> exists w, znth row j = Ok w /\ cell_spec g i j w) (zrange 0 (d_y d))) as (vals & Ev & L & N).
        { intros i Hi. apply in_zrange in Hi. destruct (sliver_row_ok E st q (d_y d) (d_x d) h g Hq Rg Hh i Hx ltac:(lia)) as (row & Er & Lr & Nr). exists row. split; [exact Er|]. split; [exact Lr|].
          intros j Hj. destruct (Nr j Hj) as (w & W1 & W2). exists w. split; [exact W1|]. destruct W2 as [W2|[Hi' W2]]; [apply exact_spec; exact W2|].
          pose proof (around_some (d_y d) (d_x d) h g Rg Hh NM' i j ltac:(lia) Hj) as NE.
          destruct (is_extreme st) eqn:X.
          - apply exact_spec. eapply slivers_extreme; eauto.
          - rewrite andb_false_r in SL. cbn [orb] in SL. apply andb_true_iff in SL as [AP SL]. assert (T : takes_levels st) by (unfold takes_levels; destruct st; try discriminate; auto). split; [intros [K|K]; [rewrite AP in K; discriminate|contradiction]|]. intros _ _.
            destruct (min_exists _ NE) as (lo & Hlo). destruct (max_exists _ NE) as (hi & Hhi). destruct (slivers_level E st q (d_y d) (d_x d) h g Hq Rg Hh NM' i j w lo hi T Hi' Hj) as (r & -> & B); auto.
            + intros z Hz. split; [apply Hlo; auto|apply Hhi; auto].
            + exists r, lo, hi. auto. }
        rewrite zlen_zrange in L. assert (N' : forall i, 0 <= i < d_y d -> exists row, znth vals i = Ok row /\ zlen row = d_x d /\ forall j, 0 <= j < d_x d -> exists w, znth row j = Ok w /\ cell_spec g i j w).
        { intros i Hi. destruct (N i i) as (row & R1 & _ & R2); [apply znth_zrange; lia|]. eauto. }
        exists vals. split; [exact Ev|]. split.
        + split; [lia|]. intros r Hr. apply In_znth in Hr as [i Hi]. pose proof (znth_range _ _ _ Hi). destruct (N' i) as (r' & R1 & R2 & _); [lia|]. congruence.
        + intros y x Hy' Hx'. destruct (N' y Hy') as (row & R1 & R2 & R3). destruct (R3 x Hx') as (w & W1 & W2). exists w. split; [unfold get2; rewrite R1; exact W1|exact W2].
      - destruct (map2_ok (d_y d) (d_x d) (around_stat E st (Fin q) (d_y d) (d_x d) h g) (fun i j w => cell_spec g i j w)) as (vals & Ev & R & N); auto.
        + intros i j Hi Hj. destruct (around_stat_ok E st q (d_y d) (d_x d) h g Hq Rg Hh i j Hi Hj) as (w & W1 & W2). exists w. split; [exact W1|]. apply exact_spec. exact W2.
        + exists vals. split; [exact Ev|]. split; [exact R|]. intros y x Hy' Hx'. destruct (N y x Hy' Hx') as (w & W1 & _ & W2). eauto. }
    destruct V as (vals & Ev & Rv & Nv). rewrite Ev. cbn [bind].
    destruct (for_plane_ok d e out (fun y x e' w => cell_spec g y x w) (fun f i j e => v <- get2 vals i j ;; f_set f i j e v) SO He') as (f & Ef & Sf & Pf & Of).
    { intros f y x e' v Sf (W1 & W2 & W3) _ _. left. destruct (Nv y x W1 W2) as (w & -> & K). cbn [bind]. eauto. }
    exists f. split; [exact Ef|]. split; [exact Sf|]. split; [|exact Of]. exists g. split; [exact Rg|]. split; [exact GR|]. intros y x Hy' Hx'. destruct (Pf y x) as (w & W1 & W2); [repeat split; lia|]. eauto.
Qed.
Lemma field_ok' : exists g, neighbourhood_field E fast approx st (Fin q) h d raw = Ok g /\ of_size d g /\ forall e, 0 <= e < d_e d -> done_spec g e.
Proof.
  unfold neighbourhood_field. cbv zeta. fold member_step.
  destruct (foldM_range member_step (fun k f => of_size d f /\ (forall e, 0 <= e < k -> done_spec f e) /\ forall y x e, within d y x e -> k <= e -> f_get f y x e = f_get raw y x e) 0 (d_e d) raw) as (g & Eg & Sg & Dg & _); auto.
  - split; [exact SZ|]. split; [intros; lia|auto].
  - intros k f Hk (Sf & Df & Of). destruct (member_ok f k Sf Hk) as (g & Eg & Sg & Dg & Og). { intros y x W. apply Of; [exact W|lia]. }
    exists g. split; [exact Eg|]. split; [exact Sg|]. split.
    + intros e Hke. destruct (Z.eq_dec e k) as [->|n]; [exact Dg|]. destruct (Df e ltac:(lia)) as (m & M1 & M2 & M3). exists m. split; [exact M1|]. split; [exact M2|]. intros y x Hy' Hx'. rewrite Og; [apply M3; auto|repeat split; lia|auto].
    + intros y x e W L. rewrite Og; [apply Of; [exact W|lia]|exact W|lia].
  - exists g. auto.
Qed.
End Field.
Lemma ztrunc_is (v : Qc) r : (0 <= v)%Qc -> (qz r <= v < qz (r + 1))%Qc -> ztrunc v = r.
Proof. intros H0 [H1 H2]. rewrite ztrunc_floor by auto. apply qfloor_unique. rewrite qz_add in H2. change (qz 1) with 1%Qc in H2. split; qlra. Qed.
Lemma c172 E fast approx st (q : Qc) radius pars r d fs : (st = CQuantile -> 0 <= q <= 1)%Qc -> 0 <= radius -> shaped d fs -> (forall t, 0 <= t < d_t d -> radius_for radius pars t (r t) /\ 0 <= r t) ->
  exists out, neighbourhood_calibrator E fast approx st (Fin q) radius pars d fs = Ok out /\ shaped d out /\
  forall t e, 0 <= t < d_t d -> 0 <= e < d_e d -> exists g, member_grid d fs t e g /\
    forall y x, 0 <= y < d_y d -> 0 <= x < d_x d -> exists w, element out t y x e w /\
      (approx = false \/ ~ takes_levels st -> filtered_value E st q (present (around g (r t) y x)) w) /\
      (takes_levels st -> present (around g (r t) y x) <> [] -> exists v lo hi, w = Fin v /\ is_min (present (around g (r t) y x)) lo /\ is_max (present (around g (r t) y x)) hi /\ (lo <= v <= hi)%Qc).
Proof.
  intros Hq Hr SH HR. unfold neighbourhood_calibrator. replace (radius <? 0) with false by lia.
  assert ((match st with CQuantile => negb (cvalid (Fin q)) || vltb (Fin q) (fz 0) || vltb (fz 1) (Fin q) | _ => false end) = false) as ->.
  { destruct st; auto. specialize (Hq eq_refl). rewrite cvalid_Fin. 2:{ intros ->. destruct Hq as [Hq _]. vm_compute in Hq. congruence. }
    cbn [negb orb vltb fz]. destruct (qltb_spec q (qz 0)); [change (qz 0) with 0%Qc in *; qlra|]. destruct (qltb_spec (qz 1) q); [change (qz 1) with 1%Qc in *; qlra|reflexivity]. }
  pose proof SH as (T0 & Y0 & X0 & E0 & _).
  match goal with |- context [each_time d ?b] => destruct (each_time_ok d fs b (fun t g => forall f, znth fs t = Ok f -> forall e, 0 <= e < d_e d -> done_spec E approx st q d (r t) f g e) SH) as (out & Eo & So & Po) end.
  { intros t Ht. destruct (shaped_nth d fs t SH Ht) as (f & Ef & Sf). rewrite Ef. cbn [bind]. destruct (HR t Ht) as [HR1 HR2].
    assert ((match pars with None => Ok radius | Some (ld, p) => if ld : bool then Abort else v <- par_get (p t) 0 ;; to_int v end) = Ok (r t)) as ->.
    { unfold radius_for in HR1. destruct pars as [[ld p]|]; [|congruence]. destruct HR1 as (-> & v & Ev & V1 & V2). unfold par_get. rewrite Ev. cbn [bind to_int]. rewrite (ztrunc_is v (r t)); auto. }
    cbn [bind]. destruct (field_ok' E fast approx st q d (r t) f Hq Sf Y0 X0 E0 HR2) as (g & Eg & Sg & Dg). exists g. split; [exact Eg|]. split; [exact Sg|]. intros f' [= <-]. exact Dg. }
  exists out. split; [exact Eo|]. split; [exact So|]. intros t e Ht Hte. destruct (Po t Ht) as (g & Eg & Dg). destruct (shaped_nth d fs t SH Ht) as (f & Ef & Sf). destruct (Dg f Ef e Hte) as (m & M1 & M2 & M3).
  exists m. split. { split; [exact M1|]. intros y x v G. exists f. split; auto. }
  intros y x Hy Hx. destruct (M3 y x Hy Hx) as (w & W1 & W2 & W3). exists w. split; [exists g; auto|]. split; auto.
Qed.

(** a negative radius in a parameter file *)
Lemma c172_refuted : exists E p d fs, shaped d fs /\ (forall t, p t = [fz (-1)]) /\ neighbourhood_calibrator E true false CMean (fz 0) 3 (Some (false, p)) d fs = UB.
Proof.
  exists E0, (fun _ => [fz (-1)]), (dims1 1), [field1 (fz 5)]. split; [|split; [reflexivity|vm_compute; reflexivity]].
  repeat split; try (cbn; lia). constructor; [|constructor]. repeat split; cbn; lia.
Qed.
Lemma c172_refused E fast approx st quantile radius pars d fs : 
  (radius < 0 \/ (st = CQuantile /\ forall q, (0 <= q <= 1)%Qc -> quantile <> Fin q) -> neighbourhood_calibrator E fast approx st quantile radius pars d fs = Abort) /\
  (forall p, pars = Some (true, p) -> 0 < d_t d -> shaped d fs -> neighbourhood_calibrator E fast approx st quantile radius pars d fs = Abort).
Proof.
  unfold neighbourhood_calibrator. split.
  - intros H. destruct (Z.ltb_spec radius 0); [reflexivity|]. destruct H as [H|[-> H]]; [lia|].
    destruct (negb (cvalid quantile) || vltb quantile (fz 0) || vltb (fz 1) quantile) eqn:C; [reflexivity|]. exfalso. apply orb_false_iff in C as [C C3]. apply orb_false_iff in C as [C1 C2]. apply negb_false_iff in C1. apply cvalid_true in C1 as (q & -> & _).
    cbn [vltb fz] in C2, C3. destruct (qltb_spec q (qz 0)); [discriminate|]. destruct (qltb_spec (qz 1) q); [discriminate|]. apply (H q); [|reflexivity]. change (qz 0) with 0%Qc in *. change (qz 1) with 1%Qc in *. split; qlra.
  - intros p -> Ht SH. destruct (radius <? 0); [reflexivity|]. match goal with |- (if ?b then _ else _) = _ => destruct b; [reflexivity|] end.
    unfold each_time. rewrite zrange_cons by lia. cbn [mapM]. destruct (shaped_nth d fs 0 SH ltac:(lia)) as (f & -> & _). reflexivity.
Qed.
