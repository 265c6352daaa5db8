(** Safety of the client's bilinear downscaler, its failures, and downscaling onto the same grid. *)
From Coq Require Import Lia.
From Verif Require Import Base ListLib QcTac M_Stat S_Stat M_COpt M_CUtil S_CUtil P_CUtil M_CCal S_CCal P_CCal M_CTree M_CDown P_CDown S_Bilin P_Bilin P_Stat M_CBilin S_CBilin P_CBilin P_CDistEx.
Local Open Scope Z_scope.

(** Ok or Abort *)
Definition safe {A} (r : res A) : Prop := (exists a, r = Ok a) \/ r = Abort.
Lemma safe_bind {A B} (r : res A) (k : A -> res B) : safe r -> (forall a, r = Ok a -> safe (k a)) -> safe (bind r k).
Proof. intros [[a ->]| ->] H; [cbn; auto|right; reflexivity]. Qed.
Lemma safe_ok {A} (a : A) : safe (Ok a).
Proof. left. eauto. Qed.
Lemma safe_assert b : safe (assert_ b).
Proof. destruct b; [left; exists tt|right]; reflexivity. Qed.
Lemma safe_if {A} (b : bool) (r s : res A) : safe r -> safe s -> safe (if b then r else s).
Proof. destruct b; auto. Qed.
Lemma safe_st E x y x0 x1 x2 x3 y0 y1 y2 y3 : safe (calc_st E x y x0 x1 x2 x3 y0 y1 y2 y3).
Proof.
  unfold calc_st. apply safe_if.
  - unfold client_parallelogram. apply safe_bind; [apply safe_assert|]. intros. apply safe_ok.
  - unfold client_general. apply safe_bind.
    + apply safe_if; [apply safe_ok|]. apply safe_if.
      * apply safe_bind; [|intros; apply safe_ok]. apply safe_if; [|apply safe_ok]. apply safe_bind; [apply safe_assert|intros; apply safe_ok].
      * apply safe_if; [|apply safe_ok]. apply safe_bind; [|intros; apply safe_ok]. apply safe_if; [|apply safe_ok]. apply safe_bind; [apply safe_assert|intros; apply safe_ok].
    + intros [alpha beta] _. apply safe_ok.
Qed.
Lemma corners_ok ny nx (a : list vec) i j : rect ny nx a -> 0 <= i -> i + 1 < ny -> 0 <= j -> j + 1 < nx -> exists c, box_corners a i j (i + 1) (j + 1) = Ok c.
Proof.
  intros R H1 H2 H3 H4. unfold box_corners. assert (Q1 : 0 <= i < ny) by lia. assert (Q2 : 0 <= i + 1 < ny) by lia. assert (Q3 : 0 <= j < nx) by lia. assert (Q4 : 0 <= j + 1 < nx) by lia.
  destruct (rect_get2 _ _ _ _ _ R Q1 Q3) as [? ->]. destruct (rect_get2 _ _ _ _ _ R Q2 Q3) as [? ->]. destruct (rect_get2 _ _ _ _ _ R Q1 Q4) as [? ->]. destruct (rect_get2 _ _ _ _ _ R Q2 Q4) as [? ->]. cbn [bind]. eauto.
Qed.
Lemma safe_box E ny nx lat lon lats lons i j : rect ny nx lats -> rect ny nx lons -> 0 <= i -> i + 1 < ny -> 0 <= j -> j + 1 < nx -> safe (box_st E lat lon lats lons i j (i + 1) (j + 1)).
Proof.
  intros RL RO H1 H2 H3 H4. unfold box_st. destruct (corners_ok _ _ _ _ _ RO H1 H2 H3 H4) as ([[[x0 x1] x2] x3] & ->). destruct (corners_ok _ _ _ _ _ RL H1 H2 H3 H4) as ([[[y0 y1] y2] y3] & ->). cbn [bind]. apply safe_st.
Qed.
Lemma pair_form k a b : get_pair (Ok tt) k a b = Ok (let m := if Bool.eqb a b then k else k - 1 in (m, m + 1)).
Proof. unfold get_pair. cbn [bind]. destruct (Bool.eqb a b); [reflexivity|]. cbv zeta. replace (k - 1 + 1) with k by lia. reflexivity. Qed.
Section Safe.
Context (E : ext) (ny nx : Z) (lats lons : list vec) (RL : rect ny nx lats) (RO : rect ny nx lons) (Ny : 2 <= ny) (Nx : 2 <= nx) (DL : distinct_steps lats 1 0) (UP : rising_rows lons).
Lemma up_less I j : 0 <= I < ny -> 0 <= j -> j + 1 < nx -> when_less true lons I j I (j + 1) = Ok true.
Proof.
  intros HI H1 H2. unfold when_less. destruct (rect_get2 ny nx lons I j) as [u Hu]; auto; try lia. destruct (rect_get2 ny nx lons I (j + 1)) as [v Hv]; auto; try lia. rewrite Hu, Hv. cbn [bind].
  destruct (UP _ _ _ _ Hu Hv) as (p & q & -> & -> & L). cbn [vltb]. f_equal. apply qltb_true. auto.
Qed.
Lemma edge_ok I J ab rt : 0 <= I < ny -> 0 <= J < nx -> exists b, beyond_edge lats lons I J ny nx ab rt = Ok b.
Proof.
  intros HI HJ. unfold beyond_edge.
  assert (GL : forall c i k, (c = true -> 0 <= i < ny /\ 0 <= k < ny) -> exists b, when_less c lats i J k J = Ok b).
  { intros c i k H. apply wl_ok. intros e. destruct (H e) as [H1 H2]. destruct (rect_get2 _ _ _ _ _ RL H1 HJ) as [u ->]. destruct (rect_get2 _ _ _ _ _ RL H2 HJ) as [v ->]. eauto. }
  assert (GO : forall c i k, (c = true -> 0 <= i < nx /\ 0 <= k < nx) -> exists b, when_less c lons I i I k = Ok b).
  { intros c i k H. apply wl_ok. intros e. destruct (H e) as [H1 H2]. destruct (rect_get2 _ _ _ _ _ RO HI H1) as [u ->]. destruct (rect_get2 _ _ _ _ _ RO HI H2) as [v ->]. eauto. }
  assert (ST : forall r k, (exists b, r = Ok b) -> (exists b, k = Ok b) -> exists b, orr r k = Ok b) by (intros r k [[] ->] [b ->]; cbn; eauto).
  apply ST; [apply GL; intros c; cond; lia|]. apply ST; [apply GL; intros c; cond; lia|]. apply ST; [apply GL; intros c; cond; lia|]. apply ST; [apply GL; intros c; cond; lia|].
  apply ST; [apply GO; intros c; cond; lia|].
  destruct (negb rt && (J =? 0))%bool eqn:C.
  - cond. subst J. pose proof (up_less I 0 HI ltac:(lia) ltac:(lia)) as X. change (0 + 1) with 1 in X. rewrite X. exists true. reflexivity.
  - cbn [when_less]. rewrite orr_false. apply ST; [apply GO; intros c; cond; lia|]. apply GO. intros c. destruct (Z.eq_dec J 0); [|lia]. subst J. exfalso. destruct rt; discriminate.
Qed.
Lemma edge_tests I J ab rt : beyond_edge lats lons I J ny nx ab rt = Ok false ->
  when_less (ab && (I =? ny - 1)) lats (I - 1) J I J = Ok false /\ when_less (negb ab && (I =? 0)) lats 0 J 1 J = Ok false /\ when_less (ab && (I =? 0)) lats 1 J 0 J = Ok false /\
  when_less (negb ab && (I =? ny - 1)) lats I J (I - 1) J = Ok false /\ when_less (rt && (J =? nx - 1)) lons I (J - 1) I J = Ok false /\ when_less (negb rt && (J =? 0)) lons I 0 I 1 = Ok false.
Proof.
  unfold beyond_edge. intros H. apply orr_inv in H as [? H]. apply orr_inv in H as [? H]. apply orr_inv in H as [? H]. apply orr_inv in H as [? H]. apply orr_inv in H as [? H]. apply orr_inv in H as [? H]. auto 8.
Qed.
Lemma less_flip a i j k l : when_less true a i j k l = Ok false -> (exists u v, get2 a i j = Ok (Fin u) /\ get2 a k l = Ok (Fin v) /\ u <> v) -> when_less true a k l i j = Ok true.
Proof.
  intros H (u & v & Hu & Hv & N). unfold when_less in *. rewrite Hu, Hv in *. cbn [bind vltb] in *. injection H as H. apply qltb_false in H. f_equal. apply qltb_true. apply Qcnot_le_lt. intros h. apply N. apply Qcle_antisym; auto.
Qed.
Lemma column_values i J : 0 <= i -> i + 1 < ny -> 0 <= J < nx -> exists u v, get2 lats i J = Ok (Fin u) /\ get2 lats (i + 1) J = Ok (Fin v) /\ u <> v.
Proof.
  intros H1 H2 HJ. destruct (rect_get2 ny nx lats i J) as [u Hu]; auto; try lia. destruct (rect_get2 ny nx lats (i + 1) J) as [v Hv]; auto; try lia.
  destruct (DL i J u v Hu) as (p & q & -> & -> & N); [replace (J + 0) with J by lia; auto|]. eauto.
Qed.
(** the two rows are within the grid *)
Lemma rows_within I J ab ab' rt rt' inc : 0 <= I < ny -> 0 <= J < nx -> beyond_edge lats lons I J ny nx ab rt = Ok false -> beyond_edge lats lons I J ny nx ab' rt' = Ok false ->
  (if I =? 0 then Ok true else when_less true lats (I - 1) J I J) = Ok inc -> ab' = ab \/ ab' = negb ab -> let m := if Bool.eqb ab inc then I else I - 1 in 0 <= m -> m + 1 < ny ->
  let m' := if Bool.eqb ab' inc then I else I - 1 in 0 <= m' /\ m' + 1 < ny.
Proof.
  intros HI HJ B B' Ei A m M1 M2. apply edge_tests in B as (T1 & T2 & T3 & T4 & _), B' as (T1' & T2' & T3' & T4' & _).
  destruct A as [-> | ->]; [subst m; auto|]. intros m'. subst m m'.
  destruct (Z.eqb_spec I 0) as [-> |N0].
  - injection Ei as <-. destruct ab; cbn [negb Bool.eqb] in *; [|lia]. exfalso. cbn [andb Z.eqb] in T2', T3.
    destruct (column_values 0 J) as (u & v & Hu & Hv & N); [lia|lia|auto|]. assert (X : when_less true lats 0 J 1 J = Ok true). { apply less_flip; auto. exists v, u. auto. }
    rewrite X in T2'. discriminate.
  - destruct (Z.eqb_spec I (ny - 1)) as [-> |N1]; [|destruct ab, inc; cbn [negb Bool.eqb] in *; lia].
    rewrite !andb_true_r in *. destruct ab, inc; cbn [negb Bool.eqb] in *; try lia; exfalso.
    + destruct (column_values (ny - 1 - 1) J) as (u & v & Hu & Hv & N); [lia|lia|auto|]. replace (ny - 1 - 1 + 1) with (ny - 1) in Hv by lia.
      assert (X : when_less true lats (ny - 1) J (ny - 1 - 1) J = Ok true) by (apply less_flip; eauto). rewrite X in T4'. discriminate.
    + rewrite Ei in T1'. discriminate.
Qed.
Lemma columns_within I J ab rt : 0 <= I < ny -> 0 <= J < nx -> beyond_edge lats lons I J ny nx ab rt = Ok false -> let m := if Bool.eqb rt true then J else J - 1 in 0 <= m /\ m + 1 < nx.
Proof.
  intros HI HJ B. apply edge_tests in B as (_ & _ & _ & _ & T5 & T6). cbv zeta. destruct rt; cbn [Bool.eqb negb andb] in *.
  - destruct (Z.eqb_spec J (nx - 1)) as [-> |N]; [|lia]. pose proof (up_less I (nx - 1 - 1) HI ltac:(lia) ltac:(lia)) as X. replace (nx - 1 - 1 + 1) with (nx - 1) in X by lia. rewrite X in T5. discriminate.
  - destruct (Z.eqb_spec J 0) as [-> |N]; [|lia]. pose proof (up_less I 0 HI ltac:(lia) ltac:(lia)) as X. change (0 + 1) with 1 in X. change (0 =? 0) with true in T6. rewrite X in T6. discriminate.
Qed.
Lemma find_safe lat lon I J : 0 <= I < ny -> 0 <= J < nx -> safe (find_coords E (Ok tt) lat lon lats lons I J).
Proof.
  intros HI HJ. unfold find_coords. destruct (rect_get2 _ _ _ _ _ RO HI HJ) as [lo Elo]. destruct (rect_get2 _ _ _ _ _ RL HI HJ) as [la Ela]. rewrite Elo, Ela. cbn [bind].
  destruct (znth_some lats 0) as [row E0]. { destruct RL as [-> _]. lia. }
  rewrite E0. cbn [bind]. rewrite (proj2 RL row), (proj1 RL) by (eapply znth_In; eauto).
  apply safe_bind; [apply safe_assert|]. intros [] _. apply safe_bind; [apply safe_assert|]. intros [] _.
  set (ab := vltb la lat). set (rt := vltb lo lon). destruct (edge_ok I J ab rt HI HJ) as ([] & B); rewrite B; cbn [bind]; [apply safe_ok|].
  assert (EI : exists inc, (if I =? 0 then Ok true else u <- get2 lats (I - 1) J ;; Ok (vltb u la)) = Ok inc /\ (if I =? 0 then Ok true else when_less true lats (I - 1) J I J) = Ok inc).
  { destruct (Z.eqb_spec I 0); [eauto|]. unfold when_less. destruct (rect_get2 ny nx lats (I - 1) J) as [u Hu]; auto; try lia. rewrite Hu, Ela. cbn [bind]. eauto. }
  destruct EI as (inc & -> & Einc). cbn [bind].
  assert (EJ : (if J =? 0 then Ok true else u <- get2 lons I (J - 1) ;; Ok (vltb u lo)) = Ok true).
  { destruct (Z.eqb_spec J 0); auto. pose proof (up_less I (J - 1) HI ltac:(lia) ltac:(lia)) as X. replace (J - 1 + 1) with J in X by lia. unfold when_less in X. rewrite Elo in X. destruct (get2 lons I (J - 1)); cbn [bind] in *; auto. }
  rewrite EJ. cbn [bind]. rewrite !pair_form. cbv zeta. cbn [bind].
  set (i := if Bool.eqb ab inc then I else I - 1). set (j := if Bool.eqb rt true then J else J - 1).
  match goal with |- context [if negb ?c then _ else _] => destruct c eqn:C end; [|apply safe_ok]. cbn [negb]. rewrite !andb_true_iff, !Z.leb_le, !Z.ltb_lt in C.
  destruct C as [[[[[[[C1 C2] C3] C4] C5] C6] C7] C8].
  apply safe_bind; [apply safe_box with (ny := ny) (nx := nx); auto|]. intros [s t] _.
  apply safe_bind.
  - apply safe_if; [|apply safe_ok].
    set (ab' := if off_limit t then negb ab else ab). set (rt' := if off_limit s then negb rt else rt).
    set (i' := if Bool.eqb ab' inc then I else I - 1). set (j' := if Bool.eqb rt' true then J else J - 1).
    assert (X1 : (if off_limit t then get_pair (Ok tt) I ab' inc else Ok (i, i + 1)) = Ok (i', i' + 1)) by (rewrite pair_form; unfold i', i, ab'; destruct (off_limit t); auto).
    assert (X2 : (if off_limit s then get_pair (Ok tt) J rt' true else Ok (j, j + 1)) = Ok (j', j' + 1)) by (rewrite pair_form; unfold j', j, rt'; destruct (off_limit s); auto).
    rewrite X1. cbn [bind]. rewrite X2. cbn [bind]. destruct (edge_ok I J ab' rt' HI HJ) as ([] & B'); rewrite B'; cbn [bind]; [apply safe_ok|].
    destruct (rows_within I J ab ab' rt rt' inc HI HJ B B' Einc) as [R1 R2]; [unfold ab'; destruct (off_limit t); auto|auto|auto|].
    destruct (columns_within I J ab' rt' HI HJ B') as [R3 R4].
    apply safe_bind; [apply safe_box with (ny := ny) (nx := nx); auto|]. intros. apply safe_ok.
  - intros [[[[[I1 J1] I2] J2] [s' t']]|] _; [|apply safe_ok]. apply safe_if; [right; reflexivity|]. apply safe_bind; [apply safe_assert|]. intros. apply safe_ok.
Qed.
End Safe.
Lemma safe_cell E x y x0 x1 x2 x3 y0 y1 y2 y3 v0 v1 v2 v3 : safe (client_cell E x y x0 x1 x2 x3 y0 y1 y2 y3 v0 v1 v2 v3).
Proof. unfold client_cell. apply safe_bind; [apply safe_st|]. intros [s t] _. apply safe_if; [right; reflexivity|apply safe_ok]. Qed.
Lemma c212 E ny nx ilats ilons olats olons m di d ifs ofs : rect ny nx ilats -> rect ny nx ilons -> 2 <= ny -> 2 <= nx -> distinct_steps ilats 1 0 -> rising_rows ilons ->
  d_y di = ny -> d_x di = nx -> d_e di = d_e d -> d_t di = d_t d -> shaped di ifs -> shaped d ofs -> rect (d_y d) (d_x d) olats -> rect (d_y d) (d_x d) olons -> rect (d_y d) (d_x d) m ->
  (forall y x a b, get2 m y x = Ok (a, b) -> 0 <= a < ny /\ 0 <= b < nx) ->
  (exists out, bilinear_downscaler E (Ok tt) ilats ilons olats olons m ifs d ofs = Ok out /\ shaped d out) \/ bilinear_downscaler E (Ok tt) ilats ilons olats olons m ifs d ofs = Abort.
Proof.
  intros RL RO Ny Nx DL UP Dy Dx De Dt SI SO ROL ROO RM HM. unfold bilinear_downscaler.
  assert (V : forall t y x e, 0 <= t < d_t d -> within d y x e -> safe (bilinear_value E (Ok tt) false ilats ilons olats olons m (fun y x => get4 ifs t y x e) y x)).
  { intros t y x e Ht (Wy & Wx & We). unfold bilinear_value. destruct (rect_get2 _ _ _ _ _ RM Wy Wx) as [[a b] Em]. destruct (rect_get2 _ _ _ _ _ ROL Wy Wx) as [lat El]. destruct (rect_get2 _ _ _ _ _ ROO Wy Wx) as [lon Eo].
    rewrite Em, El, Eo. cbn [bind]. destruct (HM _ _ _ _ Em) as [Ha Hb].
    assert (RD : forall i j, 0 <= i < ny -> 0 <= j < nx -> exists v, get4 ifs t i j e = Ok v).
    { intros i j Hi Hj. destruct (shaped_elem di ifs t i j e SI) as (v & _ & Hv); [lia|unfold within; lia|]. eauto. }
    apply safe_bind; [apply find_safe with (ny := ny) (nx := nx); auto|]. intros [[[[I1 J1] I2] J2]|] F.
    - destruct (find_sound _ _ _ _ _ _ _ _ _ _ _ _ _ RL RO F) as (-> & -> & HI & HJ & Ra & Rb & p & q & ST & Np & Nq).
      unfold box_value, box_st in *. destruct (box_corners ilons I1 J1 (I1 + 1) (J1 + 1)) as [[[[x0 x1] x2] x3]| | |] eqn:CO; try discriminate. cbn [bind] in *.
      destruct (box_corners ilats I1 J1 (I1 + 1) (J1 + 1)) as [[[[y0 y1] y2] y3]| | |]; try discriminate. cbn [bind] in *.
      assert (IN : (0 <= I1 < ny /\ 0 <= J1 < nx) /\ (0 <= I1 + 1 < ny /\ 0 <= J1 + 1 < nx)).
      { unfold box_corners in CO. destruct (get2 ilons I1 J1) eqn:G0; try discriminate. cbn [bind] in CO. destruct (get2 ilons (I1 + 1) J1); try discriminate. cbn [bind] in CO. destruct (get2 ilons I1 (J1 + 1)); try discriminate. cbn [bind] in CO. destruct (get2 ilons (I1 + 1) (J1 + 1)) eqn:G3; try discriminate.
        split; eapply get2_range; eauto. }
      destruct IN as [[Q1 Q3] [Q2 Q4]]. destruct (RD I1 J1 Q1 Q3) as [v0 ->]. destruct (RD (I1 + 1) J1 Q2 Q3) as [v1 ->]. destruct (RD I1 (J1 + 1) Q1 Q4) as [v2 ->]. destruct (RD (I1 + 1) (J1 + 1) Q2 Q4) as [v3 ->]. cbn [bind].
      apply safe_if; [apply safe_cell|apply safe_ok].
    - destruct (RD a b Ha Hb) as [v ->]. apply safe_ok. }
  set (value := fun t i j e => bilinear_value E (Ok tt) false ilats ilons olats olons m (fun y x => get4 ifs t y x e) i j) in *.
  assert (D : (forall t y x e, 0 <= t < d_t d -> within d y x e -> exists w, value t y x e = Ok w) \/ exists t y x e, 0 <= t < d_t d /\ within d y x e /\ value t y x e = Abort).
  { assert (K : forall l, (forall p, In p l -> let '(t, (y, x, e)) := p in 0 <= t < d_t d /\ within d y x e) ->
      (forall p, In p l -> let '(t, (y, x, e)) := p in exists w, value t y x e = Ok w) \/ exists t y x e, 0 <= t < d_t d /\ within d y x e /\ value t y x e = Abort).
    { induction l as [|[t [[y x] e]] l IH]; intros HL; [left; intros p []|]. destruct (HL (t, (y, x, e)) (or_introl eq_refl)) as [Ht Hw].
      destruct (V t y x e Ht Hw) as [[w Ew]|EA]; [|right; exists t, y, x, e; auto]. destruct IH as [IH|IH]; [intros p Hp; apply HL; right; auto| |right; auto].
      left. intros p [<-|Hp]; [exists w; exact Ew|apply IH; auto]. }
    destruct (K (list_prod (zrange 0 (d_t d)) (cells (d_y d) (d_x d) (d_e d)))) as [K'|K']; auto.
    - intros [t [[y x] e]] Hp. apply in_prod_iff in Hp as [Hp1 Hp2]. apply in_zrange in Hp1. apply in_cells in Hp2. auto.
    - left. intros t y x e Ht Hw. apply (K' (t, (y, x, e))). apply in_prod; [apply in_zrange; auto|apply in_cells; auto]. }
  destruct D as [D|D].
  - left. destruct (write_ok d ofs value (fun _ _ _ _ _ => True) SO) as (out & Eo & S & _); [|eauto]. intros t y x e Ht Hw. destruct (D t y x e Ht Hw) as (w & Ew). eauto.
  - right. apply write_abort; auto.
Qed.
(** downscaling onto the same grid *)
Lemma c213 E ys xs lats lons m d ifs ofs : rect_grid ys xs lats lons -> rising ys -> rising xs -> 2 <= zlen ys -> 2 <= zlen xs -> d_y d = zlen ys -> d_x d = zlen xs -> shaped d ifs -> shaped d ofs ->
  (forall y x, 0 <= y < d_y d -> 0 <= x < d_x d -> get2 m y x = Ok (y, x)) ->
  (forall t y x e v, element ifs t y x e v -> exists q, v = Fin q /\ ~ missing v) ->
  exists out, bilinear_downscaler E (Ok tt) lats lons lats lons m ifs d ofs = Ok out /\ shaped d out /\
    forall t y x e, 0 <= t < d_t d -> within d y x e -> exists v, element ifs t y x e v /\ element out t y x e v.
Proof.
  intros G Ry Rx Ny Nx Dy Dx SI SO HM NM.
  assert (NF : forall l, rising l -> 2 <= zlen l -> ~ falling l).
  { intros l R N F. destruct (znth_some l 0) as [a Ha]; [lia|]. destruct (znth_some l 1) as [b Hb]; [lia|]. pose proof (R 0 a b Ha Hb). pose proof (F 0 a b Ha Hb). qlra. }
  assert (AX : forall l k, rising l -> 2 <= zlen l -> 0 <= k < zlen l -> exists q, znth l k = Ok q /\ (k = 0 -> beyond l k q) /\ (k <> 0 -> near_step l k q)).
  { intros l k R N Hk. destruct (znth_some l k) as [q Hq]; [auto|]. exists q. split; [auto|]. split.
    - intros ->. exists q. split; auto. left. split; [|apply Qcle_refl]. intros b Hb. apply In_znth in Hb as (i & Hi). pose proof (znth_range _ _ _ Hi).
      revert b Hi. assert (Z : forall n : nat, forall b, znth l (Z.of_nat n) = Ok b -> (q <= b)%Qc).
      { induction n; intros b Hb; [change (Z.of_nat 0) with 0 in Hb; rewrite Hq in Hb; injection Hb as <-; apply Qcle_refl|]. pose proof (znth_range _ _ _ Hb). destruct (znth_some l (Z.of_nat n)) as [c Hc]; [lia|].
        replace (Z.of_nat (S n)) with (Z.of_nat n + 1) in Hb by lia. pose proof (IHn c Hc). pose proof (R _ _ _ Hc Hb). qlra. }
      intros b Hb. apply (Z (Z.to_nat i)). rewrite Z2Nat.id by lia. auto.
    - intros NZ. destruct (znth_some l (k - 1)) as [p Hp]; [lia|]. assert (Hq' : znth l (k - 1 + 1) = Ok q) by (replace (k - 1 + 1) with k by lia; auto). exists (k - 1), ((q - p) / (q - p))%Qc. split; [|lia].
      exists p, q. split; auto. split; auto. split; [|reflexivity]. left. split; [apply (R _ _ _ Hp Hq')|apply Qcle_refl]. }
  assert (UN : forall l k q i w, rising l -> znth l k = Ok q -> in_step l i q w -> k = i \/ k = i + 1 -> k = i + 1 /\ w = 1%Qc).
  { intros l k q i w R Hq (a & b & Ha & Hb & C & ->) [-> | ->]; pose proof (R _ _ _ Ha Hb); [rewrite Ha in Hq|rewrite Hb in Hq]; injection Hq as <-; [exfalso; destruct C as [[? ?]|[? ?]]; qlra|].
    split; auto. apply Qcmult_inv_r. intros h. qlra. }
  destruct (c210 E ys xs lats lons lats lons m d d ifs ofs G) as (out & Eo & S & HO); auto.
  - intros y x Hy Hx. rewrite Dy in Hy. rewrite Dx in Hx. destruct (AX ys y Ry Ny Hy) as (p & Hp & P1 & P2). destruct (AX xs x Rx Nx Hx) as (q & Hq & Q1 & Q2).
    exists p, q, y, x. destruct G as (_ & _ & G). destruct (G _ _ _ _ Hp Hq). split; [repeat split; auto; apply HM; lia|]. split.
    + split; [destruct (Z.eq_dec y 0)|destruct (Z.eq_dec x 0)]; auto.
    + intros _ _ [[F _]|[F _]]; [apply (NF ys)|apply (NF xs)]; auto.
  - exists out. split; [auto|]. split; [auto|]. intros t y x e Ht W. pose proof W as (Wy & Wx & We). pose proof Wy as Wy'. rewrite Dy in Wy'. pose proof Wx as Wx'. rewrite Dx in Wx'.
    destruct (AX ys y Ry Ny Wy') as (p & Hp & P1 & P2). destruct (AX xs x Rx Nx Wx') as (q & Hq & Q1 & Q2). pose proof G as (_ & _ & G'). destruct (G' _ _ _ _ Hp Hq) as [G1 G2].
    destruct (HO t y x e p q y x Ht W) as (w & Ew & I1 & I2); [repeat split; auto|].
    destruct (Z.eq_dec y 0); [exists w; auto|]. destruct (Z.eq_dec x 0); [exists w; auto|].
    destruct (I1 (P2 n) (Q2 n0)) as (i & j & u & s & Su & Ss & Hi & Hj & v0 & v1 & v2 & v3 & E0 & E1 & E2 & E3 & V & _).
    destruct (UN _ _ _ _ _ Ry Hp Su Hi) as [-> ->]. destruct (UN _ _ _ _ _ Rx Hq Ss Hj) as [-> ->].
    destruct (NM _ _ _ _ _ E0) as (q0 & -> & N0). destruct (NM _ _ _ _ _ E1) as (q1 & -> & N1). destruct (NM _ _ _ _ _ E2) as (q2 & -> & N2). destruct (NM _ _ _ _ _ E3) as (q3 & -> & N3).
    exists (Fin q3). split; [auto|]. rewrite (V q0 q1 q2 q3) in Ew by (repeat split; auto). replace (blend q0 q1 q2 q3 1 1) with q3 in Ew; auto. unfold blend. ring.
Qed.

(** the grids of the witnesses *)
Definition gys (l : list Z) (n : nat) : list vec := map (fun a => repeat (fz a) n) l.
Definition gxs (l : list Z) (n : nat) : list vec := repeat (map fz l) n.
Lemma grid_made ys xs : ys <> [] -> rect_grid (map qz ys) (map qz xs) (gys ys (length xs)) (gxs xs (length ys)).
Proof.
  intros NE. unfold rect_grid, rect. rewrite !zlen_map. split; [split; [unfold gys; apply zlen_map|]|split; [split; [unfold zlen, gxs; rewrite repeat_length; reflexivity|]|]].
  - intros r Hr. unfold gys in Hr. apply in_map_iff in Hr as (a & <- & _). unfold zlen. rewrite repeat_length. reflexivity.
  - intros r Hr. unfold gxs in Hr. apply repeat_spec in Hr as ->. apply zlen_map.
  - intros i j a b Ha Hb. pose proof (znth_range _ _ _ Ha) as Ri. pose proof (znth_range _ _ _ Hb) as Rj. rewrite zlen_map in Ri, Rj. unfold get2.
    destruct (znth_some ys i Ri) as [p Hp]. destruct (znth_some xs j Rj) as [q Hq]. rewrite znth_map, Hp in Ha. injection Ha as <-. rewrite znth_map, Hq in Hb. injection Hb as <-.
    unfold gys, gxs. rewrite znth_map, Hp. cbn [bind]. assert (RP : forall A (v : A) n k, 0 <= k < Z.of_nat n -> znth (repeat v n) k = Ok v).
    { intros A v n k Hk. destruct (znth_some (repeat v n) k) as [w Hw]; [unfold zlen; rewrite repeat_length; auto|]. rewrite Hw. f_equal. apply znth_In in Hw. apply repeat_spec in Hw. auto. }
    unfold zlen in Ri, Rj. rewrite !RP by lia. cbn [bind]. rewrite znth_map, Hq. auto.
Qed.

(** what is refuted: a point in a cell, with the nearest point as a corner of it, that does not have the value of the cell *)
Definition misplaced (ys xs : list Qc) (i j : Z) (lat lon u s : Qc) (a b : Z) : Prop := forall E, exists ilats ilons olats olons m di d ifs ofs out w,
  rect_grid ys xs ilats ilons /\ d_y di = zlen ys /\ d_x di = zlen xs /\ d_e di = d_e d /\ d_t di = d_t d /\ shaped di ifs /\ shaped d ofs /\ sited olats olons m 0 0 lat lon a b /\
  at_position ys i lat u /\ at_position xs j lon s /\ corner_of a b i j /\ bilinear_downscaler E (Ok tt) ilats ilons olats olons m ifs d ofs = Ok out /\ element out 0 0 0 0 w /\
  ~ cell_value (fun y x v => element ifs 0 y x 0 v) i j s u (Fin missing_number) w.
Definition dims33 : dims := {| d_y := 3; d_x := 3; d_e := 1; d_t := 1 |}.
Definition field33 (l : list Z) : field := {| f_values := map fz l; f_ny := 3; f_nx := 3; f_ne := 1 |}.
Lemma shaped33 l : zlen l = 9 -> shaped dims33 [field33 l].
Proof. intros H. repeat split; try (cbn; lia). constructor; [|constructor]. unfold of_size, field_ok, field33, dims33; cbn. rewrite zlen_map. repeat split; lia. Qed.
Ltac at_pos a b := exists a, b; split; [reflexivity|]; split; [reflexivity|]; split; [split; vm_compute; discriminate|]; apply Qc_is_canon; vm_compute; reflexivity.
Ltac in_st a b := exists a, b; split; [reflexivity|]; split; [reflexivity|]; split; [|reflexivity].
Ltac rising3 := let i := fresh in let a := fresh in let b := fresh in let H := fresh in let K := fresh in intros i a b H K; assert (0 <= i < 3) by (exact (znth_range _ _ _ H)); assert (0 <= i + 1 < 3) by (exact (znth_range _ _ _ K));
  assert (i = 0 \/ i = 1) as [-> | ->] by lia; vm_compute in H, K; injection H as <-; injection K as <-; vm_compute; reflexivity.
Lemma misplaced_by yl xl i j lat lon u s a b q0 q1 q2 q3 w : length yl = 3%nat -> length xl = 3%nat -> at_position (map qz yl) i lat u -> at_position (map qz xl) j lon s -> corner_of a b i j ->
  let f := field33 [0; 1; 2; 10; 11; 12; 20; 21; 22] in
  f_get f i j 0 = Ok (Fin q0) -> f_get f (i + 1) j 0 = Ok (Fin q1) -> f_get f i (j + 1) 0 = Ok (Fin q2) -> f_get f (i + 1) (j + 1) 0 = Ok (Fin q3) ->
  present4 (Fin q0) (Fin q1) (Fin q2) (Fin q3) q0 q1 q2 q3 -> blend q0 q1 q2 q3 s u <> w ->
  (forall E, bilinear_downscaler E (Ok tt) (gys yl 3) (gxs xl 3) [[Fin lat]] [[Fin lon]] [[(a, b)]] [f] (dims2 1 1 1) [row 1 1 [NaN]] = Ok [row 1 1 [Fin w]]) ->
  misplaced (map qz yl) (map qz xl) i j lat lon u s a b.
Proof.
  intros Ly Lx Py Px C f F0 F1 F2 F3 PR NB RUN E. exists (gys yl 3), (gxs xl 3), [[Fin lat]], [[Fin lon]], [[(a, b)]], dims33, (dims2 1 1 1), [f], [row 1 1 [NaN]], [row 1 1 [Fin w]], (Fin w).
  split. { pose proof (grid_made yl xl) as G. rewrite Ly, Lx in G. apply G. intros ->. discriminate. }
  split; [unfold zlen; rewrite map_length, Ly; reflexivity|]. split; [unfold zlen; rewrite map_length, Lx; reflexivity|]. split; [reflexivity|]. split; [reflexivity|].
  split; [apply shaped33; reflexivity|]. split; [apply row_shaped; reflexivity|]. split; [repeat split|]. split; [auto|]. split; [auto|]. split; [auto|]. split; [apply RUN|].
  split. { exists (row 1 1 [Fin w]). split; reflexivity. }
  intros (v0 & v1 & v2 & v3 & (f0 & Z0 & G0) & (f1 & Z1 & G1) & (f2 & Z2 & G2) & (f3 & Z3 & G3) & V & _).
  change (Ok f = Ok f0) in Z0. injection Z0 as <-. change (Ok f = Ok f1) in Z1. injection Z1 as <-. change (Ok f = Ok f2) in Z2. injection Z2 as <-. change (Ok f = Ok f3) in Z3. injection Z3 as <-.
  rewrite F0 in G0. rewrite F1 in G1. rewrite F2 in G2. rewrite F3 in G3. injection G0 as <-. injection G1 as <-. injection G2 as <-. injection G3 as <-.
  specialize (V _ _ _ _ PR). injection V as V. auto.
Qed.
Ltac present4 := repeat split; vm_compute; discriminate.
Lemma c210_first_row : exists ys xs i j lat lon u s a b, falling ys /\ rising xs /\ well_sited ys xs lat lon a b /\ misplaced ys xs i j lat lon u s a b.
Proof.
  exists (map qz [2; 1; 0]), (map qz [0; 1; 2]), 0, 0, (Q2Qc (3 # 2)), (Q2Qc (1 # 2)), (Q2Qc (1 # 2)), (Q2Qc (1 # 2)), 0, 0.
  split; [rising3|]. split; [rising3|]. split.
  { split; left; exists 0; eexists; (split; [|left; reflexivity]); [in_st (qz 2) (qz 1); right|in_st (qz 0) (qz 1); left]; split; vm_compute; try reflexivity; discriminate. }
  apply misplaced_by with (q0 := qz 0) (q1 := qz 10) (q2 := qz 1) (q3 := qz 11) (w := qz 0); try reflexivity; [at_pos (qz 2) (qz 1)|at_pos (qz 0) (qz 1)|split; auto|present4|vm_compute; discriminate].
Qed.
Lemma c210_first_column : exists ys xs i j lat lon u s a b, rising ys /\ falling xs /\ well_sited ys xs lat lon a b /\ misplaced ys xs i j lat lon u s a b.
Proof.
  exists (map qz [0; 1; 2]), (map qz [2; 1; 0]), 0, 0, (Q2Qc (1 # 2)), (Q2Qc (3 # 2)), (Q2Qc (1 # 2)), (Q2Qc (1 # 2)), 0, 0.
  split; [rising3|]. split; [rising3|]. split.
  { split; left; exists 0; eexists; (split; [|left; reflexivity]); [in_st (qz 0) (qz 1); left|in_st (qz 2) (qz 1); right]; split; vm_compute; try reflexivity; discriminate. }
  apply misplaced_by with (q0 := qz 0) (q1 := qz 10) (q2 := qz 1) (q3 := qz 11) (w := qz 0); try reflexivity; [at_pos (qz 0) (qz 1)|at_pos (qz 2) (qz 1)|split; auto|present4|vm_compute; discriminate].
Qed.
(** in the row with the number of the last column *)
Lemma c210_last_number : exists ys xs i j lat lon u s a b, rising ys /\ falling xs /\ 0 < b < zlen xs - 1 /\ well_sited ys xs lat lon a b /\ misplaced ys xs i j lat lon u s a b.
Proof.
  exists (map qz [0; 1; 2]), (map qz [2; 1; 0]), 1, 1, (Q2Qc (7 # 4)), (Q2Qc (3 # 4)), (Q2Qc (3 # 4)), (Q2Qc (1 # 4)), 2, 1.
  split; [rising3|]. split; [rising3|]. split; [split; reflexivity|]. split.
  { split; left; exists 1; eexists; (split; [|auto with zarith]); [in_st (qz 1) (qz 2); left|in_st (qz 1) (qz 0); right]; split; vm_compute; try reflexivity; discriminate. }
  apply misplaced_by with (q0 := qz 11) (q1 := qz 21) (q2 := qz 12) (q3 := qz 22) (w := qz 21); try reflexivity; [at_pos (qz 1) (qz 2)|at_pos (qz 1) (qz 0)|split; auto|present4|vm_compute; discriminate].
Qed.
(** on the first edge of the grid *)
Lemma c210_edge : exists ys xs i j lat lon u s a b, rising ys /\ rising xs /\ well_sited ys xs lat lon a b /\ misplaced ys xs i j lat lon u s a b.
Proof.
  exists (map qz [0; 1; 2]), (map qz [0; 1; 2]), 0, 0, (Q2Qc (1 # 2)), 0%Qc, (Q2Qc (1 # 2)), 0%Qc, 0, 0.
  split; [rising3|]. split; [rising3|]. split.
  { split; [left; exists 0; eexists; (split; [|left; reflexivity]); in_st (qz 0) (qz 1); left; split; vm_compute; try reflexivity; discriminate|].
    right. exists (qz 0). split; [reflexivity|]. left. split; [|apply Qcle_refl]. intros b [<-|[<-|[<-|[]]]]; vm_compute; discriminate. }
  apply misplaced_by with (q0 := qz 0) (q1 := qz 10) (q2 := qz 1) (q3 := qz 11) (w := qz 0); try reflexivity; [at_pos (qz 0) (qz 1)|at_pos (qz 0) (qz 1)|split; auto|present4|vm_compute; discriminate].
Qed.
(** ** Reads outside of the fields *)
(** by the standard a function that does not return a value is undefined: any point that needs a cell *)
Lemma c212_no_return E : exists ys xs ilats ilons olats olons m di d ifs ofs, rect_grid ys xs ilats ilons /\ rising ys /\ rising xs /\ 2 <= zlen ys /\ 2 <= zlen xs /\
  d_y di = zlen ys /\ d_x di = zlen xs /\ d_e di = d_e d /\ d_t di = d_t d /\ shaped di ifs /\ shaped d ofs /\
  (exists lat lon a b, sited olats olons m 0 0 lat lon a b /\ well_sited ys xs lat lon a b) /\ bilinear_downscaler E UB ilats ilons olats olons m ifs d ofs = UB.
Proof.
  exists (map qz [0; 1; 2]), (map qz [0; 1; 2]), (gys [0; 1; 2] 3), (gxs [0; 1; 2] 3), [[fq (1 # 2)]], [[fq (1 # 2)]], [[(0, 0)]], dims33, (dims2 1 1 1), [field33 [0; 1; 2; 10; 11; 12; 20; 21; 22]], [row 1 1 [NaN]].
  split; [apply (grid_made [0; 1; 2] [0; 1; 2]); discriminate|]. split; [rising3|]. split; [rising3|]. split; [vm_compute; discriminate|]. split; [vm_compute; discriminate|]. do 4 (split; [reflexivity|]).
  split; [apply shaped33; reflexivity|]. split; [apply row_shaped; reflexivity|]. split.
  - exists (Q2Qc (1 # 2)), (Q2Qc (1 # 2)), 0, 0. split; [repeat split|]. split; left; exists 0; eexists; (split; [|left; reflexivity]); in_st (qz 0) (qz 1); left; split; vm_compute; try reflexivity; discriminate.
  - vm_compute. reflexivity.
Qed.
(** a grid of one row *)
Lemma c212_one_row E : exists ys xs ilats ilons olats olons m di d ifs ofs, rect_grid ys xs ilats ilons /\ rising ys /\ rising xs /\ 1 <= zlen ys /\ 2 <= zlen xs /\
  d_y di = zlen ys /\ d_x di = zlen xs /\ d_e di = d_e d /\ d_t di = d_t d /\ shaped di ifs /\ shaped d ofs /\
  (exists lat lon a b, sited olats olons m 0 0 lat lon a b /\ well_sited ys xs lat lon a b) /\ bilinear_downscaler E (Ok tt) ilats ilons olats olons m ifs d ofs = UB.
Proof.
  exists (map qz [0]), (map qz [0; 1; 2]), (gys [0] 3), (gxs [0; 1; 2] 1), [[fq (1 # 2)]], [[fq (1 # 2)]], [[(0, 0)]], (dims2 3 1 1), (dims2 1 1 1), [row 3 1 [fz 1; fz 2; fz 3]], [row 1 1 [NaN]].
  split; [apply (grid_made [0] [0; 1; 2]); discriminate|]. split. { intros i a b H K. assert (0 <= i < 1) by (exact (znth_range _ _ _ H)). assert (0 <= i + 1 < 1) by (exact (znth_range _ _ _ K)). lia. } split; [rising3|]. split; [vm_compute; discriminate|]. split; [vm_compute; discriminate|]. do 4 (split; [reflexivity|]).
  split; [apply row_shaped; reflexivity|]. split; [apply row_shaped; reflexivity|]. split.
  - exists (Q2Qc (1 # 2)), (Q2Qc (1 # 2)), 0, 0. split; [repeat split|]. split.
    + right. exists (qz 0). split; [reflexivity|]. right. split; [|vm_compute; reflexivity]. intros b [<-|[]]. apply Qcle_refl.
    + left. exists 0. eexists. split; [|left; reflexivity]. in_st (qz 0) (qz 1). left. split; vm_compute; try reflexivity; discriminate.
  - vm_compute. reflexivity.
Qed.
(** falling longitudes, in the first column and the row with the number of the last column *)
Lemma c212_falling E : exists ys xs ilats ilons olats olons m di d ifs ofs, rect_grid ys xs ilats ilons /\ rising ys /\ falling xs /\ 2 <= zlen ys /\ 2 <= zlen xs /\
  d_y di = zlen ys /\ d_x di = zlen xs /\ d_e di = d_e d /\ d_t di = d_t d /\ shaped di ifs /\ shaped d ofs /\
  (exists lat lon a b, sited olats olons m 0 0 lat lon a b /\ well_sited ys xs lat lon a b) /\ bilinear_downscaler E (Ok tt) ilats ilons olats olons m ifs d ofs = UB.
Proof.
  exists (map qz [0; 1; 2]), (map qz [2; 1; 0]), (gys [0; 1; 2] 3), (gxs [2; 1; 0] 3), [[fq (7 # 4)]], [[fq (7 # 4)]], [[(2, 0)]], dims33, (dims2 1 1 1), [field33 [0; 1; 2; 10; 11; 12; 20; 21; 22]], [row 1 1 [NaN]].
  split; [apply (grid_made [0; 1; 2] [2; 1; 0]); discriminate|]. split; [rising3|]. split; [rising3|]. split; [vm_compute; discriminate|]. split; [vm_compute; discriminate|]. do 4 (split; [reflexivity|]).
  split; [apply shaped33; reflexivity|]. split; [apply row_shaped; reflexivity|]. split.
  - exists (Q2Qc (7 # 4)), (Q2Qc (7 # 4)), 2, 0. split; [repeat split|]. split; left.
    + exists 1. eexists. split; [|right; reflexivity]. in_st (qz 1) (qz 2). left. split; vm_compute; try reflexivity; discriminate.
    + exists 0. eexists. split; [|left; reflexivity]. in_st (qz 2) (qz 1). right. split; vm_compute; try reflexivity; discriminate.
  - vm_compute. reflexivity.
Qed.
(** an output point without coordinates, for which the nearest point is (-999, -999) *)
Lemma c212_no_place E : exists ilats ilons di d ifs ofs, rect 3 3 ilats /\ rect 3 3 ilons /\ distinct_steps ilats 1 0 /\ rising_rows ilons /\ d_y di = 3 /\ d_x di = 3 /\ d_e di = d_e d /\ d_t di = d_t d /\ shaped di ifs /\ shaped d ofs /\
  bilinear_downscaler E (Ok tt) ilats ilons [[NaN]] [[fz 0]] [[(-999, -999)]] ifs d ofs = UB.
Proof.
  exists (gys [0; 1; 2] 3), (gxs [0; 1; 2] 3), dims33, (dims2 1 1 1), [field33 [0; 1; 2; 10; 11; 12; 20; 21; 22]], [row 1 1 [NaN]].
  destruct (grid_made [0; 1; 2] [0; 1; 2]) as (R1 & R2 & G); [discriminate|]. split; [auto|]. split; [auto|]. split; [|split].
  - intros i j u v Hu Hv. destruct (get2_range _ _ _ _ _ _ R1 Hu) as [Hi Hj]. destruct (get2_range _ _ _ _ _ _ R1 Hv) as [Hi' Hj']. change (zlen (map qz [0; 1; 2])) with 3 in *.
    assert (i = 0 \/ i = 1) as [-> | ->] by lia; assert (j = 0 \/ j = 1 \/ j = 2) as [-> |[-> | ->]] by lia; vm_compute in Hu, Hv; injection Hu as <-; injection Hv as <-; eexists; eexists; (split; [reflexivity|]); (split; [reflexivity|]); vm_compute; discriminate.
  - intros i j u v Hu Hv. destruct (get2_range _ _ _ _ _ _ R2 Hu) as [Hi Hj]. destruct (get2_range _ _ _ _ _ _ R2 Hv) as [Hi' Hj']. change (zlen (map qz [0; 1; 2])) with 3 in *.
    assert (j = 0 \/ j = 1) as [-> | ->] by lia; assert (i = 0 \/ i = 1 \/ i = 2) as [-> |[-> | ->]] by lia; vm_compute in Hu, Hv; injection Hu as <-; injection Hv as <-; eexists; eexists; (split; [reflexivity|]); (split; [reflexivity|]); vm_compute; reflexivity.
  - do 4 (split; [reflexivity|]). split; [apply shaped33; reflexivity|]. split; [apply row_shaped; reflexivity|]. vm_compute. reflexivity.
Qed.
(** a missing value makes points of the same grid missing that are not *)
Lemma c213_refuted E : exists ys xs ilats ilons m d ifs ofs out v, rect_grid ys xs ilats ilons /\ rising ys /\ rising xs /\ 2 <= zlen ys /\ 2 <= zlen xs /\ d_y d = zlen ys /\ d_x d = zlen xs /\ shaped d ifs /\ shaped d ofs /\
  (forall y x, 0 <= y < d_y d -> 0 <= x < d_x d -> get2 m y x = Ok (y, x)) /\ bilinear_downscaler E (Ok tt) ilats ilons ilats ilons m ifs d ofs = Ok out /\
  element ifs 0 1 1 0 v /\ ~ missing v /\ element out 0 1 1 0 (Fin missing_number).
Proof.
  exists (map qz [0; 1; 2]), (map qz [0; 1; 2]), (gys [0; 1; 2] 3), (gxs [0; 1; 2] 3), (identity_map 3 3), dims33, [field33 [-999; 1; 2; 10; 11; 12; 20; 21; 22]], [field33 [0; 0; 0; 0; 0; 0; 0; 0; 0]], [field33 [-999; 1; 2; 10; -999; 12; 20; 21; 22]], (fz 11).
  split; [apply (grid_made [0; 1; 2] [0; 1; 2]); discriminate|]. split; [rising3|]. split; [rising3|]. split; [vm_compute; discriminate|]. split; [vm_compute; discriminate|]. do 2 (split; [reflexivity|]).
  split; [apply shaped33; reflexivity|]. split; [apply shaped33; reflexivity|]. split; [intros; apply get2_identity; auto|]. split; [fcalc|].
  split; [exists (field33 [-999; 1; 2; 10; 11; 12; 20; 21; 22]); split; reflexivity|]. split; [vm_compute; discriminate|]. exists (field33 [-999; 1; 2; 10; -999; 12; 20; 21; 22]). split; reflexivity.
Qed.
(** the version for a single field *)
Lemma c210_vec E ys xs ilats ilons olats olons m input ny nx : rect_grid ys xs ilats ilons -> rising ys \/ falling ys -> rising xs \/ falling xs -> 2 <= zlen ys -> 2 <= zlen xs ->
  rect (zlen ys) (zlen xs) input -> rect ny nx olats -> 0 < ny ->
  (forall y x, 0 <= y < ny -> 0 <= x < nx -> exists lat lon a b, sited olats olons m y x lat lon a b /\ well_sited ys xs lat lon a b /\ (near_step ys a lat -> near_step xs b lon -> ~ lost ys xs a b)) ->
  exists out, bilinear_vec E (Ok tt) ilats ilons olats olons m input = Ok out /\ rect ny nx out /\
    forall y x lat lon a b, 0 <= y < ny -> 0 <= x < nx -> sited olats olons m y x lat lon a b ->
      exists w own, get2 out y x = Ok w /\ get2 input a b = Ok own /\ interpolated ys xs lat lon a b (fun i j v => get2 input i j = Ok v) own w.
Proof.
  intros G My Mx Ny Nx RI RO Hn HS. unfold bilinear_vec, num_x. destruct (znth_some olats 0) as [r0 E0]; [destruct RO; lia|]. rewrite E0. cbn [bind]. rewrite (proj2 RO r0) by (eapply znth_In; eauto). rewrite (proj1 RO).
  assert (Wn : 0 <= nx). { rewrite <- (proj2 RO r0) by (eapply znth_In; eauto). unfold zlen. lia. }
  assert (V : forall y x, 0 <= y < ny -> 0 <= x < nx -> exists w, bilinear_value E (Ok tt) true ilats ilons olats olons m (get2 input) y x = Ok w /\
     forall lat lon a b, sited olats olons m y x lat lon a b -> exists own, get2 input a b = Ok own /\ interpolated ys xs lat lon a b (fun i j v => get2 input i j = Ok v) own w).
  { intros y x Hy Hx. destruct (HS y x Hy Hx) as (lat & lon & a & b & S & W & NL). destruct (value_rect E true ys xs ilats ilons olats olons m (get2 input) y x lat lon a b G My Mx Ny Nx S W NL) as (w & own & Ew & Eo & IN).
    { intros. eapply rect_get2; eauto. }
    exists w. split; [auto|]. intros lat' lon' a' b' S'. destruct S as (S1 & S2 & S3), S' as (S1' & S2' & S3'). rewrite S1 in S1'. rewrite S2 in S2'. rewrite S3 in S3'. injection S1' as <-. injection S2' as <-. injection S3' as <- <-. eauto. }
  set (val_ := bilinear_value E (Ok tt) true ilats ilons olats olons m (get2 input)) in *.
  set (g := fun y x => match val_ y x with Ok w => w | _ => NaN end).
  exists (map (fun y => map (g y) (zrange 0 nx)) (zrange 0 ny)). split; [|split].
  - apply mapM_ok. intros y Hy. apply in_zrange in Hy. apply mapM_ok. intros x Hx. apply in_zrange in Hx. unfold g. destruct (V y x ltac:(lia) ltac:(lia)) as (w & -> & _). reflexivity.
  - split; [rewrite zlen_map, zlen_zrange; lia|]. intros r Hr. apply in_map_iff in Hr as (y & <- & _). rewrite zlen_map, zlen_zrange. lia.
  - intros y x lat lon a b Hy Hx S. destruct (V y x Hy Hx) as (w & Ew & HV). destruct (HV _ _ _ _ S) as (own & Eo & IN). exists w, own. split; [|auto].
    rewrite (get2_map_zrange ny nx g) by auto. unfold g. rewrite Ew. reflexivity.
Qed.
Lemma c212_ex : distinct_steps (gys [0; 1] 2) 1 0 /\ rising_rows (gxs [0; 1] 2) /\
  bilinear_downscaler E0 (Ok tt) (gys [0; 1] 2) (gxs [0; 1] 2) [[fq (1 # 2)]] [[fq (1 # 4)]] [[(0, 0)]] [{| f_values := [fz 0; fz 8; fz 16; fz 24]; f_ny := 2; f_nx := 2; f_ne := 1 |}] (dims2 1 1 1) [row 1 1 [NaN]] = Ok [row 1 1 [fz 10]].
Proof.
  destruct (grid_made [0; 1] [0; 1]) as (R1 & R2 & G); [discriminate|]. split; [|split].
  - intros i j u v Hu Hv. destruct (get2_range _ _ _ _ _ _ R1 Hu) as [Hi Hj]. destruct (get2_range _ _ _ _ _ _ R1 Hv) as [Hi' Hj']. change (zlen (map qz [0; 1])) with 2 in *.
    assert (i = 0) as -> by lia; assert (j = 0 \/ j = 1) as [-> | ->] by lia; vm_compute in Hu, Hv; injection Hu as <-; injection Hv as <-; eexists; eexists; (split; [reflexivity|]); (split; [reflexivity|]); vm_compute; discriminate.
  - intros i j u v Hu Hv. destruct (get2_range _ _ _ _ _ _ R2 Hu) as [Hi Hj]. destruct (get2_range _ _ _ _ _ _ R2 Hv) as [Hi' Hj']. change (zlen (map qz [0; 1])) with 2 in *.
    assert (j = 0) as -> by lia; assert (i = 0 \/ i = 1) as [-> | ->] by lia; vm_compute in Hu, Hv; injection Hu as <-; injection Hv as <-; eexists; eexists; (split; [reflexivity|]); (split; [reflexivity|]); vm_compute; reflexivity.
  - fcalc.
Qed.
