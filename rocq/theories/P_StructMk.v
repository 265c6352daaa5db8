(** Which scales the structure function constructors accept. *)
From Coq Require Import Reals.
From Verif Require Import Base QcTac ListLib M_Geo S_Geo RBase M_Struct P_Grid.
Local Open Scope Z_scope.

Lemma scale_ok x : (negb (is_valid x) || vltb x (fz 0))%bool = false <-> exists q, x = Fin q /\ (0 <= q)%Qc.
Proof.
  destruct x as [| | |q]; cbn [is_valid negb orb]; try (split; [discriminate|intros (q & E & _); discriminate]).
  change (vltb (Fin q) (fz 0)) with (qltb q 0). destruct (qltb_spec q 0) as [H|H].
  - split; [discriminate|]. intros (q' & E & H'). injection E as <-. exfalso. qlra.
  - split; [|reflexivity]. intros _. exists q. split; [reflexivity|]. apply Qcnot_lt_le. exact H.
Qed.
Lemma c109_base : forall k h v w hmax,
  ((exists S, mk_base k h v w hmax = Ok S) <->
   (exists qh qv qw, h = Fin qh /\ v = Fin qv /\ w = Fin qw /\ (0 <= qh)%Qc /\ (0 <= qv)%Qc /\ (0 <= qw)%Qc) /\ (forall m, hmax = Fin m -> (0 <= m)%Qc)) /\
  ((forall S, mk_base k h v w hmax <> Ok S) -> mk_base k h v w hmax = Throw InvalidArgument).
Proof.
  intros k h v w hmax. unfold mk_base.
  assert (HM : (is_valid hmax && vltb hmax (fz 0))%bool = false <-> (forall m, hmax = Fin m -> (0 <= m)%Qc)).
  { destruct hmax as [| | |q]; cbn [is_valid andb]; try (split; [intros _ m E; discriminate|reflexivity]).
    change (vltb (Fin q) (fz 0)) with (qltb q 0). destruct (qltb_spec q 0) as [H|H]; split; try discriminate; try reflexivity.
    - intros H'. specialize (H' q eq_refl). exfalso. qlra.
    - intros _ m E. injection E as <-. apply Qcnot_lt_le. exact H. }
  pose proof (scale_ok h) as Hh. pose proof (scale_ok v) as Hv. pose proof (scale_ok w) as Hw.
  destruct (is_valid hmax && vltb hmax (fz 0))%bool.
  { split; [split; [intros [S E]; discriminate|]|reflexivity]. intros [_ H]. apply HM in H. discriminate. }
  destruct (negb (is_valid h) || vltb h (fz 0))%bool.
  { split; [split; [intros [S E]; discriminate|]|reflexivity]. intros [(qh & qv & qw & E1 & _ & _ & H & _) _]. assert (true = false) by (apply Hh; eauto). discriminate. }
  destruct (negb (is_valid v) || vltb v (fz 0))%bool.
  { split; [split; [intros [S E]; discriminate|]|reflexivity]. intros [(qh & qv & qw & _ & E1 & _ & _ & H & _) _]. assert (true = false) by (apply Hv; eauto). discriminate. }
  destruct (negb (is_valid w) || vltb w (fz 0))%bool.
  { split; [split; [intros [S E]; discriminate|]|reflexivity]. intros [(qh & qv & qw & _ & _ & E1 & _ & _ & H) _]. assert (true = false) by (apply Hw; eauto). discriminate. }
  split; [|intros H; exfalso; eapply H; reflexivity]. split; [|eexists; reflexivity]. intros _. split; [|apply HM; reflexivity].
  destruct (proj1 Hh eq_refl) as (qh & ? & ?), (proj1 Hv eq_refl) as (qv & ? & ?), (proj1 Hw eq_refl) as (qw & ? & ?). exists qh, qv, qw. auto 10.
Qed.
Lemma c109_cressman : forall h v w,
  ((exists S, mk_cressman h v w = Ok S) <->
   (exists qh qv qw, h = Fin qh /\ v = Fin qv /\ w = Fin qw /\ (0 <= qh)%Qc /\ (0 <= qv)%Qc /\ (0 <= qw)%Qc)) /\
  ((forall S, mk_cressman h v w <> Ok S) -> mk_cressman h v w = Throw InvalidArgument).
Proof.
  intros h v w. unfold mk_cressman.
  pose proof (scale_ok h) as Hh. pose proof (scale_ok v) as Hv. pose proof (scale_ok w) as Hw.
  destruct (negb (is_valid h) || vltb h (fz 0))%bool.
  { split; [split; [intros [S E]; discriminate|]|reflexivity]. intros (qh & qv & qw & E1 & _ & _ & H & _). assert (true = false) by (apply Hh; eauto). discriminate. }
  destruct (negb (is_valid v) || vltb v (fz 0))%bool.
  { split; [split; [intros [S E]; discriminate|]|reflexivity]. intros (qh & qv & qw & _ & E1 & _ & _ & H & _). assert (true = false) by (apply Hv; eauto). discriminate. }
  destruct (negb (is_valid w) || vltb w (fz 0))%bool.
  { split; [split; [intros [S E]; discriminate|]|reflexivity]. intros (qh & qv & qw & _ & _ & E1 & _ & _ & H). assert (true = false) by (apply Hw; eauto). discriminate. }
  split; [|intros H; exfalso; eapply H; reflexivity]. split; [|eexists; reflexivity]. intros _.
  destruct (proj1 Hh eq_refl) as (qh & ? & ?), (proj1 Hv eq_refl) as (qv & ? & ?), (proj1 Hw eq_refl) as (qw & ? & ?). exists qh, qv, qw. auto 10.
Qed.
Lemma c109_spatial : forall G t Y X lats lons g k h v w mr, is_grid G t Y X lats lons g ->
  (rect Y X h -> rect Y X v -> rect Y X w -> exists S, mk_spatial k g h v w mr = Ok S) /\
  (forall S, mk_spatial k g h v w mr = Ok S -> is_1x1 h && is_1x1 v && is_1x1 w = true \/
     (forall f, In f [h; v; w] -> zlen f = Y /\ exists r, znth f 0 = Ok r /\ zlen r = X)) /\
  ((forall S, mk_spatial k g h v w mr <> Ok S) -> mk_spatial k g h v w mr = Throw InvalidArgument).
Proof.
  intros G t Y X lats lons g k h v w mr HG. pose proof (is_grid_pos _ _ _ _ _ _ _ HG) as [HY HX].
  unfold mk_spatial. rewrite (grid_size_ok _ _ _ _ _ _ _ HG). cbn [bind].
  assert (Z0 : forall f : vec2, zlen f = Y -> exists r, znth f 0 = Ok r) by (intros f E; apply znth_some; lia).
  destruct (is_1x1 h && is_1x1 v && is_1x1 w)%bool eqn:E1; [split; [intros; eexists; reflexivity|]; split; [intros; left; reflexivity|]; intros H; exfalso; eapply H; reflexivity|].
  destruct (negb (Y =? zlen h) || negb (Y =? zlen v) || negb (Y =? zlen w))%bool eqn:E2.
  { split; [|split; [discriminate|reflexivity]]. intros [Rh _] [Rv _] [Rw _]. exfalso. lia. }
  destruct (Z0 h ltac:(lia)) as [h0 Eh]. destruct (Z0 v ltac:(lia)) as [v0 Ev]. destruct (Z0 w ltac:(lia)) as [w0 Ew]. rewrite Eh. cbn [bind].
  assert (L0 : forall (f : vec2) (r : vec), rect Y X f -> znth f 0 = Ok r -> zlen r = X) by (intros f r [_ R] E; apply R; eapply znth_In; eauto).
  destruct (X =? zlen h0) eqn:X1; cbn [negb]; [|split; [intros R1 R2 R3; pose proof (L0 _ _ R1 Eh); lia|split; [discriminate|reflexivity]]].
  rewrite Ev. cbn [bind]. destruct (X =? zlen v0) eqn:X2; cbn [negb]; [|split; [intros R1 R2 R3; pose proof (L0 _ _ R2 Ev); lia|split; [discriminate|reflexivity]]].
  rewrite Ew. cbn [bind]. destruct (X =? zlen w0) eqn:X3; cbn [negb]; [|split; [intros R1 R2 R3; pose proof (L0 _ _ R3 Ew); lia|split; [discriminate|reflexivity]]].
  split; [intros; eexists; reflexivity|]. split; [|intros H; exfalso; eapply H; reflexivity]. intros S _. right. intros f [<- |[<- |[<- |[]]]]; (split; [lia|eexists; split; [eassumption|lia]]).
Qed.
Lemma c109_refuted : forall k, exists g S, is_grid G0 Cartesian 1 1 [[qz 0]] [[qz 0]] g /\ mk_spatial k g [[fz (-1)]] [[NaN]] [[fz 0]] default_min_rho = Ok S.
Proof.
  intros k.
  destruct (mk_grid G0 (mFin [[qz 0]]) (mFin [[qz 0]]) [] [] Cartesian) as [g| | |] eqn:Eg; try (vm_compute in Eg; discriminate).
  assert (RE : rect 1 1 [[qz 0]]). { split; [reflexivity|]. intros r [<-|[]]. reflexivity. }
  exists g. eexists. split. { repeat (split; [lia|]). split; [apply RE|]. split; [apply RE|]. exists [], []. auto. }
  unfold mk_spatial. cbn [is_1x1]. reflexivity.
Qed.
