From Coq Require Import Ascii String Lia.
From Verif Require Import Base ListLib QcTac M_COpt P_COpt M_CUtil S_CUtil P_CUtil M_CCal S_CCal P_CCal M_CDown M_CFile P_CFile M_CNc S_CNc P_CNc P_CNc2 P_CNc3 P_CNc4.
Local Open Scope Z_scope.

Section All.
Context (R : roles) (d : dims).
Hypotheses (HP : proper R) (Hd : 0 <= d_t d).
Definition kept (X X' : netcdf) : Prop := forall k, match znth (x_dims X) k with
  | Ok (n, u) => exists m, znth (x_dims X') k = Ok (m, u) /\ n <= m /\ (k <> r_t R -> m = n)
  | r => znth (x_dims X') k = r end.
Lemma kept_refl X : kept X X.
Proof. intros k. destruct (znth (x_dims X) k) as [[n u]| | |]; auto. exists n. split; [auto|]. split; [lia|auto]. Qed.
Lemma kept_trans X Y W : kept X Y -> kept Y W -> kept X W.
Proof.
  intros A B k. specialize (A k). specialize (B k). destruct (znth (x_dims X) k) as [[n u]| | |]; try (rewrite A in B; exact B). destruct A as (m & A1 & A2 & A3). rewrite A1 in B. destruct B as (p & B1 & B2 & B3). exists p. split; [auto|]. split; [lia|]. intros N. rewrite B3, A3 by auto. reflexivity.
Qed.
Lemma kept_size X X' k : kept X X' -> k <> r_t R -> dim_size X' k = dim_size X k.
Proof. intros A N. specialize (A k). unfold dim_size. destruct (znth (x_dims X) k) as [[n u]| | |]; [|rewrite A; auto ..]. destruct A as (m & -> & _ & A3). cbn. auto. Qed.
Lemma kept_grows X X' k : kept X X' -> dim_size X k <= dim_size X' k.
Proof. intros A. specialize (A k). unfold dim_size. destruct (znth (x_dims X) k) as [[n u]| | |]; [|rewrite A; lia ..]. destruct A as (m & -> & A2 & _). cbn. auto. Qed.
Lemma kept_in X X' k : kept X X' -> 0 <= k < zlen (x_dims X) -> 0 <= k < zlen (x_dims X').
Proof. intros A H. specialize (A k). destruct (znth_some _ _ H) as [[n u] E]. rewrite E in A. destruct A as (m & A1 & _). apply znth_range in A1. exact A1. Qed.
Lemma kept_sound X X' v : kept X X' -> sound X v -> sound X' v.
Proof. intros A [N H]. split; [auto|]. intros k Hk. eapply kept_in; eauto. Qed.
Lemma kept_fits X X' : kept X X' -> fits X R d -> fits X' R d.
Proof.
  intros A (F1 & F2 & F3 & F4 & F5 & F6). pose proof (proper_ne R HP) as (P1 & P2 & P3 & _). repeat split; auto; intros N; rewrite (kept_size X X') by (auto; intros E; lia); auto.
Qed.
Lemma kept_room X X' ds : kept X X' -> room X R d ds -> room X' R d ds.
Proof.
  intros A [H1 H2]. split.
  - intros i. destruct (H1 i) as [L|[n U]]; [left; pose proof (kept_grows X X' (r_t R) A); lia|right]. specialize (A (r_t R)). rewrite U in A. destruct A as (m & A1 & _). exists m. auto.
  - intros k Hk. rewrite (kept_size X X') by (auto; apply Hk). auto.
Qed.
Definition storable (v : nc_var) (fs : list field) : Prop := forall t f e y x w, 0 <= t < d_t d -> znth fs t = Ok f -> within d y x e -> f_get f y x e = Ok w -> exists s, n_store v (pack v w) = Some s.
Definition ok_for (X : netcdf) (v : nc_var) (fs : list field) : Prop := sound X v /\ room X R d (n_dims v) /\ fields_for d fs /\ storable v fs.
Definition done (X' : netcdf) (v v' : nc_var) (fs : list field) : Prop := same_form v v' /\
  (In (r_t R) (n_dims v) -> 0 < d_t d -> d_t d <= dim_size X' (r_t R)) /\
  (forall t e y x, 0 <= t < d_t d -> (In (r_t R) (n_dims v) \/ t = d_t d - 1) -> within d y x e -> covers R (n_dims v) e y x ->
     exists f w s, znth fs t = Ok f /\ f_get f y x e = Ok w /\ n_store v (pack v w) = Some s /\ n_data v' (at_dims R zero t e y x (n_dims v)) = s) /\
  (forall i, n_data v' i = n_data v i \/ exists t e y x, 0 <= t < d_t d /\ within d y x e /\ covers R (n_dims v) e y x /\ i = at_dims R zero t e y x (n_dims v)).
Lemma one_variable X n v fs : fits X R d -> find_name (x_vars X) n = Some v -> ok_for X v fs ->
  exists X' v', write_variable X R d n fs = Ok X' /\ kept X X' /\ (forall m, m <> n -> find_name (x_vars X') m = find_name (x_vars X) m) /\ find_name (x_vars X') n = Some v' /\ done X' v v' fs.
Proof.
  intros HF Hv (HS & HR & HFS & HST). destruct (write_ok X R d v n HP HF HS HR fs HFS) as (X' & EX & v' & V1 & V2 & V3 & V4 & V5 & V6); [|auto|auto|].
  - intros t f e y x w Ht Hf W _ Hw. eapply HST; eauto.
  - exists X', v'. split; [auto|]. split; [|split; [auto|split; [auto|]]].
    + intros k. specialize (V3 k). destruct (znth (x_dims X) k) as [[a u]| | |]; auto. destruct V3 as (m & A & B & C & _). exists m. auto.
    + split; [auto|]. split; [|split].
      * intros i P. specialize (V3 (r_t R)). destruct (dim_at X v HS _ i) as [u Hu]. rewrite Hu in V3. destruct V3 as (m & A & _ & _ & C). unfold dim_size. rewrite A. cbn. auto.
      * intros t e y x Ht HT W C. destruct (V5 t e y x Ht HT W C) as (s & (f & w & A1 & A2 & A3) & A4). exists f, w, s. auto.
      * exact V6.
Qed.
Lemma write_all vars : forall X, NoDup (map fst vars) -> fits X R d -> (forall n fs, In (n, fs) vars -> exists v, find_name (x_vars X) n = Some v /\ ok_for X v fs) ->
  exists X', foldM (fun X nf => write_variable X R d (fst nf) (snd nf)) X vars = Ok X' /\ kept X X' /\ (forall m, ~ In m (map fst vars) -> find_name (x_vars X') m = find_name (x_vars X) m) /\
    forall n fs, In (n, fs) vars -> exists v v', find_name (x_vars X) n = Some v /\ find_name (x_vars X') n = Some v' /\ done X' v v' fs.
Proof.
  induction vars as [|[n fs] vars IH]; intros X ND HF H; cbn [foldM].
  - exists X. split; [auto|]. split; [apply kept_refl|]. split; [auto|]. intros n fs [].
  - inversion ND as [|? ? N1 N2]; subst. destruct (H n fs (or_introl eq_refl)) as (v & Hv & Ov). destruct (one_variable X n v fs HF Hv Ov) as (X1 & v1 & E1 & K1 & O1 & F1 & D1). cbn [fst snd]. rewrite E1. cbn [bind].
    destruct (IH X1 N2 (kept_fits X X1 K1 HF)) as (X2 & E2 & K2 & O2 & R2).
    + intros m gs Hm. destruct (H m gs (or_intror Hm)) as (w & Hw & W1 & W2 & W3 & W4). exists w. split; [rewrite O1; [auto|]|].
      * intros ->. apply N1. apply (in_map fst) in Hm. exact Hm.
      * split; [eapply kept_sound; eauto|]. split; [eapply kept_room; eauto|auto].
    + exists X2. split; [auto|]. split; [eapply kept_trans; eauto|]. split.
      * intros m Hm. cbn [map fst] in Hm. rewrite O2, O1; auto; intros A; apply Hm; [left; auto|right; auto].
      * intros m gs [Q|Hm].
        { inversion Q; subst m gs. exists v, v1. split; [auto|]. split; [rewrite O2; auto|]. destruct D1 as (D1 & D2 & D3). split; [auto|]. split; [|auto]. intros i P. specialize (D2 i P). pose proof (kept_grows X1 X2 (r_t R) K2). lia. }
        { destruct (R2 m gs Hm) as (w & w' & A1 & A2 & A3). exists w, w'. split; [|auto]. rewrite <- O1; [auto|]. intros ->. apply N1. apply (in_map fst) in Hm. exact Hm. }
Qed.
End All.

(** the definitions *)
Definition blank (R : roles) : nc_var := {| n_dims := filter ivalid [r_t R; r_e R; r_y R; r_x R]; n_data := fun _ => fill_float; n_fill := None; n_scale := None; n_offset := None; n_store := Some |}.
Lemma define_all R (vars : list (str * list field)) : forall X, x_dims (fold_left (fun X nf => define_variable X R (fst nf)) vars X) = x_dims X /\
  forall n, find_name (x_vars (fold_left (fun X nf => define_variable X R (fst nf)) vars X)) n = match find_name (x_vars X) n with Some v => Some v | None => if in_dec (list_eq_dec ascii_dec) n (map fst vars) then Some (blank R) else None end.
Proof.
  induction vars as [|[m fs] vars IH]; intros X; cbn [fold_left].
  - split; [reflexivity|]. intros n. destruct (find_name (x_vars X) n); [auto|]. reflexivity.
  - destruct (IH (define_variable X R m)) as [A B]. cbn [fst] in *. split.
    + rewrite A. unfold define_variable. destruct (find_name (x_vars X) m); reflexivity.
    + intros n. rewrite B. clear A B IH. cbn [map fst]. unfold define_variable. destruct (find_name (x_vars X) m) eqn:F.
      * destruct (find_name (x_vars X) n) eqn:G; [auto|]. destruct (in_dec _ n (map fst vars)) as [i|i], (in_dec _ n (m :: map fst vars)) as [j|j]; auto; exfalso; [apply j; right; auto|destruct j; [congruence|auto]].
      * cbn [x_vars]. rewrite find_store. destruct (str_eqb_spec m n) as [->|N].
        { rewrite F. destruct (in_dec _ n (n :: map fst vars)) as [j|j]; [reflexivity|]. exfalso. apply j. left; auto. }
        { destruct (find_name (x_vars X) n) eqn:G; [auto|]. destruct (in_dec _ n (map fst vars)) as [i|i], (in_dec _ n (m :: map fst vars)) as [j|j]; auto; exfalso; [apply j; right; auto|destruct j; [congruence|auto]]. }
Qed.
Lemma ivalid_ne k : ivalid k = true <-> k <> -999.
Proof. unfold ivalid. rewrite negb_true_iff, Z.eqb_neq. reflexivity. Qed.
Lemma proper_of a b c e : (a = b -> a = -999) -> (a = c -> a = -999) -> (a = e -> a = -999) -> (b = c -> b = -999) -> (b = e -> b = -999) -> (c = e -> c = -999) -> proper {| r_t := a; r_e := b; r_y := c; r_x := e |}.
Proof.
  intros H1 H2 H3 H4 H5 H6 i j p q Hi Hj E N. cbn [r_t r_e r_y r_x] in *. subst q.
  assert (forall k z, znth [a; b; c; e] k = Ok z -> (k = 0 /\ z = a) \/ (k = 1 /\ z = b) \/ (k = 2 /\ z = c) \/ (k = 3 /\ z = e)) as K.
  { intros k z Hk. pose proof (znth_range _ _ _ Hk) as Rk. change (zlen [a; b; c; e]) with 4 in Rk. assert (k = 0 \/ k = 1 \/ k = 2 \/ k = 3) as [->|[->|[->| ->]]] by lia; cbn in Hk; inversion Hk; auto. }
  apply K in Hi, Hj. clear K. destruct Hi as [[-> A]|[[-> A]|[[-> A]|[-> A]]]], Hj as [[-> B]|[[-> B]|[[-> B]|[-> B]]]]; try reflexivity; exfalso; apply N;
    match goal with H : ?u = ?v -> ?u = -999 |- _ => first [rewrite A; assert (u = v) by congruence; rewrite <- A; transitivity u; [congruence|auto]] end.
Qed.
Lemma blank_ok X R : proper R -> known X R -> sound X (blank R) /\ complete R (n_dims (blank R)) /\ (forall k, ~ extra R (n_dims (blank R)) k).
Proof.
  intros P K. split; [split|split].
  - pose proof (proper_ne R P) as (P1 & P2 & P3 & P4 & P5 & P6). cbn [blank n_dims filter].
    destruct (ivalid (r_t R)) eqn:T1, (ivalid (r_e R)) eqn:T2, (ivalid (r_y R)) eqn:T3, (ivalid (r_x R)) eqn:T4; rewrite ?ivalid_ne in *; repeat constructor; cbn [In]; intros B; repeat destruct B as [B|B]; try contradiction; symmetry in B; auto.
  - intros k Hk. cbn [blank n_dims] in Hk. apply filter_In in Hk as [H1 H2]. apply ivalid_ne in H2. destruct (K k H1); [contradiction|auto].
  - intros k H1 H2. cbn [blank n_dims]. apply filter_In. split; [auto|]. apply ivalid_ne. auto.
  - intros k (H1 & N1 & N2 & N3 & N4). cbn [blank n_dims] in H1. apply filter_In in H1 as [H1 _]. cbn [In] in H1. intuition congruence.
Qed.
Lemma proper_t a b c e n : proper {| r_t := a; r_e := b; r_y := c; r_x := e |} -> n <> b -> n <> c -> n <> e -> proper {| r_t := n; r_e := b; r_y := c; r_x := e |}.
Proof. intros P N1 N2 N3. apply proper_ne in P as (_ & _ & _ & P4 & P5 & P6). cbn [r_t r_e r_y r_x] in *. apply proper_of; auto; intros; contradiction. Qed.
Lemma proper_e a b c e n : proper {| r_t := a; r_e := b; r_y := c; r_x := e |} -> n <> a -> n <> c -> n <> e -> proper {| r_t := a; r_e := n; r_y := c; r_x := e |}.
Proof. intros P N1 N2 N3. apply proper_ne in P as (_ & P2 & P3 & _ & _ & P6). cbn [r_t r_e r_y r_x] in *. apply proper_of; auto; intros; subst; contradiction. Qed.
Lemma dim_app X n u k : 0 <= k < zlen (x_dims X) -> znth (x_dims X ++ [(n, u)]) k = znth (x_dims X) k.
Proof. intros H. apply znth_app_l. lia. Qed.
Lemma dims_defined X R d X1 R1 : proper R -> known X R -> fits X R d -> time_ready X R d -> define_dims X R d = (X1, R1) ->
  x_vars X1 = x_vars X /\ (forall k, 0 <= k < zlen (x_dims X) -> znth (x_dims X1) k = znth (x_dims X) k) /\ zlen (x_dims X) <= zlen (x_dims X1) /\ proper R1 /\ known X1 R1 /\ fits X1 R1 d /\
  r_t R1 <> -999 /\ (d_t d <= dim_size X1 (r_t R1) \/ unlimited X1 (r_t R1)) /\ (r_t R <> -999 -> r_t R1 = r_t R) /\ (r_e R <> -999 \/ d_e d = 1 -> r_e R1 = r_e R) /\ (r_e R1 = -999 -> d_e d = 1) /\ r_y R1 = r_y R /\ r_x R1 = r_x R.
Proof.
  intros P K F T D. destruct R as [rt re ry rx]. unfold time_ready in T. cbn [r_t r_e r_y r_x] in *. unfold define_dims in D. cbn [r_t r_e r_y r_x] in D. pose proof F as (F1 & F2 & F3 & F4 & F5 & F6). cbn [r_t r_e r_y r_x] in *.
  unfold known in K. cbn [r_t r_e r_y r_x In] in K.
  assert (rt = -999 \/ 0 <= rt < zlen (x_dims X)) as Kt by (apply K; auto). assert (re = -999 \/ 0 <= re < zlen (x_dims X)) as Ke by (apply K; auto). assert (ry = -999 \/ 0 <= ry < zlen (x_dims X)) as Ky by (apply K; auto). assert (rx = -999 \/ 0 <= rx < zlen (x_dims X)) as Kx by (apply K; auto). clear K.
  set (N := zlen (x_dims X)) in *. assert (0 <= N) as HN by apply zlen_nonneg.
  (* the time *)
  assert (exists X2 t2, (match find_name (x_vars X) (txt "time") with Some _ => (X, rt) | None => if ivalid rt then (X, rt) else add_dim X 0 true end) = (X2, t2) /\ x_vars X2 = x_vars X /\ (forall k, 0 <= k < N -> znth (x_dims X2) k = znth (x_dims X) k) /\ N <= zlen (x_dims X2) /\ 0 <= t2 < zlen (x_dims X2) /\
    (d_t d <= dim_size X2 t2 \/ unlimited X2 t2) /\ (rt <> -999 -> t2 = rt) /\ (rt = -999 -> t2 = N)) as (X2 & t2 & E2 & V2 & D2 & L2 & R2 & U2 & S2 & S3).
  { destruct T as [[-> T]|[T1 T2]].
    - rewrite T. cbn. eexists _, _. split; [reflexivity|]. cbn [x_vars x_dims]. split; [auto|]. split; [intros k Hk; apply dim_app; auto|]. rewrite zlen_app, zlen_cons. change (zlen (@nil (Z * bool))) with 0. split; [lia|]. split; [fold N; lia|]. split; [|split; [congruence|auto]]. right. exists 0. cbn [x_dims]. rewrite znth_app_r by lia. rewrite Z.sub_diag. reflexivity.
    - exists X, rt. split; [|repeat split; auto; lia]. destruct (find_name (x_vars X) (txt "time")); [auto|]. assert (ivalid rt = true) as -> by (apply ivalid_ne; auto). reflexivity. }
  rewrite E2 in D. clear E2.
  assert (proper {| r_t := t2; r_e := re; r_y := ry; r_x := rx |}) as Pt by (destruct (Z.eq_dec rt (-999)) as [Q1|Q1]; [rewrite (S3 Q1); apply (proper_t rt); auto; clear - Ke Ky Kx HN; lia|rewrite (S2 Q1); exact P]).
  assert (forall r n, (r = -999 \/ 0 <= r < N) -> (r <> -999 -> dim_size X r = n) -> r <> -999 -> dim_size X2 r = n) as SZ. { intros r n Kr Hr Nr. destruct Kr as [|Kr]; [contradiction|]. rewrite <- (Hr Nr). unfold dim_size. rewrite D2 by auto. reflexivity. }
  destruct (negb (ivalid re) && (1 <? d_e d)) eqn:B.
  - apply andb_prop in B as [B1 B2]. apply Z.ltb_lt in B2. apply negb_true_iff in B1. assert (re = -999) as -> by (unfold ivalid in B1; apply negb_false_iff, Z.eqb_eq in B1; auto). unfold add_dim in D. inversion D; subst X1 R1. clear D. cbn [x_vars x_dims r_t r_e r_y r_x].
    set (X1 := {| x_dims := x_dims X2 ++ [(d_e d, false)]; x_vars := x_vars X2 |}). assert (forall k, 0 <= k < zlen (x_dims X2) -> znth (x_dims X1) k = znth (x_dims X2) k) as D1 by (intros k Hk; apply dim_app; auto).
    assert (zlen (x_dims X1) = zlen (x_dims X2) + 1) as L1 by (cbn [X1 x_dims]; rewrite zlen_app, zlen_cons; reflexivity).
    assert (forall r n, (r = -999 \/ 0 <= r < N) -> (r <> -999 -> dim_size X r = n) -> r <> -999 -> dim_size X1 r = n) as SZ1. { intros r n Kr Hr Nr. rewrite <- (SZ r n Kr Hr Nr). destruct Kr as [|Kr]; [contradiction|]. unfold dim_size. rewrite D1 by lia. reflexivity. }
    split; [auto|]. split; [intros k Hk; change (x_dims X2 ++ [(d_e d, false)]) with (x_dims X1); rewrite D1 by lia; auto|]. split; [change (x_dims X2 ++ [(d_e d, false)]) with (x_dims X1); lia|].
    split; [apply (proper_e _ (-999)); [exact Pt|lia|lia|lia]|].
    split; [intros r Hr; cbn [r_t r_e r_y r_x In] in Hr; rewrite L1; clear - Hr R2 Kt Ky Kx L2 HN; lia|]. split.
      { split; [auto|]. split; [auto|]. split; [auto|]. cbn [r_y r_x r_e]. split; [eapply SZ1; eauto|]. split; [eapply SZ1; eauto|]. intros _. unfold dim_size. cbn [X1 x_dims]. rewrite znth_app_r by lia. rewrite Z.sub_diag. reflexivity. }
      split; [lia|]. split; [|split; [auto|split; [intros [?|?]; [congruence|lia]|split; [intros; lia|auto]]]]. destruct U2 as [U2|[n U2]]; [left; unfold dim_size in *; rewrite D1 by auto; auto|right; exists n; rewrite D1 by auto; auto].
  - inversion D; subst X1 R1. clear D. cbn [r_t r_e r_y r_x]. split; [auto|]. split; [auto|]. split; [auto|].
    split; [exact Pt|].
    split; [intros r Hr; cbn [r_t r_e r_y r_x In] in Hr; clear - Hr R2 Ke Ky Kx L2 HN; lia|]. split; [split; [auto|]; split; [auto|]; split; [auto|]; cbn [r_y r_x r_e]; split; [eapply SZ; eauto|split; eapply SZ; eauto]|].
    split; [lia|]. split; [auto|]. split; [auto|]. split; [auto|]. split; [|auto]. intros ->. cbn in B. apply Z.ltb_ge in B. lia.
Qed.
(** writing *)
Lemma nc_write_ok X R d vars : can_write X R d vars -> (forall n fs v, In (n, fs) vars -> find_name (x_vars X) n = Some v -> storable d v fs) ->
  exists X' R', nc_write X R d vars = Ok (X', R') /\ proper R' /\ fits X' R' d /\ r_y R' = r_y R /\ r_x R' = r_x R /\ (r_t R <> -999 -> r_t R' = r_t R) /\ (r_e R <> -999 -> r_e R' = r_e R) /\ r_t R' <> -999 /\ (r_e R' = -999 -> d_e d = 1) /\
    (forall k, 0 <= k < zlen (x_dims X) -> k <> r_t R -> dim_size X' k = dim_size X k) /\
    (forall n, ~ In n (map fst vars) -> find_name (x_vars X') n = find_name (x_vars X) n) /\
    forall n fs, In (n, fs) vars -> exists v v', (find_name (x_vars X) n = Some v \/ (find_name (x_vars X) n = None /\ v = blank R')) /\ find_name (x_vars X') n = Some v' /\ sound X' v' /\ complete R' (n_dims v') /\
      (forall k, extra R' (n_dims v') k -> 1 <= dim_size X' k) /\ done R' d X' v v' fs.
Proof.
  intros (P & K & F & Hd & T & ND & H) ST. unfold nc_write. destruct (define_dims X R d) as [X1 R1] eqn:D. destruct (dims_defined X R d X1 R1 P K F T D) as (V1 & D1 & L1 & P1 & K1 & F1 & T1 & U1 & S1 & S2 & S3 & S4 & S5).
  destruct (define_all R1 vars X1) as [A1 A2]. set (X2 := fold_left (fun X nf => define_variable X R1 (fst nf)) vars X1) in *. rewrite V1 in A2.
  assert (forall k, dim_size X2 k = dim_size X1 k) as Z2 by (intros k; unfold dim_size; rewrite A1; reflexivity).
  assert (forall k, 0 <= k < zlen (x_dims X) -> dim_size X2 k = dim_size X k) as Z1 by (intros k Hk; rewrite Z2; unfold dim_size; rewrite D1 by auto; reflexivity).
  assert (fits X2 R1 d) as F2 by (destruct F1 as (Q1 & Q2 & Q3 & Q4); repeat split; auto; intros; rewrite Z2; apply Q4; auto).
  assert (forall n fs, In (n, fs) vars -> exists v, find_name (x_vars X2) n = Some v /\ (find_name (x_vars X) n = Some v \/ (find_name (x_vars X) n = None /\ v = blank R1)) /\ complete R1 (n_dims v) /\ ok_for R1 d X2 v fs) as OK.
  { intros n fs Hn. destruct (H n fs Hn) as [H1 H2]. rewrite A2. destruct (find_name (x_vars X) n) as [v|] eqn:Fn.
    - exists v. split; [auto|]. split; [auto|]. destruct (H2 v eq_refl) as (G1 & G2 & G3 & G4 & G5). assert (R1 = R) as -> by (destruct R, R1; cbn in *; f_equal; auto). split; [auto|]. split; [|split; [|split; [auto|]]].
      + destruct G1 as [G1 G1']. split; [auto|]. intros k Hk. rewrite A1. specialize (G1' k Hk). lia.
      + split; [intros i; destruct U1 as [U1|[m U1]]; [left; rewrite Z2; auto|right; exists m; rewrite A1; auto]|]. intros k Hk. rewrite Z1 by (apply G1; apply Hk). auto.
      + eapply ST; eauto.
    - destruct (in_dec _ n (map fst vars)) as [i|i]; [|exfalso; apply i; apply (in_map fst) in Hn; exact Hn]. exists (blank R1). split; [auto|]. split; [auto|]. assert (known X2 R1) as K2 by (intros r Hr; rewrite A1; auto). destruct (blank_ok X2 R1 P1 K2) as (B1 & B2 & B3). split; [auto|]. split; [auto|]. split; [|split; [auto|]].
      + split; [intros _; destruct U1 as [U1|[m U1]]; [left; rewrite Z2; auto|right; exists m; rewrite A1; auto]|]. intros k Hk. exfalso. eapply B3; eauto.
      + intros t f e y x w _ _ _ _. cbn. eauto. }
  destruct (write_all R1 d P1 Hd vars X2 ND F2) as (X' & E & KE & O & RW). { intros n fs Hn. destruct (OK n fs Hn) as (v & Q1 & _ & _ & Q2). exists v. auto. }
  rewrite E. cbn [bind]. exists X', R1. split; [reflexivity|]. split; [auto|]. split; [eapply kept_fits; eauto|]. split; [auto|]. split; [auto|]. split; [auto|]. split; [auto|]. split; [auto|]. split; [auto|]. split; [|split].
  - intros k Hk Nk. rewrite (kept_size R1 X2 X' k KE); [auto|]. destruct (Z.eq_dec (r_t R) (-999)) as [Q|Q]; [|rewrite S1 by auto; auto]. intros ->. 
    clear - D Q T Hk. unfold define_dims in D. destruct T as [[_ T]|[T _]]; [|contradiction]. rewrite T, Q in D. cbn in D. destruct (negb (ivalid (r_e R)) && (1 <? d_e d)); inversion D; subst R1; cbn [r_t] in Hk; lia.
  - intros n Hn. rewrite O by auto. rewrite A2. destruct (find_name (x_vars X) n); [auto|]. destruct (in_dec _ n (map fst vars)); [contradiction|auto].
  - intros n fs Hn. destruct (OK n fs Hn) as (v & Q1 & Q2 & Q3 & Q4 & Q5 & _). destruct (RW n fs Hn) as (w & v' & W1 & W2 & W3). rewrite Q1 in W1. inversion W1; subst w. exists v, v'. pose proof W3 as [(SF & _) _]. split; [auto|]. split; [auto|]. split; [|split; [|split; [|auto]]].
    + apply (kept_sound R1 X2 X' v' KE). destruct Q4. split; rewrite SF; auto.
    + rewrite SF. auto.
    + intros k Hk. rewrite SF in Hk. rewrite (kept_size R1 X2 X' k KE) by apply Hk. apply Q5. auto.
Qed.
