From Coq Require Import Ascii String Lia.
From Verif Require Import Base ListLib QcTac M_COpt P_COpt M_CUtil S_CUtil P_CUtil M_CCal S_CCal P_CCal M_CDown M_CFile P_CFile M_CNc S_CNc P_CNc P_CNc2 P_CNc3.
Local Open Scope Z_scope.

Definition zero : Z -> Z := fun _ => 0.
Lemma at_dims_ext R o1 o2 t e y x ds : (forall k, extra R ds k -> o1 k = o2 k) -> at_dims R o1 t e y x ds = at_dims R o2 t e y x ds.
Proof.
  intros H. unfold at_dims. apply map_ext_in. intros k Hk. unfold at_dim. destruct (Z.eqb_spec k (r_t R)); [auto|]. destruct (Z.eqb_spec k (r_e R)); [auto|]. destruct (Z.eqb_spec k (r_y R)); [auto|]. destruct (Z.eqb_spec k (r_x R)); [auto|]. apply H. repeat split; auto.
Qed.
Lemma other_none X : forall k, other X (-999) k = 0.
Proof. intros k. reflexivity. Qed.
Section Write.
Context (X0 : netcdf) (R : roles) (d : dims) (v0 : nc_var) (name : str).
Hypotheses (HP : proper R) (HF : fits X0 R d) (HS : sound X0 v0).
Let ds := n_dims v0.
Let count := map (count_at X0 R) ds.
Let E := nE X0 R v0.
Let Y := nY X0 R v0.
Let Xn := nX X0 R v0.
Lemma E_eq : E = if in_dec Z.eq_dec (r_e R) ds then dim_size X0 (r_e R) else 1.
Proof. reflexivity. Qed.
Lemma Y_eq : Y = if in_dec Z.eq_dec (r_y R) ds then dim_size X0 (r_y R) else 1.
Proof. reflexivity. Qed.
Lemma X_eq : Xn = if in_dec Z.eq_dec (r_x R) ds then dim_size X0 (r_x R) else 1.
Proof. reflexivity. Qed.
Lemma ds_pos k : In k ds -> 0 <= k.
Proof. apply (dims_pos X0 v0 HS). Qed.
Lemma axis_pos r n : (r <> -999 -> dim_size X0 r = n) -> 1 <= n -> 1 <= (if in_dec Z.eq_dec r ds then dim_size X0 r else 1) <= n.
Proof. intros H Hn. destruct (in_dec Z.eq_dec r ds) as [i|]; [rewrite H; [lia|]|lia]. apply ds_pos in i. lia. Qed.
Lemma sizes_pos : 1 <= E <= d_e d /\ 1 <= Y <= d_y d /\ 1 <= Xn <= d_x d.
Proof. destruct HF as (F1 & F2 & F3 & F4 & F5 & F6). split; [|split]; apply axis_pos; auto. Qed.
Lemma count_pos k : In k ds -> 1 <= count_at X0 R k.
Proof.
  intros Hk. pose proof (ds_pos k Hk) as Pk. destruct sizes_pos as (A & B & C). destruct (count_role X0 R v0 HP HS k Hk) as (K1 & K2 & K3). fold E Y Xn in K1, K2, K3.
  destruct (cases R k HP Pk) as [D|[D|[D|[D|D]]]]; decompose [and] D.
  - unfold count_at. match goal with H : (k =? r_t R) = _ |- _ => rewrite H end. lia.
  - rewrite K1 by auto. lia.
  - rewrite K2 by auto. lia.
  - rewrite K3 by auto. lia.
  - unfold count_at. repeat match goal with H : (_ =? _) = _ |- _ => rewrite H end. cbn [orb]. lia.
Qed.
Lemma count_nonneg c : In c count -> 0 <= c.
Proof. intros H. unfold count in H. apply in_map_iff in H as (k & <- & Hk). pose proof (count_pos k Hk). lia. Qed.
(** every index is that of an element *)
Lemma component r n idx : zlen idx = zlen ds -> 1 <= n -> (forall k, znth ds k = Ok r -> forall a, znth idx k = Ok a -> 0 <= a < n) ->
  exists a, 0 <= a < (if in_dec Z.eq_dec r ds then n else 1) /\ forall k, znth ds k = Ok r -> znth idx k = Ok a.
Proof.
  intros L Hn H. destruct (in_dec Z.eq_dec r ds) as [i|i].
  - destruct (In_znth _ _ i) as [k Hk]. pose proof (znth_range _ _ _ Hk) as Rk. rewrite <- L in Rk. destruct (znth_some _ _ Rk) as [a Ha]. exists a. split; [eapply H; eauto|]. intros k' Hk'. rewrite (NoDup_znth ds k' k r); auto. apply HS.
  - exists 0. split; [lia|]. intros k Hk. apply znth_In in Hk. contradiction.
Qed.
Lemma fits_znth c idx k a b : fits_in c idx -> znth c k = Ok a -> znth idx k = Ok b -> 0 <= b < a.
Proof.
  intros F. revert k. induction F as [|x y c idx H F IH]; intros k Ha Hb; [apply znth_range in Ha; change (zlen (@nil Z)) with 0 in Ha; lia|].
  pose proof (znth_range _ _ _ Ha). destruct (Z.eq_dec k 0) as [->|]; [rewrite znth_cons0 in *; congruence|]. rewrite znth_consS in Ha, Hb by lia. eapply IH; eauto.
Qed.
Lemma fits_len c idx : fits_in c idx -> zlen c = zlen idx.
Proof. induction 1; [reflexivity|rewrite !zlen_cons; lia]. Qed.
Lemma onto idx : fits_in count idx -> exists c, In c (elements E Y Xn) /\ idx = map (here R c) ds.
Proof.
  intros F. pose proof (fits_len _ _ F) as L. unfold count in L. rewrite zlen_map in L. symmetry in L. destruct sizes_pos as (SE & SY & SX).
  assert (forall r n, (forall k, In k ds -> k = r -> count_at X0 R k = n) -> forall k, znth ds k = Ok r -> forall a, znth idx k = Ok a -> 0 <= a < n) as B.
  { intros r n Hn k Hk a Ha. rewrite <- (Hn r (znth_In _ _ _ Hk) eq_refl). eapply fits_znth; [exact F| |exact Ha]. unfold count. rewrite znth_map, Hk. reflexivity. }
  destruct (component (r_e R) E idx L) as (e & He & Ke); [lia|apply B; intros k Hk; apply (count_role X0 R v0 HP HS k Hk)|].
  destruct (component (r_y R) Y idx L) as (y & Hy & Ky); [lia|apply B; intros k Hk; apply (count_role X0 R v0 HP HS k Hk)|].
  destruct (component (r_x R) Xn idx L) as (x & Hx & Kx); [lia|apply B; intros k Hk; apply (count_role X0 R v0 HP HS k Hk)|].
  exists (e, y, x). split.
  - apply in_elements. pose proof E_eq as QE. pose proof Y_eq as QY. pose proof X_eq as QX. destruct (in_dec Z.eq_dec (r_e R) ds), (in_dec Z.eq_dec (r_y R) ds), (in_dec Z.eq_dec (r_x R) ds); lia.
  - apply znth_ext; [rewrite zlen_map; auto|]. intros i Hi. rewrite znth_map. rewrite L in Hi. destruct (znth_some _ _ Hi) as [k Hk]. rewrite Hk. pose proof (ds_pos k (znth_In _ _ _ Hk)) as Pk. unfold here.
    assert (count_at X0 R k = 1 -> znth idx i = Ok 0) as Z1.
    { intros C1. rewrite <- L in Hi. destruct (znth_some _ _ Hi) as [a Ha]. rewrite Ha. f_equal. assert (0 <= a < 1); [|lia]. eapply fits_znth; [exact F| |exact Ha]. unfold count. rewrite znth_map, Hk, C1. reflexivity. }
    destruct (cases R k HP Pk) as [D|[D|[D|[D|D]]]]; decompose [and] D; repeat match goal with H : is_e _ _ = _ |- _ => rewrite H | H : is_y _ _ = _ |- _ => rewrite H | H : is_x _ _ = _ |- _ => rewrite H end.
    + apply Z1. unfold count_at. repeat match goal with H : (_ =? _) = _ |- _ => rewrite H end. reflexivity.
    + apply Ke. congruence.
    + apply Ky. congruence.
    + apply Kx. congruence.
    + apply Z1. unfold count_at. repeat match goal with H : (_ =? _) = _ |- _ => rewrite H end. reflexivity.
Qed.
Lemma here_role c : In c (elements E Y Xn) -> forall c', In c' (elements E Y Xn) -> map (here R c) ds = map (here R c') ds -> c = c'.
Proof.
  destruct c as [[e y] x]. intros Hc [[e' y'] x'] Hc' H. rewrite in_elements in Hc, Hc'. assert (forall k, In k ds -> here R (e, y, x) k = here R (e', y', x') k) as K by (apply ext_in_map; exact H). clear H.
  assert (e = e').
  { pose proof E_eq as Q. destruct (in_dec Z.eq_dec (r_e R) ds) as [i|i]; [|lia]. specialize (K _ i). unfold here in K. pose proof (ds_pos _ i) as Pk. destruct (cases R _ HP Pk) as [D|[D|[D|[D|D]]]]; decompose [and] D; pose proof (proper_ne R HP); try (exfalso; lia). repeat match goal with H : is_e _ _ = _ |- _ => rewrite H in K | H : is_y _ _ = _ |- _ => rewrite H in K | H : is_x _ _ = _ |- _ => rewrite H in K end. exact K. }
  assert (y = y').
  { pose proof Y_eq as Q. destruct (in_dec Z.eq_dec (r_y R) ds) as [i|i]; [|lia]. specialize (K _ i). unfold here in K. pose proof (ds_pos _ i) as Pk. destruct (cases R _ HP Pk) as [D|[D|[D|[D|D]]]]; decompose [and] D; pose proof (proper_ne R HP); try (exfalso; lia). repeat match goal with H : is_e _ _ = _ |- _ => rewrite H in K | H : is_y _ _ = _ |- _ => rewrite H in K | H : is_x _ _ = _ |- _ => rewrite H in K end. exact K. }
  assert (x = x').
  { pose proof X_eq as Q. destruct (in_dec Z.eq_dec (r_x R) ds) as [i|i]; [|lia]. specialize (K _ i). unfold here in K. pose proof (ds_pos _ i) as Pk. destruct (cases R _ HP Pk) as [D|[D|[D|[D|D]]]]; decompose [and] D; pose proof (proper_ne R HP); try (exfalso; lia). repeat match goal with H : is_e _ _ = _ |- _ => rewrite H in K | H : is_y _ _ = _ |- _ => rewrite H in K | H : is_x _ _ = _ |- _ => rewrite H in K end. exact K. }
  congruence.
Qed.
Lemma product_small : product count <= d_e d * d_y d * d_x d.
Proof.
  rewrite <- (zlen_indices count) by apply count_nonneg. destruct sizes_pos as (SE & SY & SX). apply Z.le_trans with (zlen (map (fun c => map (here R c) ds) (elements E Y Xn))).
  - unfold zlen. apply inj_le. apply NoDup_incl_length; [apply NoDup_indices; apply count_nonneg|]. intros idx Hi. apply in_indices in Hi. destruct (onto idx Hi) as (c & Hc & ->). apply in_map_iff. exists c. auto.
  - rewrite zlen_map, zlen_elements by lia. assert (Y * Xn <= d_y d * d_x d) by nia. nia.
Qed.
(** the array written *)
Definition at_element (c : Z * Z * Z) : Z := row_major count (map (here R c) ds).
Lemma at_element_range c : In c (elements E Y Xn) -> 0 <= at_element c < product count.
Proof. intros H. apply row_major_range. apply (here_fits X0 R v0 HP HS c H ds); auto. Qed.
Lemma at_element_inj c c' : In c (elements E Y Xn) -> In c' (elements E Y Xn) -> at_element c = at_element c' -> c = c'.
Proof.
  intros H H' K. apply here_role; auto. pose proof (indices_at _ _ (here_fits X0 R v0 HP HS c H ds (fun k i => i))) as A. pose proof (indices_at _ _ (here_fits X0 R v0 HP HS c' H' ds (fun k i => i))) as B. fold count in A, B. unfold at_element in K. rewrite K in A. rewrite A in B. inversion B. reflexivity.
Qed.
Lemma array_ok v f : of_size d f -> exists b, foldM (fun b c => i <- index_of (positions R ds) count c ;; let '(e, y, x) := c in value <- f_get f y x e ;; zset b i (Some (pack v value))) (init1 (d_e d * d_y d * d_x d) None) (elements E Y Xn) = Ok b /\
  zlen b = d_e d * d_y d * d_x d /\ forall e y x, In (e, y, x) (elements E Y Xn) -> exists w, f_get f y x e = Ok w /\ znth b (at_element (e, y, x)) = Ok (Some (pack v w)).
Proof.
  intros Sf. set (g := fun c : Z * Z * Z => let '(e, y, x) := c in pack v (match f_get f y x e with Ok w => w | _ => NaN end)). destruct HF as (F1 & F2 & F3 & _).
  assert (0 <= d_e d * d_y d * d_x d) as Pn by nia.
  destruct (fill_array at_element g (elements E Y Xn) (init1 (d_e d * d_y d * d_x d) None)) as (b & Eb & L & G & _).
  - intros c Hc. rewrite zlen_init1 by auto. pose proof (at_element_range c Hc). pose proof product_small. lia.
  - intros c c' Hc Hc' H. f_equal. apply at_element_inj; auto.
  - exists b. split; [|split].
    + rewrite <- Eb. apply foldM_ext_in. intros s [[e y] x] Hc. rewrite index_of_ok by (try apply HS; unfold count; rewrite zlen_map; reflexivity). cbn [bind]. destruct (of_size_get d f y x e Sf (elements_within X0 R d v0 HF HS e y x Hc)) as [w Hw]. rewrite Hw. cbn [bind]. unfold g. rewrite Hw. reflexivity.
    + rewrite L. apply zlen_init1. auto.
    + intros e y x Hc. destruct (of_size_get d f y x e Sf (elements_within X0 R d v0 HF HS e y x Hc)) as [w Hw]. exists w. split; [auto|]. rewrite G by auto. unfold g. rewrite Hw. reflexivity.
Qed.
Lemma start_ok t : set_if (time_position R ds) t (init1 (zlen ds) 0) = Ok (map (start_at X0 R (-999) t) ds).
Proof.
  replace (init1 (zlen ds) 0) with (map (fun _ : Z => 0) ds).
  2:{ unfold init1. apply znth_ext; [rewrite !zlen_map, zlen_zrange; pose proof (zlen_nonneg ds); lia|]. intros i Hi. rewrite zlen_map in Hi. rewrite !znth_map. destruct (znth_some ds i Hi) as [k ->]. rewrite znth_zrange by lia. reflexivity. }
  rewrite (set_if_map _ _ _ _ _ (time_spec R ds)).
  - f_equal. apply map_ext. intros k. unfold start_at. destruct (k =? r_t R); [reflexivity|]. destruct ((k =? r_e R) || (k =? r_y R) || (k =? r_x R)); reflexivity.
  - apply (once _ (r_t R)); [apply HS|]. intros k Hk. apply Z.eqb_eq. exact Hk.
Qed.
(** the file after some times *)
Definition sizes_kept (X : netcdf) (t : Z) : Prop := forall k, match znth (x_dims X0) k with
  | Ok (n, u) => exists m, znth (x_dims X) k = Ok (m, u) /\ n <= m /\ (k <> r_t R -> m = n) /\ (In (r_t R) ds -> k = r_t R -> 0 < t -> t <= m)
  | r => znth (x_dims X) k = r end.
Lemma dim_kept X t k : sizes_kept X t -> In k ds -> k <> r_t R -> dim_size X k = dim_size X0 k.
Proof.
  intros H Hk N. specialize (H k). destruct (dim_at X0 v0 HS k Hk) as [u Hu]. rewrite Hu in H. destruct H as (m & Hm & _ & K & _). unfold dim_size at 1. rewrite Hm. cbn. auto.
Qed.
Hypothesis HR : room X0 R d ds.
Lemma start_bounds t k : 0 <= t -> In k ds -> 0 <= start_at X0 R (-999) t k /\ (k <> r_t R -> start_at X0 R (-999) t k = 0 /\ count_at X0 R k <= dim_size X0 k) /\ (k = r_t R -> start_at X0 R (-999) t k = t /\ count_at X0 R k = 1).
Proof.
  intros Ht Hk. destruct HR as [_ HR2]. unfold start_at, count_at. destruct (Z.eqb_spec k (r_t R)) as [K|N].
  - split; [exact Ht|]. split; [intros N; contradiction|auto].
  - destruct ((k =? r_e R) || (k =? r_y R) || (k =? r_x R)) eqn:O.
    + split; [lia|]. split; [intros _; split; [reflexivity|lia]|intros K; contradiction].
    + rewrite other_none. split; [lia|]. split; [intros _; split; [reflexivity|]|intros K; contradiction].
      apply orb_false_elim in O as [O O3]. apply orb_false_elim in O as [O1 O2]. apply Z.eqb_neq in O1, O2, O3. apply HR2. repeat split; auto.
Qed.
Lemma allowed_write X t l : sizes_kept X t -> 0 <= t < d_t d -> (forall k, In k l -> In k ds) -> allowed X true l (map (start_at X0 R (-999) t) l) (map (count_at X0 R) l) = true.
Proof.
  intros K Ht. induction l as [|k l IH]; intros H; cbn [allowed map]; [reflexivity|]. assert (In k ds) as Hk by (apply H; left; auto). rewrite IH by (intros; apply H; right; auto).
  destruct (start_bounds t k ltac:(lia) Hk) as (B1 & B2 & B3). specialize (K k). destruct (dim_at X0 v0 HS k Hk) as [u Hu]. rewrite Hu in K. destruct K as (m & Hm & M1 & M2 & _). rewrite Hm. rewrite andb_true_r.
  replace (0 <=? start_at X0 R (-999) t k) with true by (symmetry; apply Z.leb_le; auto). cbn [andb]. destruct (Z.eq_dec k (r_t R)) as [e|n].
  - destruct (B3 e) as [-> ->]. subst k. destruct HR as [HR1 _]. destruct (HR1 Hk) as [L|[n' L]].
    + replace (t + 1 <=? m) with true by (symmetry; apply Z.leb_le; lia). reflexivity.
    + rewrite Hu in L. inversion L; subst. cbn [andb]. apply orb_true_r.
  - destruct (B2 n) as [-> B4]. rewrite (M2 n). replace (0 + count_at X0 R k <=? dim_size X0 k) with true by (symmetry; apply Z.leb_le; lia). reflexivity.
Qed.
Lemma grow_kept t l : 0 <= t -> (forall k, In k l -> In k ds) -> forall dl, (forall k, match znth (x_dims X0) k with Ok (n, u) => exists m, znth dl k = Ok (m, u) /\ n <= m /\ (k <> r_t R -> m = n) | r => znth dl k = r end) ->
  forall k, match znth (x_dims X0) k with Ok (n, u) => exists m, znth (grow_all dl l (map (start_at X0 R (-999) t) l) (map (count_at X0 R) l)) k = Ok (m, u) /\ n <= m /\ (k <> r_t R -> m = n) /\ (forall m', znth dl k = Ok (m', u) -> m' <= m) /\ (In k l -> k = r_t R -> t + 1 <= m)
    | r => znth (grow_all dl l (map (start_at X0 R (-999) t) l) (map (count_at X0 R) l)) k = r end.
Proof.
  intros Ht. induction l as [|a l IH]; intros H dl D k.
  - cbn [grow_all]. specialize (D k). destruct (znth (x_dims X0) k) as [[n u]| | |]; auto. destruct D as (m & Hm & M1 & M2). exists m. split; [auto|]. split; [auto|]. split; [auto|]. split; [|intros []]. intros m' Hm'. rewrite Hm in Hm'. inversion Hm'. lia.
  - assert (In a ds) as Ha by (apply H; left; auto). cbn [map grow_all]. destruct (start_bounds t a Ht Ha) as (B1 & B2 & B3).
    specialize (IH (fun k i => H k (or_intror i)) (grow dl a (start_at X0 R (-999) t a + count_at X0 R a))).
    assert (forall k, match znth (x_dims X0) k with Ok (n, u) => exists m, znth (grow dl a (start_at X0 R (-999) t a + count_at X0 R a)) k = Ok (m, u) /\ n <= m /\ (k <> r_t R -> m = n) | r => znth (grow dl a (start_at X0 R (-999) t a + count_at X0 R a)) k = r end) as D'.
    { intros k'. rewrite grow_at. specialize (D k'). destruct (znth (x_dims X0) k') as [[n u]| | |] eqn:E0; try (rewrite D; reflexivity). destruct D as (m & Hm & M1 & M2). rewrite Hm. eexists. split; [reflexivity|]. destruct (Z.eqb_spec k' a) as [->|]; [|auto]. split; [lia|]. intros N. destruct (B2 N) as [-> B4]. unfold dim_size in B4. rewrite E0 in B4. cbn in B4. rewrite M2 in * by auto. lia. }
    specialize (IH D' k). destruct (znth (x_dims X0) k) as [[n u]| | |] eqn:E0; auto. destruct IH as (m & Hm & M1 & M2 & M3 & M4). exists m. split; [auto|]. split; [auto|]. split; [auto|]. split.
    + intros m' Hm'. specialize (M3 (if k =? a then Z.max m' (start_at X0 R (-999) t a + count_at X0 R a) else m')). rewrite grow_at, Hm' in M3. specialize (M3 eq_refl). destruct (k =? a); lia.
    + intros [->|Hi] Hk; [|auto]. specialize (D k). rewrite E0 in D. destruct D as (m' & Hm' & _). specialize (M3 (Z.max m' (start_at X0 R (-999) t k + count_at X0 R k))). rewrite grow_at, Hm', Z.eqb_refl in M3. specialize (M3 eq_refl). destruct (B3 Hk) as [E1 E2]. rewrite E1, E2 in M3. lia.
Qed.
(** one time *)
Context (fields : list field).
Hypothesis Hfields : forall t, 0 <= t < d_t d -> exists f, znth fields t = Ok f /\ of_size d f.
Hypothesis Hstore : forall t f e y x w, 0 <= t < d_t d -> znth fields t = Ok f -> within d y x e -> covers R ds e y x -> f_get f y x e = Ok w -> exists s, n_store v0 (pack v0 w) = Some s.
Definition written (t e y x : Z) (s : val) : Prop := exists f w, znth fields t = Ok f /\ f_get f y x e = Ok w /\ n_store v0 (pack v0 w) = Some s.
Definition upto (t : Z) (X : netcdf) : Prop := exists v, find_name (x_vars X) name = Some v /\ same_form v0 v /\ sizes_kept X t /\
  (forall n, n <> name -> find_name (x_vars X) n = find_name (x_vars X0) n) /\
  (forall t' e y x, 0 <= t' < t -> (In (r_t R) ds \/ t' = t - 1) -> within d y x e -> covers R ds e y x -> exists s, written t' e y x s /\ n_data v (at_dims R zero t' e y x ds) = s) /\
  (forall i, n_data v i = n_data v0 i \/ exists t' e y x, 0 <= t' < t /\ within d y x e /\ covers R ds e y x /\ i = at_dims R zero t' e y x ds).
Definition one_time (X : netcdf) (t : Z) : res netcdf :=
  match find_name (x_vars X) name with
  | None => Abort
  | Some v =>
      start <- set_if (time_position R (n_dims v)) t (init1 (zlen (n_dims v)) 0) ;;
      f <- znth fields t ;;
      nE <- size_at count (fst (fst (positions R ds))) ;; nY <- size_at count (snd (fst (positions R ds))) ;; nX <- size_at count (snd (positions R ds)) ;;
      values <- foldM (fun b c => i <- index_of (positions R ds) count c ;; let '(e, y, x) := c in value <- f_get f y x e ;; zset b i (Some (pack v value)))
        (init1 (d_e d * d_y d * d_x d) None) (elements nE nY nX) ;;
      put_vara X name v start count values
  end.
Lemma pack_same v w : same_form v0 v -> pack v w = pack v0 w.
Proof. intros (_ & A & B & C & _). unfold pack, fill_of, scale_of, offset_of. rewrite A, B, C. reflexivity. Qed.
Lemma start_plus t c : plus (map (start_at X0 R (-999) t) ds) (map (here R c) ds) = let '(e, y, x) := c in at_dims R zero t e y x ds.
Proof. rewrite (plus_here X0 R v0 (-999) t HP HS c ds) by auto. destruct c as [[e y] x]. apply at_dims_ext. intros k _. reflexivity. Qed.
Lemma element_covers e y x : In (e, y, x) (elements E Y Xn) <-> within d y x e /\ covers R ds e y x.
Proof.
  split.
  - intros H. pose proof (elements_within X0 R d v0 HF HS e y x H) as W. split; [exact W|]. apply (covers_iff X0 R d v0 HF HS); auto.
  - intros [W C]. apply (covers_iff X0 R d v0 HF HS) in C; auto.
Qed.
Lemma size_axis r : (In r ds -> count_at X0 R r = dim_size X0 r) -> (if in_dec Z.eq_dec r ds then count_at X0 R r else 1) = (if in_dec Z.eq_dec r ds then dim_size X0 r else 1).
Proof. intros H. destruct (in_dec Z.eq_dec r ds); auto. Qed.
Lemma loop_sizes : size_at count (fst (fst (positions R ds))) = Ok E /\ size_at count (snd (fst (positions R ds))) = Ok Y /\ size_at count (snd (positions R ds)) = Ok Xn.
Proof.
  unfold count. rewrite size_e, size_y, size_x by (auto; apply ds_pos). unfold E, Y, Xn, nE, nY, nX. fold ds.
  assert (forall r, In r ds -> (count_at X0 R r = nE X0 R v0 -> r = r_e R -> count_at X0 R r = dim_size X0 r)) as _ by (intros r Hr C ->; unfold nE in C; fold ds in C; destruct (in_dec Z.eq_dec (r_e R) ds); [auto|contradiction]).
  split; [|split]; f_equal; apply size_axis; intros i; destruct (count_role X0 R v0 HP HS _ i) as (K1 & K2 & K3).
  - rewrite K1 by auto. unfold nE. fold ds. destruct (in_dec Z.eq_dec (r_e R) ds); [auto|contradiction].
  - rewrite K2 by auto. unfold nY. fold ds. destruct (in_dec Z.eq_dec (r_y R) ds); [auto|contradiction].
  - rewrite K3 by auto. unfold nX. fold ds. destruct (in_dec Z.eq_dec (r_x R) ds); [auto|contradiction].
Qed.
Lemma at_dims_time t t' e y x e' y' x' : In (r_t R) ds -> at_dims R zero t e y x ds = at_dims R zero t' e' y' x' ds -> t = t'.
Proof. intros i H. unfold at_dims in H. pose proof (ext_in_map H _ i) as K. unfold at_dim in K. rewrite Z.eqb_refl in K. exact K. Qed.
Lemma step X t : 0 <= t < d_t d -> upto t X -> exists X', one_time X t = Ok X' /\ upto (t + 1) X'.
Proof.
  intros Ht (v & Hv & SF & SK & OT & WR & UN). unfold one_time. rewrite Hv. pose proof SF as (D1 & _ & _ & _ & D5). rewrite D1. fold ds. rewrite start_ok. cbn [bind].
  destruct (Hfields t Ht) as (f & Ef & Sf). rewrite Ef. cbn [bind]. destruct loop_sizes as (-> & -> & ->). cbn [bind].
  destruct (array_ok v f Sf) as (b & Eb & Lb & Gb). rewrite Eb. cbn [bind]. unfold put_vara. rewrite D1. fold ds. fold count. unfold count at 1. rewrite (allowed_write X t ds SK Ht) by auto. cbn [negb].
  set (vals := fun k => match znth b k with Ok (Some x) => match n_store v x with Some y => y | None => NaN end | _ => NaN end).
  assert (forall k, 0 <= k < product count -> exists e y x w, In (e, y, x) (elements E Y Xn) /\ k = at_element (e, y, x) /\ f_get f y x e = Ok w /\ znth b k = Ok (Some (pack v w))) as SU.
  { intros k Hk. rewrite <- (zlen_indices count) in Hk by apply count_nonneg. destruct (znth_some _ _ Hk) as [idx Hidx]. pose proof (at_indices _ _ _ count_nonneg Hidx) as Ek. apply znth_In in Hidx. apply in_indices in Hidx. destruct (onto idx Hidx) as ([[e y] x] & Hc & ->). destruct (Gb e y x Hc) as (w & G1 & G2). exists e, y, x, w. split; [auto|]. split; [exact Ek|]. split; [auto|]. rewrite Ek. exact G2. }
  rewrite (mapM_ok _ vals).
  2:{ intros k Hk. apply in_zrange in Hk. destruct (SU k Hk) as (e & y & x & w & Hc & Ek & G1 & G2). unfold vals. rewrite G2. cbn [bind]. apply element_covers in Hc as [W C]. destruct (Hstore t f e y x w Ht Ef W C G1) as [s Hs]. rewrite (pack_same v w SF), D5, Hs. reflexivity. }
  cbn [bind]. eexists. split; [reflexivity|].
  set (data := fun i : list Z => _). exists (with_data v data). cbn [x_vars x_dims]. split; [rewrite find_store; destruct (str_eqb_spec name name); [reflexivity|congruence]|]. split; [exact SF|]. split; [|split; [|split]].
  - intros k. pose proof (grow_kept t ds ltac:(lia) (fun k i => i) (x_dims X)) as G. assert (forall k, match znth (x_dims X0) k with Ok (n, u) => exists m, znth (x_dims X) k = Ok (m, u) /\ n <= m /\ (k <> r_t R -> m = n) | r => znth (x_dims X) k = r end) as D. { intros k'. specialize (SK k'). destruct (znth (x_dims X0) k') as [[n u]| | |]; auto. destruct SK as (m & A & B & C & _). exists m. auto. } specialize (G D k). fold count in G. destruct (znth (x_dims X0) k) as [[n u]| | |]; auto. destruct G as (m & A & B & C & _ & F). exists m. split; [exact A|]. split; [auto|]. split; [auto|]. intros i -> _. auto.
  - intros n Hn. rewrite find_store. destruct (str_eqb_spec name n); [congruence|]. apply OT; auto.
  - intros t' e y x Ht' HT W C. cbn [with_data n_data]. assert (In (e, y, x) (elements E Y Xn)) as Hc by (apply element_covers; auto).
    assert (t' = t -> exists s, written t' e y x s /\ data (at_dims R zero t' e y x ds) = s) as Now.
    { intros ->. destruct (Gb e y x Hc) as (w & G1 & G2). destruct (Hstore t f e y x w Ht Ef W C G1) as [s Hs]. exists s. split; [exists f, w; auto|]. unfold data. pose proof (start_plus t (e, y, x)) as SP. rewrite <- SP.
      replace (in_slab _ count _) with true. 2:{ symmetry. apply in_slab_fits. rewrite minus_plus by (rewrite !zlen_map; auto). split; [|apply (here_fits X0 R v0 HP HS _ Hc ds); auto]. rewrite SP. unfold at_dims. rewrite !zlen_map. reflexivity. }
      rewrite minus_plus by (rewrite !zlen_map; auto). fold (at_element (e, y, x)). rewrite znth_map, znth_zrange by (pose proof (at_element_range _ Hc); lia). rewrite Z.add_0_l. unfold vals. rewrite G2, (pack_same v w SF), D5, Hs. reflexivity. }
    destruct (Z.eq_dec t' t) as [e0|n0]; [auto|]. destruct HT as [HT|?]; [|lia]. destruct (WR t' e y x ltac:(lia) (or_introl HT) W C) as (s & W1 & W2). exists s. split; [auto|]. unfold data.
    destruct (in_slab _ count _) eqn:Sl; [|exact W2]. exfalso. apply in_slab_fits in Sl as [L F]. destruct (onto _ F) as ([[e' y'] x'] & _ & Q). apply n0. eapply at_dims_time; [exact HT|]. etransitivity; [symmetry; apply plus_minus; exact L|]. rewrite Q, start_plus. reflexivity.
  - intros i. cbn [with_data n_data]. unfold data. destruct (in_slab _ count i) eqn:Sl.
    + right. apply in_slab_fits in Sl as [L F]. destruct (onto _ F) as ([[e y] x] & Hc & Q). exists t, e, y, x. split; [lia|]. apply element_covers in Hc as [W C]. split; [auto|]. split; [auto|]. rewrite <- (plus_minus _ _ L), Q, start_plus. reflexivity.
    + destruct (UN i) as [U|(t' & e & y & x & U1 & U2)]; [left; auto|right]. exists t', e, y, x. split; [lia|auto].
Qed.
Lemma write_ok : 0 <= d_t d -> find_name (x_vars X0) name = Some v0 -> exists X', write_variable X0 R d name fields = Ok X' /\ upto (d_t d) X'.
Proof.
  intros Hd Hv. unfold write_variable. rewrite Hv. fold ds. change (map (fun k => _) ds) with count. change (foldM (fun X t => _) X0 (zrange 0 (d_t d))) with (foldM one_time X0 (zrange 0 (d_t d))).
  apply (foldM_range one_time upto); [auto| |].
  - exists v0. split; [auto|]. split; [repeat split; auto|]. split; [|split; [auto|split; [intros; lia|auto]]]. intros k. destruct (znth (x_dims X0) k) as [[n u]| | |] eqn:K; auto. exists n. split; [auto|]. split; [lia|]. split; [auto|]. intros; lia.
  - intros t X Ht HX. apply step; auto.
Qed.
End Write.
