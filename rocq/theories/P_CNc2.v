From Coq Require Import Ascii String Lia.
From Verif Require Import Base ListLib QcTac M_COpt P_COpt M_CUtil S_CUtil P_CUtil M_CCal S_CCal P_CCal M_CDown M_CFile P_CFile M_CNc S_CNc P_CNc.
Local Open Scope Z_scope.

Lemma in_elements nE nY nX e y x : In (e, y, x) (elements nE nY nX) <-> 0 <= e < nE /\ 0 <= y < nY /\ 0 <= x < nX.
Proof.
  unfold elements. rewrite in_flat_map. split.
  - intros (e' & He & H). apply in_flat_map in H as (y' & Hy & H). apply in_map_iff in H as (x' & [= <- <- <-] & Hx). apply in_zrange in He, Hy, Hx. lia.
  - intros (He & Hy & Hx). exists e. split; [apply in_zrange; lia|]. apply in_flat_map. exists y. split; [apply in_zrange; lia|]. apply in_map. apply in_zrange. lia.
Qed.
(** index of an element *)
Definition here (R : roles) (c : Z * Z * Z) (k : Z) : Z := let '(e, y, x) := c in if is_x R k then x else if is_y R k then y else if is_e R k then e else 0.
Lemma is_e_eq R k : is_e R k = true -> k = r_e R.
Proof. unfold is_e. intros H. apply andb_prop in H as [_ H]. apply Z.eqb_eq. auto. Qed.
Lemma is_y_eq R k : is_y R k = true -> k = r_y R.
Proof. unfold is_y. intros H. apply andb_prop in H as [_ H]. apply Z.eqb_eq. auto. Qed.
Lemma is_x_eq R k : is_x R k = true -> k = r_x R.
Proof. unfold is_x. intros H. apply andb_prop in H as [_ H]. apply Z.eqb_eq. auto. Qed.
Lemma once (p : Z -> bool) r ds : NoDup ds -> (forall k, p k = true -> k = r) -> forall k k' d d', znth ds k = Ok d -> znth ds k' = Ok d' -> p d = true -> p d' = true -> k = k'.
Proof. intros N P k k' d d' H H' Pd Pd'. apply P in Pd, Pd'. subst. eapply NoDup_znth; eauto. Qed.
Lemma index_of_ok R ds count c : NoDup ds -> zlen count = zlen ds -> index_of (positions R ds) count c = Ok (row_major count (map (here R c) ds)).
Proof.
  intros N L. destruct c as [[e y] x]. unfold index_of. destruct (positions_spec R ds) as (P1 & P2 & P3). destruct (positions R ds) as [[pe py] px]. cbn [fst snd] in *.
  replace (init1 (zlen count) 0) with (map (fun _ : Z => 0) ds).
  2:{ rewrite L. unfold init1. apply znth_ext; [rewrite !zlen_map, zlen_zrange; pose proof (zlen_nonneg ds); lia|]. intros i Hi. rewrite zlen_map in Hi. rewrite !znth_map. destruct (znth_some ds i Hi) as [d ->]. rewrite znth_zrange by lia. reflexivity. }
  rewrite (set_if_map _ _ _ _ _ P1) by (apply (once _ (r_e R)); [auto|apply is_e_eq]). cbn [bind].
  rewrite (set_if_map _ _ _ _ _ P2) by (apply (once _ (r_y R)); [auto|apply is_y_eq]). cbn [bind].
  rewrite (set_if_map _ _ _ _ _ P3) by (apply (once _ (r_x R)); [auto|apply is_x_eq]). cbn [bind].
  rewrite nc_index_ok by (rewrite zlen_map; auto). reflexivity.
Qed.
Lemma proper_ne R : proper R -> (r_t R = r_e R -> r_t R = -999) /\ (r_t R = r_y R -> r_t R = -999) /\ (r_t R = r_x R -> r_t R = -999) /\ (r_e R = r_y R -> r_e R = -999) /\ (r_e R = r_x R -> r_e R = -999) /\ (r_y R = r_x R -> r_y R = -999).
Proof.
  intros H. repeat split; intros E; match goal with |- ?a = -999 => destruct (Z.eq_dec a (-999)) as [|N]; [auto|exfalso] end.
  - discriminate (H 0 1 (r_t R) (r_e R) eq_refl eq_refl E N).
  - discriminate (H 0 2 (r_t R) (r_y R) eq_refl eq_refl E N).
  - discriminate (H 0 3 (r_t R) (r_x R) eq_refl eq_refl E N).
  - discriminate (H 1 2 (r_e R) (r_y R) eq_refl eq_refl E N).
  - discriminate (H 1 3 (r_e R) (r_x R) eq_refl eq_refl E N).
  - discriminate (H 2 3 (r_y R) (r_x R) eq_refl eq_refl E N).
Qed.
(** which dimension is it *)
Lemma cases R k : proper R -> 0 <= k -> 
  (k = r_t R /\ (k =? r_t R) = true /\ is_e R k = false /\ is_y R k = false /\ is_x R k = false) \/
  (k = r_e R /\ (k =? r_t R) = false /\ (k =? r_e R) = true /\ is_e R k = true /\ is_y R k = false /\ is_x R k = false) \/
  (k = r_y R /\ (k =? r_t R) = false /\ (k =? r_e R) = false /\ (k =? r_y R) = true /\ is_e R k = false /\ is_y R k = true /\ is_x R k = false) \/
  (k = r_x R /\ (k =? r_t R) = false /\ (k =? r_e R) = false /\ (k =? r_y R) = false /\ (k =? r_x R) = true /\ is_e R k = false /\ is_y R k = false /\ is_x R k = true) \/
  (k <> r_t R /\ k <> r_e R /\ k <> r_y R /\ k <> r_x R /\ (k =? r_t R) = false /\ (k =? r_e R) = false /\ (k =? r_y R) = false /\ (k =? r_x R) = false /\ is_e R k = false /\ is_y R k = false /\ is_x R k = false).
Proof.
  intros P K. apply proper_ne in P as (P1 & P2 & P3 & P4 & P5 & P6). unfold is_e, is_y, is_x.
  destruct (Z.eqb_spec k (r_t R)) as [E1|E1]; [left; cbn [negb andb]; auto 6|]. right.
  destruct (Z.eqb_spec k (r_e R)) as [E2|E2]; [left; cbn [negb andb]; auto 7|]. right.
  destruct (Z.eqb_spec k (r_y R)) as [E3|E3]; [left; cbn [negb andb]; auto 8|]. right.
  destruct (Z.eqb_spec k (r_x R)) as [E4|E4]; [left|right]; cbn [negb andb]; auto 12.
Qed.
(** sizes of the loops *)
Lemma size_at_spec p ds (g : Z -> Z) a r : last_at p ds a -> (forall k, In k ds -> (p k = true <-> k = r)) -> size_at (map g ds) a = Ok (if in_dec Z.eq_dec r ds then g r else 1).
Proof.
  intros [[-> H]|(d & E & Pd & _)] I; unfold size_at, ivalid.
  - cbn. destruct (in_dec Z.eq_dec r ds) as [i|]; [|reflexivity]. exfalso. destruct (In_znth _ _ i) as [k Hk]. specialize (H _ _ Hk). destruct (I r i) as [_ I2]. rewrite I2 in H by auto. discriminate.
  - pose proof (znth_range _ _ _ E). replace (a =? -999) with false by (symmetry; apply Z.eqb_neq; lia). cbn [negb]. rewrite znth_map, E. apply znth_In in E. destruct (I d E) as [I1 _]. specialize (I1 Pd). subst d. destruct (in_dec Z.eq_dec r ds); [reflexivity|contradiction].
Qed.
Lemma size_e R ds g : proper R -> (forall k, In k ds -> 0 <= k) -> size_at (map g ds) (fst (fst (positions R ds))) = Ok (if in_dec Z.eq_dec (r_e R) ds then g (r_e R) else 1).
Proof. intros P N. apply (size_at_spec (is_e R)); [apply positions_spec|]. intros k Hk. destruct (cases R k P (N k Hk)) as [C|[C|[C|[C|C]]]]; decompose [and] C; split; intros; try congruence; exfalso; pose proof (proper_ne R P); pose proof (N k Hk); rewrite ?Z.eqb_neq in *; lia. Qed.
Lemma size_y R ds g : proper R -> (forall k, In k ds -> 0 <= k) -> size_at (map g ds) (snd (fst (positions R ds))) = Ok (if in_dec Z.eq_dec (r_y R) ds then g (r_y R) else 1).
Proof. intros P N. apply (size_at_spec (is_y R)); [apply positions_spec|]. intros k Hk. destruct (cases R k P (N k Hk)) as [C|[C|[C|[C|C]]]]; decompose [and] C; split; intros; try congruence; exfalso; pose proof (proper_ne R P); pose proof (N k Hk); rewrite ?Z.eqb_neq in *; lia. Qed.
Lemma size_x R ds g : proper R -> (forall k, In k ds -> 0 <= k) -> size_at (map g ds) (snd (positions R ds)) = Ok (if in_dec Z.eq_dec (r_x R) ds then g (r_x R) else 1).
Proof. intros P N. apply (size_at_spec (is_x R)); [apply positions_spec|]. intros k Hk. destruct (cases R k P (N k Hk)) as [C|[C|[C|[C|C]]]]; decompose [and] C; split; intros; try congruence; exfalso; pose proof (proper_ne R P); pose proof (N k Hk); rewrite ?Z.eqb_neq in *; lia. Qed.
(** writing elements of a field *)
Lemma set_elements d (g : Z * Z * Z -> val) l : forall f, of_size d f -> (forall e y x, In (e, y, x) l -> within d y x e) ->
  exists f', foldM (fun f c => let '(e, y, x) := c in f_set f y x e (g c)) f l = Ok f' /\ of_size d f' /\ forall e y x, within d y x e -> (In (e, y, x) l -> f_get f' y x e = Ok (g (e, y, x))) /\ (~ In (e, y, x) l -> f_get f' y x e = f_get f y x e).
Proof.
  induction l as [|[[e y] x] l IH]; intros f S W; cbn [foldM].
  - exists f. split; [auto|]. split; [auto|]. intros; split; [intros []|auto].
  - destruct (f_set_size d f y x e (g (e, y, x)) S (W _ _ _ (or_introl eq_refl))) as (f1 & E1 & S1 & G1 & O1). rewrite E1. cbn [bind]. destruct (IH f1 S1) as (f' & E' & S' & G'); [intros; apply W; right; auto|].
    exists f'. split; [exact E'|]. split; [exact S'|]. intros e' y' x' Hw. specialize (G' e' y' x' Hw) as [G2 G3]. assert ({In (e', y', x') l} + {~ In (e', y', x') l}) as [i|i] by (apply in_dec; repeat decide equality).
    + split; [auto|]. intros n. exfalso. apply n. right; auto.
    + split; intros H.
      * destruct H as [[= <- <- <-]|H]; [|contradiction]. rewrite G3; auto.
      * rewrite G3 by auto. apply O1; [auto|]. intros [= -> -> ->]. apply H. left; auto.
Qed.
Lemma foldM_ext_in {S A} (f g : S -> A -> res S) l : (forall s a, In a l -> f s a = g s a) -> forall s, foldM f s l = foldM g s l.
Proof.
  induction l as [|a l IH]; intros H s; cbn [foldM]; [reflexivity|]. rewrite (H s a) by (left; auto). destruct (g s a); cbn [bind]; auto. apply IH. intros; apply H; right; auto.
Qed.
Section Read.
Context (X : netcdf) (R : roles) (d : dims) (v : nc_var) (level t : Z).
Hypotheses (HP : proper R) (HF : fits X R d) (HS : sound X v) (HA : available X R (n_dims v) level t).
Let ds := n_dims v.
Definition other (k : Z) : Z := level_in X level k.
Definition start_at (k : Z) : Z := if k =? r_t R then t else if (k =? r_e R) || (k =? r_y R) || (k =? r_x R) then 0 else other k.
Definition count_at (k : Z) : Z := if k =? r_t R then 1 else if (k =? r_e R) || (k =? r_y R) || (k =? r_x R) then dim_size X k else 1.
Lemma dims_pos k : In k ds -> 0 <= k.
Proof. intros H. apply HS in H. lia. Qed.
Lemma slice_ok k : In k ds -> slice X R level t k = Ok (start_at k, count_at k).
Proof.
  intros Hk. unfold slice, start_at, count_at, other, level_in. destruct (k =? r_t R) eqn:E1; [reflexivity|]. destruct ((k =? r_e R) || (k =? r_y R) || (k =? r_x R)) eqn:E2; [reflexivity|].
  apply orb_false_elim in E2 as [E2 E4]. apply orb_false_elim in E2 as [E2 E3]. apply Z.eqb_neq in E1, E2, E3, E4. destruct HA as [_ A]. destruct (A k) as [A1 A2]; [repeat split; auto|]. unfold ivalid.
  destruct (Z.eqb_spec level (-999)) as [->|N]; [reflexivity|]. cbn [negb andb orb]. destruct (Z.ltb_spec 1 (dim_size X k)) as [L|L].
  - destruct (A2 L) as [?|A3]; [congruence|]. replace (dim_size X k <=? level) with false by (symmetry; apply Z.leb_gt; lia). replace (dim_size X k <=? 1) with false by (symmetry; apply Z.leb_gt; lia). reflexivity.
  - replace (dim_size X k <=? 1) with true by (symmetry; apply Z.leb_le; lia). reflexivity.
Qed.
Lemma slices_ok : mapM (slice X R level t) ds = Ok (map (fun k => (start_at k, count_at k)) ds).
Proof. apply mapM_ok. intros k Hk. apply slice_ok. exact Hk. Qed.
Lemma dim_at k : In k ds -> exists u, znth (x_dims X) k = Ok (dim_size X k, u).
Proof. intros H. apply HS in H. destruct (znth_some _ _ H) as [[n u] E]. exists u. unfold dim_size. rewrite E. reflexivity. Qed.
Lemma bounds k : In k ds -> 0 <= start_at k /\ start_at k + count_at k <= dim_size X k.
Proof.
  intros Hk. unfold start_at, count_at, other, level_in. destruct HA as [A1 A2]. destruct HF as (F1 & F2 & F3 & F4 & F5 & F6). pose proof (dims_pos k Hk) as Pk.
  destruct (cases R k HP Pk) as [C|[C|[C|[C|C]]]]; decompose [and] C; repeat match goal with H : (_ =? _) = _ |- _ => rewrite H end; cbn [orb].
  - subst k. specialize (A1 Hk). lia.
  - rewrite <- H in F6. lia.
  - rewrite <- H in F4. lia.
  - rewrite <- H in F5. lia.
  - destruct (A2 k) as [B1 B2]; [repeat split; auto|]. destruct (Z.eqb_spec level (-999)); cbn [orb]; [lia|]. destruct (Z.leb_spec (dim_size X k) 1); cbn [orb]; [lia|]. destruct B2; lia.
Qed.
Lemma allowed_ok l : (forall k, In k l -> In k ds) -> allowed X false l (map start_at l) (map count_at l) = true.
Proof.
  induction l as [|k l IH]; intros H; cbn [allowed map]; [reflexivity|]. destruct (dim_at k) as [u ->]; [apply H; left; auto|]. destruct (bounds k) as [B1 B2]; [apply H; left; auto|].
  rewrite IH by (intros; apply H; right; auto). replace (0 <=? start_at k) with true by (symmetry; apply Z.leb_le; lia). replace (start_at k + count_at k <=? dim_size X k) with true by (symmetry; apply Z.leb_le; lia). reflexivity.
Qed.
Definition nE : Z := if in_dec Z.eq_dec (r_e R) ds then dim_size X (r_e R) else 1.
Definition nY : Z := if in_dec Z.eq_dec (r_y R) ds then dim_size X (r_y R) else 1.
Definition nX : Z := if in_dec Z.eq_dec (r_x R) ds then dim_size X (r_x R) else 1.
Lemma role_pos r : In r ds -> r <> -999.
Proof. intros H. apply dims_pos in H. lia. Qed.
Lemma axis r n a : (r <> -999 -> dim_size X r = n) -> 1 <= n -> 0 <= a < n -> ((In r ds \/ a = 0) <-> 0 <= a < (if in_dec Z.eq_dec r ds then dim_size X r else 1)).
Proof. intros H Hn Ha. destruct (in_dec Z.eq_dec r ds) as [i|i]; [rewrite (H (role_pos _ i))|]; split; intros C; try lia; [left; auto|destruct C; [contradiction|lia]]. Qed.
Lemma axis_within r n a : (r <> -999 -> dim_size X r = n) -> 1 <= n -> 0 <= a < (if in_dec Z.eq_dec r ds then dim_size X r else 1) -> 0 <= a < n.
Proof. intros H Hn Ha. destruct (in_dec Z.eq_dec r ds) as [i|i]; [rewrite (H (role_pos _ i)) in Ha|]; lia. Qed.
Lemma covers_iff y x e : within d y x e -> (covers R ds e y x <-> In (e, y, x) (elements nE nY nX)).
Proof.
  intros (W1 & W2 & W3). rewrite in_elements. unfold covers. destruct HF as (F1 & F2 & F3 & F4 & F5 & F6). rewrite (axis _ _ _ F6 F3 W3), (axis _ _ _ F4 F1 W1), (axis _ _ _ F5 F2 W2). reflexivity.
Qed.
Lemma elements_within e y x : In (e, y, x) (elements nE nY nX) -> within d y x e.
Proof.
  rewrite in_elements. intros (A1 & A2 & A3). destruct HF as (F1 & F2 & F3 & F4 & F5 & F6). split; [|split]; eapply axis_within; eauto.
Qed.
Lemma count_role k : In k ds -> (k = r_e R -> count_at k = nE) /\ (k = r_y R -> count_at k = nY) /\ (k = r_x R -> count_at k = nX).
Proof.
  intros Hk. pose proof (dims_pos k Hk) as Pk. destruct (proper_ne R HP) as (P1 & P2 & P3 & _). unfold count_at. repeat split; intros ->.
  - destruct (Z.eqb_spec (r_e R) (r_t R)); [lia|]. rewrite Z.eqb_refl. unfold nE. destruct (in_dec Z.eq_dec (r_e R) ds); [reflexivity|contradiction].
  - destruct (Z.eqb_spec (r_y R) (r_t R)); [lia|]. rewrite Z.eqb_refl, orb_true_r. unfold nY. destruct (in_dec Z.eq_dec (r_y R) ds); [reflexivity|contradiction].
  - destruct (Z.eqb_spec (r_x R) (r_t R)); [lia|]. rewrite Z.eqb_refl, orb_true_r. unfold nX. destruct (in_dec Z.eq_dec (r_x R) ds); [reflexivity|contradiction].
Qed.
Lemma here_fits c : In c (elements nE nY nX) -> forall l, (forall k, In k l -> In k ds) -> fits_in (map count_at l) (map (here R c) l).
Proof.
  destruct c as [[e y] x]. intros Hc l. rewrite in_elements in Hc. induction l as [|k l IH]; intros H; cbn [map]; constructor; [|apply IH; intros; apply H; right; auto].
  assert (In k ds) as Hk by (apply H; left; auto). destruct (count_role k Hk) as (K1 & K2 & K3). unfold here. pose proof (dims_pos k Hk) as Pk.
  destruct (cases R k HP Pk) as [C|[C|[C|[C|C]]]]; decompose [and] C; repeat match goal with H : is_e _ _ = _ |- _ => rewrite H | H : is_y _ _ = _ |- _ => rewrite H | H : is_x _ _ = _ |- _ => rewrite H end.
  - unfold count_at. repeat match goal with H : (_ =? _) = _ |- _ => rewrite H end. lia.
  - rewrite K1 by auto. lia.
  - rewrite K2 by auto. lia.
  - rewrite K3 by auto. lia.
  - unfold count_at. repeat match goal with H : (_ =? _) = _ |- _ => rewrite H end. cbn [orb]. lia.
Qed.
Lemma plus_here c l : (forall k, In k l -> In k ds) -> plus (map start_at l) (map (here R c) l) = let '(e, y, x) := c in at_dims R other t e y x l.
Proof.
  destruct c as [[e y] x]. unfold at_dims. induction l as [|k l IH]; intros H; cbn [map plus]; [reflexivity|]. rewrite IH by (intros; apply H; right; auto). f_equal.
  assert (In k ds) as Hk by (apply H; left; auto). pose proof (dims_pos k Hk) as Pk. unfold start_at, at_dim, here. 
  destruct (cases R k HP Pk) as [C|[C|[C|[C|C]]]]; decompose [and] C; repeat match goal with H : is_e _ _ = _ |- _ => rewrite H | H : is_y _ _ = _ |- _ => rewrite H | H : is_x _ _ = _ |- _ => rewrite H | H : (_ =? _) = _ |- _ => rewrite H end; cbn [orb]; lia.
Qed.
Lemma read_ok name : find_name (x_vars X) name = Some v -> exists f, nc_read X R d name level t = Ok f /\ of_size d f /\ forall e y x, within d y x e ->
  (covers R ds e y x -> f_get f y x e = Ok (unpack v (n_data v (at_dims R other t e y x ds)))) /\ (~ covers R ds e y x -> f_get f y x e = Ok CMV).
Proof.
  intros Hv. unfold nc_read. rewrite Hv. fold ds. rewrite slices_ok. cbn [bind]. rewrite !map_map. cbn [fst snd].
  destruct HF as (F1 & F2 & F3 & _). destruct (empty_made d) as (f0 & E0 & S0 & G0); try lia. rewrite E0. cbn [bind].
  rewrite size_e, size_y, size_x by (auto; apply dims_pos). cbn [bind].
  assert ((if in_dec Z.eq_dec (r_e R) ds then count_at (r_e R) else 1) = nE) as -> by (unfold nE at 1; destruct (in_dec Z.eq_dec (r_e R) ds) as [i|]; [rewrite (proj1 (count_role _ i) eq_refl); unfold nE; destruct (in_dec Z.eq_dec (r_e R) ds); [auto|contradiction]|auto]).
  assert ((if in_dec Z.eq_dec (r_y R) ds then count_at (r_y R) else 1) = nY) as -> by (unfold nY at 1; destruct (in_dec Z.eq_dec (r_y R) ds) as [i|]; [rewrite (proj1 (proj2 (count_role _ i)) eq_refl); unfold nY; destruct (in_dec Z.eq_dec (r_y R) ds); [auto|contradiction]|auto]).
  assert ((if in_dec Z.eq_dec (r_x R) ds then count_at (r_x R) else 1) = nX) as -> by (unfold nX at 1; destruct (in_dec Z.eq_dec (r_x R) ds) as [i|]; [rewrite (proj2 (proj2 (count_role _ i)) eq_refl); unfold nX; destruct (in_dec Z.eq_dec (r_x R) ds); [auto|contradiction]|auto]).
  unfold get_vara. fold ds. rewrite allowed_ok by auto.
  destruct (set_elements d (fun c => let '(e, y, x) := c in unpack v (n_data v (at_dims R other t e y x ds))) (elements nE nY nX) f0 S0 elements_within) as (f & Ef & Sf & Gf).
  exists f. split; [|split; [exact Sf|]].
  - rewrite <- Ef. apply foldM_ext_in. intros s [[e y] x] Hc. rewrite index_of_ok by (try apply HS; rewrite zlen_map; reflexivity). cbn [bind]. rewrite znth_map, indices_at by (apply here_fits; auto). cbn [bind]. rewrite plus_here by auto. reflexivity.
  - intros e y x W. destruct (Gf e y x W) as [G1 G2]. split.
    + intros C. apply G1. apply covers_iff; auto.
    + intros C. rewrite G2; [apply G0; apply W|]. intros i. apply C. apply covers_iff; auto.
Qed.
End Read.
