From Coq Require Import Ascii String Lia Qround.
From Verif Require P_Stat.
From Verif Require Import Base ListLib QcTac M_COpt P_COpt M_CUtil S_CUtil P_CUtil M_CCal S_CCal P_CCal M_CDown M_CFile P_CFile M_CNc S_CNc P_CNc P_CNc2 P_CNc3 P_CNc4 P_CNc5.
Local Open Scope Z_scope.

(** values *)
Lemma valid_present w q : w = Fin q -> q <> qz (-999) -> cvalid w = true.
Proof. intros -> N. cbn. destruct (qeqb_spec q (qz (-999))); [contradiction|reflexivity]. Qed.
Lemma invalid_absent w : absent w -> cvalid w = false.
Proof. intros A. destruct w as [| | |q]; auto. cbn. destruct (qeqb_spec q (qz (-999))) as [|N]; [reflexivity|]. exfalso. apply (A q). split; auto. Qed.
Lemma present_or_absent w : (exists q, present w q) \/ absent w.
Proof. destruct w as [| | |q]; try (right; intros q [H _]; discriminate). destruct (Qc_eq_dec q (qz (-999))) as [->|N]; [right; intros q [H N]; inversion H; subst; contradiction|left; exists q; split; auto]. Qed.
Lemma packed_of v s o m : packed v s o m -> scale_of v = Fin s /\ offset_of v = Fin o /\ fill_of v = Fin m.
Proof.
  intros ([A|[A A']] & [B|[B B']] & [C|[C C']]); unfold scale_of, offset_of, fill_of; rewrite A, B, C; subst; repeat split; auto.
Qed.
Lemma fin_veqb a b : veqb (Fin a) (Fin b) = true <-> a = b.
Proof. cbn. destruct (qeqb_spec a b); split; auto; congruence. Qed.
Lemma unpack_stands v s o m raw : packed v s o m -> m <> qz (-999) -> stands s o m raw (unpack v (Fin raw)).
Proof.
  intros P N. destruct (packed_of _ _ _ _ P) as (E1 & E2 & F). unfold unpack. rewrite E1, E2, F. rewrite (valid_present (Fin m) m eq_refl N). cbn [andb]. split.
  - intros ->. replace (veqb (Fin m) (Fin m)) with true by (symmetry; apply fin_veqb; auto). reflexivity.
  - intros Q. destruct (veqb (Fin raw) (Fin m)) eqn:V; [apply fin_veqb in V; contradiction|]. reflexivity.
Qed.
Lemma pack_present v s o m w q : packed v s o m -> s <> 0%Qc -> present w q -> pack v w = Fin ((q - o) / s).
Proof.
  intros P S0 [-> N]. destruct (packed_of _ _ _ _ P) as (E1 & E2 & E3). unfold pack. rewrite E1, E2, (valid_present (Fin q) q eq_refl N). cbn [negb andb]. rewrite andb_false_r. cbn. destruct (qeqb_spec s 0); [contradiction|]. f_equal.
Qed.
Lemma pack_absent v s o m w : packed v s o m -> m <> qz (-999) -> absent w -> pack v w = Fin m.
Proof. intros P N A. destruct (packed_of _ _ _ _ P) as (E1 & E2 & E3). unfold pack. rewrite E3, (invalid_absent w A), (valid_present (Fin m) m eq_refl N). reflexivity. Qed.
Lemma all_back v s o m w : stores_all v -> packed v s o m -> s <> 0%Qc -> m <> qz (-999) -> (forall q, present w q -> ((q - o) / s)%Qc <> m) ->
  exists st, n_store v (pack v w) = Some st /\ same_value w (unpack v st).
Proof.
  intros SA P S0 N T. exists (pack v w). split; [apply SA|]. split.
  - intros q Pq. rewrite (pack_present v s o m w q P S0 Pq). rewrite (proj2 (unpack_stands v s o m _ P N) (T q Pq)). f_equal. field. auto.
  - intros A. rewrite (pack_absent v s o m w P N A). apply (unpack_stands v s o m _ P N). reflexivity.
Qed.
Lemma part_exists q : exists z, part_before_point q z.
Proof.
  destruct (Qclt_le_dec q 0) as [H|H].
  - exists (- Qfloor (- q)%Qc). right. pose proof (P_Stat.qfloor_le (- q)%Qc) as A. pose proof (P_Stat.qlt_floor (- q)%Qc) as B. revert A B. generalize (Qfloor (- q)%Qc). intros k A B.
    replace (qz (- k - 1)) with (- qz k - 1)%Qc by (replace (- k - 1) with (0 - k - 1) by lia; rewrite !qz_sub, qz_0, qz_1; ring). replace (qz (- k)) with (- qz k)%Qc by (replace (- k) with (0 - k) by lia; rewrite qz_sub, qz_0; ring). repeat split; qlra.
  - exists (Qfloor q). left. split; [auto|]. rewrite qz_add, qz_1. split; [apply P_Stat.qfloor_le|apply P_Stat.qlt_floor].
Qed.
Lemma part_int z : part_before_point (qz z) z.
Proof.
  destruct (Z_lt_le_dec z 0); [right|left]; repeat split; rewrite ?qz_le, ?qz_lt; change 0%Qc with (qz 0); rewrite ?qz_le, ?qz_lt; lia.
Qed.
Lemma part_error q z : part_before_point q z -> (- (1) < qz z - q < 1)%Qc.
Proof. intros [[A [B C]]|[A [B C]]]; rewrite ?qz_add, ?qz_sub in *; change (qz 1) with 1%Qc in *; split; qlra. Qed.

Lemma int_back v s o m lo hi w : stores_integers v lo hi -> packed v s o (qz m) -> s <> 0%Qc -> lo <= m <= hi -> m <> -999 -> (forall q z, present w q -> part_before_point ((q - o) / s) z -> lo <= z <= hi /\ z <> m) ->
  exists st, n_store v (pack v w) = Some st /\ off_by_less 1 s w (unpack v st).
Proof.
  intros SI P S0 Hm N T. assert (qz m <> qz (-999)) as N' by (intros E; apply N, qz_inj, E). destruct (present_or_absent w) as [[q Pq]|A].
  - destruct (part_exists ((q - o) / s)) as [z Hz]. destruct (T q z Pq Hz) as [R1 R2]. exists (Fin (qz z)). split.
    + rewrite (pack_present v s o _ w q P S0 Pq), (SI _ z Hz). replace (lo <=? z) with true by (symmetry; apply Z.leb_le; lia). replace (z <=? hi) with true by (symmetry; apply Z.leb_le; lia). reflexivity.
    + split; [|intros A; exfalso; eapply A; eauto]. intros q' Pq'. assert (q' = q) as -> by (destruct Pq as [-> _], Pq' as [E _]; congruence). exists (qz z - (q - o) / s)%Qc. split; [exact (part_error _ _ Hz)|].
      rewrite (proj2 (unpack_stands v s o _ _ P N')) by (intros E; apply R2, qz_inj, E). f_equal. field. auto.
  - exists (Fin (qz m)). split.
    + rewrite (pack_absent v s o _ w P N' A), (SI _ m (part_int m)). replace (lo <=? m) with true by (symmetry; apply Z.leb_le; lia). replace (m <=? hi) with true by (symmetry; apply Z.leb_le; lia). reflexivity.
    + split; [intros q Pq; exfalso; eapply A; eauto|]. intros _. apply (unpack_stands v s o _ _ P N'). reflexivity.
Qed.
(** reading *)
Lemma read_plain X R d v name level t : proper R -> fits X R d -> sound X v -> available X R (n_dims v) level t -> find_name (x_vars X) name = Some v -> n_fill v = None -> n_scale v = None -> n_offset v = None ->
  exists f, nc_read X R d name level t = Ok f /\ of_size d f /\ forall e y x, within d y x e ->
    (forall q, covers R (n_dims v) e y x -> n_data v (at_dims R (level_in X level) t e y x (n_dims v)) = Fin q -> Fin q <> fill_float -> f_get f y x e = Ok (Fin q)) /\ (~ covers R (n_dims v) e y x -> f_get f y x e = Ok CMV).
Proof.
  intros HP HF HS HA Hv N1 N2 N3. destruct (read_ok X R d v level t HP HF HS HA name Hv) as (f & E & S & G). exists f. split; [auto|]. split; [auto|]. intros e y x W. destruct (G e y x W) as [G1 G2]. split; [|auto].
  intros q C Q NQ. rewrite (G1 C). change (other X level) with (level_in X level). rewrite Q. f_equal. 
  assert (exists m, fill_float = Fin m /\ m <> qz (-999)) as (m & Em & Nm) by (eexists; split; [reflexivity|]; intros H; apply Qc_eq_iff in H; vm_compute in H; discriminate).
  assert (packed v 1 0 m) as P by (split; [right; auto|]; split; [right; auto|right; auto]). rewrite (proj2 (unpack_stands v 1 0 m q P Nm)) by (intros ->; auto). f_equal. ring.
Qed.
Lemma read_packed X R d v name level t s o m : proper R -> fits X R d -> sound X v -> available X R (n_dims v) level t -> find_name (x_vars X) name = Some v -> packed v s o m -> m <> qz (-999) ->
  exists f, nc_read X R d name level t = Ok f /\ of_size d f /\ forall e y x q, within d y x e -> covers R (n_dims v) e y x -> n_data v (at_dims R (level_in X level) t e y x (n_dims v)) = Fin q -> exists w, f_get f y x e = Ok w /\ stands s o m q w.
Proof.
  intros HP HF HS HA Hv P N. destruct (read_ok X R d v level t HP HF HS HA name Hv) as (f & E & S & G). exists f. split; [auto|]. split; [auto|]. intros e y x q W C Q. destruct (G e y x W) as [G1 _]. rewrite (G1 C). change (other X level) with (level_in X level). rewrite Q. eexists. split; [reflexivity|]. apply unpack_stands; auto.
Qed.
(** writing and reading *)
Lemma round_trip (rel : val -> val -> Prop) X R d vars : can_write X R d vars -> grid_known R d ->
  (forall n fs v R', In (n, fs) vars -> find_name (x_vars X) n = Some v \/ (find_name (x_vars X) n = None /\ v = blank R') -> forall t f y x e w, 0 <= t < d_t d -> within d y x e -> znth fs t = Ok f -> f_get f y x e = Ok w -> exists st, n_store v (pack v w) = Some st /\ rel w (unpack v st)) ->
  exists X' R', nc_write X R d vars = Ok (X', R') /\ forall n fs t, In (n, fs) vars -> 0 <= t < d_t d -> exists f f', znth fs t = Ok f /\ nc_read X' R' d n (-999) t = Ok f' /\ of_size d f' /\
    forall y x e, within d y x e -> exists w w', f_get f y x e = Ok w /\ f_get f' y x e = Ok w' /\ rel w w'.
Proof.
  intros CW GK H. destruct (nc_write_ok X R d vars CW) as (X' & R' & EW & P' & F' & Y' & X'' & _ & _ & T' & E' & _ & _ & V').
  { intros n fs v Hn Hv t f e y x w Ht Hf W Hw. destruct (H n fs v R Hn (or_introl Hv) t f y x e w Ht W Hf Hw) as (st & Q & _). eauto. }
  exists X', R'. split; [auto|]. intros n fs t Hn Ht. destruct (V' n fs Hn) as (v & v' & Hv & Hv' & S' & C' & Ex & SF & DT & DW & _).
  destruct CW as (_ & _ & _ & _ & _ & _ & CF). destruct (CF n fs Hn) as [FF _]. destruct (FF t Ht) as (f & Ef & Sf). pose proof SF as (D1 & _).
  assert (In (r_t R') (n_dims v')) as IT by (apply C'; [left; auto|auto]).
  destruct (read_ok X' R' d v' (-999) t P' F' S') with (name := n) as (f' & Er & Sr & Gr); [|auto|].
  { split; [intros _; rewrite D1 in IT; specialize (DT IT); lia|]. intros k Hk. split; [apply Ex; auto|auto]. }
  exists f, f'. split; [auto|]. split; [auto|]. split; [auto|]. intros y x e W.
  assert (covers R' (n_dims v') e y x) as CV.
  { destruct W as (W1 & W2 & W3). destruct GK as [G1 G2]. split; [|split].
    - destruct (Z.eq_dec (r_e R') (-999)) as [Q|Q]; [right; specialize (E' Q); lia|left; apply C'; [right; left; auto|auto]].
    - destruct (Z.eq_dec (r_y R') (-999)) as [Q|Q]; [right; rewrite Y' in Q; specialize (G1 Q); lia|left; apply C'; [right; right; left; auto|auto]].
    - destruct (Z.eq_dec (r_x R') (-999)) as [Q|Q]; [right; rewrite X'' in Q; specialize (G2 Q); lia|left; apply C'; [right; right; right; left; auto|auto]]. }
  rewrite D1 in IT. pose proof CV as CV'. rewrite D1 in CV'. destruct (DW t e y x Ht (or_introl IT) W CV') as (f0 & w & st & Q1 & Q2 & Q3 & Q4). rewrite Ef in Q1. inversion Q1; subst f0.
  destruct (H n fs v R' Hn Hv t f y x e w Ht W Ef Q2) as (st' & Q5 & Q6). rewrite Q3 in Q5. inversion Q5; subst st'. exists w, (unpack v st). split; [auto|]. split; [|auto].
  rewrite (proj1 (Gr e y x W) CV). f_equal. rewrite D1. rewrite (at_dims_ext R' (other X' (-999)) zero) by (intros; apply other_none). rewrite Q4. destruct SF as (_ & A & B & C & _). unfold unpack, fill_of, scale_of, offset_of. rewrite A, B, C. reflexivity.
Qed.
Lemma blank_back R' d fs : (forall m, fill_float = Fin m -> tells d 1 0 m fs) -> forall t f y x e w, 0 <= t < d_t d -> within d y x e -> znth fs t = Ok f -> f_get f y x e = Ok w -> exists st, n_store (blank R') (pack (blank R') w) = Some st /\ same_value w (unpack (blank R') st).
Proof.
  intros T t f y x e w Ht W Ef Ew. assert (exists m, fill_float = Fin m /\ m <> qz (-999)) as (m & Em & Nm) by (eexists; split; [reflexivity|]; intros H; apply Qc_eq_iff in H; vm_compute in H; discriminate).
  apply (all_back (blank R') 1 0 m w); [intros a; reflexivity|split; [right; auto|split; [right; auto|right; auto]]|discriminate|auto|]. intros q Pq. eapply T; eauto.
Qed.
Lemma write_read X R d vars : can_write X R d vars -> grid_known R d -> (forall n fs, In (n, fs) vars -> faithful X d n fs) ->
  exists X' R', nc_write X R d vars = Ok (X', R') /\ forall n fs t, In (n, fs) vars -> 0 <= t < d_t d -> exists f f', znth fs t = Ok f /\ nc_read X' R' d n (-999) t = Ok f' /\ of_size d f' /\
    forall y x e, within d y x e -> exists w w', f_get f y x e = Ok w /\ f_get f' y x e = Ok w' /\ same_value w w'.
Proof.
  intros CW GK H. apply round_trip; auto. intros n fs v R' Hn Hv t f y x e w Ht W Ef Ew. specialize (H n fs Hn). unfold faithful in H. destruct Hv as [Hv|[Hv ->]]; rewrite Hv in H.
  - destruct H as (SA & s & o & m & P & S0 & N & T). apply (all_back v s o m w); auto. intros q Pq. eapply T; eauto.
  - eapply blank_back; eauto.
Qed.
Lemma write_integers X R d n v fs s o : can_write X R d [(n, fs)] -> grid_known R d -> find_name (x_vars X) n = Some v -> integers d v s o fs ->
  exists X' R', nc_write X R d [(n, fs)] = Ok (X', R') /\ forall t, 0 <= t < d_t d -> exists f f', znth fs t = Ok f /\ nc_read X' R' d n (-999) t = Ok f' /\ of_size d f' /\
    forall y x e, within d y x e -> exists w w', f_get f y x e = Ok w /\ f_get f' y x e = Ok w' /\ off_by_less 1 s w w'.
Proof.
  intros CW GK Hv (lo & hi & m & SI & Hm & Nm & P & S0 & T). destruct (round_trip (off_by_less 1 s) X R d [(n, fs)] CW GK) as (X' & R' & E & G).
  - intros n' fs' v' R' [Q|[]] Hv' t f y x e w Ht W Ef Ew. inversion Q; subst n' fs'. destruct Hv' as [Hv'|[Hv' _]]; [|congruence]. rewrite Hv in Hv'. inversion Hv'; subst v'. apply (int_back v s o m lo hi w); auto. intros q z Pq Hz. eapply (T t f y x e w q z); eauto.
  - exists X', R'. split; [auto|]. intros t Ht. apply (G n fs t); [left; auto|auto].
Qed.
(** what is left alone *)
Lemma untouched X R d vars : can_write X R d vars -> (forall n fs v, In (n, fs) vars -> find_name (x_vars X) n = Some v -> stores_all v) ->
  exists X' R', nc_write X R d vars = Ok (X', R') /\ (forall k, 0 <= k < zlen (x_dims X) -> k <> r_t R -> dim_size X' k = dim_size X k) /\
    (forall n, ~ In n (map fst vars) -> find_name (x_vars X') n = find_name (x_vars X) n) /\
    forall n fs v, In (n, fs) vars -> find_name (x_vars X) n = Some v -> exists v', find_name (x_vars X') n = Some v' /\ same_form v v' /\
      forall i, (forall t e y x, 0 <= t < d_t d -> within d y x e -> i <> at_dims R' (fun _ => 0) t e y x (n_dims v)) -> n_data v' i = n_data v i.
Proof.
  intros CW SA. destruct (nc_write_ok X R d vars CW) as (X' & R' & EW & P' & F' & _ & _ & _ & _ & T' & E' & Z' & O' & V').
  { intros n fs v Hn Hv t f e y x w Ht Hf W Hw. exists (pack v w). eapply SA; eauto. }
  exists X', R'. split; [auto|]. split; [auto|]. split; [auto|]. intros n fs v Hn Hv. destruct (V' n fs Hn) as (v0 & v' & Hv0 & Hv' & _ & _ & _ & SF & _ & _ & U). destruct Hv0 as [Hv0|[Hv0 _]]; [|congruence]. rewrite Hv in Hv0. inversion Hv0; subst v0.
  exists v'. split; [auto|]. split; [auto|]. intros i Hi. destruct (U i) as [Q|(t & e & y & x & Q1 & Q2 & Q3 & Q4)]; [auto|]. exfalso. eapply Hi; eauto.
Qed.
