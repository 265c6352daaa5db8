From Coq Require Import Sorted.
From Verif Require Import Base ListLib QcTac M_Stat P_Stat M_COpt M_CUtil S_CUtil P_CUtil M_CCal S_CCal P_CCal M_CCal2 S_CDown M_CGradient S_CGradient P_CGradient P_CBct M_CCoast S_CCoast.
Local Open Scope Z_scope.

(** a loop that sets each element once, to a value that depends on the field so far *)
Definition rewrite_step (F : field -> Z -> Z -> Z -> res val) (f : field) (c : Z * Z * Z) : res field := let '(y, x, e) := c in v <- F f y x e ;; f_set f y x e v.
Definition inside3 (d : dims) (c : Z * Z * Z) : Prop := let '(y, x, e) := c in within d y x e.
Definition get_at (f : field) (c : Z * Z * Z) : res val := let '(y, x, e) := c in f_get f y x e.
Lemma rewrite_outcome d F : (forall f y x e, of_size d f -> within d y x e -> (exists v, F f y x e = Ok v) \/ F f y x e = Abort) ->
  forall l f, (forall c, In c l -> inside3 d c) -> of_size d f -> (exists g, foldM (rewrite_step F) f l = Ok g /\ of_size d g) \/ foldM (rewrite_step F) f l = Abort.
Proof.
  intros HF. induction l as [|[[y x] e] l IH]; intros f HI Hf; cbn [foldM]; [left; eauto|]. assert (W : within d y x e) by (apply (HI (y, x, e)); left; auto).
  unfold rewrite_step at 1 3. destruct (HF f y x e Hf W) as [[v E]|E]; rewrite E; cbn [bind]; [|right; reflexivity]. destruct (f_set_size d f y x e v Hf W) as (g & Eg & Sg & _). rewrite Eg. cbn [bind]. apply IH; auto. intros c Hc. apply HI. right. auto.
Qed.
Lemma rewrite_frame d F : forall l f g, NoDup l -> (forall c, In c l -> inside3 d c) -> of_size d f -> foldM (rewrite_step F) f l = Ok g -> of_size d g /\ forall c, inside3 d c -> ~ In c l -> get_at g c = get_at f c.
Proof.
  induction l as [|[[y x] e] l IH]; intros f g ND HI Hf E; cbn [foldM] in E; [injection E as <-; auto|]. assert (W : within d y x e) by (apply (HI (y, x, e)); left; auto). inversion ND as [|? ? N1 N2]; subst.
  apply bind_Ok in E as (f1 & E1 & E). unfold rewrite_step in E1. apply bind_Ok in E1 as (v & Ev & E1). destruct (f_set_size d f y x e v Hf W) as (f1' & Eg & Sg & _ & Og). assert (f1' = f1) by congruence. subst f1'.
  destruct (IH f1 g N2) as [S G]; auto. { intros c Hc. apply HI. right. auto. } split; [exact S|]. intros [[y' x'] e'] Wc Nc. rewrite G; auto; [|intros K; apply Nc; right; auto]. cbn [get_at]. apply Og; auto. intros K. apply Nc. left. auto.
Qed.
Lemma rewrite_split d F f g c : forall l1 l2, NoDup (l1 ++ c :: l2) -> (forall c', In c' (l1 ++ c :: l2) -> inside3 d c') -> of_size d f -> foldM (rewrite_step F) f (l1 ++ c :: l2) = Ok g ->
  exists m w, of_size d m /\ (let '(y, x, e) := c in F m y x e = Ok w) /\ get_at g c = Ok w /\ (forall c', In c' l1 -> get_at m c' = get_at g c') /\ (forall c', inside3 d c' -> ~ In c' l1 -> get_at m c' = get_at f c').
Proof.
  intros l1 l2 ND HI Hf E. rewrite foldM_app in E. apply bind_Ok in E as (m & Em & E). assert (ND1 : NoDup l1) by (clear - ND; induction l1 as [|z l1 IH]; [constructor|]; inversion ND; subst; constructor; [intros K; apply H1; apply in_or_app; auto|auto]). pose proof (NoDup_remove_2 _ _ _ ND) as NC. assert (ND2 : NoDup (c :: l2)) by (clear - ND; induction l1; [auto|inversion ND; auto]).
  destruct (rewrite_frame d F l1 f m ND1) as [Sm Gm]; auto. { intros c' H. apply HI. apply in_or_app. auto. }
  cbn [foldM] in E. apply bind_Ok in E as (f1 & E1 & E). destruct c as [[y x] e]. assert (W : within d y x e). { apply (HI (y, x, e)). apply in_or_app. right. left. auto. }
  pose proof E1 as E1'. unfold rewrite_step in E1. apply bind_Ok in E1 as (w & Ew & E1). destruct (f_set_size d m y x e w Sm W) as (f1' & Eg & Sg & Gg & Og). assert (f1' = f1) by congruence. subst f1'. inversion ND2 as [|? ? N1 N2]; subst.
  destruct (rewrite_frame d F l2 f1 g N2) as [Sg' G2]; auto. { intros c' H. apply HI. apply in_or_app. right. right. auto. }
  exists m, w. split; [exact Sm|]. split; [exact Ew|]. split; [rewrite (G2 (y, x, e)); auto|]. split; [|exact Gm]. intros [[y' x'] e'] H'. assert (W' : within d y' x' e') by (apply (HI (y', x', e')); apply in_or_app; auto).
  rewrite (G2 (y', x', e')); [|exact W'|].
  - cbn [get_at]. symmetry. apply Og; auto. intros K. rewrite K in H'. apply NC. apply in_or_app. auto.
  - intros K. clear - ND H' K. induction l1 as [|z l1 IH]; [contradiction|]. inversion ND; subst. destruct H' as [->|H']; [|auto]. apply H1. apply in_or_app. right. right. auto.
Qed.
(** the order of the elements *)
Definition before3 (c c' : Z * Z * Z) : Prop := let '(y, x, e) := c in let '(y', x', e') := c' in y < y' \/ (y = y' /\ (x < x' \/ (x = x' /\ e < e'))).
Lemma sorted_app {A} (R : A -> A -> Prop) x y : StronglySorted R x -> StronglySorted R y -> (forall p q, In p x -> In q y -> R p q) -> StronglySorted R (x ++ y).
Proof. induction x as [|p x IHx]; intros Hx Hy H; [exact Hy|]. inversion Hx; subst. cbn [app]. constructor; [apply IHx; auto; intros; apply H; [right|]; auto|]. apply Forall_app. split; [auto|]. apply Forall_forall. intros q Hq. apply H; [left|]; auto. Qed.
Lemma sorted_flat_map {A B} (R : A -> A -> Prop) (S : B -> B -> Prop) (f : A -> list B) l : StronglySorted R l -> (forall a, StronglySorted S (f a)) -> (forall a b x y, R a b -> In x (f a) -> In y (f b) -> S x y) -> StronglySorted S (flat_map f l).
Proof.
  intros H1 H2 H3. induction H1 as [|a l Hl IH HF]; cbn [flat_map]; [constructor|]. apply sorted_app; auto. intros p q Hp Hq. apply in_flat_map in Hq as (b & Hb & Hq). rewrite Forall_forall in HF. eapply H3; eauto.
Qed.
Lemma sorted_cells nY nX nE : StronglySorted before3 (cells nY nX nE).
Proof.
  unfold cells. apply (sorted_flat_map Z.lt); [apply zrange_sorted| |].
  - intros y. apply (sorted_flat_map Z.lt); [apply zrange_sorted| |].
    + intros x. assert (K : forall l, StronglySorted Z.lt l -> StronglySorted before3 (map (fun e => (y, x, e)) l)). { induction 1 as [|e l Hl IH HF]; cbn [map]; constructor; auto. apply Forall_forall. intros c Hc. apply in_map_iff in Hc as (e' & <- & He). rewrite Forall_forall in HF. cbn. right. split; auto. }
      apply K. apply zrange_sorted.
    + intros x x' c c' L Hc Hc'. apply in_map_iff in Hc as (e & <- & _). apply in_map_iff in Hc' as (e' & <- & _). cbn. auto.
  - intros y y' c c' L Hc Hc'. apply in_flat_map in Hc as (x & _ & Hc). apply in_flat_map in Hc' as (x' & _ & Hc'). apply in_map_iff in Hc as (e & <- & _). apply in_map_iff in Hc' as (e' & <- & _). cbn. auto.
Qed.
Lemma sorted_split {A} (R : A -> A -> Prop) l1 c l2 : StronglySorted R (l1 ++ c :: l2) -> (forall a, In a l1 -> R a c) /\ (forall a, In a l2 -> R c a).
Proof.
  induction l1 as [|b l1 IH]; cbn [app]; intros H; inversion H as [|? ? H1 H2]; subst.
  - split; [intros a []|]. rewrite Forall_forall in H2. exact H2.
  - destruct (IH H1) as [A1 A2]. split; [|exact A2]. intros a [<-|Ha]; [|auto]. rewrite Forall_forall in H2. apply H2. apply in_or_app. right. left. auto.
Qed.
(** what each element is set to *)
Lemma rewrite_for3 d F f g : of_size d f -> for3 d f (fun f y x e => v <- F f y x e ;; f_set f y x e v) = Ok g -> of_size d g /\ forall y x e, within d y x e ->
  exists m w, of_size d m /\ F m y x e = Ok w /\ f_get g y x e = Ok w /\
    forall y' x', 0 <= y' < d_y d -> 0 <= x' < d_x d -> (before (y', x') (y, x) -> f_get m y' x' e = f_get g y' x' e) /\ (~ before (y', x') (y, x) -> f_get m y' x' e = f_get f y' x' e).
Proof.
  intros Hf E. assert (HI : forall c, In c (cells (d_y d) (d_x d) (d_e d)) -> inside3 d c) by (intros [[y x] e] Hc; apply in_cells in Hc; exact Hc).
  change (foldM (rewrite_step F) f (cells (d_y d) (d_x d) (d_e d)) = Ok g) in E. split; [apply (rewrite_frame d F _ f g (NoDup_cells _ _ _) HI Hf E)|]. intros y x e W.
  assert (IC : In (y, x, e) (cells (d_y d) (d_x d) (d_e d))) by (apply in_cells; exact W). pose proof (NoDup_cells (d_y d) (d_x d) (d_e d)) as ND. pose proof (sorted_cells (d_y d) (d_x d) (d_e d)) as SC.
  destruct (in_split _ _ IC) as (l1 & l2 & EL). rewrite EL in E, ND, SC. destruct (rewrite_split d F f g (y, x, e) l1 l2 ND) as (m & w & Sm & Fm & Gg & A1 & A2); auto. { intros c Hc. apply HI. rewrite EL. exact Hc. }
  destruct (sorted_split _ _ _ _ SC) as [B1 B2]. exists m, w. split; [exact Sm|]. split; [exact Fm|]. split; [exact Gg|]. intros y' x' Hy Hx. assert (W' : within d y' x' e) by (unfold within in *; lia). split; intros HB.
  - apply (A1 (y', x', e)). assert (IC' : In (y', x', e) (l1 ++ (y, x, e) :: l2)) by (rewrite <- EL; apply in_cells; exact W'). apply in_app_or in IC' as [K|[K|K]]; [exact K| |].
    + injection K as -> ->. unfold before in HB. cbn [fst snd] in HB. lia.
    + apply B2 in K. unfold before in HB. cbn [fst snd before3] in *. lia.
  - apply (A2 (y', x', e)); [exact W'|]. intros K. apply B1 in K. apply HB. unfold before. cbn [fst snd before3] in *. lia.
Qed.
(** the search *)
Definition lafq (laf : list vec) (p : Z * Z) : Qc := match at2 laf p with Fin q => q | _ => 0%Qc end.
Section Search.
Variable d : dims.
Variable laf : list vec.
Variable f : field.
Variables radius y x e : Z.
Hypothesis HL : fractions d laf.
Hypothesis Hf : of_size d f.
Hypothesis He : 0 <= e < d_e d.
Let sq := square (d_y d) (d_x d) radius y x.
Lemma laf_at p : In p sq -> get2 laf (fst p) (snd p) = Ok (Fin (lafq laf p)) /\ (0 <= lafq laf p <= 1)%Qc.
Proof.
  intros H. apply square_close in H. destruct H as (H1 & H2 & _). destruct (proj2 HL (fst p) (snd p) H1 H2) as (q & Eq & Rq). unfold fraction_at in Eq. cbn [fst snd] in Eq. unfold lafq, at2. rewrite Eq. auto.
Qed.
Definition lowest_in (l : list (Z * Z)) p := In p l /\ forall p', In p' l -> (lafq laf p <= lafq laf p')%Qc /\ (before p' p -> lafq laf p' <> lafq laf p).
Definition highest_in (l : list (Z * Z)) p := In p l /\ forall p', In p' l -> (lafq laf p' <= lafq laf p)%Qc /\ (before p' p -> lafq laf p' <> lafq laf p).
Lemma search_ok l : l <> [] -> incl l sq -> StronglySorted before l -> exists pl pu, lowest_in l pl /\ highest_in l pu /\
  foldM (coast_step laf f e) (CMV, fz 2, CMV, fz (-1)) l = Ok (atf f e pl, Fin (lafq laf pl), atf f e pu, Fin (lafq laf pu)).
Proof.
  assert (IRR : forall p p', before p p' -> before p' p -> False) by (unfold before; lia). assert (IR : forall p, before p p -> False) by (unfold before; lia).
  induction l as [|p l IH] using rev_ind; [congruence|]. intros _ HI HS. assert (Hp : In p sq) by (apply HI; apply in_or_app; right; left; auto). destruct (laf_at p Hp) as [Ep Rp]. pose proof (atf_get d f e p radius y x Hf He Hp) as Fp. destruct (sorted_split _ _ _ _ HS) as [B _].
  rewrite foldM_app. destruct l as [|z l'].
  - exists p, p. split; [split; [left; auto|]; intros p' [<-|[]]; split; [apply Qcle_refl|intros K; destruct (IR _ K)]|]. split; [split; [left; auto|]; intros p' [<-|[]]; split; [apply Qcle_refl|intros K; destruct (IR _ K)]|].
    cbn [foldM app bind]. unfold coast_step. destruct p as [ii jj]. cbn [fst snd] in *. rewrite Ep. cbn [bind]. unfold fz. cbn [vltb].
    assert (Q2 : (lafq laf (ii, jj) < qz 2)%Qc). { assert (1 < qz 2)%Qc by (rewrite <- qz_1; apply qz_lt; lia). destruct Rp. qlra. } assert (Q1 : (qz (-1) < lafq laf (ii, jj))%Qc). { assert (qz (-1) < 0)%Qc by (rewrite <- qz_0; apply qz_lt; lia). destruct Rp. qlra. }
    destruct (qltb_spec (lafq laf (ii, jj)) (qz 2)); [|contradiction]. rewrite Fp. cbn [bind]. destruct (qltb_spec (qz (-1)) (lafq laf (ii, jj))); [|contradiction]. cbn [bind]. reflexivity.
  - set (l := z :: l') in *. assert (HS' : StronglySorted before l). { clear - HS. induction l as [|a l IH]; [constructor|]. cbn [app] in HS. inversion HS as [|? ? H1 H2]; subst. constructor; [auto|]. apply Forall_app in H2. tauto. }
    destruct IH as (pl & pu & (L1 & L2) & (U1 & U2) & E); [unfold l; discriminate|intros c Hc; apply HI; apply in_or_app; auto|exact HS'|]. rewrite E. cbn [bind foldM]. unfold coast_step. destruct p as [ii jj]. cbn [fst snd] in *. rewrite Ep. cbn [bind vltb].
    set (r := lafq laf (ii, jj)) in *.
    destruct (qltb_spec r (lafq laf pl)) as [A|A]; destruct (qltb_spec (lafq laf pu) r) as [C|C]; rewrite ?Fp; cbn [bind].
    + exfalso. destruct (L2 pu U1) as [K _]. clear - A C K. qlra.
    + exists (ii, jj), pu. split; [|split; [|reflexivity]].
      * split; [apply in_or_app; right; left; auto|]. intros p' Hp'. apply in_app_or in Hp' as [Hp'|[<-|[]]]; [|split; [apply Qcle_refl|intros K; destruct (IR _ K)]]. destruct (L2 p' Hp') as [K _]. fold r. split; [clear - A K; qlra|]. intros _ Q. rewrite Q in K. clear - A K. qlra.
      * split; [apply in_or_app; auto|]. intros p' Hp'. apply in_app_or in Hp' as [Hp'|[<-|[]]]; [auto|]. fold r. split; [apply Qcnot_lt_le; auto|]. intros K. destruct (IRR _ _ K (B _ U1)).
    + exists pl, (ii, jj). split; [|split; [|reflexivity]].
      * split; [apply in_or_app; auto|]. intros p' Hp'. apply in_app_or in Hp' as [Hp'|[<-|[]]]; [auto|]. fold r. split; [apply Qcnot_lt_le; auto|]. intros K. destruct (IRR _ _ K (B _ L1)).
      * split; [apply in_or_app; right; left; auto|]. intros p' Hp'. apply in_app_or in Hp' as [Hp'|[<-|[]]]; [|split; [apply Qcle_refl|intros K; destruct (IR _ K)]]. destruct (U2 p' Hp') as [K _]. fold r. split; [clear - C K; qlra|]. intros _ Q. rewrite Q in K. clear - C K. qlra.
    + exists pl, pu. split; [|split; [|reflexivity]].
      * split; [apply in_or_app; auto|]. intros p' Hp'. apply in_app_or in Hp' as [Hp'|[<-|[]]]; [auto|]. fold r. split; [apply Qcnot_lt_le; auto|]. intros K. destruct (IRR _ _ K (B _ L1)).
      * split; [apply in_or_app; auto|]. intros p' Hp'. apply in_app_or in Hp' as [Hp'|[<-|[]]]; [auto|]. fold r. split; [apply Qcnot_lt_le; auto|]. intros K. destruct (IRR _ _ K (B _ U1)).
Qed.
Lemma search_square : 0 <= radius -> 0 <= y < d_y d -> 0 <= x < d_x d -> exists pl pu, least_land d radius laf y x pl (lafq laf pl) /\ most_land d radius laf y x pu (lafq laf pu) /\
  foldM (coast_step laf f e) (CMV, fz 2, CMV, fz (-1)) sq = Ok (atf f e pl, Fin (lafq laf pl), atf f e pu, Fin (lafq laf pu)).
Proof.
  intros Hr Hy Hx. assert (SELF : In (y, x) sq) by (apply square_close; unfold close; cbn [fst snd]; lia). destruct (search_ok sq) as (pl & pu & (L1 & L2) & (U1 & U2) & E); [intros K; rewrite K in SELF; contradiction|apply incl_refl|apply sorted_square|].
  exists pl, pu. split; [|split; [|exact E]].
  - split; [apply square_close; auto|]. split; [apply laf_at; auto|]. intros p' q' Hp' Eq. apply square_close in Hp'. destruct (laf_at p' Hp') as [K _]. unfold fraction_at in Eq. assert (q' = lafq laf p') by congruence. subst q'. auto.
  - split; [apply square_close; auto|]. split; [apply laf_at; auto|]. intros p' q' Hp' Eq. apply square_close in Hp'. destruct (laf_at p' Hp') as [K _]. unfold fraction_at in Eq. assert (q' = lafq laf p') by congruence. subst q'. auto.
Qed.
End Search.
Lemma par_get_cases par i : (exists v, znth par i = Ok v /\ par_get par i = Ok v) \/ par_get par i = Abort.
Proof. unfold par_get. destruct (znth par i); eauto. Qed.
Lemma assert_cases b : assert_ b = if b then Ok tt else Abort.
Proof. destruct b; reflexivity. Qed.
Lemma coast_value_outcome radius md nn par laf d f y x e : 0 <= radius -> fractions d laf -> of_size d f -> within d y x e ->
  (exists v, coast_value radius md nn par laf d f y x e = Ok v) \/ coast_value radius md nn par laf d f y x e = Abort.
Proof.
  intros Hr HL Hf (Hy & Hx & He). unfold coast_value. destruct (of_size_get d f y x e Hf) as [own Eo]; [unfold within; auto|]. rewrite Eo. cbn [bind]. destruct (search_square d laf f radius y x e HL Hf He Hr Hy Hx) as (pl & pu & _ & _ & E). rewrite E. cbn [bind].
  destruct (par_get_cases par 0) as [(a & _ & ->)| ->]; [|right; reflexivity]. cbn [bind]. destruct (par_get_cases par 1) as [(b & _ & ->)| ->]; [|right; reflexivity]. cbn [bind]. destruct (par_get_cases par 2) as [(c & _ & ->)| ->]; [|right; reflexivity]. cbn [bind].
  cbv zeta. rewrite !assert_cases. match goal with |- context [if cvalid ?u then _ else _] => destruct (cvalid u) end; [|right; reflexivity]. cbn [bind].
  match goal with |- context [if cvalid ?u then _ else _] => destruct (cvalid u) end; [|right; reflexivity]. cbn [bind]. match goal with |- context [if cvalid ?u then _ else _] => destruct (cvalid u) end; [|right; reflexivity]. left. eexists. reflexivity.
Qed.
Lemma vadd_Fin_inv u v q : vadd u v = Fin q -> exists a b, u = Fin a /\ v = Fin b /\ q = (a + b)%Qc.
Proof. destruct u, v; cbn; try discriminate. intros [= <-]. eauto. Qed.
Lemma vmul_Fin_inv u v q : vmul u v = Fin q -> exists a b, u = Fin a /\ v = Fin b /\ q = (a * b)%Qc.
Proof. destruct u as [| | |a], v as [| | |b]; cbn; try discriminate; unfold vinf; repeat (match goal with |- context [if ?c then _ else _] => destruct c end; try discriminate). intros [= <-]. eauto. Qed.
(** a value that passes all assertions *)
Lemma coast_value_ok radius md nn par laf d f y x e w : 0 <= radius -> (0 <= md)%Qc -> fractions d laf -> of_size d f -> within d y x e -> coast_value radius (Fin md) nn par laf d f y x e = Ok w ->
  exists q own, w = Fin q /\ q <> missing_number /\ f_get f y x e = Ok (Fin own) /\ own <> missing_number /\
    ((forall p v, close (d_y d) (d_x d) radius y x p -> f_get f (fst p) (snd p) e = Ok v -> ~ missing v) -> coastal_rule radius md nn par laf d (fun p v => f_get f (fst p) (snd p) e = Ok (Fin v)) y x q).
Proof.
  intros Hr Hmd HL Hf (Hy & Hx & He) E. unfold coast_value in E. destruct (of_size_get d f y x e Hf) as [own Eo]; [unfold within; auto|]. rewrite Eo in E. cbn [bind] in E.
  destruct (search_square d laf f radius y x e HL Hf He Hr Hy Hx) as (pl & pu & PL & PU & ES). rewrite ES in E. cbn [bind] in E.
  destruct (par_get_cases par 0) as [(a & Za & Pa)|Pa]; rewrite Pa in E; [|discriminate]. cbn [bind] in E. destruct (par_get_cases par 1) as [(b & Zb & Pb)|Pb]; rewrite Pb in E; [|discriminate]. cbn [bind] in E. destruct (par_get_cases par 2) as [(c & Zc & Pc)|Pc]; rewrite Pc in E; [|discriminate]. cbn [bind] in E.
  cbv zeta in E. set (g := if cvalid (atf f e pl) && _ && _ then _ else _) in E. rewrite !assert_cases in E. destruct (cvalid g) eqn:Cg; [|discriminate]. cbn [bind] in E. destruct (cvalid own) eqn:Co; [|discriminate]. cbn [bind] in E.
  set (val0 := vadd _ (vmul c g)) in E. destruct (cvalid val0) eqn:Cv; [|discriminate]. cbn [bind] in E. injection E as <-. apply cvalid_true in Cv as (q & Eq & Nq). apply cvalid_true in Co as (o & -> & No). exists q, o. split; [exact Eq|]. split; [exact Nq|]. split; [auto|]. split; [exact No|].
  intros HP. unfold val0 in Eq. apply vadd_Fin_inv in Eq as (s1 & s2 & E1 & E2 & ->). apply vadd_Fin_inv in E1 as (a' & s3 & -> & E3 & ->). apply vmul_Fin_inv in E3 as (b' & base & -> & Eb & ->). apply vmul_Fin_inv in E2 as (c' & gq & -> & Eg & ->).
  assert (FP : forall p, close (d_y d) (d_x d) radius y x p -> exists v, f_get f (fst p) (snd p) e = Ok (Fin v) /\ atf f e p = Fin v /\ v <> missing_number).
  { intros p Hp. pose proof (atf_get d f e p radius y x Hf He (proj2 (square_close _ _ _ _ _ p) Hp)) as K. specialize (HP p _ Hp K). destruct (atf f e p) as [| | |v] eqn:EA; cbn [missing] in HP; try tauto. exists v. auto. }
  destruct (FP pl (proj1 PL)) as (lo & Fl & Al & Nl). destruct (FP pu (proj1 PU)) as (up & Fu & Au & Nu).
  exists a', b', c', pl, (lafq laf pl), pu, (lafq laf pu), lo, up, o. do 8 (split; [assumption|]). rewrite Al in Eb. assert (base = if nn then o else lo) as -> by (destruct nn; congruence). f_equal. f_equal.
  unfold g in Eg. rewrite Al, Au in Eg. rewrite !cvalid_Fin in Eg by assumption. cbn [andb vsub vadd vneg vltb] in Eg. fold (lafq laf pu - lafq laf pl)%Qc in Eg. fold (up - lo)%Qc in Eg. set (D := (lafq laf pu - lafq laf pl)%Qc) in *. clearbody D.
  destruct (qltb_spec md D) as [L|L]; destruct (Qclt_le_dec md D) as [L'|L']; try contradiction.
  - cbn [vdiv] in Eg. destruct (qeqb_spec D 0) as [Z|Z]; [exfalso; subst D; clear - L Hmd; qlra|]. injection Eg as <-. reflexivity.
  - exfalso. clear - L L'. qlra.
  - unfold fz in Eg. rewrite qz_0 in Eg. congruence.
Qed.
Lemma each_time_inv d body outs : each_time d body = Ok outs -> 0 <= d_t d -> zlen outs = d_t d /\ forall t, 0 <= t < d_t d -> exists g, znth outs t = Ok g /\ body t = Ok g.
Proof. intros H Hd. apply mapM_inv in H as [L K]. rewrite zlen_zrange in L by lia. split; [lia|]. intros t Ht. apply K. rewrite znth_zrange by lia. f_equal. Qed.
Lemma mapM_outcome {A B} (f : A -> res B) l : (forall a, In a l -> (exists b, f a = Ok b) \/ f a = Abort) -> (exists r, mapM f l = Ok r) \/ mapM f l = Abort.
Proof. induction l as [|a l IH]; intros H; cbn [mapM]; [eauto|]. destruct (H a (or_introl eq_refl)) as [[b E]|E]; rewrite E; cbn [bind]; [|auto]. destruct IH as [[r Er]|Er]; [intros; apply H; right; auto| |]; rewrite Er; cbn [bind]; eauto. Qed.
Lemma coastal_ok radius md nn nPars dep pars laf d fs out : 0 <= radius -> (0 <= md)%Qc -> fractions d laf -> shaped d fs -> coastal_calibrator radius (Fin md) nn nPars dep pars laf d fs = Ok out ->
  shaped d out /\ all_present d fs /\ all_present d out /\ nPars <> 0 /\ dep = true /\
  forall t y x e, 0 <= t < d_t d -> within d y x e -> exists w, element out t y x e (Fin w) /\ coastal_rule radius md nn (pars t y x) laf d (found fs out t y x e) y x w.
Proof.
  intros Hr Hmd HL HS E. unfold coastal_calibrator in E. destruct (Z.eqb_spec nPars 0); [discriminate|]. destruct dep; [|discriminate]. cbn [negb] in E. pose proof HS as (S0 & S1 & S2 & S3 & S4 & S5). destruct (each_time_inv d _ _ E S0) as [LO GO].
  assert (R : forall t, 0 <= t < d_t d -> exists f g, znth fs t = Ok f /\ znth out t = Ok g /\ of_size d f /\ of_size d g /\ forall y x e, within d y x e -> exists m w,
    of_size d m /\ coast_value radius (Fin md) nn (pars t y x) laf d m y x e = Ok w /\ f_get g y x e = Ok w /\ forall y' x', 0 <= y' < d_y d -> 0 <= x' < d_x d -> (before (y', x') (y, x) -> f_get m y' x' e = f_get g y' x' e) /\ (~ before (y', x') (y, x) -> f_get m y' x' e = f_get f y' x' e)).
  { intros t Ht. destruct (shaped_nth d fs t HS Ht) as (f & Ef & Sf). destruct (GO t Ht) as (g & Eg & Bg). rewrite Ef in Bg. cbn [bind] in Bg. destruct (rewrite_for3 d (fun f i j e => coast_value radius (Fin md) nn (pars t i j) laf d f i j e) f g Sf Bg) as [Sg G]. exists f, g. auto. }
  assert (SO : shaped d out). { repeat split; auto. apply Forall_forall. intros g Hg. apply In_znth in Hg as [t Ht]. pose proof (znth_range _ _ _ Ht) as Rt. destruct (R t) as (f & g' & _ & Eg & _ & Sg & _); [lia|]. assert (g' = g) by congruence. subst. auto. }
  assert (NB : forall y x, ~ before (y, x) (y, x)) by (intros; unfold before; cbn [fst snd]; lia).
  assert (PF : all_present d fs). { intros t y x e v Ht W (f' & Ef' & Gf'). destruct (R t Ht) as (f & g & Ef & Eg & Sf & Sg & G). assert (f' = f) by congruence. subst f'. destruct (G y x e W) as (m & w & Sm & Cm & Gw & SEE). destruct (coast_value_ok _ _ _ _ _ _ _ _ _ _ _ Hr Hmd HL Sm W Cm) as (q & own & _ & _ & Go & No & _).
    destruct W as (Wy & Wx & We). destruct (SEE y x Wy Wx) as [_ K]. rewrite (K (NB y x)) in Go. rewrite Go in Gf'. injection Gf' as <-. exact No. }
  assert (PO : all_present d out). { intros t y x e v Ht W (g' & Eg' & Gg'). destruct (R t Ht) as (f & g & Ef & Eg & Sf & Sg & G). assert (g' = g) by congruence. subst g'. destruct (G y x e W) as (m & w & Sm & Cm & Gw & SEE). destruct (coast_value_ok _ _ _ _ _ _ _ _ _ _ _ Hr Hmd HL Sm W Cm) as (q & own & -> & Nq & _). rewrite Gw in Gg'. injection Gg' as <-. exact Nq. }
  do 5 (split; [auto|]). intros t y x e Ht W. destruct (R t Ht) as (f & g & Ef & Eg & Sf & Sg & G). destruct (G y x e W) as (m & w & Sm & Cm & Gw & SEE). destruct (coast_value_ok _ _ _ _ _ _ _ _ _ _ _ Hr Hmd HL Sm W Cm) as (q & own & -> & Nq & Go & No & CR). exists q. split; [exists g; auto|].
  assert (LOOK : forall p v, close (d_y d) (d_x d) radius y x p -> f_get m (fst p) (snd p) e = Ok v -> (before p (y, x) -> element out t (fst p) (snd p) e v) /\ (~ before p (y, x) -> element fs t (fst p) (snd p) e v)).
  { intros [y' x'] v (C1 & C2 & _) Em. cbn [fst snd] in *. destruct (SEE y' x' C1 C2) as [K1 K2]. split; intros B; [rewrite (K1 B) in Em; exists g; auto|rewrite (K2 B) in Em; exists f; auto]. }
  destruct CR as (a & b & c & pl & ql & pu & qu & lo & up & own' & Ea & Eb & Ec & PL & PU & Fl & Fu & Fo & Hw).
  { intros p v Hp Em. pose proof Hp as Hp'. destruct Hp' as (C1 & C2 & _). assert (W' : within d (fst p) (snd p) e) by (unfold within in *; lia). destruct (LOOK p v Hp Em) as [K1 K2].
    assert (D : before p (y, x) \/ ~ before p (y, x)) by (unfold before; lia). destruct D as [D|D]; [apply (PO t _ _ _ _ Ht W' (K1 D))|apply (PF t _ _ _ _ Ht W' (K2 D))]. }
  exists a, b, c, pl, ql, pu, qu, lo, up, own'. do 5 (split; [assumption|]). split; [apply LOOK; [apply PL|exact Fl]|]. split; [apply LOOK; [apply PU|exact Fu]|]. split; [|exact Hw].
  destruct W as (Wy & Wx & We). apply LOOK; [unfold close; cbn [fst snd]; lia|exact Fo].
Qed.
Lemma coastal_outcome radius md nn nPars dep pars laf d fs : 0 <= radius -> fractions d laf -> shaped d fs -> (exists out, coastal_calibrator radius md nn nPars dep pars laf d fs = Ok out) \/ coastal_calibrator radius md nn nPars dep pars laf d fs = Abort.
Proof.
  intros Hr HL HS. unfold coastal_calibrator. destruct (nPars =? 0); [auto|]. destruct dep; [|auto]. cbn [negb]. apply mapM_outcome. intros t Ht. apply in_zrange in Ht. destruct (shaped_nth d fs t HS Ht) as (f & Ef & Sf). rewrite Ef. cbn [bind].
  destruct (rewrite_outcome d (fun f i j e => coast_value radius md nn (pars t i j) laf d f i j e)) with (l := cells (d_y d) (d_x d) (d_e d)) (f := f) as [(g & E & _)|E].
  - intros f' y x e Sf' W. apply coast_value_outcome; auto.
  - intros [[y x] e] Hc. apply in_cells in Hc. exact Hc.
  - exact Sf.
  - left. exists g. exact E.
  - right. exact E.
Qed.
Lemma c208 radius md nn nPars dep pars laf d fs : 0 <= radius -> (0 <= md)%Qc -> fractions d laf -> shaped d fs ->
  match coastal_calibrator radius (Fin md) nn nPars dep pars laf d fs with
  | Ok out => shaped d out /\ all_present d fs /\ all_present d out /\ nPars <> 0 /\ dep = true /\
      forall t y x e, 0 <= t < d_t d -> within d y x e -> exists w, element out t y x e (Fin w) /\ coastal_rule radius md nn (pars t y x) laf d (found fs out t y x e) y x w
  | Abort => True
  | _ => False
  end.
Proof.
  intros Hr Hmd HL HS. destruct (coastal_outcome radius (Fin md) nn nPars dep pars laf d fs Hr HL HS) as [[out E]|E]; rewrite E; [|exact I]. apply coastal_ok; auto.
Qed.
Lemma c208_stops radius md nn nPars dep pars laf d fs : 0 <= radius -> (0 <= md)%Qc -> fractions d laf -> shaped d fs -> ~ all_present d fs \/ nPars = 0 \/ dep = false -> coastal_calibrator radius (Fin md) nn nPars dep pars laf d fs = Abort.
Proof.
  intros Hr Hmd HL HS H. destruct (coastal_outcome radius (Fin md) nn nPars dep pars laf d fs Hr HL HS) as [[out E]|E]; [|exact E]. exfalso. destruct (coastal_ok _ _ _ _ _ _ _ _ _ _ Hr Hmd HL HS E) as (_ & P & _ & N & D & _). destruct H as [H|[H|H]]; [auto|auto|congruence].
Qed.
