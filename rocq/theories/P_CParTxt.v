(** Proofs about text parameter files: C186-C188. *)
From Coq Require Import Ascii String Sorted.
From Verif Require Import Base ListLib M_Stat M_COpt S_COpt P_COpt M_CUtil S_CUtil M_CText M_CTree S_CTree M_CPar S_CPar P_CCal P_CPar.
Local Open Scope Z_scope.

(** ** lines *)
Lemma until_at d s c t : (forall x, In x s -> ~ In x d) -> In c d -> until_first_of d (s ++ c :: t) = (s, c :: t).
Proof.
  intros H Hc. induction s as [|x s IH]; cbn.
  - rewrite (proj2 (has_char_In d c) Hc). reflexivity.
  - rewrite (proj2 (has_char_nIn d x)) by (apply H; left; auto). rewrite IH by (intros; apply H; right; auto). reflexivity.
Qed.
Lemma get_line_ok s text : (forall c, In c s -> c <> newline /\ c <> "000"%char) -> zlen s < 10000 -> get_line (s ++ newline :: text) = Some (s, text).
Proof.
  intros H L. unfold get_line. rewrite until_at; [|intros x Hx [E|[]]; destruct (H x Hx); congruence|left; auto]. replace (10000 <=? zlen s) with false by lia. unfold cut. rewrite until_solid; auto. intros c Hc [E|[]]. destruct (H c Hc). congruence.
Qed.
Lemma text_lines lines text : Text lines text -> forall fuel, (length text < fuel)%nat -> exists ss, file_lines fuel text = ss /\ Forall2 Line lines ss.
Proof.
  induction 1 as [|ws s lines text HL HT IH|s lines text HC HT IH]; intros fuel Hf.
  - exists []. split; [|constructor]. destruct fuel; reflexivity.
  - destruct fuel as [|fuel]; [lia|]. rewrite app_length in Hf. cbn [length] in Hf. destruct (IH fuel) as (ss & E & F); [lia|]. destruct HL as (Hne & HW & HE & HN & HC & HZ) eqn:EL. clear EL.
    exists (s :: ss). split; [|constructor; auto; repeat split; auto; apply HN; auto]. cbn [file_lines]. rewrite get_line_ok by auto. rewrite E. destruct s as [|c s]; auto. destruct (Ascii.eqb_spec c "#"%char) as [->|]; auto. elim (HC s eq_refl).
  - destruct fuel as [|fuel]; [lia|]. rewrite app_length in Hf. cbn [length] in Hf. destruct (IH fuel) as (ss & E & F); [lia|]. destruct HC as (t & -> & HN & HZ). exists ss. split; auto. cbn [file_lines]. rewrite get_line_ok by auto. rewrite Ascii.eqb_refl. auto.
Qed.

(** ** words *)
Definition ends_solid (s : str) : Prop := exists s' c, s = s' ++ [c] /\ ~ In c white.
Lemma ends_app a b : b <> [] -> ends_solid (a ++ b) -> ends_solid b.
Proof. intros Hb (s & c & E & N). destruct (exists_last Hb) as (b' & c' & ->). rewrite app_assoc in E. apply app_inj_tail in E as [_ ->]. exists b', c. auto. Qed.
Lemma first_word sep w rest d : (forall c, In c sep -> In c d) -> w <> [] -> (forall c, In c w -> ~ In c d) -> first_not_of d (sep ++ w ++ rest) = w ++ rest.
Proof.
  intros Hs Hw Hc. induction sep as [|x sep IH]; cbn [app first_not_of].
  - destruct w as [|c w]; [congruence|]. cbn. rewrite (proj2 (has_char_nIn d c)) by (apply Hc; left; auto). reflexivity.
  - rewrite (proj2 (has_char_In d x)) by (apply Hs; left; auto). apply IH. intros; apply Hs; right; auto.
Qed.
Lemma until_word w rest d : (forall c, In c w -> ~ In c d) -> (rest = [] \/ exists c t, rest = c :: t /\ In c d) -> until_first_of d (w ++ rest) = (w, rest).
Proof. intros Hc [->|(c & t & -> & H)]; [rewrite app_nil_r; apply until_solid; auto|apply until_at; auto]. Qed.
Lemma not_ends s d : (forall c, In c s -> In c d) -> d = white -> ends_solid s -> False.
Proof. intros H -> (s' & c & -> & N). apply N, H, in_or_app. right. left. auto. Qed.
Lemma header_ok s ws : Words white s ws -> ends_solid s -> forall fuel, (length s < fuel)%nat -> header_words fuel s = Ok ws.
Proof.
  induction 1 as [s Hs|sep w rest ws Hs Hw Hc Hr HW IH]; intros HE fuel Hf; [elim (not_ends s white Hs eq_refl HE)|].
  destruct fuel as [|fuel]; [lia|]. cbn [header_words]. rewrite first_word by auto. pose proof (until_word w rest white Hc Hr) as EU. assert (Hl : (length rest < fuel)%nat) by (rewrite !app_length in Hf; destruct w; [congruence|cbn [length] in *; lia]). rewrite app_assoc in HE. clear Hf.
  destruct (w ++ rest) as [|x y] eqn:E; [destruct w; [congruence|discriminate]|]. rewrite EU.
  destruct rest as [|c t] eqn:Er.
  - inversion HW as [? ? E1 E2|? ? ? ? ? Hw' ? ? ? E1 E2]; [reflexivity|]. exfalso. destruct sep0; [destruct w0; [congruence|discriminate]|discriminate].
  - rewrite IH; [reflexivity| |auto]. apply (ends_app (sep ++ w)); [discriminate|exact HE].
Qed.

(** ** columns *)
Lemma column_from name ws : forall i pos, (column i pos name ws = pos /\ ~ In name ws) \/ (exists j, column i pos name ws = i + j /\ znth ws j = Ok name).
Proof.
  induction ws as [|w ws IH]; intros i pos; cbn [column]; [left; split; auto|]. destruct (IH (i + 1) (if str_eqb w name then i else pos)) as [[E N]|(j & E & Hj)].
  - rewrite E. destruct (str_eqb_spec w name) as [->|n]; [right; exists 0; split; [lia|reflexivity]|left; split; auto; intros [?|?]; auto].
  - right. exists (j + 1). split; [lia|]. pose proof (znth_range _ _ _ Hj). unfold znth in *. replace (j <? 0) with false in Hj by lia. replace (j + 1 <? 0) with false by lia. replace (Z.to_nat (j + 1)) with (S (Z.to_nat j)) by lia. exact Hj.
Qed.
Lemma column_name name ws c : column 0 (-999) name ws = c -> 0 <= c -> znth ws c = Ok name.
Proof. intros E Hc. destruct (column_from name ws 0 (-999)) as [[E' _]|(j & E' & Hj)]; [lia|]. replace c with j by lia. exact Hj. Qed.
Lemma column_pos name ws i : good_header ws -> special name -> znth ws i = Ok name -> column 0 (-999) name ws = i.
Proof. intros [HU _] Hs Hi. destruct (column_from name ws 0 (-999)) as [[_ N]|(j & E & Hj)]; [elim N; eapply znth_In; eauto|]. rewrite E, Z.add_0_l. apply (HU j i name); auto. Qed.
Lemma column_absent name ws : ~ In name ws <-> column 0 (-999) name ws = -999.
Proof.
  destruct (column_from name ws 0 (-999)) as [[E N]|(j & E & Hj)]; [split; auto|]. pose proof (znth_range _ _ _ Hj). split; [intros N; elim N; eapply znth_In; eauto|lia].
Qed.
Lemma column_has name ws : has_column (column 0 (-999) name ws) = true <-> In name ws.
Proof.
  unfold has_column. rewrite negb_true_iff, Z.eqb_neq, <- column_absent. destruct (in_dec (list_eq_dec ascii_dec) name ws); tauto.
Qed.
Lemma partial_place_good ws : good_header ws -> partial_place (columns_of ws) = false.
Proof.
  intros [_ [(A & B & C)|(A & B & C)]]; unfold partial_place, columns_of; cbn [c_lat c_lon c_elev].
  - rewrite !(proj2 (column_has _ ws)) by auto. reflexivity.
  - assert (N : forall n, ~ In n ws -> has_column (column 0 (-999) n ws) = false) by (intros n Hn; apply not_true_is_false; rewrite column_has; auto). rewrite !N by auto. reflexivity.
Qed.

(** ** the cells of a row *)
Section Row.
Variables (rint : str -> option (Z * str)) (rnum : str -> option (val * str)).
Definition upd (c : columns) (i : Z) (x : Z + val) (r : row) : row :=
  match x with
  | inl t => {| r_time := t; r_lat := r_lat r; r_lon := r_lon r; r_elev := r_elev r; r_values := r_values r |}
  | inr v => if i =? c_lat c then {| r_time := r_time r; r_lat := v; r_lon := r_lon r; r_elev := r_elev r; r_values := r_values r |}
             else if i =? c_lon c then {| r_time := r_time r; r_lat := r_lat r; r_lon := v; r_elev := r_elev r; r_values := r_values r |}
             else if i =? c_elev c then {| r_time := r_time r; r_lat := r_lat r; r_lon := r_lon r; r_elev := v; r_values := r_values r |}
             else {| r_time := r_time r; r_lat := r_lat r; r_lon := r_lon r; r_elev := r_elev r; r_values := r_values r ++ [v] |}
  end.
Fixpoint upds (c : columns) (i : Z) (xs : list (Z + val)) (r : row) : row := match xs with [] => r | x :: t => upds c (i + 1) t (upd c i x r) end.
Fixpoint cells_ok (c : columns) (i : Z) (ws : list str) (xs : list (Z + val)) : Prop :=
  match ws, xs with
  | [], [] => True
  | w :: ws, x :: xs => (if i =? c_time c then exists t, x = inl t /\ numeral rint w t else exists v, x = inr v /\ numeral rnum w v) /\ cells_ok c (i + 1) ws xs
  | _, _ => False
  end.
Lemma read_row_ok c s ws : Words white s ws -> ends_solid s -> forall fuel i xs r, (length s < fuel)%nat -> cells_ok c i ws xs -> read_row rint rnum fuel c i s r = Ok (upds c i xs r).
Proof.
  induction 1 as [s Hs|sep w rest ws Hs Hw Hc Hr HW IH]; intros HE fuel i xs r Hf HX; [elim (not_ends s white Hs eq_refl HE)|].
  destruct fuel as [|fuel]; [lia|]. destruct xs as [|x xs]; [contradiction|]. destruct HX as [HX HXS]. cbn [read_row upds]. rewrite first_word by auto.
  assert (NEXT : forall r', (match rest with [] => Ok r' | _ => read_row rint rnum fuel c (i + 1) rest r' end) = Ok (upds c (i + 1) xs r')).
  { intros r'. destruct rest as [|ch t] eqn:Er.
    - inversion HW as [? ? E1 E2|? ? ? ? ? Hw' ? ? ? E1 E2]; subst; [destruct xs; [reflexivity|contradiction]|]. exfalso. destruct sep0; [destruct w0; [congruence|discriminate]|discriminate].
    - apply IH; auto. + apply (ends_app (sep ++ w)); [discriminate|]. rewrite <- app_assoc. exact HE. + rewrite !app_length in Hf. destruct w; [congruence|]. cbn [length] in *. lia. }
  destruct (Z.eqb_spec i (c_time c)) as [Ei|Ei].
  - destruct HX as (t & -> & [_ HX]). rewrite HX by auto. rewrite NEXT. reflexivity.
  - destruct HX as (v & -> & [_ HX]). rewrite HX by auto. rewrite NEXT. unfold upd. reflexivity.
Qed.
Lemma numeral_fun {V} (rd : str -> option (V * str)) w v v' : numeral rd w v -> numeral rd w v' -> v = v'.
Proof. intros [_ H] [_ H']. specialize (H [] (or_introl eq_refl)). rewrite H' in H by auto. congruence. Qed.
Lemma cells_nth c ws : forall i xs j w, cells_ok c i ws xs -> znth ws j = Ok w -> exists x, znth xs j = Ok x /\
  (if i + j =? c_time c then exists t, x = inl t /\ numeral rint w t else exists v, x = inr v /\ numeral rnum w v).
Proof.
  induction ws as [|w0 ws IH]; intros i xs j w HX Hj; [apply znth_range in Hj; change (zlen (@nil str)) with 0 in Hj; lia|]. destruct xs as [|x xs]; [contradiction|]. destruct HX as [HX HXS].
  destruct (Z.eq_dec j 0) as [->|n]; [injection Hj as <-; exists x; rewrite Z.add_0_r; auto|]. pose proof (znth_range _ _ _ Hj) as R.
  assert (Q : forall A (a : A) l, znth (a :: l) j = znth l (j - 1)). { intros A a l. unfold znth. replace (j <? 0) with false by lia. replace (j - 1 <? 0) with false by lia. replace (Z.to_nat j) with (S (Z.to_nat (j - 1))) by lia. reflexivity. }
  rewrite Q in Hj |- *. destruct (IH (i + 1) xs (j - 1) w HXS Hj) as (y & Ey & Hy). exists y. split; auto. replace (i + 1 + (j - 1)) with (i + j) in Hy by lia. exact Hy.
Qed.
(** what the cells give *)
Lemma upds_time c ws : forall i xs r, cells_ok c i ws xs -> (c_time c < i \/ i + zlen ws <= c_time c -> r_time (upds c i xs r) = r_time r) /\
  (forall t, i <= c_time c -> znth xs (c_time c - i) = Ok (inl t) -> r_time (upds c i xs r) = t).
Proof.
  induction ws as [|w ws IH]; intros i xs r HX; destruct xs as [|x xs]; try contradiction.
  - split; [reflexivity|]. intros t H E. apply znth_range in E. change (zlen (@nil (Z + val))) with 0 in E. lia.
  - destruct HX as [HX HXS]. cbn [upds]. rewrite zlen_cons. destruct (IH (i + 1) xs (upd c i x r) HXS) as [I1 I2]. destruct (Z.eqb_spec i (c_time c)) as [Ei|Ei].
    + destruct HX as (t0 & -> & _). split; [pose proof (zlen_nonneg ws); lia|]. intros t H E. rewrite <- Ei, Z.sub_diag in E. injection E as <-. rewrite I1 by lia. reflexivity.
    + destruct HX as (v & -> & _). assert (U : r_time (upd c i (inr v) r) = r_time r) by (unfold upd; destruct (i =? c_lat c), (i =? c_lon c), (i =? c_elev c); reflexivity). rewrite U in I1. pose proof (zlen_nonneg ws). split; [intros H'; apply I1; lia|].
      intros t H' E. apply I2; [lia|]. unfold znth in *. replace (c_time c - i <? 0) with false in E by lia. replace (c_time c - (i + 1) <? 0) with false by lia. replace (Z.to_nat (c_time c - i)) with (S (Z.to_nat (c_time c - (i + 1)))) in E by lia. exact E.
Qed.
Lemma upds_field (g : row -> val) (col : columns -> Z) c :
  (forall i t r, g (upd c i (inl t) r) = g r) -> (forall i v r, g (upd c i (inr v) r) = if i =? col c then v else g r) ->
  forall ws i xs r, cells_ok c i ws xs -> (col c < i \/ i + zlen ws <= col c \/ col c = c_time c -> g (upds c i xs r) = g r) /\
  (forall v, i <= col c -> col c <> c_time c -> znth xs (col c - i) = Ok (inr v) -> g (upds c i xs r) = v).
Proof.
  intros G1 G2. induction ws as [|w ws IH]; intros i xs r HX; destruct xs as [|x xs]; try contradiction.
  - split; [reflexivity|]. intros t H N E. apply znth_range in E. change (zlen (@nil (Z + val))) with 0 in E. lia.
  - destruct HX as [HX HXS]. cbn [upds]. rewrite zlen_cons. destruct (IH (i + 1) xs (upd c i x r) HXS) as [I1 I2]. pose proof (zlen_nonneg ws).
    assert (SH : forall y, i < col c -> znth (x :: xs) (col c - i) = Ok y -> znth xs (col c - (i + 1)) = Ok y).
    { intros y H' E. unfold znth in *. replace (col c - i <? 0) with false in E by lia. replace (col c - (i + 1) <? 0) with false by lia. replace (Z.to_nat (col c - i)) with (S (Z.to_nat (col c - (i + 1)))) in E by lia. exact E. }
    destruct (Z.eqb_spec i (c_time c)) as [Ei|Ei].
    + destruct HX as (t0 & -> & _). rewrite G1 in I1. split; [intros H'; apply I1; lia|]. intros v H' N E. apply I2; auto; [lia|]. apply SH; auto. lia.
    + destruct HX as (v0 & -> & _). rewrite G2 in I1. destruct (Z.eqb_spec i (col c)) as [Ec|Ec].
      * split; [intros; exfalso; lia|]. intros v H' N E. rewrite <- Ec, Z.sub_diag in E. injection E as <-. apply I1. lia.
      * split; [intros H'; apply I1; lia|]. intros v H' N E. apply I2; auto; [lia|]. apply SH; auto. lia.
Qed.
Lemma upds_values header c i ns ws p : c = columns_of header -> good_header header -> parameter_cells rnum ns ws p -> (forall j n, znth ns j = Ok n -> znth header (i + j) = Ok n) -> 0 <= i ->
  forall xs r, cells_ok c i ws xs -> r_values (upds c i xs r) = r_values r ++ p.
Proof.
  intros Ec HG HP. revert i. induction HP as [|n w ns ws p Hs HP IH|n w v ns ws p Hs Hv HP IH]; intros i HH Hi xs r HX; destruct xs as [|x xs]; try contradiction; cbn [upds].
  - rewrite app_nil_r. reflexivity.
  - destruct HX as [HX HXS]. rewrite IH; auto; [| |lia].
    2:{ intros j m Hj. replace (i + 1 + j) with (i + (j + 1)) by lia. apply HH. pose proof (znth_range _ _ _ Hj). unfold znth in *. replace (j <? 0) with false in Hj by lia. replace (j + 1 <? 0) with false by lia. replace (Z.to_nat (j + 1)) with (S (Z.to_nat j)) by lia. exact Hj. }
    f_equal. pose proof (HH 0 n eq_refl) as Hn. rewrite Z.add_0_r in Hn. pose proof (column_pos n header i HG Hs Hn) as Ep. destruct (Z.eqb_spec i (c_time c)) as [Ei|Ei]; [destruct HX as (t & -> & _); reflexivity|]. destruct HX as (v & -> & _).
    unfold upd. subst c. unfold columns_of in *. cbn [c_time c_lat c_lon c_elev] in *. destruct Hs as [<-|[<-|[<-|[<-|[]]]]]; [congruence| | |].
    + rewrite Ep, Z.eqb_refl. reflexivity.
    + rewrite Ep, Z.eqb_refl. destruct (i =? column 0 (-999) (txt "lat") header); reflexivity.
    + rewrite Ep, Z.eqb_refl. destruct (i =? column 0 (-999) (txt "lat") header), (i =? column 0 (-999) (txt "lon") header); reflexivity.
  - destruct HX as [HX HXS]. rewrite IH; auto; [| |lia].
    2:{ intros j m Hj. replace (i + 1 + j) with (i + (j + 1)) by lia. apply HH. pose proof (znth_range _ _ _ Hj). unfold znth in *. replace (j <? 0) with false in Hj by lia. replace (j + 1 <? 0) with false by lia. replace (Z.to_nat (j + 1)) with (S (Z.to_nat j)) by lia. exact Hj. }
    pose proof (HH 0 n eq_refl) as Hn. rewrite Z.add_0_r in Hn. assert (NS : forall m, special m -> column 0 (-999) m header <> i). { intros m Hm E. apply column_name in E; auto. rewrite Hn in E. injection E as ->. auto. }
    replace (i =? c_time c) with false in HX by (symmetry; apply Z.eqb_neq; subst c; apply not_eq_sym, NS; left; auto). destruct HX as (v' & -> & Hv'). rewrite (numeral_fun rnum w v' v Hv' Hv). unfold upd.
    replace (i =? c_lat c) with false by (symmetry; apply Z.eqb_neq; subst c; apply not_eq_sym, NS; right; left; auto).
    replace (i =? c_lon c) with false by (symmetry; apply Z.eqb_neq; subst c; apply not_eq_sym, NS; right; right; left; auto).
    replace (i =? c_elev c) with false by (symmetry; apply Z.eqb_neq; subst c; apply not_eq_sym, NS; right; right; right; left; auto).
    cbn [r_values]. rewrite <- app_assoc. reflexivity.
Qed.
End Row.

(** ** a row of the table *)
Lemma znth_S {A} (a : A) l j : 0 <= j -> znth (a :: l) (j + 1) = znth l j.
Proof. intros H. unfold znth. replace (j <? 0) with false by lia. replace (j + 1 <? 0) with false by lia. replace (Z.to_nat (j + 1)) with (S (Z.to_nat j)) by lia. reflexivity. Qed.
Definition is_cell (rint : str -> option (Z * str)) (rnum : str -> option (val * str)) (c : columns) (i : Z) (w : str) : Prop :=
  if i =? c_time c then exists t, numeral rint w t else exists v, numeral rnum w v.
Lemma cells_exist rint rnum c ws : forall i, (forall j w, znth ws j = Ok w -> is_cell rint rnum c (i + j) w) -> exists xs, cells_ok rint rnum c i ws xs.
Proof.
  induction ws as [|w ws IH]; intros i H; [exists []; exact I|]. destruct (IH (i + 1)) as [xs Hx].
  { intros j w' Hj. replace (i + 1 + j) with (i + (j + 1)) by lia. apply H. rewrite znth_S; auto. apply (znth_range _ _ _ Hj). }
  pose proof (H 0 w eq_refl) as H0. rewrite Z.add_0_r in H0. unfold is_cell in H0. destruct (i =? c_time c) eqn:E; destruct H0 as [x Hn]; [exists (inl x :: xs)|exists (inr x :: xs)]; cbn [cells_ok]; rewrite E; eauto.
Qed.
Lemma par_cell rnum ns ws p : parameter_cells rnum ns ws p -> forall j n w, znth ns j = Ok n -> ~ special n -> znth ws j = Ok w -> exists v, numeral rnum w v.
Proof.
  assert (Q : forall A (a : A) l j x, znth (a :: l) j = Ok x -> (j = 0 /\ x = a) \/ (0 < j /\ znth l (j - 1) = Ok x)).
  { intros A a l j x E. pose proof (znth_range _ _ _ E). destruct (Z.eq_dec j 0) as [->|n]; [left; injection E as <-; auto|right]. split; [lia|]. rewrite <- (znth_S a) by lia. replace (j - 1 + 1) with j by lia. exact E. }
  induction 1 as [|n w ns ws p Hs HP IH|n w v ns ws p Hs Hv HP IH]; intros j n' w' Hn Hn' Hw.
  - apply znth_range in Hn. change (zlen (@nil str)) with 0 in Hn. lia.
  - destruct (Q _ _ _ _ _ Hn) as [[-> ->]|[L Hn1]]; [contradiction|]. destruct (Q _ _ _ _ _ Hw) as [[-> ->]|[_ Hw1]]; [lia|]. eauto.
  - destruct (Q _ _ _ _ _ Hn) as [[-> ->]|[L Hn1]]; destruct (Q _ _ _ _ _ Hw) as [[E1 E2]|[L' Hw1]]; try lia; [subst; eauto|eauto].
Qed.
Definition str_dec : forall a b : str, {a = b} + {a <> b} := list_eq_dec ascii_dec.
Lemma row_cells rint rnum header words e : good_header header -> table_row rint rnum header words e -> exists xs, cells_ok rint rnum (columns_of header) 0 words xs.
Proof.
  intros HG (HL & HP & HT & lat & lon & elev & H1 & H2 & H3 & _). apply cells_exist. intros j w Hw. rewrite Z.add_0_l. pose proof (znth_range _ _ _ Hw) as R. rewrite HL in R. destruct (znth_some header j R) as [n Hn].
  assert (C : forall V (rd : str -> option (V * str)) d v, special n -> cell rd header words n d v -> numeral rd w v).
  { intros V rd d v Hs [[N _]|(i & w' & E1 & E2 & E3)]; [elim N; eapply znth_In; eauto|]. rewrite <- (proj1 HG j i n Hs Hn E1) in E2. rewrite Hw in E2. injection E2 as <-. exact E3. }
  unfold is_cell. destruct (Z.eqb_spec j (c_time (columns_of header))) as [Ej|Nj].
  - cbn in Ej. symmetry in Ej. apply column_name in Ej; [|lia]. rewrite Hn in Ej. injection Ej as ->. exists (at_ e). apply (C _ rint 0); auto. left; auto.
  - destruct (in_dec str_dec n [txt "time"; txt "lat"; txt "lon"; txt "elev"]) as [Hs|Hs]; [|eapply par_cell; eauto]. pose proof Hs as Hs'. destruct Hs' as [<-|[<-|[<-|[<-|[]]]]].
    + elim Nj. symmetry. apply (column_pos _ _ _ HG Hs Hn).
    + exists lat. eapply C; eauto.
    + exists lon. eapply C; eauto.
    + exists elev. eapply C; eauto.
Qed.
Lemma row_fields rint rnum header words e xs : good_header header -> table_row rint rnum header words e -> cells_ok rint rnum (columns_of header) 0 words xs ->
  let r := upds (columns_of header) 0 xs no_row in r_time r = at_ e /\ row_place r = where_ e /\ r_values r = what e.
Proof.
  intros HG (HL & HP & HT & lat & lon & elev & H1 & H2 & H3 & HW) HX r. set (c := columns_of header) in *.
  assert (ST : special (txt "time")) by (left; auto). assert (S1 : special (txt "lat")) by (right; left; auto). assert (S2 : special (txt "lon")) by (right; right; left; auto). assert (S3 : special (txt "elev")) by (right; right; right; left; auto).
  assert (F : forall (g : row -> val) (col : columns -> Z) name v, col c = column 0 (-999) name header -> special name -> name <> txt "time" ->
    (forall i t r, g (upd c i (inl t) r) = g r) -> (forall i v r, g (upd c i (inr v) r) = if i =? col c then v else g r) -> g no_row = CMV -> cell rnum header words name (Fin missing_number) v -> g r = v).
  { intros g col name v Ec Hs Ht G1 G2 G0 HC. destruct (upds_field rint rnum g col c G1 G2 words 0 xs no_row HX) as [U1 U2]. destruct HC as [[N ->]|(i & w & E1 & E2 & E3)].
    - unfold r. rewrite U1; [exact G0|]. left. rewrite Ec, (proj1 (column_absent name header) N). lia.
    - pose proof (column_pos name header i HG Hs E1) as Ei. pose proof (znth_range _ _ _ E1) as Ri. destruct (cells_nth rint rnum c words 0 xs i w HX E2) as (x & Ex & Hx). rewrite Z.add_0_l in Hx.
      assert (Ni : i <> c_time c). { intros K. symmetry in K. apply column_name in K; [|lia]. rewrite E1 in K. injection K as K. auto. }
      replace (i =? c_time c) with false in Hx by (symmetry; apply Z.eqb_neq; auto). destruct Hx as (v' & -> & Hv'). rewrite (numeral_fun rnum w v v' E3 Hv'). apply U2; [lia| |]; rewrite Ec, Ei; [auto|]. rewrite Z.sub_0_r. exact Ex. }
  assert (R1 : r_lat r = lat). { apply (F r_lat c_lat (txt "lat")); auto; [discriminate|]. intros i v r0. unfold upd. destruct (i =? c_lat c), (i =? c_lon c), (i =? c_elev c); reflexivity. }
  assert (NN : forall a b i, special a -> special b -> a <> b -> 0 <= i -> i = column 0 (-999) a header -> i = column 0 (-999) b header -> False).
  { intros a b i Ha Hb Hab Hi E1 E2. symmetry in E1, E2. apply column_name in E1; auto. apply column_name in E2; auto. rewrite E1 in E2. injection E2 as E2. auto. }
  split; [|split].
  - destruct (upds_time rint rnum c words 0 xs no_row HX) as [U1 U2]. destruct HT as [[N ->]|(i & w & E1 & E2 & E3)].
    + unfold r. rewrite U1; [reflexivity|]. left. change (c_time c) with (column 0 (-999) (txt "time") header). rewrite (proj1 (column_absent _ header) N). lia.
    + pose proof (column_pos _ header i HG ST E1) as Ei. change (column 0 (-999) (txt "time") header) with (c_time c) in Ei. pose proof (znth_range _ _ _ E1) as Ri. destruct (cells_nth rint rnum c words 0 xs i w HX E2) as (x & Ex & Hx). rewrite Z.add_0_l, Ei, Z.eqb_refl in Hx. destruct Hx as (t & -> & Ht). rewrite (numeral_fun rint w (at_ e) t E3 Ht). apply U2; rewrite Ei; [lia|]. rewrite Z.sub_0_r. exact Ex.
  - assert (R2 : r_lon r = lon).
    { destruct (Z_le_dec 0 (c_lon c)) as [P|P].
      2:{ destruct (column_from (txt "lon") header 0 (-999)) as [[E N]|(j & E & Hj)]; [|pose proof (znth_range _ _ _ Hj); change (c_lon c) with (column 0 (-999) (txt "lon") header) in P; lia]. destruct H2 as [[_ ->]|(i & w & E1 & _)]; [|elim N; eapply znth_In; eauto].
          assert (K : forall ws i xs r0, cells_ok rint rnum c i ws xs -> 0 <= i -> r_lon (upds c i xs r0) = r_lon r0). { clear - P. induction ws as [|w ws IH]; intros i xs r0 HX Hi; destruct xs as [|x xs]; try contradiction; [reflexivity|]. destruct HX as [_ HX]. cbn [upds]. rewrite IH by (auto; lia). destruct x; [reflexivity|]. unfold upd. replace (i =? c_lon c) with false by (symmetry; apply Z.eqb_neq; lia). destruct (i =? c_lat c), (i =? c_elev c); reflexivity. }
          apply (K words 0 xs no_row HX). lia. }
      apply (F r_lon c_lon (txt "lon")); auto; [discriminate|]. intros i v r0. unfold upd. destruct (Z.eqb_spec i (c_lat c)) as [E|], (Z.eqb_spec i (c_lon c)) as [E'|], (i =? c_elev c); try reflexivity; exfalso; apply (NN (txt "lat") (txt "lon") i); auto; try discriminate; lia. }
    assert (R3 : r_elev r = elev).
    { destruct (Z_le_dec 0 (c_elev c)) as [P|P].
      2:{ destruct (column_from (txt "elev") header 0 (-999)) as [[E N]|(j & E & Hj)]; [|pose proof (znth_range _ _ _ Hj); change (c_elev c) with (column 0 (-999) (txt "elev") header) in P; lia]. destruct H3 as [[_ ->]|(i & w & E1 & _)]; [|elim N; eapply znth_In; eauto].
          assert (K : forall ws i xs r0, cells_ok rint rnum c i ws xs -> 0 <= i -> r_elev (upds c i xs r0) = r_elev r0). { clear - P. induction ws as [|w ws IH]; intros i xs r0 HX Hi; destruct xs as [|x xs]; try contradiction; [reflexivity|]. destruct HX as [_ HX]. cbn [upds]. rewrite IH by (auto; lia). destruct x; [reflexivity|]. unfold upd. replace (i =? c_elev c) with false by (symmetry; apply Z.eqb_neq; lia). destruct (i =? c_lat c), (i =? c_lon c); reflexivity. }
          apply (K words 0 xs no_row HX). lia. }
      apply (F r_elev c_elev (txt "elev")); auto; [discriminate|]. intros i v r0. unfold upd. destruct (Z.eqb_spec i (c_lat c)) as [E|], (Z.eqb_spec i (c_lon c)) as [E'|], (Z.eqb_spec i (c_elev c)) as [E''|]; try reflexivity; exfalso;
        first [solve [apply (NN (txt "lat") (txt "elev") i); auto; try discriminate; lia]|solve [apply (NN (txt "lon") (txt "elev") i); auto; try discriminate; lia]]. }
    unfold row_place. rewrite R1, R2, R3. assert (V : forall v, cvalid v = true <-> given v) by (intros; apply cvalid_true). destruct HW as [(A & B & C & ->)|(N & ->)].
    + rewrite !(proj2 (V _)) by auto. reflexivity.
    + destruct (cvalid lat && cvalid lon && cvalid elev) eqn:K; [|reflexivity]. elim N. apply andb_true_iff in K as [K K3]. apply andb_true_iff in K as [K1 K2]. rewrite <- !V. auto.
  - unfold r. rewrite (upds_values rint rnum header c 0 header words (what e) eq_refl HG HP) ; auto; lia.
Qed.

(** the number of values of a row *)
Definition spec_col (c : columns) (j : Z) : bool := (j =? c_time c) || (j =? c_lat c) || (j =? c_lon c) || (j =? c_elev c).
Lemma upds_count rint rnum c ws : forall i xs r, cells_ok rint rnum c i ws xs -> zlen (r_values (upds c i xs r)) = zlen (r_values r) + zlen (filter (fun j => negb (spec_col c j)) (zrange i (i + zlen ws))).
Proof.
  induction ws as [|w ws IH]; intros i xs r HX; destruct xs as [|x xs]; try contradiction; cbn [upds].
  - rewrite zrange_nil by (change (zlen (@nil str)) with 0; lia). change (zlen (filter (fun j => negb (spec_col c j)) [])) with 0. lia.
  - destruct HX as [HX HXS]. rewrite zlen_cons, (zrange_cons i) by (pose proof (zlen_nonneg ws); lia). rewrite (IH (i + 1) xs _ HXS). replace (i + 1 + zlen ws) with (i + (zlen ws + 1)) by lia. cbn [filter].
    assert (E : zlen (r_values (upd c i x r)) = zlen (r_values r) + (if spec_col c i then 0 else 1)).
    { unfold spec_col. destruct (i =? c_time c); cbn [orb]; [destruct HX as (t & -> & _); cbn; lia|]. destruct HX as (v & -> & _). unfold upd. destruct (i =? c_lat c), (i =? c_lon c), (i =? c_elev c); cbn [orb r_values]; try lia. rewrite zlen_app. change (zlen [v]) with 1. lia. }
    rewrite E. destruct (spec_col c i); cbn [negb]; [lia|rewrite zlen_cons; lia].
Qed.
Lemma spec_count c n m : 0 <= n -> n < m -> (forall j, spec_col c j = true -> j < n) -> zlen (filter (fun j => negb (spec_col c j)) (zrange 0 n)) < zlen (filter (fun j => negb (spec_col c j)) (zrange 0 m)).
Proof.
  intros Hn Hm H. assert (K : forall k, n <= k -> zlen (filter (fun j => negb (spec_col c j)) (zrange 0 k)) = zlen (filter (fun j => negb (spec_col c j)) (zrange 0 n)) + (k - n)).
  { intros k Hk. pattern k. apply (Zlt_lower_bound_ind _ n); auto. clear k Hk. intros k IH Hk. destruct (Z.eq_dec k n) as [->|N]; [lia|]. rewrite (zrange_snoc 0 k) by lia. rewrite filter_app, zlen_app, IH by lia. cbn [filter]. replace (spec_col c (k - 1)) with false.
    - cbn [negb]. change (zlen [k - 1]) with 1. lia.
    - symmetry. apply not_true_is_false. intros K. apply H in K. lia. }
  rewrite (K m) by lia. lia.
Qed.

(** ** the table *)
Lemma line_ends ws s : Line ws s -> ends_solid s.
Proof. intros (_ & _ & H & _). exact H. Qed.
Lemma row_read rint rnum header words e s : good_header header -> table_row rint rnum header words e -> Line words s ->
  exists r, read_row rint rnum (S (length s)) (columns_of header) 0 s no_row = Ok r /\ r_time r = at_ e /\ row_place r = where_ e /\ r_values r = what e.
Proof.
  intros HG HT HL. destruct (row_cells rint rnum header words e HG HT) as [xs HX]. destruct (row_fields rint rnum header words e xs HG HT HX) as (A & B & C). exists (upds (columns_of header) 0 xs no_row). split; auto.
  apply (read_row_ok rint rnum _ s words); auto; [apply HL|apply (line_ends words); auto].
Qed.
Lemma row_count rint rnum header words e : good_header header -> table_row rint rnum header words e -> zlen (what e) = zlen (filter (fun j => negb (spec_col (columns_of header) j)) (zrange 0 (zlen header))).
Proof.
  intros HG HT. destruct (row_cells rint rnum header words e HG HT) as [xs HX]. destruct (row_fields rint rnum header words e xs HG HT HX) as (_ & _ & C). rewrite <- C, (upds_count rint rnum _ words 0 xs no_row HX). destruct HT as [-> _]. change (zlen (r_values no_row)) with 0. reflexivity.
Qed.
Definition row_step rint rnum c (st : pfile * list Z * Z * Z) (line : str) : res (pfile * list Z * Z * Z) :=
  let '(f, times, numParameters, counter) := st in
    r <- read_row rint rnum (S (length line)) c 0 line no_row ;;
    let n := zlen (r_values r) in
    if negb (numParameters =? -999) && negb (n =? numParameters) then Abort else
    f <- set_parameters (r_values r) (r_time r) (row_place r) f ;;
    Ok (f, insert_time (r_time r) times, n, counter + 1).
Lemma read_rows_from rint rnum header m : good_header header -> forall rows h ss, Forall2 (table_row rint rnum header) rows h -> Forall2 Line rows ss -> (forall e, In e h -> zlen (what e) = m) ->
  forall f times np counter, np = -999 \/ np = m ->
  foldM (row_step rint rnum (columns_of header)) (f, times, np, counter) ss = (f' <- set_all h f ;; Ok (f', fold_left (fun l e => insert_time (at_ e) l) h times, match h with [] => np | _ => m end, counter + zlen h)).
Proof.
  intros HG. induction rows as [|ws rows IH]; intros h ss HT HL HM f times np counter Hnp; inversion HT as [|? e ? h' HT1 HT2]; subst; inversion HL as [|? s ? ss' HL1 HL2]; subst.
  - cbn. rewrite Z.add_0_r. reflexivity.
  - cbn [foldM]. unfold row_step at 1. destruct (row_read rint rnum header ws e s HG HT1 HL1) as (r & Er & A & B & C). rewrite Er. cbn [bind]. cbv zeta. rewrite A, B, C. rewrite (HM e (or_introl eq_refl)).
    replace (negb (np =? -999) && negb (m =? np)) with false by (destruct Hnp as [-> | ->]; [reflexivity|rewrite Z.eqb_refl, andb_false_r; reflexivity]).
    unfold set_all. cbn [foldM]. destruct (set_parameters (what e) (at_ e) (where_ e) f) as [f1| | |]; cbn [bind]; try reflexivity. fold (set_all h' f1).
    rewrite (IH h' ss' HT2 HL2) by (auto; intros; apply HM; right; auto). destruct (set_all h' f1); cbn [bind fold_left]; try reflexivity. rewrite zlen_cons. do 2 f_equal; [|lia]. destruct h'; reflexivity.
Qed.
Lemma insert_time_in t l x : In x (insert_time t l) <-> x = t \/ In x l.
Proof. induction l as [|y l IH]; cbn; [intuition|]. destruct (Z.ltb_spec t y); [cbn; intuition|]. destruct (Z.eqb_spec t y); [subst; cbn; intuition|]. cbn. rewrite IH. intuition. Qed.
Lemma insert_time_sorted t l : StronglySorted Z.lt l -> StronglySorted Z.lt (insert_time t l).
Proof.
  induction 1 as [|y l HS IH HF]; cbn; [repeat constructor|]. rewrite Forall_forall in HF. destruct (Z.ltb_spec t y).
  - constructor; [constructor; auto; apply Forall_forall; auto|]. apply Forall_forall. intros x [<-|Hx]; auto. specialize (HF x Hx). lia.
  - destruct (Z.eqb_spec t y); [constructor; auto; apply Forall_forall; auto|]. constructor; auto. apply Forall_forall. intros x Hx. apply insert_time_in in Hx as [->|Hx]; [lia|auto].
Qed.
Lemma times_ok (h : list setting) : forall l, StronglySorted Z.lt l -> let times := fold_left (fun l e => insert_time (at_ e) l) h l in StronglySorted Z.lt times /\ forall t, In t times <-> In t l \/ exists e, In e h /\ at_ e = t.
Proof.
  induction h as [|e h IH]; intros l Hl; cbn [fold_left].
  - split; auto. intros t. split; [auto|intros [?|(e & [] & _)]; auto].
  - destruct (IH (insert_time (at_ e) l) (insert_time_sorted _ _ Hl)) as [A B]. split; auto. intros t. rewrite B, insert_time_in. split.
    + intros [[->|K]|(e' & K & E)]; [right; exists e; split; [left|]; auto|left; auto|right; exists e'; split; [right|]; auto].
    + intros [K|(e' & [<-|K] & E)]; [auto|subst; auto|right; eauto].
Qed.
Lemma table_read srt rint rnum cycle header rows h text : good_header header -> Text (header :: rows) text -> Forall2 (table_row rint rnum header) rows h ->
  read_text srt rint rnum cycle (Some text) = (f0 <- set_all h (new_pfile cycle) ;;
    if zlen h =? 0 then Abort else if (1 <? zlen h) && negb (has_column (c_time (columns_of header))) && negb (has_column (c_lat (columns_of header))) then Abort else
    f <- recompute_tree srt f0 ;; Ok (f, fold_left (fun l e => insert_time (at_ e) l) h [])).
Proof.
  intros HG HT HR. unfold read_text. destruct (text_lines _ _ HT (S (length text))) as (ss & E & F); [lia|]. rewrite E. inversion F as [|? hs ? ss' FH FR]; subst.
  rewrite (header_ok hs header) by (try apply (line_ends header); auto; apply FH). cbn [bind]. cbv zeta. rewrite partial_place_good by auto.
  change (read_rows rint rnum (columns_of header) ss' (new_pfile cycle)) with (foldM (row_step rint rnum (columns_of header)) (new_pfile cycle, [], -999, 0) ss').
  rewrite (read_rows_from rint rnum header (zlen (filter (fun j => negb (spec_col (columns_of header) j)) (zrange 0 (zlen header)))) HG rows h ss' HR FR); [|intros e He|auto].
  - destruct (set_all h (new_pfile cycle)); reflexivity.
  - clear - HR He HG. induction HR as [|ws e' rows' h' H1 H2 IH]; [contradiction|]. destruct He as [->|He]; [eapply row_count; eauto|auto].
Qed.

Lemma Forall2_zlen {A B} (R : A -> B -> Prop) l m : Forall2 R l m -> zlen m = zlen l.
Proof. induction 1; [reflexivity|]. rewrite !zlen_cons. lia. Qed.
Lemma c186 srt rint rnum cycle header rows h text : good_header header -> Text (header :: rows) text -> rows <> [] -> Forall2 (table_row rint rnum header) rows h ->
  In (txt "time") header \/ In (txt "lat") header \/ zlen rows = 1 ->
  exists times, StronglySorted Z.lt times /\ (forall t, In t times <-> exists e, In e h /\ at_ e = t) /\
    read_text srt rint rnum cycle (Some text) = (f0 <- set_all h (new_pfile cycle) ;; f <- recompute_tree srt f0 ;; Ok (f, times)).
Proof.
  intros HG HT HN HR HC. destruct (times_ok h [] (SSorted_nil _)) as [A B]. cbv zeta in *. eexists. split; [exact A|]. split; [intros t; rewrite B; split; [intros [[]|K]|]; auto|].
  rewrite (table_read srt rint rnum cycle header rows h text) by auto. destruct (set_all h (new_pfile cycle)); cbn [bind]; auto.
  assert (E : zlen h = zlen rows) by (eapply Forall2_zlen; eauto). assert (0 < zlen rows) by (destruct rows; [congruence|rewrite zlen_cons; pose proof (zlen_nonneg rows); lia]). rewrite E. replace (zlen rows =? 0) with false by lia.
  replace ((1 <? zlen rows) && negb (has_column (c_time (columns_of header))) && negb (has_column (c_lat (columns_of header)))) with false; auto. symmetry. apply not_true_is_false. intros K. apply andb_true_iff in K as [K K3]. apply andb_true_iff in K as [K1 K2].
  apply negb_true_iff in K2, K3. destruct HC as [C|[C|C]]; [apply column_has in C; change (c_time (columns_of header)) with (column 0 (-999) (txt "time") header) in K2; congruence|apply column_has in C; change (c_lat (columns_of header)) with (column 0 (-999) (txt "lat") header) in K3; congruence|lia].
Qed.

(** a reader of unsigned decimal numbers *)
Fixpoint digits (acc : Z) (s : str) : Z * str :=
  match s with
  | c :: t => let d := Z.of_nat (nat_of_ascii c) - 48 in if (0 <=? d) && (d <=? 9) then digits (10 * acc + d) t else (acc, s)
  | [] => (acc, [])
  end.
Definition read_digits (s : str) : option (Z * str) :=
  match s with
  | c :: t => let d := Z.of_nat (nat_of_ascii c) - 48 in if (0 <=? d) && (d <=? 9) then Some (digits 0 s) else None
  | [] => None
  end.
Definition read_number (s : str) : option (val * str) := option_map (fun r => (fz (fst r), snd r)) (read_digits s).
Definition ending := [newline].

(** the last line is lost if no newline follows *)
Lemma c186_refuted : exists srt text f0 f, sorts_items srt /\ text = txt "time p" ++ [newline] ++ txt "0 1" ++ [newline] ++ txt "1 2" /\
  set_all [(0, anywhere, [fz 1])] (new_pfile false) = Ok f0 /\ recompute_tree srt f0 = Ok f /\
  read_text srt read_digits read_number false (Some text) = Ok (f, [0]) /\
  exists f1, set_all [(0, anywhere, [fz 1]); (1, anywhere, [fz 2])] (new_pfile false) = Ok f1 /\ recompute_tree srt f1 <> Ok f /\
  read_text srt read_digits read_number false (Some (text ++ [newline])) = (f <- recompute_tree srt f1 ;; Ok (f, [0; 1])).
Proof.
  exists P_CTree.sort_items, (txt "time p" ++ [newline] ++ txt "0 1" ++ [newline] ++ txt "1 2").
  pose (f0 := match set_all [(0, anywhere, [fz 1])] (new_pfile false) with Ok f => f | _ => new_pfile false end).
  pose (f := match recompute_tree P_CTree.sort_items f0 with Ok f => f | _ => new_pfile false end).
  pose (f1 := match set_all [(0, anywhere, [fz 1]); (1, anywhere, [fz 2])] (new_pfile false) with Ok f => f | _ => new_pfile false end).
  exists f0, f. split; [exact P_CTree.sort_items_ok|]. split; [reflexivity|]. split; [reflexivity|]. split; [reflexivity|]. split; [reflexivity|].
  exists f1. split; [reflexivity|]. split; [|reflexivity].
  intros K. assert (H : forall r s : res pfile, r = s -> match r with Ok g => p_max g | _ => -1 end = match s with Ok g => p_max g | _ => -1 end) by (intros ? ? ->; reflexivity). apply H in K. vm_compute in K. discriminate.
Qed.

(** C187: what is rejected *)
Lemma header_read srt rint rnum cycle header rows text : Text (header :: rows) text -> exists ss, Forall2 Line rows ss /\
  read_text srt rint rnum cycle (Some text) = (if partial_place (columns_of header) then Abort else
          '(f, times, _, counter) <- foldM (row_step rint rnum (columns_of header)) (new_pfile cycle, [], -999, 0) ss ;;
          if counter =? 0 then Abort else
          if (1 <? counter) && negb (has_column (c_time (columns_of header))) && negb (has_column (c_lat (columns_of header))) then Abort else
          f <- recompute_tree srt f ;; Ok (f, times)).
Proof.
  intros HT. unfold read_text. destruct (text_lines _ _ HT (S (length text))) as (ss & E & F); [lia|]. rewrite E. inversion F as [|? hs ? ss' FH FR]; subst. exists ss'. split; auto.
  rewrite (header_ok hs header) by (try apply (line_ends header); auto; apply FH). reflexivity.
Qed.
Lemma c187_place srt rint rnum cycle header rows text a b : Text (header :: rows) text -> In a [txt "lat"; txt "lon"; txt "elev"] -> In b [txt "lat"; txt "lon"; txt "elev"] -> In a header -> ~ In b header ->
  read_text srt rint rnum cycle (Some text) = Abort.
Proof.
  intros HT Ha Hb Ia Ib. destruct (header_read srt rint rnum cycle header rows text HT) as (ss & _ & ->). replace (partial_place (columns_of header)) with true; auto. symmetry. unfold partial_place.
  change (c_lat (columns_of header)) with (column 0 (-999) (txt "lat") header). change (c_lon (columns_of header)) with (column 0 (-999) (txt "lon") header). change (c_elev (columns_of header)) with (column 0 (-999) (txt "elev") header).
  apply column_has in Ia. assert (N : has_column (column 0 (-999) b header) = false) by (apply not_true_is_false; rewrite column_has; auto).
  destruct Ha as [<-|[<-|[<-|[]]]], Hb as [<-|[<-|[<-|[]]]]; try congruence; rewrite Ia, N;
    [destruct (has_column (column 0 (-999) (txt "elev") header))|destruct (has_column (column 0 (-999) (txt "lon") header))|destruct (has_column (column 0 (-999) (txt "elev") header))
    |destruct (has_column (column 0 (-999) (txt "lat") header))|destruct (has_column (column 0 (-999) (txt "lon") header))|destruct (has_column (column 0 (-999) (txt "lat") header))]; reflexivity.
Qed.
Lemma c187_empty srt rint rnum cycle header text : Text [header] text -> read_text srt rint rnum cycle (Some text) = Abort.
Proof.
  intros HT. destruct (header_read srt rint rnum cycle header [] text HT) as (ss & F & ->). inversion F. destruct (partial_place (columns_of header)); reflexivity.
Qed.
Lemma c187_nothing srt rint rnum cycle text : Text [] text -> read_text srt rint rnum cycle (Some text) = Abort.
Proof. intros HT. unfold read_text. destruct (text_lines _ _ HT (S (length text))) as (ss & E & F); [lia|]. rewrite E. inversion F. reflexivity. Qed.
Lemma good_anywhere rint rnum header rows h : ~ In (txt "time") header -> ~ In (txt "lat") header -> Forall2 (table_row rint rnum header) rows h -> good_history h.
Proof.
  intros N1 N2. induction 1 as [|ws e rows h H1 H2 IH]; intros e' []; [subst e'|auto]. destruct H1 as (_ & _ & HT & lat & lon & elev & HL & _ & _ & HW).
  destruct HT as [[_ ->]|(i & w & E & _)]; [|elim N1; eapply znth_In; eauto]. split; [split; lia|]. destruct HL as [[_ ->]|(i & w & E & _)]; [|elim N2; eapply znth_In; eauto].
  destruct HW as [((q & [= <-] & K) & _)|[_ ->]]; [congruence|split; discriminate].
Qed.
Lemma c187_several srt rint rnum cycle header rows h text : good_header header -> Text (header :: rows) text -> Forall2 (table_row rint rnum header) rows h -> 1 < zlen rows -> ~ In (txt "time") header -> ~ In (txt "lat") header ->
  read_text srt rint rnum cycle (Some text) = Abort.
Proof.
  intros HG HT HR HN N1 N2. rewrite (table_read srt rint rnum cycle header rows h text) by auto. destruct (set_all_ok h cycle (good_anywhere _ _ _ _ _ N1 N2 HR)) as (f & -> & _). cbn [bind].
  assert (E : zlen h = zlen rows) by (eapply Forall2_zlen; eauto). rewrite E. replace (zlen rows =? 0) with false by lia. replace (1 <? zlen rows) with true by lia.
  assert (N : forall n, ~ In n header -> has_column (column 0 (-999) n header) = false) by (intros n Hn; apply not_true_is_false; rewrite column_has; auto).
  change (c_lat (columns_of header)) with (column 0 (-999) (txt "lat") header). change (c_time (columns_of header)) with (column 0 (-999) (txt "time") header). rewrite !N by auto. reflexivity.
Qed.
Lemma spec_col_header header j : 0 <= j -> spec_col (columns_of header) j = true -> exists n, special n /\ znth header j = Ok n.
Proof.
  intros Hj K. unfold spec_col in K. rewrite !orb_true_iff, !Z.eqb_eq in K. unfold columns_of in K. cbn [c_time c_lat c_lon c_elev] in K.
  destruct K as [[[K|K]|K]|K]; symmetry in K; apply column_name in K; auto; [exists (txt "time")|exists (txt "lat")|exists (txt "lon")|exists (txt "elev")]; split; auto; [left|right; left|right; right; left|right; right; right; left]; auto.
Qed.
Lemma c187_columns srt rint rnum cycle header first ws others h text : good_header header -> Text (header :: first ++ ws :: others) text -> Forall2 (table_row rint rnum header) first h -> first <> [] -> good_history h ->
  zlen ws <> zlen header -> (forall i n, special n -> znth header i = Ok n -> i < zlen ws) ->
  (forall i w, znth ws i = Ok w -> (znth header i = Ok (txt "time") -> exists t, numeral rint w t) /\ (znth header i <> Ok (txt "time") -> exists v, numeral rnum w v)) ->
  read_text srt rint rnum cycle (Some text) = Abort.
Proof.
  intros HG HT HR HN HH HD HS HC. destruct (header_read srt rint rnum cycle header _ text HT) as (ss & F & ->). rewrite partial_place_good by auto. apply Forall2_app_inv_l in F as (ss1 & ss2 & F1 & F2 & ->). inversion F2 as [|? s ? ss3 FW FO]; subst. clear F2.
  set (c := columns_of header) in *. set (m := zlen (filter (fun j => negb (spec_col c j)) (zrange 0 (zlen header)))).
  rewrite foldM_app. unfold c at 1. rewrite (read_rows_from rint rnum header m HG first h ss1 HR F1); [|intros e He|auto].
  2:{ clear - HR He HG. induction HR as [|w' e' rows' h' H1 H2 IH]; [contradiction|]. destruct He as [->|He]; [eapply row_count; eauto|auto]. }
  destruct (set_all_ok h cycle HH) as (f & -> & _). cbn [bind foldM].
  assert (SN : forall j, spec_col c j = true -> 0 <= j -> j < zlen ws /\ j < zlen header). { intros j K Hj. destruct (spec_col_header header j Hj K) as (n & Sn & Hn). split; [eauto|apply (znth_range _ _ _ Hn)]. }
  destruct (cells_exist rint rnum c ws 0) as [xs HX].
  { intros j w Hw. rewrite Z.add_0_l. destruct (HC j w Hw) as [C1 C2]. pose proof (znth_range _ _ _ Hw). unfold is_cell. destruct (Z.eqb_spec j (c_time c)) as [E|E].
    - apply C1. symmetry in E. apply column_name in E; [auto|lia].
    - apply C2. intros K. apply E. symmetry. apply (column_pos _ _ _ HG); [left; auto|auto]. }
  unfold row_step at 1. rewrite (read_row_ok rint rnum c s ws) with (xs := xs); [|apply FW|apply (line_ends ws); auto|lia|exact HX]. cbn [bind]. cbv zeta.
  rewrite (upds_count rint rnum c ws 0 xs no_row HX). change (zlen (r_values no_row)) with 0. rewrite !Z.add_0_l.
  assert (HM : match h with [] => -999 | _ :: _ => m end = m) by (inversion HR; subst; [congruence|reflexivity]). rewrite HM. pose proof (zlen_nonneg ws). pose proof (zlen_nonneg header).
  assert (m <> -999) by (unfold m; pose proof (zlen_nonneg (filter (fun j : Z => negb (spec_col c j)) (zrange 0 (zlen header)))); lia). replace (m =? -999) with false by lia. cbn [negb andb].
  assert (D : zlen (filter (fun j : Z => negb (spec_col c j)) (zrange 0 (zlen ws))) <> m).
  { unfold m. destruct (Z_lt_ge_dec (zlen ws) (zlen header)).
    - pose proof (spec_count c (zlen ws) (zlen header)) as Q. enough (forall j, spec_col c j = true -> j < zlen ws) by (specialize (Q ltac:(lia) ltac:(lia) ltac:(auto)); lia). intros j K. destruct (Z_lt_dec j 0); [lia|apply SN; auto; lia].
    - pose proof (spec_count c (zlen header) (zlen ws)) as Q. enough (forall j, spec_col c j = true -> j < zlen header) by (specialize (Q ltac:(lia) ltac:(lia) ltac:(auto)); lia). intros j K. destruct (Z_lt_dec j 0); [lia|apply SN; auto; lia]. }
  replace (zlen (filter (fun j : Z => negb (spec_col c j)) (zrange 0 (zlen ws))) =? m) with false by (symmetry; apply Z.eqb_neq; auto). reflexivity.
Qed.
(** a row that lacks its elevation is taken as a set for everywhere; more columns than the header has are accepted *)
Lemma c187_refuted : exists srt, sorts_items srt /\
  read_text srt read_digits read_number false (Some (txt "p lat lon elev" ++ [newline] ++ txt "1 60 10 0" ++ [newline] ++ txt "2 61 11" ++ [newline])) =
    (f0 <- set_all [(0, {| l_lat := fz 60; l_lon := fz 10; l_elev := fz 0 |}, [fz 1]); (0, anywhere, [fz 2])] (new_pfile false) ;; f <- recompute_tree srt f0 ;; Ok (f, [0])) /\
  read_text srt read_digits read_number false (Some (txt "time p" ++ [newline] ++ txt "0 1 2" ++ [newline] ++ txt "1 3 4" ++ [newline])) =
    (f0 <- set_all [(0, anywhere, [fz 1; fz 2]); (1, anywhere, [fz 3; fz 4])] (new_pfile false) ;; f <- recompute_tree srt f0 ;; Ok (f, [0; 1])).
Proof. exists P_CTree.sort_items. split; [exact P_CTree.sort_items_ok|]. split; reflexivity. Qed.

(** C188: writing and reading *)
Lemma cut_param y : exists z, cut (txt " param" ++ y) = txt " param" ++ z.
Proof. unfold cut. destruct (until_first_of ["000"%char] y) as [a b] eqn:E. exists a. cbn. rewrite E. reflexivity. Qed.
Lemma param_lines fuel x : file_lines fuel (txt " param" ++ x) = [] \/ exists y ls, file_lines fuel (txt " param" ++ x) = (txt " param" ++ y) :: ls.
Proof.
  destruct fuel as [|fuel]; [left; reflexivity|]. cbn [file_lines]. unfold get_line. destruct (until_first_of [newline] x) as [a b] eqn:E.
  assert (EU : until_first_of [newline] (txt " param" ++ x) = (txt " param" ++ a, b)) by (cbn; rewrite E; reflexivity). rewrite EU. destruct b as [|c t]; [left; reflexivity|]. destruct (10000 <=? zlen (txt " param" ++ a)); [left; reflexivity|].
  destruct (cut_param a) as [z ->]. right. exists z. eexists. reflexivity.
Qed.
Lemma param_row rint rnum fuel c y : (forall s, rint ("p"%char :: s) = None) -> c_time c = 0 -> read_row rint rnum (S fuel) c 0 (txt " param" ++ y) no_row = Abort.
Proof. intros HP HC. cbn [read_row]. rewrite HC, Z.eqb_refl. change (first_not_of white (txt " param" ++ y)) with ("p"%char :: (txt "aram" ++ y)). rewrite HP. reflexivity. Qed.
Lemma first_line fuel hd x t : get_line (hd ++ newline :: x) = Some (hd, x) -> hd = "t"%char :: t -> file_lines (S fuel) (hd ++ newline :: x) = hd :: file_lines fuel x.
Proof. intros E T. cbn [file_lines]. rewrite E, T. reflexivity. Qed.
Lemma written_bad srt rint rnum cycle hd ws t rest : (forall s, rint ("p"%char :: s) = None) -> get_line (hd ++ newline :: (txt " param" ++ rest)) = Some (hd, txt " param" ++ rest) -> hd = "t"%char :: t ->
  header_words (S (length hd)) hd = Ok ws -> partial_place (columns_of ws) = false -> c_time (columns_of ws) = 0 -> read_text srt rint rnum cycle (Some (hd ++ newline :: (txt " param" ++ rest))) = Abort.
Proof.
  intros HP HL HT HWD HPP HC. unfold read_text. rewrite (first_line _ hd _ t HL HT). rewrite HWD. cbn [bind]. cbv zeta. rewrite HPP.
  destruct (param_lines (length (hd ++ newline :: txt " param" ++ rest)) rest) as [->|(y & ls & ->)]; [reflexivity|].
  unfold read_rows. cbn [foldM]. rewrite (param_row rint rnum _ _ y HP HC). reflexivity.
Qed.
Lemma line_got hd x : until_first_of [newline] (hd ++ newline :: x) = (hd, newline :: x) -> zlen hd < 10000 -> cut hd = hd -> get_line (hd ++ newline :: x) = Some (hd, x).
Proof. intros E Z C. unfold get_line. rewrite E, C. replace (10000 <=? zlen hd) with false by lia. reflexivity. Qed.
Definition written_rest (fint : Z -> str) (fnum : val -> str) (dep : bool) (f : pfile) : str :=
  flat_map (fun e => concat (map (fun tp => if zlen (snd tp) =? 0 then []
    else fint (fst tp) ++ (if dep then " "%char :: fnum (l_lat (fst e)) ++ " "%char :: fnum (l_lon (fst e)) ++ " "%char :: fnum (l_elev (fst e)) else [])
         ++ flat_map (fun v => " "%char :: fnum v) (snd tp) ++ [newline]) (combine (zrange 0 (zlen (snd e))) (snd e)))) (p_map f).
Lemma written fint fnum f text : 1 <= num_parameters f -> write_text fint fnum f = Ok text -> exists (dep : bool) rest, text = (if dep then txt "time lat lon elev" else txt "time") ++ newline :: (txt " param" ++ rest).
Proof.
  intros HN HW. unfold write_text in HW. destruct (location_dependent f) as [dep| | |]; try discriminate. cbn [bind] in HW. cbv zeta in HW. 
  exists dep, (fint 0 ++ flat_map (fun i => txt " param" ++ fint i) (zrange (0 + 1) (num_parameters f)) ++ written_rest fint fnum dep f).
  assert (E : forall a b : str, Ok a = Ok b -> a = b) by (intros a b K; injection K; auto). apply E in HW. rewrite <- HW. rewrite (zrange_cons 0 (num_parameters f)) by lia. f_equal. cbn [app]. f_equal. cbn [flat_map]. rewrite <- !app_assoc. reflexivity.
Qed.
Lemma c188 srt rint rnum fint fnum cycle f text : (forall s, rint ("p"%char :: s) = None) -> 1 <= num_parameters f -> write_text fint fnum f = Ok text -> read_text srt rint rnum cycle (Some text) = Abort.
Proof.
  intros HP HN HW. destruct (written fint fnum f text HN HW) as (dep & rest & ->). destruct dep.
  - apply (written_bad _ _ _ _ _ [txt "time"; txt "lat"; txt "lon"; txt "elev"] (txt "ime lat lon elev")); auto; apply line_got; reflexivity.
  - apply (written_bad _ _ _ _ _ [txt "time"] (txt "ime")); auto; apply line_got; reflexivity.
Qed.
Lemma c188_refuted : exists fint fnum f text, set_all [(0, anywhere, [fz 1])] (new_pfile false) = Ok f /\ write_text fint fnum f = Ok text /\ text = txt "time" ++ [newline] ++ txt " param00 1" ++ [newline] /\
  forall srt cycle, read_text srt read_digits read_number cycle (Some text) = Abort.
Proof.
  exists (fun _ => txt "0"), (fun _ => txt "1"), (match set_all [(0, anywhere, [fz 1])] (new_pfile false) with Ok f => f | _ => new_pfile false end), (txt "time" ++ [newline] ++ txt " param00 1" ++ [newline]).
  split; [reflexivity|]. split; [reflexivity|]. split; [reflexivity|]. intros srt cycle. reflexivity.
Qed.
Lemma line_check ws s : ws <> [] -> split white s = ws -> has_char white (last s " "%char) = false -> forallb (fun c => negb (Ascii.eqb c newline) && negb (Ascii.eqb c "000"%char)) s = true -> match s with c :: _ => negb (Ascii.eqb c "#"%char) | [] => false end = true -> zlen s < 10000 -> Line ws s.
Proof.
  intros H1 H2 H3 H4 H5 H6. split; auto. split; [apply split_iff; auto|]. split.
  - destruct s as [|c s] using rev_ind; [discriminate|]. rewrite last_last in H3. exists s, c. split; auto. apply has_char_nIn. auto.
  - split; [|split; auto; intros t ->; discriminate]. rewrite forallb_forall in H4. intros c Hc. apply H4, andb_true_iff in Hc as [A B]. apply negb_true_iff in A, B. apply Ascii.eqb_neq in A, B. auto.
Qed.
Lemma number_check w v : forallb (fun c => let d := Z.of_nat (nat_of_ascii c) - 48 in (0 <=? d) && (d <=? 9)) w = true -> w <> [] -> fst (digits 0 w) = v -> numeral read_digits w v /\ numeral read_number w (fz v).
Proof.
  intros H Hn E. assert (D : forall w acc rest, forallb (fun c => let d := Z.of_nat (nat_of_ascii c) - 48 in (0 <=? d) && (d <=? 9)) w = true -> (rest = [] \/ exists c t, rest = c :: t /\ In c white) -> digits acc (w ++ rest) = (fst (digits acc w), rest)).
  { clear. induction w as [|c w IH]; intros acc rest H HR; cbn [app digits].
    - destruct HR as [->|(c & t & -> & HC)]; [reflexivity|]. cbn [digits]. replace ((0 <=? _) && _) with false; [reflexivity|]. symmetry. repeat (destruct HC as [<-|HC]; [reflexivity|]). contradiction.
    - cbn [forallb] in H. apply andb_true_iff in H as [H1 H2]. cbv zeta in *. rewrite H1. apply IH; auto. }
  assert (R : forall rest, (rest = [] \/ exists c t, rest = c :: t /\ In c white) -> read_digits (w ++ rest) = Some (v, rest)).
  { intros rest HR. unfold read_digits. destruct w as [|c w]; [congruence|]. cbn [app]. pose proof H as H'. cbn [forallb] in H'. apply andb_true_iff in H' as [H1 H2]. cbv zeta in *. rewrite H1. change (c :: w ++ rest) with ((c :: w) ++ rest). rewrite D by auto. rewrite E. reflexivity. }
  split; (split; [auto|]); intros rest HR; [auto|]. unfold read_number. rewrite R by auto. reflexivity.
Qed.

(** ** cases *)
Definition calls : list setting := [(0, spot 60, [fz 1; fz 2]); (2, spot 60, [fz 3; fz 4]); (0, spot 50, [fz 5; fz 6]); (0, spot 60, [fz 7; fz 8])].
Lemma calls_good : good_history calls.
Proof. intros e He. repeat (destruct He as [<-|He]; [split; [split; cbn; lia|split; discriminate]|]). contradiction. Qed.
Lemma calls_last : last_time calls 2.
Proof. split; [lia|]. split; [intros e He; repeat (destruct He as [<-|He]; [cbn; lia|]); contradiction|]. right. exists (2, spot 60, [fz 3; fz 4]). split; [right; left|]; reflexivity. Qed.
Definition table_head : list str := [txt "time"; txt "lat"; txt "a"; txt "lon"; txt "elev"; txt "b"].
Definition table_text : str := txt "# comment" ++ newline :: (txt "time lat a lon elev b" ++ newline :: (txt "0 60 1 10 5 2" ++ newline :: (txt "3 61  7 11 0 8" ++ newline :: []))).
Definition table_lines : list (list str) := [[txt "0"; txt "60"; txt "1"; txt "10"; txt "5"; txt "2"]; [txt "3"; txt "61"; txt "7"; txt "11"; txt "0"; txt "8"]].
Definition table_calls : list setting := [(0, {| l_lat := fz 60; l_lon := fz 10; l_elev := fz 5 |}, [fz 1; fz 2]); (3, {| l_lat := fz 61; l_lon := fz 11; l_elev := fz 0 |}, [fz 7; fz 8])].
Ltac numb := match goal with |- numeral read_digits ?w ?v => apply (number_check w v); [reflexivity|discriminate|reflexivity] | |- numeral read_number ?w (fz ?v) => apply (number_check w v); [reflexivity|discriminate|reflexivity] end.
Lemma table_head_good : good_header table_head.
Proof.
  split; [|left; repeat split; [right; left|right; right; right; left|right; right; right; right; left]; reflexivity]. intros i j n Hn Hi Hj. pose proof (znth_range _ _ _ Hi) as Ri. pose proof (znth_range _ _ _ Hj) as Rj. change (zlen table_head) with 6 in *.
  assert (Ci : i = 0 \/ i = 1 \/ i = 2 \/ i = 3 \/ i = 4 \/ i = 5) by lia. assert (Cj : j = 0 \/ j = 1 \/ j = 2 \/ j = 3 \/ j = 4 \/ j = 5) by lia. rewrite <- Hi in Hj. clear Hn Hi.
  destruct Ci as [->|[->|[->|[->|[->| ->]]]]], Cj as [->|[->|[->|[->|[->| ->]]]]]; try reflexivity; exfalso; vm_compute in Hj; discriminate.
Qed.
Lemma not_special_a : ~ special (txt "a").
Proof. intros K. repeat (destruct K as [K|K]; [discriminate|]). contradiction. Qed.
Lemma not_special_b : ~ special (txt "b").
Proof. intros K. repeat (destruct K as [K|K]; [discriminate|]). contradiction. Qed.
Lemma table_text_ok : Text (table_head :: table_lines) table_text.
Proof.
  apply X_comment. { exists (txt " comment"). split; [reflexivity|]. split; [|reflexivity]. intros c Hc. repeat (destruct Hc as [<-|Hc]; [split; discriminate|]). contradiction. }
  apply X_line; [apply line_check; try reflexivity; discriminate|]. apply X_line; [apply line_check; try reflexivity; discriminate|]. apply X_line; [apply line_check; try reflexivity; discriminate|]. apply X_end.
Qed.
Lemma given_int z : z <> -999 -> given (fz z).
Proof. intros H. exists (qz z). split; [reflexivity|]. intros K. apply QcTac.qz_inj in K. auto. Qed.
Lemma table_rows_ok : Forall2 (table_row read_digits read_number table_head) table_lines table_calls.
Proof.
  assert (S1 : special (txt "time")) by (left; auto). assert (S2 : special (txt "lat")) by (right; left; auto). assert (S3 : special (txt "lon")) by (right; right; left; auto). assert (S4 : special (txt "elev")) by (right; right; right; left; auto).
  constructor; [|constructor; [|constructor]].
  - split; [reflexivity|]. split. { apply PC_special; auto. apply PC_special; auto. apply PC_value; [exact not_special_a|numb|]. apply PC_special; auto. apply PC_special; auto. apply PC_value; [exact not_special_b|numb|]. apply PC_end. }
    split; [right; exists 0, (txt "0"); split; [reflexivity|split; [reflexivity|numb]]|]. exists (fz 60), (fz 10), (fz 5).
    split; [right; exists 1, (txt "60"); split; [reflexivity|split; [reflexivity|numb]]|]. split; [right; exists 3, (txt "10"); split; [reflexivity|split; [reflexivity|numb]]|].
    split; [right; exists 4, (txt "5"); split; [reflexivity|split; [reflexivity|numb]]|]. left. repeat split; apply given_int; lia.
  - split; [reflexivity|]. split. { apply PC_special; auto. apply PC_special; auto. apply PC_value; [exact not_special_a|numb|]. apply PC_special; auto. apply PC_special; auto. apply PC_value; [exact not_special_b|numb|]. apply PC_end. }
    split; [right; exists 0, (txt "3"); split; [reflexivity|split; [reflexivity|numb]]|]. exists (fz 61), (fz 11), (fz 0).
    split; [right; exists 1, (txt "61"); split; [reflexivity|split; [reflexivity|numb]]|]. split; [right; exists 3, (txt "11"); split; [reflexivity|split; [reflexivity|numb]]|].
    split; [right; exists 4, (txt "0"); split; [reflexivity|split; [reflexivity|numb]]|]. left. repeat split; apply given_int; lia.
Qed.
