(** C48, C49: fill_missing. *)
From Verif Require Import Base ListLib M_Grd S_Stat S_Near P_Curve P_Near P_Grid.

Lemma known_valid line i : known line i <-> is_valid (line i) = true.
Proof. unfold known. destruct (line i); cbn; split; intros H; try discriminate; try (destruct H; discriminate); eauto. Qed.
Lemma unknown_valid line i : ~ known line i <-> is_valid (line i) = false.
Proof. rewrite known_valid. destruct (is_valid (line i)); split; congruence. Qed.

Section Line.
Variables (n : Z) (get : Z -> res val) (line : Z -> val).
Hypothesis Hget : forall i, 0 <= i < n -> get i = Ok (line i).

Lemma find_next_spec fuel : forall x, 0 <= x -> Z.of_nat fuel = n - x -> exists m, find_next get fuel x = Ok m /\ x <= m <= n /\
  (forall k, x <= k < m -> ~ known line k) /\ (m < n -> known line m).
Proof.
  induction fuel as [|f IH]; intros x Hx Hf; cbn [find_next].
  - exists x. split; [reflexivity|]. split; [lia|]. split; intros; lia.
  - rewrite Hget by lia. cbn [bind]. destruct (is_valid (line x)) eqn:V.
    + exists x. split; [reflexivity|]. split; [lia|]. split; [intros; lia|]. intros _. apply known_valid. exact V.
    + destruct (IH (x + 1)) as (m & Hm & R & U & K); [lia|lia|]. exists m. split; [exact Hm|]. split; [lia|]. split; [|exact K].
      intros k Hk. destruct (Z.eq_dec k x) as [->|]; [apply unknown_valid; exact V|]. apply U. lia.
Qed.
(** value of the scan at position i *)
Definition line_value (i : Z) (v : val) : Prop :=
  (known line i -> v = line i) /\
  (~ known line i -> (exists q, v = Fin q /\ gap_value n line i q) \/ (is_valid v = false /\ no_gap_value n line i)).
Lemma line_value_miss x u : 0 <= x < n -> ~ known line x -> u = n -> (forall k, x <= k < u -> ~ known line k) -> line_value x MV.
Proof.
  intros Hx N -> U. split; [contradiction|]. intros _. right. split; [reflexivity|]. right. intros k Hk. apply U. lia.
Qed.
Lemma bad_last v b d e : is_valid v = false -> (0 <= d)%Qc -> (0 < e)%Qc -> is_valid (vadd v (vdiv (vmul (vsub (Fin b) v) (Fin d)) (Fin e))) = false.
Proof.
  intros V Hd He. destruct v as [| | |q]; try discriminate; [reflexivity| |].
  - cbn. destruct (qeqb_spec d 0) as [->|Hne]; [reflexivity|]. cbn.
    destruct (qltb_spec 0 d) as [Hp|Hp]; cbn.
    + destruct (qltb_spec e 0) as [Hn|Hn]; [exfalso; qlra|]. reflexivity.
    + exfalso. apply Hne. apply Qcle_antisym; [|exact Hd]. destruct (Qclt_le_dec 0 d); [contradiction|assumption].
  - cbn. destruct (qeqb_spec d 0) as [->|Hne]; [reflexivity|]. cbn.
    destruct (qltb_spec d 0) as [Hp|Hp]; cbn; [exfalso; qlra|].
    destruct (qltb_spec e 0) as [Hn|Hn]; [exfalso; qlra|]. reflexivity.
Qed.
Lemma fill_line_spec : 0 <= n -> exists r, fill_line get n = Ok r /\ zlen r = n /\ forall i, 0 <= i < n -> exists v, znth r i = Ok v /\ line_value i v.
Proof.
  intros Hn. unfold fill_line.
  destruct (foldM_range (line_step get n) (fun x s => let '(last, next, r) := s in
     zlen r = x /\ (forall i, 0 <= i < x -> exists v, znth r i = Ok v /\ line_value i v) /\
     ((0 <= last < x /\ known line last /\ (forall k, last < k < x -> ~ known line k)) \/ (last = 0 /\ forall k, 0 <= k < x -> ~ known line k)) /\
     (next < x \/ (x <= next <= n /\ (forall k, x <= k < next -> ~ known line k) /\ (next < n -> known line next)))) 0 n (0, -1, [])) as (s & Hs & K).
  - lia.
  - split; [reflexivity|]. split; [intros; lia|]. split; [right; split; [reflexivity|intros; lia]|left; lia].
  - intros x [[last next] r] Hx (HL & HV & HLast & HNext). unfold line_step. rewrite Hget by lia. cbn [bind].
    assert (PUSH : forall v, line_value x v -> zlen (r ++ [v]) = x + 1 /\ forall i, 0 <= i < x + 1 -> exists w, znth (r ++ [v]) i = Ok w /\ line_value i w).
    { intros v Hv. split; [rewrite zlen_app; cbn; rewrite HL; reflexivity|]. intros i Hi. destruct (Z.eq_dec i x) as [->|].
      - exists v. split; [|exact Hv]. rewrite znth_app_r by lia. rewrite HL, Z.sub_diag. reflexivity.
      - rewrite znth_app_l by lia. apply HV. lia. }
    destruct (is_valid (line x)) eqn:V; cbn [negb].
    + eexists. split; [reflexivity|]. apply known_valid in V. destruct (PUSH (line x)) as [P1 P2]; [split; [reflexivity|contradiction]|].
      split; [exact P1|]. split; [exact P2|]. split; [left; split; [lia|]; split; [exact V|intros; lia]|].
      destruct HNext as [|(R & U & KN)]; [left; lia|]. destruct (Z.eq_dec next x); [left; lia|]. exfalso. apply (U x); [lia|exact V].
    + apply unknown_valid in V.
      assert (NX : exists m, (if next <? x then find_next get (Z.to_nat (n - x)) x else Ok next) = Ok m /\ x <= m <= n /\
         (forall k, x <= k < m -> ~ known line k) /\ (m < n -> known line m)).
      { destruct (Z.ltb_spec next x) as [L|L].
        - apply find_next_spec; lia.
        - exists next. split; [reflexivity|]. destruct HNext as [|H]; [lia|exact H]. }
      destruct NX as (m & -> & Rm & Um & Km). cbn [bind].
      assert (LST : (0 <= last < x + 1 /\ known line last /\ (forall k, last < k < x + 1 -> ~ known line k)) \/ (last = 0 /\ forall k, 0 <= k < x + 1 -> ~ known line k)).
      { destruct HLast as [(R & KL & U)|[-> U]]; [left; split; [lia|]; split; [exact KL|]|right; split; [reflexivity|]];
          intros k Hk; (destruct (Z.eq_dec k x) as [->|]; [exact V|apply U; lia]). }
      assert (NXT : m < x + 1 \/ (x + 1 <= m <= n /\ (forall k, x + 1 <= k < m -> ~ known line k) /\ (m < n -> known line m))).
      { destruct (Z.eq_dec m x); [left; lia|right]. split; [lia|]. split; [intros; apply Um; lia|exact Km]. }
      destruct (Z.leb_spec n m) as [Lm|Lm].
      * eexists. split; [reflexivity|]. destruct (PUSH MV) as [P1 P2]; [apply (line_value_miss x m); auto; lia|].
        split; [exact P1|]. split; [exact P2|]. split; [exact LST|exact NXT].
      * specialize (Km Lm). assert (Hmx : m <> x) by (intros ->; contradiction).
        assert (Rl : 0 <= last < n) by (destruct HLast as [(? & _)|[-> _]]; lia).
        rewrite Hget by exact Rl. cbn [bind]. rewrite Hget by lia. cbn [bind]. eexists. split; [reflexivity|].
        destruct (PUSH (vadd (line last) (vdiv (vmul (vsub (line m) (line last)) (fz (x - last))) (fz (m - last))))) as [P1 P2].
        2:{ split; [exact P1|]. split; [exact P2|]. split; [exact LST|]. destruct NXT as [|(A & B & C)]; [lia|]. right. auto. }
        split; [contradiction|]. intros _. destruct Km as [b Hb]. rewrite Hb.
        destruct HLast as [(R & [a Ha] & U)|[-> U]].
        -- left. rewrite Ha. unfold fz. cbn. assert (Hne : qz (m - last) <> 0%Qc).
           { intros E. change 0%Qc with (qz 0) in E. apply qz_inj in E. lia. }
           destruct (qeqb_spec (qz (m - last)) 0); [contradiction|]. cbn. eexists. split; [reflexivity|].
           exists last, m, a, b. split; [lia|]. split; [lia|]. split; [exact Ha|]. split; [exact Hb|]. split.
           { intros k Hk. destruct (Z_lt_le_dec k x); [apply U; lia|apply Um; lia]. }
           field. exact Hne.
        -- right. split; [|left; exact U].
           apply bad_last.
           ++ apply unknown_valid. destruct (Z.eq_dec x 0) as [E|]; [rewrite <- E; exact V|apply U; lia].
           ++ change 0%Qc with (qz 0). apply qz_le. lia.
           ++ change 0%Qc with (qz 0). apply qz_lt. lia.
  - destruct s as [[last next] r]. destruct K as (HL & HV & _). exists r. rewrite Hs. cbn. auto.
Qed.
End Line.

(** average of the candidates at a cell: r from its row, c from its column *)
Lemma vdiv_fz t k : k <> 0 -> vdiv (Fin t) (Fin (qz k)) = Fin (t / qz k)%Qc.
Proof.
  intros H. unfold vdiv. destruct (qeqb_spec (qz k) 0) as [E|]; [|reflexivity].
  exfalso. apply H. apply qz_inj. exact E.
Qed.
Lemma qz_div1 (a : Qc) : ((qz 0 + a) / qz (0 + 1))%Qc = a.
Proof. change (qz 0) with 0%Qc. change (qz (0 + 1)) with 1%Qc. field. discriminate. Qed.
Lemma qz2_neq : qz 2 <> 0%Qc. Proof. intros E. change 0%Qc with (qz 0) in E. apply qz_inj in E. discriminate. Qed.
Lemma combine_both a b : combine_lines (Fin a) (Fin b) = Fin ((a + b) / qz 2)%Qc.
Proof.
  unfold combine_lines. cbn [is_valid]. change (0 <? 1 + 1) with true. change (1 + 1) with 2. unfold fz. cbn [vadd].
  rewrite vdiv_fz by discriminate. f_equal. f_equal. change (qz 0) with 0%Qc. ring.
Qed.
Lemma combine_self q : combine_lines (Fin q) (Fin q) = Fin q.
Proof. rewrite combine_both. f_equal. replace (q + q)%Qc with (q * qz 2)%Qc. { field. exact qz2_neq. } change (qz 2) with (1 + 1)%Qc. ring. Qed.
Lemma combine_row a b : is_valid b = false -> combine_lines (Fin a) b = Fin a.
Proof.
  intros V. unfold combine_lines. rewrite V. cbn [is_valid]. change (0 <? 1) with true. unfold fz. cbn [vadd].
  rewrite vdiv_fz by discriminate. f_equal. apply qz_div1.
Qed.
Lemma combine_col a b : is_valid b = false -> combine_lines b (Fin a) = Fin a.
Proof.
  intros V. unfold combine_lines. rewrite V. cbn [is_valid]. change (0 <? 0 + 1) with true. unfold fz. cbn [vadd].
  rewrite vdiv_fz by discriminate. f_equal. apply qz_div1.
Qed.
Lemma combine_none a b : is_valid a = false -> is_valid b = false -> combine_lines a b = MV.
Proof. intros V W. unfold combine_lines. rewrite V, W. reflexivity. Qed.

Lemma gap_not_none n line i r : gap_value n line i r -> no_gap_value n line i -> False.
Proof.
  intros (l & u & a & b & Hl & Hu & La & Lb & _) [N|N]; [apply (N l Hl)|apply (N u Hu)]; eexists; eauto.
Qed.
Lemma gap_fun n line i r r' : ~ known line i -> gap_value n line i r -> gap_value n line i r' -> r = r'.
Proof.
  intros U (l & u & a & b & Hl & Hu & La & Lb & N & ->) (l' & u' & a' & b' & Hl' & Hu' & La' & Lb' & N' & ->).
  assert (l = l').
  { destruct (Z.lt_trichotomy l l') as [H|[H|H]]; [|exact H|]; exfalso; [apply (N l')|apply (N' l)]; try lia; eexists; eauto. }
  assert (u = u').
  { destruct (Z.lt_trichotomy u u') as [H0|[H0|H0]]; [|exact H0|]; exfalso; [apply (N' u)|apply (N u')]; try lia; eexists; eauto. }
  subst. congruence.
Qed.

Lemma fill_missing_ok Y X v : 0 < Y -> rect Y X v -> exists out, fill_missing v = Ok out /\ rect Y X out /\
  forall y x, 0 <= y < Y -> 0 <= x < X -> exists a b, line_value X (fun x => field_at v y x) x a /\ line_value Y (fun y => field_at v y x) y b /\
    get2 out y x = Ok (combine_lines a b).
Proof.
  intros HY HR. unfold fill_missing. destruct HR as [HL HF].
  destruct (znth_some v 0) as (v0 & H0); [lia|]. rewrite H0. cbn [bind].
  assert (EX : zlen v0 = X) by (apply HF; eapply znth_In; eauto). rewrite EX, HL.
  assert (HX : 0 <= X) by (rewrite <- EX; apply zlen_nonneg).
  assert (G : forall y x, 0 <= y < Y -> 0 <= x < X -> get2 v y x = Ok (field_at v y x)).
  { intros y x Hy Hx. unfold field_at. destruct (rect_get2 Y X v y x) as (a & ->); auto. split; auto. }
  destruct (mapM_total (fun y => fill_line (fun x => get2 v y x) X)
     (fun y r => zlen r = X /\ forall i, 0 <= i < X -> exists w, znth r i = Ok w /\ line_value X (fun x => field_at v y x) i w) (zrange 0 Y)) as (ry & -> & Ly & Ky).
  { intros y Hy. apply in_zrange in Hy. destruct (fill_line_spec X (fun x => get2 v y x) (fun x => field_at v y x)) as (r & Hr & Lr & K); eauto. }
  cbn [bind].
  destruct (mapM_total (fun x => fill_line (fun y => get2 v y x) Y)
     (fun x r => zlen r = Y /\ forall i, 0 <= i < Y -> exists w, znth r i = Ok w /\ line_value Y (fun y => field_at v y x) i w) (zrange 0 X)) as (rx & -> & Lx & Kx).
  { intros x Hx. apply in_zrange in Hx. destruct (fill_line_spec Y (fun y => get2 v y x) (fun y => field_at v y x)) as (r & Hr & Lr & K); [intros; apply G; lia|lia|eauto]. }
  cbn [bind].
  assert (A : forall y x, 0 <= y < Y -> 0 <= x < X -> exists a b, get2 ry y x = Ok a /\ get2 rx x y = Ok b /\
     line_value X (fun x => field_at v y x) x a /\ line_value Y (fun y => field_at v y x) y b).
  { intros y x Hy Hx. destruct (Ky y y) as (r & Hr & _ & Lr & Kr); [rewrite znth_zrange by lia; f_equal; lia|].
    destruct (Kx x x) as (c & Hc & _ & Lc & Kc); [rewrite znth_zrange by lia; f_equal; lia|].
    destruct (Kr x Hx) as (a & Ha & Va). destruct (Kc y Hy) as (b & Hb & Vb).
    exists a, b. unfold get2. rewrite Hr, Hc. cbn [bind]. auto. }
  destruct (tab2_total Y X (fun y x => a <- get2 ry y x ;; b <- get2 rx x y ;; Ok (combine_lines a b))
     (fun y x w => exists a b, line_value X (fun x => field_at v y x) x a /\ line_value Y (fun y => field_at v y x) y b /\ w = combine_lines a b)) as (out & Ho & Ro & Ko).
  - lia.
  - lia.
  - intros y x Hy Hx. destruct (A y x Hy Hx) as (a & b & -> & -> & Va & Vb). cbn [bind]. eexists. split; [reflexivity|]. eauto.
  - exists out. split; [exact Ho|]. split; [exact Ro|]. intros y x Hy Hx. destruct (Ko y x Hy Hx) as (w & Hw & _ & a & b & Va & Vb & ->). eauto.
Qed.

(** C48 *)
Lemma c48_all : forall Y X v, 0 < Y -> rect Y X v -> exists out, fill_missing v = Ok out /\ rect Y X out /\
  (forall y x q, get2 v y x = Ok (Fin q) -> get2 out y x = Ok (Fin q)) /\
  (forall y x w, get2 v y x = Ok w -> is_valid w = false ->
     let row := fun x => field_at v y x in let col := fun y => field_at v y x in
     (forall r, gap_value X row x r -> no_gap_value Y col y -> get2 out y x = Ok (Fin r)) /\
     (forall c, no_gap_value X row x -> gap_value Y col y c -> get2 out y x = Ok (Fin c)) /\
     (forall r c, gap_value X row x r -> gap_value Y col y c -> get2 out y x = Ok (Fin ((r + c) / qz 2)%Qc)) /\
     (no_gap_value X row x -> no_gap_value Y col y -> get2 out y x = Ok MV)) /\
  ((forall y x w, get2 v y x = Ok w -> is_valid w = true) -> out = v).
Proof.
  intros Y X v HY HR. destruct (fill_missing_ok Y X v HY HR) as (out & Ho & Ro & K). exists out. split; [exact Ho|]. split; [exact Ro|].
  assert (A1 : forall y x q, get2 v y x = Ok (Fin q) -> get2 out y x = Ok (Fin q)).
  { intros y x q H. destruct (get2_range _ _ _ _ _ _ HR H) as [Hy Hx]. destruct (K y x Hy Hx) as (a & b & [Va _] & [Vb _] & ->).
    assert (E : field_at v y x = Fin q) by (unfold field_at; rewrite H; reflexivity).
    rewrite Va, Vb by (eexists; exact E). rewrite E, combine_self. reflexivity. }
  split; [exact A1|]. split.
  - intros y x w H Hw row col. destruct (get2_range _ _ _ _ _ _ HR H) as [Hy Hx]. destruct (K y x Hy Hx) as (a & b & [_ Va] & [_ Vb] & ->).
    assert (E : field_at v y x = w) by (unfold field_at; rewrite H; reflexivity).
    assert (UR : ~ known row x) by (apply unknown_valid; unfold row; rewrite E; exact Hw).
    assert (UC : ~ known col y) by (apply unknown_valid; unfold col; rewrite E; exact Hw).
    specialize (Va UR). specialize (Vb UC). fold row in Va. fold col in Vb.
    assert (RA : forall r, gap_value X row x r -> a = Fin r).
    { intros r Hr. destruct Va as [(q & -> & Hq)|[_ N]]; [f_equal; exact (gap_fun _ _ _ _ _ UR Hq Hr)|exfalso; exact (gap_not_none _ _ _ _ Hr N)]. }
    assert (RB : forall r, gap_value Y col y r -> b = Fin r).
    { intros r Hr. destruct Vb as [(q & -> & Hq)|[_ N]]; [f_equal; exact (gap_fun _ _ _ _ _ UC Hq Hr)|exfalso; exact (gap_not_none _ _ _ _ Hr N)]. }
    assert (NA : no_gap_value X row x -> is_valid a = false).
    { intros N. destruct Va as [(q & -> & Hq)|[V _]]; [exfalso; exact (gap_not_none _ _ _ _ Hq N)|exact V]. }
    assert (NB : no_gap_value Y col y -> is_valid b = false).
    { intros N. destruct Vb as [(q & -> & Hq)|[V _]]; [exfalso; exact (gap_not_none _ _ _ _ Hq N)|exact V]. }
    repeat apply conj.
    + intros r Hr N. rewrite (RA r Hr), combine_row; auto.
    + intros c N Hc. rewrite (RB c Hc), combine_col; auto.
    + intros r c Hr Hc. rewrite (RA r Hr), (RB c Hc), combine_both. reflexivity.
    + intros N N'. rewrite combine_none; auto.
  - intros C. apply (rect_ext Y X); auto. intros y x Hy Hx. destruct (rect_get2 Y X v y x HR Hy Hx) as (w & Hw).
    rewrite Hw. specialize (C y x w Hw). destruct w; try discriminate. apply A1. exact Hw.
Qed.

(** C49 *)
Lemma c49_refuted : exists v out, rect 1 2 v /\ get2 v 0 1 = Ok (fz 1) /\ fill_missing v = Ok out /\ get2 out 0 0 = Ok NaN.
Proof.
  assert (R : rect 1 2 [[NaN; fz 1]]) by (split; [reflexivity|]; intros r [<- | []]; reflexivity).
  destruct (c48_all 1 2 [[NaN; fz 1]] ltac:(lia) R) as (out & Ho & _ & _ & K & _). exists [[NaN; fz 1]], out.
  split; [exact R|]. split; [reflexivity|]. split; [exact Ho|]. destruct (K 0 0 NaN eq_refl eq_refl) as (_ & _ & _ & N). apply N.
  - left. intros; lia.
  - left. intros; lia.
Qed.
Lemma c49_partial : forall Y X v, 0 < Y -> rect Y X v ->
  (forall y x w, get2 v y x = Ok w -> is_valid w = false ->
     (exists l r a b, l < x < r /\ get2 v y l = Ok (Fin a) /\ get2 v y r = Ok (Fin b)) \/
     (exists l r a b, l < y < r /\ get2 v l x = Ok (Fin a) /\ get2 v r x = Ok (Fin b))) ->
  exists out, fill_missing v = Ok out /\ rect Y X out /\ forall y x w, get2 out y x = Ok w -> exists q, w = Fin q.
Proof.
  intros Y X v HY HR HB. destruct (fill_missing_ok Y X v HY HR) as (out & Ho & Ro & K). exists out. split; [exact Ho|]. split; [exact Ro|].
  intros y x w Hw. destruct (get2_range _ _ _ _ _ _ Ro Hw) as [Hy Hx]. destruct (K y x Hy Hx) as (a & b & [Va1 Va2] & [Vb1 Vb2] & E).
  rewrite Hw in E. injection E as ->. destruct (rect_get2 Y X v y x HR Hy Hx) as (u & Hu).
  assert (EF : field_at v y x = u) by (unfold field_at; rewrite Hu; reflexivity).
  destruct (is_valid u) eqn:V.
  - assert (KK : exists q, u = Fin q) by (destruct u; try discriminate; eauto). destruct KK as [q ->].
    rewrite Va1, Vb1 by (eexists; exact EF). rewrite EF, combine_self. eauto.
  - assert (UR : ~ known (fun x => field_at v y x) x) by (apply unknown_valid; rewrite EF; exact V).
    assert (UC : ~ known (fun y => field_at v y x) y) by (apply unknown_valid; rewrite EF; exact V).
    specialize (Va2 UR). specialize (Vb2 UC).
    assert (S : (exists q, a = Fin q) \/ (exists q, b = Fin q)).
    { destruct (HB y x u Hu V) as [(l & r & p & q & R & P1 & P2)|(l & r & p & q & R & P1 & P2)].
      - left. destruct Va2 as [(z & -> & _)|[_ N]]; [eauto|]. exfalso.
        destruct (get2_range _ _ _ _ _ _ HR P1), (get2_range _ _ _ _ _ _ HR P2).
        destruct N as [N|N]; [apply (N l)|apply (N r)]; try lia; eexists; unfold field_at; rewrite ?P1, ?P2; reflexivity.
      - right. destruct Vb2 as [(z & -> & _)|[_ N]]; [eauto|]. exfalso.
        destruct (get2_range _ _ _ _ _ _ HR P1), (get2_range _ _ _ _ _ _ HR P2).
        destruct N as [N|N]; [apply (N l)|apply (N r)]; try lia; eexists; unfold field_at; rewrite ?P1, ?P2; reflexivity. }
    destruct S as [[p ->]|[p ->]].
    + destruct b as [| | |q]; [rewrite combine_row by reflexivity; eauto..|rewrite combine_both; eauto].
    + destruct a as [| | |q]; [rewrite combine_col by reflexivity; eauto..|rewrite combine_both; eauto].
Qed.
