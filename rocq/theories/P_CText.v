(** Proofs about formatted text. *)
From Coq Require Import Ascii String.
From Verif Require Import Base ListLib M_COpt S_COpt P_COpt M_CText S_CText.
Local Open Scope Z_scope.

Lemma words_sep d s ws sep : Words d s ws -> (forall c, In c sep -> In c d) -> Words d (sep ++ s) ws.
Proof.
  intros W H. inversion W as [s' Hs e1 e3|sep' w' rest ws' Hs Hw Hc Hr Hrest e1 e3]; subst.
  - constructor. intros c I. apply in_app_or in I. destruct I; auto.
  - rewrite app_assoc. apply W_word; auto. intros c I. apply in_app_or in I. destruct I; auto.
Qed.
Lemma words_app d a ws1 b ws2 : Words d a ws1 -> Words d b ws2 -> (b = [] \/ exists c t, b = c :: t /\ In c d) -> Words d (a ++ b) (ws1 ++ ws2).
Proof.
  intros W. revert b ws2. induction W as [s Hs|sep w rest ws Hs Hw Hc Hr Hrest IH]; intros b ws2 W2 Hb.
  - cbn. apply words_sep; auto.
  - rewrite <- !app_assoc. cbn. apply W_word; auto.
    destruct Hr as [->|(c & t & -> & I)]; cbn; auto. right. exists c, (t ++ b). auto.
Qed.
Lemma split_app d a b : (b = [] \/ exists c t, b = c :: t /\ In c d) -> split d (a ++ b) = split d a ++ split d b.
Proof. intros H. symmetry. apply split_iff. apply words_app; auto using split_words. Qed.
Lemma split_sep d sep s : (forall c, In c sep -> In c d) -> split d (sep ++ s) = split d s.
Proof. intros H. symmetry. apply split_iff. apply words_sep; auto using split_words. Qed.
Lemma split_delims d s : (forall c, In c s -> In c d) -> split d s = [].
Proof. intros H. symmetry. apply split_iff. constructor; auto. Qed.
Lemma split_join d a sep w : sep <> [] -> (forall c, In c sep -> In c d) -> split d (a ++ sep ++ w) = split d a ++ split d w.
Proof.
  intros n H. rewrite split_app; [rewrite split_sep by auto; reflexivity|]. destruct sep as [|c t]; [congruence|]. right. exists c, (t ++ w). split; auto. apply H. left; auto.
Qed.
Lemma split_fine d d' s : (forall c, In c d -> In c d') -> flat_map (split d') (split d s) = split d' s.
Proof.
  intros H. pose proof (split_words d s) as W. remember (split d s) as ws eqn:E. clear E. induction W as [s Hs|sep w rest ws Hs Hw Hc Hr Hrest IH].
  - cbn. symmetry. apply split_delims. auto.
  - cbn. rewrite IH. rewrite split_sep by auto. symmetry. apply split_app. destruct Hr as [|(c & t & e & I)]; auto. right. exists c, t. auto.
Qed.
Lemma blanks_spacing n c : In c (blanks n) -> c = " "%char.
Proof. unfold blanks. intros I. apply repeat_spec in I. auto. Qed.
Lemma blanks_len n : 0 <= n -> zlen (blanks n) = n.
Proof. intros H. unfold blanks, zlen. rewrite repeat_length. lia. Qed.
Lemma blanks_neg n : n <= 0 -> blanks n = [].
Proof. intros H. unfold blanks. replace (Z.to_nat n) with 0%nat by lia. reflexivity. Qed.

Lemma format_words_words tlen mlen ws : forall i ss curr, 0 <= i -> (i = 0 -> exists a c, ss ++ curr = a ++ [c] /\ In c spacing) \/ ws = [] ->
  split spacing (format_words tlen mlen i ws ss curr) = split spacing (ss ++ curr) ++ flat_map (split spacing) ws.
Proof.
  induction ws as [|w ws IH]; intros i ss curr Hi H; cbn [format_words flat_map].
  - rewrite app_nil_r. reflexivity.
  - destruct H as [H|H]; [|discriminate].
    destruct (to_size mlen <? zlen curr + zlen w).
    + rewrite IH; [|lia|left; lia]. rewrite (app_assoc (split spacing (ss ++ curr))). f_equal.
      replace ((ss ++ curr ++ [newline]) ++ blanks tlen ++ w) with ((ss ++ curr) ++ ([newline] ++ blanks tlen) ++ w) by (rewrite <- !app_assoc; reflexivity).
      apply split_join; [discriminate|]. intros c [<-|I]; [right; left; auto|]. apply blanks_spacing in I. subst. left; auto.
    + rewrite IH; [|lia|left; lia]. rewrite (app_assoc (split spacing (ss ++ curr))). f_equal. destruct (i =? 0) eqn:E.
      * apply Z.eqb_eq in E. destruct (H E) as (a & c & e & I). cbn [app]. rewrite app_assoc, e, <- app_assoc. rewrite split_join; [|discriminate|].
        -- f_equal. rewrite split_app by (right; exists c, []; auto). rewrite (split_delims _ [c]); [rewrite app_nil_r; reflexivity|]. intros x [<-|[]]; auto.
        -- intros x [<-|[]]; auto.
      * rewrite app_assoc. apply split_join; [discriminate|]. intros x [<-|[]]. left; auto.
Qed.
(** all words of title and message, in order *)
Theorem c140 title message tlen mlen indent tws mws : 0 <= indent -> (indent + zlen title < tlen \/ mlen <= tlen) ->
  Words spacing title tws -> Words spacing message mws -> Words spacing (format_description title message tlen mlen indent) (tws ++ mws).
Proof.
  intros Hi H Wt Wm. apply split_iff in Wt, Wm. subst. apply split_iff. symmetry. unfold format_description.
  destruct (Z.leb_spec mlen tlen) as [L|L].
  - apply split_join; [discriminate|]. intros c [<-|[]]. left; auto.
  - destruct H as [H|H]; [|lia]. cbv zeta.
    assert (Lc : zlen (blanks indent ++ title) = indent + zlen title) by (unfold zlen; rewrite app_length; fold (zlen (blanks indent)); rewrite Nat2Z.inj_add; fold (zlen (blanks indent)); rewrite blanks_len by lia; reflexivity).
    rewrite Lc. rewrite format_words_words; [|lia|left].
    + cbn [app]. rewrite split_fine by (intros c [<-|[]]; left; auto). f_equal.
      rewrite <- app_assoc. rewrite split_sep by (intros c I; apply blanks_spacing in I; subst; left; auto).
      rewrite split_app; [rewrite (split_delims _ (blanks _)); [apply app_nil_r|intros c I; apply blanks_spacing in I; subst; left; auto]|].
      unfold blanks. destruct (Z.to_nat (tlen - (indent + zlen title))); [left; auto|right]. cbn. exists " "%char, (repeat " "%char n). split; auto.
    + intros _. cbn [app]. unfold blanks at 2. replace (Z.to_nat (tlen - (indent + zlen title))) with (Z.to_nat (tlen - (indent + zlen title) - 1) + 1)%nat by lia.
      rewrite repeat_app. exists ((blanks indent ++ title) ++ repeat " "%char (Z.to_nat (tlen - (indent + zlen title) - 1))), " "%char. split; [rewrite <- !app_assoc; reflexivity|left; auto].
Qed.
Theorem c140_refuted : exists title message tlen mlen indent tws mws, tlen < mlen /\ 0 <= indent /\ Words spacing title tws /\ Words spacing message mws /\
  ~ Words spacing (format_description title message tlen mlen indent) (tws ++ mws).
Proof.
  exists (txt "-extrapolate"), (txt "on"), 12, 20, 0, [txt "-extrapolate"], [txt "on"]. split; [lia|]. split; [lia|].
  split; [apply split_iff; reflexivity|]. split; [apply split_iff; reflexivity|]. rewrite split_iff. discriminate.
Qed.

(** the width of the lines *)
Lemma lines_app pre s t ls : Lines pre (s) -> Lines t ls -> Lines (pre ++ newline :: t) (s ++ ls).
Proof.
  intros H. revert t ls. induction H as [s n|s u l n H IH]; intros t ls Ht; cbn.
  - constructor; auto.
  - rewrite <- app_assoc. cbn. constructor; auto.
Qed.
Definition fits (tlen mlen : Z) (first : bool) (l : str) : Prop := zlen l <= mlen + 1 /\ (first = false -> exists r, l = blanks tlen ++ r).
Lemma format_words_ss tlen mlen ws : forall i ss curr, format_words tlen mlen i ws ss curr = ss ++ format_words tlen mlen i ws [] curr.
Proof.
  induction ws as [|w ws IH]; intros i ss curr; cbn [format_words]; [reflexivity|].
  destruct (_ <? _); [|apply IH]. rewrite IH. rewrite (IH _ ([] ++ curr ++ [newline])). rewrite <- !app_assoc. reflexivity.
Qed.
Lemma zlen_app' {A} (a b : list A) : zlen (a ++ b) = zlen a + zlen b.
Proof. unfold zlen. rewrite app_length. lia. Qed.
Lemma format_words_lines tlen mlen ws : 0 <= tlen -> tlen < mlen -> mlen < 18446744073709551616 ->
  (forall w, In w ws -> ~ In newline w /\ tlen + zlen w <= mlen) ->
  forall i first curr, ~ In newline curr -> fits tlen mlen first curr ->
  exists l ls, Lines (format_words tlen mlen i ws [] curr) (l :: ls) /\ fits tlen mlen first l /\ forall x, In x ls -> fits tlen mlen false x.
Proof.
  intros Ht Hm Hs. assert (E : to_size mlen = mlen) by (apply Z.mod_small; lia).
  induction ws as [|w ws IH]; intros Hw i first curr N F; cbn [format_words].
  - exists curr, []. split; [constructor; auto|]. split; auto. intros x [].
  - destruct (Hw w (or_introl eq_refl)) as [Nw Lw]. rewrite E.
    assert (Hw' : forall w, In w ws -> ~ In newline w /\ tlen + zlen w <= mlen) by (intros; apply Hw; right; auto).
    destruct (Z.ltb_spec mlen (zlen curr + zlen w)) as [L|L].
    + rewrite format_words_ss.
      destruct (IH Hw' (i + 1) false (blanks tlen ++ w)) as (l & ls & HL & Hl & Hls).
      * intros I. apply in_app_or in I. destruct I as [I|I]; auto. apply blanks_spacing in I. discriminate.
      * split; [rewrite zlen_app', blanks_len by lia; lia|]. intros _. exists w. auto.
      * exists curr, (l :: ls). split; [cbn [app]; rewrite <- app_assoc; cbn [app]; constructor; auto|]. split; auto. intros x [<-|I]; auto.
    + apply IH; auto.
      * intros I. apply in_app_or in I. destruct I as [I|I]; auto. apply in_app_or in I. destruct I as [I|I]; auto. destruct (i =? 0); [destruct I|destruct I as [e|[]]; discriminate].
      * destruct F as [F1 F2]. split.
        -- rewrite !zlen_app'. destruct (i =? 0); [change (zlen (@nil ascii)) with 0|change (zlen [" "%char]) with 1]; lia.
        -- intros e. destruct (F2 e) as [r ->]. eexists. rewrite <- app_assoc. reflexivity.
Qed.
Theorem c141 title message tlen mlen indent ws : 0 <= indent -> 0 <= tlen < mlen -> mlen < 2147483648 -> ~ In newline title -> indent + zlen title <= mlen + 1 ->
  Words (txt " ") message ws -> (forall w, In w ws -> ~ In newline w /\ tlen + zlen w <= mlen) ->
  exists l ls, Lines (format_description title message tlen mlen indent) (l :: ls) /\ zlen l <= mlen + 1 /\
    forall x, In x ls -> zlen x <= mlen + 1 /\ exists r, x = blanks tlen ++ r.
Proof.
  intros Hi Ht Hm N Lt W Hw. apply split_iff in W. subst ws. unfold format_description. destruct (Z.leb_spec mlen tlen); [lia|]. cbv zeta.
  destruct (format_words_lines tlen mlen (split (txt " ") message) ltac:(lia) ltac:(lia) ltac:(lia) Hw 0 true
    ((blanks indent ++ title) ++ blanks (tlen - zlen (blanks indent ++ title)))) as (l & ls & HL & [Hl _] & Hls).
  - intros I. apply in_app_or in I. destruct I as [I|I]; [apply in_app_or in I; destruct I as [I|I]; auto|]; apply blanks_spacing in I; discriminate.
  - split; [|discriminate]. rewrite !zlen_app', (blanks_len indent) by lia.
    destruct (Z_le_gt_dec (tlen - (indent + zlen title)) 0); [rewrite (blanks_neg (tlen - _)) by lia; change (zlen (@nil ascii)) with 0; lia|rewrite blanks_len by lia; lia].
  - exists l, ls. split; auto. split; auto. intros x I. destruct (Hls x I) as [A B]. auto.
Qed.
Theorem c141_refuted : exists title message tlen mlen indent ws l ls, 0 <= indent /\ 0 <= tlen < mlen /\ indent + zlen title <= tlen /\ Words (txt " ") message ws /\
  (forall w, In w ws -> ~ In newline w /\ tlen + zlen w <= mlen) /\ Lines (format_description title message tlen mlen indent) ls /\ In l ls /\ mlen < zlen l.
Proof.
  exists (txt "x"), (txt "a bc"), 2, 5, 0, [txt "a"; txt "bc"], (txt "x a bc"), [txt "x a bc"].
  split; [lia|]. split; [lia|]. split; [vm_compute; discriminate|]. split; [apply split_iff; reflexivity|]. split.
  - intros w [<-|[<-|[]]]; (split; [|vm_compute; discriminate]); cbn; intros I; repeat (destruct I as [I|I]; [discriminate|]); destruct I.
  - split; [|split; [left; auto|reflexivity]]. apply (L_last (txt "x a bc")). cbn. intros I. repeat (destruct I as [I|I]; [discriminate|]); destruct I.
Qed.
