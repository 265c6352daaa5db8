(** Proofs about option strings and option containers. *)
From Coq Require Import Ascii String.
From Verif Require Import Base ListLib M_COpt S_COpt.

Lemma str_eqb_spec a b : reflect (a = b) (str_eqb a b).
Proof. unfold str_eqb. destruct (list_eq_dec ascii_dec a b); constructor; auto. Qed.
Lemma str_eqb_refl a : str_eqb a a = true.
Proof. destruct (str_eqb_spec a a); congruence. Qed.
Lemma has_char_In d c : has_char d c = true <-> In c d.
Proof.
  unfold has_char. rewrite existsb_exists. split.
  - intros (x & I & e). apply Ascii.eqb_eq in e. subst. auto.
  - intros I. exists c. split; auto. apply Ascii.eqb_refl.
Qed.
Lemma has_char_nIn d c : has_char d c = false <-> ~ In c d.
Proof. rewrite <- has_char_In. destruct (has_char d c); split; congruence. Qed.

Lemma first_not_of_spec d s : exists sep, s = sep ++ first_not_of d s /\ (forall c, In c sep -> In c d) /\
  (forall c t, first_not_of d s = c :: t -> ~ In c d).
Proof.
  induction s as [|c s (sep & e & H1 & H2)]; cbn.
  - exists []. repeat split; auto; try easy.
  - destruct (has_char d c) eqn:E.
    + exists (c :: sep). cbn. repeat split; auto.
      * congruence.
      * intros x [<-|I]; auto. apply has_char_In; auto.
    + exists []. cbn. repeat split; auto; try easy.
      intros x t [= <- <-]. apply has_char_nIn; auto.
Qed.
Lemma first_not_of_len d s : (List.length (first_not_of d s) <= List.length s)%nat.
Proof. induction s; cbn; auto. destruct has_char; cbn; lia. Qed.
Lemma until_first_of_spec d s w r : until_first_of d s = (w, r) ->
  s = w ++ r /\ (forall c, In c w -> ~ In c d) /\ (r = [] \/ exists c t, r = c :: t /\ In c d).
Proof.
  revert w r. induction s as [|c s IH]; cbn; intros w r.
  - intros [= <- <-]. repeat split; auto.
  - destruct (has_char d c) eqn:E.
    + intros [= <- <-]. repeat split; auto; try easy. right. exists c, s. split; auto. apply has_char_In; auto.
    + destruct (until_first_of d s) as [w' r'] eqn:E2. intros [= <- <-].
      destruct (IH _ _ eq_refl) as (-> & H1 & H2). repeat split; auto.
      intros x [<-|I]; auto. apply has_char_nIn; auto.
Qed.
Lemma split_loop_words d n : forall s, (List.length s <= n)%nat -> (forall c t, s = c :: t -> ~ In c d) -> Words d s (split_loop n d s).
Proof.
  induction n as [|n IH]; intros s L H.
  - destruct s; [constructor; easy|cbn in L; lia].
  - destruct s as [|c s]; [constructor; easy|]. cbn [split_loop].
    destruct (until_first_of d (c :: s)) as [w r] eqn:E.
    destruct (until_first_of_spec _ _ _ _ E) as (e & H1 & H2).
    assert (wn : w <> []). { cbn in E. specialize (H _ _ eq_refl). apply has_char_nIn in H. rewrite H in E.
      destruct (until_first_of d s). injection E as <- <-. discriminate. }
    destruct (first_not_of_spec d r) as (sep & e2 & H3 & H4).
    rewrite e. replace (w ++ r) with ([] ++ w ++ r) by reflexivity.
    assert (Lr : (List.length r <= n)%nat). { apply (f_equal (@List.length _)) in e. rewrite app_length in e. destruct w; [congruence|]. cbn in *. lia. }
    apply W_word; auto; try easy.
    set (q := first_not_of d r) in *.
    assert (Wq : Words d q (split_loop n d q)). { apply IH; auto. unfold q. pose proof (first_not_of_len d r). lia. }
    rewrite e2. clear - Wq H3 H4.
    inversion Wq as [s Hs e1 e3|sep' w' rest ws Hs Hw Hc Hr Hrest e1 e3].
    + constructor. intros x I. apply in_app_or in I. destruct I; auto.
    + rewrite app_assoc. apply W_word; auto. intros x I. apply in_app_or in I. destruct I; auto.
Qed.
Lemma split_words d s : Words d s (split d s).
Proof.
  unfold split. destruct (first_not_of_spec d s) as (sep & e & H1 & H2).
  assert (Wq : Words d (first_not_of d s) (split_loop (List.length s) d (first_not_of d s))).
  { apply split_loop_words; auto. apply first_not_of_len. }
  rewrite e at 1. inversion Wq as [q Hs e1 e3|sep' w' rest ws Hs Hw Hc Hr Hrest e1 e3].
  - constructor. intros x I. apply in_app_or in I. destruct I; auto.
  - rewrite app_assoc. apply W_word; auto. intros x I. apply in_app_or in I. destruct I; auto.
Qed.

Lemma app_cut (P : ascii -> Prop) (a1 b1 a2 b2 : str) : a1 ++ b1 = a2 ++ b2 ->
  (forall c, In c a1 -> P c) -> (forall c, In c a2 -> P c) ->
  (b1 = [] \/ exists c t, b1 = c :: t /\ ~ P c) -> (b2 = [] \/ exists c t, b2 = c :: t /\ ~ P c) -> a1 = a2 /\ b1 = b2.
Proof.
  revert a2. induction a1 as [|x a1 IH]; intros a2 e H1 H2 H3 H4.
  - destruct a2 as [|y a2]; auto. cbn in e. exfalso. destruct H3 as [->|(c & t & -> & n)]; [discriminate|].
    injection e as -> _. apply n, H2. left; auto.
  - destruct a2 as [|y a2].
    + exfalso. cbn in e. destruct H4 as [->|(c & t & -> & n)]; [discriminate|]. injection e as <- _. apply n, H1. left; auto.
    + cbn in e. injection e as <- e. destruct (IH a2 e) as [-> ->]; auto; intros; [apply H1|apply H2]; right; auto.
Qed.
Lemma words_det d s ws : Words d s ws -> forall ws', Words d s ws' -> ws = ws'.
Proof.
  induction 1 as [s Hs|sep w rest ws Hs Hw Hc Hr Hrest IH]; intros ws' W'; inversion W' as [s' Hs' e1 e2|sep' w' rest' ws2 Hs' Hw' Hc' Hr' Hrest' e1 e2]; auto.
  - exfalso. destruct w' as [|c t]; [congruence|]. apply (Hc' c); [left; auto|]. apply Hs. try rewrite <- e1. apply in_or_app; right; left; auto.
  - exfalso. destruct w as [|c t]; [congruence|]. apply (Hc c); [left; auto|]. apply Hs'. apply in_or_app; right; left; auto.
  - destruct (app_cut (fun c => In c d) _ _ _ _ e1) as [_ e3]; auto.
    + right. destruct w' as [|c t]; [congruence|]. exists c, (t ++ rest'). split; auto. apply Hc'. left; auto.
    + right. destruct w as [|c t]; [congruence|]. exists c, (t ++ rest). split; auto. apply Hc. left; auto.
    + destruct (app_cut (fun c => ~ In c d) _ _ _ _ e3) as [-> e4]; auto.
      * destruct Hr' as [|(c & t & e & I)]; auto. right. exists c, t. auto.
      * destruct Hr as [|(c & t & e & I)]; auto. right. exists c, t. auto.
      * f_equal. apply IH. rewrite <- e4. auto.
Qed.
Lemma split_iff d s ws : Words d s ws <-> ws = split d s.
Proof. split; [intros W; eapply words_det; eauto; apply split_words | intros ->; apply split_words]. Qed.

(** ** Keys *)
Definition uniq (l : list (str * str)) : Prop := NoDup (map fst l).
Lemma put_keys k v l : forall x, In x (map fst (put k v l)) <-> x = k \/ In x (map fst l).
Proof.
  induction l as [|[k' v'] l IH]; cbn; intros x; [intuition congruence|].
  destruct (str_eqb_spec k' k); cbn; [subst; intuition congruence|]. rewrite IH. intuition.
Qed.
Lemma put_uniq k v l : uniq l -> uniq (put k v l).
Proof.
  unfold uniq. induction l as [|[k' v'] l IH]; cbn; intros N.
  - repeat constructor; auto.
  - inversion N; subst. destruct (str_eqb_spec k' k); cbn; [subst; constructor; auto|].
    constructor; auto. rewrite put_keys. intros [->|I]; congruence.
Qed.
Lemma put_In k v l : uniq l -> forall k' v', In (k', v') (put k v l) <-> (k' = k /\ v' = v) \/ (k' <> k /\ In (k', v') l).
Proof.
  unfold uniq. induction l as [|[a b] l IH]; cbn; intros N k' v'.
  - split; [intros [[= <- <-]|[]]; auto | intros [[-> ->]|[_ []]]; auto].
  - inversion N; subst. destruct (str_eqb_spec a k) as [->|n]; cbn.
    + split.
      * intros [[= <- <-]|I]; auto. right. split; [|auto]. intros ->. apply H1. apply in_map_iff. exists (k, v'). auto.
      * intros [[-> ->]|[n [[= <- <-]|I]]]; auto; congruence.
    + rewrite IH by auto. split.
      * intros [[= <- <-]|[I|[n' I]]]; auto.
      * intros [I|[n' [[= <- <-]|I]]]; auto.
Qed.
Lemma add_option_uniq k v o : uniq (o_pairs o) -> uniq (o_pairs (add_option k v o)).
Proof. intros U. unfold add_option. destruct k, v; auto. cbn [o_pairs]. apply put_uniq; auto. Qed.
Lemma add_option_holds k v o : uniq (o_pairs o) -> forall k' v', holds (add_option k v o) k' v' <->
  (k <> [] /\ v <> [] /\ k' = k /\ v' = v) \/ ((k = [] \/ v = [] \/ k' <> k) /\ holds o k' v').
Proof.
  intros U k' v'. unfold add_option, holds.
  destruct k as [|x k]; [tauto|]. destruct v as [|y v]; [tauto|].
  cbn [o_pairs]. rewrite put_In by auto. split.
  - intros [[-> ->]|[n I]]; [left; repeat split; discriminate|]. right. auto.
  - intros [(_ & _ & -> & ->)|[[n|[n|n]] I]]; auto; discriminate.
Qed.
Lemma split_eq_some w k v : split_eq w = Some (k, v) <-> w = k ++ equals :: v /\ ~ In equals k.
Proof.
  revert k v. induction w as [|c w IH]; cbn; intros k v.
  - split; [discriminate|]. intros [e _]. destruct k; discriminate.
  - destruct (Ascii.eqb_spec c "=") as [->|n].
    + split; [intros [= <- <-]; split; auto|]. intros [e I]. destruct k as [|x k]; cbn in e; [congruence|].
      injection e as <- e. exfalso. apply I. left; auto.
    + split.
      * destruct (split_eq w) as [[k0 v0]|]; [|discriminate]. intros [= <- <-]. destruct (proj1 (IH k0 v0) eq_refl) as [-> I].
        split; auto. intros [->|J]; auto.
      * intros [e I]. destruct k as [|x k]; cbn in e; [exfalso; apply n; injection e; auto|]. injection e as <- e.
        rewrite (proj2 (IH k v)); auto. split; auto. intros J. apply I. right; auto.
Qed.
Lemma split_eq_none w : split_eq w = None <-> ~ In equals w.
Proof.
  induction w as [|c w IH]; cbn; [intuition|]. destruct (Ascii.eqb_spec c "=") as [->|n].
  - split; [discriminate|]. intros H. exfalso. apply H. left; auto.
  - destruct (split_eq w) as [[? ?]|]; split; try discriminate.
    + intros H. exfalso. assert (Some (l, l0) = None) by (apply IH; intros I; apply H; right; auto). discriminate.
    + intros _ [->|I]; auto. apply IH in I; auto.
    + auto.
Qed.
Lemma add_word_uniq w o : uniq (o_pairs o) -> uniq (o_pairs (add_word w o)).
Proof. intros U. unfold add_word. destruct (split_eq w) as [[k v]|]; apply add_option_uniq; auto. Qed.
Lemma assigns_split w k v : Assigns w k v <->
  (split_eq w = Some (k, v) /\ k <> [] /\ v <> []) \/ (split_eq w = None /\ w = k /\ k <> [] /\ v = txt "1").
Proof.
  unfold Assigns. rewrite split_eq_some. split.
  - intros (n1 & n2 & I & [->|[-> ->]]); [left; auto|]. right. rewrite split_eq_none. auto.
  - intros [((-> & I) & n1 & n2)|(e & -> & n & ->)]; [auto 6|]. apply split_eq_none in e. repeat split; auto. discriminate.
Qed.
Lemma add_word_holds w o : uniq (o_pairs o) -> forall k v, holds (add_word w o) k v <->
  Assigns w k v \/ ((forall v', ~ Assigns w k v') /\ holds o k v).
Proof.
  intros U k v. unfold add_word. destruct (split_eq w) as [[k0 v0]|] eqn:E.
  - rewrite add_option_holds by auto. rewrite assigns_split, E. split.
    + intros [(a & b & -> & ->)|(n & H)]; [left; left; auto|]. right. split; auto.
      intros v'. rewrite assigns_split, E. intros [([= <- <-] & n1 & n2)|[[=] _]]. tauto.
    + intros [[([= -> ->] & n1 & n2)|[[=] _]]|(H & H2)]; [left; auto|]. right. split; auto.
      destruct k0 as [|c k0]; auto. destruct v0 as [|y v0]; auto. right; right. intros ->.
      apply (H (y :: v0)). rewrite assigns_split, E. left. repeat split; discriminate.
  - rewrite add_option_holds by auto. rewrite assigns_split, E. split.
    + intros [(a & b & -> & ->)|(n & H)]; [left; right; auto|]. right. split; auto.
      intros v'. rewrite assigns_split, E. intros [([=] & _)|(_ & -> & n1 & ->)]. destruct n as [n|[n|n]]; try congruence. discriminate.
    + intros [[([=] & _)|(_ & -> & n1 & ->)]|(H & H2)]; [left; repeat split; auto; discriminate|]. right. split; auto.
      destruct w as [|c w]; auto. right; right. intros ->.
      apply (H (txt "1")). rewrite assigns_split, E. right. repeat split; discriminate.
Qed.
Lemma add_words_uniq ws : forall o, uniq (o_pairs o) -> uniq (o_pairs (fold_left (fun o w => add_word w o) ws o)).
Proof. induction ws; cbn; intros o U; auto. apply IHws, add_word_uniq; auto. Qed.
Lemma no_assign_dec ws k : (exists v, LastAssigns ws k v) \/ (forall w v, In w ws -> ~ Assigns w k v).
Proof.
  induction ws as [|w ws IH]; [right; easy|]. destruct IH as [(v & b & w' & a & -> & A & N)|N].
  - left. exists v, (w :: b), w', a. auto.
  - assert (D : (exists v, Assigns w k v) \/ forall v, ~ Assigns w k v).
    { destruct (split_eq w) as [[k0 v0]|] eqn:E.
      - destruct (list_eq_dec ascii_dec k0 k) as [->|n].
        + destruct k as [|c k]; [right; intros v [n _]; congruence|]. destruct v0 as [|y v0].
          * right. intros v. rewrite assigns_split, E. intros [([= <-] & _ & n)|[[=] _]]. congruence.
          * left. exists (y :: v0). rewrite assigns_split, E. left. repeat split; discriminate.
        + right. intros v. rewrite assigns_split, E. intros [([= -> _] & _)|[[=] _]]. congruence.
      - destruct (list_eq_dec ascii_dec w k) as [->|n].
        + destruct k as [|c k]; [right; intros v [n _]; congruence|]. left. exists (txt "1"). rewrite assigns_split, E. right. repeat split; discriminate.
        + right. intros v. rewrite assigns_split, E. intros [([=] & _)|(_ & -> & _)]. congruence. }
    destruct D as [[v A]|D].
    + left. exists v, [], w, ws. split; auto.
    + right. intros w' v [<-|I]; auto.
Qed.
Lemma assigns_fun w k v v' : Assigns w k v -> Assigns w k v' -> v = v'.
Proof. rewrite !assigns_split. intros [(e & _)|(e & -> & _ & ->)] [(e' & _)|(e' & _ & _ & ->)]; congruence. Qed.
Lemma last_assigns_cons w ws k v : LastAssigns (w :: ws) k v <-> LastAssigns ws k v \/ (Assigns w k v /\ forall w' v', In w' ws -> ~ Assigns w' k v').
Proof.
  split.
  - intros (b & w' & a & e & A & N). destruct b as [|x b]; cbn in e; injection e as -> ->; [right; auto|]. left. exists b, w', a. auto.
  - intros [(b & w' & a & -> & A & N)|[A N]]; [exists (w :: b), w', a; auto|]. exists [], w, ws. auto.
Qed.
Lemma add_words_holds ws : forall o, uniq (o_pairs o) -> forall k v, holds (fold_left (fun o w => add_word w o) ws o) k v <->
  LastAssigns ws k v \/ ((forall w v', In w ws -> ~ Assigns w k v') /\ holds o k v).
Proof.
  induction ws as [|w ws IH]; cbn [fold_left]; intros o U k v.
  - split; [intros H; right; split; [intros ? ? []|auto]|]. intros [(b & w & a & e & _)|[_ H]]; auto. destruct b; discriminate.
  - rewrite IH by (apply add_word_uniq; auto). rewrite add_word_holds by auto. rewrite last_assigns_cons. split.
    + intros [H|[N [A|[N2 H]]]]; [auto|auto|]. right. split; auto. intros w' v' [<-|I]; auto; apply N2.
    + intros [[H|[A N]]|[N H]]; [auto|auto|]. right. split; [intros; apply N; right; auto|]. right. split; auto. intros v'. apply N. left; auto.
Qed.

Lemma c132_at s o ws : uniq (o_pairs o) -> Words (txt " ") s ws -> uniq (o_pairs (add_options s o)) /\
  forall k v, holds (add_options s o) k v <-> LastAssigns ws k v \/ ((forall w v', In w ws -> ~ Assigns w k v') /\ holds o k v).
Proof.
  intros U W. apply split_iff in W. subst ws. split; [apply add_words_uniq; auto|]. apply add_words_holds; auto.
Qed.
Lemma assoc_In l : uniq l -> forall k v, assoc l k = Some v <-> In (k, v) l.
Proof.
  unfold uniq. induction l as [|[a b] l IH]; cbn; intros N k v; [split; easy|]. inversion N; subst.
  destruct (str_eqb_spec a k) as [->|n].
  - split; [intros [= ->]; auto|]. intros [[= ->]|I]; auto. exfalso. apply H1. apply in_map_iff. exists (k, v). auto.
  - rewrite IH by auto. split; auto. intros [[= -> ->]|I]; auto. congruence.
Qed.
Lemma until_solid d v : (forall c, In c v -> ~ In c d) -> until_first_of d v = (v, []).
Proof.
  induction v as [|c v IH]; cbn; intros H; auto. rewrite (proj2 (has_char_nIn d c)) by (apply H; left; auto).
  rewrite IH; auto.
Qed.
Lemma first_solid d v : (forall c, In c v -> ~ In c d) -> first_not_of d v = v.
Proof. destruct v as [|c v]; cbn; intros H; auto. rewrite (proj2 (has_char_nIn d c)); auto. Qed.
Lemma read_solid v x : v <> [] -> solid v -> read_word v x = v.
Proof.
  intros n S. unfold read_word. rewrite first_solid by exact S. destruct v as [|c v]; [congruence|].
  rewrite until_solid by exact S. reflexivity.
Qed.

(** ** Round trip *)
Definition clean (l : list (str * str)) : Prop := forall k v, In (k, v) l -> k <> [] /\ v <> [] /\
  (forall c, In c k -> c <> " "%char /\ c <> equals) /\ (forall c, In c v -> c <> " "%char).
Lemma clean_word k v : (forall c, In c k -> c <> " "%char /\ c <> equals) -> (forall c, In c v -> c <> " "%char) ->
  forall c, In c (k ++ equals :: v) -> ~ In c (txt " ").
Proof.
  intros Hk Hv c I. cbn. intros [<-|[]]. apply in_app_or in I. destruct I as [I|[e|I]].
  - destruct (Hk _ I). congruence.
  - discriminate.
  - apply (Hv _ I eq_refl).
Qed.
Lemma text_words l : clean l -> Words (txt " ") (to_text l) (map (fun p => fst p ++ equals :: snd p) l).
Proof.
  induction l as [|[k v] l IH]; intros C.
  - constructor. easy.
  - destruct (C k v (or_introl eq_refl)) as (nk & nv & Hk & Hv).
    assert (C' : clean l) by (intros k' v' I; apply C; right; auto). specialize (IH C').
    destruct l as [|p l].
    + cbn [to_text map fst snd]. replace (k ++ txt "=" ++ v) with ([] ++ (k ++ equals :: v) ++ []) by (rewrite app_nil_r; reflexivity).
      apply W_word; [intros ? [] | destruct k; discriminate | apply clean_word; auto | left; auto | constructor; intros ? []].
    + cbn [map fst snd]. change (to_text ((k, v) :: p :: l)) with (k ++ txt "=" ++ v ++ txt " " ++ to_text (p :: l)).
      replace (k ++ txt "=" ++ v ++ txt " " ++ to_text (p :: l)) with ([] ++ (k ++ equals :: v) ++ (" "%char :: to_text (p :: l)))
        by (cbn; rewrite <- app_assoc; reflexivity).
      apply W_word; [intros ? [] | destruct k; discriminate | apply clean_word; auto | |].
      * right. exists " "%char, (to_text (p :: l)). split; auto. left; auto.
      * cbn [map] in IH. set (q := to_text (p :: l)) in *. clearbody q.
        inversion IH as [s Hs e1 e2|sep w rest ws Hs Hw Hc Hr Hrest e1 e2].
        rewrite app_comm_cons. apply W_word; auto. intros x [<-|I]; auto. left; auto.
Qed.
Lemma put_end k v l : ~ In k (map fst l) -> put k v l = l ++ [(k, v)].
Proof.
  induction l as [|[a b] l IH]; cbn; intros N; auto. destruct (str_eqb_spec a k) as [->|n]; [exfalso; apply N; left; auto|].
  rewrite IH; auto.
Qed.
Lemma rebuild l : clean l -> forall pre o, o_pairs o = pre -> uniq (pre ++ l) ->
  o_pairs (fold_left (fun o w => add_word w o) (map (fun p => fst p ++ equals :: snd p) l) o) = pre ++ l.
Proof.
  induction l as [|[k v] l IH]; cbn; intros C pre o e U.
  - rewrite app_nil_r. auto.
  - destruct (C k v (or_introl eq_refl)) as (nk & nv & Hk & Hv).
    rewrite (IH) with (pre := pre ++ [(k, v)]).
    + rewrite <- app_assoc. reflexivity.
    + intros k' v' I. apply C. right; auto.
    + unfold add_word. rewrite (proj2 (split_eq_some _ k v)).
      2: { split; auto. intros I. destruct (Hk _ I). congruence. }
      unfold add_option. destruct k as [|c k]; [congruence|]. destruct v as [|y v]; [congruence|]. cbn [o_pairs].
      rewrite e. apply put_end. unfold uniq in U. rewrite map_app in U. cbn in U. apply NoDup_remove_2 in U. intros I. apply U. apply in_or_app. auto.
    + rewrite <- app_assoc. auto.
Qed.
Lemma roundtrip o : uniq (o_pairs o) -> clean (o_pairs o) -> o_pairs (options_of (to_string o)) = o_pairs o.
Proof.
  intros U C. unfold options_of, add_options, to_string.
  rewrite <- (proj1 (split_iff _ _ _) (text_words _ C)). rewrite (rebuild _ C [] no_options); auto.
Qed.
Lemma words_chars d s ws : Words d s ws -> forall w c, In w ws -> In c w -> ~ In c d.
Proof. induction 1; intros x c [] I2; subst; eauto. Qed.
Lemma put_clean k v l : clean l -> k <> [] -> v <> [] -> (forall c, In c k -> c <> " "%char /\ c <> equals) -> (forall c, In c v -> c <> " "%char) -> clean (put k v l).
Proof.
  intros C nk nv Hk Hv. induction l as [|[a b] l IH]; cbn.
  - intros k' v' [[= <- <-]|[]]. auto.
  - assert (C' : clean l) by (intros k' v' I; apply C; right; auto).
    destruct (str_eqb_spec a k) as [->|n].
    + intros k' v' [[= <- <-]|I]; auto.
    + intros k' v' [[= <- <-]|I]; [apply C; left; auto|]. apply IH; auto.
Qed.
Lemma add_option_clean k v o : clean (o_pairs o) -> (forall c, In c k -> c <> " "%char /\ c <> equals) -> (forall c, In c v -> c <> " "%char) ->
  clean (o_pairs (add_option k v o)).
Proof.
  intros C Hk Hv. unfold add_option. destruct k as [|c k]; auto. destruct v as [|y v]; auto. cbn [o_pairs]. apply put_clean; auto; discriminate.
Qed.
Lemma add_words_clean ws : (forall w c, In w ws -> In c w -> c <> " "%char) -> forall o, clean (o_pairs o) ->
  clean (o_pairs (fold_left (fun o w => add_word w o) ws o)).
Proof.
  induction ws as [|w ws IH]; cbn; intros H o C; auto. apply IH; [intros; eapply H; eauto|].
  assert (Hw : forall c, In c w -> c <> " "%char) by (intros c I; eapply H; eauto).
  unfold add_word. destruct (split_eq w) as [[k v]|] eqn:E.
  - apply split_eq_some in E. destruct E as [-> N]. apply add_option_clean; auto.
    + intros c I. split; [apply Hw; apply in_or_app; auto | intros ->; auto].
    + intros c I. apply Hw. apply in_or_app. right; right; auto.
  - apply split_eq_none in E. apply add_option_clean; auto.
    + intros c I. split; [auto | intros ->; auto].
    + cbn. intros c [<-|[]]. discriminate.
Qed.
Lemma built_ok o : built o -> uniq (o_pairs o) /\ clean (o_pairs o).
Proof.
  induction 1 as [|s o B [U C]|k v o B [U C] Hk Hv|o B [U C]].
  - split; [constructor|]. intros k v [].
  - split; [apply add_words_uniq; auto|]. apply add_words_clean; auto.
    intros w c I J. pose proof (words_chars _ _ _ (split_words (txt " ") s) _ _ I J) as N. intros ->. apply N. left; auto.
  - split; [apply add_option_uniq; auto|]. apply add_option_clean; auto.
  - split; [constructor|]. intros k v [].
Qed.

(** ** Equality *)
Lemma same_in_spec l : (forall k v, In (k, v) l -> v <> [] /\ solid v) -> forall r, uniq (o_pairs r) -> (forall k v, holds r k v -> v <> [] /\ solid v) ->
  o_pairs (snd (same_in l r)) = o_pairs r /\ (fst (same_in l r) = true <-> forall k v, In (k, v) l -> holds r k v).
Proof.
  induction l as [|[k v] l IH]; intros Hl r U Hr; cbn [same_in].
  - split; auto. split; auto. easy.
  - unfold has_value, get_value. destruct (assoc (o_pairs r) k) as [w|] eqn:E.
    + assert (In (k, w) (o_pairs r)) as Iw by (apply assoc_In; auto).
      destruct (Hr _ _ Iw) as [nw Sw]. rewrite read_solid by auto.
      destruct (str_eqb_spec v w) as [->|n].
      * destruct (IH (fun k' v' I => Hl k' v' (or_intror I)) (mark k r)) as [e H]; auto. split; [rewrite e; auto|].
        rewrite H. split.
        -- intros H2 k' v' [[= <- <-]|I]; auto. apply (H2 k' v' I).
        -- intros H2 k' v' I. apply (H2 k' v' (or_intror I)).
      * split; auto. split; [discriminate|]. intros H. exfalso. specialize (H k v (or_introl eq_refl)).
        apply (assoc_In _ U) in H. congruence.
    + split; auto. split; [discriminate|]. intros H. exfalso. specialize (H k v (or_introl eq_refl)).
      apply (assoc_In _ U) in H. congruence.
Qed.
Lemma c134_at a b : uniq (o_pairs a) -> uniq (o_pairs b) -> (forall k v, holds a k v -> v <> [] /\ solid v) -> (forall k v, holds b k v -> v <> [] /\ solid v) ->
  fst (fst (opt_eq a b)) = true <-> forall k v, holds a k v <-> holds b k v.
Proof.
  intros Ua Ub Ha Hb. unfold opt_eq.
  destruct (same_in_spec (o_pairs a) Ha b Ub Hb) as [e1 H1].
  destruct (same_in (o_pairs a) b) as [x b'] eqn:E1. cbn [fst snd] in *. destruct x.
  - assert (Hb' : forall k v, In (k, v) (o_pairs b') -> v <> [] /\ solid v) by (rewrite e1; auto).
    destruct (same_in_spec (o_pairs b') Hb' a Ua Ha) as [e2 H2].
    destruct (same_in (o_pairs b') a) as [y a'] eqn:E2. cbn [fst snd] in *. rewrite H2, e1.
    split.
    + intros H k v. split; [apply H1; auto | apply H].
    + intros H k v I. apply H. auto.
  - cbn. split; [discriminate|]. intros H. exfalso. assert (false = true) by (apply H1; intros k v I; apply H; auto). discriminate.
Qed.

(** ** Reading *)
Lemma step_uniq o c : uniq (o_pairs o) -> uniq (o_pairs (step o c)).
Proof.
  intros U. destruct c; cbn; auto.
  - apply add_words_uniq; auto.
  - apply add_option_uniq; auto.
  - unfold get_value. destruct assoc; auto.
  - unfold get_texts. destruct assoc; auto.
  - constructor.
Qed.
Lemma run_snoc h c o : run (h ++ [c]) o = step (run h o) c.
Proof. unfold run. rewrite fold_left_app. reflexivity. Qed.
Lemma run_uniq h : uniq (o_pairs (run h no_options)).
Proof. induction h as [|c h IH] using rev_ind; [constructor|]. rewrite run_snoc. apply step_uniq; auto. Qed.
Lemma seen_text s o : o_seen (add_options s o) = o_seen o.
Proof.
  unfold add_options. generalize (split (txt " ") s) as ws. intros ws. revert o. induction ws as [|w ws IH]; cbn; intros o; auto.
  rewrite IH. unfold add_word, add_option. destruct (split_eq w) as [[[|? ?] [|? ?]]|]; auto. destruct w; auto.
Qed.
Lemma was_read_snoc h c k : was_read (h ++ [c]) k <-> was_read h k \/ (reads c k /\ exists v, holds (run h no_options) k v).
Proof.
  split.
  - intros (b & x & a & e & R & H). destruct a as [|y a _] using rev_ind.
    + apply app_inj_tail in e. destruct e as [<- <-]. right; auto.
    + rewrite app_comm_cons, app_assoc in e. apply app_inj_tail in e. destruct e as [-> ->]. left. exists b, x, a. auto.
  - intros [(b & x & a & -> & R & H)|[R H]].
    + exists b, x, (a ++ [c]). split; [rewrite <- app_assoc; auto|auto].
    + exists h, c, []. auto.
Qed.
Lemma seen_iff h : forall k, In k (o_seen (run h no_options)) <-> was_read h k.
Proof.
  induction h as [|c h IH] using rev_ind; intros k.
  - cbn. split; [easy|]. intros (b & x & a & e & _). destruct b; discriminate.
  - rewrite run_snoc, was_read_snoc, <- IH. pose proof (run_uniq h) as U. set (o := run h no_options) in *.
    assert (no : (forall k', c <> Get k' /\ c <> GetAll k') -> o_seen (step o c) = o_seen o -> In k (o_seen (step o c)) <->
      In k (o_seen o) \/ (reads c k /\ exists v, holds o k v)).
    { intros n ->. split; auto. intros [|[[r|r] _]]; auto; destruct (n k); congruence. }
    destruct c as [s|a b|a|a|a|]; cbn [step].
    + apply no; [split; discriminate|]. apply seen_text.
    + apply no; [split; discriminate|]. unfold step, add_option. destruct a, b; auto.
    + unfold get_value. destruct (assoc (o_pairs o) a) as [v|] eqn:E; cbn.
      * split; [|intros [|[[[= ->]|[=]] _]]; auto]. intros [<-|I]; auto. right. split; [left; auto|]. exists v. apply assoc_In; auto.
      * split; auto. intros [|[[[= ->]|[=]] [v HH]]]; auto. apply (assoc_In _ U) in HH. congruence.
    + unfold get_texts. destruct (assoc (o_pairs o) a) as [v|] eqn:E; cbn.
      * split; [|intros [|[[[=]|[= ->]] _]]; auto]. intros [<-|I]; auto. right. split; [right; auto|]. exists v. apply assoc_In; auto.
      * split; auto. intros [|[[[=]|[= ->]] [v HH]]]; auto. apply (assoc_In _ U) in HH. congruence.
    + apply no; [split; discriminate|]. reflexivity.
    + apply no; [split; discriminate|]. reflexivity.
Qed.
Lemma has_key_In l k : has_key l k = true <-> In k l.
Proof.
  unfold has_key. rewrite existsb_exists. split.
  - intros (x & I & e). destruct (str_eqb_spec x k); [subst; auto|discriminate].
  - intros I. exists k. split; auto. apply str_eqb_refl.
Qed.
Lemma c135_at h : check (run h no_options) = true <-> forall k v, holds (run h no_options) k v -> was_read h k.
Proof.
  unfold check. rewrite forallb_forall. split.
  - intros H k v I. apply seen_iff. apply has_key_In. apply (H (k, v) I).
  - intros H [k v] I. cbn. apply has_key_In, seen_iff. eapply H; eauto.
Qed.
Lemma c135_noclear h : ~ In Clear h -> check (run h no_options) = true <-> forall k v, holds (run h no_options) k v -> read_since_cleared h k.
Proof.
  intros N. rewrite c135_at. split; intros H k v I; specialize (H k v I).
  - destruct H as (b & c & a & -> & R & E). exists b, c, a. repeat split; auto. intros J. apply N. apply in_or_app. right; right; auto.
  - destruct H as (b & c & a & e & _ & R & E). exists b, c, a. auto.
Qed.
Lemma reach_uniq o : reachable o -> uniq (o_pairs o).
Proof. intros [h ->]. apply run_uniq. Qed.
Lemma put_nonempty k v l : v <> [] -> (forall a b, In (a, b) l -> b <> []) -> forall a b, In (a, b) (put k v l) -> b <> [].
Proof.
  intros n H a b. induction l as [|[x y] l IH]; cbn.
  - intros [[= <- <-]|[]]; auto.
  - destruct (str_eqb x k); intros [[= <- <-]|I]; auto.
    + apply (H a b). right; auto.
    + apply (H x y). left; auto.
    + apply IH; auto. intros a' b' J. apply (H a' b'). right; auto.
Qed.
Lemma add_option_nonempty k v o : (forall a b, holds o a b -> b <> []) -> forall a b, holds (add_option k v o) a b -> b <> [].
Proof. intros H. unfold add_option. destruct k; auto. destruct v; auto. unfold holds. cbn [o_pairs]. apply put_nonempty; [discriminate|auto]. Qed.
Lemma reach_nonempty o : reachable o -> forall k v, holds o k v -> v <> [].
Proof.
  intros [h ->]. induction h as [|c h IH] using rev_ind; [easy|]. rewrite run_snoc. set (o := run h no_options) in *. clearbody o.
  destruct c; cbn [step]; auto.
  - unfold add_options. generalize (split (txt " ") s) as ws. intros ws. revert o IH. induction ws as [|w ws IHw]; cbn; auto.
    intros o IH. apply IHw. unfold add_word. destruct (split_eq w) as [[? ?]|]; apply add_option_nonempty; auto.
  - apply add_option_nonempty; auto.
  - unfold get_value. destruct assoc; auto.
  - unfold get_texts. destruct assoc; auto.
Qed.
Lemma uniq_one o : uniq (o_pairs o) -> one_value o.
Proof. intros U k v v' H H'. apply (assoc_In _ U) in H, H'. congruence. Qed.

Theorem c132 s o ws : reachable o -> Words (txt " ") s ws -> one_value (add_options s o) /\
  forall k v, holds (add_options s o) k v <-> LastAssigns ws k v \/ ((forall w v', In w ws -> ~ Assigns w k v') /\ holds o k v).
Proof. intros R W. destruct (c132_at s o ws (reach_uniq _ R) W) as [U H]. split; auto. apply uniq_one; auto. Qed.
Theorem words_total d s : exists ws, Words d s ws /\ split d s = ws /\ forall ws', Words d s ws' -> ws' = ws.
Proof. exists (split d s). repeat split; [apply split_words|]. intros ws' W. apply split_iff; auto. Qed.
Theorem c133 o : built o -> o_pairs (options_of (to_string o)) = o_pairs o.
Proof. intros B. destruct (built_ok _ B). apply roundtrip; auto. Qed.
Theorem c133_refuted : exists o, reachable o /\ exists k v, holds o k v /\ ~ holds (options_of (to_string o)) k v.
Proof.
  exists (add_option (txt "k") (txt "a b") no_options). split; [exists [AddPair (txt "k") (txt "a b")]; reflexivity|].
  exists (txt "k"), (txt "a b"). split; [left; reflexivity|]. vm_compute. intros [e|[e|[]]]; discriminate.
Qed.
Theorem c134 a b : reachable a -> reachable b -> (forall k v, holds a k v -> solid v) -> (forall k v, holds b k v -> solid v) ->
  fst (fst (opt_eq a b)) = true <-> forall k v, holds a k v <-> holds b k v.
Proof.
  intros Ra Rb Sa Sb. apply c134_at; auto using reach_uniq; intros k v H; split; eauto using reach_nonempty.
Qed.
Theorem c134_refuted : exists o, reachable o /\ fst (fst (opt_eq o o)) = false.
Proof. exists (add_option (txt "k") (txt "a b") no_options). split; [exists [AddPair (txt "k") (txt "a b")]; reflexivity|]. reflexivity. Qed.
(** comparing marks the keys of the right operand as read *)
Theorem c135_refuted : exists h, check (run h no_options) = true /\ exists k v, holds (run h no_options) k v /\ ~ read_since_cleared h k.
Proof.
  exists [AddText (txt "a=1"); Get (txt "a"); Clear; AddText (txt "a=2")]. split; [reflexivity|].
  exists (txt "a"), (txt "2"). split; [left; reflexivity|]. intros (b & c & l & e & N & R & v & H).
  destruct b as [|? b]; [injection e as <- _; destruct R; discriminate|]. injection e as <- e.
  destruct b as [|? b]; [injection e as <- <-; apply N; left; reflexivity|]. injection e as <- e.
  destruct b as [|? b]; [injection e as <- _; destruct R; discriminate|]. injection e as <- e.
  destruct b as [|? b]; [injection e as <- _; destruct R; discriminate|]. injection e as <- e. destruct b; discriminate.
Qed.
Lemma get_value_other {T} (conv : str -> T -> T) k x o : o_pairs (snd (get_value conv k x o)) = o_pairs o.
Proof. unfold get_value. destruct assoc; auto. Qed.
Lemma get_updated {T} (conv : str -> T -> T) k x o : uniq (o_pairs o) ->
  match get_value conv k x o with
  | (true, y, _) => exists v, holds o k v /\ y = conv v x
  | (false, y, _) => (forall v, ~ holds o k v) /\ y = x
  end.
Proof.
  intros U. unfold get_value. destruct (assoc (o_pairs o) k) as [v|] eqn:E.
  - exists v. split; auto. apply assoc_In; auto.
  - split; auto. intros v H. apply (assoc_In _ U) in H. congruence.
Qed.
Theorem c136 num u v o : reachable o -> (forall k w, holds o k w -> solid w) -> (forall w, ~ holds o (txt "max") w) -> (forall w, ~ holds o (txt "min") w) ->
  let v' := fst (variable_add num u v o) in
  v_name v' = v_name v /\ v_level v' = v_level v /\
  updated (fun w x => x = w) o (txt "units") (v_units v) (v_units v') /\
  updated (fun w x => x = w) o (txt "standardName") (v_std v) (v_std v') /\
  v_min v' = v_min v /\ v_max v' = v_max v.
Proof.
  intros R S Nx Nn. pose proof (reach_uniq _ R) as U. pose proof (reach_nonempty _ R) as NE.
  unfold variable_add.
  pose proof (get_updated read_word (txt "units") [] o U) as H1. pose proof (get_value_other read_word (txt "units") [] o) as P1.
  destruct (get_value read_word (txt "units") [] o) as [[b1 un] o1]. cbn [snd] in P1.
  assert (U1 : uniq (o_pairs o1)) by (rewrite P1; auto).
  pose proof (get_updated read_word (txt "standardName") un o1 U1) as H2. pose proof (get_value_other read_word (txt "standardName") un o1) as P2.
  destruct (get_value read_word (txt "standardName") un o1) as [[b2 sd] o2]. cbn [snd] in P2.
  assert (U2 : uniq (o_pairs o2)) by (rewrite P2; auto).
  unfold holds in *. rewrite P1 in *. rewrite ?P2 in *.
  assert (E : forall x, get_value num (txt "min") x o2 = (false, x, o2)).
  { intros x. unfold get_value. destruct (assoc (o_pairs o2) (txt "min")) eqn:E; auto. exfalso. rewrite P2 in E. apply (assoc_In _ U) in E. eapply Nn; eauto. }
  rewrite !E. cbn [fst].
  assert (X : forall k y w0 x0, In (k, w0) (o_pairs o) -> y = read_word w0 x0 -> forall w, In (k, w) (o_pairs o) -> y = w).
  { intros k y w0 x0 I -> w I'. rewrite (uniq_one _ U k w w0 I' I). apply read_solid; eauto. }
  assert (X1 : updated (fun w x => x = w) o (txt "units") (v_units v) (if b1 then un else v_units v)).
  { destruct b1; split.
    - destruct H1 as (w0 & I & e). intros w I'. exact (X _ _ _ _ I e w I').
    - destruct H1 as (w0 & I & e). intros N. exfalso. eapply N; eauto.
    - destruct H1 as (N & _). intros w I. exfalso. eapply N; eauto.
    - auto. }
  assert (X2 : updated (fun w x => x = w) o (txt "standardName") (v_std v) (if b2 then sd else v_std v)).
  { destruct b2; split.
    - destruct H2 as (w0 & I & e). intros w I'. exact (X _ _ _ _ I e w I').
    - destruct H2 as (w0 & I & e). intros N. exfalso. eapply N; eauto.
    - destruct H2 as (N & _). intros w I. exfalso. eapply N; eauto.
    - auto. }
  destruct b1, b2; cbn; auto 8.
Qed.
Theorem c136_min num u v o w : reachable o -> holds o (txt "min") w -> let v' := fst (variable_add num u v o) in v_min v' = num w u /\ v_max v' = num w u.
Proof.
  intros R H. pose proof (reach_uniq _ R) as U. unfold variable_add.
  pose proof (get_value_other read_word (txt "units") [] o) as P1. destruct (get_value read_word (txt "units") [] o) as [[b1 un] o1]. cbn [snd] in P1.
  pose proof (get_value_other read_word (txt "standardName") un o1) as P2. destruct (get_value read_word (txt "standardName") un o1) as [[b2 sd] o2]. cbn [snd] in P2.
  assert (E : assoc (o_pairs o2) (txt "min") = Some w). { apply assoc_In; rewrite P2, P1; auto. }
  assert (G : forall o', o_pairs o' = o_pairs o2 -> get_value num (txt "min") u o' = (true, num w u, mark (txt "min") o')).
  { intros o' e. unfold get_value. rewrite e, E. reflexivity. }
  rewrite (G o2) by reflexivity. rewrite (G (mark _ o2)) by reflexivity. cbn. auto.
Qed.
(** stoi-like reading of one digit, for the examples *)
Definition digit (s : str) (x : val) : val := match s with [c] => fz (Z.of_nat (nat_of_ascii c) - 48) | _ => x end.
Theorem c136_refuted : exists num u v o, reachable o /\ holds o (txt "max") (txt "5") /\ v_max (fst (variable_add num u v o)) <> num (txt "5") u /\
  v_max (fst (variable_add num u v o)) = v_max v.
Proof.
  exists digit, CMV, {| v_name := txt "t"; v_min := CMV; v_max := CMV; v_units := []; v_std := []; v_level := 0 |}, (options_of (txt "max=5")).
  split; [exists [AddText (txt "max=5")]; reflexivity|]. split; [left; reflexivity|]. split; [vm_compute; discriminate|reflexivity].
Qed.
Lemma get_value_updated {T} (conv : str -> T -> T) k x o o0 : uniq (o_pairs o) -> o_pairs o = o_pairs o0 -> let '(b, y, o') := get_value conv k x o in
  updated (fun w z => z = conv w x) o0 k x y /\ o_pairs o' = o_pairs o0 /\ (b = true <-> exists w, holds o0 k w).
Proof.
  intros U P. pose proof (get_updated conv k x o U) as H. pose proof (get_value_other conv k x o) as Q. destruct (get_value conv k x o) as [[b y] o'].
  cbn [snd] in Q. unfold holds in *. unfold updated, holds. rewrite P in *. split; [|split; [exact Q|]].
  - destruct b; split.
    + destruct H as (w0 & I & ->). intros w I'. rewrite (uniq_one _ U k w w0 I' I). reflexivity.
    + destruct H as (w0 & I & _). intros N. exfalso. eapply N; eauto.
    + destruct H as (N & _). intros w I. exfalso. eapply N; eauto.
    + intros _. apply H.
  - destruct b; [destruct H as (w0 & I & _); split; eauto|]. split; [discriminate|]. intros (w & I). destruct H as [N _]. exfalso. eapply N; eauto.
Qed.
Lemma updated_read o k y : reachable o -> (forall k w, holds o k w -> solid w) -> updated (fun w z => z = read_word w []) o k [] y -> updated (fun w z => z = w) o k [] y.
Proof. intros R S [A B]. split; auto. intros w I. rewrite (A w I). apply read_solid; [eapply reach_nonempty; eauto|eauto]. Qed.
Theorem c136_of num int o : reachable o -> (forall k w, holds o k w -> solid w) ->
  match variable_of num int o with
  | Ok (v, o') => holds o (txt "name") (v_name v) /\
      updated (fun w x => x = w) o (txt "standardName") [] (v_std v) /\
      updated (fun w x => x = w) o (txt "units") [] (v_units v) /\
      updated (fun w x => x = num w CMV) o (txt "min") CMV (v_min v) /\
      updated (fun w x => x = num w CMV) o (txt "max") CMV (v_max v) /\
      updated (fun w x => x = int w (-999)) o (txt "level") (-999) (v_level v) /\
      forall k w, holds o' k w <-> holds o k w
  | Abort => forall w, ~ holds o (txt "name") w
  | _ => False
  end.
Proof.
  intros R S. pose proof (reach_uniq _ R) as U. unfold variable_of, get_required.
  pose proof (get_value_updated read_word (txt "name") [] o o U eq_refl) as H1. destruct (get_value read_word (txt "name") [] o) as [[b1 nm] o1]. destruct H1 as (G1 & P1 & B1).
  apply (updated_read o _ _ R S) in G1.
  destruct b1; cbn [bind]; [|intros w I; pose proof (proj2 B1 (ex_intro _ w I)); discriminate].
  assert (U1 : uniq (o_pairs o1)) by (rewrite P1; auto).
  pose proof (get_value_updated read_word (txt "standardName") [] o1 o U1 P1) as H2. destruct (get_value read_word (txt "standardName") [] o1) as [[b2 sd] o2]. destruct H2 as (G2 & P2 & _).
  apply (updated_read o _ _ R S) in G2. assert (U2 : uniq (o_pairs o2)) by (rewrite P2; auto).
  pose proof (get_value_updated read_word (txt "units") [] o2 o U2 P2) as H3. destruct (get_value read_word (txt "units") [] o2) as [[b3 un] o3]. destruct H3 as (G3 & P3 & _).
  apply (updated_read o _ _ R S) in G3. assert (U3 : uniq (o_pairs o3)) by (rewrite P3; auto).
  pose proof (get_value_updated num (txt "min") CMV o3 o U3 P3) as H4. destruct (get_value num (txt "min") CMV o3) as [[b4 mn] o4]. destruct H4 as (G4 & P4 & _).
  assert (U4 : uniq (o_pairs o4)) by (rewrite P4; auto).
  pose proof (get_value_updated num (txt "max") CMV o4 o U4 P4) as H5. destruct (get_value num (txt "max") CMV o4) as [[b5 mx] o5]. destruct H5 as (G5 & P5 & _).
  assert (U5 : uniq (o_pairs o5)) by (rewrite P5; auto).
  pose proof (get_value_updated int (txt "level") (-999) o5 o U5 P5) as H6. destruct (get_value int (txt "level") (-999) o5) as [[b6 lv] o6]. destruct H6 as (G6 & P6 & _).
  cbn [v_name v_min v_max v_units v_std v_level]. destruct (proj1 B1 eq_refl) as (w & I). split.
  { pose proof (proj1 G1 w I) as e. rewrite e. exact I. }
  do 5 (split; [assumption|]). intros k w'. unfold holds. rewrite P6. tauto.
Qed.
