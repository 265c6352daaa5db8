(** Proofs about the client's parameter files: C182-C185. *)
From Coq Require Import Ascii String Sorted Permutation.
From Verif Require Import Base ListLib M_Stat M_COpt S_COpt P_COpt M_CUtil S_CUtil P_CUtil M_CText M_CTree S_CTree P_CTree M_CPar S_CPar P_CCal.
Local Open Scope Z_scope.

(** ** the order of places *)
Lemma val_dec (a b : val) : {a = b} + {a <> b}.
Proof. decide equality. apply Qc_eq_dec. Qed.
Lemma place_dec a b : {same_place a b} + {~ same_place a b}.
Proof. unfold same_place. destruct (val_dec (l_lat a) (l_lat b)), (val_dec (l_lon a) (l_lon b)); [left; auto| | |]; right; tauto. Qed.
Lemma same_refl a : same_place a a. Proof. split; auto. Qed.
Lemma same_sym a b : same_place a b -> same_place b a. Proof. intros [? ?]; split; auto. Qed.
Lemma same_trans a b c : same_place a b -> same_place b c -> same_place a c. Proof. intros [? ?] [? ?]; split; congruence. Qed.
Definition flat (a : location) : location := {| l_lat := l_lat a; l_lon := l_lon a; l_elev := fz 0 |}.
Lemma flat_proper a : placed a -> proper (flat a). Proof. intros [? ?]. repeat split; auto. discriminate. Qed.
Lemma flat_lt a b : loc_ltb2 a b = loc_ltb2 (flat a) (flat b). Proof. reflexivity. Qed.
Lemma lt_neither a b : placed a -> placed b -> (loc_ltb2 a b = false /\ loc_ltb2 b a = false <-> same_place a b).
Proof. intros Ha Hb. rewrite (flat_lt a b), (flat_lt b a). apply (proj2 c146_place (flat a) (flat b)); apply flat_proper; auto. Qed.
Lemma lt_trans a b c : placed a -> placed b -> placed c -> loc_ltb2 a b = true -> loc_ltb2 b c = true -> loc_ltb2 a c = true.
Proof. intros Ha Hb Hc. rewrite (flat_lt a b), (flat_lt b c), (flat_lt a c). apply (proj1 c146_place); apply flat_proper; auto. Qed.
Lemma lt_irrefl a : placed a -> loc_ltb2 a a = false.
Proof. intros H. apply lt_neither; auto. apply same_refl. Qed.
Lemma lt_same a b c : same_place a b -> loc_ltb2 a c = loc_ltb2 b c /\ loc_ltb2 c a = loc_ltb2 c b.
Proof. intros [e1 e2]. unfold loc_ltb2. rewrite e1, e2. auto. Qed.
Lemma placed_same a b : same_place a b -> placed a -> placed b.
Proof. intros [e1 e2] [H1 H2]. split; congruence. Qed.
Lemma same_key_spec a b : placed a -> placed b -> (same_key a b = true <-> same_place a b).
Proof. intros Ha Hb. unfold same_key. rewrite andb_true_iff, !negb_true_iff. apply lt_neither; auto. Qed.
Lemma bad_key_placed k : placed k -> bad_key k = false.
Proof. intros [H1 H2]. unfold bad_key, number in *. destruct (l_lat k), (l_lon k); auto; congruence. Qed.
Lemma find_ok m k : placed k -> find m k = Ok (lookup m k).
Proof. intros H. unfold find. rewrite bad_key_placed by auto. reflexivity. Qed.

(** ** the map *)
Definition keys (m : entries) : list location := map fst m.
Definition sorted_map (m : entries) : Prop := StronglySorted (fun a b => loc_ltb2 a b = true) (keys m) /\ Forall placed (keys m).
Lemma lookup_In m k l v : lookup m k = Some (l, v) -> In (l, v) m /\ same_key l k = true.
Proof. induction m as [|[a w] m IH]; cbn [lookup]; [discriminate|]. destruct (same_key a k) eqn:E; intros H; [injection H as -> ->; split; [left|]; auto|]. destruct (IH H). split; [right|]; auto. Qed.
Lemma lookup_None m k : lookup m k = None <-> forall e, In e m -> same_key (fst e) k = false.
Proof.
  induction m as [|[a w] m IH]; cbn [lookup]; [split; auto; intros _ e []|]. destruct (same_key a k) eqn:E.
  - split; [discriminate|]. intros H. specialize (H (a, w) (or_introl eq_refl)). cbn in H. congruence.
  - rewrite IH. split; intros H e; [intros [<-|H']; auto|intros H'; apply H; right; auto].
Qed.
Lemma assign_keys m k v : forall l, In l (keys (assign m k v)) -> l = k \/ In l (keys m).
Proof.
  induction m as [|[a w] m IH]; cbn [assign keys map fst]; intros l; [intros [<-|[]]; auto|].
  destruct (loc_ltb2 a k); [|destruct (loc_ltb2 k a)]; cbn [keys map fst In]; intros H.
  - destruct H as [<-|H]; [auto|]. destruct (IH l H); auto.
  - destruct H as [<-|[<-|H]]; auto.
  - destruct H as [<-|H]; auto.
Qed.
Lemma assign_sorted m k v : sorted_map m -> placed k -> sorted_map (assign m k v).
Proof.
  intros [HS HP] Hk. split.
  - induction m as [|[a w] m IH]; cbn [assign keys map fst] in *; [repeat constructor|]. inversion_clear HS as [|? ? HS' HF]. inversion_clear HP as [|? ? Ha HP'].
    destruct (loc_ltb2 a k) eqn:E1; [|destruct (loc_ltb2 k a) eqn:E2]; cbn [keys map fst].
    + constructor; [apply IH; auto|]. apply Forall_forall. intros l Hl. destruct (assign_keys _ _ _ _ Hl) as [->|Hl']; auto. rewrite Forall_forall in HF. apply HF; auto.
    + constructor; [constructor; auto|]. constructor; auto. rewrite Forall_forall in HF, HP' |- *. intros l Hl. apply (lt_trans k a l); auto.
    + constructor; auto.
  - apply Forall_forall. intros l Hl. destruct (assign_keys _ _ _ _ Hl) as [->|Hl']; auto. rewrite Forall_forall in HP. apply HP. auto.
Qed.
(** a sorted map holds at most one entry for a place *)
Lemma lookup_assign m k v k' : sorted_map m -> placed k -> placed k' -> lookup (assign m k v) k' =
  if place_dec k k' then Some (match lookup m k with Some (l, _) => l | None => k end, v) else lookup m k'.
Proof.
  intros [HS HP] Hk Hk'. induction m as [|[a w] m IH]; cbn [assign lookup].
  - destruct (place_dec k k') as [s|s]; destruct (same_key k k') eqn:E; auto.
    + exfalso. apply (same_key_spec k k') in s; auto. congruence.
    + exfalso. apply s. apply same_key_spec; auto.
  - cbn [keys map fst] in HS, HP. inversion_clear HS as [|? ? HS' HF]. inversion_clear HP as [|? ? Ha HP']. specialize (IH HS' HP').
    destruct (loc_ltb2 a k) eqn:E1; [|destruct (loc_ltb2 k a) eqn:E2]; cbn [lookup].
    + assert (Ea : same_key a k = false). { unfold same_key. rewrite E1. reflexivity. } rewrite Ea, IH.
      destruct (place_dec k k') as [s|s]; auto. replace (same_key a k') with false; [reflexivity|]. symmetry. unfold same_key in *. destruct (lt_same k k' a s) as [<- <-]. exact Ea.
    + assert (Ea : same_key a k = false). { unfold same_key. rewrite E2, andb_false_r. reflexivity. }
      assert (Em : lookup m k = None). { apply lookup_None. intros e He. rewrite Forall_forall in HF, HP'. unfold same_key. assert (Hl : In (fst e) (keys m)) by (apply in_map; auto). rewrite (lt_trans k a (fst e)) by auto. rewrite andb_false_r. reflexivity. }
      rewrite Ea, Em. destruct (place_dec k k') as [s|s]; destruct (same_key k k') eqn:E; auto; exfalso.
      * apply (same_key_spec k k') in s; auto. congruence.
      * apply s. apply same_key_spec; auto.
    + assert (s' : same_place a k) by (apply lt_neither; auto). assert (Ea : same_key a k = true) by (apply same_key_spec; auto). rewrite Ea.
      destruct (place_dec k k') as [s|s].
      * replace (same_key a k') with true; auto. symmetry. apply same_key_spec; auto. eapply same_trans; eauto.
      * replace (same_key a k') with false; auto. symmetry. apply not_true_is_false. intros E. apply same_key_spec in E; auto. apply s. eapply same_trans; [apply same_sym, s'|exact E].
Qed.
Lemma lookup_same m k k' : same_place k k' -> lookup m k = lookup m k'.
Proof. intros s. induction m as [|[a w] m IH]; cbn [lookup]; auto. unfold same_key. destruct (lt_same k k' a s) as [-> ->]. rewrite IH. reflexivity. Qed.
Lemma lookup_entry m l v : sorted_map m -> In (l, v) m -> lookup m l = Some (l, v).
Proof.
  intros [HS HP]. induction m as [|[a w] m IH]; [intros []|]. cbn [keys map fst lookup] in *. inversion_clear HS as [|? ? HS' HF]. inversion_clear HP as [|? ? Ha HP'].
  intros [H|H].
  - injection H as -> ->. replace (same_key l l) with true; auto. symmetry. apply same_key_spec; auto. apply same_refl.
  - replace (same_key a l) with false; [auto|]. symmetry. unfold same_key. rewrite Forall_forall in HF. rewrite HF; [reflexivity|]. apply (in_map fst _ _ H).
Qed.

(** ** the latest set *)
Lemma about_dec e t k : {about e t k} + {~ about e t k}.
Proof. unfold about. destruct (Z.eq_dec (at_ e) t); [|right; tauto]. destruct (place_dec (where_ e) k); [left; auto|right; tauto]. Qed.
Lemma latest_snoc h e t k p : latest (h ++ [e]) t k p <-> (about e t k /\ p = what e) \/ (~ about e t k /\ latest h t k p).
Proof.
  split.
  - intros [(b & x & a & E & A & W & N)|[-> N]].
    + destruct (exists_last (l := x :: a)) as (a' & y & Ea); [discriminate|]. rewrite Ea, app_assoc in E. apply app_inj_tail in E as [Eh <-].
      destruct a as [|z a].
      * destruct a' as [|? [|? ?]]; try discriminate. injection Ea as ->. left. auto.
      * right. destruct a' as [|x' a']; [discriminate|]. injection Ea as -> Ea. assert (He : In e (z :: a)). { rewrite Ea. apply in_or_app. right. left. auto. }
        split; [apply N; auto|]. left. exists b, x', a'. split; [exact Eh|]. split; auto. split; auto. intros e' He'. apply N. rewrite Ea. apply in_or_app. left. auto.
    + right. split; [apply N; apply in_or_app; right; left; auto|]. right. split; auto. intros e' He'. apply N. apply in_or_app. auto.
  - intros [[A ->]|[NA [(b & x & a & -> & A & W & N)|[-> N]]]].
    + left. exists h, e, []. split; [auto|]. split; [auto|]. split; [auto|]. intros ? [].
    + left. exists b, x, (a ++ [e]). rewrite <- app_assoc. split; auto. split; auto. split; auto. intros e' He'. apply in_app_or in He' as [He'|[<-|[]]]; auto.
    + right. split; auto. intros e' He'. apply in_app_or in He' as [He'|[<-|[]]]; auto.
Qed.
Lemma latest_fun h t k p q : latest h t k p -> latest h t k q -> p = q.
Proof.
  revert p q. induction h as [|e h IH] using rev_ind; intros p q.
  - intros [(b & x & a & E & _)|[-> _]]; [destruct b; discriminate|]. intros [(b & x & a & E & _)|[-> _]]; [destruct b; discriminate|]. reflexivity.
  - rewrite !latest_snoc. intros [[A ->]|[A H]] [[A' ->]|[A' H']]; auto; contradiction.
Qed.
Lemma latest_same h t k k' p : same_place k k' -> latest h t k p -> latest h t k' p.
Proof.
  intros s. assert (Q : forall e, about e t k <-> about e t k'). { intros e. unfold about. split; intros [? ?]; split; auto; [eapply same_trans; eauto|eapply same_trans; [eauto|apply same_sym; auto]]. }
  intros [(b & x & a & E & A & W & N)|[-> N]]; [left; exists b, x, a; split; auto; split; [apply Q; auto|split; auto]; intros e' He'; rewrite <- Q; auto|right; split; auto; intros e He; rewrite <- Q; auto].
Qed.

(** ** the state after a history *)
Definition at_list (v : list vec) (t : Z) : vec := nth (Z.to_nat t) v [].
Lemma at_list_get v t : 0 <= t -> at_time v t = Ok (at_list v t).
Proof.
  intros H. unfold at_time, at_list. destruct (Z.ltb_spec t (zlen v)) as [L|L].
  - destruct (znth_some v t) as [x E]; [lia|]. rewrite E. unfold znth in E. replace (t <? 0) with false in E by lia. destruct (nth_error v (Z.to_nat t)) eqn:N; [|discriminate]. injection E as <-. erewrite nth_error_nth by eauto. reflexivity.
  - rewrite nth_overflow; auto. unfold zlen in L. lia.
Qed.
Lemma resize_len l n : 0 <= n -> zlen (resize l n) = n.
Proof. intros H. unfold resize, zlen. rewrite app_length, firstn_length, repeat_length. lia. Qed.
Lemma resize_at l n t : zlen l <= n -> 0 <= t -> at_list (resize l n) t = at_list l t.
Proof.
  intros H Ht. unfold resize, at_list. rewrite firstn_all2 by (unfold zlen in H; lia).
  destruct (Nat.ltb_spec (Z.to_nat t) (length l)) as [L|L]; [rewrite app_nth1 by auto; reflexivity|]. rewrite app_nth2 by auto. rewrite (nth_overflow l) by auto.
  assert (G : forall n m, nth n (repeat (@nil val) m) [] = []) by (intros n0 m; revert n0; induction m as [|m IH]; intros [|n0]; cbn; auto). apply G.
Qed.
Lemma lset_at l : forall i p t, (i < length l)%nat -> nth t (lset l i p) (@nil val) = if Nat.eq_dec t i then p else nth t l [].
Proof.
  induction l as [|x l IH]; intros i p t H; [cbn in H; lia|]. cbn [length] in H. destruct i as [|i], t as [|t]; cbn [lset nth]; auto.
  rewrite IH by lia. destruct (Nat.eq_dec t i), (Nat.eq_dec (S t) (S i)); auto; lia.
Qed.
Lemma lset_len {A} (l : list A) : forall i a, length (lset l i a) = length l.
Proof. induction l as [|x l IH]; intros [|i] a; cbn; auto. Qed.

Definition top (h : list setting) : Z := fold_right Z.max 0 (map at_ h).
Lemma top_last h : (forall e, In e h -> 0 <= at_ e) -> last_time h (top h).
Proof.
  unfold top. induction h as [|e h IH]; intros H; cbn [map fold_right]; [repeat split; [lia|intros ? []|auto]|].
  destruct IH as (I1 & I2 & I3); [intros; apply H; right; auto|]. set (n := fold_right Z.max 0 (map at_ h)) in *. repeat split; [lia| |].
  - intros e' [<-|He']; [lia|]. specialize (I2 e' He'). lia.
  - destruct (Z.max_spec (at_ e) n) as [[_ ->]|[_ ->]]; [|right; exists e; split; [left|]; auto]. destruct I3 as [->|(x & Hx & E)]; auto. right. exists x. split; [right|]; auto.
Qed.
Lemma last_fun h n m : last_time h n -> last_time h m -> n = m.
Proof. intros (A1 & A2 & A3) (B1 & B2 & B3). destruct A3 as [->|(x & Hx & E)], B3 as [->|(y & Hy & E')]; try lia; try (specialize (A2 _ Hy); lia); try (specialize (B2 _ Hx); lia). specialize (A2 _ Hy). specialize (B2 _ Hx). lia. Qed.
Lemma top_snoc h e : (forall e, In e h -> 0 <= at_ e) -> 0 <= at_ e -> top (h ++ [e]) = Z.max (top h) (at_ e).
Proof.
  intros H He. apply (last_fun (h ++ [e])); [apply top_last; intros x Hx; apply in_app_or in Hx as [Hx|[<-|[]]]; auto|]. destruct (top_last h H) as (A1 & A2 & A3). repeat split; [lia| |].
  - intros x Hx. apply in_app_or in Hx as [Hx|[<-|[]]]; [specialize (A2 x Hx); lia|lia].
  - destruct (Z.max_spec (top h) (at_ e)) as [[_ ->]|[_ ->]]; [right; exists e; split; auto; apply in_or_app; right; left; auto|]. destruct A3 as [->|(x & Hx & E)]; auto. right. exists x. split; auto. apply in_or_app; auto.
Qed.

Record state_of (h : list setting) (cycle : bool) (f : pfile) : Prop := {
  so_sorted : sorted_map (p_map f);
  so_max : p_max f = top h;
  so_timed : p_timed f = (0 <? top h);
  so_cycle : p_cycle f = cycle;
  so_none : forall k, placed k -> lookup (p_map f) k = None -> forall e, In e h -> ~ same_place (where_ e) k;
  so_some : forall k l v, placed k -> lookup (p_map f) k = Some (l, v) -> (exists e, In e h /\ where_ e = l) /\ 0 < zlen v <= top h + 1 /\ (forall t, 0 <= t -> latest h t k (at_list v t)) /\
              (forall e, In e h -> same_place (where_ e) k -> at_ e < zlen v) }.
Lemma state_new cycle : state_of [] cycle (new_pfile cycle).
Proof. constructor; cbn; auto; try discriminate; try (intros; contradiction). split; constructor. Qed.
Lemma to_size_id t : 0 <= t < 18446744073709551616 -> to_size t = t.
Proof. intros H. unfold to_size. apply Z.mod_small. lia. Qed.
Lemma good_app h e : good_history (h ++ [e]) -> good_history h /\ is_time (at_ e) /\ placed (where_ e).
Proof. intros H. split; [intros x Hx; apply H, in_or_app; auto|]. apply H, in_or_app. right. left. auto. Qed.
Lemma good_times h : good_history h -> forall e, In e h -> 0 <= at_ e.
Proof. intros H e He. destruct (H e He) as [[? ?] _]. auto. Qed.
Lemma top_nonneg h : good_history h -> 0 <= top h.
Proof. intros H. apply (top_last h (good_times h H)). Qed.
Lemma latest_other_time h e t k p : at_ e <> t -> latest h t k p -> latest (h ++ [e]) t k p.
Proof. intros N H. apply latest_snoc. right. split; auto. intros [? _]. auto. Qed.
Lemma latest_none h t k : (forall e, In e h -> ~ same_place (where_ e) k) -> latest h t k [].
Proof. intros H. right. split; auto. intros e He [_ s]. apply (H e He s). Qed.

Lemma set_ok h cycle f e : state_of h cycle f -> good_history (h ++ [e]) -> exists g, set_parameters (what e) (at_ e) (where_ e) f = Ok g /\ state_of (h ++ [e]) cycle g /\ p_tree g = p_tree f /\ p_locs g = p_locs f.
Proof.
  intros S HG. destruct (good_app _ _ HG) as (Hh & [Ht Ht'] & Hk). pose proof (good_times h Hh) as Hn. pose proof (top_nonneg h Hh) as H0. pose proof (top_snoc h e Hn Ht) as HT.
  unfold set_parameters. rewrite find_ok by auto. cbn [bind]. set (k := where_ e) in *. set (t := at_ e) in *. rewrite (so_max _ _ _ S).
  set (old := match lookup (p_map f) k with Some (_, v) => v | None => [] end).
  assert (Hold : zlen old <= top h + 1 /\ (forall u, 0 <= u -> latest h u k (at_list old u)) /\ (forall e', In e' h -> same_place (where_ e') k -> at_ e' < zlen old)).
  { unfold old. destruct (lookup (p_map f) k) as [[l v]|] eqn:E; [apply (so_some _ _ _ S) in E as (_ & ? & ? & ?); auto; repeat split; auto; lia|].
    pose proof (so_none _ _ _ S k Hk E) as N. split; [change (zlen (@nil vec)) with 0; lia|]. split; [|intros e' He' s; exfalso; apply (N e' He' s)].
    intros u Hu. unfold at_list. destruct (Z.to_nat u); apply latest_none; auto. }
  destruct Hold as (O1 & O2 & O3). rewrite to_size_id by lia. set (sized := if zlen old <=? t then resize old (Z.max (top h) t + 1) else old).
  assert (S1 : t < zlen sized <= Z.max (top h) t + 1 /\ zlen old <= zlen sized). { unfold sized. destruct (Z.leb_spec (zlen old) t); [rewrite resize_len by lia; lia|lia]. }
  assert (S2 : forall u, 0 <= u -> at_list sized u = at_list old u). { intros u Hu. unfold sized. destruct (zlen old <=? t); auto. apply resize_at; auto. lia. }
  rewrite zset_Ok by lia. cbn [bind]. eexists. split; [reflexivity|]. split; [|split; reflexivity].
  assert (HA : forall u, 0 <= u -> at_list (lset sized (Z.to_nat t) (what e)) u = if Z.eq_dec u t then what e else at_list old u).
  { intros u Hu. rewrite <- S2 by auto. unfold at_list. rewrite lset_at by (unfold zlen in S1; lia). destruct (Nat.eq_dec (Z.to_nat u) (Z.to_nat t)), (Z.eq_dec u t); auto; lia. }
  assert (HL : zlen (lset sized (Z.to_nat t) (what e)) = zlen sized) by (unfold zlen; rewrite lset_len; auto).
  constructor; cbn [p_map p_max p_timed p_cycle].
  - apply assign_sorted; auto. apply S.
  - auto.
  - rewrite HT, (so_timed _ _ _ S). destruct (Z.ltb_spec 0 (top h)), (Z.ltb_spec 0 t), (Z.ltb_spec 0 (Z.max (top h) t)); auto; lia.
  - apply S.
  - intros k' Hk'. rewrite lookup_assign by (auto; apply S). destruct (place_dec k k') as [s|s]; [discriminate|]. intros E e' He' s'. apply in_app_or in He' as [He'|[<-|[]]]; [|contradiction].
    apply (so_none _ _ _ S k' Hk' E e' He' s').
  - intros k' l v Hk'. rewrite lookup_assign by (auto; apply S). destruct (place_dec k k') as [s|s].
    + intros E. injection E as <- <-. split.
      { destruct (lookup (p_map f) k) as [[l v]|] eqn:E; [|exists e; split; auto; apply in_or_app; right; left; auto]. apply (so_some _ _ _ S) in E as ((e' & He' & El) & _); auto. exists e'. split; auto. apply in_or_app; auto. }
      split; [rewrite HL, HT; lia|]. split.
      * intros u Hu. rewrite HA by auto. destruct (Z.eq_dec u t) as [->|n]; [apply latest_snoc; left; split; auto; split; auto|]. apply latest_other_time; [fold t; auto|]. apply (latest_same _ _ k); auto.
      * intros e' He' s'. rewrite HL. apply in_app_or in He' as [He'|[<-|[]]]; [|fold t; lia]. assert (at_ e' < zlen old) by (apply O3; auto; eapply same_trans; [exact s'|apply same_sym; exact s]). lia.
    + intros E. apply (so_some _ _ _ S) in E as ((e' & He' & El) & L1 & L2 & L3); auto. split; [exists e'; split; auto; apply in_or_app; auto|]. split; [lia|]. split.
      * intros u Hu. apply latest_snoc. right. split; auto. intros [_ s']. contradiction.
      * intros e'' He'' s'. apply in_app_or in He'' as [He''|[<-|[]]]; auto. contradiction.
Qed.
Lemma set_all_ok h : forall cycle, good_history h -> exists f, set_all h (new_pfile cycle) = Ok f /\ state_of h cycle f /\ p_tree f = Nil /\ p_locs f = [].
Proof.
  unfold set_all. induction h as [|e h IH] using rev_ind; intros cycle HG; [exists (new_pfile cycle); split; [reflexivity|split; [apply state_new|split; reflexivity]]|].
  destruct (good_app _ _ HG) as (Hh & _). destruct (IH cycle Hh) as (f & E & S & T1 & T2). rewrite foldM_app, E. cbn [bind foldM]. destruct (set_ok h cycle f e S HG) as (g & Eg & Sg & G1 & G2). rewrite Eg. cbn [bind]. exists g. rewrite G1, G2. auto.
Qed.
Lemma top_zero h : good_history h -> (top h = 0 <-> forall e, In e h -> at_ e = 0).
Proof. intros H. destruct (top_last h (good_times h H)) as (A & B & C). split; intros E. - intros e He. specialize (B e He). pose proof (good_times h H e He). lia. - destruct C as [C|(e & He & C)]; auto. rewrite <- C. auto. Qed.
Lemma use_time_ok h cycle f t : state_of h cycle f -> good_history h -> (t < 0 -> use_time f t = Abort) /\
  (0 <= t -> exists u, 0 <= u /\ time_used h cycle t u /\ use_time f t = if top h <? u then Abort else Ok u).
Proof.
  intros S HG. pose proof (top_nonneg h HG) as H0. unfold use_time. split; [intros H; replace (t <? 0) with true by lia; reflexivity|]. intros Ht. replace (t <? 0) with false by lia.
  rewrite (so_timed _ _ _ S), (so_max _ _ _ S), (so_cycle _ _ _ S). destruct (Z.ltb_spec 0 (top h)) as [L|L].
  - assert (X : exists e, In e h /\ at_ e <> 0). { destruct (top_last h (good_times h HG)) as (_ & _ & [C|(e & He & C)]); [lia|]. exists e. split; auto. lia. }
    destruct cycle; cbn [andb].
    + exists (if top h + 1 <=? t then Z.rem t (top h + 1) else t). split; [destruct (_ <=? _); auto; apply Z.rem_nonneg; lia|]. split; [|reflexivity]. right. split; auto. split; [discriminate|]. intros _. exists (top h). split; [apply top_last, good_times; auto|].
      destruct (Z.leb_spec (top h + 1) t); [|split; [lia|exists 0; lia]]. rewrite Z.rem_mod_nonneg by lia. pose proof (Z.mod_pos_bound t (top h + 1) ltac:(lia)). split; [lia|]. exists (t / (top h + 1)). pose proof (Z.div_mod t (top h + 1)). lia.
    + exists t. split; auto. split; [|reflexivity]. right. split; auto. split; auto. discriminate.
  - exists 0. split; [lia|]. assert (E : top h = 0) by lia. split; [left; split; [apply top_zero; auto|auto]|]. rewrite E. reflexivity.
Qed.
Lemma time_used_fun h cycle t u u' : good_history h -> time_used h cycle t u -> time_used h cycle t u' -> u = u'.
Proof.
  intros HG [[A ->]|(A & B & C)] [[A' ->]|(A' & B' & C')]; auto; try (destruct A as (e & He & Ne); elim Ne; auto; fail); try (destruct A' as (e & He & Ne); elim Ne; auto; fail).
  destruct cycle; [|rewrite B, B'; auto]. destruct (C eq_refl) as (n & Ln & Bn & m & E), (C' eq_refl) as (n' & Ln' & Bn' & m' & E'). rewrite (last_fun _ _ _ Ln' Ln) in *. rewrite (Z.mod_unique t (n + 1) m u) by lia. rewrite (Z.mod_unique t (n + 1) m' u') by lia. reflexivity.
Qed.

Lemma recompute_state srt h cycle f g : state_of h cycle f -> recompute_tree srt f = Ok g -> state_of h cycle g.
Proof.
  intros [S1 S2 S3 S4 S5 S6]. unfold recompute_tree. destruct (location_dependent f) as [b| | |]; cbn [bind]; try discriminate. destruct b; [|intros H; injection H as <-; constructor; auto].
  destruct (build_tree _ _ _) as [tr| | |]; cbn [bind]; try discriminate. intros H. injection H as <-. constructor; auto.
Qed.
Lemma file_state srt cycle h f : good_history h -> file_of srt cycle h f -> state_of h cycle f.
Proof. intros HG (f0 & E & H). destruct (set_all_ok h cycle HG) as (f1 & E1 & S & _). rewrite E1 in E. injection E as ->. destruct H as [->|H]; auto. eapply recompute_state; eauto. Qed.
Lemma c182 srt gc cycle h : good_history h -> (exists f, set_all h (new_pfile cycle) = Ok f) /\
  forall f t k n, file_of srt cycle h f -> placed k -> last_time h n -> (t < 0 -> get_parameters gc f t k false = Abort) /\
    (forall u, 0 <= t -> time_used h cycle t u -> (n < u -> get_parameters gc f t k false = Abort) /\ (u <= n -> exists p, latest h u k p /\ get_parameters gc f t k false = Ok p)).
Proof.
  intros HG. split; [destruct (set_all_ok h cycle HG) as (f & E & _); eauto|]. intros f t k n HF Hk Hn. pose proof (file_state srt cycle h f HG HF) as S. rewrite (last_fun _ _ _ Hn (top_last h (good_times h HG))). destruct (use_time_ok h cycle f t S HG) as [U1 U2].
  unfold get_parameters. split; [intros H; rewrite U1 by auto; reflexivity|]. intros u Ht Hu. destruct (U2 Ht) as (u' & Hu0 & Hu' & ->). rewrite <- (time_used_fun _ _ _ _ _ HG Hu Hu') in *. clear Hu' u'.
  destruct (Z.ltb_spec (top h) u) as [L|L]; [split; [reflexivity|lia]|]. split; [lia|]. intros _. cbn [bind].
  rewrite find_ok by auto. cbn [bind]. destruct (lookup (p_map f) k) as [[l v]|] eqn:F.
  - destruct (so_some _ _ _ S k l v Hk F) as (_ & _ & Q & _). exists (at_list v u). split; [apply Q; auto|]. rewrite at_list_get by auto. destruct (Z.eqb_spec (zlen (p_map f)) 0) as [Z0|]; auto. destruct (p_map f); [discriminate|]. rewrite zlen_cons in Z0. pose proof (zlen_nonneg e). lia.
  - exists []. split; [apply latest_none, (so_none _ _ _ S k Hk F)|]. destruct (_ =? 0); reflexivity.
Qed.
Lemma c182_negative p t k f : t < 0 -> set_parameters p t k f = UB.
Proof.
  intros H. unfold set_parameters. unfold find. destruct (bad_key k); [reflexivity|]. cbn [bind]. unfold zset. replace (t <? 0) with true by lia. reflexivity.
Qed.

(** ** C183: one place *)
Lemma map_nonempty h cycle f : state_of h cycle f -> good_history h -> h <> [] -> p_map f <> [].
Proof. intros S HG Hn E. destruct h as [|e h]; [congruence|]. destruct (HG e (or_introl eq_refl)) as [_ Hp]. apply (so_none _ _ _ S (where_ e) Hp) with (e := e); [rewrite E; reflexivity|left; auto|apply same_refl]. Qed.
Lemma entry_history h cycle f l v : state_of h cycle f -> In (l, v) (p_map f) -> placed l /\ (exists e, In e h /\ where_ e = l) /\ 0 < zlen v <= top h + 1 /\ (forall t, 0 <= t -> latest h t l (at_list v t)) /\ (forall e, In e h -> same_place (where_ e) l -> at_ e < zlen v).
Proof.
  intros S H. assert (Hp : placed l). { destruct (so_sorted _ _ _ S) as [_ HP]. rewrite Forall_forall in HP. apply HP. apply (in_map fst _ _ H). }
  split; auto. apply (so_some _ _ _ S l l v); auto. apply lookup_entry; auto. apply S.
Qed.
Lemma history_entry h cycle f e : state_of h cycle f -> good_history h -> In e h -> exists l v, In (l, v) (p_map f) /\ same_place l (where_ e) /\ lookup (p_map f) (where_ e) = Some (l, v).
Proof.
  intros S HG He. destruct (HG e He) as [_ Hp]. destruct (lookup (p_map f) (where_ e)) as [[l v]|] eqn:E; [|exfalso; apply (so_none _ _ _ S _ Hp E e He), same_refl].
  apply lookup_In in E as [H1 H2]. exists l, v. split; auto. split; auto. apply same_key_spec; auto. apply (entry_history h cycle f l v S H1).
Qed.
Lemma single h cycle f l : state_of h cycle f -> good_history h -> one_place h l -> exists l' v, p_map f = [(l', v)] /\ same_place l' l.
Proof.
  intros S HG [Hn H1]. pose proof (map_nonempty h cycle f S HG Hn) as Hm. destruct (p_map f) as [|[l' v] m] eqn:E; [congruence|]. exists l', v.
  assert (P : forall a w, In (a, w) (p_map f) -> same_place a l). { intros a w Ha. destruct (entry_history h cycle f a w S Ha) as (_ & (e & He & <-) & _). apply H1; auto. }
  split; [|apply (P l' v); rewrite E; left; auto]. destruct m as [|[b w] m]; auto. exfalso. destruct (so_sorted _ _ _ S) as [HS HP]. rewrite E in HS, HP. cbn [keys map fst] in HS, HP.
  inversion_clear HS as [|? ? _ HF]. inversion_clear HF as [|? ? Hlt _]. inversion_clear HP as [|? ? Q1 HP']. inversion_clear HP' as [|? ? Q2 _].
  assert (s : same_place l' b). { apply (same_trans _ l); [apply (P l' v); rewrite E; left; auto|apply same_sym, (P b w); rewrite E; right; left; auto]. }
  apply (lt_neither l' b) in s; auto. destruct s. congruence.
Qed.
Lemma several h cycle f : state_of h cycle f -> good_history h -> two_places h -> 1 < zlen (p_map f).
Proof.
  intros S HG (e & e' & He & He' & N). destruct (history_entry h cycle f e S HG He) as (l & v & Hl & s & _), (history_entry h cycle f e' S HG He') as (l' & v' & Hl' & s' & _).
  destruct (p_map f) as [|x [|y m]]; [contradiction| |rewrite !zlen_cons; pose proof (zlen_nonneg m); lia]. exfalso. destruct Hl as [->|[]], Hl' as [E|[]]. injection E as -> ->. apply N. eapply same_trans; [apply same_sym; exact s|exact s'].
Qed.
Lemma located_valid l : cvalid (l_lat l) && cvalid (l_lon l) = true <-> located l.
Proof.
  rewrite andb_true_iff. split.
  - intros [A B]. apply cvalid_true in A as (a & Ea & Na), B as (b & Eb & Nb). exists a, b. auto.
  - intros (a & b & -> & -> & Na & Nb). rewrite !cvalid_Fin; auto.
Qed.
Lemma not_located_valid l : ~ located l -> cvalid (l_lat l) && cvalid (l_lon l) = false.
Proof. intros H. apply not_true_is_false. rewrite located_valid. auto. Qed.
Lemma located_same a b : same_place a b -> located a -> located b.
Proof. intros [e1 e2] (x & y & E1 & E2 & H). exists x, y. rewrite <- e1, <- e2. auto. Qed.

(** a set that is the same everywhere *)
Lemma c183_one srt gc cycle h l f t u n k : good_history h -> file_of srt cycle h f -> one_place h l -> 0 <= t -> last_time h n -> time_used h cycle t u ->
  (u <= n -> exists p, latest h u l p /\ get_parameters gc f t k true = Ok p /\ (~ located l -> get_global f t = Ok p)) /\
  (n < u -> get_parameters gc f t k true = Abort /\ get_global f t = Abort).
Proof.
  intros HG Ef H1 Ht Hn Hu. pose proof (file_state srt cycle h f HG Ef) as S. destruct (single h cycle f l S HG H1) as (l' & v & Em & s).
  rewrite (last_fun _ _ _ Hn (top_last h (good_times h HG))). destruct (use_time_ok h cycle f t S HG) as [_ U2]. destruct (U2 Ht) as (u' & Hu0 & Hu' & Eu). rewrite <- (time_used_fun _ _ _ _ _ HG Hu Hu') in *. clear Hu' u'.
  unfold get_parameters, get_global. rewrite Eu. destruct (Z.ltb_spec (top h) u) as [L|L]; [split; [lia|auto]|]. split; [|lia]. intros _. cbn [bind].
  destruct (entry_history h cycle f l' v S) as (Hp & _ & _ & Q & _); [rewrite Em; left; auto|]. exists (at_list v u). split; [apply (latest_same _ _ l'); auto|].
  unfold nearest_location. rewrite Em. change (zlen [(l', v)]) with 1. cbn [Z.eqb Pos.eqb bind]. split.
  - rewrite find_ok by auto. rewrite <- Em, (lookup_entry (p_map f) l' v) by (try apply S; rewrite Em; left; auto). cbn [bind]. apply at_list_get; auto.
  - intros N. unfold location_dependent. rewrite Em. change (zlen [(l', v)]) with 1. cbn [Z.ltb Z.compare Pos.compare Pos.compare_cont].
    rewrite not_located_valid by (intros X; apply N; eapply located_same; eauto). cbn [bind]. apply at_list_get; auto.
Qed.
(** sets of different places *)
Lemma c183_dependent srt cycle h f t : good_history h -> file_of srt cycle h f -> two_places h \/ (exists l, one_place h l /\ located l) -> get_global f t = Abort.
Proof.
  intros HG Ef HD. pose proof (file_state srt cycle h f HG Ef) as S.
  assert (Hd : location_dependent f = Ok true).
  { unfold location_dependent. destruct HD as [H2|(l & H1 & HL)].
    - pose proof (several h cycle f S HG H2). replace (1 <? zlen (p_map f)) with true by lia. reflexivity.
    - destruct (single h cycle f l S HG H1) as (l' & v & -> & s). change (zlen [(l', v)]) with 1. cbn. f_equal. apply located_valid. eapply located_same; [apply same_sym; exact s|exact HL]. }
  unfold get_global. rewrite Hd. destruct (use_time_ok h cycle f t S HG) as [U1 U2]. destruct (Z.ltb_spec t 0); [rewrite U1 by auto; reflexivity|]. destruct (U2 ltac:(auto)) as (u & _ & _ & ->). destruct (top h <? u); reflexivity.
Qed.
(** a file without any set *)
Lemma c183_refuted : exists srt rint rnum f, read_text srt rint rnum false None = Ok (f, []) /\ (forall gc k near, get_parameters gc f 0 k near = Ok []) /\ get_global f 0 = UB /\ recompute_tree srt f = UB.
Proof. exists (fun _ l => l), (fun _ => None), (fun _ => None), (new_pfile false). repeat split. Qed.

(** ** C184: the nearest place that has a set *)
Lemma has_at_ok v u : 0 <= u -> has_at v u = Ok (negb (zlen (at_list v u) =? 0)).
Proof.
  intros H. pose proof (at_list_get v u H) as E. unfold at_time in E. unfold has_at. destruct (Z.ltb_spec u (zlen v)) as [L|L]; [rewrite E; reflexivity|]. injection E as <-. reflexivity.
Qed.
Lemma zlen_nil {A} (l : list A) : zlen l = 0 <-> l = [].
Proof. destruct l; [split; auto|]. rewrite zlen_cons. pose proof (zlen_nonneg l). split; [lia|discriminate]. Qed.
Lemma straight_nonneg D lat lon plat plon : zero_at_itself D -> straight D -> (0 <= D lat lon plat plon)%Qc.
Proof. intros HZ [HS _]. rewrite <- (HZ lat lon). apply HS. unfold in_between. destruct (Qclt_le_dec plon lon); [right|left]; split; auto; try apply Qcle_refl; apply Qclt_le_weak; auto. Qed.
Lemma nonneg_given d : (0 <= d)%Qc -> cvalid (Fin d) = true.
Proof. intros H. apply cvalid_Fin. intros ->. unfold missing_number in H. rewrite <- qz_0 in H. apply (proj1 (qz_le 0 (-999))) in H. lia. Qed.
Definition coordinate (v : val) : Qc := match v with Fin q => q | _ => 0%Qc end.
Lemma sited_fun l a b c d : sited l a b -> sited l c d -> a = c /\ b = d.
Proof. intros (E1 & E2 & _) (F1 & F2 & _). rewrite E1 in F1. rewrite E2 in F2. split; congruence. Qed.
Lemma sited_placed l a b : sited l a b -> placed l.
Proof. intros (E1 & E2 & _). unfold placed, number. rewrite E1, E2. split; discriminate. Qed.
Lemma sited_same l l' a b : same_place l l' -> sited l a b -> sited l' a b.
Proof. intros [e1 e2] (E1 & E2 & H). split; [congruence|]. split; [congruence|auto]. Qed.
Lemma rect_column (ks : list location) (c : location -> val) : rect (zlen ks) 1 (map (fun l => [c l]) ks).
Proof. split; [unfold zlen; rewrite map_length; reflexivity|]. intros r Hr. apply in_map_iff in Hr as (l & <- & _). reflexivity. Qed.
Lemma get_column (ks : list location) (c : location -> val) i j v : get2 (map (fun l => [c l]) ks) i j = Ok v <-> j = 0 /\ exists l, znth ks i = Ok l /\ v = c l.
Proof.
  unfold get2. rewrite znth_map. destruct (znth ks i) as [l| | |] eqn:E; cbn [bind]; try (split; [discriminate|intros (_ & l & F & _); discriminate]). split.
  - intros H. pose proof (znth_range _ _ _ H) as R. change (zlen [c l]) with 1 in R. replace j with 0 in * by lia. injection H as <-. split; auto. exists l. auto.
  - intros (-> & l' & E' & ->). injection E' as ->. reflexivity.
Qed.
Lemma point_column ks i j la lo : (forall l, In l ks -> exists a b, sited l a b) -> (point (map (fun l => [l_lat l]) ks) (map (fun l => [l_lon l]) ks) i j la lo <-> j = 0 /\ exists l, znth ks i = Ok l /\ sited l la lo).
Proof.
  intros HA. unfold point. rewrite !get_column. split.
  - intros ((-> & l & E & Ea) & (_ & l' & E' & Eb) & _). rewrite E in E'. injection E' as <-. split; auto. exists l. split; auto. destruct (HA l (znth_In _ _ _ E)) as (a & b & S). pose proof S as (F1 & F2 & F3). rewrite F1 in Ea. rewrite F2 in Eb. injection Ea as ->. injection Eb as ->. exact S.
  - intros (-> & l & E & (F1 & F2 & (_ & n1 & n2))). split; [|split; [|auto]]; split; auto; exists l; auto.
Qed.

Section Nearest.
Variables (D : Qc -> Qc -> Qc -> Qc -> Qc) (u : Z) (k : location) (lat lon : Qc).
Hypotheses (HZ : zero_at_itself D) (HSt : straight D) (Hu : 0 <= u) (Hk : sited k lat lon).
Let dist (l : location) : Qc := D lat lon (coordinate (l_lat l)) (coordinate (l_lon l)).
Definition available (e : location * list vec) : Prop := at_list (snd e) u <> [].
Definition scan (m : entries) (st : val * option location) : Prop :=
  (st = (CMV, None) /\ forall e, In e m -> ~ available e) \/
  (exists e, In e m /\ available e /\ st = (Fin (dist (fst e)), Some (fst e)) /\ forall e', In e' m -> available e' -> (dist (fst e) <= dist (fst e'))%Qc).
Lemma scan_ok m : (forall e, In e m -> exists a b, sited (fst e) a b) ->
  exists st, foldM (fun (st : val * option location) (e : location * list vec) => let '(minDist, best) := st in
              dist <- loc_distance (lift4 D) k (fst e) ;;
              if negb (cvalid minDist) || (cvalid dist && vltb dist minDist) then
                has <- has_at (snd e) u ;; Ok (if has then (dist, Some (fst e)) else st)
              else Ok st) (CMV, None) m = Ok st /\ scan m st.
Proof.
  induction m as [|e m IH] using rev_ind; intros HA; [exists (CMV, None); split; [reflexivity|left; split; auto; intros e []]|].
  destruct IH as (st & E & HS); [intros x Hx; apply HA, in_or_app; auto|]. rewrite foldM_app, E. cbn [bind foldM]. destruct st as [minDist best].
  destruct (HA e) as (a & b & (Ea & Eb & He)); [apply in_or_app; right; left; auto|]. destruct Hk as (K1 & K2 & K3).
  assert (Ed : loc_distance (lift4 D) k (fst e) = Ok (Fin (dist (fst e)))). { unfold loc_distance, dist. rewrite K1, K2, Ea, Eb. cbn [coordinate]. apply distance_value; auto. }
  rewrite Ed. cbn [bind]. assert (Hd : forall l, (0 <= dist l)%Qc) by (intros; apply straight_nonneg; auto). rewrite (nonneg_given _ (Hd (fst e))). cbn [andb]. rewrite has_at_ok by auto. cbn [bind].
  assert (AV : negb (zlen (at_list (snd e) u) =? 0) = true <-> available e). { unfold available. rewrite negb_true_iff, Z.eqb_neq, zlen_nil. reflexivity. }
  destruct HS as [[Es N]|(e0 & H0 & A0 & Es & M)]; injection Es as -> ->.
  - cbn [cvalid CMV negb orb]. change (cvalid CMV) with false. cbn [negb orb bind]. destruct (negb (zlen (at_list (snd e) u) =? 0)) eqn:A; eexists; (split; [reflexivity|]).
    + right. exists e. split; [apply in_or_app; right; left; auto|]. split; [apply AV; auto|]. split; auto. intros e' He' A'. apply in_app_or in He' as [He'|[<-|[]]]; [elim (N e' He' A')|apply Qcle_refl].
    + left. split; auto. intros e' He' A'. apply in_app_or in He' as [He'|[<-|[]]]; [elim (N e' He' A')|]. apply AV in A'. discriminate.
  - rewrite (nonneg_given _ (Hd (fst e0))). cbn [negb orb]. change (vltb (Fin ?x) (Fin ?y)) with (qltb x y). destruct (qltb_spec (dist (fst e)) (dist (fst e0))) as [L|L].
    + cbn [bind]. destruct (negb (zlen (at_list (snd e) u) =? 0)) eqn:A; eexists; (split; [reflexivity|]); right.
      * exists e. split; [apply in_or_app; right; left; auto|]. split; [apply AV; auto|]. split; auto. intros e' He' A'. apply in_app_or in He' as [He'|[<-|[]]]; [|apply Qcle_refl]. apply Qclt_le_weak. eapply Qclt_le_trans; [exact L|apply M; auto].
      * exists e0. split; [apply in_or_app; auto|]. split; auto. split; auto. intros e' He' A'. apply in_app_or in He' as [He'|[<-|[]]]; auto. apply AV in A'. discriminate.
    + eexists. split; [reflexivity|]. right. exists e0. split; [apply in_or_app; auto|]. split; auto. split; auto. intros e' He' A'. apply in_app_or in He' as [He'|[<-|[]]]; auto. apply Qcnot_lt_le; auto.
Qed.
End Nearest.
Lemma nonempty_entry h cycle f u l p : state_of h cycle f -> good_history h -> 0 <= u -> latest h u l p -> p <> [] -> exists l' v, In (l', v) (p_map f) /\ same_place l' l /\ at_list v u = p.
Proof.
  intros S HG Hu HL Hp. destruct HL as [(b & e & a & -> & [A1 A2] & W & N)|[-> _]]; [|congruence].
  destruct (history_entry _ cycle f e S HG) as (l' & v & Hl & s & _); [apply in_or_app; right; left; auto|]. exists l', v. split; auto. assert (s' : same_place l' l) by (eapply same_trans; eauto). split; auto.
  destruct (entry_history _ cycle f l' v S Hl) as (_ & _ & _ & Q & _). apply (latest_fun (b ++ e :: a) u l'); [apply Q; auto|]. apply (latest_same _ _ l); [apply same_sym; auto|]. left. exists b, e, a. repeat split; auto; try (destruct A2; auto).
Qed.
Lemma c184_state D srt cycle h f : zero_at_itself D -> straight D -> sorts_items srt -> good_history h -> all_sited h -> two_places h -> state_of h cycle f -> p_locs f = [] ->
  exists g, recompute_tree srt f = Ok g /\ forall t u n k lat lon, 0 <= t -> time_used h cycle t u -> last_time h n -> u <= n -> sited k lat lon ->
    (exists l p, nearest_with_set D h u lat lon l p /\ get_parameters (lift4 D) g t k true = Ok p /\ nearest_location (lift4 D) g u k = Ok (Some l) /\ exists e, In e h /\ where_ e = l) \/
    ((forall l p, latest h u l p -> p = []) /\ get_parameters (lift4 D) g t k true = Ok [] /\ nearest_location (lift4 D) g u k = Ok None).
Proof.
  intros HZ HSt HSrt HG HA H2 S T2.
  pose proof (several h cycle f S HG H2) as H1. set (ks := map fst (p_map f)).
  assert (HK : forall e, In e (p_map f) -> exists a b, sited (fst e) a b). { intros [l v] He. destruct (entry_history h cycle f l v S He) as (_ & (e & Hin & <-) & _). apply HA; auto. }
  assert (HK' : forall l, In l ks -> exists a b, sited l a b). { intros l Hl. apply in_map_iff in Hl as (e & <- & He). apply HK; auto. }
  assert (HN : zlen ks = zlen (p_map f)) by (unfold ks, zlen; rewrite map_length; auto).
  set (lats := map (fun l => [l_lat l]) ks). set (lons := map (fun l => [l_lon l]) ks).
  assert (GR : grid (zlen ks) 1 lats lons). { split; [lia|]. split; [lia|]. split; apply rect_column. }
  assert (OE : all_on_earth lats lons). { intros i j la lo Hp. apply point_column in Hp as (_ & l & _ & (_ & _ & ?)); auto. }
  assert (EX : exists i j la lo, point lats lons i j la lo). { destruct (znth_some ks 0) as [l Hl]; [lia|]. destruct (HK' l (znth_In _ _ _ Hl)) as (a & b & Hs). exists 0, 0, a, b. apply point_column; auto. split; auto. exists l. auto. }
  destruct (build_ok srt lats lons (zlen ks) 1 HSrt GR OE EX) as (tr & Etr & _).
  unfold recompute_tree, location_dependent. replace (1 <? zlen (p_map f)) with true by lia. cbn [bind]. fold ks. fold lats. fold lons. rewrite Etr, T2. cbn [bind app]. eexists. split; [reflexivity|].
  intros t u n k lat lon Ht Hu Hn Hun Hk. set (g := {| p_map := p_map f; p_timed := p_timed f; p_max := p_max f; p_cycle := p_cycle f; p_tree := tr; p_locs := ks |}).
  assert (Sg : state_of h cycle g). { destruct S; constructor; auto. }
  destruct (use_time_ok h cycle g t Sg HG) as [_ U2]. destruct (U2 Ht) as (u' & Hu0 & Hu' & Eu). rewrite <- (time_used_fun _ _ _ _ _ HG Hu Hu') in *. clear Hu' u'.
  rewrite (last_fun _ _ _ Hn (top_last h (good_times h HG))) in Hun. replace (top h <? u) with false in Eu by lia.
  set (dst := fun l => D lat lon (coordinate (l_lat l)) (coordinate (l_lon l))).
  assert (DS : forall l a b, sited l a b -> D lat lon a b = dst l). { intros l a b (E1 & E2 & _). unfold dst. rewrite E1, E2. reflexivity. }
  (* an entry that has a set and is closest among those gives the result *)
  assert (FIN : forall e, In e (p_map f) -> available u e -> (forall e', In e' (p_map f) -> available u e' -> (dst (fst e) <= dst (fst e'))%Qc) -> nearest_with_set D h u lat lon (fst e) (at_list (snd e) u)).
  { intros [l v] He Av M. destruct (entry_history h cycle f l v S He) as (_ & (x & Hx & Ex) & _ & Q & _). cbn [fst snd] in *. split; [exists x; split; auto; rewrite Ex; apply same_refl|]. split; [apply Q; auto|]. split; [exact Av|].
    destruct (HK _ He) as (a & b & Hs). exists a, b. split; auto. intros l' a' b' p' Hs' HL' Hp'. destruct (nonempty_entry h cycle f u l' p' S HG Hu0 HL' Hp') as (l2 & v2 & Hin & s & Ev).
    rewrite (DS l a b Hs), (DS l2 a' b'); [|apply (sited_same l'); auto; apply same_sym; auto]. apply (M (l2, v2)); auto. unfold available. cbn [snd]. rewrite Ev. exact Hp'. }
  assert (GET : forall e, In e (p_map f) -> find (p_map f) (fst e) = Ok (Some e)). { intros [l v] He. cbn [fst]. rewrite find_ok by (apply (entry_history h cycle f l v S He)). rewrite (lookup_entry _ l v) by (auto; apply S). reflexivity. }
  assert (RES : forall e, In e (p_map f) -> nearest_location (lift4 D) g u k = Ok (Some (fst e)) -> get_parameters (lift4 D) g t k true = Ok (at_list (snd e) u)).
  { intros e He En. unfold get_parameters. rewrite Eu. cbn [bind]. replace (zlen (p_map g) =? 0) with false by (cbn [p_map g]; lia). rewrite En. cbn [bind p_map g]. rewrite GET by auto. cbn [bind]. destruct e. apply at_list_get; auto. }
  assert (AV : forall e, negb (zlen (at_list (snd e) u) =? 0) = true <-> available u e). { intros e. unfold available. rewrite negb_true_iff, Z.eqb_neq, zlen_nil. reflexivity. }
  assert (NL : (exists e, In e (p_map f) /\ nearest_location (lift4 D) g u k = Ok (Some (fst e)) /\ available u e /\ forall e', In e' (p_map f) -> available u e' -> (dst (fst e) <= dst (fst e'))%Qc) \/
               (nearest_location (lift4 D) g u k = Ok None /\ forall e, In e (p_map f) -> ~ available u e)).
  { unfold nearest_location. cbn [p_map g p_tree p_locs]. replace (zlen (p_map f) =? 1) with false by lia. rewrite find_ok by (eapply sited_placed; eauto). cbn [bind].
    assert (SC : forall e2 : location * list vec, ~ available u e2 -> let r := ('(minDist, best) <- foldM (fun (st : val * option location) (e : location * list vec) => let '(minDist, best) := st in
              dist <- loc_distance (lift4 D) k (fst e) ;;
              if negb (cvalid minDist) || (cvalid dist && vltb dist minDist) then
                has <- has_at (snd e) u ;; Ok (if has then (dist, Some (fst e)) else st)
              else Ok st) (CMV, None) (p_map f) ;; Ok (if cvalid minDist then best else None)) in
       (exists e, In e (p_map f) /\ r = Ok (Some (fst e)) /\ available u e /\ forall e', In e' (p_map f) -> available u e' -> (dst (fst e) <= dst (fst e'))%Qc) \/ (r = Ok None /\ forall e, In e (p_map f) -> ~ available u e)).
    { intros _ _. destruct (scan_ok D u k lat lon HZ HSt Hu0 Hk (p_map f) HK) as ([md best] & -> & SC). cbn [bind]. destruct SC as [[Es N]|(e & He & Av & Es & M)]; injection Es as -> ->.
      - right. split; auto.
      - left. exists e. split; auto. rewrite (nonneg_given _ (straight_nonneg D _ _ _ _ HZ HSt)). split; auto. }
    destruct (lookup (p_map f) k) as [[l v]|] eqn:EL.
    - cbn [bind]. destruct (lookup_In _ _ _ _ EL) as [Hin Hs]. apply same_key_spec in Hs; [|apply (entry_history h cycle f l v S Hin)|eapply sited_placed; eauto]. rewrite has_at_ok by auto. cbn [bind]. destruct (negb (zlen (at_list v u) =? 0)) eqn:A.
      + left. exists (l, v). split; auto. split; auto. split; [apply AV; auto|]. intros e' _ _. cbn [fst]. rewrite <- (DS l lat lon) by (apply (sited_same k); auto; apply same_sym; auto). rewrite HZ. apply straight_nonneg; auto.
      + apply (SC (l, v)). intros X. apply AV in X. cbn [snd] in X. congruence.
    - destruct (c163 D srt (zlen ks) 1 lats lons lat lon HZ HSt HSrt GR OE EX (proj2 (proj2 Hk))) as (tr' & i & j & Etr' & En & (la & lo & Hp & M)). rewrite Etr in Etr'. injection Etr' as <-.
      destruct Hk as (K1 & K2 & K3). rewrite K1, K2, En. cbn [bind]. apply point_column in Hp as (-> & l & El & Hs); auto. rewrite El. cbn [bind]. assert (Hl : In l ks) by (eapply znth_In; eauto). apply in_map_iff in Hl as ([l' v] & E' & Hin). cbn [fst] in E'. subst l'.
      pose proof (GET (l, v) Hin) as Gl. cbn [fst] in Gl. rewrite Gl. cbn [bind]. rewrite has_at_ok by auto. cbn [bind]. destruct (negb (zlen (at_list v u) =? 0)) eqn:A.
      + left. exists (l, v). split; auto. split; auto. split; [apply AV; auto|]. intros e' He' _. cbn [fst]. destruct (HK e' He') as (a & b & Hs'). rewrite <- (DS l la lo Hs), <- (DS (fst e') a b Hs'). assert (Hf : In (fst e') ks) by (apply in_map; auto). apply In_znth in Hf as (i' & Hi'). apply (M i' 0). apply point_column; auto. split; auto. exists (fst e'). auto.
      + apply (SC (l, v)). intros X. apply AV in X. cbn [snd] in X. congruence. }
  destruct NL as [(e & He & En & Av & M)|[En N]].
  - left. exists (fst e), (at_list (snd e) u). split; [apply FIN; auto|]. split; [apply RES; auto|]. split; [exact En|]. destruct e as [l v]. destruct (entry_history h cycle f l v S He) as (_ & X & _). exact X.
  - right. split.
    + intros l p HL. destruct p as [|x p]; auto. exfalso. destruct (nonempty_entry h cycle f u l (x :: p) S HG Hu0 HL) as (l' & v & Hin & _ & Ev); [discriminate|]. apply (N _ Hin). unfold available. cbn [snd]. rewrite Ev. discriminate.
    + unfold get_parameters. rewrite Eu. cbn [bind]. replace (zlen (p_map g) =? 0) with false by (cbn [p_map g]; lia). rewrite En. split; reflexivity.
Qed.
Lemma c184_strong D srt cycle h f : zero_at_itself D -> straight D -> sorts_items srt -> good_history h -> all_sited h -> two_places h -> set_all h (new_pfile cycle) = Ok f ->
  exists g, recompute_tree srt f = Ok g /\ forall t u n k lat lon, 0 <= t -> time_used h cycle t u -> last_time h n -> u <= n -> sited k lat lon ->
    (exists l p, nearest_with_set D h u lat lon l p /\ get_parameters (lift4 D) g t k true = Ok p /\ nearest_location (lift4 D) g u k = Ok (Some l) /\ exists e, In e h /\ where_ e = l) \/
    ((forall l p, latest h u l p -> p = []) /\ get_parameters (lift4 D) g t k true = Ok [] /\ nearest_location (lift4 D) g u k = Ok None).
Proof. intros H1 H2 HSrt HG HA H3 Ef. destruct (set_all_ok h cycle HG) as (f' & E & S & _ & T2). rewrite E in Ef. injection Ef as ->. exact (c184_state D srt cycle h f H1 H2 HSrt HG HA H3 S T2). Qed.
Lemma c184 D srt cycle h f : zero_at_itself D -> straight D -> sorts_items srt -> good_history h -> all_sited h -> two_places h -> set_all h (new_pfile cycle) = Ok f ->
  exists g, recompute_tree srt f = Ok g /\ forall t u n k lat lon, 0 <= t -> time_used h cycle t u -> last_time h n -> u <= n -> sited k lat lon ->
    (exists l p, nearest_with_set D h u lat lon l p /\ get_parameters (lift4 D) g t k true = Ok p) \/ ((forall l p, latest h u l p -> p = []) /\ get_parameters (lift4 D) g t k true = Ok []).
Proof.
  intros H1 H2 H3 H4 H5 H6 H7. destruct (c184_strong D srt cycle h f H1 H2 H3 H4 H5 H6 H7) as (g & E & G). exists g. split; [exact E|]. intros t u n k lat lon A B C F K. destruct (G t u n k lat lon A B C F K) as [(l & p & X & Y & _)|(X & Y & _)]; [left; eauto|right; auto].
Qed.
(** locations added after the tree was made, and the tree made again *)
Definition spot (a : Z) : location := {| l_lat := fz a; l_lon := fz 0; l_elev := fz 0 |}.
Lemma spot_sited a : -90 <= a <= 90 -> sited (spot a) (qz a) (qz 0).
Proof. intros Ha. split; [reflexivity|]. split; [reflexivity|]. split; [repeat split; apply qz_le; lia|]. split; intros E; apply (qz_inj _ (-999)) in E; lia. Qed.
Lemma c184_refuted : exists srt h1 h2 f0 f1 f2 g k lat lon, sorts_items srt /\ good_history (h1 ++ h2) /\ all_sited (h1 ++ h2) /\ two_places h1 /\ sited k lat lon /\
  set_all h1 (new_pfile false) = Ok f0 /\ recompute_tree srt f0 = Ok f1 /\ set_all h2 f1 = Ok f2 /\ recompute_tree srt f2 = Ok g /\
  exists p, get_parameters (lift4 l1) g 0 k true = Ok p /\ ~ exists l, nearest_with_set l1 (h1 ++ h2) 0 lat lon l p.
Proof.
  pose (h1 := [(0, spot 20, [fz 2]); (0, spot 30, [fz 3])]). pose (h2 := [(0, spot 10, [fz 1])]).
  destruct (set_all h1 (new_pfile false)) as [f0| | |] eqn:E0; try (vm_compute in E0; discriminate).
  destruct (recompute_tree sort_items f0) as [f1| | |] eqn:E1; try (vm_compute in E0; injection E0 as <-; vm_compute in E1; discriminate).
  destruct (set_all h2 f1) as [f2| | |] eqn:E2; try (vm_compute in E0; injection E0 as <-; vm_compute in E1; injection E1 as <-; vm_compute in E2; discriminate).
  destruct (recompute_tree sort_items f2) as [g| | |] eqn:E3; try (vm_compute in E0; injection E0 as <-; vm_compute in E1; injection E1 as <-; vm_compute in E2; injection E2 as <-; vm_compute in E3; discriminate).
  exists sort_items, h1, h2, f0, f1, f2, g, (spot 12), (qz 12), (qz 0). split; [exact sort_items_ok|].
  split; [intros e He; repeat (destruct He as [<-|He]; [split; [split; [discriminate|reflexivity]|split; discriminate]|]); contradiction|].
  split. { intros e He. repeat (destruct He as [<-|He]; [eexists _, _; apply spot_sited; lia|]). contradiction. }
  split. { exists (0, spot 20, [fz 2]), (0, spot 30, [fz 3]). split; [left; auto|]. split; [right; left; auto|]. intros [E _]. cbn in E. injection E as E. discriminate. }
  split; [apply spot_sited; lia|]. repeat (split; [assumption|]). exists [fz 2]. split.
  - vm_compute in E0; injection E0 as <-; vm_compute in E1; injection E1 as <-; vm_compute in E2; injection E2 as <-; vm_compute in E3; injection E3 as <-. vcalc.
  - intros (l & _ & HL & _ & la & lo & Hs & M). assert (s : same_place (spot 20) l).
    { destruct HL as [(b & e & a & E & [A1 A2] & W & _)|[W _]]; [|discriminate]. pose proof (in_or_app b (e :: a) e (or_intror (or_introl eq_refl))) as He. rewrite <- E in He. destruct He as [<-|[<-|[<-|[]]]]; auto; cbn in W; injection W as W; discriminate. }
    assert (L1 : latest (h1 ++ h2) 0 (spot 10) [fz 1]). { left. exists h1, (0, spot 10, [fz 1]), []. repeat split. intros ? []. }
    specialize (M (spot 10) (qz 10) (qz 0) [fz 1] (spot_sited 10 ltac:(lia)) L1 ltac:(discriminate)). apply (sited_same l (spot 20)) in Hs; [|apply same_sym; auto]. destruct (sited_fun _ _ _ _ _ Hs (spot_sited 20 ltac:(lia))) as [-> ->].
    revert M. apply Qclt_not_le. reflexivity.
Qed.

(** ** C185: counts *)
Definition num_step (st : Z + Z) (p : vec) : Z + Z :=
  match st with
  | inl r => inl r
  | inr size => if zlen p =? 0 then inl 0 else if negb (size =? -999) && negb (zlen p =? size) then inl (-999) else inr (zlen p)
  end.
Lemma num_inl L r : fold_left num_step L (inl r) = inl r.
Proof. induction L; cbn; auto. Qed.
Definition num_of (st : Z + Z) : Z := match st with inl r => r | inr r => r end.
Lemma num_from L : forall s, s = -999 \/ 0 < s -> let r := num_of (fold_left num_step L (inr s)) in
  (r = s /\ forall p, In p L -> zlen p = s) \/ (s = -999 /\ 0 < r /\ L <> [] /\ forall p, In p L -> zlen p = r) \/ (r = 0 /\ In [] L) \/
  (r = -999 /\ exists p q, In p L /\ zlen p <> 0 /\ zlen q <> 0 /\ zlen p <> zlen q /\ (In q L \/ zlen q = s)).
Proof.
  induction L as [|p L IH]; intros s Hs; cbn [fold_left num_step num_of]; [left; split; auto; intros p []|]. pose proof (zlen_nonneg p) as Hp. destruct (Z.eqb_spec (zlen p) 0) as [E0|E0].
  - rewrite num_inl. right. right. left. split; auto. left. apply zlen_nil in E0. auto.
  - destruct (Z.eqb_spec s (-999)) as [->|Es]; cbn [negb andb].
    + destruct (IH (zlen p) ltac:(lia)) as [[R A]|[(R & _)|[[R A]|(R & a & b & A1 & A2 & A3 & A4 & A5)]]]; cbv zeta in *.
      * right. left. rewrite R. split; auto. split; [lia|]. split; [discriminate|]. intros q [<-|Hq]; auto.
      * lia.
      * right. right. left. split; auto. right. auto.
      * right. right. right. split; auto. destruct A5 as [A5|A5]; [exists a, b; repeat split; auto; [right; auto|left; right; auto]|]. exists a, p. repeat split; auto; [right; auto|lia|left; left; auto].
    + destruct (Z.eqb_spec (zlen p) s) as [E|E]; cbn [negb].
      * rewrite E. destruct (IH s Hs) as [[R A]|[(R & _)|[[R A]|(R & a & b & A1 & A2 & A3 & A4 & A5)]]]; cbv zeta in *.
        -- left. split; auto. intros q [<-|Hq]; auto.
        -- lia.
        -- right. right. left. split; auto. right. auto.
        -- right. right. right. split; auto. exists a, b. repeat split; auto; [right; auto|]. destruct A5; [left; right; auto|right; auto].
      * rewrite num_inl. right. right. right. split; auto. exists p. destruct Hs as [Hs|Hs]; [congruence|].
        exists (repeat NaN (Z.to_nat s)). assert (zlen (repeat NaN (Z.to_nat s)) = s) by (unfold zlen; rewrite repeat_length; lia). repeat split; auto; try lia; try (left; auto; fail).
Qed.
Lemma slots h cycle f p : state_of h cycle f -> In p (concat (map snd (p_map f))) <-> exists l v t, In (l, v) (p_map f) /\ 0 <= t < zlen v /\ p = at_list v t.
Proof.
  intros S. rewrite in_concat. split.
  - intros (v & Hv & Hp). apply in_map_iff in Hv as ([l v'] & E & Hin). cbn in E. subst v'. apply (In_nth _ _ []) in Hp as (n & Hn & En). exists l, v, (Z.of_nat n). split; auto. split; [unfold zlen; lia|]. unfold at_list. rewrite Nat2Z.id. auto.
  - intros (l & v & t & Hin & Ht & ->). exists v. split; [apply in_map_iff; exists (l, v); auto|]. unfold at_list. apply nth_In. unfold zlen in Ht. lia.
Qed.
Lemma c185_count srt cycle h f n : good_history h -> h <> [] -> last_time h n -> file_of srt cycle h f -> let r := num_parameters f in
  (0 < r /\ forall t k p, 0 <= t -> latest h t k p -> p = [] \/ zlen p = r) \/
  (r = 0 /\ exists e t, In e h /\ 0 <= t <= n /\ latest h t (where_ e) []) \/
  (r = -999 /\ exists t k p t' k' p', latest h t k p /\ latest h t' k' p' /\ p <> [] /\ p' <> [] /\ zlen p <> zlen p').
Proof.
  intros HG Hne Hn HF. pose proof (file_state srt cycle h f HG HF) as S. rewrite (last_fun _ _ _ Hn (top_last h (good_times h HG))). clear Hn.
  assert (SL : forall p, In p (concat (map snd (p_map f))) -> exists e t, In e h /\ 0 <= t <= top h /\ latest h t (where_ e) p).
  { intros p Hp. apply (slots h cycle f p S) in Hp as (l & v & t & Hin & Ht & ->). destruct (entry_history h cycle f l v S Hin) as (_ & (e & He & El) & L1 & Q & _). exists e, t. split; auto. split; [lia|]. rewrite El. apply Q. lia. }
  assert (SR : forall t k p, 0 <= t -> latest h t k p -> p <> [] -> In p (concat (map snd (p_map f)))).
  { intros t k p Ht HL Hp. destruct (nonempty_entry h cycle f t k p S HG Ht HL Hp) as (l & v & Hin & _ & <-). apply (slots h cycle f _ S). exists l, v, t. split; auto. split; auto. split; auto. destruct (Z.ltb_spec t (zlen v)); auto. exfalso. apply Hp. unfold at_list. apply nth_overflow. unfold zlen in *. lia. }
  unfold num_parameters. change (fun (st : Z + Z) (p : vec) => _) with num_step. change (match ?x with inl a => a | inr b => b end) with (num_of x). cbv zeta.
  destruct (num_from (concat (map snd (p_map f))) (-999) (or_introl eq_refl)) as [[R A]|[(_ & R & _ & A)|[[R A]|(R & a & b & A1 & A2 & A3 & A4 & A5)]]]; cbv zeta in *.
  - exfalso. pose proof (map_nonempty h cycle f S HG Hne) as Hm. destruct (p_map f) as [|[l v] m] eqn:E; [congruence|]. destruct (entry_history h cycle f l v S) as (_ & _ & L1 & _); [rewrite E; left; auto|].
    destruct v as [|p v]; [change (zlen (@nil vec)) with 0 in L1; lia|]. specialize (A p (or_introl eq_refl)). pose proof (zlen_nonneg p). lia.
  - left. split; auto. intros t k p Ht HL. destruct p as [|x p]; [auto|]. right. apply A. apply (SR t k); auto. discriminate.
  - right. left. split; [exact R|apply SL; auto].
  - right. right. split; [exact R|]. destruct A5 as [A5|A5]; [|pose proof (zlen_nonneg b); lia]. destruct (SL a A1) as (e & t & _ & _ & HL), (SL b A5) as (e' & t' & _ & _ & HL'). exists t, (where_ e), a, t', (where_ e'), b. repeat split; auto; intros ->; auto.
Qed.
Lemma fold_max l : forall n, 0 <= n -> (forall x, In x l -> x <= n) -> (n = 0 \/ In n l) -> fold_right Z.max 0 l = n.
Proof.
  induction l as [|x l IH]; intros n H0 Hb Hi; cbn; [destruct Hi as [->|[]]; auto|].
  assert (G : forall m, (forall y, In y l -> y <= m) -> 0 <= m -> fold_right Z.max 0 l <= m). { clear. induction l as [|y l IH]; intros m H Hm; cbn; [auto|]. specialize (IH m (fun z Hz => H z (or_intror Hz)) Hm). specialize (H y (or_introl eq_refl)). lia. }
  assert (G' : forall y, In y l -> y <= fold_right Z.max 0 l). { clear. induction l as [|y l IH]; intros z; cbn; [intros []|]. intros [->|Hz]; [lia|]. specialize (IH z Hz). lia. }
  specialize (G n (fun y Hy => Hb y (or_intror Hy)) H0). pose proof (Hb x (or_introl eq_refl)). destruct Hi as [->|[->|Hi]]; [|lia|specialize (G' n Hi); lia].
  assert (0 <= fold_right Z.max 0 l) by (clear; induction l; cbn; lia). lia.
Qed.
Lemma c185_times srt cycle h f n : good_history h -> h <> [] -> last_time h n -> file_of srt cycle h f -> get_times f = zrange 0 (n + 1).
Proof.
  intros HG Hne Hn HF. pose proof (file_state srt cycle h f HG HF) as S. rewrite (last_fun _ _ _ Hn (top_last h (good_times h HG))). clear Hn. unfold get_times. f_equal. pose proof (top_nonneg h HG). apply fold_max; [lia| |].
  - intros x Hx. apply in_map_iff in Hx as ([l v] & <- & Hin). destruct (entry_history h cycle f l v S Hin) as (_ & _ & L1 & _). cbn. lia.
  - right. assert (X : exists e, In e h /\ at_ e = top h). { destruct (top_last h (good_times h HG)) as (_ & B & [C|C]); auto. destruct h as [|e h]; [congruence|]. exists e. split; [left; auto|]. specialize (B e (or_introl eq_refl)). pose proof (good_times _ HG e (or_introl eq_refl)). lia. }
    destruct X as (e & He & Ee). destruct (history_entry h cycle f e S HG He) as (l & v & Hin & s & _). apply in_map_iff. exists (l, v). split; auto. destruct (entry_history h cycle f l v S Hin) as (_ & _ & L1 & _ & L3). specialize (L3 e He (same_sym _ _ s)). cbn. lia.
Qed.
Lemma c185_consistent srt cycle h f n m : good_history h -> h <> [] -> last_time h n -> file_of srt cycle h f -> 0 < m ->
  (forall e t p, In e h -> 0 <= t <= n -> latest h t (where_ e) p -> zlen p = m) -> num_parameters f = m.
Proof.
  intros HG Hne Hn HF Hm HA. destruct (c185_count srt cycle h f n HG Hne Hn HF) as [[R A]|[(R & e & t & He & Ht & HL)|(R & t & k & p & t' & k' & p' & HL & HL' & Np & Np' & D)]]; cbv zeta in *.
  - destruct h as [|e h]; [congruence|]. pose proof (file_state srt cycle _ f HG HF) as S. destruct (history_entry _ cycle f e S HG (or_introl eq_refl)) as (l & v & Hin & s & _). destruct (entry_history _ cycle f l v S Hin) as (_ & _ & _ & Q & _).
    assert (Hl : latest (e :: h) 0 (where_ e) (at_list v 0)) by (apply (latest_same _ _ l); auto; apply Q; lia). assert (E : zlen (at_list v 0) = m). { apply (HA e 0); auto; [left; auto|]. destruct Hn. lia. }
    destruct (A 0 (where_ e) _ ltac:(lia) Hl) as [E'|E']; [rewrite E' in E; change (zlen (@nil val)) with 0 in E; lia|]. congruence.
  - specialize (HA e t [] He Ht HL). change (zlen (@nil val)) with 0 in HA. lia.
  - assert (G : forall t k p, latest h t k p -> p <> [] -> zlen p = m). { intros t0 k0 p0 [(b & e & a & E & [A1 A2] & W & N)|[-> _]] Hp; [|congruence]. assert (He : In e h) by (rewrite E; apply in_or_app; right; left; auto). apply (HA e t0); auto; [destruct Hn as (_ & Hb & _); specialize (Hb e He); pose proof (good_times h HG e He); lia|].
      apply (latest_same _ _ k0); [apply same_sym; auto|]. left. exists b, e, a. repeat split; auto; try (destruct A2; auto). }
    elim D. rewrite (G t k p HL Np), (G t' k' p' HL' Np'). reflexivity.
Qed.
