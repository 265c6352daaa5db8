(** Proofs about the search for the nearest grid point. *)
From Coq Require Import Permutation Sorted Reals.
From Verif Require Import Base QcTac ListLib M_Stat S_Stat P_Stat M_COpt M_CUtil S_Search S_CUtil P_CUtil M_CCal S_CCal P_CCal M_CTree S_CTree RBase P_RBase.
Local Open Scope Z_scope.

Definition qlat (it : item) : Qc := match it_lat it with Fin q => q | _ => 0%Qc end.
Definition qlon (it : item) : Qc := match it_lon it with Fin q => q | _ => 0%Qc end.
Definition qcoord (xs : bool) (it : item) : Qc := if xs then qlon it else qlat it.
Definition earth_item (it : item) : Prop := it_lat it = Fin (qlat it) /\ it_lon it = Fin (qlon it) /\ on_earth (qlat it) (qlon it).
Fixpoint items (t : tree) : list item := match t with Nil => [] | Node it _ l r => it :: items l ++ items r end.
Fixpoint ordered (t : tree) : Prop :=
  match t with
  | Nil => True
  | Node it xs l r => Forall (fun p => (qcoord xs p <= qcoord xs it)%Qc) (items l) /\ Forall (fun p => (qcoord xs it <= qcoord xs p)%Qc) (items r) /\ (l = Nil -> r = Nil) /\ ordered l /\ ordered r
  end.
Lemma coord_q xs it : earth_item it -> coord xs it = Fin (qcoord xs it).
Proof. intros (A & B & _). destruct xs; cbn; auto. Qed.
Lemma vleb_abs q m : vleb (vabs (Fin q)) (fz m) = true <-> (- qz m <= q <= qz m)%Qc.
Proof.
  change (vabs (Fin q)) with (Fin (if qltb q 0 then - q else q)%Qc). unfold fz. rewrite vleb_Fin. destruct (qleb_spec (if qltb q 0 then - q else q)%Qc (qz m)) as [L|L].
  - split; [|reflexivity]. intros _. destruct (qltb_spec q 0); split; qlra.
  - split; [discriminate|]. intros H. exfalso. apply L. destruct H. destruct (qltb_spec q 0); qlra.
Qed.
Lemma distance_value D lat1 lon1 lat2 lon2 : zero_at_itself D -> on_earth lat1 lon1 -> on_earth lat2 lon2 ->
  get_distance (lift4 D) (Fin lat1) (Fin lon1) (Fin lat2) (Fin lon2) = Ok (Fin (D lat1 lon1 lat2 lon2)).
Proof.
  intros HZ (((A1 & A2) & A3 & A4) & na & nb) (((B1 & B2) & B3 & B4) & nc & nd). unfold get_distance. rewrite !cvalid_Fin by auto. cbn [negb orb].
  assert (E90 : (- qz 90 = qz (-90))%Qc) by (apply Qc_is_canon; reflexivity). assert (E360 : (- qz 360 = qz (-360))%Qc) by (apply Qc_is_canon; reflexivity).
  rewrite (proj2 (vleb_abs lat1 90)), (proj2 (vleb_abs lat2 90)), (proj2 (vleb_abs lon1 360)), (proj2 (vleb_abs lon2 360)) by (rewrite ?E90, ?E360; auto). cbn [andb negb veqb lift4].
  destruct (qeqb_spec lat1 lat2) as [->|]; cbn [andb]; [|reflexivity]. destruct (qeqb_spec lon1 lon2) as [->|]; [rewrite HZ; reflexivity|reflexivity].
Qed.

Section Search.
Variables (D : Qc -> Qc -> Qc -> Qc -> Qc) (lat lon : Qc).
Hypotheses (HZ : zero_at_itself D) (HS : straight D) (HQ : on_earth lat lon).
Let dq (it : item) : Qc := D lat lon (qlat it) (qlon it).
Let lq (it : item) (xs : bool) : Qc := if xs then D lat lon lat (qlon it) else D lat lon (qlat it) lon.
Definition seen (S T : item -> Prop) (old : val) (r : item * val) : Prop :=
  T (fst r) /\ ((snd r = old /\ forall p, S p -> vltb (Fin (dq p)) old = false) \/
    (snd r = Fin (dq (fst r)) /\ vltb (snd r) old = true /\ forall p, S p -> (dq (fst r) <= dq p)%Qc)).
Lemma vltb_F a b : vltb (Fin a) (Fin b) = true <-> (a < b)%Qc.
Proof. cbn. destruct (qltb_spec a b); [tauto|]. split; [discriminate|contradiction]. Qed.
Lemma vltb_F_false a b : vltb (Fin a) (Fin b) = false <-> (b <= a)%Qc.
Proof. cbn. destruct (qltb_spec a b) as [L|L]; split; try discriminate; try reflexivity. - intros. qlra. - intros _. apply Qcnot_lt_le. exact L. Qed.
Definition best (old : val) : Prop := old = PInf \/ exists q, old = Fin q.
Lemma seen_best S T old r : best old -> seen S T old r -> best (snd r).
Proof. intros H (_ & [[E _]|[E _]]); rewrite E; auto. right. eauto. Qed.
Lemma seen_best_le S T old r q : best old -> seen S T old r -> vltb (Fin q) (snd r) = true -> vltb (Fin q) old = true.
Proof.
  intros H (_ & [[E _]|[E [L _]]]) Hq; [rewrite E in Hq; auto|]. rewrite E in *. destruct H as [->|[o ->]]; [reflexivity|]. apply vltb_F in Hq, L. apply vltb_F. qlra.
Qed.
(** a further point *)
Lemma seen_point S (T : item -> Prop) old nl cb it : best old -> T it -> seen S T old (nl, cb) -> seen (fun p => S p \/ p = it) T old (if vltb (Fin (dq it)) cb then (it, Fin (dq it)) else (nl, cb)).
Proof.
  intros HB HT HI. pose proof HI as (H1 & H2). cbn [fst snd] in *. destruct (vltb (Fin (dq it)) cb) eqn:L.
  - split; [exact HT|]. right. cbn [fst snd]. split; [reflexivity|]. split; [apply (seen_best_le S T old (nl, cb)); auto|].
    intros p [Hp| ->]; [|apply Qcle_refl]. destruct H2 as [[E H]|(E & _ & H)].
    + subst cb. specialize (H p Hp). destruct HB as [->|[o ->]]; [discriminate|]. apply vltb_F in L. apply vltb_F_false in H. qlra.
    + subst cb. apply vltb_F in L. specialize (H p Hp). qlra.
  - split; [exact H1|]. cbn [fst snd]. destruct H2 as [[E H]|(E & Lo & H)].
    + left. split; [exact E|]. subst cb. intros p [Hp| ->]; auto.
    + right. split; [exact E|]. split; [exact Lo|]. intros p [Hp| ->]; auto. subst cb. apply vltb_F_false in L. exact L.
Qed.
(** points that need not be visited *)
Lemma seen_skip S T old nl cb (O : item -> Prop) : best old -> seen S T old (nl, cb) -> (forall p, O p -> vltb (Fin (dq p)) cb = false) -> seen (fun p => S p \/ O p) T old (nl, cb).
Proof.
  intros HB (H1 & H2) HO. split; [exact H1|]. cbn [fst snd] in *. destruct H2 as [[E H]|(E & Lo & H)].
  - left. split; [exact E|]. subst cb. intros p [Hp|Hp]; auto.
  - right. split; [exact E|]. split; [exact Lo|]. intros p [Hp|Hp]; auto. apply HO in Hp. subst cb. apply vltb_F_false in Hp. exact Hp.
Qed.
(** points that are visited *)
Lemma seen_refine S (T : item -> Prop) old nl cb O nl' cb' : best old -> seen S T old (nl, cb) -> seen O O cb (nl', cb') -> (forall p, O p -> T p) ->
  seen (fun p => S p \/ O p) T old (if vltb cb' cb then (nl', cb') else (nl, cb)).
Proof.
  intros HB HI HR HT. pose proof (seen_best _ _ _ _ HB HI) as HBc. cbn [snd] in HBc. destruct HR as (R1 & R2). cbn [fst snd] in *. destruct R2 as [[E H]|(E & Lo & H)].
  - subst cb'. assert (NL : vltb cb cb = false). { destruct HBc as [->|[q ->]]; [reflexivity|]. apply vltb_F_false. apply Qcle_refl. } rewrite NL. apply seen_skip; auto.
  - rewrite Lo. split; [apply HT; exact R1|]. right. cbn [fst snd]. split; [exact E|]. subst cb'. split; [apply (seen_best_le S T old (nl, cb)); auto|].
    intros p [Hp|Hp]; auto. destruct HI as (_ & [[E2 H2]|(E2 & L2 & H2)]); cbn [fst snd] in *.
    + subst cb. specialize (H2 p Hp). destruct HB as [->|[o ->]]; [discriminate|]. apply vltb_F in Lo. apply vltb_F_false in H2. qlra.
    + subst cb. apply vltb_F in Lo. specialize (H2 p Hp). qlra.
Qed.
Lemma line_bound (it : item) (xs : bool) (p : item) : in_between (if xs then lon else lat) (qcoord xs it) (qcoord xs p) -> (lq it xs <= dq p)%Qc.
Proof. intros H. destruct HS as [H1 H2]. unfold lq, dq. destruct xs; cbn in H; [apply H1|apply H2]; auto. Qed.

(** what visiting one node does *)
Definition visit (fuel : nat) (st : item * val) (node : tree * came) : res (item * val) :=
  let '(nearestLeaf, currBest) := st in
  match node with
  | (Nil, _) => UB
  | (Node it xsection l r, from) =>
      dist <- get_distance (lift4 D) (Fin lat) (Fin lon) (it_lat it) (it_lon it) ;;
      let '(nearestLeaf, currBest) := if vltb dist currBest then (it, dist) else (nearestLeaf, currBest) in
      line <- (if xsection then get_distance (lift4 D) (Fin lat) (Fin lon) (Fin lat) (it_lon it) else get_distance (lift4 D) (Fin lat) (Fin lon) (it_lat it) (Fin lon)) ;;
      if vltb line currBest then
        match (match from with FromLeft => r | _ => l end) with
        | Nil => Ok (nearestLeaf, currBest)
        | other =>
            '(nearLeaf, refinedBest) <- nearest (lift4 D) fuel other (Fin lon) (Fin lat) currBest ;;
            if vltb refinedBest currBest then Ok (nearLeaf, refinedBest) else Ok (nearestLeaf, currBest)
        end
      else Ok (nearestLeaf, currBest)
  end.
Definition finds (fuel : nat) (t : tree) : Prop := forall old, best old -> exists r, nearest (lift4 D) fuel t (Fin lon) (Fin lat) old = Ok r /\ seen (fun p => In p (items t)) (fun p => In p (items t)) old r.
Lemma line_value (it : item) (xs : bool) : earth_item it ->
  (if xs then get_distance (lift4 D) (Fin lat) (Fin lon) (Fin lat) (it_lon it) else get_distance (lift4 D) (Fin lat) (Fin lon) (it_lat it) (Fin lon)) = Ok (Fin (lq it xs)).
Proof.
  intros (EA & EB & HE). destruct HQ as ((Q1 & Q2) & Q3 & Q4). destruct HE as ((E1 & E2) & E3 & E4). destruct xs; rewrite ?EA, ?EB; rewrite distance_value; auto; try (split; [split|split]; auto); reflexivity.
Qed.
Lemma visit_ok fuel S T old st it (xs : bool) l r from : best old -> seen S T old st -> earth_item it -> T it ->
  let other := match from with FromLeft => r | _ => l end in
  (other <> Nil -> finds fuel other) -> (forall p, In p (items other) -> in_between (if xs then lon else lat) (qcoord xs it) (qcoord xs p)) -> (forall p, In p (items other) -> T p) ->
  exists st', visit fuel st (Node it xs l r, from) = Ok st' /\ seen (fun p => (S p \/ p = it) \/ In p (items other)) T old st'.
Proof.
  intros HB HI HE HT other HF HBt HTo. destruct st as [nl cb]. unfold visit. pose proof HE as (EA & EB & HE'). rewrite EA, EB, distance_value by auto. rewrite <- EA, <- EB. cbn [bind]. fold (dq it).
  pose proof (seen_point S T old nl cb it HB HT HI) as HP. destruct (if vltb (Fin (dq it)) cb then (it, Fin (dq it)) else (nl, cb)) as [nl1 cb1].
  rewrite line_value by auto. cbn [bind]. pose proof (seen_best _ _ _ _ HB HP) as HB1. cbn [snd] in HB1.
  destruct (vltb (Fin (lq it xs)) cb1) eqn:L.
  - fold other. destruct other as [|ot ox ol orr] eqn:EO.
    + eexists. split; [reflexivity|]. apply seen_skip; auto. intros p [].
    + rewrite <- EO in *. destruct (HF ltac:(rewrite EO; discriminate) cb1 HB1) as ([nl2 cb2] & -> & HR). cbn [bind].
      pose proof (seen_refine _ _ _ _ _ _ _ _ HB HP HR HTo) as HH. destruct (vltb cb2 cb1); eexists; (split; [reflexivity|exact HH]).
  - eexists. split; [reflexivity|]. apply seen_skip; auto. intros p Hp. fold other in Hp. pose proof (line_bound it xs p (HBt p Hp)) as LB.
    destruct HB1 as [->|[c ->]]; [discriminate|]. apply vltb_F_false in L. apply vltb_F_false. qlra.
Qed.
Lemma seen_iff (S S1 T T1 : item -> Prop) old r : seen S T old r -> (forall p, S1 p -> S p) -> (forall p, T p -> T1 p) -> seen S1 T1 old r.
Proof. intros (H1 & H2) HS' HT'. split; [auto|]. destruct H2 as [[E H]|(E & L & H)]; [left|right]; auto. Qed.
Lemma path_head t : t <> Nil -> exists it xs l r c rest, path t (Fin lon) (Fin lat) = (Node it xs l r, c) :: rest /\ In it (items t).
Proof.
  induction t as [|it xs l IHl r IHr]; [congruence|]. intros _. cbn [path]. destruct (vleb _ _).
  - destruct l as [|it' xs' l' r']; [do 6 eexists; split; [reflexivity|left; reflexivity]|]. destruct IHl as (a & b & c & d & e & f & E & H); [discriminate|]. rewrite E. do 6 eexists. split; [reflexivity|]. cbn [items]. right. apply in_or_app. left. exact H.
  - destruct r as [|it' xs' l' r']; [do 6 eexists; split; [reflexivity|left; reflexivity]|]. destruct IHr as (a & b & c & d & e & f & E & H); [discriminate|]. rewrite E. do 6 eexists. split; [reflexivity|]. cbn [items]. right. apply in_or_app. right. exact H.
Qed.
Lemma path_ok fuel (T : item -> Prop) old : best old -> (forall t, (height t <= fuel)%nat -> t <> Nil -> ordered t -> Forall earth_item (items t) -> finds fuel t) ->
  forall t st, t <> Nil -> (height t <= S fuel)%nat -> ordered t -> Forall earth_item (items t) -> (forall p, In p (items t) -> T p) -> T (fst st) -> snd st = old ->
  exists r, foldM (visit fuel) st (path t (Fin lon) (Fin lat)) = Ok r /\ seen (fun p => In p (items t)) T old r.
Proof.
  intros HB HF. induction t as [|it xs l IHl r IHr]; intros st HN HH HO HE HT Hst Hold; [congruence|]. cbn [height] in HH. cbn [ordered] in HO. destruct HO as (O1 & O2 & O3 & O4 & O5). cbn [items] in *.
  inversion HE as [|? ? E1 E2]; subst. apply Forall_app in E2 as [E2 E3]. destruct st as [i0 b0]. cbn [fst snd] in *. rewrite Forall_forall in O1, O2.
  assert (S0 : seen (fun _ => False) T b0 (i0, b0)). { split; [auto|]. left. split; [reflexivity|]. intros p []. }
  assert (K : (if xs then Fin lon else Fin lat) = Fin (if xs then lon else lat)) by (destruct xs; reflexivity).
  cbn [path]. rewrite K, coord_q, vleb_Fin by auto. destruct (qleb_spec (if xs then lon else lat) (qcoord xs it)) as [L|L].
  - destruct l as [|it' xs' l' r'] eqn:EL.
    + rewrite (O3 eq_refl) in *. cbn [foldM]. destruct (visit_ok fuel (fun _ => False) T b0 (i0, b0) it xs Nil Nil Itself HB S0 E1) as (st' & E & HI); [apply HT; left; reflexivity|congruence|intros p []|intros p []|].
      rewrite E. cbn [bind]. eexists. split; [reflexivity|]. eapply seen_iff; [exact HI| |auto]. intros p [<-|[]]. left. right. reflexivity.
    + rewrite <- EL in *. rewrite foldM_app. destruct (IHl (i0, b0)) as (r1 & E & HI); auto; [rewrite EL; discriminate|lia|intros p Hp; apply HT; right; apply in_or_app; auto|]. rewrite E. cbn [bind foldM].
      destruct (visit_ok fuel (fun p => In p (items l)) T b0 r1 it xs l r FromLeft HB HI E1) as (st' & E' & HI').
      * apply HT. left. reflexivity.
      * intros Hr. apply HF; auto. lia.
      * intros p Hp. left. split; [exact L|]. apply O2. exact Hp.
      * intros p Hp. apply HT. right. apply in_or_app. auto.
      * rewrite E'. cbn [bind]. eexists. split; [reflexivity|]. eapply seen_iff; [exact HI'| |auto]. intros p [<-|Hp]; [left; right; reflexivity|]. apply in_app_or in Hp as [Hp|Hp]; [left; left; exact Hp|right; exact Hp].
  - assert (L' : (qcoord xs it <= if xs then lon else lat)%Qc) by (destruct xs; apply Qclt_le_weak, Qcnot_le_lt; exact L).
    destruct r as [|it' xs' l' r'] eqn:ER.
    + cbn [foldM]. destruct (visit_ok fuel (fun _ => False) T b0 (i0, b0) it xs l Nil Itself HB S0 E1) as (st' & E & HI).
      * apply HT. left. reflexivity.
      * intros Hl. apply HF; auto. lia.
      * intros p Hp. right. split; [apply O1; exact Hp|exact L'].
      * intros p Hp. apply HT. right. apply in_or_app. auto.
      * rewrite E. cbn [bind]. eexists. split; [reflexivity|]. eapply seen_iff; [exact HI| |auto]. intros p [<-|Hp]; [left; right; reflexivity|]. apply in_app_or in Hp as [Hp|[]]. right. exact Hp.
    + rewrite <- ER in *. rewrite foldM_app. destruct (IHr (i0, b0)) as (r1 & E & HI); auto; [rewrite ER; discriminate|lia|intros p Hp; apply HT; right; apply in_or_app; auto|]. rewrite E. cbn [bind foldM].
      destruct (visit_ok fuel (fun p => In p (items r)) T b0 r1 it xs l r FromRight HB HI E1) as (st' & E' & HI').
      * apply HT. left. reflexivity.
      * intros Hl. apply HF; auto. lia.
      * intros p Hp. right. split; [apply O1; exact Hp|exact L'].
      * intros p Hp. apply HT. right. apply in_or_app. auto.
      * rewrite E'. cbn [bind]. eexists. split; [reflexivity|]. eapply seen_iff; [exact HI'| |auto]. intros p [<-|Hp]; [left; right; reflexivity|]. apply in_app_or in Hp as [Hp|Hp]; [right; exact Hp|left; left; exact Hp].
Qed.
Lemma nearest_ok : forall fuel t, (height t <= fuel)%nat -> t <> Nil -> ordered t -> Forall earth_item (items t) -> finds fuel t.
Proof.
  induction fuel as [|fuel IH]; intros t HH HN HO HE old HB; [destruct t; [congruence|cbn in HH; lia]|].
  cbn [nearest]. destruct (path_head t HN) as (it & xs & l & r & c & rest & EP & HI).
  destruct (path_ok fuel (fun p => In p (items t)) old HB IH t (it, old)) as (res & E & HS'); auto. rewrite EP in *. exists res. split; [exact E|exact HS'].
Qed.
End Search.

(** building the tree *)
Lemma advance_ok xs s to : to < zlen s -> forall fuel med, 0 <= med <= to -> (Z.to_nat (to - med) < fuel)%nat -> exists m, advance fuel xs s med to = Ok m /\ med <= m <= to.
Proof.
  intros Hto. induction fuel as [|fuel IH]; intros med Hm Hf; [lia|]. cbn [advance]. destruct (Z.ltb_spec med to); [|exists med; split; [reflexivity|lia]].
  destruct (znth_some s med) as [a ->]; [lia|]. destruct (znth_some s (med + 1)) as [b ->]; [lia|]. cbn [bind]. destruct (veqb _ _); [|exists med; split; [reflexivity|lia]].
  destruct (IH (med + 1)) as (m & E & Hb); [lia|lia|]. exists m. split; [exact E|lia].
Qed.
Lemma split_nth {A} (s : list A) : forall med it, znth s med = Ok it -> s = firstn (Z.to_nat med) s ++ it :: skipn (Z.to_nat (med + 1)) s.
Proof.
  induction s as [|a s IH]; intros med it H; [apply znth_range in H; change (zlen (@nil A)) with 0 in H; lia|].
  pose proof (znth_range _ _ _ H) as R. rewrite zlen_cons in R. destruct (Z.eq_dec med 0) as [->|Hm].
  - rewrite znth_cons0 in H. injection H as <-. reflexivity.
  - rewrite znth_consS in H by lia. replace (Z.to_nat med) with (S (Z.to_nat (med - 1))) by lia. replace (Z.to_nat (med + 1)) with (S (Z.to_nat (med - 1 + 1))) by lia. cbn [firstn skipn app]. f_equal. apply IH. exact H.
Qed.
Lemma ss_middle {A} (R : A -> A -> Prop) l a r : StronglySorted R (l ++ a :: r) -> Forall (fun x => R x a) l /\ Forall (R a) r.
Proof.
  induction l as [|x l IH]; cbn [app]; intros H; inversion H as [|? ? H1 H2]; subst.
  - split; auto.
  - destruct (IH H1) as [P1 P2]. split; [|exact P2]. constructor; auto. rewrite Forall_app in H2. destruct H2 as [_ H2]. inversion H2; auto.
Qed.
Lemma earth_valid it : earth_item it -> valid_item it.
Proof. intros (A & B & _ & n1 & n2). exists (qlat it), (qlon it). auto. Qed.
Lemma sub_tree_ok srt : sorts_items srt -> forall fuel xs l, l <> [] -> (length l <= fuel)%nat -> Forall earth_item l ->
  exists t, sub_tree srt fuel xs l = Ok t /\ t <> Nil /\ ordered t /\ Permutation (items t) l.
Proof.
  intros HS. induction fuel as [|fuel IH]; intros xs l HN HL HE; [destruct l; [congruence|cbn in HL; lia]|]. cbn [sub_tree].
  destruct (Z.eqb_spec (zlen l) 1) as [E1|E1].
  - destruct l as [|a [|b l]]; [congruence| |rewrite !zlen_cons in E1; pose proof (zlen_nonneg l); lia]. change (znth [a] 0) with (Ok a). cbn [bind]. eexists. split; [reflexivity|]. split; [discriminate|]. split; [|apply Permutation_refl].
    cbn. repeat split; auto; constructor.
  - assert (HL2 : 2 <= zlen l). { destruct l as [|a l]; [congruence|]. rewrite zlen_cons in *. pose proof (zlen_nonneg l). lia. }
    assert (HV : Forall valid_item l) by (eapply Forall_impl; [|exact HE]; apply earth_valid). destruct (HS xs l HV) as [HP HSo].
    set (s := srt xs l) in *. assert (HEs : Forall earth_item s) by (apply (Permutation_Forall (Permutation_sym HP)); auto).
    assert (Hz : zlen s = zlen l) by (unfold zlen; rewrite (Permutation_length HP); reflexivity).
    assert (HQ : 1 <= Z.quot (zlen l) 2 <= zlen l - 1). { rewrite Z.quot_div_nonneg by lia. pose proof (Z.div_mod (zlen l) 2). pose proof (Z.mod_pos_bound (zlen l) 2). lia. }
    destruct (advance_ok xs s (zlen l - 1)) with (fuel := S (length l)) (med := Z.quot (zlen l) 2) as (m & -> & Hm); [lia|lia|unfold zlen in *; lia|]. cbn [bind].
    destruct (znth_some s m) as [it Hit]; [lia|]. rewrite Hit. cbn [bind]. replace (0 <? m) with true by lia.
    pose proof (split_nth s m it Hit) as ES. set (L := firstn (Z.to_nat m) s) in *. set (R := skipn (Z.to_nat (m + 1)) s) in *.
    assert (HlL : length L = Z.to_nat m). { unfold L. rewrite firstn_length. unfold zlen in *. lia. }
    assert (HlR : length R = Z.to_nat (zlen l - 1 - m)). { unfold R. rewrite skipn_length. unfold zlen in *. lia. }
    rewrite ES in HEs, HSo, HP. apply Forall_app in HEs as [EL ER]. inversion ER as [|? ? Ei ER']; subst. destruct (ss_middle _ _ _ _ HSo) as [OL OR].
    assert (LE : forall a b, earth_item a -> earth_item b -> vltb (coord xs b) (coord xs a) = false -> (qcoord xs a <= qcoord xs b)%Qc).
    { intros a b Ha Hb H. rewrite !coord_q in H by auto. apply vltb_F_false in H. exact H. }
    destruct (IH (negb xs) L) as (tl & -> & NL & OrL & PL); auto; [intros EL0; rewrite EL0 in HlL; cbn in HlL; lia|unfold zlen in *; lia|]. cbn [bind].
    assert (TR : exists tr, (if m <? zlen l - 1 then sub_tree srt fuel (negb xs) R else Ok Nil) = Ok tr /\ ordered tr /\ Permutation (items tr) R).
    { destruct (Z.ltb_spec m (zlen l - 1)).
      - destruct (IH (negb xs) R) as (tr & -> & _ & OrR & PR); auto; [intros ER0; rewrite ER0 in HlR; cbn in HlR; lia|unfold zlen in *; lia|]. eauto.
      - exists Nil. split; [reflexivity|]. split; [exact I|]. destruct R; [apply Permutation_refl|cbn in HlR; lia]. }
    destruct TR as (tr & -> & OrR & PR). cbn [bind]. eexists. split; [reflexivity|]. split; [discriminate|]. split.
    + cbn [ordered]. split.
      { apply (Permutation_Forall (Permutation_sym PL)). rewrite Forall_forall in OL, EL |- *. intros p Hp. apply LE; auto. }
      split. { apply (Permutation_Forall (Permutation_sym PR)). rewrite Forall_forall in OR, ER' |- *. intros p Hp. apply LE; auto. }
      split; [intros; contradiction|]. auto.
    + cbn [items]. apply (Permutation_trans (l' := L ++ it :: R)); [|exact HP]. apply (Permutation_trans (l' := it :: L ++ R)); [constructor; apply Permutation_app; auto|]. apply Permutation_middle.
Qed.
Lemma foldM_collect {A B} (f : list B -> A -> res (list B)) (g : A -> list B) l : (forall x acc, In x l -> f acc x = Ok (acc ++ g x)) -> forall acc, foldM f acc l = Ok (acc ++ flat_map g l).
Proof.
  induction l as [|x l IH]; intros H acc; cbn [foldM flat_map]; [rewrite app_nil_r; reflexivity|]. rewrite H by (left; reflexivity). cbn [bind]. rewrite IH by (intros; apply H; right; auto). rewrite <- app_assoc. reflexivity.
Qed.
Definition the_item (lats lons : list vec) (i j : Z) : list item :=
  match get2 lats i j, get2 lons i j with
  | Ok lat, Ok lon => if cvalid lon && cvalid lat then [{| it_lon := lon; it_lat := lat; it_i := i; it_j := j |}] else []
  | _, _ => []
  end.
Lemma tree_items_ok lats lons ny nx : grid ny nx lats lons -> exists l, tree_items lats lons ny nx = Ok l /\
  (forall it, In it l <-> exists lat lon, 0 <= it_i it < ny /\ 0 <= it_j it < nx /\ point lats lons (it_i it) (it_j it) lat lon /\ it_lat it = Fin lat /\ it_lon it = Fin lon).
Proof.
  intros (Hy & Hx & R1 & R2). exists (flat_map (fun i => flat_map (fun j => the_item lats lons i j) (zrange 0 nx)) (zrange 0 ny)). split.
  - unfold tree_items. rewrite (foldM_collect _ (fun i => flat_map (fun j => the_item lats lons i j) (zrange 0 nx))); [reflexivity|]. intros i acc Hi. apply in_zrange in Hi.
    apply foldM_collect. intros j acc' Hj. apply in_zrange in Hj. destruct (rect_get2 ny nx lats i j) as [a Ea]; auto. destruct (rect_get2 ny nx lons i j) as [b Eb]; auto. unfold the_item. rewrite Ea, Eb. cbn [bind].
    destruct (cvalid b); cbn [bind andb]; [|rewrite app_nil_r; reflexivity]. destruct (cvalid a); [reflexivity|rewrite app_nil_r; reflexivity].
  - intros it. rewrite in_flat_map. split.
    + intros (i & Hi & H). rewrite in_flat_map in H. destruct H as (j & Hj & H). apply in_zrange in Hi, Hj. unfold the_item in H. destruct (get2 lats i j) as [a| | |] eqn:Ea; try contradiction. destruct (get2 lons i j) as [b| | |] eqn:Eb; try contradiction.
      destruct (cvalid b && cvalid a) eqn:V; [|contradiction]. apply andb_true_iff in V as [V1 V2]. apply cvalid_true in V1 as (qb & -> & nb). apply cvalid_true in V2 as (qa & -> & na). destruct H as [<-|[]]. cbn. exists qa, qb. repeat split; auto; lia.
    + intros (lat & lon & Hi & Hj & (Ea & Eb & na & nb) & El & Eo). exists (it_i it). split; [apply in_zrange; lia|]. apply in_flat_map. exists (it_j it). split; [apply in_zrange; lia|]. unfold the_item. rewrite Ea, Eb, !cvalid_Fin by auto. cbn [andb]. left. destruct it; cbn in *; congruence.
Qed.
Lemma get2_range {A} (lats : list (list A)) ny nx i j v : rect ny nx lats -> get2 lats i j = Ok v -> 0 <= i < ny /\ 0 <= j < nx.
Proof.
  intros R H. unfold get2 in H. destruct (znth lats i) as [row| | |] eqn:E; try discriminate. cbn [bind] in H. destruct R as [R1 R2]. pose proof (znth_range _ _ _ E). pose proof (znth_range _ _ _ H). pose proof (znth_In _ _ _ E) as HI.
  specialize (R2 _ HI). lia.
Qed.
Lemma build_ok srt lats lons ny nx : sorts_items srt -> grid ny nx lats lons -> all_on_earth lats lons -> (exists i j lat lon, point lats lons i j lat lon) ->
  exists t, build_tree srt lats lons = Ok t /\ t <> Nil /\ ordered t /\ Forall earth_item (items t) /\
  (forall it, In it (items t) <-> exists lat lon, point lats lons (it_i it) (it_j it) lat lon /\ it_lat it = Fin lat /\ it_lon it = Fin lon).
Proof.
  intros HS HG HE HX. pose proof HG as (Hy & Hx & [R1 R1'] & [R2 R2']). unfold build_tree. rewrite R1, R2, Z.eqb_refl. cbn [negb]. replace (ny =? 0) with false by lia. destruct (znth_some lats 0) as [row Hr]; [lia|]. rewrite Hr. cbn [bind].
  assert (Hrow : zlen row = nx). { apply R1'. apply znth_In with (i := 0). exact Hr. }
  rewrite Hrow. replace (nx =? 0) with false by lia. destruct (tree_items_ok lats lons ny nx HG) as (l & -> & HI). cbn [bind].
  assert (HI' : forall it, In it l <-> exists lat lon, point lats lons (it_i it) (it_j it) lat lon /\ it_lat it = Fin lat /\ it_lon it = Fin lon).
  { intros it. rewrite HI. split; [intros (la & lo & _ & _ & H); eauto|]. intros (la & lo & Hp & H1 & H2). exists la, lo. pose proof Hp as (Hp1 & _). apply get2_range with (ny := ny) (nx := nx) in Hp1; [|split; auto]. tauto. }
  destruct HX as (i & j & lat & lon & HP). assert (Hin : In {| it_lon := Fin lon; it_lat := Fin lat; it_i := i; it_j := j |} l). { apply HI'. exists lat, lon. cbn. auto. }
  assert (Hne : l <> []) by (intros ->; contradiction). assert (Hz : 0 < zlen l). { destruct l; [congruence|]. rewrite zlen_cons. pose proof (zlen_nonneg l). lia. }
  replace (zlen l =? 0) with false by lia. assert (HEa : Forall earth_item l). { apply Forall_forall. intros it Hit. apply HI' in Hit as (la & lo & Hp & E1 & E2). unfold earth_item, qlat, qlon. rewrite E1, E2. split; [reflexivity|]. split; [reflexivity|]. apply (HE _ _ _ _ Hp). }
  destruct (sub_tree_ok srt HS (S (length l)) true l) as (t & -> & HN & HO & HPm); auto. exists t. split; [reflexivity|]. split; [exact HN|]. split; [exact HO|]. split; [apply (Permutation_Forall (Permutation_sym HPm)); auto|].
  intros it. rewrite <- HI'. split; intros H; [apply (Permutation_in _ HPm)|apply (Permutation_in _ (Permutation_sym HPm))]; exact H.
Qed.
Lemma c163 D srt ny nx lats lons lat lon : zero_at_itself D -> straight D -> sorts_items srt -> grid ny nx lats lons -> all_on_earth lats lons -> (exists i j la lo, point lats lons i j la lo) -> on_earth lat lon ->
  exists t i j, build_tree srt lats lons = Ok t /\ tree_nearest (lift4 D) t (Fin lat) (Fin lon) = Ok (i, j) /\ is_nearest (D lat lon) lats lons i j.
Proof.
  intros HZ HSt HS HG HE HX HQ. destruct (build_ok srt lats lons ny nx HS HG HE HX) as (t & Et & HN & HO & HEa & HI).
  destruct (nearest_ok D lat lon HZ HSt HQ (height t) t (le_n _) HN HO HEa PInf (or_introl eq_refl)) as ([it b] & E & H1 & H2). cbn [fst snd] in *.
  exists t, (it_i it), (it_j it). split; [exact Et|]. split; [unfold tree_nearest; rewrite E; reflexivity|]. apply HI in H1 as H1'. destruct H1' as (la & lo & HP & El & Eo). exists la, lo. split; [exact HP|].
  intros i' j' la' lo' HP'. set (p := {| it_lon := Fin lo'; it_lat := Fin la'; it_i := i'; it_j := j' |}). assert (Hp : In p (items t)). { apply HI. exists la', lo'. cbn. auto. }
  destruct H2 as [[_ H2]|(_ & _ & H2)].
  - specialize (H2 p Hp). discriminate.
  - specialize (H2 p Hp). cbn in H2. unfold qlat, qlon in H2. rewrite El, Eo in H2. exact H2.
Qed.
Lemma c163_empty srt lats lons ny nx : grid ny nx lats lons -> (forall i j la lo, ~ point lats lons i j la lo) -> build_tree srt lats lons = Abort.
Proof.
  intros HG HX. pose proof HG as (Hy & Hx & [R1 R1'] & [R2 R2']). unfold build_tree. rewrite R1, R2, Z.eqb_refl. cbn [negb]. replace (ny =? 0) with false by lia. destruct (znth_some lats 0) as [row Hr]; [lia|]. rewrite Hr. cbn [bind].
  assert (Hrow : zlen row = nx). { apply R1'. apply znth_In with (i := 0). exact Hr. }
  rewrite Hrow. replace (nx =? 0) with false by lia. destruct (tree_items_ok lats lons ny nx HG) as (l & -> & HI). cbn [bind]. destruct l as [|it l]; [reflexivity|]. exfalso. destruct (proj1 (HI it) (or_introl eq_refl)) as (la & lo & _ & _ & HP & _). apply (HX _ _ _ _ HP).
Qed.
(** brute force *)
Lemma foldM_nested {A B S} (f : A -> S -> B -> res S) (L : list B) l : forall st, foldM (fun st i => foldM (f i) st L) st l = foldM (fun st c => f (fst c) st (snd c)) st (flat_map (fun i => map (fun j => (i, j)) L) l).
Proof.
  induction l as [|a l IH]; intros st; [reflexivity|]. cbn [foldM flat_map]. rewrite foldM_app.
  assert (E : forall st, foldM (fun st c => f (fst c) st (snd c)) st (map (fun j => (a, j)) L) = foldM (f a) st L).
  { clear. induction L as [|b L IH]; intros st; [reflexivity|]. cbn [foldM map fst snd]. destruct (f a st b); cbn [bind]; auto. }
  rewrite E. destruct (foldM (f a) st L); cbn [bind]; auto.
Qed.
Definition far (D : Qc -> Qc -> Qc) (S : list (Z * Z)) lats lons (st : val * (Z * Z)) : Prop :=
  (st = (CMV, (-999, -999)) /\ forall i j la lo, In (i, j) S -> ~ point lats lons i j la lo) \/
  (exists i j la lo, st = (Fin (D la lo), (i, j)) /\ point lats lons i j la lo /\ forall i' j' la' lo', In (i', j') S -> point lats lons i' j' la' lo' -> (D la lo <= D la' lo')%Qc).
Lemma point_fun lats lons i j a b c d : point lats lons i j a b -> point lats lons i j c d -> a = c /\ b = d.
Proof. intros (E1 & E2 & _) (E3 & E4 & _). split; congruence. Qed.
Definition brute_step (D : Qc -> Qc -> Qc -> Qc -> Qc) lats lons lat lon (st : val * (Z * Z)) (c : Z * Z) : res (val * (Z * Z)) :=
  let '(minDist, best) := st in
  lat0 <- get2 lats (fst c) (snd c) ;;
  if cvalid lat0 then
    lon0 <- get2 lons (fst c) (snd c) ;;
    if cvalid lon0 then
      currDist <- get_distance (lift4 D) lat0 lon0 (Fin lat) (Fin lon) ;;
      Ok (if negb (cvalid minDist) || vltb currDist minDist then (currDist, (fst c, snd c)) else st)
    else Ok st
  else Ok st.
Lemma brute_loop D ny nx lats lons lat lon : zero_at_itself D -> (forall a b c d, 0 <= D a b c d)%Qc -> grid ny nx lats lons -> all_on_earth lats lons -> on_earth lat lon ->
  forall l, (forall i j, In (i, j) l -> 0 <= i < ny /\ 0 <= j < nx) -> forall S st, far (fun la lo => D la lo lat lon) S lats lons st ->
  exists st', foldM (brute_step D lats lons lat lon) st l = Ok st' /\ far (fun la lo => D la lo lat lon) (S ++ l) lats lons st'.
Proof.
  intros HZ HP (Hy & Hx & R1 & R2) HE HQ. set (Dq := fun la lo => D la lo lat lon). induction l as [|[i j] l IH]; intros Hl S st HF.
  - exists st. rewrite app_nil_r. split; [reflexivity|exact HF].
  - cbn [foldM]. destruct (Hl i j (or_introl eq_refl)) as [Hi Hj].
    assert (ST : exists st', brute_step D lats lons lat lon st (i, j) = Ok st' /\ far Dq (S ++ [(i, j)]) lats lons st').
    { destruct st as [md bst]. unfold brute_step. cbn [fst snd].
      assert (KEEP : (forall la lo, ~ point lats lons i j la lo) -> far Dq (S ++ [(i, j)]) lats lons (md, bst)).
      { intros NP. destruct HF as [[E1 K]|(i0 & j0 & la & lo & E1 & Hp & K)]; [left|right].
        - split; auto. intros i' j' la lo Hs. apply in_app_or in Hs as [Hs|[[= <- <-]|[]]]; [apply K; auto|apply NP].
        - exists i0, j0, la, lo. split; [exact E1|]. split; [exact Hp|]. intros i' j' la' lo' Hs. apply in_app_or in Hs as [Hs|[[= <- <-]|[]]]; [apply K; auto|]. intros Hp'. exfalso. apply (NP la' lo'). exact Hp'. }
      destruct (rect_get2 ny nx lats i j) as [a Ea]; [auto|lia|lia|]. rewrite Ea. cbn [bind]. destruct (cvalid a) eqn:Va.
      2:{ eexists. split; [reflexivity|]. apply KEEP. intros la lo (Hp1 & _ & np & _). assert (a = Fin la) by congruence. subst a. rewrite cvalid_Fin in Va by auto. discriminate. }
      destruct (rect_get2 ny nx lons i j) as [b Eb]; [auto|lia|lia|]. rewrite Eb. cbn [bind]. destruct (cvalid b) eqn:Vb.
      2:{ eexists. split; [reflexivity|]. apply KEEP. intros la lo (_ & Hp1 & _ & np). assert (b = Fin lo) by congruence. subst b. rewrite cvalid_Fin in Vb by auto. discriminate. }
      apply cvalid_true in Va as (qa & -> & na). apply cvalid_true in Vb as (qb & -> & nb). assert (Hpt : point lats lons i j qa qb) by (repeat split; auto).
      rewrite distance_value by (auto; apply (HE i j); auto). cbn [bind]. change (D qa qb lat lon) with (Dq qa qb).
      destruct HF as [[E1 K]|(i0 & j0 & la & lo & E1 & Hp & K)]; injection E1 as -> ->.
      + change (negb (cvalid CMV)) with true. cbn [orb]. eexists. split; [reflexivity|]. right. exists i, j, qa, qb. split; [reflexivity|]. split; [exact Hpt|].
        intros i' j' la' lo' Hs Hp'. apply in_app_or in Hs as [Hs|[[= <- <-]|[]]]; [exfalso; apply (K _ _ _ _ Hs Hp')|]. destruct (point_fun _ _ _ _ _ _ _ _ Hpt Hp') as [-> ->]. apply Qcle_refl.
      + assert (Vm : cvalid (Fin (Dq la lo)) = true). { apply cvalid_Fin. apply nonneg_not_missing. apply HP. } rewrite Vm. cbn [negb orb]. destruct (vltb (Fin (Dq qa qb)) (Fin (Dq la lo))) eqn:L.
        * apply vltb_F in L. eexists. split; [reflexivity|]. right. exists i, j, qa, qb. split; [reflexivity|]. split; [exact Hpt|].
          intros i' j' la' lo' Hs Hp'. apply in_app_or in Hs as [Hs|[[= <- <-]|[]]]; [specialize (K _ _ _ _ Hs Hp'); clearbody Dq; qlra|]. destruct (point_fun _ _ _ _ _ _ _ _ Hpt Hp') as [-> ->]. apply Qcle_refl.
        * apply vltb_F_false in L. eexists. split; [reflexivity|]. right. exists i0, j0, la, lo. split; [reflexivity|]. split; [exact Hp|].
          intros i' j' la' lo' Hs Hp'. apply in_app_or in Hs as [Hs|[[= <- <-]|[]]]; [apply (K _ _ _ _ Hs Hp')|]. destruct (point_fun _ _ _ _ _ _ _ _ Hpt Hp') as [-> ->]. exact L. }
    destruct ST as (st1 & -> & HF1). cbn [bind]. destruct (IH (fun i' j' H => Hl i' j' (or_intror H)) _ _ HF1) as (st2 & E & HF2). exists st2. split; [exact E|]. rewrite <- app_assoc in HF2. exact HF2.
Qed.
Lemma c164 D ny nx lats lons lat lon : zero_at_itself D -> (forall a b c d, 0 <= D a b c d)%Qc -> grid ny nx lats lons -> all_on_earth lats lons -> on_earth lat lon ->
  exists i j, brute_nearest (lift4 D) lats lons (Fin lat) (Fin lon) = Ok (i, j) /\
    ((exists i' j' la lo, point lats lons i' j' la lo) -> is_nearest (fun la lo => D la lo lat lon) lats lons i j) /\ ((forall i' j' la lo, ~ point lats lons i' j' la lo) -> (i, j) = (-999, -999)).
Proof.
  intros HZ HP HG HE HQ. pose proof HG as (Hy & Hx & [Rl Rf] & R2). unfold brute_nearest. pose proof HQ as (_ & n1 & n2). rewrite !cvalid_Fin by auto. cbn [andb].
  rewrite Rl. destruct (znth_some lats 0) as [row Hr]; [lia|].
  assert (Hrow : zlen row = nx). { apply Rf. apply znth_In with (i := 0). exact Hr. }
  rewrite Hr. cbn [bind]. rewrite Hrow.
  match goal with |- context [foldM (fun st i => foldM (@?f i) st ?L) ?s ?l] => rewrite (foldM_nested f L l s) end.
  set (cs := flat_map (fun i => map (fun j => (i, j)) (zrange 0 nx)) (zrange 0 ny)).
  assert (Hcs : forall i j, In (i, j) cs <-> 0 <= i < ny /\ 0 <= j < nx).
  { intros i j. unfold cs. rewrite in_flat_map. split.
    - intros (i' & Hi & H). apply in_map_iff in H as (j' & [= <- <-] & Hj). apply in_zrange in Hi, Hj. lia.
    - intros [Hi Hj]. exists i. split; [apply in_zrange; lia|]. apply in_map_iff. exists j. split; [reflexivity|apply in_zrange; lia]. }
  destruct (brute_loop D ny nx lats lons lat lon HZ HP HG HE HQ cs (fun i j H => proj1 (Hcs i j) H) [] (CMV, (-999, -999))) as (st & E & HF); [left; split; [reflexivity|intros ? ? ? ? []]|].
  unfold brute_step in E. match goal with |- context [bind ?m _] => replace m with (Ok st) by (symmetry; exact E) end. cbn [bind]. destruct st as [md [i j]]. exists i, j. split; [reflexivity|]. cbn [app] in HF.
  assert (IN : forall i' j' la lo, point lats lons i' j' la lo -> In (i', j') cs). { intros i' j' la lo (H & _). apply Hcs. apply (get2_range lats ny nx) in H; [exact H|split; auto]. }
  destruct HF as [[E1 K]|(i0 & j0 & la & lo & E1 & Hp & K)].
  - injection E1 as -> -> ->. split; [|reflexivity]. intros (i' & j' & la & lo & Hp). exfalso. apply (K _ _ _ _ (IN _ _ _ _ Hp) Hp).
  - injection E1 as -> -> ->. split; [|intros H; exfalso; apply (H _ _ _ _ Hp)]. intros _. exists la, lo. split; [exact Hp|]. intros i' j' la' lo' Hp'. apply K with (i' := i') (j' := j'); eauto.
Qed.

(** a sorter *)
Fixpoint insert_item (xs : bool) (it : item) (l : list item) : list item :=
  match l with [] => [it] | a :: t => if vltb (coord xs a) (coord xs it) then a :: insert_item xs it t else it :: l end.
Definition sort_items (xs : bool) (l : list item) : list item := fold_right (insert_item xs) [] l.
Lemma insert_item_perm xs it l : Permutation (insert_item xs it l) (it :: l).
Proof. induction l as [|a l IH]; cbn; [apply Permutation_refl|]. destruct (vltb _ _); [|apply Permutation_refl]. apply (Permutation_trans (l' := a :: it :: l)); [constructor; exact IH|constructor]. Qed.
Lemma valid_number xs it : valid_item it -> number (coord xs it).
Proof. intros (a & b & E1 & E2 & _). destruct xs; cbn; rewrite ?E1, ?E2; discriminate. Qed.
Lemma sort_items_ok : sorts_items sort_items.
Proof.
  intros xs l. induction l as [|it l IH]; intros HV; cbn [sort_items fold_right]; [split; constructor|]. inversion HV as [|? ? V1 V2]; subst. destruct (IH V2) as [P S]. fold (sort_items xs l). split.
  { apply (Permutation_trans (insert_item_perm _ _ _)). constructor. exact P. }
  assert (VS : Forall valid_item (sort_items xs l)) by (apply (Permutation_Forall (Permutation_sym P)); auto). clear P IH. induction (sort_items xs l) as [|a s IHs]; cbn [insert_item]; [repeat constructor|].
  inversion S as [|? ? S1 S2]; subst. inversion VS as [|? ? A1 A2]; subst. destruct (vltb (coord xs a) (coord xs it)) eqn:L.
  - constructor; [apply IHs; auto|]. eapply Permutation_Forall; [apply Permutation_sym, insert_item_perm|]. constructor; [|exact S2]. destruct (vltb (coord xs it) (coord xs a)) eqn:L'; auto. pose proof (num_lt_trans _ _ _ L L') as C. rewrite num_lt_irrefl in C. discriminate.
  - constructor; [constructor; auto|]. constructor; [exact L|]. rewrite Forall_forall in S2, A2 |- *. intros b Hb. specialize (S2 b Hb). specialize (A2 b Hb).
    destruct (vltb (coord xs b) (coord xs it)) eqn:L'; auto. exfalso. destruct (num_cases (coord xs a) (coord xs b)) as [(E & _)|[(_ & _ & L2 & _)|(_ & _ & _ & L2)]]; try (apply valid_number; auto).
    + rewrite E in L. congruence.
    + rewrite (num_lt_trans _ _ _ L2 L') in L. discriminate.
    + congruence.
Qed.
From Coq Require Import Lra.
(** the great circle *)
Lemma arc_meridian a b : (0 <= a - b <= 180)%R -> arc a 0 b 0 = (a - b)%R.
Proof.
  intros H. unfold arc. replace (0 * PI / 180)%R with 0%R by field. rewrite cos_0, sin_0. pose proof PI_RGT_0 as HPI.
  replace (_ + _ + _)%R with (cos (a * PI / 180 - b * PI / 180)) by (rewrite cos_minus; ring). rewrite acos_cos; [field; lra|]. split; [|].
  - replace (a * PI / 180 - b * PI / 180)%R with ((a - b) * (PI / 180))%R by field. apply Rmult_le_pos; lra.
  - replace (a * PI / 180 - b * PI / 180)%R with ((a - b) * (PI / 180))%R by field. apply Rle_trans with (180 * (PI / 180))%R; [apply Rmult_le_compat_r; lra|]. right. field.
Qed.
Lemma arc_pole a c : (-90 <= a <= 90)%R -> arc a 0 90 c = (90 - a)%R.
Proof.
  intros H. unfold arc. replace (0 * PI / 180)%R with 0%R by field. replace (90 * PI / 180)%R with (PI / 2)%R by field. rewrite cos_0, sin_0, cos_PI2, sin_PI2. pose proof PI_RGT_0 as HPI.
  replace (_ + _ + _)%R with (cos (PI / 2 - a * PI / 180)) by (rewrite cos_shift; ring). rewrite acos_cos; [field; lra|].
  replace (PI / 2 - a * PI / 180)%R with ((90 - a) * (PI / 180))%R by field. split; [apply Rmult_le_pos; lra|]. apply Rle_trans with (180 * (PI / 180))%R; [apply Rmult_le_compat_r; lra|]. right. field.
Qed.
Lemma arc_60 : arc 45 0 45 90 = 60%R.
Proof.
  unfold arc. replace (0 * PI / 180)%R with 0%R by field. replace (90 * PI / 180)%R with (PI / 2)%R by field. replace (45 * PI / 180)%R with (PI / 4)%R by field.
  rewrite cos_0, sin_0, cos_PI2, sin_PI2, sin_PI4. pose proof PI_RGT_0 as HPI.
  replace (cos (PI / 4) * 1 * cos (PI / 4) * 0 + cos (PI / 4) * 0 * cos (PI / 4) * 1 + 1 / sqrt 2 * (1 / sqrt 2))%R with (1 / 2)%R.
  - rewrite <- cos_PI3. rewrite acos_cos; [field; lra|lra].
  - assert (HS : (sqrt 2 <> 0)%R) by (apply Rgt_not_eq, sqrt_lt_R0; lra). assert (HSS : (sqrt 2 * sqrt 2 = 2)%R) by (apply sqrt_sqrt; lra).
    replace (1 / sqrt 2 * (1 / sqrt 2))%R with (1 / (sqrt 2 * sqrt 2))%R by (field; exact HS). rewrite HSS. ring.
Qed.
Lemma arc_itself a b : arc a b a b = 0%R.
Proof.
  unfold arc. pose proof (sin2_cos2 (a * PI / 180)) as H1. pose proof (sin2_cos2 (b * PI / 180)) as H2. unfold Rsqr in *.
  set (ca := cos (a * PI / 180)) in *. set (sa := sin (a * PI / 180)) in *. set (cb := cos (b * PI / 180)) in *. set (sb := sin (b * PI / 180)) in *.
  replace (ca * cb * ca * cb + ca * sb * ca * sb + sa * sa)%R with 1%R; [rewrite acos_1; field; apply PI_neq0|].
  transitivity (ca * ca * (sb * sb + cb * cb) + sa * sa)%R; [rewrite H2; lra|ring].
Qed.
Lemma great_circle_zero D : great_circle D -> zero_at_itself D.
Proof. intros H lat lon. rewrite <- qz_0. apply H; [lia|]. apply arc_itself. Qed.
Lemma c163_great_circle : exists D, great_circle D.
Proof.
  exists (fun a b c d => match find (fun r => if Req_EM_T (arc (qr a) (qr b) (qr c) (qr d)) (IZR r) then true else false) (zrange 0 181) with Some r => qz r | None => 0%Qc end).
  intros a b c d r Hr E. destruct (find _ _) as [r'|] eqn:F.
  - apply find_some in F as [_ F]. destruct (Req_EM_T _ _) as [E'|]; [|discriminate]. rewrite E in E'. apply eq_IZR in E'. subst. reflexivity.
  - exfalso. apply find_none with (x := r) in F; [|apply in_zrange; lia]. destruct (Req_EM_T _ _); [discriminate|contradiction].
Qed.
Lemma c163_refuted D : great_circle D -> exists srt lats lons lat lon t i j, sorts_items srt /\ grid 1 3 lats lons /\ all_on_earth lats lons /\ on_earth lat lon /\
  build_tree srt lats lons = Ok t /\ tree_nearest (lift4 D) t (Fin lat) (Fin lon) = Ok (i, j) /\ ~ is_nearest (D lat lon) lats lons i j.
Proof.
  intros HG. pose proof (great_circle_zero D HG) as HZ. set (lats := [[fz (-5); fz 45; fz 90]]). set (lons := [[fz 0; fz 90; fz 100]]).
  set (A := {| it_lon := fz 0; it_lat := fz (-5); it_i := 0; it_j := 0 |}). set (P := {| it_lon := fz 90; it_lat := fz 45; it_i := 0; it_j := 1 |}). set (B := {| it_lon := fz 100; it_lat := fz 90; it_i := 0; it_j := 2 |}).
  assert (D1 : D (qz 45) (qz 0) (qz (-5)) (qz 0) = qz 50) by (apply HG; [lia|]; rewrite !qr_z, arc_meridian; lra).
  assert (D2 : D (qz 45) (qz 0) (qz 45) (qz 90) = qz 60) by (apply HG; [lia|]; rewrite !qr_z, arc_60; lra).
  assert (D3 : D (qz 45) (qz 0) (qz 90) (qz 100) = qz 45) by (apply HG; [lia|]; rewrite !qr_z, arc_pole; lra).
  assert (G : forall a b, In a [qz (-5); qz 45; qz 90] -> In b [qz 0; qz 90; qz 100] -> on_earth a b).
  { intros a b Ha Hb. cbn [In] in Ha, Hb. repeat (destruct Ha as [<-|Ha]); try contradiction; repeat (destruct Hb as [<-|Hb]); try contradiction; (split; [split; split; vm_compute; congruence|split; discriminate]). }
  assert (HP : forall i j la lo, point lats lons i j la lo -> In la [qz (-5); qz 45; qz 90] /\ In lo [qz 0; qz 90; qz 100]).
  { intros i j la lo (E1 & E2 & _). unfold get2 in E1, E2. destruct (znth lats i) as [r1| | |] eqn:R1; try discriminate. destruct (znth lons i) as [r2| | |] eqn:R2; try discriminate. cbn [bind] in E1, E2.
    apply znth_In in R1, R2. destruct R1 as [<-|[]]. destruct R2 as [<-|[]]. apply znth_In in E1, E2. split; [change [fz (-5); fz 45; fz 90] with (map Fin [qz (-5); qz 45; qz 90]) in E1; apply in_map_iff in E1 as (? & [= ->] & ?); auto|].
    change [fz 0; fz 90; fz 100] with (map Fin [qz 0; qz 90; qz 100]) in E2; apply in_map_iff in E2 as (? & [= ->] & ?); auto. }
  assert (HQ : on_earth (qz 45) (qz 0)) by (apply G; cbn; auto).
  exists sort_items, lats, lons, (qz 45), (qz 0), (Node P true (Node A false Nil Nil) (Node B false Nil Nil)), 0, 0.
  split; [exact sort_items_ok|]. split. { split; [lia|]. split; [lia|]. split; (split; [reflexivity|intros r [<-|[]]; reflexivity]). }
  split. { intros i j la lo Hp. apply HP in Hp as [H1 H2]. apply G; auto. } split; [exact HQ|]. split; [vcalc|]. split.
  - unfold tree_nearest. change (height (Node P true (Node A false Nil Nil) (Node B false Nil Nil))) with 2%nat.
    assert (N : nearest (lift4 D) 2 (Node P true (Node A false Nil Nil) (Node B false Nil Nil)) (Fin (qz 0)) (Fin (qz 45)) PInf = Ok (A, Fin (qz 50))).
    { cbn [nearest]. replace (path (Node P true (Node A false Nil Nil) (Node B false Nil Nil)) (Fin (qz 0)) (Fin (qz 45))) with [(Node A false Nil Nil, Itself); (Node P true (Node A false Nil Nil) (Node B false Nil Nil), FromLeft)] by vcalc.
      cbn [foldM]. change (it_lat A) with (Fin (qz (-5))). change (it_lon A) with (Fin (qz 0)). change (it_lat P) with (Fin (qz 45)). change (it_lon P) with (Fin (qz 90)).
      rewrite (distance_value D (qz 45) (qz 0) (qz (-5)) (qz 0)) by (auto; apply G; cbn; auto). cbn [bind]. rewrite D1. change (vltb (Fin (qz 50)) PInf) with true. cbv iota beta. cbn [bind].
      replace (vltb (Fin (qz 50)) (Fin (qz 50))) with false by vcalc. cbn [bind].
      rewrite (distance_value D (qz 45) (qz 0) (qz 45) (qz 90)) by (auto; apply G; cbn; auto). cbn [bind]. rewrite D2. replace (vltb (Fin (qz 60)) (Fin (qz 50))) with false by vcalc. cbv iota beta. cbn [bind].
      replace (vltb (Fin (qz 60)) (Fin (qz 50))) with false by vcalc. reflexivity. }
    rewrite N. reflexivity.
  - intros (la & lo & (E1 & E2 & _) & H). injection E1 as <-. injection E2 as <-. specialize (H 0 2 (qz 90) (qz 100)). rewrite D1, D3 in H.
    assert (HH : (qz 50 <= qz 45)%Qc) by (apply H; repeat split; discriminate). vm_compute in HH. apply HH. reflexivity.
Qed.

(** a distance along the axes *)
Definition l1 (a b c d : Qc) : Qc := (qabs (a - c) + qabs (b - d))%Qc.
Lemma qabs_cases x : (0 <= x)%Qc /\ qabs x = x \/ (x < 0)%Qc /\ qabs x = (- x)%Qc.
Proof. unfold qabs. destruct (qltb_spec x 0); [right; auto|left; split; [qlra|reflexivity]]. Qed.
Lemma l1_zero : zero_at_itself l1.
Proof. intros a b. unfold l1. replace (a - a)%Qc with 0%Qc by ring. replace (b - b)%Qc with 0%Qc by ring. reflexivity. Qed.
Lemma l1_straight : straight l1.
Proof.
  split; intros lat lon plat plon c H; unfold l1.
  - destruct (qabs_cases (lat - lat)) as [[A1 ->]|[A1 ->]], (qabs_cases (lon - c)) as [[A2 ->]|[A2 ->]], (qabs_cases (lat - plat)) as [[A3 ->]|[A3 ->]], (qabs_cases (lon - plon)) as [[A4 ->]|[A4 ->]]; destruct H as [[H1 H2]|[H1 H2]]; qlra.
  - destruct (qabs_cases (lat - c)) as [[A1 ->]|[A1 ->]], (qabs_cases (lon - lon)) as [[A2 ->]|[A2 ->]], (qabs_cases (lat - plat)) as [[A3 ->]|[A3 ->]], (qabs_cases (lon - plon)) as [[A4 ->]|[A4 ->]]; destruct H as [[H1 H2]|[H1 H2]]; qlra.
Qed.
Lemma l1_nonneg a b c d : (0 <= l1 a b c d)%Qc.
Proof. unfold l1. destruct (qabs_cases (a - c)) as [[A1 ->]|[A1 ->]], (qabs_cases (b - d)) as [[A3 ->]|[A3 ->]]; qlra. Qed.
