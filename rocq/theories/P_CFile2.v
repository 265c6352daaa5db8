From Coq Require Import Ascii String.
From Verif Require Import Base ListLib M_COpt M_CUtil M_CCal M_CDown M_CFile S_CUtil S_CCal S_CFile P_COpt P_CCal P_CFile.
Local Open Scope Z_scope.

Lemma holds_slot F v t p : Inv F -> (holds F v t p <-> slot F (v_name v) t = Some p).
Proof.
  intros IV. split.
  - intros H. destruct (H {| k_has := fun _ => false; k_read := fun _ h _ _ => Ok (h, 0) |} true) as (F' & E & EH).
    destruct (slot F (v_name v) t) as [q|] eqn:S.
    + rewrite (get_cached _ F v t true q IV S) in E. injection E as <- _. reflexivity.
    + exfalso. destruct (Z_lt_dec t 0) as [L|L]; [exact (get_negative _ F v t true _ IV L E)|].
      destruct (Z_le_dec (d_t (f_dims F)) t) as [G|G]; [rewrite (get_late _ F v t true IV G) in E; discriminate|].
      destruct (get_empty {| k_has := fun _ => false; k_read := fun _ h _ _ => Ok (h, 0) |} F v t true IV S ltac:(lia) eq_refl) as (F2 & fs & E2 & _ & _ & H2 & L2 & _).
      rewrite E2 in E. injection E as _ <-. rewrite H2 in EH. apply (f_equal zlen) in EH. rewrite zlen_app in EH. lia.
  - intros S K skip. exists (define v F). split; [apply get_cached; assumption|]. apply define_fields.
Qed.
Lemma slot_range F n t p : Inv F -> slot F n t = Some p -> in_time F t.
Proof.
  intros [_ IS] H. unfold slot in H. destruct (find_name (f_cache F) n) as [s|] eqn:FS; [|discriminate]. destruct (znth s t) eqn:Z; try discriminate.
  pose proof (znth_range _ _ _ Z). rewrite (IS _ _ FS) in *. assumption.
Qed.
Lemma get_range K F v t skip r : Inv F -> get_field K F v t skip = Ok r -> in_time F t.
Proof.
  intros IV E. unfold in_time. destruct (Z_lt_dec t 0) as [L|L]; [exfalso; exact (get_negative _ F v t skip _ IV L E)|].
  destruct (Z_le_dec (d_t (f_dims F)) t) as [G|G]; [rewrite (get_late _ F v t skip IV G) in E; discriminate|]. lia.
Qed.
(** a read changes the fields of its variable only *)
Definition grown (F F' : file) : Prop := f_dims F' = f_dims F /\ f_alias F' = f_alias F /\ Inv F'.
Lemma get_inv K F v t skip p F' : Inv F -> get_field K F v t skip = Ok (p, F') ->
  grown F F' /\ in_time F t /\
  ((exists q, slot F (v_name v) t = Some q /\ p = Some q /\ F' = define v F) \/
   (slot F (v_name v) t = None /\ negb skip && k_has K v = true /\ exists h q, k_read K (f_dims F) (f_heap F) v t = Ok (h, q) /\ p = Some q /\ f_heap F' = h /\
      (forall n t', slot F' n t' = if str_eqb (v_name v) n && (t =? t') then Some q else slot F n t')) \/
   (slot F (v_name v) t = None /\ negb skip && k_has K v = false /\ p = Some (zlen (f_heap F) + t) /\ exists fs, f_heap F' = f_heap F ++ fs /\ zlen fs = d_t (f_dims F) /\ (forall f, In f fs -> all_missing F f) /\
      (forall n t', slot F' n t' = if str_eqb (v_name v) n && (0 <=? t') && (t' <? d_t (f_dims F)) then Some (zlen (f_heap F) + t') else slot F n t'))).
Proof.
  intros IV E. pose proof (get_range _ _ _ _ _ _ IV E) as T. destruct (slot F (v_name v) t) as [q|] eqn:S.
  - rewrite (get_cached K F v t skip q IV S) in E. injection E as <- <-. destruct (define_fields v F) as (A & B & C & D).
    split; [split; [exact A|split; [exact D|apply define_inv, IV]]|]. split; [exact T|]. left. exists q. auto.
  - destruct (negb skip && k_has K v) eqn:HK.
    + destruct skip; [discriminate|]. cbn [negb andb] in HK. pose proof E as E0. rewrite (get_step K F v t false IV S T) in E0. cbn [negb] in E0. rewrite HK in E0. cbn [andb] in E0.
      apply bind_Ok in E0. destruct E0 as (G & E0 & _). apply bind_Ok in E0. destruct E0 as ([h q] & RD & _).
      destruct (get_read K F v t h q IV S T HK RD) as (F2 & E2 & (SD & SA) & I2 & H2 & S2). rewrite E in E2. injection E2 as -> ->.
      split; [split; [exact SD|split; assumption]|]. split; [exact T|]. right; left. split; [reflexivity|]. split; [reflexivity|]. exists h, q. auto.
    + destruct (get_empty K F v t skip IV S T HK) as (F2 & fs & E2 & (SD & SA) & I2 & H2 & L2 & M2 & S2). rewrite E in E2. injection E2 as -> ->.
      split; [split; [exact SD|split; assumption]|]. split; [exact T|]. right; right. split; [reflexivity|]. split; [reflexivity|]. split; [reflexivity|]. exists fs. auto.
Qed.
Lemma add_inv F f v t F' : Inv F -> (let '(G, p) := create F f in add_field G (Some p) v t) = Ok F' ->
  grown F F' /\ in_time F t /\ f_heap F' = f_heap F ++ [f] /\ (forall n t', slot F' n t' = if str_eqb (v_name v) n && (t =? t') then Some (zlen (f_heap F)) else slot F n t').
Proof.
  intros IV E. cbn [create] in E. set (G := with_cache F (f_heap F ++ [f]) (f_cache F)) in *. assert (GI : Inv G) by (destruct IV as [X Y]; split; cbn; assumption).
  assert (T : in_time F t). { destruct (Z_le_dec 0 t) as [A|A]; [destruct (Z_lt_dec t (d_t (f_dims F))) as [B|B]; [split; assumption|]|]; exfalso; rewrite (add_out G _ v t GI) in E by (unfold in_time, G; cbn; lia); discriminate. }
  destruct (add_spec G (Some (zlen (f_heap F))) v t GI T) as (F2 & E2 & (SD & SA) & H2 & I2 & S2 & _). rewrite E in E2. injection E2 as ->.
  split; [split; [exact SD|split; [exact SA|exact I2]]|]. split; [exact T|]. split; [exact H2|exact S2].
Qed.
Lemma init_inv K F v F' : Inv F -> init_new K F v = Ok F' ->
  grown F F' /\ (F' = F \/ (has_variable K F v = false /\ exists fs, f_heap F' = f_heap F ++ fs /\ zlen fs = d_t (f_dims F) /\ (forall f, In f fs -> all_missing F f) /\ (forall t, slot F (v_name v) t = None) /\
      (forall n t', slot F' n t' = if str_eqb (v_name v) n && (0 <=? t') && (t' <? d_t (f_dims F)) then Some (zlen (f_heap F) + t') else slot F n t'))).
Proof.
  intros IV E. unfold init_new in E. destruct (has_variable K F v) eqn:HV.
  - injection E as <-. split; [split; [reflexivity|split; [reflexivity|exact IV]]|]. left; reflexivity.
  - destruct (add_empty_spec F v IV) as (F2 & fs & E2 & (SD & SA) & I2 & H2 & L2 & M2 & S2 & _). rewrite E in E2. injection E2 as ->.
    split; [split; [exact SD|split; assumption]|]. right. split; [reflexivity|]. exists fs. split; [exact H2|]. split; [exact L2|]. split; [exact M2|]. split; [|exact S2].
    intros t. unfold has_variable in HV. unfold slot. destruct (find_name (f_cache F) (v_name v)); [rewrite orb_true_r in HV; discriminate|reflexivity].
Qed.
Lemma do1_grown K F o F' : Inv F -> do1 K F o = Ok F' -> grown F F'.
Proof.
  intros IV E. destruct o as [v t skip|n t|f v t|v| |p f]; cbn [do1] in E.
  - apply bind_Ok in E. destruct E as ([p G] & E & X). injection X as <-. exact (proj1 (get_inv _ _ _ _ _ _ _ IV E)).
  - apply bind_Ok in E. destruct E as ([p G] & E & X). injection X as <-. exact (proj1 (get_inv _ _ _ _ _ _ _ IV E)).
  - exact (proj1 (add_inv _ _ _ _ _ IV E)).
  - exact (proj1 (init_inv _ _ _ _ IV E)).
  - injection E as <-. split; [reflexivity|]. split; [reflexivity|]. destruct IV as [A B]. split; [exact A|]. cbn. discriminate.
  - unfold assign in E. apply bind_Ok in E. destruct E as (h & _ & X). injection X as <-. split; [reflexivity|]. split; [reflexivity|]. destruct IV as [A B]. split; assumption.
Qed.
Lemma run_grown K ops : forall F F', Inv F -> run K F ops = Ok F' -> grown F F'.
Proof.
  unfold run. induction ops as [|o ops IH]; intros F F' IV E; cbn [foldM] in E.
  - injection E as <-. split; [reflexivity|]. split; [reflexivity|exact IV].
  - apply bind_Ok in E. destruct E as (G & E1 & E). destruct (do1_grown _ _ _ _ IV E1) as (A & B & C). destruct (IH G F' C E) as (A' & B' & C'). split; [congruence|]. split; [congruence|exact C'].
Qed.
Lemma opened_inv d h vars al : 0 <= d_y d -> 0 <= d_x d -> 0 <= d_e d -> 0 <= d_t d -> Inv (opened d h vars al).
Proof. intros. split; [cbn; auto|]. cbn. discriminate. Qed.
Lemma reached_inv K F : reached K F -> Inv F.
Proof. intros (d & h & vars & al & ops & A & B & C & D & E). exact (proj2 (proj2 (run_grown _ _ _ _ (opened_inv d h vars al A B C D) E))). Qed.

(** a registered field is returned *)
Lemma c232 K F f v t : reached K F ->
  (in_time F t -> exists F', do1 K F (AddNew f v t) = Ok F') /\
  (forall F', do1 K F (AddNew f v t) = Ok F' ->
    (exists p, deref F' (Some p) = Ok f /\ forall w, same_name w v -> holds F' w t p) /\
    (forall w t' q, holds F w t' q -> ~ (same_name w v /\ t' = t) -> holds F' w t' q) /\
    (forall q g, deref F (Some q) = Ok g -> deref F' (Some q) = Ok g)).
Proof.
  intros R. pose proof (reached_inv _ _ R) as IV. split.
  - intros T. cbn [do1 create]. destruct (add_spec (with_cache F (f_heap F ++ [f]) (f_cache F)) (Some (zlen (f_heap F))) v t) as (F' & E & _); [destruct IV; split; assumption|exact T|]. eauto.
  - intros F' E. destruct (add_inv _ _ _ _ _ IV E) as ((D & A & I') & T & HH & HS). split.
    + exists (zlen (f_heap F)). split; [cbn; rewrite HH, znth_app_r by lia; rewrite Z.sub_diag; reflexivity|]. intros w SN. apply (holds_slot F' w t _ I'). unfold same_name in SN. rewrite HS, SN, str_eqb_refl, Z.eqb_refl. reflexivity.
    + split.
      * intros w t' q H N. apply (holds_slot F w t' q IV) in H. apply (holds_slot F' w t' q I'). rewrite HS. destruct (str_eqb_spec (v_name v) (v_name w)) as [e|]; cbn [andb]; [|exact H].
        destruct (Z.eqb_spec t t') as [<-|]; [exfalso; apply N; split; [unfold same_name; congruence|reflexivity]|exact H].
      * intros q g H. cbn in H |- *. rewrite HH. pose proof (znth_range _ _ _ H). rewrite znth_app_l by lia. exact H.
Qed.

(** handles stay *)
Lemma do1_stays K F o F' v t p : Inv F -> do1 K F o = Ok F' -> ~ replaces v t o -> slot F (v_name v) t = Some p ->
  ((provided K v /\ ~ skips v o) \/ (forall t', in_time F t' -> slot F (v_name v) t' <> None)) -> slot F' (v_name v) t = Some p.
Proof.
  intros IV E NR S CASE.
  assert (GET : forall w t' skip q G, get_field K F w t' skip = Ok (q, G) -> (same_name w v -> provided K v -> skip = false \/ forall t', in_time F t' -> slot F (v_name v) t' <> None) -> slot G (v_name v) t = Some p).
  { intros w t' skip q G EG SK. destruct (get_inv _ _ _ _ _ _ _ IV EG) as (_ & T' & [(x & _ & _ & ->)|[(SN & HK & h & x & _ & _ & _ & HS)|(SN & HK & _ & fs & _ & _ & _ & HS)]]).
    - rewrite define_slot. exact S.
    - rewrite HS. destruct (str_eqb_spec (v_name w) (v_name v)) as [e|]; cbn [andb]; [|exact S]. destruct (Z.eqb_spec t' t) as [->|]; [congruence|exact S].
    - rewrite HS. destruct (str_eqb_spec (v_name w) (v_name v)) as [e|]; cbn [andb]; [|exact S]. exfalso. rewrite e in SN.
      destruct CASE as [[PR NS]|W]; [|exact (W t' T' SN)]. destruct (SK e PR) as [->|W]; [|exact (W t' T' SN)]. rewrite (PR w e) in HK. discriminate. }
  destruct o as [w t' skip|n t'|f w t'|w| |q f]; cbn [do1] in E.
  - apply bind_Ok in E. destruct E as ([q G] & E & X). injection X as <-. apply (GET _ _ _ _ _ E). intros SN PR. destruct CASE as [[_ NS]|W]; [|right; exact W]. left. destruct skip; [|reflexivity]. exfalso. apply NS. exact SN.
  - apply bind_Ok in E. destruct E as ([q G] & E & X). injection X as <-. apply (GET _ _ _ _ _ E). auto.
  - destruct (add_inv _ _ _ _ _ IV E) as (_ & _ & _ & HS). rewrite HS. destruct (str_eqb_spec (v_name w) (v_name v)) as [e|]; cbn [andb]; [|exact S]. destruct (Z.eqb_spec t' t) as [->|]; [|exact S].
    exfalso. apply NR. split; [exact e|reflexivity].
  - destruct (init_inv _ _ _ _ IV E) as (_ & [->|(_ & fs & _ & _ & _ & NS & HS)]); [exact S|]. rewrite HS. destruct (str_eqb_spec (v_name w) (v_name v)) as [e|]; cbn [andb]; [|exact S]. rewrite <- e, NS in S. discriminate.
  - exfalso. apply NR. exact Logic.I.
  - unfold assign in E. apply bind_Ok in E. destruct E as (h & _ & X). injection X as <-. exact S.
Qed.
Lemma do1_whole K F o F' v : Inv F -> do1 K F o = Ok F' -> o <> Clear -> (forall t', in_time F t' -> slot F (v_name v) t' <> None) -> forall t', in_time F' t' -> slot F' (v_name v) t' <> None.
Proof.
  intros IV E NC W t T. destruct (do1_grown _ _ _ _ IV E) as (GD & _ & I'). unfold in_time in T. rewrite GD in T. specialize (W t T). destruct (slot F (v_name v) t) as [p|] eqn:S; [|congruence].
  assert (GET : forall w t' skip q G, get_field K F w t' skip = Ok (q, G) -> slot G (v_name v) t <> None).
  { intros w t' skip q G EG. destruct (get_inv _ _ _ _ _ _ _ IV EG) as (_ & T' & [(x & _ & _ & ->)|[(SN & HK & h & x & _ & _ & _ & HS)|(SN & HK & _ & fs & _ & _ & _ & HS)]]).
    - rewrite define_slot. congruence.
    - rewrite HS. destruct (str_eqb _ _ && _); congruence.
    - rewrite HS. destruct (str_eqb _ _ && _ && _); congruence. }
  destruct o as [w t' skip|n t'|f w t'|w| |q f]; cbn [do1] in E.
  - apply bind_Ok in E. destruct E as ([q G] & E & X). injection X as <-. exact (GET _ _ _ _ _ E).
  - apply bind_Ok in E. destruct E as ([q G] & E & X). injection X as <-. exact (GET _ _ _ _ _ E).
  - destruct (add_inv _ _ _ _ _ IV E) as (_ & _ & _ & HS). rewrite HS. destruct (str_eqb _ _ && _); congruence.
  - destruct (init_inv _ _ _ _ IV E) as (_ & [->|(_ & fs & _ & _ & _ & NS & HS)]); [congruence|]. rewrite HS. destruct (str_eqb _ _ && _ && _); congruence.
  - congruence.
  - unfold assign in E. apply bind_Ok in E. destruct E as (h & _ & X). injection X as <-. change (slot F (v_name v) t <> None). congruence.
Qed.
Lemma c233 K F F' ops v t p : reached K F -> run K F ops = Ok F' -> holds F v t p -> (forall o, In o ops -> ~ replaces v t o) ->
  ((provided K v /\ forall o, In o ops -> ~ skips v o) \/ whole F v) -> holds F' v t p.
Proof.
  intros R E H NR CASE. pose proof (reached_inv _ _ R) as IV. clear R. apply (holds_slot F v t p IV) in H.
  assert (C2 : (provided K v /\ forall o, In o ops -> ~ skips v o) \/ (forall t', in_time F t' -> slot F (v_name v) t' <> None)).
  { destruct CASE as [C|W]; [left; exact C|right]. intros t' T'. destruct (W t' T') as (q & HQ). apply (holds_slot F v t' q IV) in HQ. congruence. }
  clear CASE. revert F IV E H C2. unfold run. induction ops as [|o ops IH]; intros F IV E H C2; cbn [foldM] in E.
  - injection E as <-. apply (holds_slot F v t p IV). exact H.
  - apply bind_Ok in E. destruct E as (G & E1 & E). pose proof (do1_grown _ _ _ _ IV E1) as (_ & _ & GI).
    apply (IH (fun x IN => NR x (or_intror IN)) G GI E).
    + apply (do1_stays K F o G v t p IV E1 (NR o (or_introl eq_refl)) H). destruct C2 as [[PR NS]|W]; [left; split; [exact PR|apply NS; left; reflexivity]|right; exact W].
    + destruct C2 as [[PR NS]|W]; [left; split; [exact PR|intros x IN; apply NS; right; exact IN]|right]. apply (do1_whole K F o G v IV E1); [|exact W]. intros ->. apply (NR Clear (or_introl eq_refl)). exact Logic.I.
Qed.
Lemma c234 K F v t skip : reached K F -> ~ in_time F t -> (forall r, get_field K F v t skip <> Ok r) /\ (0 <= t -> get_field K F v t skip = Abort) /\ (forall t' p, holds F v t' p -> get_field K F v t skip = Abort).
Proof.
  intros R T. pose proof (reached_inv _ _ R) as IV. unfold in_time in T. split; [|split].
  - intros r E. apply T. exact (get_range _ _ _ _ _ _ IV E).
  - intros P. apply get_late; [exact IV|lia].
  - intros t' p H. apply (holds_slot F v t' p IV) in H. destruct (Z_lt_dec t 0) as [L|L]; [|apply get_late; [exact IV|lia]].
    unfold slot in H. unfold get_field. destruct (find_name (f_cache F) (v_name v)); [|discriminate]. destruct (Z.ltb_spec t 0); [reflexivity|lia].
Qed.
(** what is read *)
Lemma keeps_heap F F' fs : f_heap F' = f_heap F ++ fs -> forall q g, deref F (Some q) = Ok g -> deref F' (Some q) = Ok g.
Proof. intros E q g H. cbn in H |- *. rewrite E. pose proof (znth_range _ _ _ H). rewrite znth_app_l by lia. exact H. Qed.

(** formats that make a new field for each read *)
Definition Sep (F : file) : Prop :=
  (forall n t p, slot F n t = Some p -> 0 <= p < zlen (f_heap F)) /\ (forall n t m u p, slot F n t = Some p -> slot F m u = Some p -> n = m /\ t = u).
Lemma sep_app F F' fs base n0 (S : Z -> bool) (at_ : Z -> Z) : Sep F -> f_heap F' = f_heap F ++ fs -> zlen (f_heap F) = base ->
  (forall t, S t = true -> base <= at_ t < base + zlen fs) -> (forall t u, S t = true -> S u = true -> at_ t = at_ u -> t = u) ->
  (forall n t, slot F' n t = if str_eqb n0 n && S t then Some (at_ t) else slot F n t) -> Sep F'.
Proof.
  intros [S1 S2] HH HB HR HI HS. split.
  - intros n t p H. rewrite HS in H. rewrite HH, zlen_app. pose proof (zlen_nonneg fs). pose proof (zlen_nonneg (f_heap F)). destruct (str_eqb n0 n && S t) eqn:C.
    + injection H as <-. apply andb_prop in C. destruct C as [_ C]. pose proof (HR _ C). lia.
    + pose proof (S1 _ _ _ H). lia.
  - intros n t m u p H1 H2. rewrite HS in H1, H2. destruct (str_eqb n0 n && S t) eqn:C; destruct (str_eqb n0 m && S u) eqn:D.
    + apply andb_prop in C, D. destruct C as [C1 C2], D as [D1 D2]. destruct (str_eqb_spec n0 n); [|discriminate]. destruct (str_eqb_spec n0 m); [|discriminate]. split; [congruence|]. apply HI; auto. congruence.
    + exfalso. apply andb_prop in C. destruct C as [_ C]. pose proof (HR _ C). pose proof (S1 _ _ _ H2). injection H1 as <-. lia.
    + exfalso. apply andb_prop in D. destruct D as [_ D]. pose proof (HR _ D). pose proof (S1 _ _ _ H1). injection H2 as <-. lia.
    + exact (S2 _ _ _ _ _ H1 H2).
Qed.
Lemma sep_same F F' : (forall n t, slot F' n t = slot F n t) -> zlen (f_heap F') = zlen (f_heap F) -> Sep F -> Sep F'.
Proof. intros A B [S1 S2]. split; [intros n t p H; rewrite A in H; rewrite B; exact (S1 _ _ _ H)|intros n t m u p H1 H2; rewrite A in H1, H2; exact (S2 _ _ _ _ _ H1 H2)]. Qed.
Lemma sep_get has content F v t skip p F' : Inv F -> Sep F -> get_field (fresh_core has content) F v t skip = Ok (p, F') -> Sep F'.
Proof.
  intros IV SP E. destruct (get_inv _ _ _ _ _ _ _ IV E) as (_ & T & [(x & _ & _ & ->)|[(SN & HK & h & x & RD & _ & HH & HS)|(SN & HK & _ & fs & HH & HL & _ & HS)]]).
  - apply (sep_same F); [apply define_slot| |exact SP]. f_equal. apply define_fields.
  - cbn in RD. apply bind_Ok in RD. destruct RD as (f & _ & X). injection X as <- <-.
    apply (sep_app F F' [f] (zlen (f_heap F)) (v_name v) (Z.eqb t) (fun _ => zlen (f_heap F)) SP HH eq_refl).
    + intros u _. change (zlen [f]) with 1. lia.
    + intros a b A B _. apply Z.eqb_eq in A, B. congruence.
    + exact HS.
  - apply (sep_app F F' fs (zlen (f_heap F)) (v_name v) (fun u => (0 <=? u) && (u <? d_t (f_dims F))) (fun u => zlen (f_heap F) + u) SP HH eq_refl).
    + intros u H. apply andb_prop in H. destruct H as [A B]. apply Z.leb_le in A. apply Z.ltb_lt in B. rewrite HL. lia.
    + intros; lia.
    + intros n u. rewrite HS, <- andb_assoc. reflexivity.
Qed.
Lemma sep_do1 has content F o F' : Inv F -> Sep F -> do1 (fresh_core has content) F o = Ok F' -> Sep F'.
Proof.
  intros IV SP E. destruct o as [w t' skip|n t'|f w t'|w| |q f]; cbn [do1] in E.
  - apply bind_Ok in E. destruct E as ([q G] & E & X). injection X as <-. exact (sep_get _ _ _ _ _ _ _ _ IV SP E).
  - apply bind_Ok in E. destruct E as ([q G] & E & X). injection X as <-. exact (sep_get _ _ _ _ _ _ _ _ IV SP E).
  - destruct (add_inv _ _ _ _ _ IV E) as (_ & _ & HH & HS). apply (sep_app F F' [f] (zlen (f_heap F)) (v_name w) (Z.eqb t') (fun _ => zlen (f_heap F)) SP HH eq_refl).
    + intros u _. change (zlen [f]) with 1. lia.
    + intros a b A B _. apply Z.eqb_eq in A, B. congruence.
    + exact HS.
  - destruct (init_inv _ _ _ _ IV E) as (_ & [->|(_ & fs & HH & HL & _ & _ & HS)]); [exact SP|].
    apply (sep_app F F' fs (zlen (f_heap F)) (v_name w) (fun u => (0 <=? u) && (u <? d_t (f_dims F))) (fun u => zlen (f_heap F) + u) SP HH eq_refl).
    + intros u H. apply andb_prop in H. destruct H as [A B]. apply Z.leb_le in A. apply Z.ltb_lt in B. rewrite HL. lia.
    + intros; lia.
    + intros n u. rewrite HS, <- andb_assoc. reflexivity.
  - injection E as <-. split; cbn; discriminate.
  - unfold assign in E. apply bind_Ok in E. destruct E as (h & Z & X). injection X as <-. apply (sep_same F); [reflexivity| |exact SP]. cbn. apply zset_inv in Z. destruct Z as (_ & -> ). apply zlen_lset.
Qed.
Lemma reached_sep has content F : reached (fresh_core has content) F -> Sep F.
Proof.
  intros (d & h & vars & al & ops & A & B & C & D & E). pose proof (opened_inv d h vars al A B C D) as IV. assert (SP : Sep (opened d h vars al)) by (split; cbn; discriminate).
  revert E IV SP. generalize (opened d h vars al). unfold run. induction ops as [|o ops IH]; intros G E IV SP; cbn [foldM] in E; [injection E as <-; exact SP|].
  apply bind_Ok in E. destruct E as (G2 & E1 & E). apply (IH G2 E); [exact (proj2 (proj2 (do1_grown _ _ _ _ IV E1)))|exact (sep_do1 _ _ _ _ _ IV SP E1)].
Qed.
Lemma no_slot F v t : Inv F -> (forall p, ~ holds F v t p) -> slot F (v_name v) t = None.
Proof. intros IV H. destruct (slot F (v_name v) t) as [p|] eqn:S; [|reflexivity]. exfalso. apply (H p), holds_slot; assumption. Qed.
Lemma c235_file has content F v t f : let K := fresh_core has content in reached K F -> in_time F t -> (forall p, ~ holds F v t p) -> has v = true -> content v t = Ok f ->
  exists p F', get_field K F v t false = Ok (Some p, F') /\ deref F' (Some p) = Ok f /\ holds F' v t p /\ (forall w t' q, holds F w t' q -> q <> p /\ holds F' w t' q) /\
    (forall q g, deref F (Some q) = Ok g -> deref F' (Some q) = Ok g).
Proof.
  intros K R T NH HV CT. pose proof (reached_inv _ _ R) as IV. pose proof (reached_sep _ _ _ R) as SP. pose proof (no_slot F v t IV NH) as NS.
  destruct (get_read K F v t (f_heap F ++ [f]) (zlen (f_heap F)) IV NS T HV) as (F' & E & (SD & SA) & I' & HH & HS); [cbn; rewrite CT; reflexivity|].
  exists (zlen (f_heap F)), F'. split; [exact E|]. split; [cbn; rewrite HH, znth_app_r, Z.sub_diag by lia; reflexivity|].
  split; [apply (holds_slot F' v t _ I'); rewrite HS, str_eqb_refl, Z.eqb_refl; reflexivity|]. split; [|exact (keeps_heap F F' [f] HH)].
  intros w t' q H. apply (holds_slot F w t' q IV) in H. split; [pose proof (proj1 SP _ _ _ H); lia|]. apply (holds_slot F' w t' q I'). rewrite HS.
  destruct (str_eqb_spec (v_name v) (v_name w)) as [e|]; cbn [andb]; [|exact H]. destruct (Z.eqb_spec t t') as [<-|]; [|exact H]. rewrite <- e, NS in H. discriminate.
Qed.
Lemma c235_empty K F v t skip : reached K F -> in_time F t -> (forall p, ~ holds F v t p) -> (skip = true \/ k_has K v = false) ->
  exists p F', get_field K F v t skip = Ok (Some p, F') /\ (forall t', in_time F t' -> exists q f, holds F' v t' q /\ deref F' (Some q) = Ok f /\ all_missing F f) /\ holds F' v t p /\
    (forall w t' q, ~ same_name w v -> holds F w t' q -> holds F' w t' q) /\ (forall q g, deref F (Some q) = Ok g -> deref F' (Some q) = Ok g).
Proof.
  intros R T NH SK. pose proof (reached_inv _ _ R) as IV. pose proof (no_slot F v t IV NH) as NS.
  destruct (get_empty K F v t skip IV NS T) as (F' & fs & E & (SD & SA) & I' & HH & HL & HM & HS); [destruct SK as [-> | ->]; [reflexivity|apply andb_false_r]|].
  exists (zlen (f_heap F) + t), F'. split; [exact E|].
  assert (ALL : forall t', in_time F t' -> holds F' v t' (zlen (f_heap F) + t')). { intros t' T'. apply (holds_slot F' v t' _ I'). rewrite HS, str_eqb_refl. unfold in_time in T'. destruct (Z.leb_spec 0 t'); [|lia]. destruct (Z.ltb_spec t' (d_t (f_dims F))); [reflexivity|lia]. }
  split; [|split; [exact (ALL t T)|split; [|exact (keeps_heap F F' fs HH)]]].
  - intros t' T'. unfold in_time in T'. destruct (znth_some fs t') as (f & Hf); [lia|]. exists (zlen (f_heap F) + t'), f. split; [exact (ALL t' T')|]. split; [|exact (HM f (znth_In _ _ _ Hf))].
    cbn. rewrite HH, znth_app_r by lia. replace (zlen (f_heap F) + t' - zlen (f_heap F)) with t' by lia. exact Hf.
  - intros w t' q N H. apply (holds_slot F w t' q IV) in H. apply (holds_slot F' w t' q I'). rewrite HS. destruct (str_eqb_spec (v_name v) (v_name w)) as [e|]; cbn [andb]; [|exact H]. exfalso. apply N. unfold same_name. congruence.
Qed.
Lemma c236 has content F v t p w t' q : let K := fresh_core has content in reached K F -> holds F v t p -> holds F w t' q -> ~ (same_name v w /\ t = t') ->
  p <> q /\ (forall f, exists F', assign F p f = Ok F' /\ deref F' (Some p) = Ok f /\ deref F' (Some q) = deref F (Some q)).
Proof.
  intros K R H1 H2 N. pose proof (reached_inv _ _ R) as IV. pose proof (reached_sep _ _ _ R) as [S1 S2]. apply (holds_slot F v t p IV) in H1. apply (holds_slot F w t' q IV) in H2.
  assert (D : p <> q). { intros <-. apply N. destruct (S2 _ _ _ _ _ H1 H2) as [A B]. split; assumption. }
  split; [exact D|]. intros f. pose proof (S1 _ _ _ H1) as R1. pose proof (S1 _ _ _ H2) as R2. exists (with_cache F (lset (f_heap F) (Z.to_nat p) f) (f_cache F)). unfold assign. rewrite (zset_Ok _ _ _ R1). cbn [bind].
  split; [reflexivity|]. cbn. split; [rewrite znth_lset by assumption; rewrite Z.eqb_refl; reflexivity|]. rewrite znth_lset by assumption. destruct (Z.eqb_spec q p); [congruence|reflexivity].
Qed.
Lemma c237 K F v : reached K F -> 0 < d_t (f_dims F) ->
  exists F', init_new K F v = Ok F' /\ bypass K F v = Ok F' /\ has_variable K F' v = true /\
    (forall w t p, holds F w t p -> holds F' w t p) /\ (forall q g, deref F (Some q) = Ok g -> deref F' (Some q) = Ok g) /\
    (has_variable K F v = true -> F' = F) /\
    (has_variable K F v = false -> forall t, in_time F t -> exists p f, holds F' v t p /\ deref F' (Some p) = Ok f /\ all_missing F f).
Proof.
  intros R P. pose proof (reached_inv _ _ R) as IV. destruct (has_variable K F v) eqn:HV.
  - exists F. unfold bypass, init_new. rewrite HV. do 6 (split; [auto|]). discriminate.
  - assert (EX : exists F', init_new K F v = Ok F'). { unfold init_new. rewrite HV. destruct (add_empty_spec F v IV) as (F' & fs & E & _). eauto. }
    destruct EX as (F' & E). exists F'. destruct (init_inv _ _ _ _ IV E) as ((GD & GA & I') & [->|(_ & fs & HH & HL & HM & NS & HS)]).
    + exfalso. unfold init_new in E. rewrite HV in E. destruct (add_empty_spec F v IV) as (F2 & fs & E2 & _ & _ & H2 & L2 & _). rewrite E in E2. injection E2 as <-. apply (f_equal zlen) in H2. rewrite zlen_app in H2. lia.
    + assert (ALL : forall t', in_time F t' -> holds F' v t' (zlen (f_heap F) + t')). { intros t' T'. apply (holds_slot F' v t' _ I'). rewrite HS, str_eqb_refl. unfold in_time in T'. destruct (Z.leb_spec 0 t'); [|lia]. destruct (Z.ltb_spec t' (d_t (f_dims F))); [reflexivity|lia]. }
      split; [exact E|]. split; [unfold bypass; rewrite HV; exact E|]. split; [|split; [|split; [exact (keeps_heap F F' fs HH)|split; [discriminate|]]]].
      * unfold has_variable. assert (S0 : slot F' (v_name v) 0 <> None). { pose proof (ALL 0 ltac:(unfold in_time; lia)) as H. apply (holds_slot F' v 0 _ I') in H. congruence. }
        unfold slot in S0. destruct (find_name (f_cache F') (v_name v)); [apply orb_true_r|congruence].
      * intros w t p H. apply (holds_slot F w t p IV) in H. apply (holds_slot F' w t p I'). rewrite HS. destruct (str_eqb_spec (v_name v) (v_name w)) as [e|]; cbn [andb]; [|exact H]. rewrite <- e, NS in H. discriminate.
      * intros _ t T. pose proof T as T'. unfold in_time in T'. destruct (znth_some fs t) as (f & Hf); [lia|]. exists (zlen (f_heap F) + t), f. split; [exact (ALL t T)|]. split; [|exact (HM f (znth_In _ _ _ Hf))].
        cbn. rewrite HH, znth_app_r by lia. replace (zlen (f_heap F) + t - zlen (f_heap F)) with t by lia. exact Hf.
Qed.
Lemma reached_clear K F : reached K F -> reached K (clear_fields F).
Proof. intros (d & h & vars & al & ops & A & B & C & D & E). exists d, h, vars, al, (ops ++ [Clear]). do 4 (split; [assumption|]). unfold run in *. rewrite foldM_app, E. reflexivity. Qed.
Lemma c238 has content F v t f : let K := fresh_core has content in reached K F -> in_time F t -> has v = true -> content v t = Ok f ->
  exists p F', get_field K (clear_fields F) v t false = Ok (Some p, F') /\ deref F' (Some p) = Ok f.
Proof.
  intros K R T HV CT. assert (NH : forall p, ~ holds (clear_fields F) v t p).
  { intros p H. apply (holds_slot _ v t p (reached_inv _ _ (reached_clear _ _ R))) in H. discriminate. }
  destruct (c235_file has content (clear_fields F) v t f (reached_clear _ _ R) T NH HV CT) as (p & F' & E & D & _). eauto.
Qed.
Lemma c239_alias has content F n w t f : let K := fresh_core has content in reached K F -> in_time F t -> find_name (f_alias F) n = Some w -> (forall x, In x (f_vars F) -> v_name x <> n) ->
  (forall p, holds F w t p -> exists F', get_named K F n t = Ok (Some p, F')) /\
  ((forall p, ~ holds F w t p) -> has w = true -> content w t = Ok f -> exists p F', get_named K F n t = Ok (Some p, F') /\ deref F' (Some p) = Ok f).
Proof.
  intros K R T AL NV. assert (RS : resolve F n = w).
  { unfold resolve. destruct (List.find _ _) as [x|] eqn:FD; [|rewrite AL; reflexivity]. apply find_some in FD. destruct FD as [IN EQ]. destruct (str_eqb_spec (v_name x) n) as [e|]; [|discriminate]. exfalso. exact (NV x IN e). }
  unfold get_named. rewrite RS. split.
  - intros p H. destruct (H K false) as (F' & E & _). eauto.
  - intros NH HV CT. destruct (c235_file has content F w t f R T NH HV CT) as (p & F' & E & D & _). eauto.
Qed.
