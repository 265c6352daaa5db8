From Coq Require Import Ascii String.
From Verif Require Import Base ListLib M_COpt M_CUtil M_CCal M_CDown M_CFile S_CCal S_CFile S_CUtil P_COpt P_CCal.
Local Open Scope Z_scope.

Lemma find_store {A} (l : list (str * A)) n a m : find_name (store l n a) m = if str_eqb n m then Some a else find_name l m.
Proof.
  induction l as [|[n' a'] l IH]; cbn [store find_name]; [reflexivity|].
  destruct (str_eqb_spec n' n) as [->|N]; cbn [find_name].
  - destruct (str_eqb n m); reflexivity.
  - rewrite IH. destruct (str_eqb_spec n' m) as [->|]; [|reflexivity]. destruct (str_eqb_spec n m) as [->|]; [congruence|reflexivity].
Qed.
Definition slot (F : file) (n : str) (t : Z) : option Z :=
  match find_name (f_cache F) n with Some s => match znth s t with Ok (Some p) => Some p | _ => None end | None => None end.
Definition Inv (F : file) : Prop :=
  (0 <= d_y (f_dims F) /\ 0 <= d_x (f_dims F) /\ 0 <= d_e (f_dims F) /\ 0 <= d_t (f_dims F)) /\ forall n s, find_name (f_cache F) n = Some s -> zlen s = d_t (f_dims F).
Lemma define_fields v F : f_dims (define v F) = f_dims F /\ f_heap (define v F) = f_heap F /\ f_cache (define v F) = f_cache F /\ f_alias (define v F) = f_alias F.
Proof. unfold define. destruct (existsb _ _); cbn; auto. Qed.
Lemma define_inv v F : Inv F -> Inv (define v F).
Proof. destruct (define_fields v F) as (A & _ & B & _). unfold Inv. rewrite A, B. auto. Qed.
Lemma define_slot v F n t : slot (define v F) n t = slot F n t.
Proof. destruct (define_fields v F) as (_ & _ & B & _). unfold slot. rewrite B. reflexivity. Qed.
Lemma init_none {A} n t : znth (init1 n (@None A)) t = Ok None \/ znth (init1 n (@None A)) t = UB.
Proof.
  destruct (Z_lt_dec t 0) as [L|L]; [right; apply znth_out; lia|].
  destruct (znth (init1 n None) t) as [x|x| |] eqn:H.
  - left. apply znth_In in H. unfold init1 in H. apply in_map_iff in H. destruct H as (? & <- & _). reflexivity.
  - exfalso. unfold znth in H. destruct (t <? 0); [discriminate|]. destruct (nth_error _ _); discriminate.
  - exfalso. unfold znth in H. destruct (t <? 0); [discriminate|]. destruct (nth_error _ _); discriminate.
  - right; reflexivity.
Qed.
Definition same_rest (F F' : file) : Prop := f_dims F' = f_dims F /\ f_alias F' = f_alias F.
(** addField *)
Lemma add_spec F p v t : Inv F -> in_time F t -> exists F', add_field F p v t = Ok F' /\ same_rest F F' /\ f_heap F' = f_heap F /\ Inv F' /\
  (forall n t', slot F' n t' = if str_eqb (v_name v) n && (t =? t') then p else slot F n t') /\
  (forall n, find_name (f_cache F') n = None <-> n <> v_name v /\ find_name (f_cache F) n = None) /\ f_vars F' = f_vars (define v F).
Proof.
  intros IV T. pose proof IV as [(Dy & Dx & De & Dt) IS]. unfold in_time in T. unfold add_field.
  set (s := match find_name (f_cache F) (v_name v) with Some s => s | None => init1 (d_t (f_dims F)) None end).
  assert (LS : zlen s = d_t (f_dims F)) by (unfold s; destruct (find_name (f_cache F) (v_name v)) eqn:H; [eauto|apply zlen_init1; lia]).
  rewrite zset_Ok by lia. cbn [bind].
  set (G := define v _). destruct (define_fields v (with_cache F (f_heap F) (store (f_cache F) (v_name v) s))) as (GA & GB & GC & GD). fold G in GA, GB, GC, GD. cbn in GA, GB, GC, GD.
  eexists; split; [reflexivity|]. split; [split; cbn; assumption|]. split; [cbn; assumption|].
  assert (FN : forall n, find_name (store (f_cache G) (v_name v) (lset s (Z.to_nat t) p)) n = if str_eqb (v_name v) n then Some (lset s (Z.to_nat t) p) else find_name (f_cache F) n).
  { intros n. rewrite find_store, GC, find_store. destruct (str_eqb (v_name v) n); reflexivity. }
  split.
  { split; cbn; [rewrite GA; lia|]. intros n s' H. rewrite FN in H. rewrite GA. destruct (str_eqb (v_name v) n); [injection H as <-; rewrite zlen_lset; exact LS|eauto]. }
  split.
  { intros n t'. unfold slot at 1. cbn [f_cache with_cache]. rewrite FN. destruct (str_eqb_spec (v_name v) n) as [<-|N]; cbn [andb]; [|reflexivity].
    destruct (Z.eqb_spec t t') as [<-|N].
    - rewrite znth_lset by lia. rewrite Z.eqb_refl. destruct p; reflexivity.
    - rewrite znth_lset by lia. destruct (Z.eqb_spec t' t) as [->|_]; [lia|]. unfold slot. unfold s.
      destruct (find_name (f_cache F) (v_name v)) as [s0|]; [reflexivity|]. destruct (@init_none Z (d_t (f_dims F)) t') as [->| ->]; reflexivity. }
  split.
  { intros n. cbn [f_cache with_cache]. rewrite FN. destruct (str_eqb_spec (v_name v) n) as [<-|N]; split; intros H; try discriminate; try (destruct H; congruence). split; [congruence|assumption]. }
  unfold G, define. cbn. destruct (existsb _ (f_vars F)); reflexivity.
Qed.
Lemma add_out F p v t : Inv F -> ~ in_time F t -> add_field F p v t = UB.
Proof.
  intros [(Dy & Dx & De & Dt) IS] T. unfold in_time in T. unfold add_field.
  set (s := match find_name (f_cache F) (v_name v) with Some s => s | None => init1 (d_t (f_dims F)) None end).
  assert (LS : zlen s = d_t (f_dims F)) by (unfold s; destruct (find_name (f_cache F) (v_name v)) eqn:H; [eauto|apply zlen_init1; lia]).
  unfold zset. destruct ((t <? 0) || (zlen s <=? t)) eqn:E; [reflexivity|apply orb_false_iff in E; destruct E; lia].
Qed.
Lemma empty_made d : 0 <= d_y d -> 0 <= d_x d -> 0 <= d_e d -> exists f, empty_field d = Ok f /\ of_size d f /\ forall y x e, 0 <= y < d_y d -> 0 <= x < d_x d -> 0 <= e < d_e d -> f_get f y x e = Ok CMV.
Proof.
  intros A B C. unfold empty_field, new_field. apply Z.leb_le in A, B, C. rewrite A, B, C. cbn [andb].
  eexists; split; [reflexivity|]. apply Z.leb_le in A, B, C.
  assert (OS : of_size d {| f_values := init1 (d_y d * d_x d * d_e d) CMV; f_ny := d_y d; f_nx := d_x d; f_ne := d_e d |}).
  { unfold of_size, field_ok. cbn. rewrite zlen_init1 by nia. auto 10. }
  split; [exact OS|]. intros y x e Y X E. destruct (of_size_get d _ y x e OS) as [v H]; [unfold within; lia|]. rewrite H. f_equal.
  unfold f_get in H. apply bind_Ok in H. destruct H as (i & _ & H). cbn in H. apply znth_In in H. unfold init1 in H. apply in_map_iff in H. destruct H as (? & <- & _). reflexivity.
Qed.

(** fields of missing values for all times *)
Lemma add_empty_spec F v : Inv F -> exists F' fs, add_empty F v = Ok F' /\ same_rest F F' /\ Inv F' /\ f_heap F' = f_heap F ++ fs /\ zlen fs = d_t (f_dims F) /\
  (forall f, In f fs -> all_missing F f) /\
  (forall n t, slot F' n t = if str_eqb (v_name v) n && (0 <=? t) && (t <? d_t (f_dims F)) then Some (zlen (f_heap F) + t) else slot F n t) /\
  (forall n, n <> v_name v -> find_name (f_cache F) n = None -> find_name (f_cache F') n = None) /\
  (0 < d_t (f_dims F) -> find_name (f_cache F') (v_name v) <> None).
Proof.
  intros IV. pose proof IV as [(Dy & Dx & De & Dt) IS]. unfold add_empty.
  destruct (foldM_range (fun F0 t => f <- empty_field (f_dims F0) ;; let '(F0, p) := create F0 f in add_field F0 (Some p) v t)
    (fun k G => exists fs, same_rest F G /\ Inv G /\ f_heap G = f_heap F ++ fs /\ zlen fs = k /\ (forall f, In f fs -> all_missing F f) /\
      (forall n t, slot G n t = if str_eqb (v_name v) n && (0 <=? t) && (t <? k) then Some (zlen (f_heap F) + t) else slot F n t) /\
      (forall n, n <> v_name v -> find_name (f_cache F) n = None -> find_name (f_cache G) n = None) /\ (0 < k -> find_name (f_cache G) (v_name v) <> None)) 0 (d_t (f_dims F)) F) as (G & EG & P).
  - exact Dt.
  - exists []. split; [split; reflexivity|]. split; [exact IV|]. split; [rewrite app_nil_r; reflexivity|]. split; [reflexivity|]. split; [intros f []|].
    split; [|split; [auto|lia]]. intros n t. destruct (0 <=? t) eqn:A, (t <? 0) eqn:B; try lia; rewrite ?andb_false_r; cbn [andb]; reflexivity.
  - intros k G K (fs & (SD & SA) & GI & GH & GL & GM & GS & GN & GC).
    destruct (empty_made (f_dims F) Dy Dx De) as (f & EF & OS & ALL). rewrite SD, EF. cbn [bind create].
    set (G1 := with_cache G (f_heap G ++ [f]) (f_cache G)).
    assert (I1 : Inv G1) by (destruct GI as [X Y]; split; cbn; assumption).
    destruct (add_spec G1 (Some (zlen (f_heap G))) v k I1) as (G' & EA & (AD & AA) & AH & AI & AS & AN & AV); [unfold in_time, G1; cbn; rewrite SD; lia|].
    exists G'. split; [exact EA|]. exists (fs ++ [f]). split; [split; [rewrite AD; exact SD|rewrite AA; exact SA]|]. split; [exact AI|].
    split; [rewrite AH; unfold G1; cbn; rewrite GH, <- app_assoc; reflexivity|]. split; [rewrite zlen_app, GL; reflexivity|].
    split. { intros g IN. apply in_app_iff in IN. destruct IN as [IN|[<-|[]]]; [auto|]. destruct OS as (FO & A & B & C). unfold all_missing. auto 10. }
    split.
    { intros n t. rewrite AS. change (slot G1 n t) with (slot G n t). rewrite GS.
      destruct (str_eqb (v_name v) n); cbn [andb]; [|reflexivity].
      destruct (Z.eqb_spec k t) as [<-|N].
      - destruct (0 <=? k) eqn:A; [|lia]. destruct (k <? k + 1) eqn:B; [|lia]. cbn [andb]. rewrite GH, zlen_app, GL. reflexivity.
      - destruct (0 <=? t) eqn:A; cbn [andb]; [|reflexivity]. destruct (t <? k) eqn:B, (t <? k + 1) eqn:C; try lia; reflexivity. }
    split. { intros n N H. apply AN. split; [exact N|]. cbn. apply GN; assumption. }
    intros _ H. apply AN in H. destruct H; congruence.
  - destruct P as (fs & SR & GI & GH & GL & GM & GS & GN & GC). exists G, fs. auto 20.
Qed.
(** getField: a field that is there *)
Lemma get_cached K F v t skip p : Inv F -> slot F (v_name v) t = Some p -> get_field K F v t skip = Ok (Some p, define v F).
Proof.
  intros [_ IS] H. unfold slot in H. unfold get_field. destruct (find_name (f_cache F) (v_name v)) as [s|] eqn:FS; [|discriminate].
  destruct (znth s t) as [[q|]| | |] eqn:Z; try discriminate. injection H as ->. pose proof (znth_range _ _ _ Z) as R.
  destruct ((t <? 0) || (zlen s <=? t)) eqn:B; [apply orb_prop in B; destruct B; lia|]. cbn [bind]. rewrite FS, B, Z. reflexivity.
Qed.
(** getField: a field that must be read *)
Definition prepared (F : file) (v : variable) : file :=
  match find_name (f_cache F) (v_name v) with Some _ => F | None => with_cache F (f_heap F) (store (f_cache F) (v_name v) (init1 (d_t (f_dims F)) None)) end.
Lemma prepared_spec F v : Inv F -> same_rest F (prepared F v) /\ f_heap (prepared F v) = f_heap F /\ Inv (prepared F v) /\ (forall n t, slot (prepared F v) n t = slot F n t) /\
  (forall n, n <> v_name v -> find_name (f_cache F) n = None -> find_name (f_cache (prepared F v)) n = None) /\ find_name (f_cache (prepared F v)) (v_name v) <> None.
Proof.
  intros IV. pose proof IV as [(Dy & Dx & De & Dt) IS]. unfold prepared. destruct (find_name (f_cache F) (v_name v)) as [s|] eqn:FS.
  - split; [split; reflexivity|]. split; [reflexivity|]. split; [exact IV|]. split; [reflexivity|]. split; [auto|congruence].
  - split; [split; reflexivity|]. split; [reflexivity|]. split.
    { split; cbn; [lia|]. intros n s H. rewrite find_store in H. destruct (str_eqb (v_name v) n); [injection H as <-; apply zlen_init1; lia|eauto]. }
    split. { intros n t. unfold slot. cbn. rewrite find_store. destruct (str_eqb_spec (v_name v) n) as [<-|]; [|reflexivity]. rewrite FS. destruct (@init_none Z (d_t (f_dims F)) t) as [->| ->]; reflexivity. }
    split; cbn; [intros n N H; rewrite find_store; destruct (str_eqb_spec (v_name v) n); congruence|]. rewrite find_store, str_eqb_refl. congruence.
Qed.
Lemma get_step K F v t skip : Inv F -> slot F (v_name v) t = None -> 0 <= t < d_t (f_dims F) ->
  get_field K F v t skip = (F <- (if negb skip && k_has K v then '(h, p) <- k_read K (f_dims F) (f_heap F) v t ;; add_field (with_cache (prepared F v) h (f_cache (prepared F v))) (Some p) v t
      else add_empty (prepared F v) v) ;;
    match find_name (f_cache F) (v_name v) with
    | Some slots => if (t <? 0) || (zlen slots <=? t) then Abort else p <- znth slots t ;; Ok (p, define v F)
    | None => Abort
    end).
Proof.
  intros IV S T. pose proof IV as [(Dy & Dx & De & Dt) IS]. unfold get_field, prepared. unfold slot in S. destruct (find_name (f_cache F) (v_name v)) as [s|] eqn:FS.
  - assert (LS := IS _ _ FS). destruct ((t <? 0) || (zlen s <=? t)) eqn:B; [apply orb_prop in B; destruct B; lia|].
    destruct (znth_some s t) as [p Hp]; [lia|]. rewrite Hp in S |- *. destruct p; [discriminate|]. reflexivity.
  - destruct (Z.leb_spec (d_t (f_dims F)) t); [lia|]. reflexivity.
Qed.
Lemma final_slot F v t p : Inv F -> slot F (v_name v) t = Some p ->
  match find_name (f_cache F) (v_name v) with
  | Some slots => if (t <? 0) || (zlen slots <=? t) then Abort else p <- znth slots t ;; Ok (p, define v F)
  | None => Abort
  end = Ok (Some p, define v F).
Proof.
  intros IV S. unfold slot in S. destruct (find_name (f_cache F) (v_name v)) as [s|]; [|discriminate]. destruct (znth s t) as [[q|]| | |] eqn:Z; try discriminate. injection S as ->.
  pose proof (znth_range _ _ _ Z) as R. destruct ((t <? 0) || (zlen s <=? t)) eqn:B; [apply orb_prop in B; destruct B; lia|]. reflexivity.
Qed.
Lemma get_read K F v t h p : Inv F -> slot F (v_name v) t = None -> 0 <= t < d_t (f_dims F) -> k_has K v = true -> k_read K (f_dims F) (f_heap F) v t = Ok (h, p) ->
  exists F', get_field K F v t false = Ok (Some p, F') /\ same_rest F F' /\ Inv F' /\ f_heap F' = h /\ (forall n t', slot F' n t' = if str_eqb (v_name v) n && (t =? t') then Some p else slot F n t').
Proof.
  intros IV S T HK RD. rewrite (get_step K F v t false IV S T). cbn [negb]. rewrite HK, RD. cbn [andb bind].
  destruct (prepared_spec F v IV) as ((PD & PA) & PH & PI & PS & PN & PV).
  set (G := with_cache (prepared F v) h (f_cache (prepared F v))).
  assert (GI : Inv G) by (destruct PI as [X Y]; split; cbn; assumption).
  destruct (add_spec G (Some p) v t GI) as (F' & E & (AD & AA) & AH & AI & AS & AN & AV); [unfold in_time, G; cbn; rewrite PD; lia|].
  rewrite E. cbn [bind]. rewrite (final_slot F' v t p AI) by (rewrite AS, str_eqb_refl, Z.eqb_refl; reflexivity).
  exists (define v F'). destruct (define_fields v F') as (A1 & A2 & A3 & A4). split; [reflexivity|]. split; [split; [rewrite A1, AD; exact PD|rewrite A4, AA; exact PA]|].
  split; [apply define_inv, AI|]. split; [rewrite A2, AH; reflexivity|]. intros n t'. rewrite define_slot, AS. change (slot G n t') with (slot (prepared F v) n t'). rewrite PS. reflexivity.
Qed.
Lemma get_empty K F v t skip : Inv F -> slot F (v_name v) t = None -> 0 <= t < d_t (f_dims F) -> negb skip && k_has K v = false ->
  exists F' fs, get_field K F v t skip = Ok (Some (zlen (f_heap F) + t), F') /\ same_rest F F' /\ Inv F' /\ f_heap F' = f_heap F ++ fs /\ zlen fs = d_t (f_dims F) /\ (forall f, In f fs -> all_missing F f) /\
    (forall n t', slot F' n t' = if str_eqb (v_name v) n && (0 <=? t') && (t' <? d_t (f_dims F)) then Some (zlen (f_heap F) + t') else slot F n t').
Proof.
  intros IV S T HK. rewrite (get_step K F v t skip IV S T). rewrite HK.
  destruct (prepared_spec F v IV) as ((PD & PA) & PH & PI & PS & PN & PV).
  destruct (add_empty_spec (prepared F v) v PI) as (F' & fs & E & (AD & AA) & AI & AH & AL & AM & AS & AN & AV).
  rewrite E. cbn [bind]. rewrite PD, PH in *.
  rewrite (final_slot F' v t (zlen (f_heap F) + t) AI) by (rewrite AS, str_eqb_refl; destruct (0 <=? t) eqn:A, (t <? d_t (f_dims F)) eqn:B; try lia; reflexivity).
  exists (define v F'), fs. destruct (define_fields v F') as (A1 & A2 & A3 & A4). split; [reflexivity|]. split; [split; [rewrite A1, AD; reflexivity|rewrite A4, AA; exact PA]|].
  split; [apply define_inv, AI|]. split; [rewrite A2, AH; reflexivity|]. split; [exact AL|].
  split. { intros f IN. apply AM in IN. unfold all_missing in *. rewrite PD in IN. exact IN. }
  intros n t'. rewrite define_slot, AS, PS. reflexivity.
Qed.
(** times outside *)
Lemma get_late K F v t skip : Inv F -> d_t (f_dims F) <= t -> get_field K F v t skip = Abort.
Proof.
  intros [(Dy & Dx & De & Dt) IS] T. unfold get_field. destruct (find_name (f_cache F) (v_name v)) as [s|] eqn:FS.
  - rewrite (IS _ _ FS). destruct (Z.ltb_spec t 0); [lia|]. destruct (Z.leb_spec (d_t (f_dims F)) t); [reflexivity|lia].
  - destruct (Z.leb_spec (d_t (f_dims F)) t); [reflexivity|lia].
Qed.
Lemma get_negative K F v t skip r : Inv F -> t < 0 -> get_field K F v t skip <> Ok r.
Proof.
  intros IV T. pose proof IV as [(Dy & Dx & De & Dt) IS]. unfold get_field. destruct (find_name (f_cache F) (v_name v)) as [s|] eqn:FS.
  - destruct (Z.ltb_spec t 0); [|lia]. cbn. discriminate.
  - destruct (Z.leb_spec (d_t (f_dims F)) t); [discriminate|]. cbn [bind].
    set (G := with_cache F (f_heap F) _).
    assert (GI : Inv G). { replace G with (prepared F v) by (unfold prepared; rewrite FS; reflexivity). apply prepared_spec, IV. }
    intros E. apply bind_Ok in E. destruct E as (F' & _ & E). destruct (find_name (f_cache F') (v_name v)); [|discriminate]. destruct (Z.ltb_spec t 0); [|lia]. cbn in E. discriminate.
Qed.
