(** Proofs about the command line of the client: options, file names, termination. *)
From Coq Require Import Ascii String Lia.
From Verif Require Import Base ListLib M_COpt S_COpt P_COpt M_CSetup S_CSetup.
Local Open Scope Z_scope.

(** ** Options *)
Definition add_all (args : list str) (o : options) : options := fold_left (fun o a => add_options a o) args o.
Lemma add_all_words args : forall o, add_all args o = fold_left (fun o w => add_word w o) (concat (map (split (txt " ")) args)) o.
Proof. unfold add_all, add_options. induction args as [|a args IH]; cbn [fold_left map concat]; intros o; auto. rewrite IH, fold_left_app. auto. Qed.
Lemma words_of_iff args ws : words_of args ws <-> ws = concat (map (split (txt " ")) args).
Proof.
  unfold words_of. split.
  - intros (wss & F & ->). f_equal. induction F; cbn [map]; auto. apply split_iff in H. subst. congruence.
  - intros ->. exists (map (split (txt " ")) args). split; auto. induction args; cbn [map]; constructor; auto. apply split_iff; auto.
Qed.
Lemma given_iff args k v : given args k v <-> LastAssigns (concat (map (split (txt " ")) args)) k v.
Proof. unfold given. split; [intros (ws & W & L); apply words_of_iff in W; subst; auto|]. intros L. eexists. split; [apply words_of_iff; reflexivity|auto]. Qed.
Lemma add_all_uniq args o : uniq (o_pairs o) -> uniq (o_pairs (add_all args o)).
Proof. intros U. rewrite add_all_words. apply add_words_uniq; auto. Qed.
Lemma add_all_holds args o : uniq (o_pairs o) -> forall k v, given args k v -> holds (add_all args o) k v.
Proof. intros U k v G. rewrite add_all_words. apply add_words_holds; auto. left. apply given_iff; auto. Qed.
Lemma add_all_options args o : o_pairs o = [] -> are_options args (add_all args o).
Proof.
  intros P k v. assert (U : uniq (o_pairs o)) by (rewrite P; constructor). rewrite add_all_words, add_words_holds, given_iff; auto.
  split; [intros [L|[_ H]]; auto; unfold holds in H; rewrite P in H; destruct H|auto].
Qed.
Lemma add_all_app a b o : add_all (a ++ b) o = add_all b (add_all a o).
Proof. apply fold_left_app. Qed.
Lemma given_fun args k v v' : given args k v -> given args k v' -> v = v'.
Proof.
  intros G G'. assert (U : uniq (o_pairs no_options)) by constructor.
  eapply (uniq_one (add_all args no_options)); [apply add_all_uniq; auto| |]; apply add_all_holds; eauto.
Qed.

(** ** File names *)
Lemma assignment_iff a : has_char a "="%char = true <-> assignment a.
Proof. unfold assignment. destruct (has_char a "="%char) eqn:E; [apply has_char_In in E; tauto|apply has_char_nIn in E; split; [discriminate|tauto]]. Qed.
Lemma assignment_false a : ~ assignment a -> has_char a "="%char = false.
Proof. intros N. destruct (has_char a "="%char) eqn:E; auto. apply assignment_iff in E. tauto. Qed.
Lemma names_out rest inp iopt outp : outp <> [] -> inp <> [] -> stops rest -> forall oargs oopt, Forall assignment oargs ->
  file_names (oargs ++ rest) inp iopt outp oopt = (inp, iopt, outp, add_all oargs oopt, rest).
Proof.
  intros No Ni St. destruct inp as [|ci inp]; [easy|]. destruct outp as [|co outp]; [easy|].
  induction oargs as [|a oargs IH]; intros oopt F.
  - cbn. destruct rest as [|a rest]; auto. cbn in St. cbn [file_names]. rewrite assignment_false; auto.
  - inversion F; subst. cbn [app file_names]. rewrite (proj2 (assignment_iff a)); auto. rewrite IH; auto.
Qed.
Lemma names_in inp oopt tail : inp <> [] -> forall iargs iopt, Forall assignment iargs ->
  file_names (iargs ++ tail) inp iopt [] oopt = file_names tail inp (add_all iargs iopt) [] oopt.
Proof.
  intros Ni. destruct inp as [|ci inp]; [easy|]. induction iargs as [|a iargs IH]; intros iopt F; auto.
  inversion F; subst. cbn [app file_names]. rewrite (proj2 (assignment_iff a)); auto. rewrite IH; auto.
Qed.
Theorem c189 argv inp iargs o rest : file_part argv inp iargs o rest -> exists io oo, are_options iargs io /\
  file_names argv [] no_options [] no_options = (inp, io, match o with Some (outp, _) => outp | None => [] end, oo, rest) /\
  are_options (match o with Some (_, oargs) => oargs | None => [] end) oo.
Proof.
  intros F. exists (add_all iargs no_options).
  assert (Hi : are_options iargs (add_all iargs no_options)) by (apply add_all_options; auto).
  destruct F as [inp iargs outp oargs rest Ni Fi No Ao Do Fo St|inp iargs a rest Ni Fi Na Da|inp iargs Ni Fi].
  - exists (add_all oargs no_options). split; [auto|]. split; [|apply add_all_options; auto].
    cbn [file_names]. rewrite names_in; auto. remember (add_all iargs no_options) as io eqn:Eio. clear Eio Hi.
    destruct inp as [|ci inp]; [easy|]. cbn [file_names]. rewrite assignment_false; auto.
    assert (K : forall X : str * options * str * options * list str, match outp with "-"%char :: _ => X | _ => file_names (oargs ++ rest) (ci :: inp) io outp no_options end
      = file_names (oargs ++ rest) (ci :: inp) io outp no_options).
    { intros X. destruct outp as [|c t]; [easy|]. destruct c as [[|] [|] [|] [|] [|] [|] [|] [|]]; auto. exfalso. apply Do. eexists; reflexivity. }
    rewrite K. apply names_out; auto.
  - exists (add_all iargs no_options). split; [auto|]. split; auto. cbn [file_names]. rewrite names_in; auto.
    remember (add_all iargs no_options) as io eqn:Eio. clear Eio Hi.
    destruct inp as [|ci inp]; [easy|]. cbn [file_names]. rewrite assignment_false; auto. destruct Da as [t ->]. auto.
  - exists no_options. split; auto. split; [|apply (add_all_options [] no_options); auto]. cbn [file_names]. rewrite <- (app_nil_r iargs) at 1. rewrite names_in; auto.
Qed.
Lemma assignment_dec a : assignment a \/ ~ assignment a.
Proof. destruct (has_char a "="%char) eqn:E; [left; apply assignment_iff; auto|right; intros A; apply assignment_iff in A; congruence]. Qed.
Lemma split_args l : exists oargs rest, l = oargs ++ rest /\ Forall assignment oargs /\ stops rest.
Proof.
  induction l as [|a l (o & r & -> & F & S)]; [exists [], []; cbn; auto|].
  destruct (assignment_dec a); [exists (a :: o), r; cbn; auto|]. exists [], (a :: o ++ r). cbn. auto.
Qed.
Lemma dashed_dec a : dashed a \/ ~ dashed a.
Proof.
  unfold dashed. destruct a as [|c t]; [right; intros [? ?]; discriminate|].
  destruct (ascii_dec c "-"%char) as [->|N]; [left; eauto|right; intros [t' e]; injection e; congruence].
Qed.
Theorem c189_all argv : argv <> [] -> Forall (fun a => a <> []) argv -> exists inp iargs o rest, file_part argv inp iargs o rest.
Proof.
  intros N F. destruct argv as [|inp l]; [easy|]. inversion F as [|? ? Ni Fl]; subst.
  destruct (split_args l) as (iargs & rest & -> & Fi & St). apply Forall_app in Fl as [_ Fr].
  destruct rest as [|a rest]; [exists inp, iargs, None, []; rewrite app_nil_r; constructor; auto|]. inversion Fr; subst.
  cbn in St. destruct (dashed_dec a).
  - exists inp, iargs, (Some (inp, iargs)), (a :: rest). constructor; auto.
  - destruct (split_args rest) as (oargs & rest' & -> & Fo & St'). exists inp, iargs, (Some (a, oargs)), rest'. constructor; auto.
Qed.

(** ** Files *)
Lemma find_handle_some m n h : find_handle m n = Some h -> In h m /\ h_name h = n.
Proof. unfold find_handle. intros F. apply find_some in F as [I E]. split; auto. destruct (str_eqb_spec (h_name h) n); auto. discriminate. Qed.
Lemma find_handle_none m n : find_handle m n = None -> forall h, In h m -> h_name h <> n.
Proof. unfold find_handle. intros F h I e. apply (find_none _ _ F) in I. rewrite e, str_eqb_refl in I. discriminate. Qed.
Lemma find_app_none {A} (f : A -> bool) a b : List.find f a = None -> List.find f (a ++ b) = List.find f b.
Proof. induction a as [|x a IH]; cbn; auto. destruct (f x); [discriminate|auto]. Qed.

Definition same_names (m : list handle) : Prop := forall h h', In h m -> In h' m -> h_name h = h_name h' -> h = h'.
Lemma same_names_snoc m h : same_names m -> (forall x, In x m -> h_name x <> h_name h) -> same_names (m ++ [h]).
Proof.
  intros S N a b Ia Ib e. apply in_app_iff in Ia as [Ia|[<-|[]]], Ib as [Ib|[<-|[]]]; auto; exfalso; [eapply N; eauto|symmetry in e; eapply N; eauto].
Qed.
Section Files.
Context (opens : str -> options -> bool -> bool) (iopt oopt : options).
Definition good_handle (h : handle) : Prop :=
  opens (h_name h) (h_options h) (h_readonly h) = true /\ h_options h = (if h_readonly h then iopt else oopt).
(** the state after the pairs of names [ns]: the map has only good handles, one for each name, all of the pairs are in the map in the order of their names;
    names that are in the map are names of the pairs *)
Definition inv (ns : list (str * str)) (st : list handle * list (handle * handle)) : Prop :=
  let '(m, l) := st in
  same_names m /\ (forall h, In h m -> good_handle h) /\ map (fun p => (h_name (fst p), h_name (snd p))) l = ns /\ (forall p, In p l -> In (fst p) m /\ In (snd p) m) /\
  (forall h, In h m -> if h_readonly h then In (h_name h) (map fst ns) else In (h_name h) (map snd ns)) /\
  (forall h, In h m -> h_readonly h = false -> exists p, In p l /\ snd p = h).
Lemma open_one_inv ns st p st' : inv ns st -> open_one opens iopt oopt st p = Ok st' -> inv (ns ++ [p]) st'.
Proof.
  destruct st as [m l], p as [i o]. intros (S & G & L & J & R & W) H. cbn in H.
  assert (Ho : exists m1 oh, (match find_handle m o with Some h => Ok (m, h) | None => if opens o oopt false then Ok (m ++ [{| h_name := o; h_options := oopt; h_readonly := false |}], {| h_name := o; h_options := oopt; h_readonly := false |}) else Abort end) = Ok (m1, oh)
     /\ same_names m1 /\ (forall h, In h m1 -> good_handle h) /\ In oh m1 /\ h_name oh = o /\ incl m m1 /\ (forall h, In h m1 -> In h m \/ (h = oh /\ h_readonly h = false))).
  { destruct (find_handle m o) as [h|] eqn:F.
    - apply find_handle_some in F as [I e]. exists m, h. repeat split; auto. apply G; auto. apply G; auto. apply incl_refl.
    - destruct (opens o oopt false) eqn:Op; [|discriminate]. eexists _, _. split; [reflexivity|].
      split; [apply same_names_snoc; auto; intros x Ix; cbn; eapply find_handle_none; eauto|].
      split; [intros h Ih; apply in_app_iff in Ih as [Ih|[<-|[]]]; auto; split; auto|].
      split; [apply in_app_iff; right; left; auto|]. split; [auto|]. split; [apply incl_appl, incl_refl|].
      intros h Ih. apply in_app_iff in Ih as [Ih|[<-|[]]]; auto. }
  destruct Ho as (m1 & oh & E1 & S1 & G1 & I1 & N1 & C1 & B1). rewrite E1 in H. cbn [bind] in H. clear E1.
  assert (Hi : exists m2 ih, (match find_handle m1 i with Some h => if fst (fst (opt_eq iopt oopt)) then Ok (m1, h) else Abort | None => if opens i iopt true then Ok (m1 ++ [{| h_name := i; h_options := iopt; h_readonly := true |}], {| h_name := i; h_options := iopt; h_readonly := true |}) else Abort end) = Ok (m2, ih)
     /\ same_names m2 /\ (forall h, In h m2 -> good_handle h) /\ In ih m2 /\ h_name ih = i /\ incl m1 m2 /\ (forall h, In h m2 -> In h m1 \/ (h = ih /\ h_readonly h = true))).
  { destruct (find_handle m1 i) as [h|] eqn:F.
    - destruct (fst (fst (opt_eq iopt oopt))); [|discriminate]. apply find_handle_some in F as [I e]. exists m1, h. repeat split; auto. apply G1; auto. apply G1; auto. apply incl_refl.
    - destruct (opens i iopt true) eqn:Op; [|discriminate]. eexists _, _. split; [reflexivity|].
      split; [apply same_names_snoc; auto; intros x Ix; cbn; eapply find_handle_none; eauto|].
      split; [intros h Ih; apply in_app_iff in Ih as [Ih|[<-|[]]]; auto; split; auto|].
      split; [apply in_app_iff; right; left; auto|]. split; [auto|]. split; [apply incl_appl, incl_refl|].
      intros h Ih. apply in_app_iff in Ih as [Ih|[<-|[]]]; auto. }
  destruct Hi as (m2 & ih & E2 & S2 & G2 & I2 & N2 & C2 & B2). rewrite E2 in H. cbn [bind] in H. injection H as <-. clear E2.
  split; [auto|]. split; [auto|]. split; [rewrite map_app, L; cbn; rewrite N1, N2; auto|].
  split; [intros p Ip; apply in_app_iff in Ip as [Ip|[<-|[]]]; cbn; [destruct (J p Ip); split; apply C2, C1; auto|split; [auto|apply C2; auto]]|].
  split.
  - intros h Ih. rewrite !map_app. destruct (B2 h Ih) as [I'|[-> Er]].
    + destruct (B1 h I') as [I''|[-> Er]]; [specialize (R h I''); destruct (h_readonly h); apply in_app_iff; auto|]. rewrite Er. apply in_app_iff. right. left. auto.
    + rewrite Er. apply in_app_iff. right. left. auto.
  - intros h Ih Er. destruct (B2 h Ih) as [I'|[-> Er']]; [|congruence]. destruct (B1 h I') as [I''|[-> _]].
    + destruct (W h I'' Er) as (p & Ip & e). exists p. split; auto. apply in_app_iff; auto.
    + exists (ih, oh). split; auto. apply in_app_iff. right. left. auto.
Qed.
Lemma open_all_inv ps : forall ns st st', inv ns st -> foldM (open_one opens iopt oopt) st ps = Ok st' -> inv (ns ++ ps) st'.
Proof.
  induction ps as [|p ps IH]; intros ns st st' I H; cbn in H; [injection H as <-; rewrite app_nil_r; auto|].
  apply bind_Ok in H as (st1 & H1 & H). replace (ns ++ p :: ps) with ((ns ++ [p]) ++ ps) by (rewrite <- app_assoc; auto).
  eapply IH; eauto. eapply open_one_inv; eauto.
Qed.
End Files.
Lemma combine_fst {A B} (a : list A) : forall b : list B, zlen a = zlen b -> map fst (combine a b) = a.
Proof.
  induction a as [|x a IH]; intros [|y b] L; cbn; auto; rewrite ?zlen_cons in L; [change (zlen (@nil B)) with 0 in L; pose proof (zlen_nonneg a); lia|].
  rewrite IH; auto; lia.
Qed.
Lemma combine_snd {A B} (a : list A) : forall b : list B, zlen a = zlen b -> map snd (combine a b) = b.
Proof.
  induction a as [|x a IH]; intros [|y b] L; cbn; auto; rewrite ?zlen_cons in L; [change (zlen (@nil A)) with 0 in L; pose proof (zlen_nonneg b); lia|].
  rewrite IH; auto; lia.
Qed.
Lemma inv_start opens iopt oopt : inv opens iopt oopt [] ([], []).
Proof. repeat split; try easy. Qed.
Theorem c190 glob opens inp iopt outp oopt l : open_files glob opens inp iopt outp oopt = Ok l ->
  l <> [] /\ map (fun p => h_name (fst p)) l = glob inp /\ map (fun p => h_name (snd p)) l = glob outp /\
  (forall p q, In p l -> In q l -> forall h h', (h = fst p \/ h = snd p) -> (h' = fst q \/ h' = snd q) -> h_name h = h_name h' -> h = h') /\
  (forall p h, In p l -> (h = fst p \/ h = snd p) -> opens (h_name h) (h_options h) (h_readonly h) = true /\ h_options h = (if h_readonly h then iopt else oopt)) /\
  (forall p, In p l -> h_readonly (fst p) = false -> In (h_name (fst p)) (glob outp)) /\
  (forall before p after, l = before ++ p :: after -> (forall q, In q before -> h_name (fst q) <> h_name (snd p)) -> h_readonly (snd p) = false).
Proof.
  unfold open_files. intros H. destruct (zlen (glob inp) =? zlen (glob outp)) eqn:E; [|discriminate]. cbn [negb] in H. apply Z.eqb_eq in E.
  destruct (zlen (glob inp) =? 0) eqn:Z0; [discriminate|]. apply Z.eqb_neq in Z0.
  apply bind_Ok in H as ([m l'] & H & e). injection e as ->.
  pose proof (open_all_inv _ _ _ _ _ _ _ (inv_start opens iopt oopt) H) as (S & G & L & J & R & _). cbn [app] in L, R.
  rewrite combine_fst, combine_snd in R by auto.
  assert (L1 : map (fun p => h_name (fst p)) l = glob inp) by (rewrite <- (combine_fst (glob inp) (glob outp)), <- L, map_map by auto; auto).
  assert (L2 : map (fun p => h_name (snd p)) l = glob outp) by (rewrite <- (combine_snd (glob inp) (glob outp)), <- L, map_map by auto; auto).
  assert (Jh : forall p h, In p l -> h = fst p \/ h = snd p -> In h m) by (intros p h Ip [-> | ->]; apply J; auto).
  split; [intros ->; rewrite <- L1 in Z0; apply Z0; reflexivity|]. split; [auto|]. split; [auto|].
  split; [intros p q Ip Iq h h' Hh Hh' e; eapply S; eauto|]. split; [intros p h Ip Hh; apply G; eauto|].
  split; [intros p Ip Er; specialize (R (fst p) (proj1 (J p Ip))); rewrite Er in R; auto|].
  (* the pairs before p made only handles for their own names *)
  intros before p after -> N. rewrite map_app in L. cbn [map] in L.
  assert (Hc : exists c1 c2, combine (glob inp) (glob outp) = c1 ++ (h_name (fst p), h_name (snd p)) :: c2 /\ c1 = map (fun p => (h_name (fst p), h_name (snd p))) before).
  { rewrite <- L. eauto. }
  destruct Hc as (c1 & c2 & Ec & E1). rewrite Ec in H. rewrite foldM_app in H. apply bind_Ok in H as ([m1 l1] & H1 & H2).
  pose proof (open_all_inv _ _ _ _ _ _ _ (inv_start opens iopt oopt) H1) as I1.
  cbn [foldM] in H2. apply bind_Ok in H2 as ([m2 l2] & H2 & H3).
  pose proof (open_one_inv _ _ _ _ _ _ _ I1 H2) as I2.
  pose proof (open_all_inv _ _ _ _ _ _ _ I2 H3) as I3.
  destruct I1 as (S1 & G1 & L1' & J1 & R1 & _). cbn [app] in L1', R1.
  (* the handle for the output name after this pass is writable, and it is still there at the end *)
  assert (Hk : exists h, In h m2 /\ h_name h = h_name (snd p) /\ h_readonly h = false).
  { cbn in H2. destruct (find_handle m1 (h_name (snd p))) as [h|] eqn:F.
    - apply find_handle_some in F as [I e]. specialize (R1 h I). assert (Er : h_readonly h = false).
      { destruct (h_readonly h); auto. exfalso. rewrite E1, map_map in R1. apply in_map_iff in R1 as (q & e' & Iq). apply (N q Iq). cbn in e'. congruence. }
      exists h. split; [|auto]. cbn [bind] in H2. apply bind_Ok in H2 as ([m3 ih] & H2 & e'). injection e' as <- _.
      destruct (find_handle m1 (h_name (fst p))); [destruct (fst (fst (opt_eq iopt oopt))); [injection H2 as <- _; auto|discriminate]|].
      destruct (opens _ iopt true); [injection H2 as <- _; apply in_app_iff; auto|discriminate].
    - destruct (opens (h_name (snd p)) oopt false); [|discriminate]. cbn [bind] in H2. apply bind_Ok in H2 as ([m3 ih] & H2 & e'). injection e' as <- _.
      eexists. split; [|split; [|]]; cycle 1. apply (eq_refl : h_name {| h_name := h_name (snd p); h_options := oopt; h_readonly := false |} = _). reflexivity.
      destruct (find_handle _ (h_name (fst p))); [destruct (fst (fst (opt_eq iopt oopt))); [injection H2 as <- _|discriminate]|].
      + apply in_app_iff. right. left. auto.
      + destruct (opens _ iopt true); [injection H2 as <- _|discriminate]. apply in_app_iff. left. apply in_app_iff. right. left. auto. }
  destruct Hk as (h & Ih & Nh & Rh).
  assert (K : forall ps st st', foldM (open_one opens iopt oopt) st ps = Ok st' -> incl (fst st) (fst st')).
  { clear. induction ps as [|[i o] ps IH]; intros [ma la] st' H; cbn [foldM] in H; [injection H as <-; apply incl_refl|].
    apply bind_Ok in H as ([mb lb] & H1 & H2). apply IH in H2. cbn [fst] in *. eapply incl_tran; [|exact H2]. clear H2.
    cbn in H1. apply bind_Ok in H1 as ([mc oh] & H1 & H2). apply bind_Ok in H2 as ([md ih] & H2 & e). injection e as <- _.
    apply (incl_tran (m := mc)).
    - destruct (find_handle ma o); [injection H1 as <- _; apply incl_refl|]. destruct (opens o oopt false); [injection H1 as <- _; apply incl_appl, incl_refl|discriminate].
    - destruct (find_handle mc i); [destruct (fst (fst (opt_eq iopt oopt))); [injection H2 as <- _; apply incl_refl|discriminate]|].
      destruct (opens i iopt true); [injection H2 as <- _; apply incl_appl, incl_refl|discriminate]. }
  pose proof (K _ _ _ H3 h Ih) as Im. cbn [fst] in Im.
  rewrite <- (S h (snd p)); auto. apply J. apply in_app_iff. right. left. auto.
Qed.
Theorem c190_rejects glob opens inp iopt outp oopt :
  (zlen (glob inp) <> zlen (glob outp) \/ glob outp = [] \/
   (exists n, (In n (glob inp) \/ In n (glob outp)) /\ forall o b, opens n o b = false) \/
   (exists n, In (n, n) (combine (glob inp) (glob outp)) /\ fst (fst (opt_eq iopt oopt)) = false)) ->
  open_files glob opens inp iopt outp oopt = Abort.
Proof.
  intros C. unfold open_files. destruct (zlen (glob inp) =? zlen (glob outp)) eqn:E; cbn [negb]; auto. apply Z.eqb_eq in E.
  destruct (zlen (glob inp) =? 0) eqn:Z0; auto. apply Z.eqb_neq in Z0.
  assert (T : forall ps st, (exists st', foldM (open_one opens iopt oopt) st ps = Ok st') \/ foldM (open_one opens iopt oopt) st ps = Abort).
  { clear. induction ps as [|[i o] ps IH]; intros [m l]; cbn [foldM]; [eauto|].
    assert (X : (exists st', open_one opens iopt oopt (m, l) (i, o) = Ok st') \/ open_one opens iopt oopt (m, l) (i, o) = Abort).
    { unfold open_one. destruct (find_handle m o) as [h|]; cbn [bind].
      - destruct (find_handle m i); [destruct (fst (fst (opt_eq iopt oopt)))|destruct (opens i iopt true)]; cbn [bind]; eauto.
      - destruct (opens o oopt false); cbn [bind]; [|auto]. destruct (find_handle _ i); [destruct (fst (fst (opt_eq iopt oopt)))|destruct (opens i iopt true)]; cbn [bind]; eauto. }
    destruct X as [(st & ->)| ->]; cbn [bind]; auto. }
  destruct (T (combine (glob inp) (glob outp)) ([], [])) as [([m l] & H)|H]; [|rewrite H; auto].
  exfalso. pose proof (open_all_inv _ _ _ _ _ _ _ (inv_start opens iopt oopt) H) as (S & G & L & J & R & _). cbn [app] in L.
  destruct C as [C|[C|[(n & I & C)|(n & I & C)]]].
  - auto.
  - rewrite C in E. change (zlen (@nil str)) with 0 in E. auto.
  - assert (X : exists h, In h m /\ h_name h = n).
    { destruct I as [I|I]; [rewrite <- (combine_fst (glob inp) (glob outp)) in I by auto|rewrite <- (combine_snd (glob inp) (glob outp)) in I by auto];
        rewrite <- L, map_map in I; apply in_map_iff in I as (p & e & Ip); cbn in e; destruct (J p Ip); eauto. }
    destruct X as (h & Ih & <-). destruct (G _ Ih) as [G1 _]. rewrite C in G1. discriminate.
  - apply in_split in I as (c1 & c2 & Ec). rewrite Ec, foldM_app in H. apply bind_Ok in H as ([m1 l1] & _ & H). cbn [foldM] in H. apply bind_Ok in H as ([m2 l2] & H & _).
    unfold open_one in H. apply bind_Ok in H as ([m3 oh] & H3 & H). assert (Hf : exists h, find_handle m3 n = Some h).
    { destruct (find_handle m1 n) as [h|] eqn:F; [injection H3 as <- _; eauto|]. destruct (opens n oopt false); [|discriminate]. injection H3 as <- _.
      unfold find_handle in *. rewrite find_app_none by auto. cbn. rewrite str_eqb_refl. eauto. }
    destruct Hf as (h & Eh). rewrite Eh, C in H. discriminate.
Qed.
Theorem c190_refuted : exists glob opens inp iopt outp oopt l p, (forall n o b, opens n o b = true) /\ open_files glob opens inp iopt outp oopt = Ok l /\ In p l /\ h_readonly (snd p) = true.
Proof.
  exists (split (txt ",")), (fun _ _ _ => true), (txt "a,b"), no_options, (txt "c,a"), no_options. eexists. eexists.
  split; [auto|]. split; [vm_compute; reflexivity|]. split; [right; left; reflexivity|reflexivity].
Qed.
