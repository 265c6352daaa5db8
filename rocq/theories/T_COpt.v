(** Option strings, option containers and variables of the command-line client: C132-C136. *)
From Coq Require Import Ascii String.
From Verif Require Import Base M_COpt S_COpt P_COpt.
Local Open Scope Z_scope.

(** C132: the last word that gives a key a value wins; words are the maximal runs between spaces *)
Theorem C132_last_value_wins : forall s o ws, reachable o -> Words (txt " ") s ws -> one_value (add_options s o) /\
  forall k v, holds (add_options s o) k v <-> LastAssigns ws k v \/ ((forall w v', In w ws -> ~ Assigns w k v') /\ holds o k v).
Proof. exact c132. Qed.
Print Assumptions C132_last_value_wins.
Theorem C132_words : forall d s, exists ws, Words d s ws /\ split d s = ws /\ forall ws', Words d s ws' -> ws' = ws.
Proof. exact words_total. Qed.
Print Assumptions C132_words.
Example C132_example : reachable (options_of (txt "z=7")) /\ Words (txt " ") (txt " a=1  b a=2=3 =4 c=") [txt "a=1"; txt "b"; txt "a=2=3"; txt "=4"; txt "c="] /\
  o_pairs (add_options (txt " a=1  b a=2=3 =4 c=") (options_of (txt "z=7"))) = [(txt "z", txt "7"); (txt "a", txt "2=3"); (txt "b", txt "1")].
Proof. split; [exists [AddText (txt "z=7")]; reflexivity|]. split; [|reflexivity]. apply split_iff. reflexivity. Qed.

(** C133: the text of a container rebuilds it.  False with a space in a value; true of what option strings can express *)
Theorem C133_text_rebuilds_refuted : exists o, reachable o /\ exists k v, holds o k v /\ ~ holds (options_of (to_string o)) k v.
Proof. exact c133_refuted. Qed.
Print Assumptions C133_text_rebuilds_refuted.
Theorem C133_text_rebuilds_partial : forall o, built o -> o_pairs (options_of (to_string o)) = o_pairs o.
Proof. exact c133. Qed.
Print Assumptions C133_text_rebuilds_partial.
Example C133_example : built (add_option (txt "x") (txt "a=b") (options_of (txt "k=v y"))) /\
  to_string (add_option (txt "x") (txt "a=b") (options_of (txt "k=v y"))) = txt "k=v y=1 x=a=b".
Proof.
  split; [|reflexivity]. apply B_pair; [apply B_text, B_none| |]; cbn; intros c H; repeat (destruct H as [<-|H]; [repeat split; discriminate|]); destruct H.
Qed.

(** C134: equality of containers.  Not even reflexive with white space in a value *)
Theorem C134_equality_refuted : exists o, reachable o /\ fst (fst (opt_eq o o)) = false.
Proof. exact c134_refuted. Qed.
Print Assumptions C134_equality_refuted.
Theorem C134_equality_partial : forall a b, reachable a -> reachable b -> (forall k v, holds a k v -> solid v) -> (forall k v, holds b k v -> solid v) ->
  fst (fst (opt_eq a b)) = true <-> forall k v, holds a k v <-> holds b k v.
Proof. exact c134. Qed.
Print Assumptions C134_equality_partial.
Example C134_example : fst (fst (opt_eq (options_of (txt "a=1 b=2")) (options_of (txt "b=2 a=3 a")))) = true /\
  fst (fst (opt_eq (options_of (txt "a=1")) (options_of (txt "a=1 b=2")))) = false.
Proof. split; reflexivity. Qed.

(** C135: check() tells whether every key was read.  False after clear(), which keeps the record of what was read *)
Theorem C135_unread_options_refuted : exists h, check (run h no_options) = true /\ exists k v, holds (run h no_options) k v /\ ~ read_since_cleared h k.
Proof. exact c135_refuted. Qed.
Print Assumptions C135_unread_options_refuted.
Theorem C135_unread_options_partial : forall h, ~ In Clear h -> check (run h no_options) = true <-> forall k v, holds (run h no_options) k v -> read_since_cleared h k.
Proof. exact c135_noclear. Qed.
Print Assumptions C135_unread_options_partial.
Theorem C135_unread_options_ever : forall h, check (run h no_options) = true <-> forall k v, holds (run h no_options) k v -> was_read h k.
Proof. exact c135_at. Qed.
Print Assumptions C135_unread_options_ever.
Example C135_example : check (run [AddText (txt "a=1 b=2"); Get (txt "a"); Has (txt "b")] no_options) = false /\
  check (run [AddText (txt "a=1 b=2"); Get (txt "a"); GetAll (txt "b")] no_options) = true /\ ~ In Clear [AddText (txt "a=1 b=2"); Get (txt "a"); Has (txt "b")].
Proof. repeat split. intros [e|[e|[e|[]]]]; discriminate. Qed.

(** C136: options added to a variable take effect.  "max" never does: "min" is read in its place *)
Theorem C136_variable_options_refuted : exists num u v o, reachable o /\ holds o (txt "max") (txt "5") /\ v_max (fst (variable_add num u v o)) <> num (txt "5") u /\
  v_max (fst (variable_add num u v o)) = v_max v.
Proof. exact c136_refuted. Qed.
Print Assumptions C136_variable_options_refuted.
Theorem C136_variable_options_partial : forall num u v o, reachable o -> (forall k w, holds o k w -> solid w) -> (forall w, ~ holds o (txt "max") w) -> (forall w, ~ holds o (txt "min") w) ->
  let v' := fst (variable_add num u v o) in
  v_name v' = v_name v /\ v_level v' = v_level v /\
  updated (fun w x => x = w) o (txt "units") (v_units v) (v_units v') /\
  updated (fun w x => x = w) o (txt "standardName") (v_std v) (v_std v') /\
  v_min v' = v_min v /\ v_max v' = v_max v.
Proof. exact c136. Qed.
Print Assumptions C136_variable_options_partial.
Theorem C136_min_sets_both : forall num u v o w, reachable o -> holds o (txt "min") w -> let v' := fst (variable_add num u v o) in v_min v' = num w u /\ v_max v' = num w u.
Proof. exact c136_min. Qed.
Print Assumptions C136_min_sets_both.
Theorem C136_made_from_options : forall num int o, reachable o -> (forall k w, holds o k w -> solid w) ->
  match variable_of num int o with
  | Ok (v, o') => holds o (txt "name") (v_name v) /\
      updated (fun w x => x = w) o (txt "standardName") [] (v_std v) /\
      updated (fun w x => x = w) o (txt "units") [] (v_units v) /\
      updated (fun w x => x = num w CMV) o (txt "min") CMV (v_min v) /\
      updated (fun w x => x = num w CMV) o (txt "max") CMV (v_max v) /\
      updated (fun w x => x = int w (-999)) o (txt "level") (-999) (v_level v) /\
      forall k w, holds o' k w <-> holds o k w
  | Abort => forall w, ~ holds o (txt "name") w
  | _ => False
  end.
Proof. exact c136_of. Qed.
Print Assumptions C136_made_from_options.
Example C136_made_example : exists o', variable_of digit (fun _ x => x) (options_of (txt "name=t max=5 units=K")) =
  Ok ({| v_name := txt "t"; v_min := CMV; v_max := fz 5; v_units := txt "K"; v_std := []; v_level := -999 |}, o').
Proof. eexists. reflexivity. Qed.
Example C136_example :
  v_units (fst (variable_add digit CMV {| v_name := txt "t"; v_min := CMV; v_max := CMV; v_units := txt "K"; v_std := txt "s"; v_level := 0 |} (options_of (txt "units=C")))) = txt "C" /\
  v_std (fst (variable_add digit CMV {| v_name := txt "t"; v_min := CMV; v_max := CMV; v_units := txt "K"; v_std := txt "s"; v_level := 0 |} (options_of (txt "units=C")))) = txt "s".
Proof. split; reflexivity. Qed.
