(** Model of the command-line client's option containers: src/client/Options.{h,cpp}, Util::split and src/client/Variable.cpp.
    Util::error calls abort() (Util.cpp:38-55): outcome [Abort]. *)
From Coq Require Import Ascii String.
From Verif Require Import Base.
Local Open Scope Z_scope.

(** std::string *)
Notation str := (list ascii).
Definition txt (x : string) : str := list_ascii_of_string x.
Definition str_eqb (a b : str) : bool := if list_eq_dec ascii_dec a b then true else false.
Definition has_char (d : str) (c : ascii) : bool := existsb (fun x => Ascii.eqb x c) d.
(** find_first_not_of / find_first_of: a position is represented by the rest of the string from there ([] for npos) *)
Fixpoint first_not_of (d s : str) : str :=
  match s with [] => [] | c :: t => if has_char d c then first_not_of d t else s end.
(** the substring up to the first delimiter, and the rest from that delimiter on *)
Fixpoint until_first_of (d s : str) : str * str :=
  match s with
  | [] => ([], [])
  | c :: t => if has_char d c then ([], s) else let '(w, r) := until_first_of d t in (c :: w, r)
  end.
(** Util::split, Util.cpp:234-255: the loop runs at most once per character *)
Fixpoint split_loop (fuel : nat) (d s : str) : list str :=
  match fuel, s with
  | _, [] => []
  | O, _ => []
  | S n, _ => let '(w, r) := until_first_of d s in w :: split_loop n d (first_not_of d r)
  end.
Definition split (d s : str) : list str := split_loop (List.length s) d (first_not_of d s).

(** Options.h:118-121: pairs in order of insertion, and the keys read so far *)
Record options := { o_pairs : list (str * str); o_seen : list str }.
(** Options::Options(), Options.cpp:4-6 *)
Definition no_options : options := {| o_pairs := []; o_seen := [] |}.
(** Options::addOption(key, value), Options.cpp:7-20 *)
Fixpoint put (k v : str) (l : list (str * str)) : list (str * str) :=
  match l with
  | [] => [(k, v)]
  | (k', v') :: t => if str_eqb k' k then (k', v) :: t else (k', v') :: put k v t
  end.
Definition add_option (k v : str) (o : options) : options :=
  match k, v with
  | [], _ => o
  | _, [] => o
  | _, _ => {| o_pairs := put k v (o_pairs o); o_seen := o_seen o |}
  end.
(** Options::addOption(string), Options.cpp:46-58 *)
Fixpoint split_eq (w : str) : option (str * str) :=
  match w with
  | [] => None
  | c :: t => if Ascii.eqb c "="%char then Some ([], t) else match split_eq t with Some (k, v) => Some (c :: k, v) | None => None end
  end.
Definition add_word (w : str) (o : options) : options :=
  match split_eq w with
  | None => add_option w (txt "1") o
  | Some (k, v) => add_option k v o
  end.
(** Options::addOptions(string) and Options::Options(string), Options.cpp:22-27, 42-44 *)
Definition add_options (s : str) (o : options) : options := fold_left (fun o w => add_word w o) (split (txt " ") s) o.
Definition options_of (s : str) : options := add_options s no_options.
(** Options::clear, Options.cpp:28-30: the keys read so far are kept *)
Definition clear (o : options) : options := {| o_pairs := []; o_seen := o_seen o |}.
(** Options::toString, Options.cpp:32-40 *)
Fixpoint to_text (l : list (str * str)) : str :=
  match l with
  | [] => []
  | [(k, v)] => k ++ txt "=" ++ v
  | (k, v) :: t => k ++ txt "=" ++ v ++ txt " " ++ to_text t
  end.
Definition to_string (o : options) : str := to_text (o_pairs o).
(** Options::hasValue, Options.cpp:59-65 *)
Fixpoint assoc (l : list (str * str)) (k : str) : option str :=
  match l with [] => None | (k', v) :: t => if str_eqb k' k then Some v else assoc t k end.
Definition has_value (k : str) (o : options) : bool := match assoc (o_pairs o) k with Some _ => true | None => false end.
(** Options::getValue, Options.h:53-66.  [conv] is the extraction of a value of the type asked for from a stream with the given
    content (operator>>): it takes the content and the previous value of the variable. *)
Definition mark (k : str) (o : options) : options := {| o_pairs := o_pairs o; o_seen := k :: o_seen o |}.
Definition get_value {T} (conv : str -> T -> T) (k : str) (x : T) (o : options) : bool * T * options :=
  match assoc (o_pairs o) k with
  | Some v => (true, conv v x, mark k o)
  | None => (false, x, o)
  end.
(** Options::getRequiredValue, Options.h:71-78 *)
Definition get_required {T} (conv : str -> T -> T) (k : str) (x : T) (o : options) : res (T * options) :=
  match get_value conv k x o with
  | (true, y, o') => Ok (y, o')
  | (false, _, _) => Abort
  end.
(** operator>>(stream, std::string): skips white space and takes the characters up to the next white space; without any the
    variable is unchanged *)
Definition white : str := [" "%char; "009"%char; "010"%char; "011"%char; "012"%char; "013"%char].
Definition read_word (s x : str) : str :=
  match first_not_of white s with [] => x | t => fst (until_first_of white t) end.
(** std::getline(stream, string, ',') until it fails, Options.h:94-98: an empty last piece is not returned *)
Fixpoint pieces (fuel : nat) (s : str) : list str :=
  match fuel, s with
  | _, [] => []
  | O, _ => []
  | S n, _ => let '(w, r) := until_first_of (txt ",") s in w :: match r with [] => [] | _ :: t => pieces n t end
  end.
Definition get_texts (k : str) (o : options) : option (list str) * options :=
  match assoc (o_pairs o) k with
  | Some v => (Some (pieces (List.length v) v), mark k o)
  | None => (None, o)
  end.
(** Options::check, Options.cpp:67-92 *)
Definition has_key (l : list str) (k : str) : bool := existsb (fun x => str_eqb x k) l.
Definition check (o : options) : bool := forallb (fun p => has_key (o_seen o) (fst p)) (o_pairs o).
(** Options::operator==, Options.cpp:93-115; reading the values marks them as read.  The two objects are distinct. *)
Fixpoint same_in (l : list (str * str)) (r : options) : bool * options :=
  match l with
  | [] => (true, r)
  | (k, v) :: t =>
      if has_value k r then
        let '(_, s, r') := get_value read_word k [] r in
        if str_eqb v s then same_in t r' else (false, r')
      else (false, r)
  end.
Definition opt_eq (a b : options) : bool * options * options :=
  let '(e, b') := same_in (o_pairs a) b in
  if e then let '(e', a') := same_in (o_pairs b') a in (e', a', b') else (false, a, b').

(** Variable.h, Variable.cpp:5-22; the level is an int and is left out of the arithmetic *)
Record variable := { v_name : str; v_min : val; v_max : val; v_units : str; v_std : str; v_level : Z }.
(** Util::MV, Util.cpp:34 *)
Definition CMV : val := fz (-999).
(** Variable::Variable(Options), Variable.cpp:23-37; [num] and [int] extract a float and an int from a stream.  The warning of
    check() is not modelled. *)
Definition variable_of (num : str -> val -> val) (int : str -> Z -> Z) (o : options) : res (variable * options) :=
  '(name, o) <- get_required read_word (txt "name") [] o ;;
  let '(_, std, o) := get_value read_word (txt "standardName") [] o in
  let '(_, units, o) := get_value read_word (txt "units") [] o in
  let '(_, vmin, o) := get_value num (txt "min") CMV o in
  let '(_, vmax, o) := get_value num (txt "max") CMV o in
  let '(_, level, o) := get_value int (txt "level") (-999) o in
  Ok ({| v_name := name; v_min := vmin; v_max := vmax; v_units := units; v_std := std; v_level := level |}, o).
(** Variable::add, Variable.cpp:81-97.  [min] and [max] are uninitialised before the extraction: [u] stands for their content. *)
Definition variable_add (num : str -> val -> val) (u : val) (v : variable) (o : options) : variable * options :=
  let '(b, units, o) := get_value read_word (txt "units") [] o in
  let v := if b then {| v_name := v_name v; v_min := v_min v; v_max := v_max v; v_units := units; v_std := v_std v; v_level := v_level v |} else v in
  let '(b, std, o) := get_value read_word (txt "standardName") units o in
  let v := if b then {| v_name := v_name v; v_min := v_min v; v_max := v_max v; v_units := v_units v; v_std := std; v_level := v_level v |} else v in
  let '(b, m, o) := get_value num (txt "min") u o in
  let v := if b then {| v_name := v_name v; v_min := m; v_max := v_max v; v_units := v_units v; v_std := v_std v; v_level := v_level v |} else v in
  let '(b, m, o) := get_value num (txt "min") u o in
  let v := if b then {| v_name := v_name v; v_min := v_min v; v_max := m; v_units := v_units v; v_std := v_std v; v_level := v_level v |} else v in
  (v, o).
