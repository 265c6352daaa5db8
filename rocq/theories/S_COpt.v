(** Specification of option strings and option containers. *)
From Coq Require Import Ascii String.
From Verif Require Import Base M_COpt.

(** the words of a text: maximal runs of characters that are not delimiters *)
Inductive Words (d : str) : str -> list str -> Prop :=
| W_end s : (forall c, In c s -> In c d) -> Words d s []
| W_word sep w rest ws : (forall c, In c sep -> In c d) -> w <> [] -> (forall c, In c w -> ~ In c d) ->
    (rest = [] \/ exists c t, rest = c :: t /\ In c d) -> Words d rest ws -> Words d (sep ++ w ++ rest) (w :: ws).

Definition equals : ascii := "="%char.
(** word [w] gives key [k] the value [v]: "k=v", or "k" alone for the value "1"; neither may be empty *)
Definition Assigns (w k v : str) : Prop :=
  k <> [] /\ v <> [] /\ ~ In equals k /\ (w = k ++ equals :: v \/ (w = k /\ v = txt "1")).
(** the last word that gives [k] a value gives it [v] *)
Definition LastAssigns (ws : list str) (k v : str) : Prop :=
  exists before w after, ws = before ++ w :: after /\ Assigns w k v /\ (forall w' v', In w' after -> ~ Assigns w' k v').

(** no white space *)
Definition solid (v : str) : Prop := forall c, In c v -> ~ In c white.
(** what a container holds for a key *)
Definition holds (o : options) (k v : str) : Prop := In (k, v) (o_pairs o).

(** containers filled from option strings, or with keys and values that option strings can express *)
Inductive built : options -> Prop :=
| B_none : built no_options
| B_text s o : built o -> built (add_options s o)
| B_pair k v o : built o -> (forall c, In c k -> c <> " "%char /\ c <> equals) -> (forall c, In c v -> c <> " "%char) -> built (add_option k v o)
| B_clear o : built o -> built (clear o).

(** a history of calls on one container *)
Inductive call := AddText (s : str) | AddPair (k v : str) | Get (k : str) | GetAll (k : str) | Has (k : str) | Clear.
Definition step (o : options) (c : call) : options :=
  match c with
  | AddText s => add_options s o
  | AddPair k v => add_option k v o
  | Get k => snd (get_value read_word k [] o)
  | GetAll k => snd (get_texts k o)
  | Has _ => o
  | Clear => clear o
  end.
Definition run (h : list call) (o : options) : options := fold_left step h o.
Definition reads (c : call) (k : str) : Prop := c = Get k \/ c = GetAll k.
(** key [k] was read by some call of the history while the container held it *)
Definition was_read (h : list call) (k : str) : Prop :=
  exists before c after, h = before ++ c :: after /\ reads c k /\ exists v, holds (run before no_options) k v.
(** ... and since the container was last emptied *)
Definition read_since_cleared (h : list call) (k : str) : Prop :=
  exists before c after, h = before ++ c :: after /\ ~ In Clear after /\ reads c k /\ exists v, holds (run before no_options) k v.
(** containers that calls can produce *)
Definition reachable (o : options) : Prop := exists h, o = run h no_options.
(** each key has one value *)
Definition one_value (o : options) : Prop := forall k v v', holds o k v -> holds o k v' -> v = v'.
(** [new] is the value read from key [k], or [old] if there is none *)
Definition updated {T} (conv : str -> T -> Prop) (o : options) (k : str) (old new : T) : Prop :=
  (forall v, holds o k v -> conv v new) /\ ((forall v, ~ holds o k v) -> new = old).
