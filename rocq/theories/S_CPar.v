(** Specification of the client's parameter files. *)
From Coq Require Import Ascii String Sorted.
From Verif Require Import Base M_Stat M_COpt S_COpt M_CUtil S_CUtil M_CText M_CTree S_CTree M_CPar.
Local Open Scope Z_scope.

(** a call of setParameters: time, location and parameter set; a history of calls *)
Definition setting := (Z * location * vec)%type.
Definition at_ (e : setting) : Z := fst (fst e).
Definition where_ (e : setting) : location := snd (fst e).
Definition what (e : setting) : vec := snd e.
Definition set_all (h : list setting) (f : pfile) : res pfile := foldM (fun f e => set_parameters (what e) (at_ e) (where_ e) f) f h.
(** a file after these calls, and perhaps a call of recomputeTree *)
Definition file_of (srt : bool -> list item -> list item) (cycle : bool) (h : list setting) (f : pfile) : Prop :=
  exists f0, set_all h (new_pfile cycle) = Ok f0 /\ (f = f0 \/ recompute_tree srt f0 = Ok f).
(** the coordinates are numbers; the elevation does not matter *)
Definition placed (l : location) : Prop := number (l_lat l) /\ number (l_lon l).
(** a time index such that the number of times is an int *)
Definition is_time (t : Z) : Prop := 0 <= t < 2147483647.
Definition good_history (h : list setting) : Prop := forall e, In e h -> is_time (at_ e) /\ placed (where_ e).

(** a call is about time [t] and the place of [k] *)
Definition about (e : setting) (t : Z) (k : location) : Prop := at_ e = t /\ same_place (where_ e) k.
(** the parameter set of the last call about a time and a place; empty if there is none *)
Definition latest (h : list setting) (t : Z) (k : location) (p : vec) : Prop :=
  (exists before e after, h = before ++ e :: after /\ about e t k /\ what e = p /\ forall e', In e' after -> ~ about e' t k) \/
  (p = [] /\ forall e, In e h -> ~ about e t k).
Definition last_time (h : list setting) (n : Z) : Prop := 0 <= n /\ (forall e, In e h -> at_ e <= n) /\ (n = 0 \/ exists e, In e h /\ at_ e = n).
(** the time whose sets are used for time [t]: 0 if there are no other times; with cycling, the times start again after the last one *)
Definition time_used (h : list setting) (cycle : bool) (t u : Z) : Prop :=
  ((forall e, In e h -> at_ e = 0) /\ u = 0) \/
  ((exists e, In e h /\ at_ e <> 0) /\ (cycle = false -> u = t) /\ (cycle = true -> exists n, last_time h n /\ 0 <= u <= n /\ exists m, t = u + m * (n + 1))).

(** all calls are about the same place / about two places *)
Definition one_place (h : list setting) (l : location) : Prop := h <> [] /\ forall e, In e h -> same_place (where_ e) l.
Definition two_places (h : list setting) : Prop := exists e e', In e h /\ In e' h /\ ~ same_place (where_ e) (where_ e').
Definition located (l : location) : Prop := exists lat lon, l_lat l = Fin lat /\ l_lon l = Fin lon /\ lat <> missing_number /\ lon <> missing_number.
(** a place on earth, with its coordinates *)
Definition sited (l : location) (lat lon : Qc) : Prop := l_lat l = Fin lat /\ l_lon l = Fin lon /\ on_earth lat lon.
Definition all_sited (h : list setting) : Prop := forall e, In e h -> exists lat lon, sited (where_ e) lat lon.

(** [l] has a set for time [u], and no place that has one is closer *)
Definition nearest_with_set (D : Qc -> Qc -> Qc -> Qc -> Qc) (h : list setting) (u : Z) (lat lon : Qc) (l : location) (p : vec) : Prop :=
  (exists e, In e h /\ same_place (where_ e) l) /\ latest h u l p /\ p <> [] /\
  exists la lo, sited l la lo /\ forall l' la' lo' p', sited l' la' lo' -> latest h u l' p' -> p' <> [] -> (D lat lon la lo <= D lat lon la' lo')%Qc.

(** ** Text files *)
(** a line of words: white space only between them and before the first *)
Definition Line (ws : list str) (s : str) : Prop :=
  ws <> [] /\ Words white s ws /\ (exists s' c, s = s' ++ [c] /\ ~ In c white) /\
  (forall c, In c s -> c <> newline /\ c <> "000"%char) /\ (forall t, s <> "#"%char :: t) /\ zlen s < 10000.
(** a comment *)
Definition Comment (s : str) : Prop := exists t, s = "#"%char :: t /\ (forall c, In c s -> c <> newline /\ c <> "000"%char) /\ zlen s < 10000.
(** the text of a file: lines of words (and comments), each ended by a newline *)
Inductive Text : list (list str) -> str -> Prop :=
| X_end : Text [] []
| X_line ws s lines text : Line ws s -> Text lines text -> Text (ws :: lines) (s ++ newline :: text)
| X_comment s lines text : Comment s -> Text lines text -> Text lines (s ++ newline :: text).

(** [w] is the numeral of [v] for the reader [rd]: it is read from the front of a text that continues with white space or ends there *)
Definition numeral {V} (rd : str -> option (V * str)) (w : str) (v : V) : Prop :=
  w <> [] /\ forall rest, (rest = [] \/ exists c t, rest = c :: t /\ In c white) -> rd (w ++ rest) = Some (v, rest).

(** a row of a table with the given header is about this time, place and parameter set *)
Definition special (w : str) : Prop := In w [txt "time"; txt "lat"; txt "lon"; txt "elev"].
Definition cell {V} (rd : str -> option (V * str)) (header words : list str) (name : str) (default v : V) : Prop :=
  (~ In name header /\ v = default) \/ (exists i w, znth header i = Ok name /\ znth words i = Ok w /\ numeral rd w v).
Inductive parameter_cells (rnum : str -> option (val * str)) : list str -> list str -> vec -> Prop :=
| PC_end : parameter_cells rnum [] [] []
| PC_special n w ns ws p : special n -> parameter_cells rnum ns ws p -> parameter_cells rnum (n :: ns) (w :: ws) p
| PC_value n w v ns ws p : ~ special n -> numeral rnum w v -> parameter_cells rnum ns ws p -> parameter_cells rnum (n :: ns) (w :: ws) (v :: p).
Definition given (v : val) : Prop := exists q, v = Fin q /\ q <> missing_number.
Definition table_row (rint : str -> option (Z * str)) (rnum : str -> option (val * str)) (header words : list str) (e : setting) : Prop :=
  zlen words = zlen header /\ parameter_cells rnum header words (what e) /\ cell rint header words (txt "time") 0 (at_ e) /\
  exists lat lon elev, cell rnum header words (txt "lat") (Fin missing_number) lat /\ cell rnum header words (txt "lon") (Fin missing_number) lon /\
    cell rnum header words (txt "elev") (Fin missing_number) elev /\
    ((given lat /\ given lon /\ given elev /\ where_ e = {| l_lat := lat; l_lon := lon; l_elev := elev |}) \/
     (~ (given lat /\ given lon /\ given elev) /\ where_ e = {| l_lat := Fin missing_number; l_lon := Fin missing_number; l_elev := Fin missing_number |})).
(** no column twice; all or none of lat, lon and elev *)
Definition good_header (header : list str) : Prop :=
  (forall i j n, special n -> znth header i = Ok n -> znth header j = Ok n -> i = j) /\
  ((In (txt "lat") header /\ In (txt "lon") header /\ In (txt "elev") header) \/ (~ In (txt "lat") header /\ ~ In (txt "lon") header /\ ~ In (txt "elev") header)).
