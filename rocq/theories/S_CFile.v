(** Specifications for the client's files. *)
From Coq Require Import Ascii String.
From Verif Require Import Base M_COpt M_CUtil M_CCal M_CDown M_CFile.
Local Open Scope Z_scope.

(** what can happen to a file: a field is asked for (also by name), a new field is registered, a variable is initialised, the cache is cleared, a field is changed by one
    who has its handle *)
Inductive fop := Get (v : variable) (t : Z) (skip : bool) | GetName (n : str) (t : Z) | AddNew (f : field) (v : variable) (t : Z) | Init (v : variable) | Clear | Assign (p : Z) (f : field).
Definition do1 (K : core) (F : file) (o : fop) : res file :=
  match o with
  | Get v t skip => '(_, F) <- get_field K F v t skip ;; Ok F
  | GetName n t => '(_, F) <- get_named K F n t ;; Ok F
  | AddNew f v t => let '(F, p) := create F f in add_field F (Some p) v t
  | Init v => init_new K F v
  | Clear => Ok (clear_fields F)
  | Assign p f => assign F p f
  end.
Definition run (K : core) (F : file) (ops : list fop) : res file := foldM (do1 K) F ops.
(** a state after any operations on a file with any sizes *)
Definition reached (K : core) (F : file) : Prop :=
  exists d h vars al ops, 0 <= d_y d /\ 0 <= d_x d /\ 0 <= d_e d /\ 0 <= d_t d /\ run K (opened d h vars al) ops = Ok F.
Definition in_time (F : file) (t : Z) : Prop := 0 <= t < d_t (f_dims F).
(** the file has the field [p] for a variable and time: whatever the format, that one is returned, and nothing is read or created *)
Definition holds (F : file) (v : variable) (t p : Z) : Prop :=
  forall K skip, exists F', get_field K F v t skip = Ok (Some p, F') /\ f_heap F' = f_heap F.
(** a variable has fields for all times *)
Definition whole (F : file) (v : variable) : Prop := forall t, in_time F t -> exists p, holds F v t p.
(** a field of the size of the file with missing values only *)
Definition all_missing (F : file) (f : field) : Prop :=
  let d := f_dims F in f_ny f = d_y d /\ f_nx f = d_x d /\ f_ne f = d_e d /\
  forall y x e, 0 <= y < d_y d -> 0 <= x < d_x d -> 0 <= e < d_e d -> f_get f y x e = Ok CMV.
Definition same_name (v w : variable) : Prop := v_name v = v_name w.
(** operations that give another field to a variable and time *)
Definition replaces (v : variable) (t : Z) (o : fop) : Prop :=
  match o with AddNew _ w t' => same_name w v /\ t' = t | Clear => True | _ => False end.
Definition skips (v : variable) (o : fop) : Prop := match o with Get w _ true => same_name w v | _ => False end.
Definition provided (K : core) (v : variable) : Prop := forall w, same_name w v -> k_has K w = true.
(** files opened by the text format *)
Definition text_state (d : dims) (fields : list field) : file := opened d fields [] [].

(** ** text files: the last line with the time and the place *)
Definition place (l : location) (line : Z * vec) : Prop := exists vs, snd line = l_lat l :: l_lon l :: l_elev l :: vs.
Definition last_line (lines : list (Z * vec)) (t : Z) (l : location) (vs : vec) : Prop :=
  exists a b, lines = a ++ (t, l_lat l :: l_lon l :: l_elev l :: vs) :: b /\ (forall x, In x b -> fst x = t -> ~ place l x).
Definition finite_line (line : Z * vec) : Prop := forall v, In v (snd line) -> exists q, v = Fin q.
(** ** point files: the last line with a time *)
Definition last_row (lines : list (Z * vec)) (t : Z) (vs : vec) : Prop := exists a b, lines = a ++ (t, vs) :: b /\ (forall x, In x b -> fst x <> t).
