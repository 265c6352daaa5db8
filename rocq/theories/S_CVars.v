(** Specification of the variables a file knows. *)
From Coq Require Import Ascii String.
From Verif Require Import Base M_COpt M_CUtil M_CCal M_CDown M_CFile S_CFile M_CVars.
Local Open Scope Z_scope.

(** operations that use a variable *)
Definition uses (o : fop) (v : variable) : Prop := match o with Get w _ _ | AddNew _ w _ => w = v | _ => False end.
(** operations that may use a variable: it is given, or a name stands for it, as an alias or because nothing else is known *)
Definition may_use (F : file) (o : fop) (v : variable) : Prop :=
  match o with
  | Get w _ _ | AddNew _ w _ | Init w => w = v
  | GetName n _ => find_variable F n = None /\ (find_name (f_alias F) n = Some v \/ (find_name (f_alias F) n = None /\ v = bare n))
  | _ => False
  end.
(** a NetCDF file without latitudes or longitudes, none being named in the options either *)
Definition lacks (vars : list (str * M_CNc.nc_var)) (given : option str) (n m : str) : Prop := given = None /\ find_name vars n = None /\ find_name vars m = None.
