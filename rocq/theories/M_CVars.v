(** Model of two more functions of src/client/File/File.cpp: the variables a file knows, and how its type is determined. *)
From Coq Require Import Ascii String.
From Verif Require Import Base M_COpt M_CUtil M_CCal M_CDown M_CFile M_CNc M_CPar M_CParNc M_CNcOpen M_CNorcom.
Local Open Scope Z_scope.

(** File::getVariable, File.cpp:365-373; None: not found *)
Definition find_variable (F : file) (n : str) : option variable := List.find (fun w => str_eqb (v_name w) n) (f_vars F).

(** File::getScheme, File.cpp:19-57.  [nc]: the content of the file if the NetCDF library can open it; the constructor stops with an error otherwise (Netcdf.cpp:11-13).
    [point] and [text] are the constructors of those formats (parts of them are in M_CFile).  None: a NULL pointer; whether the file exists only matters for the warning *)
Inductive a_file (A B : Type) := ANetcdf (P : M_CNcOpen.opened) | APoint (p : A) | AText (t : B) | AQnh (N : norcom).
Arguments ANetcdf {A B}. Arguments APoint {A B}. Arguments AText {A B}. Arguments AQnh {A B}.
Definition file_scheme {A B} (point : res A) (text : res B) (type : option str) (o : no_options) (q : nq_options) (nc : option pn_file) : res (option (a_file A B)) :=
  let type := match type with
              | Some t => t
              | None => if match nc with Some F => nc_valid o F | None => false end then txt "netcdf" else []
              end in
  if str_eqb type [] then Ok None
  else if str_eqb type (txt "netcdf") then match nc with Some F => P <- nc_open o F ;; Ok (Some (ANetcdf P)) | None => Abort end
  else if str_eqb type (txt "point") then p <- point ;; Ok (Some (APoint p))
  else if str_eqb type (txt "text") then t <- text ;; Ok (Some (AText t))
  else if str_eqb type (txt "norcomQnh") then N <- norcom_open q ;; Ok (Some (AQnh N))
  else Abort.
