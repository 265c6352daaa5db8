(** The variables a file of the client knows, and its type: C281, C282. *)
From Coq Require Import Ascii String Lia.
From Verif Require Import Base ListLib M_COpt M_CUtil M_CCal M_CDown M_CFile S_CFile M_CNc M_CPar M_CParNc M_CNcOpen M_CNorcom M_CVars S_CVars P_CFileEx P_CNcOpen P_CNcOpen2 P_CNorcom P_CVars.
Local Open Scope Z_scope.

(** C281: variables that are used are known *)
Theorem C281_known : forall K F F' ops, run K F ops = Ok F' -> (forall n w, find_variable F n = Some w -> find_variable F' n = Some w) /\ forall o v, In o ops -> uses o v -> exists w, find_variable F' (v_name v) = Some w /\ same_name w v.
Proof. exact c281. Qed.
Print Assumptions C281_known.
Theorem C281_first : forall K F o F', do1 K F o = Ok F' -> (forall v, uses o v -> find_variable F (v_name v) = None -> find_variable F' (v_name v) = Some v) /\
  forall n w, find_variable F' n = Some w -> find_variable F n = None -> v_name w = n /\ may_use F o w.
Proof. exact c281_first. Qed.
Print Assumptions C281_first.
Theorem C281_by_name : forall K F v t skip p F', reached K F -> get_field K F v t skip = Ok (p, F') -> exists F'', get_named K F' (v_name v) t = Ok (p, F'').
Proof. exact c281_by_name. Qed.
Print Assumptions C281_by_name.
Example C281_example : exists F F', run temp start [Get vT 0 false; Clear; Assign 0 (one (fz 7)); AddNew (one (fz 8)) vU 1] = Ok F /\ find_variable start (v_name vU) = None /\ find_variable F (v_name vU) = Some vU /\ find_variable F (v_name vT) <> None /\
  reached temp start /\ get_field temp start vT 1 false = Ok (Some 0, F') /\ exists F'', get_named temp F' (v_name vT) 1 = Ok (Some 0, F'').
Proof.
  do 2 eexists. split; [vm_compute; reflexivity|]. split; [reflexivity|]. split; [vm_compute; reflexivity|]. split; [vm_compute; discriminate|]. split; [apply (start_reached temp []); reflexivity|]. split; [vm_compute; reflexivity|]. eexists. vm_compute. reflexivity.
Qed.

(** C282: the type of a file.  A file may be recognised though it cannot be opened *)
Theorem C282_recognised_refuted : exists (F : pn_file) (o : no_options) (q : nq_options), nc_valid o F = true /\ forall A B (point : res A) (text : res B), file_scheme point text None o q (Some F) = Abort.
Proof. exact c282_recognised. Qed.
Print Assumptions C282_recognised_refuted.
Theorem C282_detected_partial : forall (A B : Type) (point : res A) (text : res B) o q nc F P, nc = Some F -> nc_open o F = Ok P -> file_scheme point text None o q nc = Ok (Some (ANetcdf P)) /\ file_scheme point text (Some (txt "netcdf")) o q nc = Ok (Some (ANetcdf P)).
Proof. exact c282. Qed.
Print Assumptions C282_detected_partial.
Theorem C282_only : forall (A B : Type) (point : res A) (text : res B) type o q nc K, file_scheme point text type o q nc = Ok (Some K) ->
  match K with
  | ANetcdf P => (type = None \/ type = Some (txt "netcdf")) /\ exists F, nc = Some F /\ nc_open o F = Ok P
  | APoint p => type = Some (txt "point") /\ point = Ok p
  | AText t => type = Some (txt "text") /\ text = Ok t
  | AQnh N => type = Some (txt "norcomQnh") /\ norcom_open q = Ok N
  end.
Proof. exact c282_only. Qed.
Print Assumptions C282_only.
Theorem C282_none : forall (A B : Type) (point : res A) (text : res B) o q nc, file_scheme point text None o q nc = Ok None <->
  forall F, nc = Some F -> lacks (x_vars (pn_x F)) (no_lat o) (txt "lat") (txt "latitude") \/ lacks (x_vars (pn_x F)) (no_lon o) (txt "lon") (txt "longitude").
Proof. exact c282_none. Qed.
Print Assumptions C282_none.
Theorem C282_unknown : forall (A B : Type) (point : res A) (text : res B) t o q nc, t <> [] -> ~ In t [txt "netcdf"; txt "point"; txt "text"; txt "norcomQnh"] -> file_scheme point text (Some t) o q nc = Abort.
Proof. exact c282_unknown. Qed.
Print Assumptions C282_unknown.
Theorem C282_given : forall (A B : Type) (point : res A) (text : res B) o q nc,
  (forall t, t <> [] -> file_scheme point text (Some t) o q nc <> Ok None) /\
  (nc = None -> file_scheme point text (Some (txt "netcdf")) o q nc = Abort) /\
  (forall p, point = Ok p -> file_scheme point text (Some (txt "point")) o q nc = Ok (Some (APoint p))) /\
  (forall t, text = Ok t -> file_scheme point text (Some (txt "text")) o q nc = Ok (Some (AText t))) /\
  (forall N, norcom_open q = Ok N -> file_scheme point text (Some (txt "norcomQnh")) o q nc = Ok (Some (AQnh N))).
Proof. exact c282_given. Qed.
Print Assumptions C282_given.
Example C282_example : (exists P, nc_open plain_options globe = Ok P /\ file_scheme (Ok 1) (Ok 2) None plain_options qnh_options (Some globe) = Ok (Some (ANetcdf P))) /\
  file_scheme (Ok 1) (Ok 2) None plain_options qnh_options None = Ok None /\ file_scheme (Ok 1) (Ok 2) (Some (txt "text")) plain_options qnh_options None = Ok (Some (AText 2)) /\ file_scheme (Ok 1) (Ok 2) (Some (txt "grib")) plain_options qnh_options (Some globe) = Abort /\
  exists N, file_scheme (Ok 1) (Ok 2) (Some (txt "norcomQnh")) plain_options qnh_options None = Ok (Some (AQnh N)).
Proof.
  split; [destruct (nc_open plain_options globe) as [P|e| |] eqn:E; [|vm_compute in E; discriminate E|vm_compute in E; discriminate E|vm_compute in E; discriminate E]; exists P; split; [reflexivity|]; apply (c282 _ _ (Ok 1) (Ok 2) plain_options qnh_options (Some globe) globe P eq_refl E)|].
  split; [reflexivity|]. split; [reflexivity|]. split; [reflexivity|]. eexists. vm_compute. reflexivity.
Qed.
