(** Specification for NetCDF files of the client: elements are found by dimension, not by position in an array. *)
From Coq Require Import Ascii String.
From Verif Require Import Base M_COpt M_CUtil M_CCal S_CCal M_CFile M_CNc.
Local Open Scope Z_scope.

(** the four dimensions are different, unless missing *)
Definition proper (R : roles) : Prop := forall i j a b, znth [r_t R; r_e R; r_y R; r_x R] i = Ok a -> znth [r_t R; r_e R; r_y R; r_x R] j = Ok b -> a = b -> a <> -999 -> i = j.
(** the file has these sizes *)
Definition fits (X : netcdf) (R : roles) (d : dims) : Prop :=
  1 <= d_y d /\ 1 <= d_x d /\ 1 <= d_e d /\ (r_y R <> -999 -> dim_size X (r_y R) = d_y d) /\ (r_x R <> -999 -> dim_size X (r_x R) = d_x d) /\ (r_e R <> -999 -> dim_size X (r_e R) = d_e d).
(** a variable of the file: its dimensions exist, no one twice *)
Definition sound (X : netcdf) (v : nc_var) : Prop := NoDup (n_dims v) /\ forall k, In k (n_dims v) -> 0 <= k < zlen (x_dims X).
(** the index of an element: time, member, row and column in their dimensions, [other] in others *)
Definition at_dim (R : roles) (other : Z -> Z) (t e y x k : Z) : Z := if k =? r_t R then t else if k =? r_e R then e else if k =? r_y R then y else if k =? r_x R then x else other k.
Definition at_dims (R : roles) (other : Z -> Z) (t e y x : Z) (ds : list Z) : list Z := map (at_dim R other t e y x) ds.
Definition extra (R : roles) (ds : list Z) (k : Z) : Prop := In k ds /\ k <> r_t R /\ k <> r_e R /\ k <> r_y R /\ k <> r_x R.
(** the variable has this member, row and column: it has the dimension, or it is the first *)
Definition covers (R : roles) (ds : list Z) (e y x : Z) : Prop := (In (r_e R) ds \/ e = 0) /\ (In (r_y R) ds \/ y = 0) /\ (In (r_x R) ds \/ x = 0).
(** all dimensions of the file that are known *)
Definition complete (R : roles) (ds : list Z) : Prop := forall k, In k [r_t R; r_e R; r_y R; r_x R] -> k <> -999 -> In k ds.
(** the level asked for, in dimensions with more than one *)
Definition level_in (X : netcdf) (level k : Z) : Z := if (level =? -999) || (dim_size X k <=? 1) then 0 else level.
Definition available (X : netcdf) (R : roles) (ds : list Z) (level t : Z) : Prop :=
  (In (r_t R) ds -> 0 <= t < dim_size X (r_t R)) /\ forall k, extra R ds k -> 1 <= dim_size X k /\ (1 < dim_size X k -> level = -999 \/ 0 <= level < dim_size X k).
(** attributes *)
Definition attr (a : option val) (default q : Qc) : Prop := a = Some (Fin q) \/ (a = None /\ q = default).
Definition packed (v : nc_var) (s o m : Qc) : Prop := attr (n_scale v) 1 s /\ attr (n_offset v) 0 o /\ (n_fill v = Some (Fin m) \/ (n_fill v = None /\ fill_float = Fin m)).
(** the number in the file stands for this value *)
Definition stands (s o m raw : Qc) (v : val) : Prop := (raw = m -> v = CMV) /\ (raw <> m -> v = Fin (s * raw + o)).
(** a value is present *)
Definition present (v : val) (q : Qc) : Prop := v = Fin q /\ q <> qz (-999).
Definition absent (v : val) : Prop := forall q, ~ present v q.
(** writing: there is room for the times, the other dimensions are not empty *)
Definition unlimited (X : netcdf) (k : Z) : Prop := exists n, znth (x_dims X) k = Ok (n, true).
Definition room (X : netcdf) (R : roles) (d : dims) (ds : list Z) : Prop :=
  (In (r_t R) ds -> d_t d <= dim_size X (r_t R) \/ unlimited X (r_t R)) /\ forall k, extra R ds k -> 1 <= dim_size X k.
(** the same variable, but for its contents *)
Definition same_form (v w : nc_var) : Prop := n_dims w = n_dims v /\ n_fill w = n_fill v /\ n_scale w = n_scale v /\ n_offset w = n_offset v /\ n_store w = n_store v.
(** the dimensions are those of the file *)
Definition known (X : netcdf) (R : roles) : Prop := forall r, In r [r_t R; r_e R; r_y R; r_x R] -> r = -999 \/ 0 <= r < zlen (x_dims X).
(** a time dimension that is missing can be made *)
Definition time_ready (X : netcdf) (R : roles) (d : dims) : Prop := (r_t R = -999 /\ find_name (x_vars X) (txt "time") = None) \/ (r_t R <> -999 /\ (d_t d <= dim_size X (r_t R) \/ unlimited X (r_t R))).
(** a variable of the file that is written to has all dimensions *)
Definition ready (X : netcdf) (R : roles) (d : dims) (v : nc_var) : Prop := sound X v /\ complete R (n_dims v) /\ r_t R <> -999 /\ (r_e R <> -999 \/ d_e d = 1) /\ forall k, extra R (n_dims v) k -> 1 <= dim_size X k.
(** fields for all times *)
Definition fields_for (d : dims) (fs : list field) : Prop := forall t, 0 <= t < d_t d -> exists f, znth fs t = Ok f /\ of_size d f.
(** what can be written to a file *)
Definition can_write (X : netcdf) (R : roles) (d : dims) (vars : list (str * list field)) : Prop :=
  proper R /\ known X R /\ fits X R d /\ 0 <= d_t d /\ time_ready X R d /\ NoDup (map fst vars) /\ forall n fs, In (n, fs) vars -> fields_for d fs /\ forall v, find_name (x_vars X) n = Some v -> ready X R d v.
(** floating point numbers are stored as they are; of others the part before the point is stored *)
Definition stores_all (v : nc_var) : Prop := forall w, n_store v w = Some w.
Definition part_before_point (q : Qc) (z : Z) : Prop := (0 <= q /\ qz z <= q < qz (z + 1))%Qc \/ (q < 0 /\ qz (z - 1) < q <= qz z)%Qc.
Definition stores_integers (v : nc_var) (lo hi : Z) : Prop := forall q z, part_before_point q z -> n_store v (Fin q) = if (lo <=? z) && (z <=? hi) then Some (Fin (qz z)) else None.
(** a missing dimension of the grid has one element *)
Definition grid_known (R : roles) (d : dims) : Prop := (r_y R = -999 -> d_y d = 1) /\ (r_x R = -999 -> d_x d = 1).
(** the value comes back *)
Definition same_value (w w' : val) : Prop := (forall q, present w q -> w' = Fin q) /\ (absent w -> w' = CMV).
(** numbers that can be told from a missing value *)
Definition tells (d : dims) (s o m : Qc) (fs : list field) : Prop := forall t f y x e w q, 0 <= t < d_t d -> within d y x e -> znth fs t = Ok f -> f_get f y x e = Ok w -> present w q -> ((q - o) / s)%Qc <> m.
Definition faithful (X : netcdf) (d : dims) (n : str) (fs : list field) : Prop :=
  match find_name (x_vars X) n with
  | Some v => stores_all v /\ exists s o m, packed v s o m /\ s <> 0%Qc /\ m <> qz (-999) /\ tells d s o m fs
  | None => forall m, fill_float = Fin m -> tells d 1 0 m fs
  end.
(** packed integers: the numbers and the missing value fit *)
Definition integers (d : dims) (v : nc_var) (s o : Qc) (fs : list field) : Prop := exists lo hi m, stores_integers v lo hi /\ lo <= m <= hi /\ m <> -999 /\ packed v s o (qz m) /\ s <> 0%Qc /\
  forall t f y x e w q z, 0 <= t < d_t d -> within d y x e -> znth fs t = Ok f -> f_get f y x e = Ok w -> present w q -> part_before_point ((q - o) / s) z -> lo <= z <= hi /\ z <> m.
(** the value comes back with an error of less than [k] times the scale *)
Definition off_by_less (k s : Qc) (w w' : val) : Prop := (forall q, present w q -> exists r, (- k < r < k)%Qc /\ w' = Fin (q + s * r)) /\ (absent w -> w' = CMV).
(** the grid of latitudes or longitudes: the value at the row and the column, the first in other dimensions *)
Definition grid_point (R : roles) (i j k : Z) : Z := if k =? r_y R then i else if k =? r_x R then j else 0.
