(** Specification of the client's diagnostics. *)
From Coq Require Import Reals String Ascii.
From Verif Require Import RBase M_Stat M_COpt M_CUtil S_CUtil M_CCal S_CCal.
Local Open Scope Z_scope.

(** [outs'] has F of the inputs where both are present, and is otherwise as before *)
Definition computed2 (d : dims) (F : val -> val -> val -> Prop) (A B outs outs' : list field) : Prop :=
  shaped d outs' /\ forall t y x e u v w, 0 <= t < d_t d -> within d y x e -> element A t y x e u -> element B t y x e v -> element outs t y x e w ->
    exists w', element outs' t y x e w' /\ (~ missing u -> ~ missing v -> F u v w') /\ (missing u \/ missing v -> w' = w).
(** what wind diagnostics are asked for: the name, and the inputs they need *)
Inductive wind_kind := WX | WY | WSpeed | WDirection.
Definition wind_name (k : wind_kind) : str := match k with WX => txt "x" | WY => txt "y" | WSpeed => txt "speed" | WDirection => txt "direction" end.
Definition wind_inputs (k : wind_kind) (x y speed direction : str) : str * str := match k with WX | WY => (speed, direction) | _ => (x, y) end.
Definition wind_function (k : wind_kind) (fx fy fs fd : val -> val -> val) : val -> val -> val := match k with WX => fx | WY => fy | WSpeed => fs | WDirection => fd end.
Definition known_wind (c : str) : Prop := exists k, c = wind_name k.
Definition known_humidity (c : str) : Prop := c = txt "dewpoint" \/ c = txt "rh" \/ c = txt "wetbulb".
(** a real number that is not the missing number *)
Definition present_real (x : R) : Prop := x <> (-999)%R.
(** angles that differ by at most [tol] degrees, on the circle *)
Definition close_angle (tol a b : R) : Prop := exists k : Z, (Rabs (a - b - 360 * IZR k) <= tol)%R.
(** [outs'] has F of the place's elevation and the input where the input is present and the elevation too, and is otherwise as before *)
Definition computed_at (d : dims) (elevs : list vec) (F : val -> val -> val) (A outs outs' : list field) : Prop :=
  shaped d outs' /\ forall t y x e u z w, 0 <= t < d_t d -> within d y x e -> element A t y x e u -> get2 elevs y x = Ok z -> element outs t y x e w ->
    exists w', element outs' t y x e w' /\ (~ missing u -> ~ missing z -> w' = F z u) /\ (missing u \/ missing z -> w' = w).
(** the wet bulb temperature: from the pressure variable, or from the pressure at the elevation *)
Definition computed_wetbulb (d : dims) (elevs : list vec) (fw : val -> val -> val -> val) (pr : val -> val) (T X : list field) (P : option (list field)) (outs outs' : list field) : Prop :=
  shaped d outs' /\ forall t y x e u v w p, 0 <= t < d_t d -> within d y x e -> element T t y x e u -> element X t y x e v -> element outs t y x e w ->
    match P with Some P => element P t y x e p | None => exists z, get2 elevs y x = Ok z /\ p = pr z end ->
    exists w', element outs' t y x e w' /\ (~ missing u -> ~ missing v -> w' = fw u p v) /\ (missing u \/ missing v -> w' = w).
