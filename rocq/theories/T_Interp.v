(** Property theorems C08-C10: index lookup and piecewise linear interpolation. *)
From Verif Require Import Base M_Interp S_Stat S_Interp P_Interp.

(** C08 *)
Theorem C08_index_lookup_brackets X x : qsorted X ->
  ((exists v, In v X /\ (v <= x)%Qc) -> exists i, get_lower_index (Fin x) (map Fin X) = Ok i /\ 0 <= i < zlen X /\
     (qnth X i <= x)%Qc /\ forall v, In v X -> (v <= x)%Qc -> (v <= qnth X i)%Qc) /\
  ((exists v, In v X /\ (x <= v)%Qc) -> exists i, get_upper_index (Fin x) (map Fin X) = Ok i /\ 0 <= i < zlen X /\
     (x <= qnth X i)%Qc /\ forall v, In v X -> (x <= v)%Qc -> (qnth X i <= v)%Qc) /\
  ((forall v, In v X -> (x < v)%Qc) -> get_lower_index (Fin x) (map Fin X) = UB) /\
  ((forall v, In v X -> (v < x)%Qc) -> get_upper_index (Fin x) (map Fin X) = UB).
Proof. exact (c08_all X x). Qed.
Print Assumptions C08_index_lookup_brackets.
Example C08_example : get_lower_index (fz 3) [fz 1; fz 2; fz 2; fz 5] = Ok 2 /\ get_upper_index (fz 3) [fz 1; fz 2; fz 2; fz 5] = Ok 3 /\
  get_lower_index (fz 2) [fz 1; fz 2; fz 2; fz 5] = Ok 1 /\ get_upper_index (fz 2) [fz 1; fz 2; fz 2; fz 5] = Ok 2 /\
  qsorted [qz 1; qz 2; qz 2; qz 5].
Proof. repeat split; try vcalc. repeat constructor; vm_compute; discriminate. Qed.

(** C09: in every case the documented value; the two edges; knots; bounds; monotonicity. *)
Theorem C09_interpolate_spec X Y : qsorted X -> X <> [] -> zlen X = zlen Y ->
  (forall x, exists a b r, bracket X x a b /\ interpolate (Fin x) (map Fin X) (map Fin Y) = Ok (Fin r) /\ interp_rule X Y x a b r) /\
  (forall x r, interpolate (Fin x) (map Fin X) (map Fin Y) = Ok (Fin r) -> (qnth X (zlen X - 1) < x)%Qc -> r = qnth Y (zlen X - 1)) /\
  (forall x r, interpolate (Fin x) (map Fin X) (map Fin Y) = Ok (Fin r) -> (x < qnth X 0)%Qc -> r = qnth Y 0) /\
  (forall i r, 0 <= i < zlen X -> (forall j, 0 <= j < zlen X -> j <> i -> qnth X j <> qnth X i) ->
     interpolate (Fin (qnth X i)) (map Fin X) (map Fin Y) = Ok (Fin r) -> r = qnth Y i) /\
  (forall x r lo hi, is_min Y lo -> is_max Y hi -> interpolate (Fin x) (map Fin X) (map Fin Y) = Ok (Fin r) -> (lo <= r <= hi)%Qc) /\
  (qsorted Y -> forall x x' r r', (x <= x')%Qc -> interpolate (Fin x) (map Fin X) (map Fin Y) = Ok (Fin r) ->
     interpolate (Fin x') (map Fin X) (map Fin Y) = Ok (Fin r') -> (r <= r')%Qc).
Proof. exact (c09_all X Y). Qed.
Print Assumptions C09_interpolate_spec.
Example C09_example : interpolate (fz 3) [fz 1; fz 2; fz 2; fz 5] [fz 0; fz 4; fz 6; fz 9] = Ok (fz 7) /\
  interpolate (fz 2) [fz 1; fz 2; fz 2; fz 5] [fz 0; fz 4; fz 6; fz 9] = Ok (fz 5) /\
  interpolate (fz 8) [fz 1; fz 2; fz 2; fz 5] [fz 0; fz 4; fz 6; fz 9] = Ok (fz 9) /\
  qsorted [qz 1; qz 2; qz 2; qz 5] /\ bracket [qz 1; qz 2; qz 2; qz 5] (qz 2) 1 3.
Proof.
  split; [vcalc|]. split; [vcalc|]. split; [vcalc|]. split; [repeat constructor; vm_compute; discriminate|].
  split; [lia|]. split; [vm_compute; discriminate|].
  intros j Hj. change (zlen [qz 1; qz 2; qz 2; qz 5]) with 4 in Hj.
  assert (j = 0 \/ j = 1 \/ j = 2 \/ j = 3) as [-> | [-> | [-> | ->]]] by lia;
    repeat split; intros; try lia; try reflexivity; vm_compute; reflexivity.
Qed.

(** C10: false in general: with a missing first (or last) knot no finite knot bounds x and the index is garbage. *)
Theorem C10_interpolate_memory_safe_refuted : exists x X Y, zlen X = zlen Y /\ interpolate x X Y = UB.
Proof. exists (fz 3), [NaN; fz 5], [fz 0; fz 1]. split; vm_compute; reflexivity. Qed.
Print Assumptions C10_interpolate_memory_safe_refuted.
(** C10, restricted: safe for every x and every curve whose first and last knots are finite; the inner knots may be
    missing, infinite or unsorted.  Missing from the full claim: curves with a missing end knot. *)
Theorem C10_interpolate_memory_safe_partial x X Y x0 xl :
  znth X 0 = Ok (Fin x0) -> znth X (zlen X - 1) = Ok (Fin xl) -> zlen X = zlen Y ->
  exists v, interpolate x X Y = Ok v.
Proof. exact (interpolate_safe x X Y x0 xl). Qed.
Print Assumptions C10_interpolate_memory_safe_partial.
Example C10_example : interpolate (fz 3) [fz 1; NaN; fz 9; fz 5] [fz 0; NaN; fz 8; fz 4] = Ok (fz 2).
Proof. vcalc. Qed.
