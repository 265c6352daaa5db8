(** Further properties of the client's bilinear downscaler, kriging and optimal interpolation: C266-C268. *)
From Coq Require Import Lia.
From Verif Require Import Base ListLib QcTac M_Stat S_Stat M_COpt M_CUtil S_CUtil P_CUtil M_CCal S_CCal P_CCal M_CCal2 S_CCal2 M_CTree S_CTree M_CDown M_CBilin S_CBilin P_CDistEx M_CKrig S_CKrig P_CKrigEx M_COi S_COi P_COiEx S_Bilin P_CTight.
Local Open Scope Z_scope.

(** C266: cells that are parallelograms *)
Local Open Scope Qc_scope.
Theorem C266_parallelogram : forall E x0 y0 ux uy wx wy s r v0 v1 v2 v3, ux * wy - uy * wx <> 0 -> unit_range s -> unit_range r ->
  client_cell E (Fin (x0 + s * wx + r * ux)) (Fin (y0 + s * wy + r * uy)) (Fin x0) (Fin (x0 + ux)) (Fin (x0 + wx)) (Fin (x0 + ux + wx)) (Fin y0) (Fin (y0 + uy)) (Fin (y0 + wy)) (Fin (y0 + uy + wy)) (Fin v0) (Fin v1) (Fin v2) (Fin v3)
    = Ok (Fin ((1 - s) * (1 - r) * v0 + (1 - s) * r * v1 + s * (1 - r) * v2 + s * r * v3)).
Proof. exact c266. Qed.
Print Assumptions C266_parallelogram.
Theorem C266_linear : forall E x0 y0 ux uy wx wy s r a b c, ux * wy - uy * wx <> 0 -> unit_range s -> unit_range r -> let h x y := a + b * x + c * y in let x := x0 + s * wx + r * ux in let y := y0 + s * wy + r * uy in
  client_cell E (Fin x) (Fin y) (Fin x0) (Fin (x0 + ux)) (Fin (x0 + wx)) (Fin (x0 + ux + wx)) (Fin y0) (Fin (y0 + uy)) (Fin (y0 + wy)) (Fin (y0 + uy + wy))
    (Fin (h x0 y0)) (Fin (h (x0 + ux) (y0 + uy))) (Fin (h (x0 + wx) (y0 + wy))) (Fin (h (x0 + ux + wx) (y0 + uy + wy))) = Ok (Fin (h x y)).
Proof. exact c266_linear. Qed.
Print Assumptions C266_linear.
Local Open Scope Z_scope.
Example C266_example : (qz 1 * qz 1 - qz 2 * qz 3 <> 0)%Qc /\ client_cell E0 (fq (7 # 4)) (fz 1) (fz 0) (fz 1) (fz 3) (fz 4) (fz 0) (fz 2) (fz 1) (fz 3) (fz 0) (fz 8) (fz 16) (fz 32) = Ok (fz 11).
Proof. split; [discriminate|vm_compute; reflexivity]. Qed.

(** C267: a station without a bias at a time *)
Theorem C267_no_bias : forall gc ex pw inv k aux dep locs pars lats lons elevs d fs out t l v rest, shaped d fs -> kriging_calibrator gc ex pw inv k aux dep locs pars lats lons elevs d fs = Ok out -> 0 <= t < d_t d -> In l locs -> pars t l = v :: rest -> missing v ->
  forall y x e w, element fs t y x e w -> element out t y x e w.
Proof. exact c267. Qed.
Print Assumptions C267_no_bias.
Example C267_example : shaped (dims2 1 1 1) [row 1 1 [fz 8]] /\ kriging_calibrator (lift4 flat) (on_numbers always) (fun _ w => w) pair_inverse (within10 KAdd false) None true [at_lat 10; at_lat 15] (fun _ l => if veqb (l_lat l) (fz 10) then [fz 5] else [CMV]) [[fz 10]] [[fz 0]] [[fz 0]] (dims2 1 1 1) [row 1 1 [fz 8]] = Ok [row 1 1 [fz 8]].
Proof. split; [apply row_shaped; reflexivity|vm_compute; reflexivity]. Qed.

(** C268: too many parameters *)
Theorem C268_parameters : forall gc ga ex rf sortp inv nn ens o nPar locs pars lats lons elevs lafs d fs, rect (d_y d) (d_x d) lats -> rect (d_y d) (d_x d) lons -> rect (d_y d) (d_x d) elevs -> 3 < nPar ->
  oi_calibrator gc ga ex rf sortp inv nn ens o nPar locs pars lats lons elevs lafs d fs = Abort \/
  (oi_calibrator gc ga ex rf sortp inv nn ens o nPar locs pars lats lons elevs lafs d fs = Ok fs /\ forall y x l, 0 <= y < d_y d -> 0 <= x < d_x d -> located_at lats lons elevs y x l -> unsettled l).
Proof. exact c268. Qed.
Print Assumptions C268_parameters.
Example C268_example : oi_calibrator (lift4 flat) (lift4 flat) (on_numbers always) (fz 1) (fun l => l) (fun m => m) (fun _ => (0, 0)) (fun _ _ _ f _ _ _ => Ok f) plain 4 [] (fun _ _ => []) [[fz 10]] [[fz 0]] [[fz 0]] [[fz 0]] (dims2 1 1 1) [row 1 1 [fz 8]] = Abort.
Proof. vm_compute. reflexivity. Qed.
