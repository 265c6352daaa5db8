(** The ensemble mode of the client's optimal interpolation: C244-C249. *)
From Coq Require Import Lia.
From Verif Require Import Base ListLib QcTac RBase M_OI S_OI M_Ensi S_EnsMulti S_Ensi P_OISum P_EnsiRoot P_EnsiWit P_OIInv P_OIRef M_COpt M_CUtil S_CUtil M_CCal S_CCal S_CTree P_CDistEx M_CKrig S_CKrig P_CKrigEx M_COi S_COi P_COiEx M_COiEns S_COiEns P_COiEns5 P_COiEns6.
Local Open Scope Z_scope.

(** C244: the mean.  False if a member that is missing somewhere has a value at a station *)
Theorem C244_mean_refuted : exists L EL radar o eo elevs d ss f sel gr sg dl U a b g ob ci bg y x q ms out z m, lib_ok L /\ elib_ok EL /\ ens_case o eo elevs d ss f sel gr sg dl U a b g ob ci bg /\
  0 <= y < d_y d /\ 0 <= x < d_x d /\ point_data d f y x q /\ en_savediff eo = false /\ en_extrapolate eo = true /\ full_members d f ms /\ 2 <= zlen ms /\
  oe_point (l_inv L) EL radar o eo 2 elevs d ss f sel y x = Ok out /\ written d ms z out /\ filter_mean dl U ms q bg ob (error_var sg g ci) m /\ ravg ms z <> qr m.
Proof. exact c244_refuted. Qed.
Print Assumptions C244_mean_refuted.
Theorem C244_mean_partial : forall L EL radar o eo elevs d ss f sel gr sg dl U a b g ob ci bg y x q, lib_ok L -> elib_ok EL -> ens_case o eo elevs d ss f sel gr sg dl U a b g ob ci bg -> all_or_nothing d ss f U ->
  0 <= y < d_y d -> 0 <= x < d_x d -> point_data d f y x q -> en_savediff eo = false -> en_extrapolate eo = true ->
  exists ms, full_members d f ms /\ (2 <= zlen ms -> exists out, oe_point (l_inv L) EL radar o eo 2 elevs d ss f sel y x = Ok out /\
    (solver_failed EL ms (filter_precision dl U ms bg (error_var sg g ci)) \/ exists z m, written d ms z out /\ filter_mean dl U ms q bg ob (error_var sg g ci) m /\ ravg ms z = qr m)).
Proof. exact c244. Qed.
Print Assumptions C244_mean_partial.
Example C244_example : lib_ok L0 /\ elib_ok EL0 /\ ens_case plain (ens_opt 1 1 false true) [[fz 0; fz 0]] (dims2 2 3 1) [st_at 0 (Fin 1%Qc)] (one_row [2; -2; -999; 3; -1; 5]) [(fz 1, 0)] 0 1 1 [0] lat_of two_points (fun _ => 1%Qc) (fun _ => 1%Qc) (fun _ => 1%Qc) (bg3 2 (-2) (-999)) /\
  all_or_nothing (dims2 2 3 1) [st_at 0 (Fin 1%Qc)] (one_row [2; -2; -999; 3; -1; 5]) [0] /\ point_data (dims2 2 3 1) (one_row [2; -2; -999; 3; -1; 5]) 0 1 (q2 3 (-1)) /\ full_members (dims2 2 3 1) (one_row [2; -2; -999; 3; -1; 5]) [0; 1] /\
  run3 Abort (ens_opt 1 1 false true) 1 [2; -2; -999; 3; -1; 5] = Ok [rq (23 # 9); rq (11 # 9); v2r CMV].
Proof. split; [apply lib_ok_L0|]. split; [apply elib_ok_EL0|]. split; [apply plain_case|]. split; [exact plain_nothing|]. split; [exact plain_data|]. split; [exact plain_members|]. apply run_plain. Qed.

(** C245: the spread.  False in the case of C244 *)
Theorem C245_spread_partial : forall L EL radar o eo elevs d ss f sel gr sg dl U a b g ob ci bg y x q, lib_ok L -> elib_ok EL -> ens_case o eo elevs d ss f sel gr sg dl U a b g ob ci bg -> all_or_nothing d ss f U ->
  0 <= y < d_y d -> 0 <= x < d_x d -> point_data d f y x q -> en_savediff eo = false -> en_extrapolate eo = true ->
  exists ms, full_members d f ms /\ (2 <= zlen ms -> exists out, oe_point (l_inv L) EL radar o eo 2 elevs d ss f sel y x = Ok out /\
    (solver_failed EL ms (filter_precision dl U ms bg (error_var sg g ci)) \/ exists z v, written d ms z out /\ filter_var dl U ms q bg (error_var sg g ci) v /\ rvar ms z = qr v /\ (0 <= v <= dl * cov ms q q)%Qc)).
Proof. exact c245. Qed.
Print Assumptions C245_spread_partial.
Example C245_example : cov [0; 1] (q2 3 (-1)) (q2 3 (-1)) = qz 8 /\ cov [0; 1] (fun e => if e =? 0 then Q2Qc (23 # 9) else Q2Qc (11 # 9)) (fun e => if e =? 0 then Q2Qc (23 # 9) else Q2Qc (11 # 9)) = Q2Qc (8 # 9).
Proof. split; apply Qc_is_canon; vm_compute; reflexivity. Qed.

(** C246: the members *)
Theorem C246_members_partial : forall L EL radar o eo elevs d ss f sel gr sg dl U a b g ob ci bg y x q, lib_ok L -> elib_ok EL -> ens_case o eo elevs d ss f sel gr sg dl U a b g ob ci bg -> all_or_nothing d ss f U ->
  0 <= y < d_y d -> 0 <= x < d_x d -> point_data d f y x q -> en_savediff eo = false -> en_extrapolate eo = true ->
  exists ms, full_members d f ms /\ (2 <= zlen ms -> exists out, oe_point (l_inv L) EL radar o eo 2 elevs d ss f sel y x = Ok out /\
    ((solver_failed EL ms (filter_precision dl U ms bg (error_var sg g ci)) /\ kept d f y x out) \/
     exists z m T, written d ms z out /\ filter_mean dl U ms q bg ob (error_var sg g ci) m /\ filter_transform dl U ms bg (error_var sg g ci) T /\ forall e, In e ms -> z e = (qr m + rtot ms (fun f => qr (dev ms q f) * T f e))%R)).
Proof. exact c246. Qed.
Print Assumptions C246_members_partial.
Example C246_example : full_members (dims2 2 3 1) (one_row [3; 0; 0; 1; -1; -999]) [0; 1] /\ run3 Abort (ens_opt (Q2Qc (1 # 4)) 1 false true) (Q2Qc (3 # 2)) [3; 0; 0; 1; -1; -999] = Ok [rq (31 # 135); rq (- 23 # 135); v2r CMV].
Proof. split; [exact biased_members|apply run_biased]. Qed.

(** C247: saveDiff.  False: the differences are from the mean of the background *)
Theorem C247_difference_refuted : exists L EL radar o eo eo' elevs d ss f sel gr sg dl U a b g ob ci bg y x q ms out out' z z' e, lib_ok L /\ elib_ok EL /\ ens_case o eo elevs d ss f sel gr sg dl U a b g ob ci bg /\ ens_case o eo' elevs d ss f sel gr sg dl U a b g ob ci bg /\ all_or_nothing d ss f U /\
  0 <= y < d_y d /\ 0 <= x < d_x d /\ point_data d f y x q /\ en_savediff eo = false /\ en_savediff eo' = true /\ en_extrapolate eo = true /\ en_extrapolate eo' = true /\ full_members d f ms /\ 2 <= zlen ms /\
  oe_point (l_inv L) EL radar o eo 2 elevs d ss f sel y x = Ok out /\ written d ms z out /\ oe_point (l_inv L) EL radar o eo' 2 elevs d ss f sel y x = Ok out' /\ written d ms z' out' /\ In e ms /\ z' e <> (z e - qr (q e))%R.
Proof. exact c247_refuted. Qed.
Print Assumptions C247_difference_refuted.
Theorem C247_difference_partial : forall L EL radar o eo elevs d ss f sel gr sg dl U a b g ob ci bg y x q, lib_ok L -> elib_ok EL -> ens_case o eo elevs d ss f sel gr sg dl U a b g ob ci bg -> all_or_nothing d ss f U ->
  0 <= y < d_y d -> 0 <= x < d_x d -> point_data d f y x q -> en_savediff eo = true ->
  exists ms, full_members d f ms /\ (2 <= zlen ms -> exists out, oe_point (l_inv L) EL radar o eo 2 elevs d ss f sel y x = Ok out /\
    ((solver_failed EL ms (filter_precision dl U ms bg (error_var sg g ci)) /\ kept d f y x out) \/
     exists an, filtered dl U ms q bg ob (error_var sg g ci) an /\ written d ms (fun e => an e - qr (avg ms q))%R out)).
Proof. exact c247. Qed.
Print Assumptions C247_difference_partial.
Example C247_example : run3 Abort (ens_opt 1 1 true true) 1 [2; -2; -999; 3; -1; 5] = Ok [rq (14 # 9); rq (2 # 9); v2r CMV].
Proof. apply run_diff. Qed.

(** C248: no extrapolation.  False with two stations *)
Theorem C248_limit_refuted : exists L EL radar o eo elevs d ss f sel gr sg dl U a b g ob ci bg y x q ms out z e, lib_ok L /\ elib_ok EL /\ ens_case o eo elevs d ss f sel gr sg dl U a b g ob ci bg /\ all_or_nothing d ss f U /\
  0 <= y < d_y d /\ 0 <= x < d_x d /\ point_data d f y x q /\ en_savediff eo = false /\ en_extrapolate eo = false /\ full_members d f ms /\ 2 <= zlen ms /\
  oe_point (l_inv L) EL radar o eo 2 elevs d ss f sel y x = Ok out /\ written d ms z out /\ In e ms /\ (forall k, In k U -> (0 < ob k - bg k e <= 1)%Qc) /\ (z e - qr (q e) > 1)%R.
Proof. exact c248_refuted. Qed.
Print Assumptions C248_limit_refuted.
Theorem C248_limit_partial : forall L EL radar o eo elevs d ss f sel gr sg dl k a b g ob ci bg y x q, lib_ok L -> elib_ok EL -> ens_case o eo elevs d ss f sel gr sg dl [k] a b g ob ci bg -> all_or_nothing d ss f [k] ->
  0 <= y < d_y d -> 0 <= x < d_x d -> point_data d f y x q -> en_savediff eo = false -> en_extrapolate eo = false ->
  exists ms, full_members d f ms /\ (2 <= zlen ms -> exists out, oe_point (l_inv L) EL radar o eo 2 elevs d ss f sel y x = Ok out /\
    ((solver_failed EL ms (filter_precision dl [k] ms bg (error_var sg g ci)) /\ kept d f y x out) \/
     exists an z, filtered dl [k] ms q bg ob (error_var sg g ci) an /\ written d ms z out /\ forall e, In e ms -> rlimited (qr (ob k - bg k e)%Qc) (an e - qr (q e)) (z e - qr (q e)))).
Proof. exact c248. Qed.
Print Assumptions C248_limit_partial.
Example C248_example : run3 Abort (ens_opt 1 1 false false) 1 [2; -2; -999; 3; -1; 5] = Ok [rq (23 # 9); rq (11 # 9); v2r CMV] /\ run2 Abort (ens_opt 1 1 false false) = Ok [rq (10 # 3); rq (-1)].
Proof. split; [apply run_limited|apply run_two]. Qed.

(** C249: the number of parameters *)
Theorem C249_parameters : forall L EL radar o eo elevs d ss f sel gr sg dl U a b g ob ci bg y x nPar, ens_case o eo elevs d ss f sel gr sg dl U a b g ob ci bg ->
  0 <= y < d_y d -> 0 <= x < d_x d -> nPar <> 2 -> nPar <> 3 -> oe_point (l_inv L) EL radar o eo nPar elevs d ss f sel y x = Abort.
Proof. exact c249. Qed.
Print Assumptions C249_parameters.
Example C249_example : oe_point (l_inv L0) EL0 (Ok []) plain (ens_opt 1 1 false true) 1 [[fz 0; fz 0]] (dims2 2 3 1) [st_at 0 (Fin 1%Qc)] (one_row [2; -2; -999; 3; -1; 5]) [(fz 1, 0)] 0 1 = Abort.
Proof. eapply C249_parameters; [apply plain_case|cbn; lia|cbn; lia|lia|lia]. Qed.
