(** Training of the client's gaussian and zaga calibrators: C283, C284. *)
From Verif Require Import Base ListLib M_COpt M_CUtil S_CUtil M_CDist S_CDist P_CDistEx M_CLik S_CLik P_CLik.
Local Open Scope Z_scope.

(** C283: the gaussian calibrator minimises minus the logarithm of the likelihood.  Not so for means that are not positive *)
Theorem C283_cold_refuted : exists m, forall ex lg nd par par' o o' s, 2 <= zlen par -> 2 <= zlen par' -> gaussian_objective ex lg nd [(o, Fin m, s)] par = gaussian_objective ex lg nd [(o', Fin m, s)] par'.
Proof. exact c283_cold. Qed.
Print Assumptions C283_cold_refuted.
Theorem C283_gaussian_partial : forall ex lg nd exq lgq ndq par a b r (data : list (Qc * Qc * Qc)), on_numbers1 ex exq -> positive exq -> on_positive lg lgq -> on_numbers3 nd ndq -> never_negative ndq -> known par = Some (a :: b :: r) -> (forall o m s, In (o, m, s) data -> (0 < m)%Qc) ->
  gaussian_objective ex lg nd (map triple data) par = Ok (Fin (- total_of (map (normal_term exq lgq ndq a b) data))%Qc).
Proof. exact c283. Qed.
Print Assumptions C283_gaussian_partial.
Example C283_example : on_numbers3 (lift3 dens) dens /\ never_negative dens /\ on_positive (lift1 loga) loga /\ positive expo /\ known [fz 0; fz 1] = Some [qz 0; qz 1] /\
  gaussian_objective (lift1 expo) (lift1 loga) (lift3 dens) (map triple [(qz 3, qz 2, qz 0); (qz 2, qz 2, qz 1)]) [fz 0; fz 1] = Ok (fz 6).
Proof. split; [apply lift3_ok|]. split; [exact dens_nonneg|]. split; [apply lift1_pos|]. split; [exact expo_pos|]. split; vcalc. Qed.

(** C284: the zaga calibrator minimises minus the logarithm of the likelihood *)
Theorem C284_zaga : forall ex lg pw gd exq lgq pwq gdq par (data : list (Qc * Qc * Qc)) (law : Qc * Qc * Qc -> Qc * Qc * Qc), on_numbers1 ex exq -> on_nonneg2 pw pwq -> positive exq -> on_positive lg lgq -> on_numbers3 gd gdq -> never_negative gdq -> 8 <= zlen par ->
  (forall o m fr, In (o, m, fr) data -> (0 <= m)%Qc /\ (0 <= fr <= 1)%Qc /\ zaga_parameters exq pwq par m fr = Some (law (o, m, fr))) ->
  zaga_objective ex lg pw gd (map triple data) par = Ok (Fin (- total_of (map (fun d => let '(P0, shape, scale) := law d in zaga_term lgq gdq P0 shape scale (fst (fst d))) data))%Qc).
Proof. exact c284. Qed.
Print Assumptions C284_zaga.
Example C284_example : let par := [fz 0; fz 0; fz 0; fz 0; fz (-1); fz 0; fz 0; fz 0] in zaga_parameters expo (fun x _ => x) par 1%Qc half = Some (Q2Qc (1 # 3), 1%Qc, 1%Qc) /\
  zaga_objective (lift1 expo) (lift1 loga) (lift2 (fun x _ => x)) (lift3 dens) (map triple [(0%Qc, 1%Qc, half); (1%Qc, 1%Qc, half)]) par = Ok (fz 4).
Proof. cbv zeta. split; vcalc. Qed.
