(** Specification of calibrators of the client. *)
From Coq Require Import Permutation.
From Verif Require Import Base M_Stat S_Stat M_COpt M_CUtil S_CUtil M_CCal.
Local Open Scope Z_scope.

(** the fields of a variable have the size of the file *)
Definition of_size (d : dims) (f : field) : Prop := field_ok f /\ f_ny f = d_y d /\ f_nx f = d_x d /\ f_ne f = d_e d.
Definition shaped (d : dims) (fs : list field) : Prop := 0 <= d_t d /\ 0 <= d_y d /\ 0 <= d_x d /\ 0 <= d_e d /\ zlen fs = d_t d /\ Forall (of_size d) fs.
Definition within (d : dims) (y x e : Z) : Prop := 0 <= y < d_y d /\ 0 <= x < d_x d /\ 0 <= e < d_e d.
Definition element (fs : list field) (t y x e : Z) (v : val) : Prop := exists f, znth fs t = Ok f /\ f_get f y x e = Ok v.
Definition missing (v : val) : Prop := match v with Fin q => q = missing_number | _ => True end.
Definition is_missing_value (v : val) : Prop := v = Fin missing_number.
(** the members of a point, and what they are when sorted: those that are present come first *)
Definition members (d : dims) (fs : list field) (t y x : Z) (vs : vec) : Prop := zlen vs = d_e d /\ forall e v, znth vs e = Ok v -> element fs t y x e v.
Definition sorted_present (vs ws : vec) : Prop := exists s k, qsorted s /\ Permutation s (present vs) /\ ws = map Fin s ++ repeat (Fin missing_number) k /\ zlen ws = zlen vs.
(** what a point has at time t *)
Definition series (fs : list field) (y x e : Z) (s : Z -> val) (n : Z) : Prop := forall t, 0 <= t < n -> element fs t y x e (s t).
Definition total (q : Z -> Qc) (t : Z) : Qc := qsum (map q (zrange 1 (t + 1))).
(** the number of thresholds that a value has passed *)
Definition passes (v : Qc) (te : Qc * Z) : bool := let '(thr, e) := te in if Qclt_le_dec v thr then false else if Qc_eq_dec v thr then negb (e =? 1) else true.
Definition passed (v : Qc) (thr : list Qc) (equals : list Z) : Z := zlen (filter (passes v) (combine thr equals)).
Definition increasing_thresholds (l : list Qc) : Prop := StronglySorted Qclt l.
(** the times of a window *)
Definition in_window (length : Z) (before : bool) (t tt : Z) : Prop :=
  if before then t - length < tt <= t else exists b a, b + a + 1 = length /\ (a = b \/ a = b + 1) /\ t - b <= tt <= t + a.
Definition window_times (length : Z) (before : bool) (n t : Z) (l : list Z) : Prop :=
  StronglySorted Z.lt l /\ forall tt, In tt l <-> 0 <= tt < n /\ in_window length before t tt.
(** sorting of pairs by their first component, with ties in any order *)
Definition sorts_pairs (f : list (val * Z) -> list (val * Z)) : Prop :=
  forall l, Forall (fun p => fst p <> NaN) l -> Permutation (f l) l /\ StronglySorted (fun a b => vltb (fst b) (fst a) = false) (f l).
(** the statistics of a list of values that are present *)
Definition client_statistic (E : ext) (st : cstat) (q : Qc) (l : list Qc) (w : val) : Prop :=
  (l = [] -> w = Fin missing_number) /\
  (l <> [] -> exists r, w = Fin r /\
    match st with
    | CMean => r = qmean l | CSum => r = qsum l | CStd => r = ext_sqrt E (qvar l)
    | CMin => is_min l r | CMax => is_max l r | CMedian => is_quantile l (Q2Qc (1#2)) r | CQuantile => is_quantile l q r
    end).
(** files with one point and one member *)
Definition field1 (v : val) : field := {| f_values := [v]; f_ny := 1; f_nx := 1; f_ne := 1 |}.
Definition dims1 (n : Z) : dims := {| d_y := 1; d_x := 1; d_e := 1; d_t := n |}.
