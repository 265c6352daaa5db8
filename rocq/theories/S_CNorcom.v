(** Specification of the QNH file of the client. *)
From Coq Require Import Ascii String.
From Verif Require Import Base M_COpt M_CDate S_CDate M_CUtil M_CCal M_CFile S_CFile M_CNorcom.
Local Open Scope Z_scope.

(** numbers with leading zeros *)
Definition digit (k : Z) : ascii := ascii_of_nat (48 + Z.to_nat k).
Definition two (k : Z) : str := [digit (k / 10); digit (k mod 10)].
Definition four (k : Z) : str := two (k / 100) ++ two (k mod 100).
(** a time from 1970 on: day of the month, hour and minute *)
Definition moment (t d hh mm : Z) : Prop := exists n y m ss, 0 <= n /\ days_after epoch n (y, m, d) /\ in_years (y, m, d) /\ a_time hh mm ss /\ t = n * 86400 + (hh * 3600 + mm * 60 + ss).
Definition stamp (d hh mm : Z) : str := two d ++ two hh ++ two mm.
(** the width of the names *)
Definition widest (names : list str) (w : Z) : Prop := (forall n, In n names -> zlen n <= w) /\ ((names = [] /\ w = 0) \/ exists n, In n names /\ zlen n = w).
Definition filled (w : Z) (name s : str) : Prop := exists k, s = name ++ repeat " "%char k /\ zlen s = w.
(** the smallest value in Pa of a station, cut to whole numbers; missing values do not count *)
Definition smallest (fields : list field) (first last j m : Z) : Prop :=
  exists c : Z -> Z, (forall t, first <= t <= last -> exists v, get4 fields t 0 j 0 = Ok v /\ to_int v = Ok (c t)) /\ (exists t, first <= t <= last /\ c t = m) /\ m <> -999 /\ forall t, first <= t <= last -> c t <> -999 -> m <= c t.
(** the line of a station: its name filled up to the width, and whole hPa *)
Definition a_line (w : Z) (name : str) (m : Z) (s : str) : Prop := exists p, filled w name p /\ s = txt "EST MIN QNH " ++ p ++ txt ": " ++ four (m / 100) ++ txt " HPA" ++ [CR; LF].
(** options that are all there, of the same size and within limits *)
Definition in_limits (lim : Z) (v : val) : Prop := exists q, v = Fin q /\ (qz (- lim) <= q <= qz lim)%Qc.
