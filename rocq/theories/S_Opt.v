(** Specification of threshold optimisation, gamma quantiles and statistic names. *)
From Coq Require Import String.
From Verif Require Import Base S_Stat M_Score S_Score M_Opt.
Local Open Scope Z_scope.

(** contract of the minimiser: the place found lies in the interval, and the value is the function's value there *)
Definition brent_ok (B : brent) : Prop := forall f lo hi, (lo <= hi)%Qc -> (forall x, (lo <= x)%Qc -> (x <= hi)%Qc -> exists v, f (Fin x) = Ok v) ->
  exists x v, B f (Fin lo) (Fin hi) = Ok (Fin x, v) /\ (lo <= x)%Qc /\ (x <= hi)%Qc /\ f (Fin x) = Ok v.
(** an instance *)
Definition B0 : brent := fun f lo hi => v <- f lo ;; Ok (lo, v).

(** the pairs [l] score [s] (undefined: None) for observation threshold [t] and forecast threshold [ft] *)
Definition score_is (l : list (Qc * Qc)) (t ft : Qc) (m : metric) (s : option Qc) : Prop :=
  let a := qz (tally t ft true true l) in let b := qz (tally t ft false true l) in
  let c := qz (tally t ft true false l) in let d := qz (tally t ft false false l) in
  match s with
  | Some q => (score_den a b c d m <> 0%Qc /\ (q * score_den a b c d m)%Qc = score_num a b c d m) \/ (m = Bias /\ score_den a b c d m = 0%Qc /\ q = 1%Qc)
  | None => score_den a b c d m = 0%Qc /\ m <> Bias
  end.
Definition within (F : list Qc) (x : Qc) : Prop := (exists a, In a F /\ (a <= x)%Qc) /\ (exists b, In b F /\ (x <= b)%Qc).
Definition least (F : list Qc) (a : Qc) : Prop := In a F /\ forall x, In x F -> (a <= x)%Qc.
Definition greatest (F : list Qc) (a : Qc) : Prop := In a F /\ forall x, In x F -> (x <= a)%Qc.
(** an acceptable threshold: in the range of the forecasts, with a score clearly above 0 *)
Definition useful (R F : list Qc) (t : Qc) (m : metric) (x : Qc) : Prop :=
  within F x /\ exists s, score_is (combine R F) t x m (Some s) /\ (Q2Qc (1 # 10000) < s)%Qc.

(** differ by less than 0.001 *)
Definition near (u v : Qc) : Prop := (u - v < Q2Qc (1 # 1000) /\ v - u < Q2Qc (1 # 1000))%Qc.
(** the same order, some left out *)
Inductive subseq {A} : list A -> list A -> Prop :=
  | ss_nil : subseq [] []
  | ss_keep x l m : subseq l m -> subseq (x :: l) (x :: m)
  | ss_skip x l m : subseq l m -> subseq l (x :: m).

(** contract of the gamma distribution's quantile function: finite, from 0 upwards, for levels below 1; at 1 it throws *)
Record gquant_ok (q : val -> val -> val -> res val) : Prop := {
  gq_val : forall sh sc l, (0 < sh)%Qc -> (0 < sc)%Qc -> (0 <= l)%Qc -> (l < 1)%Qc -> exists x, q (Fin sh) (Fin sc) (Fin l) = Ok (Fin x) /\ (0 <= x)%Qc;
  gq_zero : forall sh sc, (0 < sh)%Qc -> (0 < sc)%Qc -> q (Fin sh) (Fin sc) (Fin 0%Qc) = Ok (Fin 0%Qc);
  gq_mono : forall sh sc l l' x x', (0 < sh)%Qc -> (0 < sc)%Qc -> (0 <= l)%Qc -> (l < l')%Qc -> (l' < 1)%Qc ->
     q (Fin sh) (Fin sc) (Fin l) = Ok (Fin x) -> q (Fin sh) (Fin sc) (Fin l') = Ok (Fin x') -> (x < x')%Qc;
  gq_one : forall sh sc, (0 < sh)%Qc -> (0 < sc)%Qc -> q (Fin sh) (Fin sc) (Fin 1%Qc) = Throw RuntimeError }.
(** an instance *)
Definition Q0 (sh sc l : val) : res val := if veqb l (fz 1) then Throw RuntimeError else Ok (vmul (vmul sc sh) (vdiv l (vsub (fz 1) l))).
(** valid arguments *)
Definition level_ok (v : val) : Prop := exists q, v = Fin q /\ (0 <= q <= 1)%Qc.
Definition positive (v : val) : Prop := exists q, v = Fin q /\ (0 < q)%Qc.

(** the names of the statistics, include/gridpp.h:88-100 *)
Definition stat_names : list (string * statistic) :=
  [("mean", Mean); ("min", Min); ("median", Median); ("max", Max); ("quantile", Quantile); ("std", Std); ("variance", Variance);
   ("sum", Sum); ("count", Count); ("randomchoice", RandomChoice)]%string.
