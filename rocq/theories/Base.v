(** Values, outcomes and bounds-checked arrays used by every model file. *)
From Coq Require Export ZArith QArith Qcanon List Bool Lia.
From Coq Require Import Qround.
From Verif Require Export QcTac.
Export ListNotations.
#[global] Open Scope Z_scope.

(** ** float / double
    Exact arithmetic: finite floats are rationals; NaN and infinities explicit.
    Not modelled: rounding, overflow to infinity, signed zero. *)
Inductive val := NaN | PInf | NInf | Fin (q : Qc).

Definition fz (n : Z) : val := Fin (qz n).
Definition fq (q : Q) : val := Fin (Q2Qc q).
(** gridpp::MV, include/gridpp.h:49 *)
Definition MV : val := NaN.
(** gridpp::is_valid, src/api/util.cpp:16-18 ([value != MV] is always true since MV is NaN) *)
Definition is_valid (v : val) : bool := match v with Fin _ => true | _ => false end.

Definition vltb (a b : val) : bool :=
  match a, b with
  | NaN, _ | _, NaN => false
  | Fin x, Fin y => qltb x y
  | NInf, NInf => false | NInf, _ => true | _, NInf => false
  | PInf, _ => false | _, PInf => true
  end.
Definition veqb (a b : val) : bool :=
  match a, b with
  | Fin x, Fin y => qeqb x y
  | NInf, NInf | PInf, PInf => true
  | _, _ => false
  end.
Definition vleb (a b : val) : bool := vltb a b || veqb a b.
Definition vneg (a : val) : val :=
  match a with NaN => NaN | PInf => NInf | NInf => PInf | Fin x => Fin (- x)%Qc end.
Definition vadd (a b : val) : val :=
  match a, b with
  | NaN, _ | _, NaN => NaN
  | PInf, NInf | NInf, PInf => NaN
  | PInf, _ | _, PInf => PInf
  | NInf, _ | _, NInf => NInf
  | Fin x, Fin y => Fin (x + y)%Qc
  end.
Definition vsub (a b : val) : val := vadd a (vneg b).
Definition vinf (neg : bool) : val := if neg then NInf else PInf.
Definition vmul (a b : val) : val :=
  match a, b with
  | NaN, _ | _, NaN => NaN
  | Fin x, Fin y => Fin (x * y)%Qc
  | PInf, PInf | NInf, NInf => PInf
  | PInf, NInf | NInf, PInf => NInf
  | PInf, Fin y | Fin y, PInf => if qeqb y 0 then NaN else vinf (qltb y 0)
  | NInf, Fin y | Fin y, NInf => if qeqb y 0 then NaN else vinf (qltb 0 y)
  end.
Definition vdiv (a b : val) : val :=
  match a, b with
  | NaN, _ | _, NaN => NaN
  | Fin x, Fin y => if qeqb y 0 then (if qeqb x 0 then NaN else vinf (qltb x 0)) else Fin (x / y)%Qc
  | Fin _, _ => Fin 0%Qc
  | PInf, Fin y => vinf (qltb y 0)
  | NInf, Fin y => vinf (negb (qltb y 0))
  | _, _ => NaN
  end.
Definition vabs (a : val) : val :=
  match a with NaN => NaN | PInf | NInf => PInf | Fin x => Fin (if qltb x 0 then - x else x)%Qc end.

(** ** Outcomes *)
Inductive exn := InvalidArgument | RuntimeError | LengthError | LogicError.
(** [Throw]: C++ exception reaching the caller.  [Abort]: exception leaving an OpenMP region
    (std::terminate).  [UB]: undefined behaviour. *)
Inductive res (A : Type) := Ok (a : A) | Throw (e : exn) | Abort | UB.
Arguments Ok {A} a. Arguments Throw {A} e. Arguments Abort {A}. Arguments UB {A}.
Definition bind {A B} (r : res A) (k : A -> res B) : res B :=
  match r with Ok a => k a | Throw e => Throw e | Abort => Abort | UB => UB end.
Notation "x <- e ;; k" := (bind e (fun x => k)) (at level 61, e at next level, right associativity).
Notation "' p <- e ;; k" := (bind e (fun p => k)) (at level 61, p pattern, e at next level, right associativity, only parsing).
(** body of a [#pragma omp parallel] region: an exception may not leave it *)
Definition omp {A} (r : res A) : res A := match r with Throw _ => Abort | _ => r end.

Fixpoint mapM {A B} (f : A -> res B) (l : list A) : res (list B) :=
  match l with [] => Ok [] | x :: t => y <- f x ;; ys <- mapM f t ;; Ok (y :: ys) end.
Fixpoint foldM {S A} (f : S -> A -> res S) (s : S) (l : list A) : res S :=
  match l with [] => Ok s | x :: t => s' <- f s x ;; foldM f s' t end.

(** ** Arrays *)
Notation vec := (list val). Notation vec2 := (list (list val)). Notation vec3 := (list (list (list val))).
Definition zlen {A} (l : list A) : Z := Z.of_nat (length l).
(** [operator[]]: out of range is undefined *)
Definition znth {A} (l : list A) (i : Z) : res A :=
  if i <? 0 then UB else match nth_error l (Z.to_nat i) with Some a => Ok a | None => UB end.
Fixpoint lset {A} (l : list A) (n : nat) (a : A) : list A :=
  match l, n with [], _ => [] | _ :: t, O => a :: t | x :: t, S m => x :: lset t m a end.
Definition zset {A} (l : list A) (i : Z) (a : A) : res (list A) :=
  if (i <? 0) || (zlen l <=? i) then UB else Ok (lset l (Z.to_nat i) a).
Definition get2 {A} (a : list (list A)) (i j : Z) : res A := r <- znth a i ;; znth r j.
Definition set2 {A} (a : list (list A)) (i j : Z) (v : A) : res (list (list A)) :=
  r <- znth a i ;; r' <- zset r j v ;; zset a i r'.
Definition get3 {A} (a : list (list (list A))) (i j k : Z) : res A := r <- get2 a i j ;; znth r k.
(** the integers lo, lo+1, ..., hi-1 *)
Definition zrange (lo hi : Z) : list Z := map (fun k => lo + Z.of_nat k) (seq 0 (Z.to_nat (hi - lo))).
(** table of nY rows and nX columns; row-major evaluation *)
Definition tab2 {A} (nY nX : Z) (g : Z -> Z -> res A) : res (list (list A)) :=
  mapM (fun i => mapM (fun j => g i j) (zrange 0 nX)) (zrange 0 nY).
(** gridpp::init_vec2, src/api/util.cpp:475-480 *)
Definition init2 {A} (nY nX : Z) (v : A) : list (list A) :=
  map (fun _ => map (fun _ => v) (zrange 0 nX)) (zrange 0 nY).

(** for(i = 0; i < n; i++) out[i] = body(i); *)
Definition for1 {A} (n : Z) (out : list A) (body : Z -> res A) : res (list A) :=
  foldM (fun o i => v <- body i ;; zset o i v) out (zrange 0 n).
(** for(i = 0; i < nY; i++) for(j = 0; j < nX; j++) out[i][j] = body(i, j); *)
Definition for2 {A} (nY nX : Z) (out : list (list A)) (body : Z -> Z -> res A) : res (list (list A)) :=
  foldM (fun o i => foldM (fun o j => v <- body i j ;; set2 o i j v) o (zrange 0 nX)) out (zrange 0 nY).
(** the same with a per-row preparation: for(i) { p = pre(i); for(j) out[i][j] = body(i, p, j); } *)
Definition for_rows {A P} (nY nX : Z) (out : list (list A)) (pre : Z -> res P) (body : Z -> P -> Z -> res A) : res (list (list A)) :=
  foldM (fun o i => p <- pre i ;; foldM (fun o j => v <- body i p j ;; set2 o i j v) o (zrange 0 nX)) out (zrange 0 nY).
Definition init1 {A} (n : Z) (v : A) : list A := map (fun _ => v) (zrange 0 n).

(** rectangular array, nY rows of nX *)
Definition rect {A} (nY nX : Z) (a : list (list A)) : Prop :=
  zlen a = nY /\ forall r, In r a -> zlen r = nX.
Definition rect3 {A} (nY nX nE : Z) (a : list (list (list A))) : Prop :=
  rect nY nX a /\ forall r c, In r a -> In c r -> zlen c = nE.

(** ** float to int conversion: truncation; NaN and infinities are undefined.
    (The int range check is not modelled.) *)
Definition ztrunc (q : Qc) : Z := Z.quot (Qnum q) (Zpos (Qden q)).
Definition to_int (v : val) : res Z := match v with Fin q => Ok (ztrunc q) | _ => UB end.

(** gridpp::Statistic, include/gridpp.h:89-101 *)
Inductive statistic :=
  Mean | Min | Median | Max | Quantile | Std | Variance | Sum | Count | RandomChoice | Unknown.
Definition stat_eqb (a b : statistic) : bool :=
  match a, b with
  | Mean, Mean | Min, Min | Median, Median | Max, Max | Quantile, Quantile | Std, Std
  | Variance, Variance | Sum, Sum | Count, Count | RandomChoice, RandomChoice | Unknown, Unknown => true
  | _, _ => false
  end.
Lemma stat_eqb_eq a b : stat_eqb a b = true <-> a = b.
Proof. split; [destruct a, b; cbn; congruence | intros ->; destruct b; reflexivity]. Qed.

(** External numeric functions: libm sqrt on finite nonnegative numbers, and one draw of rand(). *)
Record ext := { ext_sqrt : Qc -> Qc; ext_rand : Z }.
(** an instance for the concrete examples beside the theorems *)
Definition E0 : ext := {| ext_sqrt := fun x => x; ext_rand := 0 |}.
(** sqrt of a float: NaN for negative or missing input *)
Definition vsqrt (E : ext) (v : val) : val :=
  match v with Fin x => if qltb x 0 then NaN else Fin (ext_sqrt E x) | PInf => PInf | _ => NaN end.

(** equality of computed closed values *)
Ltac veq :=
  repeat match goal with
  | |- Ok _ = Ok _ => f_equal
  | |- Fin _ = Fin _ => f_equal
  | |- @eq (list _) (_ :: _) (_ :: _) => f_equal
  | |- (_, _) = (_, _) => f_equal
  | |- Some _ = Some _ => f_equal
  | |- @eq Qc _ _ => apply Qc_is_canon; vm_compute; reflexivity
  | |- _ => reflexivity
  end.
Ltac vcalc := vm_compute; veq.
#[global] Arguments zlen : simpl never.
#[global] Arguments zrange : simpl never.
#[global] Arguments znth : simpl never.
#[global] Arguments zset : simpl never.
#[global] Arguments qz : simpl never.
#[global] Arguments Z.mul : simpl never.
#[global] Arguments Z.add : simpl never.
#[global] Arguments Z.sub : simpl never.
