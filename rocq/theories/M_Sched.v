(** Interleaving semantics of the OpenMP loops (#pragma omp parallel for, with or without collapse(2), and
    #pragma omp parallel without for: gridding.cpp:49, 123).
    A loop body is split in two atomic steps: computing the cell's value from read-only inputs, and storing it.
    Every thread runs its own list of iterations in order; threads interleave in any way.
    Not modelled: weak memory effects (the steps are sequentially consistent). *)
From Verif Require Import Base M_Stat M_Interp M_Neigh M_Fast.

(** an exception may not leave a parallel region (std::terminate); failures of any kind stop the program *)
Definition fail_of {A B} (r : res A) : res B := match r with Ok _ => UB | Throw _ => Abort | Abort => Abort | UB => UB end.

Section Machine.
Context {I V S : Type}.
Variables (wr : S -> I -> V -> res S) (body : I -> res V).
(** a thread: iterations still to run, and a computed but not yet stored value *)
Record thread := Thread { todo : list I; pend : option (I * V) }.
Inductive conf := Run (m : S) (ths : list thread) | Fail (r : res S).
Inductive step : conf -> conf -> Prop :=
| step_compute m ths k i rest v : nth_error ths k = Some (Thread (i :: rest) None) -> body i = Ok v ->
    step (Run m ths) (Run m (lset ths k (Thread rest (Some (i, v)))))
| step_fail m ths k i rest : nth_error ths k = Some (Thread (i :: rest) None) -> (forall v, body i <> Ok v) ->
    step (Run m ths) (Fail (fail_of (body i)))
| step_store m ths k i rest v m' : nth_error ths k = Some (Thread rest (Some (i, v))) -> wr m i v = Ok m' ->
    step (Run m ths) (Run m' (lset ths k (Thread rest None)))
| step_store_fail m ths k i rest v : nth_error ths k = Some (Thread rest (Some (i, v))) -> (forall m', wr m i v <> Ok m') ->
    step (Run m ths) (Fail (fail_of (wr m i v))).
Inductive steps : nat -> conf -> conf -> Prop :=
| steps_0 c : steps O c c
| steps_S n a b c : steps n a b -> step b c -> steps (Datatypes.S n) a c.
Definition start (m : S) (ds : list (list I)) : conf := Run m (map (fun d => Thread d None) ds).
(** the region has ended with outcome r *)
Definition ends (c : conf) (r : res S) : Prop :=
  match c with Run m ths => r = Ok m /\ Forall (fun t => t = Thread [] None) ths | Fail f => r = f end.
End Machine.
Arguments Thread {I V}. Arguments todo {I V}. Arguments pend {I V}.

(** stores of the two array shapes *)
Definition wr1 {A} (m : list A) (i : Z) (v : A) : res (list A) := zset m i v.
Definition wr2 {A} (m : list (list A)) (i : Z * Z) (v : A) : res (list (list A)) := set2 m (fst i) (snd i) v.
(** a whole parallel loop over the cells of an array: all possible outcomes when the iterations are distributed as ds *)
Definition par1 {A} (m0 : list A) (body : Z -> res A) (ds : list (list Z)) (r : res (list A)) : Prop :=
  exists n c, steps wr1 body n (start m0 ds) c /\ ends c r.
Definition par2 {A} (m0 : list (list A)) (body : Z -> Z -> res A) (ds : list (list (Z * Z))) (r : res (list (list A))) : Prop :=
  exists n c, steps wr2 (fun i => body (fst i) (snd i)) n (start m0 ds) c /\ ends c r.

(** ** neighbourhood.cpp:364-405 and 480-521: the loop of neighbourhood_quantile_fast, whose variable curr_quantile is declared
    outside the parallel region and hence shared.  Each iteration sets it, reads it three times, and stores the cell.
    (In C++ the unsynchronised accesses of several threads are a data race, formally undefined; the machine gives them
    the benefit of the doubt and interleaves them atomically.) *)
Inductive qphase := QIdle | QSet (i : Z * Z) | QOne (i : Z * Z) (q1 : val) | QTwo (i : Z * Z) (q1 q2 : val) | QOut (i : Z * Z) (v : val).
Record qthread := QThread { qtodo : list (Z * Z); qph : qphase }.
Inductive qconf := QRun (m : vec2) (curr : val) (ths : list qthread) | QFail (r : res vec2).
Section QMachine.
Variables (level : Z * Z -> res val) (cell : Z * Z -> val -> val -> val -> res val).
Inductive qstep : qconf -> qconf -> Prop :=
| q_set m c ths k i rest q : nth_error ths k = Some (QThread (i :: rest) QIdle) -> level i = Ok q ->
    qstep (QRun m c ths) (QRun m q (lset ths k (QThread rest (QSet i))))
| q_set_fail m c ths k i rest : nth_error ths k = Some (QThread (i :: rest) QIdle) -> (forall q, level i <> Ok q) ->
    qstep (QRun m c ths) (QFail (fail_of (level i)))
| q_one m c ths k i rest : nth_error ths k = Some (QThread rest (QSet i)) ->
    qstep (QRun m c ths) (QRun m c (lset ths k (QThread rest (QOne i c))))
| q_two m c ths k i rest q1 : nth_error ths k = Some (QThread rest (QOne i q1)) ->
    qstep (QRun m c ths) (QRun m c (lset ths k (QThread rest (QTwo i q1 c))))
| q_compute m c ths k i rest q1 q2 v : nth_error ths k = Some (QThread rest (QTwo i q1 q2)) -> cell i q1 q2 c = Ok v ->
    qstep (QRun m c ths) (QRun m c (lset ths k (QThread rest (QOut i v))))
| q_compute_fail m c ths k i rest q1 q2 : nth_error ths k = Some (QThread rest (QTwo i q1 q2)) -> (forall v, cell i q1 q2 c <> Ok v) ->
    qstep (QRun m c ths) (QFail (fail_of (cell i q1 q2 c)))
| q_store m c ths k i rest v m' : nth_error ths k = Some (QThread rest (QOut i v)) -> wr2 m i v = Ok m' ->
    qstep (QRun m c ths) (QRun m' c (lset ths k (QThread rest QIdle)))
| q_store_fail m c ths k i rest v : nth_error ths k = Some (QThread rest (QOut i v)) -> (forall m', wr2 m i v <> Ok m') ->
    qstep (QRun m c ths) (QFail (fail_of (wr2 m i v))).
Inductive qsteps : nat -> qconf -> qconf -> Prop :=
| qsteps_0 c : qsteps O c c
| qsteps_S n a b c : qsteps n a b -> qstep b c -> qsteps (Datatypes.S n) a c.
Definition qstart (m : vec2) (ds : list (list (Z * Z))) : qconf := QRun m MV (map (fun d => QThread d QIdle) ds).
Definition qends (c : qconf) (r : res vec2) : Prop :=
  match c with QRun m _ ths => r = Ok m /\ Forall (fun t => t = QThread [] QIdle) ths | QFail f => r = f end.
End QMachine.
(** the tail of neighbourhood_quantile_fast with the last loop run in parallel, iterations distributed as ds *)
Definition fast_tail_par (E : ext) (nY nX halfwidth : Z) (quantile : vec2) (fixed : bool) (thresholds : vec)
    (frac : Z -> Z -> val -> res val) (yval : val -> option val) (ds : list (list (Z * Z))) (r : res vec2) : Prop :=
  if zlen thresholds =? 0 then r = Ok (init2 nY nX MV) else
  match fast_stats E nY nX halfwidth thresholds frac with
  | Ok stats =>
    match (if fixed then get2 quantile 0 0 else Ok MV) with
    | Ok fixed_quantile =>
      exists n c, qsteps (fun i => if fixed then Ok fixed_quantile else get2 quantile (fst i) (snd i))
        (fun i q1 q2 q3 => fast_cell3 thresholds stats yval q1 q2 q3 (fst i) (snd i)) n (qstart (init2 nY nX MV) ds) c /\ qends c r
    | f => r = fail_of f
    end
  | f => r = fail_of f
  end.
(** neighbourhood.cpp:302-409 with the parallel last loop *)
Definition quantile_fast2_par (E : ext) (input : vec2) (quantile : vec2) (halfwidth : Z) (thresholds : vec)
    (ds : list (list (Z * Z))) (r : res vec2) : Prop :=
  if halfwidth <? 0 then r = Throw InvalidArgument else
  if zlen input =? 0 then r = Ok [] else
  match znth input 0 with
  | Ok i0 =>
    if zlen i0 =? 0 then r = Ok [] else
    match (fixed <- has_size quantile 1 1 ;; full <- (if fixed then Ok true else has_size quantile (zlen input) (zlen i0)) ;; Ok (fixed, full)) with
    | Ok (fixed, full) =>
      if negb full then r = Throw InvalidArgument else
      if negb (forallb (forallb level_ok) quantile) then r = Throw InvalidArgument else
      fast_tail_par E (zlen input) (zlen i0) halfwidth quantile fixed thresholds (fun y x thr => v <- get2 input y x ;; Ok (frac_single v thr)) yval2 ds r
    | f => r = fail_of f
    end
  | f => r = fail_of f
  end.
(** neighbourhood.cpp:417-527 with the parallel last loop *)
Definition quantile_fast3_par (E : ext) (input : vec3) (quantile : vec2) (halfwidth : Z) (thresholds : vec)
    (ds : list (list (Z * Z))) (r : res vec2) : Prop :=
  if halfwidth <? 0 then r = Throw InvalidArgument else
  if zlen input =? 0 then r = Ok [] else
  match znth input 0 with
  | Ok i0 =>
    if zlen i0 =? 0 then r = Ok [] else
    match znth i0 0 with
    | Ok i00 =>
      if zlen i00 =? 0 then r = Ok [] else
      match (fixed <- has_size quantile 1 1 ;; full <- (if fixed then Ok true else has_size quantile (zlen input) (zlen i0)) ;; Ok (fixed, full)) with
      | Ok (fixed, full) =>
        if negb full then r = Throw InvalidArgument else
        if negb (forallb (forallb level_ok) quantile) then r = Throw InvalidArgument else
        fast_tail_par E (zlen input) (zlen i0) halfwidth quantile fixed thresholds
          (fun y x thr => members <- mapM (fun e => get3 input y x e) (zrange 0 (zlen i00)) ;; Ok (frac_members members thr)) (yval3 (zlen i00)) ds r
      | f => r = fail_of f
      end
    | f => r = fail_of f
    end
  | f => r = fail_of f
  end.
