(** Property theorems C12-C14: moving window statistics. *)
From Verif Require Import Base ListLib M_Stat M_Window S_Stat S_Window P_Window.

(** C12 *)
Theorem C12_window_order_statistics E nY nX array length st before km me :
  rect nY nX array -> 0 < nY -> 0 < nX -> length_ok length before ->
  st = Min \/ st = Max \/ st = Median \/ st = Variance \/ st = Std ->
  exists out, window E array length st before km me = Ok out /\ window_matches E nY nX array length st before km me out.
Proof. exact (c12_all E nY nX array length st before km me). Qed.
Print Assumptions C12_window_order_statistics.
(** rejected lengths *)
Theorem C12_window_rejects E array length st before km me :
  (length <= 0 -> window E array length st before km me = Throw InvalidArgument) /\
  (0 < length -> array = [] -> window E array length st before km me = Ok []) /\
  (forall nY nX, 0 < length -> rect nY nX array -> 0 < nY -> 0 < nX -> before = false -> Z.Even length ->
     window E array length st before km me = Throw InvalidArgument).
Proof. exact (window_errors E array length st before km me). Qed.
Print Assumptions C12_window_rejects.
Example C12_example : length_ok 3 false /\ rect 1 4 [[fz 1; NaN; fz 5; fz 2]] /\
  window E0 [[fz 1; NaN; fz 5; fz 2]] 3 Max false false false = Ok [[fz 1; fz 5; fz 5; fz 5]] /\
  window E0 [[fz 1; NaN; fz 5; fz 2]] 3 Max false true true = Ok [[MV; MV; MV; MV]] /\
  window E0 [[fz 1; fz 7; fz 5; fz 2]] 3 Max false true true = Ok [[MV; fz 7; fz 7; MV]] /\
  window E0 [[fz 1; fz 7; fz 5; fz 2]] 2 Min true false false = Ok [[fz 1; fz 1; fz 5; fz 2]].
Proof.
  split. { split; [lia|]. intros _. exists 1. reflexivity. }
  split. { split; [reflexivity|]. intros r [<-|[]]. reflexivity. }
  repeat split; vcalc.
Qed.

(** C13: false as stated: Mean needs the running count before the first element and reads counts[-1]. *)
Theorem C13_window_accumulation_refuted : exists E array,
  rect 1 3 array /\ window E array 3 Mean false false false = UB.
Proof. exists E0, [[fz 1; fz 2; fz 6]]. split; [split; [reflexivity|intros r [<-|[]]; reflexivity]|vm_compute; reflexivity]. Qed.
Print Assumptions C13_window_accumulation_refuted.
(** C13, restricted: (1) every Sum or Mean call that does not need the count before the first element is correct;
    (2) if the read before the buffer returns 0 then Sum and Mean are correct for all flags; (3) likewise Count, except
    that it ignores keep_missing and missing_edges.  Missing: the full claim for calls that read counts[-1]. *)
Theorem C13_window_accumulation_partial E nY nX array length st before km me :
  rect nY nX array -> 0 < nY -> 0 < nX -> length_ok length before ->
  ((st = Sum \/ st = Mean) -> ~ reads_before_buffer array length st km ->
     exists out, window E array length st before km me = Ok out /\ window_matches E nY nX array length st before km me out) /\
  ((st = Sum \/ st = Mean) ->
     exists out, window_gen (Ok (fz 0)) E array length st before km me = Ok out /\ window_matches E nY nX array length st before km me out) /\
  (st = Count ->
     exists out, window_gen (Ok (fz 0)) E array length st before km me = Ok out /\ window_matches E nY nX array length st before false false out).
Proof. exact (c13_all E nY nX array length st before km me). Qed.
Print Assumptions C13_window_accumulation_partial.
Example C13_example :
  window E0 [[fz 1; NaN; fz 5; fz 2]] 3 Sum false false false = Ok [[fz 1; fz 6; fz 7; fz 7]] /\
  ~ reads_before_buffer [[fz 1; NaN; fz 5; fz 2]] 3 Sum false /\
  window_gen (Ok (fz 0)) E0 [[fz 1; NaN; fz 5; fz 2]] 3 Mean false false false = Ok [[fz 1; fz 3; fq (7 # 2); fq (7 # 2)]] /\
  window_gen (Ok (fz 0)) E0 [[fz 1; NaN; fz 5; fz 2]] 3 Count false true true = Ok [[fz 1; fz 2; fz 2; fz 2]].
Proof.
  split; [vcalc|]. split; [intros [H|[[_ H]|[H _]]]; discriminate|]. split; vcalc.
Qed.

(** C14: false: Count reads counts[-1] in every call. *)
Theorem C14_window_in_bounds_refuted : exists E array, rect 1 1 array /\ window E array 1 Count false false false = UB.
Proof. exists E0, [[fz 1]]. split; [split; [reflexivity|intros r [<-|[]]; reflexivity]|vm_compute; reflexivity]. Qed.
Print Assumptions C14_window_in_bounds_refuted.
(** C14, exact set of calls: undefined exactly when the count before the first element is needed, else it succeeds. *)
Theorem C14_window_in_bounds_partial E nY nX array length st before km me :
  rect nY nX array -> 0 < nY -> 0 < nX -> length_ok length before -> stat_listed st ->
  (window E array length st before km me = UB <-> reads_before_buffer array length st km) /\
  (~ reads_before_buffer array length st km -> exists out, window E array length st before km me = Ok out).
Proof. exact (c14_all E nY nX array length st before km me). Qed.
Print Assumptions C14_window_in_bounds_partial.
Example C14_example : reads_before_buffer [[NaN; NaN; fz 3]] 3 Mean false /\ ~ reads_before_buffer [[NaN; NaN; NaN; fz 3]] 3 Mean false /\
  window E0 [[NaN; NaN; NaN; fz 3]] 3 Mean false false false = Ok [[MV; MV; fz 3; fz 3]].
Proof.
  split; [|split; [|vcalc]].
  - right. right. split; [reflexivity|]. exists 0, [NaN; NaN; fz 3]. split; [reflexivity|]. vm_compute. discriminate.
  - intros [H|[[_ H]|(_ & y & row & Hy & F)]]; try discriminate. apply znth_Ok in Hy as [H0 Hy].
    destruct (Z.to_nat y) as [|[|n]]; cbn in Hy; try discriminate. injection Hy as <-. apply F. reflexivity.
Qed.
