(** Model of the array overloads in src/api/transform.cpp; [f] is the virtual scalar method called on each entry,
    [A] the float type and [mv] gridpp::MV. *)
From Verif Require Import Base.

(** Transform::forward(vec), transform.cpp:13-20; backward(vec), 50-57 *)
Definition tf_vec {A} (mv : A) (f : A -> A) (input : list A) : res (list A) :=
  let Y := zlen input in for1 Y (init1 Y mv) (fun y => v <- znth input y ;; Ok (f v)).
(** forward(vec2), 21-32; backward(vec2), 58-69 *)
Definition tf_vec2 {A} (mv : A) (f : A -> A) (input : list (list A)) : res (list (list A)) :=
  let Y := zlen input in
  for1 Y (init1 Y []) (fun y => row <- znth input y ;; let X := zlen row in
    for1 X (init1 X mv) (fun x => v <- get2 input y x ;; Ok (f v))).
(** forward(vec3), 33-49; backward(vec3), 70-86 *)
Definition tf_vec3 {A} (mv : A) (f : A -> A) (input : list (list (list A))) : res (list (list (list A))) :=
  let Y := zlen input in
  for1 Y (init1 Y []) (fun y => row <- znth input y ;; let X := zlen row in
    for1 X (init1 X []) (fun x => col <- get2 input y x ;; let E := zlen col in
      for1 E (init1 E mv) (fun e => v <- get3 input y x e ;; Ok (f v)))).
