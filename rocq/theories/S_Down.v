(** Specification vocabulary for probabilities, masked consensus and gradients. *)
From Verif Require Import Base M_Stat M_Down S_Stat S_Neigh.

(** the value satisfies the comparison with the threshold; nothing compares with a missing threshold *)
Definition meets (op : cmpop) (t : val) (a : Qc) : bool :=
  match t, op with
  | Fin q, Lt => qltb a q | Fin q, Leq => qleb a q | Fin q, Gt => qltb q a | Fin q, Geq => qleb q a
  | PInf, (Lt | Leq) => true | NInf, (Gt | Geq) => true
  | _, _ => false
  end.
(** fraction of the finite members that satisfy the comparison *)
Definition prob_of (op : cmpop) (ens : vec) (t : val) (r : val) : Prop :=
  (finites ens = [] -> r = MV) /\
  (finites ens <> [] -> r = Fin (qlen (filter (meets op t) (finites ens)) / qlen (finites ens))%Qc).
(** the members that take part in the masked consensus *)
Definition masked_ens (op : cmpop) (t : val) (ens_true ens_false ens_thr w : vec) : Prop :=
  zlen w = zlen ens_thr /\
  forall k v a b, znth ens_thr k = Ok v -> znth ens_true k = Ok a -> znth ens_false k = Ok b ->
    exists m, znth w k = Ok m /\
    match v with Fin q => m = if meets op t q then a else b | _ => m = MV end.
(** every cell of a field holds an ensemble of N members *)
Definition cube {A} (N Y X : Z) (f : list (list (list A))) : Prop := rect Y X f /\ forall r e, In r f -> In e r -> zlen e = N.

(** ** gradients *)
(** not a finite number *)
Definition missing (v : val) : Prop := is_valid v = false.
(** downscaled value plus gradient times elevation difference; missing if anything is *)
Definition simple_value (dv oe ie g r : val) : Prop :=
  match dv, oe, ie, g with
  | Fin v, Fin o, Fin i, Fin k => r = Fin (v + k * (o - i))%Qc
  | _, _, _, _ => missing r
  end.
(** correction from one gradient (none given: no correction): nothing where one of the two elevations (land fractions)
    is missing, otherwise gradient times difference, missing if the gradient is *)
Definition correction_of (g : option val) (o i c : val) : Prop :=
  match g, o, i with
  | Some (Fin k), Fin a, Fin b => c = Fin (k * (a - b))%Qc
  | Some _, Fin a, Fin b => missing c
  | _, _, _ => c = Fin 0%Qc
  end.
(** downscaled value plus both corrections *)
Definition full_value (dv : val) (ge : option val) (oe ie : val) (gl : option val) (ol il : val) (r : val) : Prop :=
  exists ce cl, correction_of ge oe ie ce /\ correction_of gl ol il cl /\
  match dv, ce, cl with Fin v, Fin a, Fin b => r = Fin (v + a + b)%Qc | _, _, _ => missing r end.
(** plain downscaling of a gradient field and the grid's own field (elevations or land fractions); an empty gradient stands
    for no gradient *)
Definition plain {A} (down : vec2 -> res A) (g own : vec2) (r : option (A * A)) : Prop :=
  (g = [] /\ r = None) \/ exists a b, g <> [] /\ down g = Ok a /\ down own = Ok b /\ r = Some (a, b).
(** the same for a gradient that varies in time *)
Definition plain3 {A} (down : vec2 -> res A) (g : vec3) (own : vec2) (n : Z) (r : option (list A * A)) : Prop :=
  (g = [] /\ r = None) \/ exists a b, zlen g = n /\ Forall2 (fun f o => down f = Ok o) g a /\ down own = Ok b /\ r = Some (a, b).
(** value of the downscaled gradient [g] and of the grid's own downscaled field [i] at one output location *)
Definition plain_at {A} (get : A -> res val) (p : option (A * A)) (g : option val) (i : val) : Prop :=
  match p with None => g = None | Some (a, b) => exists k, get a = Ok k /\ get b = Ok i /\ g = Some k end.
Definition at_time {A} (p : option (list A * A)) (s : Z) (q : option (A * A)) : Prop :=
  match p with None => q = None | Some (a, b) => exists f, znth a s = Ok f /\ q = Some (f, b) end.
(** simple gradient at every cell (point): [oe] output elevations, [de] and [dv] plainly downscaled elevations and values *)
Definition simple_cells (Y X : Z) (oe de dv : vec2) (g : val) (out : vec2) : Prop := rect Y X out /\
  forall i j, 0 <= i < Y -> 0 <= j < X -> exists v a b r,
    get2 dv i j = Ok v /\ get2 oe i j = Ok a /\ get2 de i j = Ok b /\ get2 out i j = Ok r /\ simple_value v a b g r.
Definition simple_points (n : Z) (oe de dv : vec) (g : val) (out : vec) : Prop := zlen out = n /\
  forall i, 0 <= i < n -> exists v a b r,
    znth dv i = Ok v /\ znth oe i = Ok a /\ znth de i = Ok b /\ znth out i = Ok r /\ simple_value v a b g r.
(** full gradient at every cell (point): [pe] and [pl] from [plain] *)
Definition full_cells (Y X : Z) (oe ol : vec2) (pe pl : option (vec2 * vec2)) (dv out : vec2) : Prop := rect Y X out /\
  forall i j, 0 <= i < Y -> 0 <= j < X -> exists v ge eo ei gl lo li r,
    get2 dv i j = Ok v /\ get2 oe i j = Ok eo /\ plain_at (fun a => get2 a i j) pe ge ei /\
    get2 ol i j = Ok lo /\ plain_at (fun a => get2 a i j) pl gl li /\ get2 out i j = Ok r /\ full_value v ge eo ei gl lo li r.
Definition full_points (n : Z) (oe ol : vec) (pe pl : option (vec * vec)) (dv out : vec) : Prop := zlen out = n /\
  forall i, 0 <= i < n -> exists v ge eo ei gl lo li r,
    znth dv i = Ok v /\ znth oe i = Ok eo /\ plain_at (fun a => znth a i) pe ge ei /\
    znth ol i = Ok lo /\ plain_at (fun a => znth a i) pl gl li /\ znth out i = Ok r /\ full_value v ge eo ei gl lo li r.
(** the same at every time *)
Definition each_time {A} (cells : option (A * A) -> option (A * A) -> A -> A -> Prop) (pe pl : option (list A * A)) (dv out : list A) : Prop :=
  zlen out = zlen dv /\ forall s f, znth dv s = Ok f -> exists qe ql o, at_time pe s qe /\ at_time pl s ql /\ znth out s = Ok o /\ cells qe ql f o.

(** ** calc_gradient *)
(** the pairs (base, value) of all cells, and those of them that are complete *)
Definition zip2 (a b : vec2) : list (list (val * val)) := map (fun p => combine (fst p) (snd p)) (combine a b).
Fixpoint complete (l : list (val * val)) : list (Qc * Qc) :=
  match l with [] => [] | (Fin x, Fin y) :: t => (x, y) :: complete t | _ :: t => complete t end.
Definition pairs_around (base values : vec2) (h y x : Z) : list (Qc * Qc) := complete (around (zip2 base values) h y x).
(** first pair with the largest (smallest) base *)
Definition first_max (l : list (Qc * Qc)) (p : Qc * Qc) : Prop :=
  exists l1 l2, l = l1 ++ p :: l2 /\ Forall (fun q => fst q < fst p)%Qc l1 /\ Forall (fun q => fst q <= fst p)%Qc l2.
Definition first_min (l : list (Qc * Qc)) (p : Qc * Qc) : Prop :=
  exists l1 l2, l = l1 ++ p :: l2 /\ Forall (fun q => fst p < fst q)%Qc l1 /\ Forall (fun q => fst p <= fst q)%Qc l2.
(** gradient between the pairs with the largest and the smallest base; the default with too few pairs or too small a range *)
Definition minmax_value (l : list (Qc * Qc)) (num_min : Z) (min_range default r : val) : Prop :=
  (zlen l < num_min -> r = default) /\ (l = [] -> r = default) /\
  forall p q, num_min <= zlen l -> first_max l p -> first_min l q ->
    (vleb (Fin (fst p - fst q)) min_range = true -> r = default) /\
    (vleb (Fin (fst p - fst q)) min_range = false -> fst p <> fst q -> r = Fin ((snd p - snd q) / (fst p - fst q))%Qc).
(** sum of squared errors of the line a + b * base, and the slope of a best line *)
Definition sse (l : list (Qc * Qc)) (a b : Qc) : Qc :=
  qsum (map (fun p => (snd p - a - b * fst p) * (snd p - a - b * fst p))%Qc l).
Definition least_squares (l : list (Qc * Qc)) (b : Qc) : Prop := exists a, forall a' b', (sse l a b <= sse l a' b')%Qc.
(** slope of the regression line; the default with too few pairs, constant base or too small a standard deviation of the base *)
Definition regression_value (E : ext) (l : list (Qc * Qc)) (num_min : Z) (min_range default r : val) : Prop :=
  let var := qvar (map fst l) in
  (zlen l < num_min \/ l = [] \/ var = 0%Qc \/ (exists m, min_range = Fin m /\ (ext_sqrt E var < m)%Qc) -> r = default) /\
  (num_min <= zlen l -> l <> [] -> var <> 0%Qc -> (forall m, min_range = Fin m -> (m <= ext_sqrt E var)%Qc) ->
     exists b, r = Fin b /\ least_squares l b).
(** ** full_gradient_debug: the nine numbers of one cell *)
Definition debug_value (dv ge oe ie gl ol il : val) (c : vec) : Prop :=
  exists r dl de ce cl vl ve, c = [r; dl; de; cl; ce; ol; il; vl; ve] /\ full_value dv (Some ge) oe ie (Some gl) ol il r /\
  correction_of (Some ge) oe ie ce /\ correction_of (Some gl) ol il cl /\
  (forall a b, ol = Fin a -> il = Fin b -> dl = Fin (a - b)%Qc) /\ (forall a b, oe = Fin a -> ie = Fin b -> de = Fin (a - b)%Qc) /\
  (forall a b, dv = Fin a -> cl = Fin b -> vl = Fin (a + b)%Qc) /\ (forall a b, dv = Fin a -> ce = Fin b -> ve = Fin (a + b)%Qc).
Definition debug_cells (Y X : Z) (oe ol de dl ge gl dv : vec2) (out : vec3) : Prop := rect Y X out /\
  forall i j, 0 <= i < Y -> 0 <= j < X -> exists v e f a b kg kl c,
    get2 dv i j = Ok v /\ get2 oe i j = Ok e /\ get2 ol i j = Ok f /\ get2 de i j = Ok a /\ get2 dl i j = Ok b /\
    get2 ge i j = Ok kg /\ get2 gl i j = Ok kl /\ get2 out i j = Ok c /\ debug_value v kg e a kl f b c.
(** a gradient has no effect: none given, gradient 0, equal elevations, or an elevation missing *)
Definition no_effect (g : option val) (o i : val) : Prop :=
  g = None \/ missing o \/ missing i \/ (exists k a, g = Some (Fin k) /\ o = Fin a /\ i = Fin a) \/ (exists a b, g = Some (Fin 0%Qc) /\ o = Fin a /\ i = Fin b).
(** arguments calc_gradient accepts *)
Definition gradient_args (nY nX : Z) (base values : vec2) (h num_min : Z) (min_range : val) : Prop :=
  rect nY nX base /\ rect nY nX values /\ 0 < nY /\ 0 < nX /\ 0 < h /\ 0 <= num_min /\ (forall m, min_range = Fin m -> (0 <= m)%Qc).
