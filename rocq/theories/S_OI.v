(** Specification vocabulary for optimal interpolation, independent of its implementation. *)
From Coq Require Import Permutation.
From Verif Require Import Base M_Geo S_Geo S_Near M_OI.

(** a Points object at the given locations (with some elevations and land fractions) *)
Definition at_locations (G : geo) (t : ctype) (las los : list Qc) (P : points) : Prop :=
  zlen los = zlen las /\ s_lats P = map Fin las /\ s_lons P = map Fin los /\ is_tree G t las los (s_tree P) /\
  zlen (s_elevs P) = zlen las /\ zlen (s_lafs P) = zlen las.
(** the structure function answers every question, list arguments one by one: localization distance
    [loc], correlation [rho] between observations, [bg] between background and observation *)
Definition behaves (S : sfn) (loc : point -> val) (rho bg : point -> point -> val) : Prop :=
  (forall p, sf_loc S p = Ok (loc p)) /\
  (forall p ps, sf_corr S p ps = Ok (map (rho p) ps)) /\
  (forall p ps, sf_bg S p ps = Ok (map (bg p) ps)).

(** ** Sums and linear systems over lists of observation numbers *)
Definition tot (U : list Z) (f : Z -> Qc) : Qc := fold_right Qcplus 0%Qc (map f U).
(** the weights of optimal interpolation: the solution of (P + R) w = g, i.e. for every used observation
    j the correlations of the used ones with j, weighted, plus the own error of j, give the correlation of the cell
    with j *)
Definition weights (U : list Z) (rho : Z -> Z -> Qc) (ratio g : Z -> Qc) (w : Z -> Qc) : Prop :=
  forall j, In j U -> tot U (fun k => w k * (rho k j + (if (k =? j)%Z then ratio k else 0)))%Qc = g j.

(** ** Contract of the external code *)
(** entries of a square matrix *)
Definition entries (n : Z) (M : vec2) (A : Z -> Z -> Qc) : Prop :=
  rect n n M /\ forall i j, 0 <= i < n -> 0 <= j < n -> get2 M i j = Ok (Fin (A i j)).
Definition unit_ (i j : Z) : Qc := if i =? j then 1%Qc else 0%Qc.
Record lib_ok (L : lib) : Prop := {
  (* what arma::inv returns for a matrix of finite numbers is its two-sided inverse *)
  ok_inv : forall n M A N, 0 < n -> entries n M A -> l_inv L M = Ok N ->
    exists B, entries n N B /\
      (forall i j, 0 <= i < n -> 0 <= j < n -> tot (zrange 0 n) (fun k => B i k * A k j)%Qc = unit_ i j) /\
      (forall i j, 0 <= i < n -> 0 <= j < n -> tot (zrange 0 n) (fun k => A i k * B k j)%Qc = unit_ i j);
  (* it throws only when the matrix is singular *)
  ok_inv_sing : forall n M A e, 0 < n -> entries n M A -> l_inv L M = Throw e ->
    exists x : Z -> Qc, (exists i, 0 <= i < n /\ x i <> 0%Qc) /\
      forall j, 0 <= j < n -> tot (zrange 0 n) (fun i => x i * A i j)%Qc = 0%Qc;
  (* whatever the entries, it returns a matrix of the same size or throws *)
  ok_inv_size : forall n M, 0 < n -> rect n n M -> (exists N, l_inv L M = Ok N /\ rect n n N) \/ l_inv L M = Throw RuntimeError;
  (* std::sort reorders, ascending by first member when there are no NaNs *)
  ok_perm : forall l, Permutation (l_sort L l) l;
  ok_sorted : forall l, (forall e, In e l -> fst e <> NaN) ->
    forall i j a b, 0 <= i -> i <= j -> znth (l_sort L l) i = Ok a -> znth (l_sort L l) j = Ok b -> vleb (fst a) (fst b) = true }.

(** ** Which observations take part *)
Section Use.
Variables (G : geo) (t : ctype) (las los : list Qc) (pts : points) (pobs pbg : vec)
  (loc : point -> val) (bg : point -> point -> val).
(** observation [k] can be used at the background point [p1] located at [pos]: measured, with known
    background, within the localization distance, and positively correlated *)
Definition usable (p1 : point) (pos : xyz) (k : Z) : Prop :=
  exists q pk o b, point_at G t las los k q /\ in_circle pos q (loc p1) /\ points_get pts k = Ok pk /\
    znth pobs k = Ok (Fin o) /\ znth pbg k = Ok (Fin b) /\ vltb (fz 0) (bg p1 pk) = true.
(** [k] is correlated with [p1] at least as much as [k'] *)
Definition at_least (p1 : point) (k k' : Z) : Prop :=
  forall pk pk', points_get pts k = Ok pk -> points_get pts k' = Ok pk' -> vleb (bg p1 pk') (bg p1 pk) = true.
(** an admissible choice of observations *)
Definition chosen (max_points : Z) (p1 : point) (pos : xyz) (U : list Z) : Prop :=
  NoDup U /\ (forall k, In k U -> usable p1 pos k) /\
  (0 < max_points -> zlen U <= max_points) /\
  (max_points = 0 \/ zlen U < max_points -> forall k, usable p1 pos k -> In k U) /\
  (forall k k', In k U -> usable p1 pos k' -> ~ In k' U -> at_least p1 k k').
End Use.

(** [y] is [x] limited to observed increments between [lo] and [hi] and to zero *)
Definition limited (lo hi x y : Qc) : Prop :=
  ((x <= hi \/ x <= 0) /\ (lo <= x \/ 0 <= x) -> y = x)%Qc /\
  (hi < x /\ 0 < x -> y = hi)%Qc /\ (x < lo /\ x < 0 -> y = lo)%Qc.
Definition smallest (U : list Z) (d : Z -> Qc) (m : Qc) : Prop := (exists k, In k U /\ d k = m) /\ forall k, In k U -> (m <= d k)%Qc.
Definition largest (U : list Z) (d : Z -> Qc) (m : Qc) : Prop := (exists k, In k U /\ d k = m) /\ forall k, In k U -> (d k <= m)%Qc.

(** ** An instance of the external code, used by the examples: inverse by elimination, insertion sort *)
Definition at_ (v : list Qc) (j : nat) : Qc := nth j v 0%Qc.
(** first vector whose coordinate [j] is not zero *)
Fixpoint pivot (j : nat) (vs : list (list Qc)) : option (list (list Qc) * list Qc * list (list Qc)) :=
  match vs with
  | [] => None
  | v :: r => if qeqb (at_ v j) 0 then match pivot j r with Some (a, p, b) => Some (v :: a, p, b) | None => None end
              else Some ([], v, r)
  end.
Definition elim (j : nat) (p v : list Qc) : list Qc := map (fun i => at_ v i - at_ v j / at_ p j * at_ p i)%Qc (seq 0 j).
Fixpoint comb (cs : list Qc) (xs : list Qc) : Qc := match cs, xs with c :: cs', x :: xs' => (c * x + comb cs' xs')%Qc | _, _ => 0%Qc end.
(** coefficients, not all zero, of a vanishing combination of more than [n] vectors with [n] coordinates *)
Fixpoint depend (n : nat) (vs : list (list Qc)) : list Qc :=
  match n with
  | O => map (fun i => if Nat.eqb i 0 then 1%Qc else 0%Qc) (seq 0 (length vs))
  | S j => match pivot j vs with
           | None => depend j vs
           | Some (a, p, b) =>
               let cs := depend j (map (elim j p) (a ++ b)) in
               let cp := (- comb cs (map (fun v => at_ v j / at_ p j)%Qc (a ++ b)))%Qc in
               firstn (length a) cs ++ cp :: skipn (length a) cs
           end
  end.
(** row [i] of the inverse expresses the unit vector by the rows of the matrix *)
Definition inv_row (n : nat) (Q : list (list Qc)) (i : nat) : res vec :=
  let cs := depend n (map (fun j => if Nat.eqb i j then 1%Qc else 0%Qc) (seq 0 n) :: Q) in
  let c := at_ cs 0 in
  if qeqb c 0 then Throw RuntimeError else Ok (map (fun x => Fin (- x / c)%Qc) (tl cs)).
Definition inv0 (M : vec2) : res vec2 :=
  let n := length M in
  mapM (inv_row n (map (map (fun v => match v with Fin q => q | _ => 0%Qc end)) M)) (seq 0 n).
Fixpoint ins0 (e : val * Z) (l : list (val * Z)) : list (val * Z) :=
  match l with [] => [e] | x :: r => if vltb (fst x) (fst e) then x :: ins0 e r else e :: l end.
Definition L0 : lib := {| l_inv := inv0; l_sort := fold_right ins0 [] |}.

(** ** The analysis at one background point, given the observations [U] used there: background [b], variance [v],
    correlations [r] and [g], relative errors [ratio], departures [d] *)
Definition analysis (U : list Z) (r : Z -> Z -> Qc) (ratio g d : Z -> Qc) (extrapolate : bool) (b : Qc) (v out var : val) : Prop :=
  (U = [] -> out = Fin b /\ var = v) /\
  (U <> [] -> exists w, weights U r ratio g w /\
     (forall w', weights U r ratio g w' -> forall k, In k U -> w' k = w k) /\
     (extrapolate = true -> out = Fin (b + tot U (fun k => w k * d k))%Qc) /\
     (extrapolate = false -> forall lo hi, smallest U d lo -> largest U d hi -> lo <> 0%Qc -> hi <> 0%Qc ->
        exists z, limited lo hi (tot U (fun k => w k * d k))%Qc z /\ out = Fin (b + z)%Qc) /\
     var = vmul v (Fin (1 - tot U (fun k => w k * g k))%Qc)).
(** finite data about the observations *)
Definition known_obs (pts : points) (n : Z) (rho : point -> point -> val) (obs_variance bvarp : vec)
  (r : Z -> Z -> Qc) (ratio : Z -> Qc) : Prop :=
  (forall k j pk pj, points_get pts k = Ok pk -> points_get pts j = Ok pj -> rho pk pj = Fin (r k j)) /\
  (forall k, 0 <= k < n -> exists vo vb, znth obs_variance k = Ok (Fin vo) /\ znth bvarp k = Ok (Fin vb) /\ vb <> 0%Qc /\ ratio k = (vo / vb)%Qc).
Definition known_cell (pts : points) (bg : point -> point -> val) (p1 : point) (g : Z -> Qc) : Prop :=
  forall k pk, points_get pts k = Ok pk -> bg p1 pk = Fin (g k).
Definition departures (pobs pbg : vec) (d : Z -> Qc) : Prop :=
  forall k o b, znth pobs k = Ok (Fin o) -> znth pbg k = Ok (Fin b) -> d k = (o - b)%Qc.
(** background point [y] is [p1], at position [pos] *)
Definition bpoint (G : geo) (t : ctype) (blas blos : list Qc) (bpts : points) (y : Z) (p1 : point) (pos : xyz) : Prop :=
  points_get bpts y = Ok p1 /\ point_at G t blas blos y pos.
(** The ingredients of a call: a coordinate library, external code that keeps its contract, a structure function,
    background points and observation points (of one coordinate type) at given locations *)
Record setting (G : geo) (L : lib) (S : sfn) (t : ctype) (blas blos : list Qc) (bpts : points) (las los : list Qc) (pts : points)
  (loc : point -> val) (rho bg : point -> point -> val) : Prop := {
  set_geo : geo_ok G;
  set_lib : lib_ok L;
  set_sf : behaves S loc rho bg;
  set_bpts : at_locations G t blas blos bpts;
  set_pts : at_locations G t las los pts }.
(** every background point has finite correlations with the observations *)
Definition known_bg (pts bpts : points) (n : Z) (bg : point -> point -> val) (g : Z -> Z -> Qc) : Prop :=
  forall y p1, 0 <= y < n -> points_get bpts y = Ok p1 -> known_cell pts bg p1 (g y).
(** the correlations [r] among observations and [g] with the cell are those of random variables: every linear
    combination has a non-negative variance *)
Definition valid_corr (n : Z) (r : Z -> Z -> Qc) (g : Z -> Qc) : Prop :=
  forall U c0 c, NoDup U -> (forall k, In k U -> 0 <= k < n) ->
    (0 <= c0 * c0 + (c0 + c0) * tot U (fun k => c k * g k) + tot U (fun k => tot U (fun j => c k * c j * r k j)))%Qc.
(** one observation set is a reordering of another: observation [k] of the first is [f k] of the second *)
Definition reordered (n : Z) (f h : Z -> Z) (pts pts' : points) (a a' : list vec) : Prop :=
  (forall k, 0 <= k < n -> 0 <= f k < n /\ h (f k) = k) /\ (forall k, 0 <= k < n -> 0 <= h k < n /\ f (h k) = k) /\
  (forall k, 0 <= k < n -> points_get pts' (f k) = points_get pts k) /\
  Forall2 (fun v v' : vec => zlen v' = zlen v /\ forall k, 0 <= k < n -> znth v' (f k) = znth v k) a a'.
(** the same with a grid of background cells *)
Record gsetting (G : geo) (L : lib) (S : sfn) (t : ctype) (Y X : Z) (lats lons : list (list Qc)) (g : grid) (las los : list Qc) (pts : points)
  (loc : point -> val) (rho bg : point -> point -> val) : Prop := {
  gset_geo : geo_ok G;
  gset_lib : lib_ok L;
  gset_sf : behaves S loc rho bg;
  gset_grid : is_grid G t Y X lats lons g;
  gset_pts : at_locations G t las los pts }.
(** correlations among observations and ratios of observation to background error variance *)
Definition known_ratios (pts : points) (n : Z) (rho : point -> point -> val) (pratios : vec) (r : Z -> Z -> Qc) (ratio : Z -> Qc) : Prop :=
  (forall k j pk pj, points_get pts k = Ok pk -> points_get pts j = Ok pj -> rho pk pj = Fin (r k j)) /\
  (forall k, 0 <= k < n -> znth pratios k = Ok (Fin (ratio k))).
(** a rational structure function for examples: correlation 1/(1+dx²) in the x direction, fixed localization distance *)
Definition kern (p q : point) : val :=
  match p_lon p, p_lon q with Fin a, Fin b => Fin (1 / (1 + (a - b) * (a - b)))%Qc | _, _ => NaN end.
Definition sf0 (R : Qc) : sfn := {| sf_loc := fun _ => Ok (Fin R); sf_corr := fun p ps => Ok (map (kern p) ps); sf_bg := fun p ps => Ok (map (kern p) ps) |}.
