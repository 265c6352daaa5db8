(** Specification vocabulary for the ensemble-based analysis. *)
From Verif Require Import Base RBase M_Geo S_Geo M_OI S_OI M_Ensi S_EnsMulti.

(** sums of reals *)
Definition rtot (l : list Z) (f : Z -> R) : R := fold_right Rplus 0%R (map f l).
Definition runit (i j : Z) : R := if i =? j then 1%R else 0%R.
(** ensemble statistics over the members [ms]: mean, departure from the mean, sample covariance *)
Definition avg (ms : list Z) (f : Z -> Qc) : Qc := (tot ms f / qz (zlen ms))%Qc.
Definition dev (ms : list Z) (f : Z -> Qc) (e : Z) : Qc := (f e - avg ms f)%Qc.
Definition cov (ms : list Z) (f h : Z -> Qc) : Qc := (tot ms (fun e => dev ms f e * dev ms h e) / qz (zlen ms - 1))%Qc.
(** [v] solves (S + R) v = d over the stations [U]: [b k e] background of member [e] at station [k], [s k] error standard deviation,
    [g k] localization *)
Definition gain (U ms : list Z) (b : Z -> Z -> Qc) (s g d v : Z -> Qc) : Prop :=
  weights U (fun k j => cov ms (b k) (b j)) (fun k => s k * s k / g k)%Qc d v.
Definition unique_on (U : list Z) (P : (Z -> Qc) -> Prop) (v : Z -> Qc) : Prop := P v /\ forall v', P v' -> forall k, In k U -> v' k = v k.
(** the Kalman filter's mean [m] and variance [q] at a point with background [x e] of member [e], observations [o] *)
Definition kalman_mean (U ms : list Z) (x : Z -> Qc) (b : Z -> Z -> Qc) (o s g : Z -> Qc) (m : Qc) : Prop :=
  exists v, unique_on U (gain U ms b s g (fun k => o k - avg ms (b k))%Qc) v /\ m = (avg ms x + tot U (fun k => v k * cov ms x (b k)))%Qc.
Definition kalman_var (U ms : list Z) (x : Z -> Qc) (b : Z -> Z -> Qc) (s g : Z -> Qc) (q : Qc) : Prop :=
  exists u, unique_on U (gain U ms b s g (fun k => cov ms x (b k))) u /\ q = (cov ms x x - tot U (fun k => u k * cov ms x (b k)))%Qc.
(** the ensemble transform: [T] is the symmetric positive semidefinite inverse square root of I + Y' (1/R) Y / (n - 1) *)
Definition precision (U ms : list Z) (b : Z -> Z -> Qc) (s g : Z -> Qc) (e f : Z) : Qc :=
  (unit_ e f + tot U (fun k => dev ms (b k) e * dev ms (b k) f * g k / (s k * s k)) / qz (zlen ms - 1))%Qc.
Definition transform (U ms : list Z) (b : Z -> Z -> Qc) (s g : Z -> Qc) (T : Z -> Z -> R) : Prop :=
  (forall e f, In e ms -> In f ms -> T e f = T f e) /\
  (forall c, (0 <= rtot ms (fun e => c e * rtot ms (fun f => T e f * c f)))%R) /\
  (forall e f, In e ms -> In f ms ->
     rtot ms (fun i => rtot ms (fun j => T e i * T i j * qr (precision U ms b s g j f)))%R = runit e f).

(** ** Contract of the external code *)
Definition rentries (n : Z) (M : list (list rv)) (A : Z -> Z -> R) : Prop :=
  rect n n M /\ forall i j, 0 <= i < n -> 0 <= j < n -> get2 M i j = Ok (RF (A i j)).
Definition singular (n : Z) (A : Z -> Z -> Qc) : Prop :=
  exists x : Z -> Qc, (exists i, 0 <= i < n /\ x i <> 0%Qc) /\ forall j, 0 <= j < n -> tot (zrange 0 n) (fun i => x i * A i j)%Qc = 0%Qc.
Definition symmetric (n : Z) (A : Z -> Z -> Qc) : Prop := forall i j, 0 <= i < n -> 0 <= j < n -> A i j = A j i.
Record elib_ok (EL : elib) : Prop := {
  (* the reciprocal condition number of a matrix of finite numbers is positive unless it is singular *)
  ok_rcond : forall n M A, 0 < n -> entries n M A -> (vleb (e_rcond EL M) (fz 0) = true <-> singular n A);
  (* eig_sym gives orthonormal eigenvectors with their eigenvalues *)
  ok_eig : forall n M A lam V, 0 < n -> entries n M A -> symmetric n A -> e_eig EL M = Some (lam, V) ->
    exists l v, zlen lam = n /\ (forall i, 0 <= i < n -> znth lam i = Ok (RF (l i))) /\ rentries n V v /\
      (forall i j, 0 <= i < n -> 0 <= j < n -> rtot (zrange 0 n) (fun k => v k i * v k j)%R = runit i j) /\
      (forall i j, 0 <= i < n -> 0 <= j < n -> qr (A i j) = rtot (zrange 0 n) (fun k => v i k * l k * v j k)%R);
  (* whatever the entries, the results have the right sizes *)
  ok_eig_size : forall n M lam V, 0 < n -> rect n n M -> e_eig EL M = Some (lam, V) -> zlen lam = n /\ rect n n V }.
(** the eigenvalue solver gave up on the inverse of the precision matrix [F] of the members [ms] *)
Definition solver_failed (EL : elib) (ms : list Z) (F : Z -> Z -> Qc) : Prop :=
  exists M B, rect (zlen ms) (zlen ms) M /\
    (forall i j e f, znth ms i = Ok e -> znth ms j = Ok f -> get2 M i j = Ok (Fin (B e f))) /\
    (forall e f, In e ms -> In f ms -> tot ms (fun h => B e h * F h f)%Qc = unit_ e f) /\ e_eig EL M = None.
(** mean and covariance of real-valued members *)
Definition ravg (ms : list Z) (a : Z -> R) : R := (rtot ms a / IZR (zlen ms))%R.
Definition rvar (ms : list Z) (a : Z -> R) : R := (rtot ms (fun e => (a e - ravg ms a) * (a e - ravg ms a)) / IZR (zlen ms - 1))%R.
(** the members that take part: those with a value at every background point *)
Definition members_of (nE : Z) (background : vec2) (ms : list Z) : Prop := NoDup ms /\ forall e, In e ms <-> (0 <= e < nE /\ complete e background).
(** arguments of matching sizes; every member taking part has a background value [b k e] at every station, the others have none; [s] are
    the error standard deviations and [o] the observed values *)
Record ensi_input (nB nS nE : Z) (background : vec2) (pobs psigmas : vec) (pbg : vec2) : Prop := {
  ei_bg : rect nB nE background;
  ei_obs : zlen pobs = nS;
  ei_sig : zlen psigmas = nS;
  ei_pbg : rect nS nE pbg }.
Record ensi_data (nS nE : Z) (background : vec2) (pobs psigmas : vec) (pbg : vec2) (b : Z -> Z -> Qc) (s o : Z -> Qc) : Prop := {
  ed_in : forall k e, 0 <= k < nS -> 0 <= e < nE -> complete e background -> get2 pbg k e = Ok (Fin (b k e));
  ed_out : forall k e, 0 <= k < nS -> 0 <= e < nE -> ~ complete e background -> exists v, get2 pbg k e = Ok v /\ is_valid v = false;
  ed_sig : forall k, 0 <= k < nS -> znth psigmas k = Ok (Fin (s k)) /\ s k <> 0%Qc;
  ed_obs : forall k v, znth pobs k = Ok (Fin v) -> o k = v }.
(** background values of the members at point [y] *)
Definition row_data (nE : Z) (background : vec2) (y : Z) (x : Z -> Qc) : Prop :=
  forall e, 0 <= e < nE -> complete e background -> get2 background y e = Ok (Fin (x e)).
(** the row of the result at [y] is the row of the background *)
Definition unchanged (background : vec2) (out : list (list rv)) (y : Z) : Prop := exists row, znth background y = Ok row /\ znth out y = Ok (map v2r row).

(** the members [a] of the analysis: the Kalman filter's mean and variance, and departures from the mean that are those of the
    background multiplied by the transform *)
Definition kalman_update (U ms : list Z) (x : Z -> Qc) (b : Z -> Z -> Qc) (o s g : Z -> Qc) (a : Z -> R) : Prop :=
  exists m q T, kalman_mean U ms x b o s g m /\ kalman_var U ms x b s g q /\ transform U ms b s g T /\
    ravg ms a = qr m /\ rvar ms a = qr q /\ (0 <= q <= cov ms x x)%Qc /\
    forall e, In e ms -> a e = (qr m + rtot ms (fun f => qr (dev ms x f) * T f e))%R.
(** an increment [i] limited to the range between zero and the departure [d]; there is no limit when the departure is zero *)
Definition rlimited (d i z : R) : Prop :=
  ((0 < d -> z = Rmax 0 (Rmin d i)) /\ (d < 0 -> z = Rmin 0 (Rmax d i)) /\ (d = 0 -> z = i))%R.

(** ** An instance of the external code, used by the examples: eigenvectors of two by two matrices in closed form *)
Definition eig2 (a b d : R) : list rv * list (list rv) :=
  if Req_EM_T b 0 then ([RF a; RF d], [[RF 1%R; RF 0%R]; [RF 0%R; RF 1%R]]) else
  let dl := ((a - d) / 2)%R in
  let rho := sqrt (dl * dl + b * b) in
  let t := (rho - dl)%R in
  let nn := sqrt (b * b + t * t) in
  ([RF ((a + d) / 2 + rho); RF ((a + d) / 2 - rho)]%R, [[RF (b / nn); RF (- t / nn)]; [RF (t / nn); RF (b / nn)]]%R).
Definition eig0 (M : vec2) : option (list rv * list (list rv)) :=
  match M with
  | [[Fin a; Fin b]; [Fin c; Fin d]] => if qeqb b c then Some (eig2 (qr a) (qr b) (qr d)) else None
  | _ => None
  end.
Definition EL0 : elib := {| e_rcond := fun M => match inv0 M with Ok _ => fz 1 | _ => fz 0 end; e_eig := eig0 |}.
