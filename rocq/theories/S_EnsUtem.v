(** Specification vocabulary for the ensemble transform with correlations computed from the ensemble. *)
From Verif Require Import Base RBase M_Geo S_Geo M_OI S_OI M_Ensi S_EnsMulti S_Ensi M_EnsDyn S_EnsDyn M_EnsUtem.

(** the members that take part: those with values at every background and observation point in all four fields *)
Definition common (nE : Z) (fields : list vec2) (e : Z) : Prop := 0 <= e < nE /\ forall f, In f fields -> complete e f.
Definition members_all_of (nE : Z) (fields : list vec2) (ms : list Z) : Prop := NoDup ms /\ forall e, In e ms <-> common nE fields e.
(** departures from the mean in units of the standard deviation; none for a quantity that (almost) does not vary *)
Definition standardized (ms : list Z) (f : Z -> Qc) (z : Z -> R) : Prop :=
  forall e, In e ms -> (steady ms f -> z e = 0%R) /\ (~ steady ms f -> (z e * sdev ms f)%R = qr (dev ms f e)).
Definition runique_on (U : list Z) (P : (Z -> R) -> Prop) (v : Z -> R) : Prop := P v /\ forall v', P v' -> forall k, In k U -> v' k = v k.
(** correlations with the background point [xc] and among the stations [bc], multiplied by [f] *)
Definition scaled_corr (f : R) (ms U : list Z) (xc : Z -> Qc) (bc : Z -> Z -> Qc) (cs : Z -> Z -> R) (cx : Z -> R) (cxx : R) : Prop :=
  (forall k j, In k U -> In j U -> exists c, correlation ms (bc k) (bc j) c /\ cs k j = (f * c)%R) /\
  (forall k, In k U -> exists c, correlation ms xc (bc k) c /\ cx k = (f * c)%R) /\
  (exists c, correlation ms xc xc c /\ cxx = (f * c)%R).
(** the mean: background mean plus [s] times the optimal interpolation of the departures [d] of the observations from the means
    at the stations, with error ratios [ratio k] divided by the localization [g k] *)
Definition utem_mean (ms U : list Z) (x : Z -> Qc) (cs : Z -> Z -> R) (cx : Z -> R) (ratio g d : Z -> Qc) (s : Qc) (m : R) : Prop :=
  exists v, runique_on U (rweights U cs (fun k => qr (ratio k / g k)%Qc) (fun k => qr (d k))) v /\
    m = (qr (avg ms x) + qr s * rtot U (fun k => v k * cx k))%R.
(** the variance (with divisor n - 1) *)
Definition utem_var (ms U : list Z) (x : Z -> Qc) (cs : Z -> Z -> R) (cx : Z -> R) (cxx : R) (ratio g : Z -> Qc) (q : R) : Prop :=
  exists u, runique_on U (rweights U cs (fun k => qr (ratio k / g k)%Qc) cx) u /\
    q = (sdev ms x * sdev ms x * (cxx - rtot U (fun k => u k * cx k)))%R /\ (0 <= q <= sdev ms x * sdev ms x * cxx)%R.
(** [T] is the symmetric positive semidefinite inverse square root of I + Z' (1/R) Z / (n - 1) *)
Definition rprecision (U ms : list Z) (z : Z -> Z -> R) (ratio g : Z -> Qc) (e f : Z) : R :=
  (runit e f + rtot U (fun k => z k e * z k f * qr (g k / ratio k)%Qc) / IZR (zlen ms - 1))%R.
Definition inverse_root (ms : list Z) (F T : Z -> Z -> R) : Prop :=
  (forall e f, In e ms -> In f ms -> T e f = T f e) /\
  (forall c, (0 <= rtot ms (fun e => c e * rtot ms (fun f => T e f * c f)))%R) /\
  (forall e f, In e ms -> In f ms -> rtot ms (fun i => rtot ms (fun j => T e i * T i j * F j f))%R = runit e f).
(** the members [a] of the analysis *)
Definition utem_analysis (ms U : list Z) (x xc : Z -> Qc) (bc : Z -> Z -> Qc) (ratio g d : Z -> Qc) (s : Qc) (a : Z -> R) : Prop :=
  exists cs cx cxx m q zx zs T,
    scaled_corr (IZR (zlen ms) / IZR (zlen ms - 1)) ms U xc bc cs cx cxx /\
    utem_mean ms U x cs cx ratio g d s m /\ utem_var ms U x cs cx cxx ratio g q /\
    standardized ms xc zx /\ (forall k, In k U -> standardized ms (bc k) (zs k)) /\ inverse_root ms (rprecision U ms zs ratio g) T /\
    ravg ms a = m /\ rvar ms a = q /\
    forall e, In e ms -> a e = (m + sdev ms x * rtot ms (fun f => zx f * T f e))%R.
(** arguments of matching sizes *)
Record utem_input (nB nS nE : Z) (bratios : vec) (background background_corr : vec2) (pobs pratios : vec) (pbg pbg_corr : vec2) : Prop := {
  ut_bg : rect nB nE background;
  ut_bgc : rect nB nE background_corr;
  ut_br : zlen bratios = nB;
  ut_obs : zlen pobs = nS;
  ut_pr : zlen pratios = nS;
  ut_pbg : rect nS nE pbg;
  ut_pbgc : rect nS nE pbg_corr }.
(** [b k e] is the value in row [k] of the members [ms] *)
Definition values_at (n : Z) (ms : list Z) (f : vec2) (b : Z -> Z -> Qc) : Prop := forall k e, 0 <= k < n -> In e ms -> get2 f k e = Ok (Fin (b k e)).
(** [f] has the values [b] in the members that take part; [s] and [o] are the error ratios and the valid observations *)
Record utem_data (nB nS nE : Z) (background background_corr pbg pbg_corr : vec2) (pobs pratios : vec) (b bc x xc : Z -> Z -> Qc) (s o : Z -> Qc) : Prop := {
  ud_b : forall k e, 0 <= k < nS -> common nE [background; background_corr; pbg; pbg_corr] e -> get2 pbg k e = Ok (Fin (b k e));
  ud_bc : forall k e, 0 <= k < nS -> common nE [background; background_corr; pbg; pbg_corr] e -> get2 pbg_corr k e = Ok (Fin (bc k e));
  ud_x : forall y e, 0 <= y < nB -> common nE [background; background_corr; pbg; pbg_corr] e -> get2 background y e = Ok (Fin (x y e));
  ud_xc : forall y e, 0 <= y < nB -> common nE [background; background_corr; pbg; pbg_corr] e -> get2 background_corr y e = Ok (Fin (xc y e));
  ud_s : forall k, 0 <= k < nS -> znth pratios k = Ok (Fin (s k)) /\ (0 < s k)%Qc;
  ud_o : forall k v, znth pobs k = Ok (Fin v) -> v = o k }.

(** ** Contract of the external code *)
Definition rsingular (n : Z) (A : Z -> Z -> R) : Prop :=
  exists x : Z -> R, (exists i, 0 <= i < n /\ x i <> 0%R) /\ forall j, 0 <= j < n -> rtot (zrange 0 n) (fun i => x i * A i j)%R = 0%R.
Record xlib_ok (XL : xlib) : Prop := {
  (* the reciprocal condition number of a matrix of finite numbers is positive unless it is singular *)
  ok_xrcond : forall n M A, 0 < n -> rentries n M A -> (rleb (x_rcond XL M) (rz 0) = true <-> rsingular n A);
  (* eig_sym gives orthonormal eigenvectors with their eigenvalues *)
  ok_xeig : forall n M A lam V, 0 < n -> rentries n M A -> (forall i j, 0 <= i < n -> 0 <= j < n -> A i j = A j i) -> x_eig XL M = Some (lam, V) ->
    exists l v, zlen lam = n /\ (forall i, 0 <= i < n -> znth lam i = Ok (RF (l i))) /\ rentries n V v /\
      (forall i j, 0 <= i < n -> 0 <= j < n -> rtot (zrange 0 n) (fun k => v k i * v k j)%R = runit i j) /\
      (forall i j, 0 <= i < n -> 0 <= j < n -> A i j = rtot (zrange 0 n) (fun k => v i k * l k * v j k)%R);
  (* whatever the entries, the results have the right sizes *)
  ok_xeig_size : forall n M lam V, 0 < n -> rect n n M -> x_eig XL M = Some (lam, V) -> zlen lam = n /\ rect n n V }.
(** the eigenvalue solver gave up on (n - 1) times the inverse of the matrix [F] of the members [ms] *)
Definition rsolver_failed (XL : xlib) (ms : list Z) (F : Z -> Z -> R) : Prop :=
  exists M B, rect (zlen ms) (zlen ms) M /\
    (forall i j e f, znth ms i = Ok e -> znth ms j = Ok f -> get2 M i j = Ok (RF (IZR (zlen ms - 1) * B e f))) /\
    (forall e f, In e ms -> In f ms -> rtot ms (fun h => B e h * F h f)%R = runit e f) /\ x_eig XL M = None.

(** ** An instance of the external code, used by the examples *)
Definition xeig0 (M : list (list rv)) : option (list rv * list (list rv)) :=
  match M with
  | [[RF a]] => Some ([RF a], [[RF 1%R]])
  | [[RF a; RF b]; [RF c; RF d]] => if Req_EM_T b c then Some (eig2 a b d) else None
  | _ => None
  end.
Definition XL0 : xlib := {| x_rcond := fun M => match rinv0 M with Ok _ => rz 1 | _ => rz 0 end; x_eig := xeig0 |}.
