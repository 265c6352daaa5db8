(** Specification of the ensemble mode of the client's optimal interpolation. *)
From Verif Require Import Base RBase M_Geo S_Geo M_OI S_OI M_Ensi S_EnsMulti S_Ensi M_COpt M_CUtil S_CUtil M_CCal S_CCal S_CTree M_CKrig S_CKrig M_COi S_COi M_COiEns.
Local Open Scope Z_scope.

(** a member with a value everywhere *)
Definition full (d : dims) (f : field) (e : Z) : Prop := 0 <= e < d_e d /\ forall y x, 0 <= y < d_y d -> 0 <= x < d_x d -> exists q, f_get f y x e = Ok (Fin q) /\ q <> missing_number.
Definition full_members (d : dims) (f : field) (ms : list Z) : Prop := NoDup ms /\ forall e, In e ms <-> full d f e.
(** the stations [U] chosen at a point with correlations [g], observations [ob], their relative variances [ci] and the background [bg k e] of member [e] at station
    [k], which is the value of the nearest point changed for its elevation *)
Record ens_case (o : oi_options) (eo : ens_options) (elevs : list vec) (d : dims) (ss : list station) (f : field) (sel : list (val * Z))
    (gr sg dl : Qc) (U : list Z) (a : Z -> place) (b : Z -> Z -> place) (g ob ci : Z -> Qc) (bg : Z -> Z -> Qc) : Prop := {
  ec_size : of_size d f /\ 0 <= d_e d;
  ec_elev : rect (d_y d) (d_x d) elevs /\ forall y x, 0 <= y < d_y d -> 0 <= x < d_x d -> get2 elevs y x = Ok (Fin (p_el (b y x))) /\ p_el (b y x) <> missing_number;
  ec_grad : (oi_gradient o = Fin gr /\ gr <> missing_number) \/ (missing (oi_gradient o) /\ gr = 0%Qc);
  ec_sigma : en_sigma eo = Fin sg /\ sg <> 0%Qc;
  ec_delta : en_delta eo = Fin dl /\ (0 < dl)%Qc;
  ec_stations : forall i st, znth ss i = Ok st -> station_at st (a i) /\ 0 <= st_y st < d_y d /\ 0 <= st_x st < d_x d /\
    forall e q, f_get f (st_y st) (st_x st) e = Ok (Fin q) -> q <> missing_number -> (missing_number < q + lapse gr a b i st)%Qc;
  ec_sel : sel = map (fun k => (Fin (g k), k)) U /\ U <> [] /\ NoDup U /\ forall k, In k U -> 0 <= k < zlen ss /\ (0 < g k)%Qc;
  ec_obs : forall k st, In k U -> znth ss k = Ok st -> st_obs st = Fin (ob k) /\ st_ci st = Fin (ci k) /\ (0 < ci k)%Qc;
  ec_bg : forall k st e q, In k U -> znth ss k = Ok st -> full d f e -> f_get f (st_y st) (st_x st) e = Ok (Fin q) -> bg k e = (q + lapse gr a b k st)%Qc }.
(** members with a missing value somewhere have none at the stations either *)
Definition all_or_nothing (d : dims) (ss : list station) (f : field) (U : list Z) : Prop :=
  forall k st e v, In k U -> znth ss k = Ok st -> 0 <= e < d_e d -> ~ full d f e -> f_get f (st_y st) (st_x st) e = Ok v -> missing v.
(** the variance of an observation, divided by the correlation with the point *)
Definition error_var (sg : Qc) (g ci : Z -> Qc) (k : Z) : Qc := (sg * sg * ci k / g k)%Qc.
(** the Kalman filter with covariances of the background that are [dl] times those of the members *)
Definition inflated_gain (dl : Qc) (U ms : list Z) (bg : Z -> Z -> Qc) (r dd v : Z -> Qc) : Prop := weights U (fun k j => dl * cov ms (bg k) (bg j))%Qc r dd v.
Definition filter_mean (dl : Qc) (U ms : list Z) (x : Z -> Qc) (bg : Z -> Z -> Qc) (ob r : Z -> Qc) (m : Qc) : Prop :=
  exists v, unique_on U (inflated_gain dl U ms bg r (fun k => ob k - avg ms (bg k))%Qc) v /\ m = (avg ms x + tot U (fun k => v k * (dl * cov ms x (bg k))))%Qc.
Definition filter_var (dl : Qc) (U ms : list Z) (x : Z -> Qc) (bg : Z -> Z -> Qc) (r : Z -> Qc) (q : Qc) : Prop :=
  exists u, unique_on U (inflated_gain dl U ms bg r (fun k => dl * cov ms x (bg k))%Qc) u /\ q = (dl * cov ms x x - tot U (fun k => u k * (dl * cov ms x (bg k))))%Qc.
(** symmetric positive semidefinite, the inverse square root of I / dl + Y' (1/R) Y / (n - 1) *)
Definition filter_precision (dl : Qc) (U ms : list Z) (bg : Z -> Z -> Qc) (r : Z -> Qc) (e f : Z) : Qc :=
  (unit_ e f / dl + tot U (fun k => dev ms (bg k) e * dev ms (bg k) f / r k) / qz (zlen ms - 1))%Qc.
Definition filter_transform (dl : Qc) (U ms : list Z) (bg : Z -> Z -> Qc) (r : Z -> Qc) (T : Z -> Z -> R) : Prop :=
  (forall e f, In e ms -> In f ms -> T e f = T f e) /\
  (forall c, (0 <= rtot ms (fun e => c e * rtot ms (fun f => T e f * c f)))%R) /\
  (forall e f, In e ms -> In f ms -> rtot ms (fun i => rtot ms (fun j => T e i * T i j * qr (filter_precision dl U ms bg r j f)))%R = runit e f).
(** the members of the analysis *)
Definition filtered (dl : Qc) (U ms : list Z) (x : Z -> Qc) (bg : Z -> Z -> Qc) (ob r : Z -> Qc) (a : Z -> R) : Prop :=
  exists m q T, filter_mean dl U ms x bg ob r m /\ filter_var dl U ms x bg r q /\ filter_transform dl U ms bg r T /\
    ravg ms a = qr m /\ rvar ms a = qr q /\ (0 <= q <= dl * cov ms x x)%Qc /\
    forall e, In e ms -> a e = (qr m + rtot ms (fun f => qr (dev ms x f) * T f e))%R.
(** values of the members at a point *)
Definition point_data (d : dims) (f : field) (y x : Z) (q : Z -> Qc) : Prop := forall e v, full d f e -> f_get f y x e = Ok v -> v = Fin (q e).
(** the point keeps its values *)
Definition kept (d : dims) (f : field) (y x : Z) (out : list rv) : Prop := zlen out = d_e d /\ forall e v, 0 <= e < d_e d -> f_get f y x e = Ok v -> znth out e = Ok (v2r v).
(** the members in [ms] get the values [a], the others are missing *)
Definition written (d : dims) (ms : list Z) (a : Z -> R) (out : list rv) : Prop :=
  zlen out = d_e d /\ (forall e, In e ms -> znth out e = Ok (RF (a e))) /\ forall e, 0 <= e < d_e d -> ~ In e ms -> znth out e = Ok (RF (qr missing_number)).
