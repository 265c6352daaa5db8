(** Specification vocabulary for the ensemble analysis with correlations computed from the ensemble. *)
From Verif Require Import Base RBase M_Geo S_Geo M_OI S_OI M_Ensi S_EnsMulti S_Ensi M_EnsDyn.

(** standard deviation over the members [ms], and correlation of two quantities; the correlation with a quantity that (almost) does
    not vary is zero *)
Definition sdev (ms : list Z) (f : Z -> Qc) : R := sqrt (qr (tot ms (fun e => dev ms f e * dev ms f e)%Qc / qz (zlen ms))%Qc).
Definition steady (ms : list Z) (f : Z -> Qc) : Prop := (sdev ms f <= 13 / 10000)%R.
Definition correlation (ms : list Z) (f h : Z -> Qc) (c : R) : Prop :=
  (steady ms f \/ steady ms h -> c = 0%R) /\
  (~ steady ms f -> ~ steady ms h -> (c * sdev ms f * sdev ms h)%R = qr (tot ms (fun e => dev ms f e * dev ms h e)%Qc / qz (zlen ms))%Qc).
(** as [weights], for real numbers *)
Definition rweights (U : list Z) (r : Z -> Z -> R) (ratio g w : Z -> R) : Prop :=
  forall j, In j U -> rtot U (fun k => w k * (r k j + (if (k =? j)%Z then ratio k else 0)))%R = g j.
(** an increment [x] limited to the range of the departures and zero gives [z] (as [clipped]) *)
Definition rclipped (lo hi x z : R) : Prop :=
  ((x <= hi \/ x <= 0) /\ (lo <= x \/ 0 <= x) -> z = x)%R /\
  (hi <> 0 -> hi < x -> 0 < x -> (0 < hi -> z = hi) /\ (hi < 0 -> z = 0))%R /\
  (lo <> 0 -> x < lo -> x < 0 -> (lo < 0 -> z = lo) /\ (0 < lo -> z = 0))%R.
(** analysis of one member at one background point (as [member_analysis]) *)
Definition rmember_analysis (U : list Z) (r : Z -> Z -> R) (ratio g : Z -> R) (d : Z -> Qc) (s : Qc) (extrapolate : bool) (b : Qc) (out : rv) : Prop :=
  (U = [] -> out = RF (qr b)) /\
  (U <> [] -> exists w z, rweights U r ratio g w /\ (forall w', rweights U r ratio g w' -> forall k, In k U -> w' k = w k) /\
     out = RF (qr b + z)%R /\
     (extrapolate = true -> z = (qr s * rtot U (fun k => w k * qr (d k)))%R) /\
     (extrapolate = false -> exists lo hi, smallest U d lo /\ largest U d hi /\ rclipped (qr lo) (qr hi) (qr s * rtot U (fun k => w k * qr (d k)))%R z)).
(** the analysis uses the correlations of the ensemble, multiplied by [f], and by the localization [r] among stations and [g] with
    the background point; [x e] and [b k e] are the values of member [e] at the point and at station [k] *)
Definition dynamic_analysis (f : R) (ms U : list Z) (x : Z -> Qc) (b : Z -> Z -> Qc) (r : Z -> Z -> Qc) (ratio g d : Z -> Qc) (s : Qc) (extrapolate : bool)
  (v : Qc) (out : rv) : Prop :=
  exists cs cx, (forall k j, In k U -> In j U -> correlation ms (b k) (b j) (cs k j)) /\ (forall k, In k U -> correlation ms x (b k) (cx k)) /\
    rmember_analysis U (fun k j => qr (r k j) * (f * cs k j))%R (fun k => qr (ratio k)) (fun k => qr (g k) * (f * cx k))%R d s extrapolate v out.
(** arguments of matching sizes, where exactly the first [m] of the [nE] members have values at every background and observation
    point in all four fields *)
Record dyn_input (nB nS nE m : Z) (bratios : vec) (background background_corr pobs : vec2) (pratios : vec) (pbg pbg_corr : vec2) : Prop := {
  dn_m : 0 <= m <= nE;
  dn_bg : rect nB nE background;
  dn_bgc : rect nB nE background_corr;
  dn_obs : rect nS nE pobs;
  dn_pbg : rect nS nE pbg;
  dn_pbgc : rect nS nE pbg_corr;
  dn_br : zlen bratios = nB;
  dn_pr : zlen pratios = nS;
  dn_ok : forall e, 0 <= e < m -> complete e background /\ complete e background_corr /\ complete e pbg /\ complete e pbg_corr;
  dn_no : forall e, m <= e < nE -> ~ (complete e background /\ complete e background_corr /\ complete e pbg /\ complete e pbg_corr) }.
(** [b k e] is the value of member [e] (of the first [m]) in row [k] *)
Definition members_at (n m : Z) (f : vec2) (b : Z -> Z -> Qc) : Prop := forall k e, 0 <= k < n -> 0 <= e < m -> get2 f k e = Ok (Fin (b k e)).

(** ** Contract of the external code *)
Record rlib_ok (RL : rlib) : Prop := {
  (* what arma::inv returns for a matrix of finite numbers is its two-sided inverse *)
  ok_rinv : forall n M A N, 0 < n -> rentries n M A -> r_inv RL M = Ok N ->
    exists B, rentries n N B /\
      (forall i j, 0 <= i < n -> 0 <= j < n -> rtot (zrange 0 n) (fun k => B i k * A k j)%R = runit i j) /\
      (forall i j, 0 <= i < n -> 0 <= j < n -> rtot (zrange 0 n) (fun k => A i k * B k j)%R = runit i j);
  (* it throws only when the matrix is singular *)
  ok_rinv_sing : forall n M A e, 0 < n -> rentries n M A -> r_inv RL M = Throw e ->
    exists x : Z -> R, (exists i, 0 <= i < n /\ x i <> 0%R) /\
      forall j, 0 <= j < n -> rtot (zrange 0 n) (fun i => x i * A i j)%R = 0%R;
  (* whatever the entries, it returns a matrix of the same size or throws *)
  ok_rinv_size : forall n (M : list (list rv)), 0 < n -> rect n n M -> (exists N, r_inv RL M = Ok N /\ rect n n N) \/ r_inv RL M = Throw RuntimeError }.

(** ** An instance of the external code, used by the examples: inverse by elimination (as [inv0], for real numbers) *)
Definition rat_ (v : list R) (j : nat) : R := nth j v 0%R.
Fixpoint rpivot (j : nat) (vs : list (list R)) : option (list (list R) * list R * list (list R)) :=
  match vs with
  | [] => None
  | v :: r => if Req_EM_T (rat_ v j) 0 then match rpivot j r with Some (a, p, b) => Some (v :: a, p, b) | None => None end
              else Some ([], v, r)
  end.
Definition relim (j : nat) (p v : list R) : list R := map (fun i => rat_ v i - rat_ v j / rat_ p j * rat_ p i)%R (seq 0 j).
Fixpoint rcomb (cs : list R) (xs : list R) : R := match cs, xs with c :: cs', x :: xs' => (c * x + rcomb cs' xs')%R | _, _ => 0%R end.
Fixpoint rdepend (n : nat) (vs : list (list R)) : list R :=
  match n with
  | O => map (fun i => if Nat.eqb i 0 then 1%R else 0%R) (seq 0 (length vs))
  | S j => match rpivot j vs with
           | None => rdepend j vs
           | Some (a, p, b) =>
               let cs := rdepend j (map (relim j p) (a ++ b)) in
               let cp := (- rcomb cs (map (fun v => rat_ v j / rat_ p j)%R (a ++ b)))%R in
               firstn (length a) cs ++ cp :: skipn (length a) cs
           end
  end.
Definition rinv_row (n : nat) (Q : list (list R)) (i : nat) : res (list rv) :=
  let cs := rdepend n (map (fun j => if Nat.eqb i j then 1%R else 0%R) (seq 0 n) :: Q) in
  let c := rat_ cs 0 in
  if Req_EM_T c 0 then Throw RuntimeError else Ok (map (fun x => RF (- x / c)%R) (tl cs)).
Definition rinv0 (M : list (list rv)) : res (list (list rv)) :=
  let n := length M in
  mapM (rinv_row n (map (map (fun v => match v with RF q => q | _ => 0%R end)) M)) (seq 0 n).
Definition RL0 : rlib := {| r_inv := rinv0 |}.
