(** The ensemble mode of the client's optimal interpolation: concrete cases and the theorems. *)
From Coq Require Import Lra.
From Verif Require P_Ensi.
From Verif Require Import Base QcTac ListLib RBase P_RBase M_Geo S_Geo M_Stat S_Stat M_OI S_OI P_OISum P_OI P_OIInv P_OIRef M_Ensi S_EnsMulti S_Ensi P_RSum P_EnsiAlg P_EnsiCell P_EnsiSpec P_EnsiRoot P_EnsiWit P_EnsiFin M_COpt M_CUtil S_CUtil P_CUtil M_CCal S_CCal P_CCal M_CTree S_CTree P_Bilin P_CDown P_CDist P_CDistEx M_CKrig S_CKrig P_CKrig P_CKrigEx M_COi S_COi P_COi P_COi2 P_COiEx M_COiEns S_COiEns P_COiEns P_COiEns2 P_COiEns3 P_COiEns4.
Local Open Scope Z_scope.

Lemma f_get_range f y x e v : f_get f y x e = Ok v -> 0 <= y < f_ny f /\ 0 <= x < f_nx f /\ 0 <= e < f_ne f.
Proof. unfold f_get, f_index. destruct (_ && _)%bool eqn:B; [|discriminate]. repeat (apply andb_prop in B as [B ?]). lia. Qed.
Definition ens_opt (sg dl : Qc) (save ext : bool) : ens_options := {| en_sigma := Fin sg; en_delta := Fin dl; en_savediff := save; en_extrapolate := ext |}.
Definition st_at (x : Z) (ob : val) : station := {| st_loc := at_lat (10 + 5 * x); st_obs := ob; st_ci := fz 1; st_y := 0; st_x := x; st_laf := fz 1 |}.
Definition lat_of (k : Z) : place := two_points 0 k.
Definition one_row (l : list Z) : field := row 2 3 (map fz l).
Ltac numbers H := let R := fresh in pose proof (f_get_range _ _ _ _ _ H) as R; cbn [one_row row f_ny f_nx f_ne] in R;
  match type of R with _ /\ _ /\ 0 <= ?e < 3 => assert (e = 0 \/ e = 1 \/ e = 2) as [-> |[-> | ->]] by lia | _ /\ _ /\ 0 <= ?e < 2 => assert (e = 0 \/ e = 1) as [-> | ->] by lia end; injection H as <-.
(** the members with values at both points *)
Lemma full3 a b c a' b' c' : full (dims2 2 3 1) (row 2 3 [a; b; c; a'; b'; c']) 0 <-> (cvalid a = true /\ cvalid a' = true).
Proof.
  split.
  - intros [_ H]. destruct (H 0 0) as (q & E & N); [cbn; lia..|]. destruct (H 0 1) as (q' & E' & N'); [cbn; lia..|]. injection E as ->. injection E' as ->. split; apply cvalid_Fin; assumption.
  - intros [A B]. split; [cbn; lia|]. intros y x Hy Hx. cbn in Hy, Hx. assert (y = 0) as -> by lia. apply cvalid_true in A as (q & -> & Nq). apply cvalid_true in B as (q' & -> & Nq').
    assert (x = 0 \/ x = 1) as [-> | ->] by lia; eexists; (split; [reflexivity|assumption]).
Qed.
Lemma full3' a b c a' b' c' : full (dims2 2 3 1) (row 2 3 [a; b; c; a'; b'; c']) 1 <-> (cvalid b = true /\ cvalid b' = true).
Proof.
  split.
  - intros [_ H]. destruct (H 0 0) as (q & E & N); [cbn; lia..|]. destruct (H 0 1) as (q' & E' & N'); [cbn; lia..|]. injection E as ->. injection E' as ->. split; apply cvalid_Fin; assumption.
  - intros [A B]. split; [cbn; lia|]. intros y x Hy Hx. cbn in Hy, Hx. assert (y = 0) as -> by lia. apply cvalid_true in A as (q & -> & Nq). apply cvalid_true in B as (q' & -> & Nq').
    assert (x = 0 \/ x = 1) as [-> | ->] by lia; eexists; (split; [reflexivity|assumption]).
Qed.
Lemma full3'' a b c a' b' c' : full (dims2 2 3 1) (row 2 3 [a; b; c; a'; b'; c']) 2 -> (cvalid c = true /\ cvalid c' = true).
Proof. intros [_ H]. destruct (H 0 0) as (q & E & N); [cbn; lia..|]. destruct (H 0 1) as (q' & E' & N'); [cbn; lia..|]. injection E as ->. injection E' as ->. split; apply cvalid_Fin; assumption. Qed.
Lemma members01 a b c a' b' c' : cvalid a = true -> cvalid a' = true -> cvalid b = true -> cvalid b' = true -> (cvalid c && cvalid c')%bool = false -> full_members (dims2 2 3 1) (row 2 3 [a; b; c; a'; b'; c']) [0; 1].
Proof.
  intros A A' B B' C. split; [repeat constructor; cbn; intuition lia|]. intros e. split.
  - intros [<-|[<-|[]]]; [apply full3|apply full3']; auto.
  - intros F. pose proof (proj1 F) as R. cbn in R. assert (e = 0 \/ e = 1 \/ e = 2) as [-> |[-> | ->]] by lia; [cbn; auto|cbn; auto|]. apply full3'' in F as [F F']. rewrite F, F' in C. discriminate C.
Qed.
(** a station at the first point, three members *)
Lemma case3 eo sg dl ob a b c a' b' c' : en_sigma eo = Fin sg -> sg <> 0%Qc -> en_delta eo = Fin dl -> (0 < dl)%Qc -> (forall n, In n [a; b; c; a'; b'; c'] -> -999 <= n) ->
  ens_case plain eo [[fz 0; fz 0]] (dims2 2 3 1) [st_at 0 (Fin ob)] (one_row [a; b; c; a'; b'; c']) [(fz 1, 0)] 0 sg dl [0] lat_of two_points (fun _ => 1%Qc) (fun _ => ob) (fun _ => 1%Qc) (fun _ e => if e =? 0 then qz a else if e =? 1 then qz b else qz c).
Proof.
  intros Es Ns Ed Pd Hn. constructor.
  - split; [apply row_size; reflexivity||lia|cbn; lia].
  - split; [apply rect12|]. intros y x Hy Hx. cbn in Hy, Hx. assert (y = 0) as -> by lia. assert (x = 0 \/ x = 1) as [-> | ->] by lia; (split; [reflexivity|intros K; apply qz_inj in K; lia]).
  - right. split; reflexivity.
  - auto.
  - auto.
  - intros i st Hi. pose proof (znth_range _ _ _ Hi) as Ri. unfold zlen in Ri; cbn in Ri. assert (i = 0) as -> by lia. injection Hi as <-.
    split; [apply p_lat_placed; reflexivity|]. split; [cbn; lia|]. split; [cbn; lia|]. intros e q Hg Nq. cbn [st_at st_y st_x] in Hg.
    assert (K : exists n, -999 <= n /\ q = qz n).
    { numbers Hg; eexists; (split; [|reflexivity]); apply Hn; cbn; auto. }
    destruct K as (n & Ln & ->). unfold lapse. assert (n <> -999) by (intros ->; apply Nq; reflexivity). replace (qz n + _)%Qc with (qz n) by ring. change missing_number with (qz (-999)). apply qz_lt. lia.
  - split; [reflexivity|]. split; [discriminate|]. split; [repeat constructor; cbn; tauto|]. intros k [<-|[]]. split; [unfold zlen; cbn; lia|reflexivity].
  - intros k st [<-|[]] E. injection E as <-. split; [reflexivity|]. split; reflexivity.
  - intros k st e q [<-|[]] E F Hg. injection E as <-. cbn [st_at st_y st_x] in Hg. unfold lapse. match goal with |- _ = (q + ?t)%Qc => replace (q + t)%Qc with q by ring end. numbers Hg; reflexivity.
Qed.

(** *** concrete runs *)
Ltac eside := first [constructor; [cbn; lia|]; constructor; [cbn; tauto|constructor] | intros ? [<- |[<- |[]]]; lia
  | rng; (split; [vcalc|first [reflexivity|discriminate]]) | rng; vcalc
  | split; [rect_now|]; let i := fresh in let j := fresh in intros i j ? ?; assert (j = 0 \/ j = 1) as [-> | ->] by lia; first [assert (i = 0) as -> by lia; vcalc|assert (i = 0 \/ i = 1) as [-> | ->] by lia; vcalc]
  | in2; qc | exact W9_psd | exact W81_psd ].
Definition rq (q : Q) : rv := RF (qr (Q2Qc q)).
Ltac eentry Ex Zx :=
  match type of Ex with context [ix ?u ?v] => let w := eval vm_compute in (ix u v) in change (ix u v) with w in Ex end;
  rewrite Ex; unfold rq; cbn [ens_opt en_savediff]; do 2 f_equal;
  first [rewrite Zx; rewrite <- ?qr_add; f_equal; qc
        |match type of Zx with context [v2r (amax ?l)] => let m := eval vm_compute in (amax l) in let q := match m with Fin ?q => q end in
           replace (amax l) with (Fin (Q2Qc (this q))) in Zx by (symmetry; vcalc); change (v2r (Fin (Q2Qc (this q)))) with (RF (qr (Q2Qc (this q)))) in Zx end;
         match type of Zx with context [v2r (amin ?l)] => let m := eval vm_compute in (amin l) in let q := match m with Fin ?q => q end in
           replace (amin l) with (Fin (Q2Qc (this q))) in Zx by (symmetry; vcalc); change (v2r (Fin (Q2Qc (this q)))) with (RF (qr (Q2Qc (this q)))) in Zx end;
         rewrite ens_limit_q in Zx; injection Zx as Zx; rewrite Zx; rewrite <- qr_add; f_equal; qc].
Definition run3 (radar : res (list rv)) (eo : ens_options) (ob : Qc) (l : list Z) : res (list rv) :=
  oe_point (l_inv L0) EL0 radar plain eo 2 [[fz 0; fz 0]] (dims2 2 3 1) [st_at 0 (Fin ob)] (one_row l) [(fz 1, 0)] 0 1.
(** a member without a value at the point but with one at the station *)
Lemma run_biased radar : run3 radar (ens_opt (Q2Qc (1 # 4)) 1 false true) (Q2Qc (3 # 2)) [3; 0; 0; 1; -1; -999] = Ok [rq (31 # 135); rq (- 23 # 135); v2r CMV].
Proof.
  transitivity (ecore (l_inv L0) EL0 (ens_opt (Q2Qc (1 # 4)) 1 false true) [0; 1] 1 [fz 1] [fz 1] [fq (3 # 2)] [fz 1] [[fz 2; fz (-1)]] [fz 1; fz (-1); CMV] [v2r CMV; v2r CMV; v2r CMV]).
  { unfold run3. rewrite (point_run (l_inv L0) EL0 radar plain (ens_opt (Q2Qc (1 # 4)) 1 false true) [[fz 0; fz 0]] (dims2 2 3 1) [st_at 0 (Fin (Q2Qc (3 # 2)))] (one_row [3; 0; 0; 1; -1; -999]) [(fz 1, 0)] 0 1 [([fz 2; fz (-1); fz (-1)], fz 1)] [0; 1] [fz 1; fz (-1); CMV] [st_at 0 (fq (3 # 2))] [([fz 2; fz (-1); fz (-1)], fz 1)] [[fz 2; fz (-1)]]); [|vcalc..].
    generalize (ecore (l_inv L0) EL0). intros EC. reflexivity. }
  destruct (ecore_two (ens_opt (Q2Qc (1 # 4)) 1 false true) [0; 1] 1 3 [fz 1] [fz 1] [fq (3 # 2)] [fz 1] [[fz 2; fz (-1)]] [fz 1; fz (-1); CMV] [v2r CMV; v2r CMV; v2r CMV]) with
    (U := [0]) (Y := fun k : Z => f2 (qz 2) (qz (-1))) (sg := Q2Qc (1 # 4)) (gg := fun _ : Z => 1%Qc) (cc := fun _ : Z => 1%Qc) (o := fun _ : Z => Q2Qc (3 # 2)) (h := fun _ : Z => 1%Qc)
    (xx := f2 (qz 1) (qz (-1))) (P0 := P81) (W0 := W81) as (out & Er & L1 & L2 & L3); [try lia; try discriminate; eside || reflexivity..|].
  rewrite Er. f_equal. destruct (L3 0 ltac:(lia)) as (z0 & A0 & B0 & C0). destruct (L3 1 ltac:(lia)) as (z1 & A1 & B1 & C1). specialize (B0 (or_intror eq_refl)). specialize (B1 (or_intror eq_refl)).
  apply three_list; [exact L1|eentry A0 B0|eentry A1 B1|rewrite L2; [reflexivity|cbn; lia]].
Qed.
(** a member without values at the station, with and without the differences, and with the limit *)
Lemma run_plain radar : run3 radar (ens_opt 1 1 false true) 1 [2; -2; -999; 3; -1; 5] = Ok [rq (23 # 9); rq (11 # 9); v2r CMV].
Proof.
  transitivity (ecore (l_inv L0) EL0 (ens_opt 1 1 false true) [0; 1] 1 [fz 1] [fz 1] [fz 1] [fz 0] [[fz 2; fz (-2)]] [fz 3; fz (-1); fz 5] [v2r CMV; v2r CMV; v2r CMV]).
  { unfold run3. rewrite (point_run (l_inv L0) EL0 radar plain (ens_opt 1 1 false true) [[fz 0; fz 0]] (dims2 2 3 1) [st_at 0 (Fin 1%Qc)] (one_row [2; -2; -999; 3; -1; 5]) [(fz 1, 0)] 0 1 [([fz 2; fz (-2); fz 0], fz 0)] [0; 1] [fz 3; fz (-1); fz 5] [st_at 0 (fz 1)] [([fz 2; fz (-2); fz 0], fz 0)] [[fz 2; fz (-2)]]); [|vcalc..].
    generalize (ecore (l_inv L0) EL0). intros EC. reflexivity. }
  destruct (ecore_two (ens_opt 1 1 false true) [0; 1] 1 3 [fz 1] [fz 1] [fz 1] [fz 0] [[fz 2; fz (-2)]] [fz 3; fz (-1); fz 5] [v2r CMV; v2r CMV; v2r CMV]) with
    (U := [0]) (Y := fun k : Z => f2 (qz 2) (qz (-2))) (sg := 1%Qc) (gg := fun _ : Z => 1%Qc) (cc := fun _ : Z => 1%Qc) (o := fun _ : Z => 1%Qc) (h := fun _ : Z => 0%Qc)
    (xx := f2 (qz 3) (qz (-1))) (P0 := P9) (W0 := W9) as (out & Er & L1 & L2 & L3); [try lia; try discriminate; eside || reflexivity..|].
  rewrite Er. f_equal. destruct (L3 0 ltac:(lia)) as (z0 & A0 & B0 & C0). destruct (L3 1 ltac:(lia)) as (z1 & A1 & B1 & C1). specialize (B0 (or_intror eq_refl)). specialize (B1 (or_intror eq_refl)).
  apply three_list; [exact L1|eentry A0 B0|eentry A1 B1|rewrite L2; [reflexivity|cbn; lia]].
Qed.
Lemma run_diff radar : run3 radar (ens_opt 1 1 true true) 1 [2; -2; -999; 3; -1; 5] = Ok [rq (14 # 9); rq (2 # 9); v2r CMV].
Proof.
  transitivity (ecore (l_inv L0) EL0 (ens_opt 1 1 true true) [0; 1] 1 [fz 1] [fz 1] [fz 1] [fz 0] [[fz 2; fz (-2)]] [fz 3; fz (-1); fz 5] [v2r CMV; v2r CMV; v2r CMV]).
  { unfold run3. rewrite (point_run (l_inv L0) EL0 radar plain (ens_opt 1 1 true true) [[fz 0; fz 0]] (dims2 2 3 1) [st_at 0 (Fin 1%Qc)] (one_row [2; -2; -999; 3; -1; 5]) [(fz 1, 0)] 0 1 [([fz 2; fz (-2); fz 0], fz 0)] [0; 1] [fz 3; fz (-1); fz 5] [st_at 0 (fz 1)] [([fz 2; fz (-2); fz 0], fz 0)] [[fz 2; fz (-2)]]); [|vcalc..].
    generalize (ecore (l_inv L0) EL0). intros EC. reflexivity. }
  destruct (ecore_two (ens_opt 1 1 true true) [0; 1] 1 3 [fz 1] [fz 1] [fz 1] [fz 0] [[fz 2; fz (-2)]] [fz 3; fz (-1); fz 5] [v2r CMV; v2r CMV; v2r CMV]) with
    (U := [0]) (Y := fun k : Z => f2 (qz 2) (qz (-2))) (sg := 1%Qc) (gg := fun _ : Z => 1%Qc) (cc := fun _ : Z => 1%Qc) (o := fun _ : Z => 1%Qc) (h := fun _ : Z => 0%Qc)
    (xx := f2 (qz 3) (qz (-1))) (P0 := P9) (W0 := W9) as (out & Er & L1 & L2 & L3); [try lia; try discriminate; eside || reflexivity..|].
  rewrite Er. f_equal. destruct (L3 0 ltac:(lia)) as (z0 & A0 & B0 & C0). destruct (L3 1 ltac:(lia)) as (z1 & A1 & B1 & C1). specialize (B0 (or_introl eq_refl)). specialize (B1 (or_introl eq_refl)).
  apply three_list; [exact L1|eentry A0 B0|eentry A1 B1|rewrite L2; [reflexivity|cbn; lia]].
Qed.
Lemma run_limited radar : run3 radar (ens_opt 1 1 false false) 1 [2; -2; -999; 3; -1; 5] = Ok [rq (23 # 9); rq (11 # 9); v2r CMV].
Proof.
  transitivity (ecore (l_inv L0) EL0 (ens_opt 1 1 false false) [0; 1] 1 [fz 1] [fz 1] [fz 1] [fz 0] [[fz 2; fz (-2)]] [fz 3; fz (-1); fz 5] [v2r CMV; v2r CMV; v2r CMV]).
  { unfold run3. rewrite (point_run (l_inv L0) EL0 radar plain (ens_opt 1 1 false false) [[fz 0; fz 0]] (dims2 2 3 1) [st_at 0 (Fin 1%Qc)] (one_row [2; -2; -999; 3; -1; 5]) [(fz 1, 0)] 0 1 [([fz 2; fz (-2); fz 0], fz 0)] [0; 1] [fz 3; fz (-1); fz 5] [st_at 0 (fz 1)] [([fz 2; fz (-2); fz 0], fz 0)] [[fz 2; fz (-2)]]); [|vcalc..].
    generalize (ecore (l_inv L0) EL0). intros EC. reflexivity. }
  destruct (ecore_two (ens_opt 1 1 false false) [0; 1] 1 3 [fz 1] [fz 1] [fz 1] [fz 0] [[fz 2; fz (-2)]] [fz 3; fz (-1); fz 5] [v2r CMV; v2r CMV; v2r CMV]) with
    (U := [0]) (Y := fun k : Z => f2 (qz 2) (qz (-2))) (sg := 1%Qc) (gg := fun _ : Z => 1%Qc) (cc := fun _ : Z => 1%Qc) (o := fun _ : Z => 1%Qc) (h := fun _ : Z => 0%Qc)
    (xx := f2 (qz 3) (qz (-1))) (P0 := P9) (W0 := W9) as (out & Er & L1 & L2 & L3); [try lia; try discriminate; eside || reflexivity..|].
  rewrite Er. f_equal. destruct (L3 0 ltac:(lia)) as (z0 & A0 & B0 & C0). destruct (L3 1 ltac:(lia)) as (z1 & A1 & B1 & C1). specialize (C0 eq_refl eq_refl). specialize (C1 eq_refl eq_refl).
  apply three_list; [exact L1|eentry A0 C0|eentry A1 C1|rewrite L2; [reflexivity|cbn; lia]].
Qed.
(** two stations, two members *)
Definition run2 (radar : res (list rv)) (eo : ens_options) : res (list rv) :=
  oe_point (l_inv L0) EL0 radar plain eo 2 [[fz 0; fz 0]] (dims2 2 2 1) [st_at 0 (fz 1); st_at 1 (fz 3)] (row 2 2 [fz 0; fz 0; fz 2; fz (-2)]) [(fz 1, 0); (fz 1, 1)] 0 1.
Lemma run_two radar : run2 radar (ens_opt 1 1 false false) = Ok [rq (10 # 3); rq (-1)].
Proof.
  transitivity (ecore (l_inv L0) EL0 (ens_opt 1 1 false false) [0; 1] 2 [fz 1; fz 1] [fz 1; fz 1] [fz 1; fz 3] [fz 0; fz 0] [[fz 0; fz 0]; [fz 2; fz (-2)]] [fz 2; fz (-2)] [v2r CMV; v2r CMV]).
  { unfold run2. rewrite (point_run (l_inv L0) EL0 radar plain (ens_opt 1 1 false false) [[fz 0; fz 0]] (dims2 2 2 1) [st_at 0 (fz 1); st_at 1 (fz 3)] (row 2 2 [fz 0; fz 0; fz 2; fz (-2)]) [(fz 1, 0); (fz 1, 1)] 0 1 [([fz 0; fz 0], fz 0); ([fz 2; fz (-2)], fz 0)] [0; 1] [fz 2; fz (-2)] [st_at 0 (fz 1); st_at 1 (fz 3)] [([fz 0; fz 0], fz 0); ([fz 2; fz (-2)], fz 0)] [[fz 0; fz 0]; [fz 2; fz (-2)]]); [|vcalc..].
    generalize (ecore (l_inv L0) EL0). intros EC. reflexivity. }
  destruct (ecore_two (ens_opt 1 1 false false) [0; 1] 2 2 [fz 1; fz 1] [fz 1; fz 1] [fz 1; fz 3] [fz 0; fz 0] [[fz 0; fz 0]; [fz 2; fz (-2)]] [fz 2; fz (-2)] [v2r CMV; v2r CMV]) with
    (U := [0; 1]) (Y := fun k => f2 (if k =? 0 then qz 0 else qz 2) (if k =? 0 then qz 0 else qz (-2))) (sg := 1%Qc) (gg := fun _ : Z => 1%Qc) (cc := fun _ : Z => 1%Qc) (o := f2 (qz 1) (qz 3)) (h := fun _ : Z => 0%Qc)
    (xx := f2 (qz 2) (qz (-2))) (P0 := P9) (W0 := W9) as (out & Er & L1 & L2 & L3); [try lia; try discriminate; eside || reflexivity..|].
  rewrite Er. f_equal. destruct (L3 0 ltac:(lia)) as (z0 & A0 & B0 & C0). destruct (L3 1 ltac:(lia)) as (z1 & A1 & B1 & C1). specialize (C0 eq_refl eq_refl). specialize (C1 eq_refl eq_refl).
  apply two_list; [exact L1|eentry A0 C0|eentry A1 C1].
Qed.
