(** The ensemble mode of the client's optimal interpolation: the theorems. *)
From Coq Require Import Lra.
From Verif Require P_Ensi.
From Verif Require Import Base QcTac ListLib RBase P_RBase M_Geo S_Geo M_Stat S_Stat M_OI S_OI P_OISum P_OI P_OIInv P_OIRef M_Ensi S_EnsMulti S_Ensi P_RSum P_EnsiAlg P_EnsiCell P_EnsiSpec P_EnsiRoot P_EnsiWit P_EnsiFin M_COpt M_CUtil S_CUtil P_CUtil M_CCal S_CCal P_CCal M_CTree S_CTree P_Bilin P_CDown P_CDist P_CDistEx M_CKrig S_CKrig P_CKrig P_CKrigEx M_COi S_COi P_COi P_COi2 P_COiEx M_COiEns S_COiEns P_COiEns P_COiEns2 P_COiEns3 P_COiEns4 P_COiEns5.
Local Open Scope Z_scope.

Lemma written_same d ms z z' out : written d ms z out -> written d ms z' out -> forall e, In e ms -> z e = z' e.
Proof. intros (_ & H & _) (_ & H' & _) e He. specialize (H e He). specialize (H' e He). congruence. Qed.
Lemma rtot_same l f g : (forall e, In e l -> f e = g e) -> rtot l f = rtot l g. Proof. apply rtot_ext. Qed.
Lemma ravg_same ms f g : (forall e, In e ms -> f e = g e) -> ravg ms f = ravg ms g.
Proof. intros H. unfold ravg. rewrite (rtot_ext _ _ _ H). reflexivity. Qed.
Lemma rvar_same ms f g : (forall e, In e ms -> f e = g e) -> rvar ms f = rvar ms g.
Proof. intros H. unfold rvar. rewrite (ravg_same _ _ _ H). f_equal. apply rtot_ext. intros e He. rewrite H by exact He. reflexivity. Qed.
Lemma written_ext d ms z z' out : (forall e, In e ms -> z e = z' e) -> written d ms z out -> written d ms z' out.
Proof. intros H (A & B & C). split; [exact A|]. split; [|exact C]. intros e He. rewrite <- H by exact He. auto. Qed.
(** C244: the mean *)
Lemma c244 : forall L EL radar o eo elevs d ss f sel gr sg dl U a b g ob ci bg y x q, lib_ok L -> elib_ok EL -> ens_case o eo elevs d ss f sel gr sg dl U a b g ob ci bg -> all_or_nothing d ss f U ->
  0 <= y < d_y d -> 0 <= x < d_x d -> point_data d f y x q -> en_savediff eo = false -> en_extrapolate eo = true ->
  exists ms, full_members d f ms /\ (2 <= zlen ms -> exists out, oe_point (l_inv L) EL radar o eo 2 elevs d ss f sel y x = Ok out /\
    (solver_failed EL ms (filter_precision dl U ms bg (error_var sg g ci)) \/ exists z m, written d ms z out /\ filter_mean dl U ms q bg ob (error_var sg g ci) m /\ ravg ms z = qr m)).
Proof.
  intros L EL radar o eo elevs d ss f sel gr sg dl U a b g ob ci bg y x q H1 H2 H3 H4 Hy Hx Hq S1 S2.
  destruct (ens_point L EL radar o eo elevs d ss f sel gr sg dl U a b g ob ci bg H1 H2 H3 H4 y x q Hy Hx Hq) as (ms & FM & K). exists ms. split; [exact FM|]. intros Hn.
  destruct (K Hn) as [(SF & out & Er & _)|(an & z & out & Er & F & W & _ & Z2 & _)]; exists out; (split; [exact Er|]); [left; exact SF|right].
  destruct F as (m & v & T & F1 & F2 & F3 & F4 & _). exists z, m. split; [exact W|]. split; [exact F1|]. rewrite (ravg_same ms z an); [exact F4|]. intros e He. apply Z2; auto.
Qed.
(** C245: the spread *)
Lemma c245 : forall L EL radar o eo elevs d ss f sel gr sg dl U a b g ob ci bg y x q, lib_ok L -> elib_ok EL -> ens_case o eo elevs d ss f sel gr sg dl U a b g ob ci bg -> all_or_nothing d ss f U ->
  0 <= y < d_y d -> 0 <= x < d_x d -> point_data d f y x q -> en_savediff eo = false -> en_extrapolate eo = true ->
  exists ms, full_members d f ms /\ (2 <= zlen ms -> exists out, oe_point (l_inv L) EL radar o eo 2 elevs d ss f sel y x = Ok out /\
    (solver_failed EL ms (filter_precision dl U ms bg (error_var sg g ci)) \/ exists z v, written d ms z out /\ filter_var dl U ms q bg (error_var sg g ci) v /\ rvar ms z = qr v /\ (0 <= v <= dl * cov ms q q)%Qc)).
Proof.
  intros L EL radar o eo elevs d ss f sel gr sg dl U a b g ob ci bg y x q H1 H2 H3 H4 Hy Hx Hq S1 S2.
  destruct (ens_point L EL radar o eo elevs d ss f sel gr sg dl U a b g ob ci bg H1 H2 H3 H4 y x q Hy Hx Hq) as (ms & FM & K). exists ms. split; [exact FM|]. intros Hn.
  destruct (K Hn) as [(SF & out & Er & _)|(an & z & out & Er & F & W & _ & Z2 & _)]; exists out; (split; [exact Er|]); [left; exact SF|right].
  destruct F as (m & v & T & F1 & F2 & F3 & F4 & F5 & F6 & _). exists z, v. split; [exact W|]. split; [exact F2|]. split; [|exact F6]. rewrite (rvar_same ms z an); [exact F5|]. intros e He. apply Z2; auto.
Qed.
(** C246: every member *)
Lemma c246 : forall L EL radar o eo elevs d ss f sel gr sg dl U a b g ob ci bg y x q, lib_ok L -> elib_ok EL -> ens_case o eo elevs d ss f sel gr sg dl U a b g ob ci bg -> all_or_nothing d ss f U ->
  0 <= y < d_y d -> 0 <= x < d_x d -> point_data d f y x q -> en_savediff eo = false -> en_extrapolate eo = true ->
  exists ms, full_members d f ms /\ (2 <= zlen ms -> exists out, oe_point (l_inv L) EL radar o eo 2 elevs d ss f sel y x = Ok out /\
    ((solver_failed EL ms (filter_precision dl U ms bg (error_var sg g ci)) /\ kept d f y x out) \/
     exists z m T, written d ms z out /\ filter_mean dl U ms q bg ob (error_var sg g ci) m /\ filter_transform dl U ms bg (error_var sg g ci) T /\ forall e, In e ms -> z e = (qr m + rtot ms (fun f => qr (dev ms q f) * T f e))%R)).
Proof.
  intros L EL radar o eo elevs d ss f sel gr sg dl U a b g ob ci bg y x q H1 H2 H3 H4 Hy Hx Hq S1 S2.
  destruct (ens_point L EL radar o eo elevs d ss f sel gr sg dl U a b g ob ci bg H1 H2 H3 H4 y x q Hy Hx Hq) as (ms & FM & K). exists ms. split; [exact FM|]. intros Hn.
  destruct (K Hn) as [(SF & out & Er & KP)|(an & z & out & Er & F & W & _ & Z2 & _)]; exists out; (split; [exact Er|]); [left; auto|right].
  destruct F as (m & v & T & F1 & F2 & F3 & _ & _ & _ & F7). exists z, m, T. split; [exact W|]. split; [exact F1|]. split; [exact F3|]. intros e He. rewrite (Z2 S1 S2 e He). apply F7. exact He.
Qed.
(** C247: with the differences *)
Lemma c247 : forall L EL radar o eo elevs d ss f sel gr sg dl U a b g ob ci bg y x q, lib_ok L -> elib_ok EL -> ens_case o eo elevs d ss f sel gr sg dl U a b g ob ci bg -> all_or_nothing d ss f U ->
  0 <= y < d_y d -> 0 <= x < d_x d -> point_data d f y x q -> en_savediff eo = true ->
  exists ms, full_members d f ms /\ (2 <= zlen ms -> exists out, oe_point (l_inv L) EL radar o eo 2 elevs d ss f sel y x = Ok out /\
    ((solver_failed EL ms (filter_precision dl U ms bg (error_var sg g ci)) /\ kept d f y x out) \/
     exists an, filtered dl U ms q bg ob (error_var sg g ci) an /\ written d ms (fun e => an e - qr (avg ms q))%R out)).
Proof.
  intros L EL radar o eo elevs d ss f sel gr sg dl U a b g ob ci bg y x q H1 H2 H3 H4 Hy Hx Hq S1.
  destruct (ens_point L EL radar o eo elevs d ss f sel gr sg dl U a b g ob ci bg H1 H2 H3 H4 y x q Hy Hx Hq) as (ms & FM & K). exists ms. split; [exact FM|]. intros Hn.
  destruct (K Hn) as [(SF & out & Er & KP)|(an & z & out & Er & F & W & Z1 & _)]; exists out; (split; [exact Er|]); [left; auto|right].
  exists an. split; [exact F|]. apply (written_ext d ms z); [|exact W]. intros e He. apply Z1; auto.
Qed.
Lemma c248 : forall L EL radar o eo elevs d ss f sel gr sg dl k a b g ob ci bg y x q, lib_ok L -> elib_ok EL -> ens_case o eo elevs d ss f sel gr sg dl [k] a b g ob ci bg -> all_or_nothing d ss f [k] ->
  0 <= y < d_y d -> 0 <= x < d_x d -> point_data d f y x q -> en_savediff eo = false -> en_extrapolate eo = false ->
  exists ms, full_members d f ms /\ (2 <= zlen ms -> exists out, oe_point (l_inv L) EL radar o eo 2 elevs d ss f sel y x = Ok out /\
    ((solver_failed EL ms (filter_precision dl [k] ms bg (error_var sg g ci)) /\ kept d f y x out) \/
     exists an z, filtered dl [k] ms q bg ob (error_var sg g ci) an /\ written d ms z out /\ forall e, In e ms -> rlimited (qr (ob k - bg k e)%Qc) (an e - qr (q e)) (z e - qr (q e)))).
Proof.
  intros L EL radar o eo elevs d ss f sel gr sg dl k a b g ob ci bg y x q H1 H2 H3 H4 Hy Hx Hq S1 S2.
  destruct (ens_point L EL radar o eo elevs d ss f sel gr sg dl [k] a b g ob ci bg H1 H2 H3 H4 y x q Hy Hx Hq) as (ms & FM & K). exists ms. split; [exact FM|]. intros Hn.
  destruct (K Hn) as [(SF & out & Er & KP)|(an & z & out & Er & F & W & _ & _ & Z3)]; exists out; (split; [exact Er|]); [left; auto|right].
  exists an, z. split; [exact F|]. split; [exact W|]. intros e He. apply Z3; auto.
Qed.
(** C249: the number of parameters *)
Lemma c249 : forall L EL radar o eo elevs d ss f sel gr sg dl U a b g ob ci bg y x nPar, ens_case o eo elevs d ss f sel gr sg dl U a b g ob ci bg ->
  0 <= y < d_y d -> 0 <= x < d_x d -> nPar <> 2 -> nPar <> 3 -> oe_point (l_inv L) EL radar o eo nPar elevs d ss f sel y x = Abort.
Proof.
  intros L EL radar o eo elevs d ss f sel gr sg dl U a b g ob ci bg y x nPar HC Hy Hx N2 N3. pose proof HC as HC0. destruct HC0 as [[SF He] [RE EV] HG _ _ HSt [Es [_ [_ HU]]] _ _].
  unfold oe_point.
  destruct (mapM_total (oi_background o elevs (d_e d) f) (fun _ r => zlen (fst r) = d_e d) ss) as (back & E & Lb & H).
  { intros st Hin. apply In_znth in Hin as [i Hi]. destruct (HSt i st Hi) as (S1 & S2 & S3 & S4).
    destruct (background_ok d o elevs f st gr a b i SF RE He S2 S3 HG S1 (EV _ _ S2 S3) S4) as (ys & mean & -> & Ly & _). eexists. split; [reflexivity|]. exact Ly. }
  rewrite E. cbn [bind]. destruct (members_full d f SF He) as (ms & EM & FM). rewrite EM. cbn [bind]. destruct (row_get d f y x SF Hy Hx He) as (rw & ER & _ & _). rewrite ER. cbn [bind]. unfold oe_row.
  rewrite Es. rewrite (mapM_ok _ (fun p => stk ss (snd p))) by (intros p Hp; apply in_map_iff in Hp as (k & <- & Hk); apply stk_ok; apply HU; exact Hk). cbn [bind].
  set (bk := fun k => match znth back k with Ok r => r | _ => ([], NaN) end).
  assert (HB : forall k, In k U -> znth back k = Ok (bk k) /\ zlen (fst (bk k)) = d_e d).
  { intros k Hk. destruct (H k (stk ss k) (stk_ok ss k (proj1 (HU k Hk)))) as (r & Zr & _ & Lr). unfold bk. rewrite Zr. auto. }
  rewrite (mapM_ok _ (fun p => bk (snd p))) by (intros p Hp; apply in_map_iff in Hp as (k & <- & Hk); apply HB; exact Hk). cbn [bind].
  destruct (mapM_total (fun b0 : vec * val => mapM (fun ei => znth (fst b0) ei) ms) (fun _ _ => True) (map (fun p : val * Z => bk (snd p)) (map (fun k => (Fin (g k), k)) U))) as (lY & EY & _).
  { intros r Hr. rewrite map_map in Hr. apply in_map_iff in Hr as (k & <- & Hk). cbn [snd]. destruct (HB k Hk) as [_ Lk].
    destruct (mapM_total (fun ei => znth (fst (bk k)) ei) (fun _ _ => True) ms) as (l & El & _).
    - intros e Hin. apply FM in Hin. destruct (znth_some (fst (bk k)) e) as [v ->]; [rewrite Lk; apply Hin|]. eauto.
    - eauto. }
  rewrite EY. cbn [bind]. replace (nPar =? 3) with false by lia. replace (nPar =? 2) with false by lia. reflexivity.
Qed.
(** *** refutations *)
Definition q2 (a b : Z) : Z -> Qc := f2 (qz a) (qz b).
Lemma data3 l q : (forall e v, f_get (one_row l) 0 1 e = Ok v -> full (dims2 2 3 1) (one_row l) e -> v = Fin (q e)) -> point_data (dims2 2 3 1) (one_row l) 0 1 q.
Proof. intros H e v F E. auto. Qed.
Lemma biased_members : full_members (dims2 2 3 1) (one_row [3; 0; 0; 1; -1; -999]) [0; 1].
Proof. apply members01; reflexivity. Qed.
Lemma biased_data : point_data (dims2 2 3 1) (one_row [3; 0; 0; 1; -1; -999]) 0 1 (q2 1 (-1)).
Proof. intros e v F E. apply biased_members in F. destruct F as [<-|[<-|[]]]; injection E as <-; reflexivity. Qed.
Lemma plain_members : full_members (dims2 2 3 1) (one_row [2; -2; -999; 3; -1; 5]) [0; 1].
Proof. apply members01; reflexivity. Qed.
Lemma plain_data : point_data (dims2 2 3 1) (one_row [2; -2; -999; 3; -1; 5]) 0 1 (q2 3 (-1)).
Proof. intros e v F E. apply plain_members in F. destruct F as [<-|[<-|[]]]; injection E as <-; reflexivity. Qed.
Lemma plain_nothing : all_or_nothing (dims2 2 3 1) [st_at 0 (Fin 1%Qc)] (one_row [2; -2; -999; 3; -1; 5]) [0].
Proof.
  intros k st e v [<-|[]] E He NF Ev. injection E as <-. cbn in He. assert (e = 0 \/ e = 1 \/ e = 2) as [-> |[-> | ->]] by lia.
  - exfalso. apply NF. apply plain_members. cbn. auto.
  - exfalso. apply NF. apply plain_members. cbn. auto.
  - injection Ev as <-. reflexivity.
Qed.
Definition bg3 (a b c : Z) : Z -> Z -> Qc := fun _ e => if e =? 0 then qz a else if e =? 1 then qz b else qz c.
Lemma plain_case save ext : ens_case plain (ens_opt 1 1 save ext) [[fz 0; fz 0]] (dims2 2 3 1) [st_at 0 (Fin 1%Qc)] (one_row [2; -2; -999; 3; -1; 5]) [(fz 1, 0)] 0 1 1 [0] lat_of two_points (fun _ => 1%Qc) (fun _ => 1%Qc) (fun _ => 1%Qc) (bg3 2 (-2) (-999)).
Proof. apply case3; try reflexivity; [discriminate|]. intros n Hn. cbn in Hn. lia. Qed.
Lemma c244_refuted : exists L EL radar o eo elevs d ss f sel gr sg dl U a b g ob ci bg y x q ms out z m, lib_ok L /\ elib_ok EL /\ ens_case o eo elevs d ss f sel gr sg dl U a b g ob ci bg /\
  0 <= y < d_y d /\ 0 <= x < d_x d /\ point_data d f y x q /\ en_savediff eo = false /\ en_extrapolate eo = true /\ full_members d f ms /\ 2 <= zlen ms /\
  oe_point (l_inv L) EL radar o eo 2 elevs d ss f sel y x = Ok out /\ written d ms z out /\ filter_mean dl U ms q bg ob (error_var sg g ci) m /\ ravg ms z <> qr m.
Proof.
  exists L0, EL0, Abort, plain, (ens_opt (Q2Qc (1 # 4)) 1 false true), [[fz 0; fz 0]], (dims2 2 3 1), [st_at 0 (Fin (Q2Qc (3 # 2)))], (one_row [3; 0; 0; 1; -1; -999]), [(fz 1, 0)], 0%Qc, (Q2Qc (1 # 4)), 1%Qc, [0], lat_of, two_points,
    (fun _ => 1%Qc), (fun _ => Q2Qc (3 # 2)), (fun _ => 1%Qc), (bg3 3 0 0), 0, 1, (q2 1 (-1)), [0; 1], [rq (31 # 135); rq (- 23 # 135); v2r CMV], (fun e => qr (f2 (Q2Qc (31 # 135)) (Q2Qc (- 23 # 135)) e)), 0%Qc.
  split; [apply lib_ok_L0|]. split; [apply elib_ok_EL0|]. split. { apply case3; try reflexivity; [discriminate|]. intros n Hn. cbn in Hn. lia. }
  split; [cbn; lia|]. split; [cbn; lia|]. split; [exact biased_data|]. split; [reflexivity|]. split; [reflexivity|]. split; [exact biased_members|]. split; [unfold zlen; cbn; lia|]. split; [exact (run_biased Abort)|].
  split.
  { split; [reflexivity|]. split. - intros e [<-|[<-|[]]]; reflexivity. - intros e He Ne. cbn in He. assert (e = 2) as -> by (cbn in Ne; lia). reflexivity. }
  split.
  - exists (fun _ => 0%Qc). split; [split|].
    + intros j [<- |[]]. vcalc.
    + intros v' Hv k [<- |[]]. pose proof (Hv 0 ltac:(cbn; auto)) as X. unfold tot at 1 in X. cbn [map fold_right] in X. rewrite Qcplus_0_r in X.
      match type of X with (_ * ?c)%Qc = ?d => assert (c = Q2Qc (73 # 16)) as Ec by vcalc; assert (d = 0%Qc) as Ed by vcalc; rewrite Ec, Ed in X end.
      destruct (Qcmult_integral _ _ X) as [H|H]; [exact H|]. vm_compute in H. discriminate.
    + vcalc.
  - rewrite ravg_qr. intros C. apply qr_inj in C. vm_compute in C. discriminate.
Qed.
Lemma c247_refuted : exists L EL radar o eo eo' elevs d ss f sel gr sg dl U a b g ob ci bg y x q ms out out' z z' e, lib_ok L /\ elib_ok EL /\ ens_case o eo elevs d ss f sel gr sg dl U a b g ob ci bg /\ ens_case o eo' elevs d ss f sel gr sg dl U a b g ob ci bg /\ all_or_nothing d ss f U /\
  0 <= y < d_y d /\ 0 <= x < d_x d /\ point_data d f y x q /\ en_savediff eo = false /\ en_savediff eo' = true /\ en_extrapolate eo = true /\ en_extrapolate eo' = true /\ full_members d f ms /\ 2 <= zlen ms /\
  oe_point (l_inv L) EL radar o eo 2 elevs d ss f sel y x = Ok out /\ written d ms z out /\ oe_point (l_inv L) EL radar o eo' 2 elevs d ss f sel y x = Ok out' /\ written d ms z' out' /\ In e ms /\ z' e <> (z e - qr (q e))%R.
Proof.
  exists L0, EL0, Abort, plain, (ens_opt 1 1 false true), (ens_opt 1 1 true true), [[fz 0; fz 0]], (dims2 2 3 1), [st_at 0 (Fin 1%Qc)], (one_row [2; -2; -999; 3; -1; 5]), [(fz 1, 0)], 0%Qc, 1%Qc, 1%Qc, [0], lat_of, two_points,
    (fun _ => 1%Qc), (fun _ => 1%Qc), (fun _ => 1%Qc), (bg3 2 (-2) (-999)), 0, 1, (q2 3 (-1)), [0; 1], [rq (23 # 9); rq (11 # 9); v2r CMV], [rq (14 # 9); rq (2 # 9); v2r CMV], (fun e => qr (f2 (Q2Qc (23 # 9)) (Q2Qc (11 # 9)) e)), (fun e => qr (f2 (Q2Qc (14 # 9)) (Q2Qc (2 # 9)) e)), 0.
  split; [apply lib_ok_L0|]. split; [apply elib_ok_EL0|]. split; [apply plain_case|]. split; [apply plain_case|]. split; [exact plain_nothing|].
  split; [cbn; lia|]. split; [cbn; lia|]. split; [exact plain_data|]. do 4 (split; [reflexivity|]). split; [exact plain_members|]. split; [unfold zlen; cbn; lia|]. split; [exact (run_plain Abort)|].
  split.
  { split; [reflexivity|]. split. - intros e [<-|[<-|[]]]; reflexivity. - intros e He Ne. cbn in He. assert (e = 2) as -> by (cbn in Ne; lia). reflexivity. }
  split; [exact (run_diff Abort)|]. split.
  { split; [reflexivity|]. split. - intros e [<-|[<-|[]]]; reflexivity. - intros e He Ne. cbn in He. assert (e = 2) as -> by (cbn in Ne; lia). reflexivity. }
  split; [cbn; auto|]. rewrite <- qr_sub. intros C. apply qr_inj in C. vm_compute in C. discriminate.
Qed.
Lemma two_members_full : full_members (dims2 2 2 1) (row 2 2 [fz 0; fz 0; fz 2; fz (-2)]) [0; 1].
Proof.
  split; [repeat constructor; cbn; intuition lia|]. intros e. split.
  - intros He. assert (R : e = 0 \/ e = 1) by (cbn in He; lia). split; [cbn; lia|]. intros y x Hy Hx. cbn in Hy, Hx. assert (y = 0) as -> by lia. assert (x = 0 \/ x = 1) as [-> | ->] by lia; destruct R as [-> | ->]; eexists; (split; [reflexivity|intros K; apply qz_inj in K; lia]).
  - intros [R _]. cbn in R. cbn. lia.
Qed.
Definition bg2 (k e : Z) : Qc := if k =? 0 then qz 0 else q2 2 (-2) e.
Lemma two_case : ens_case plain (ens_opt 1 1 false false) [[fz 0; fz 0]] (dims2 2 2 1) [st_at 0 (fz 1); st_at 1 (fz 3)] (row 2 2 [fz 0; fz 0; fz 2; fz (-2)]) [(fz 1, 0); (fz 1, 1)] 0 1 1 [0; 1] lat_of two_points (fun _ => 1%Qc) (q2 1 3) (fun _ => 1%Qc) bg2.
Proof.
  constructor.
  - split; [apply row_size; reflexivity||lia|cbn; lia].
  - split; [apply rect12|]. intros y x Hy Hx. cbn in Hy, Hx. assert (y = 0) as -> by lia. assert (x = 0 \/ x = 1) as [-> | ->] by lia; (split; [reflexivity|intros K; apply qz_inj in K; lia]).
  - right. split; reflexivity.
  - split; [reflexivity|discriminate].
  - split; reflexivity.
  - intros i st Hi. pose proof (znth_range _ _ _ Hi) as Ri. unfold zlen in Ri; cbn in Ri. assert (i = 0 \/ i = 1) as [-> | ->] by lia; injection Hi as <-; (split; [apply p_lat_placed; reflexivity|]); (split; [cbn; lia|]); (split; [cbn; lia|]); intros e q Hg Nq; cbn [st_at st_y st_x] in Hg;
      unfold lapse; (match goal with |- (_ < q + ?t)%Qc => replace (q + t)%Qc with q by ring end); numbers Hg; reflexivity.
  - split; [reflexivity|]. split; [discriminate|]. split; [repeat constructor; cbn; lia|]. intros k [<-|[<-|[]]]; (split; [unfold zlen; cbn; lia|reflexivity]).
  - intros k st [<-|[<-|[]]] E; injection E as <-; (split; [reflexivity|]); split; reflexivity.
  - intros k st e q [<-|[<-|[]]] E F Hg; injection E as <-; cbn [st_at st_y st_x] in Hg; unfold lapse; (match goal with |- _ = (q + ?t)%Qc => replace (q + t)%Qc with q by ring end); numbers Hg; reflexivity.
Qed.
Lemma two_nothing : all_or_nothing (dims2 2 2 1) [st_at 0 (fz 1); st_at 1 (fz 3)] (row 2 2 [fz 0; fz 0; fz 2; fz (-2)]) [0; 1].
Proof. intros k st e v _ _ He NF _. exfalso. apply NF. apply two_members_full. cbn in *. lia. Qed.
Lemma c248_refuted : exists L EL radar o eo elevs d ss f sel gr sg dl U a b g ob ci bg y x q ms out z e, lib_ok L /\ elib_ok EL /\ ens_case o eo elevs d ss f sel gr sg dl U a b g ob ci bg /\ all_or_nothing d ss f U /\
  0 <= y < d_y d /\ 0 <= x < d_x d /\ point_data d f y x q /\ en_savediff eo = false /\ en_extrapolate eo = false /\ full_members d f ms /\ 2 <= zlen ms /\
  oe_point (l_inv L) EL radar o eo 2 elevs d ss f sel y x = Ok out /\ written d ms z out /\ In e ms /\ (forall k, In k U -> (0 < ob k - bg k e <= 1)%Qc) /\ (z e - qr (q e) > 1)%R.
Proof.
  exists L0, EL0, Abort, plain, (ens_opt 1 1 false false), [[fz 0; fz 0]], (dims2 2 2 1), [st_at 0 (fz 1); st_at 1 (fz 3)], (row 2 2 [fz 0; fz 0; fz 2; fz (-2)]), [(fz 1, 0); (fz 1, 1)], 0%Qc, 1%Qc, 1%Qc, [0; 1], lat_of, two_points,
    (fun _ => 1%Qc), (q2 1 3), (fun _ => 1%Qc), bg2, 0, 1, (q2 2 (-2)), [0; 1], [rq (10 # 3); rq (-1)], (fun e => qr (f2 (Q2Qc (10 # 3)) (Q2Qc (-1)) e)), 0.
  split; [apply lib_ok_L0|]. split; [apply elib_ok_EL0|]. split; [exact two_case|]. split; [exact two_nothing|]. split; [cbn; lia|]. split; [cbn; lia|]. split.
  { intros e v F E. apply two_members_full in F. destruct F as [<-|[<-|[]]]; injection E as <-; reflexivity. }
  do 2 (split; [reflexivity|]). split; [exact two_members_full|]. split; [unfold zlen; cbn; lia|]. split; [exact (run_two Abort)|]. split.
  { split; [reflexivity|]. split. - intros e [<-|[<-|[]]]; reflexivity. - intros e He Ne. cbn in He. exfalso. apply Ne. cbn. lia. }
  split; [cbn; auto|]. split. { intros k [<-|[<-|[]]]; split; [reflexivity|discriminate|reflexivity|discriminate]. }
  change (f2 (Q2Qc (10 # 3)) (Q2Qc (-1)) 0) with (Q2Qc (10 # 3)). change (q2 2 (-2) 0) with (qz 2). rewrite <- qr_sub. replace (Q2Qc (10 # 3) - qz 2)%Qc with (Q2Qc (4 # 3)) by vcalc. rewrite qr_q. unfold Q2R. cbn. lra.
Qed.
