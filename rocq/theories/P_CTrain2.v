(** The training of the client's coastal calibrator. *)
From Coq Require Import Sorted.
From Verif Require Import Base QcTac ListLib M_Geo S_Geo M_Stat S_Stat P_Stat M_OI S_OI P_OISum M_Ensi M_COpt M_CUtil S_CUtil P_CUtil M_CCal S_CCal P_CCal M_CCal2 S_CCal2 P_CCal2 S_CDown M_CGradient S_CGradient P_CGradient P_CBct M_CCoast S_CCoast P_CCoast M_CTrain S_CTrain P_CTrain.
Local Open Scope Z_scope.

Section Search.
Variable d : dims.
Variable laf : list vec.
Variables radius y x : Z.
Hypothesis HL : fractions d laf.
Let sq := square (d_y d) (d_x d) radius y x.
Lemma laf_sq p : In p sq -> get2 laf (fst p) (snd p) = Ok (Fin (lafq laf p)) /\ (0 <= lafq laf p <= 1)%Qc.
Proof. apply laf_at. exact HL. Qed.
Lemma tsearch_ok l : l <> [] -> incl l sq -> StronglySorted before l -> exists pl pu, lowest_in laf l pl /\ highest_in laf l pu /\
  foldM (coast_search laf) ((-999, -999), fz 2, (-999, -999), fz (-1)) l = Ok (pl, Fin (lafq laf pl), pu, Fin (lafq laf pu)).
Proof.
  assert (IRR : forall p p', before p p' -> before p' p -> False) by (unfold before; lia). assert (IR : forall p, before p p -> False) by (unfold before; lia).
  induction l as [|p l IH] using rev_ind; [congruence|]. intros _ HI HS. assert (Hp : In p sq) by (apply HI; apply in_or_app; right; left; auto). destruct (laf_sq p Hp) as [Ep Rp]. destruct (sorted_split _ _ _ _ HS) as [B _].
  rewrite foldM_app. destruct l as [|z l'].
  - exists p, p. split; [split; [left; auto|]; intros p' [<-|[]]; split; [apply Qcle_refl|intros K; destruct (IR _ K)]|]. split; [split; [left; auto|]; intros p' [<-|[]]; split; [apply Qcle_refl|intros K; destruct (IR _ K)]|].
    cbn [foldM app bind]. unfold coast_search. rewrite Ep. cbn [bind]. unfold fz. cbn [vltb].
    assert (Q2 : (lafq laf p < qz 2)%Qc). { assert (1 < qz 2)%Qc by (rewrite <- qz_1; apply qz_lt; lia). destruct Rp. qlra. } assert (Q1 : (qz (-1) < lafq laf p)%Qc). { assert (qz (-1) < 0)%Qc by (rewrite <- qz_0; apply qz_lt; lia). destruct Rp. qlra. }
    destruct (qltb_spec (lafq laf p) (qz 2)); [|contradiction]. destruct (qltb_spec (qz (-1)) (lafq laf p)); [|contradiction]. cbn [bind]. reflexivity.
  - set (l := z :: l') in *. assert (HS' : StronglySorted before l). { clear - HS. induction l as [|a l IH]; [constructor|]. cbn [app] in HS. inversion HS as [|? ? H1 H2]; subst. constructor; [auto|]. apply Forall_app in H2. tauto. }
    destruct IH as (pl & pu & (L1 & L2) & (U1 & U2) & E); [unfold l; discriminate|intros c Hc; apply HI; apply in_or_app; auto|exact HS'|]. rewrite E. cbn [bind foldM]. unfold coast_search. rewrite Ep. cbn [bind vltb].
    set (r := lafq laf p) in *.
    destruct (qltb_spec r (lafq laf pl)) as [A|A]; destruct (qltb_spec (lafq laf pu) r) as [C|C]; cbn [bind].
    + exfalso. destruct (L2 pu U1) as [K _]. clear - A C K. qlra.
    + exists p, pu. split; [|split; [|reflexivity]].
      * split; [apply in_or_app; right; left; auto|]. intros p' Hp'. apply in_app_or in Hp' as [Hp'|[<-|[]]]; [|split; [apply Qcle_refl|intros K; destruct (IR _ K)]]. destruct (L2 p' Hp') as [K _]. fold r. split; [clear - A K; qlra|]. intros _ Q. rewrite Q in K. clear - A K. qlra.
      * split; [apply in_or_app; auto|]. intros p' Hp'. apply in_app_or in Hp' as [Hp'|[<-|[]]]; [auto|]. fold r. split; [apply Qcnot_lt_le; auto|]. intros K. destruct (IRR _ _ K (B _ U1)).
    + exists pl, p. split; [|split; [|reflexivity]].
      * split; [apply in_or_app; auto|]. intros p' Hp'. apply in_app_or in Hp' as [Hp'|[<-|[]]]; [auto|]. fold r. split; [apply Qcnot_lt_le; auto|]. intros K. destruct (IRR _ _ K (B _ L1)).
      * split; [apply in_or_app; right; left; auto|]. intros p' Hp'. apply in_app_or in Hp' as [Hp'|[<-|[]]]; [|split; [apply Qcle_refl|intros K; destruct (IR _ K)]]. destruct (U2 p' Hp') as [K _]. fold r. split; [clear - C K; qlra|]. intros _ Q. rewrite Q in K. clear - C K. qlra.
    + exists pl, pu. split; [|split; [|reflexivity]].
      * split; [apply in_or_app; auto|]. intros p' Hp'. apply in_app_or in Hp' as [Hp'|[<-|[]]]; [auto|]. fold r. split; [apply Qcnot_lt_le; auto|]. intros K. destruct (IRR _ _ K (B _ L1)).
      * split; [apply in_or_app; auto|]. intros p' Hp'. apply in_app_or in Hp' as [Hp'|[<-|[]]]; [auto|]. fold r. split; [apply Qcnot_lt_le; auto|]. intros K. destruct (IRR _ _ K (B _ U1)).
Qed.
Lemma tsearch_found pl ql pu qu : 0 <= radius -> 0 <= y < d_y d -> 0 <= x < d_x d -> least_land d radius laf y x pl ql -> most_land d radius laf y x pu qu ->
  foldM (coast_search laf) ((-999, -999), fz 2, (-999, -999), fz (-1)) sq = Ok (pl, Fin ql, pu, Fin qu).
Proof.
  intros Hr Hy Hx (L1 & L2 & L3) (U1 & U2 & U3). assert (SELF : In (y, x) sq) by (apply square_close; unfold close; cbn [fst snd]; lia).
  destruct (tsearch_ok sq) as (pl' & pu' & (A1 & A2) & (B1 & B2) & E); [intros K; rewrite K in SELF; contradiction|apply incl_refl|apply sorted_square|]. rewrite E.
  assert (TRI : forall p p' : Z * Z, p = p' \/ before p p' \/ before p' p). { intros [a b] [a' b']. unfold before. cbn [fst snd]. destruct (Z.lt_trichotomy a a') as [|[->|]]; [auto| |auto]. destruct (Z.lt_trichotomy b b') as [|[->|]]; auto. }
  assert (FE : forall p q, In p sq -> fraction_at laf p q -> q = lafq laf p). { intros p q Hp Hq. destruct (laf_sq p Hp) as [K _]. unfold fraction_at in Hq. congruence. }
  apply square_close in L1, U1. fold sq in L1, U1. pose proof (FE _ _ L1 L2) as ->. pose proof (FE _ _ U1 U2) as ->.
  destruct (L3 pl' (lafq laf pl')) as [C1 C2]; [apply square_close; exact A1|apply laf_sq; exact A1|]. destruct (A2 pl L1) as [C3 C4]. pose proof (Qcle_antisym _ _ C1 C3) as QL.
  destruct (U3 pu' (lafq laf pu')) as [D1 D2]; [apply square_close; exact B1|apply laf_sq; exact B1|]. destruct (B2 pu U1) as [D3 D4]. pose proof (Qcle_antisym _ _ D1 D3) as QU.
  assert (pl' = pl) as -> by (destruct (TRI pl' pl) as [K|[K|K]]; [exact K|destruct (C2 K); auto|destruct (C4 K); auto]).
  assert (pu' = pu) as -> by (destruct (TRI pu' pu) as [K|[K|K]]; [exact K|destruct (D2 K); auto|destruct (D4 K); auto]).
  reflexivity.
Qed.
End Search.
Lemma ens_mean d f p m E : of_size d f -> 0 < d_e d -> 0 <= fst p < d_y d -> 0 <= snd p < d_x d -> mean_at d f p m ->
  exists vs, f_ens f (fst p) (snd p) = Ok vs /\ calculate_stat E vs CMean (fz 0) = Ok (match m with Some q => Fin q | None => CMV end) /\ (forall q, m = Some q -> q <> missing_number).
Proof.
  intros HF He H1 H2 (vs & LV & GV & ->). destruct (ens_ok d f (fst p) (snd p) HF H1 H2 He) as (vs' & EV & LV' & GV').
  assert (vs' = vs) as ->. { apply znth_ext; [lia|]. intros i Hi. rewrite GV', <- GV by lia. reflexivity. }
  exists vs. split; [exact EV|]. destruct (stat_spec E vs CMean (qz 0)) as (w & Ew & S1 & S2); [discriminate|]. change (fz 0) with (Fin (qz 0)). rewrite Ew. unfold mean_of.
  destruct (list_eq_dec Qc_eq_dec (present vs) []) as [N|N]. { rewrite (S1 N). split; [reflexivity|discriminate]. }
  destruct (S2 N) as (r & -> & ->). destruct (Qc_eq_dec (qmean (present vs)) missing_number) as [M|M]. { rewrite M. split; [reflexivity|discriminate]. }
  split; [reflexivity|]. intros q [= <-]. exact M.
Qed.
Lemma cvalid_known v : cvalid v = match known v with Some _ => true | None => false end.
Proof. destruct v as [| | |q]; try reflexivity. cbn [known]. destruct (Qc_eq_dec q missing_number) as [->|N]; [reflexivity|]. apply cvalid_Fin. exact N. Qed.
Lemma known_Fin v q : known v = Some q -> v = Fin q.
Proof. destruct v as [| | |r]; cbn [known]; try discriminate. destruct (Qc_eq_dec r missing_number); [discriminate|]. intros [= ->]. reflexivity. Qed.

Section Train.
Variable E : ext.
Variables (d : dims) (radius : Z) (md : Qc) (nn : bool) (laf : list vec) (Io Jo Ie Je : Z) (pl pu : Z * Z) (ql qu : Qc).
Hypothesis Hr : 0 <= radius.
Hypothesis HF : fractions d laf.
Hypothesis He : 0 < d_e d.
Hypothesis HI : 0 <= Ie < d_y d.
Hypothesis HJ : 0 <= Je < d_x d.
Hypothesis HL : least_land d radius laf Ie Je pl ql.
Hypothesis HU : most_land d radius laf Ie Je pu qu.
Let land := (qu - ql)%Qc.
Let step := coast_sample E nn pl pu (Fin ql) (Fin qu) Io Jo Ie Je.
Lemma sample_step ys x0 x1 x c : case_at d Io Jo (Ie, Je) pl pu x c -> bases_known nn [c] ->
  exists g, step (map Fin ys, x0, x1) x = Ok (map Fin (ys ++ map fst (sample nn land c)), x0 ++ map (fun _ => fz 1) (sample nn land c), x1 ++ g) /\ zlen g = zlen (sample nn land c) /\ (land <> 0%Qc -> g = map Fin (map snd (sample nn land c))).
Proof.
  intros (S & (v & Ev & Eo) & M1 & M2 & M3) HB. destruct HL as ((L1 & L2 & _) & _), HU as ((U1 & U2 & _) & _).
  destruct (ens_mean d (snd x) (Ie, Je) _ E S He HI HJ M1) as (vs1 & F1 & C1 & K1). cbn [fst snd] in F1. destruct (ens_mean d (snd x) pl _ E S He L1 L2 M2) as (vs2 & F2 & C2 & K2). destruct (ens_mean d (snd x) pu _ E S He U1 U2 M3) as (vs3 & F3 & C3 & K3).
  unfold step, coast_sample. rewrite Ev. cbn [bind]. rewrite F2. cbn [bind]. rewrite C2. cbn [bind]. rewrite F3. cbn [bind]. rewrite C3. cbn [bind]. rewrite F1. cbn [bind]. rewrite C1. cbn [bind].
  rewrite cvalid_known, <- Eo. assert (B : c_obs c <> None -> c_own c <> None -> base nn c <> None) by (apply HB; left; reflexivity).
  assert (V : forall m : option Qc, (forall q, m = Some q -> q <> missing_number) -> cvalid (match m with Some q => Fin q | None => CMV end) = match m with Some _ => true | None => false end).
  { intros [q|] Hm; [apply cvalid_Fin; apply Hm; reflexivity|reflexivity]. }
  rewrite !V by assumption. unfold sample. symmetry in Eo.
  destruct (c_obs c) as [o|]; cbn [andb]. 2:{ exists []. cbn [map]. rewrite !app_nil_r. auto. }
  apply known_Fin in Eo. subst v. destruct (c_own c) as [own|] eqn:Ow. 2:{ exists []. cbn [map]. rewrite !app_nil_r. auto. }
  destruct (base nn c) as [b|] eqn:Eb. 2:{ exfalso. apply B; [discriminate|discriminate|reflexivity]. }
  assert (BV : (if nn then Fin own else match c_low c with Some q => Fin q | None => CMV end) = Fin b). { unfold base in Eb. destruct nn; [congruence|]. rewrite Eb. reflexivity. }
  rewrite BV. eexists. split; [cbn [map fst]; rewrite map_app; reflexivity|]. split; [reflexivity|]. intros NZ. cbn [map snd]. f_equal.
  destruct (c_low c) as [lo|]; [|reflexivity]. destruct (c_high c) as [up|]; [|reflexivity]. cbn [andb vsub vneg vadd]. change (ql) with ql. unfold vsub. cbn [vneg vadd]. unfold vdiv.
  destruct (qeqb_spec (qu + - ql) 0) as [K|K]; [exfalso; apply NZ; exact K|]. reflexivity.
Qed.
Lemma sample_fold : forall data cs, Forall2 (case_at d Io Jo (Ie, Je) pl pu) data cs -> bases_known nn cs -> forall ys x0 x1,
  exists g, foldM step (map Fin ys, x0, x1) data = Ok (map Fin (ys ++ map fst (samples nn land cs)), x0 ++ map (fun _ => fz 1) (samples nn land cs), x1 ++ g) /\ zlen g = zlen (samples nn land cs) /\
    (land <> 0%Qc -> g = map Fin (map snd (samples nn land cs))).
Proof.
  induction 1 as [|x c data cs Hc HD IH]; intros HB ys x0 x1; cbn [foldM samples flat_map].
  - exists []. cbn [map]. rewrite !app_nil_r. auto.
  - destruct (sample_step ys x0 x1 x c Hc) as (g1 & E1 & L1 & G1). { intros c' [<-|[]]. apply HB. left. reflexivity. }
    rewrite E1. cbn [bind]. destruct (IH (fun c' Hc' => HB c' (or_intror Hc')) (ys ++ map fst (sample nn land c)) (x0 ++ map (fun _ => fz 1) (sample nn land c)) (x1 ++ g1)) as (g2 & E2 & L2 & G2). rewrite E2.
    exists (g1 ++ g2). fold (samples nn land cs). rewrite !map_app, <- !app_assoc. split; [reflexivity|]. rewrite !zlen_app. split; [lia|]. intros NZ. rewrite (G1 NZ), (G2 NZ). reflexivity.
Qed.
Lemma train_run lu data cs : data <> [] -> Forall2 (case_at d Io Jo (Ie, Je) pl pu) data cs -> bases_known nn cs -> let l := samples nn land cs in
  exists g, zlen g = zlen l /\ (land <> 0%Qc -> g = map Fin (map snd l)) /\
  coastal_train E lu radius (Fin md) nn laf data Io Jo Ie Je =
    if zlen l <=? 0 then Abort else
    if qltb md land then values2 <- regression lu (map Fin (map fst l)) [map (fun _ => fz 1) l; g] false ;; a <- znth values2 0 ;; c <- znth values2 1 ;; Ok [a; fz 1; c]
    else let '(total, counter) := fold_left csum_step (map Fin (map fst l)) (fz 0, 0) in
      let a := if 0 <? counter then vdiv total (fz counter) else fz 0 in _ <- assert_ (cvalid a) ;; Ok [a; fz 1; fz 0].
Proof.
  intros ND HD HB l. destruct (sample_fold data cs HD HB [] [] []) as (g & EF & LG & GG). fold l in EF, LG, GG. exists g. split; [exact LG|]. split; [exact GG|].
  unfold coastal_train. destruct data as [|x data']; [congruence|]. assert (S : of_size d (snd x)) by (inversion HD; subst; match goal with H : case_at _ _ _ _ _ _ x _ |- _ => apply H end). destruct S as (S0 & S1 & S2 & S3). rewrite S1, S2.
  rewrite (tsearch_found d laf radius Ie Je HF pl ql pu qu Hr HI HJ HL HU). cbn [bind]. destruct HU as ((U1 & U2 & _) & _). destruct (Z.eqb_spec (fst pu) (-999)); [lia|]. destruct (Z.eqb_spec (snd pu) (-999)); [lia|]. cbn [negb assert_ bind].
  fold step. change (@nil val) with (map Fin []) at 1. rewrite EF. cbn [bind app]. rewrite !zlen_map. reflexivity.
Qed.
End Train.
