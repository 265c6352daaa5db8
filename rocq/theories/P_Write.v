(** C46, C47: fill and doping. *)
From Verif Require Import Base ListLib M_Stat M_Geo M_Near M_Grd S_Stat S_Neigh S_Geo S_Near P_Geo P_Neighbours P_Grid P_Points P_Near P_Grd.

(** writing a list of cells, some of them skipped *)
Lemma write_cells {A} Y X (skip : Z * Z -> res bool) (w : Z * Z -> res A) (S : Z -> Z -> Prop) (W : Z -> Z -> A)
  (step : list (list A) -> Z * Z -> res (list (list A))) (L : list (Z * Z)) :
  (forall y x, In (y, x) L -> 0 <= y < Y /\ 0 <= x < X) ->
  (forall y x, In (y, x) L -> exists b : bool, (forall o, step o (y, x) = if b then Ok o else set2 o y x (W y x)) /\ (b = true <-> S y x)) ->
  forall o, rect Y X o -> exists o', foldM step o L = Ok o' /\ rect Y X o' /\
  forall y x, 0 <= y < Y -> 0 <= x < X ->
    (In (y, x) L /\ ~ S y x -> get2 o' y x = Ok (W y x)) /\ (~ (In (y, x) L /\ ~ S y x) -> get2 o' y x = get2 o y x).
Proof.
  induction L as [|[y0 x0] L IH]; intros HR HS o HO.
  - exists o. split; [reflexivity|]. split; [exact HO|]. intros y x _ _. split; [intros [[] _]|reflexivity].
  - destruct (HS y0 x0 (or_introl eq_refl)) as (b & Hb & HbS). destruct (HR y0 x0 (or_introl eq_refl)) as [Ry Rx].
    assert (ST : exists o1, step o (y0, x0) = Ok o1 /\ rect Y X o1 /\ forall y x, 0 <= y < Y -> 0 <= x < X ->
       ((y, x) = (y0, x0) /\ ~ S y x -> get2 o1 y x = Ok (W y x)) /\ (~ ((y, x) = (y0, x0) /\ ~ S y x) -> get2 o1 y x = get2 o y x)).
    { rewrite Hb. destruct b.
      - exists o. split; [reflexivity|]. split; [exact HO|]. intros y x _ _. split; [|reflexivity].
        intros [E N]. injection E as -> ->. exfalso. apply N. apply HbS. reflexivity.
      - destruct (rect_set2 Y X o y0 x0 (W y0 x0) HO Ry Rx) as (o1 & H1 & R1 & K1). exists o1. split; [exact H1|]. split; [exact R1|].
        intros y x Hy Hx. rewrite K1 by assumption. destruct (Z.eqb_spec y y0) as [->|Ny]; destruct (Z.eqb_spec x x0) as [->|Nx]; cbn [andb].
        + split; [reflexivity|]. intros K. exfalso. apply K. split; [reflexivity|]. intros HSy. apply HbS in HSy. discriminate.
        + split; [intros [E _]; congruence|reflexivity].
        + split; [intros [E _]; congruence|reflexivity].
        + split; [intros [E _]; congruence|reflexivity]. }
    destruct ST as (o1 & H1 & R1 & K1). cbn [foldM]. rewrite H1. cbn [bind].
    destruct (IH (fun y x H => HR y x (or_intror H)) (fun y x H => HS y x (or_intror H)) o1 R1) as (o' & H2 & R2 & K2).
    exists o'. split; [exact H2|]. split; [exact R2|]. intros y x Hy Hx. destruct (K1 y x Hy Hx) as [A1 A2]. destruct (K2 y x Hy Hx) as [B1 B2].
    assert (D : In (y, x) L \/ ~ In (y, x) L).
    { destruct (in_dec (fun a b : Z * Z => ltac:(decide equality; apply Z.eq_dec)) (y, x) L); auto. }
    assert (DS : (y, x) = (y0, x0) \/ (y, x) <> (y0, x0)).
    { destruct (Z.eq_dec y y0); destruct (Z.eq_dec x x0); [left; congruence|right; congruence..]. }
    split.
    + intros [[E|Hin] N]; [|apply B1; auto]. destruct D as [Hin|Hn]; [apply B1; auto|].
      rewrite B2 by tauto. apply A1. split; [congruence|exact N].
    + intros K. rewrite B2; [apply A2|]; intros [K1' N]; apply K; (split; [|exact N]); [left; congruence|right; exact K1'].
Qed.

(** a sequence of writers *)
Lemma writers {A} Y X n (reach : Z -> Z -> Z -> Prop) (W : Z -> Z -> Z -> A) (step : list (list A) -> Z -> res (list (list A))) bg :
  0 <= n -> rect Y X bg ->
  (forall i o, 0 <= i < n -> rect Y X o -> exists o', step o i = Ok o' /\ rect Y X o' /\ forall y x, 0 <= y < Y -> 0 <= x < X ->
     (reach i y x -> get2 o' y x = Ok (W i y x)) /\ (~ reach i y x -> get2 o' y x = get2 o y x)) ->
  exists out, foldM step bg (zrange 0 n) = Ok out /\ rect Y X out /\ forall y x, 0 <= y < Y -> 0 <= x < X ->
    (untouched n reach y x -> get2 out y x = get2 bg y x) /\
    (forall i, last_writer n reach y x i -> get2 out y x = Ok (W i y x)).
Proof.
  intros Hn HB HS. unfold untouched, last_writer.
  destruct (foldM_range step (fun k o => rect Y X o /\ forall y x, 0 <= y < Y -> 0 <= x < X ->
    ((forall i, 0 <= i < k -> ~ reach i y x) -> get2 o y x = get2 bg y x) /\
    (forall i, 0 <= i < k /\ reach i y x /\ (forall j, i < j < k -> ~ reach j y x) -> get2 o y x = Ok (W i y x))) 0 n bg) as (out & Ho & HR & K).
  - exact Hn.
  - split; [exact HB|]. intros y x Hy Hx. split; [reflexivity|]. intros i (Hi & _). lia.
  - intros k o Hk [HR K]. destruct (HS k o Hk HR) as (o' & Ho' & HR' & K'). exists o'. split; [exact Ho'|]. split; [exact HR'|].
    intros y x Hy Hx. destruct (K y x Hy Hx) as [A1 A2]. destruct (K' y x Hy Hx) as [B1 B2]. split.
    + intros H. rewrite B2 by (apply H; lia). apply A1. intros i Hi. apply H. lia.
    + intros i (Hi & Hri & HL). destruct (Z.eq_dec i k) as [->|Hne]; [apply B1; exact Hri|].
      rewrite B2 by (apply HL; lia). apply A2. split; [lia|]. split; [exact Hri|]. intros j Hj. apply HL. lia.
  - exists out. auto.
Qed.
Lemma existsb_false {A} (f : A -> bool) l : (forall a, In a l -> f a = false) -> existsb f l = false.
Proof. induction l as [|a l IH]; intros H; [reflexivity|]. cbn. rewrite (H a) by (left; reflexivity). apply IH. intros; apply H; right; assumption. Qed.
Lemma loc_at G t las los P i la lo : is_points G t las los P -> znth las i = Ok la -> znth los i = Ok lo -> pt_loc P i = Ok (Fin la, Fin lo).
Proof. intros HP Hla Hlo. destruct (points_inv _ _ _ _ _ HP) as (_ & E1 & E2 & _). unfold pt_loc. rewrite E1, E2, !znth_map, Hla, Hlo. reflexivity. Qed.

(** ** C46 *)
Lemma vneg_ltb r : (forall q, r = Fin q -> (0 <= q)%Qc) -> r <> NInf -> vltb r (fz 0) = false.
Proof.
  destruct r as [| | |q]; intros H N; try reflexivity; [congruence|]. cbn. destruct (qltb_spec q (qz 0)) as [K|]; [|reflexivity].
  specialize (H q eq_refl). change (qz 0) with 0%Qc in K. exfalso. qlra.
Qed.
Section Fill.
Variables (G : geo) (t : ctype) (Y X : Z) (lats lons : list (list Qc)) (ig : grid) (tp : ctype) (las los : list Qc) (P : points).
Hypothesis HG : geo_ok G.
Hypothesis HI : is_grid G t Y X lats lons ig.
Hypothesis HP : is_points G tp las los P.
Hypothesis HV : valid_all t las.
Lemma circle_list radii i : zlen radii = zlen las -> 0 <= i < zlen las ->
  exists la lo r I, znth las i = Ok la /\ znth los i = Ok lo /\ znth radii i = Ok r /\ pt_loc P i = Ok (Fin la, Fin lo) /\
   grid_neighbours G ig (Fin la) (Fin lo) r true = Ok I /\
   (forall y x, In (y, x) I -> 0 <= y < Y /\ 0 <= x < X) /\
   (forall y x, In (y, x) I <-> circle_reach G t lats lons las los radii i y x).
Proof.
  intros HL Hi. destruct (points_inv _ _ _ _ _ HP) as (HLL & _).
  destruct (znth_some las i) as [la Hla]; [lia|]. destruct (znth_some los i) as [lo Hlo]; [lia|]. destruct (znth_some radii i) as [r Hr]; [lia|].
  destruct (grid_search G t Y X lats lons ig la lo r HG HI) as (I & HS & _ & HR & HIn); [eapply valid_znth; eauto|].
  exists la, lo, r, I. repeat (split; [first [assumption|eapply loc_at; eauto]|]). intros y x. rewrite HIn. split.
  - intros (q & Hq & HC). exists la, lo, r, q. auto.
  - intros (la' & lo' & r' & q & A1 & A2 & A3 & A4 & A5). exists q. split; [exact A4|]. congruence.
Qed.
Lemma fill_run input radii value outside : rect Y X input -> zlen radii = zlen las ->
  (forall r, In r radii -> vltb r (fz 0) = false) ->
  exists out, fill G ig input P radii value outside = Ok out /\ rect Y X out /\
  forall y x v0, get2 input y x = Ok v0 ->
    ((exists i, circle_reach G t lats lons las los radii i y x) -> get2 out y x = Ok (if outside then v0 else value)) /\
    ((forall i, ~ circle_reach G t lats lons las los radii i y x) -> get2 out y x = Ok (if outside then value else v0)).
Proof.
  intros HR HL HN. unfold fill. rewrite (compat_grid2_ok _ _ _ _ _ _ _ _ HI HR). cbn [bind negb].
  rewrite (ip_size _ _ _ _ _ HP), HL, Z.eqb_refl. cbn [negb]. rewrite existsb_false by exact HN.
  pose proof (zlen_nonneg las).
  set (bg := if outside then map (map (fun _ => value)) input else input).
  assert (HB : rect Y X bg) by (unfold bg; destruct outside; [apply rect_mapmap|]; exact HR).
  destruct (writers Y X (zlen las) (circle_reach G t lats lons las los radii)
     (fun _ y x => if outside then field_at input y x else value)
     (fun o i => '(lat, lon) <- pt_loc P i ;; r <- znth radii i ;; I <- grid_neighbours G ig lat lon r true ;;
       foldM (fun o (c : Z * Z) => if outside then v <- get2 input (fst c) (snd c) ;; set2 o (fst c) (snd c) v
        else set2 o (fst c) (snd c) value) o I) bg) as (out & Ho & HRo & K); [lia|exact HB| |].
  { intros i o Hi HRO. destruct (circle_list radii i HL Hi) as (la & lo & r & I & Hla & Hlo & Hr & Hp & HS & HRG & HIn).
    rewrite Hp. cbn [bind]. rewrite Hr. cbn [bind]. rewrite HS. cbn [bind].
    destruct (write_cells Y X (fun _ => Ok false) (fun _ => Ok value) (fun _ _ => False) (fun y x => if outside then field_at input y x else value)
      (fun o (c : Z * Z) => if outside then v <- get2 input (fst c) (snd c) ;; set2 o (fst c) (snd c) v else set2 o (fst c) (snd c) value) I HRG) with (o := o)
      as (o' & Ho' & HR' & K'); [|exact HRO|].
    { intros y x Hin. exists false. split; [|split; [discriminate|intros []]]. intros o0. cbn [fst snd]. destruct outside; [|reflexivity].
      destruct (HRG _ _ Hin) as [Ry Rx]. destruct (rect_get2 _ _ _ _ _ HR Ry Rx) as [v Hv]. unfold field_at. rewrite Hv. reflexivity. }
    exists o'. split; [exact Ho'|]. split; [exact HR'|]. intros y x Hy Hx. destruct (K' y x Hy Hx) as [K1 K2]. split.
    - intros Hc. apply K1. split; [apply HIn; exact Hc|tauto].
    - intros Hc. apply K2. intros [Hin _]. apply Hc. apply HIn. exact Hin. }
  exists out. split; [exact Ho|]. split; [exact HRo|]. intros y x v0 Hv0. destruct (get2_range _ _ _ _ _ _ HR Hv0) as [Ry Rx].
  destruct (K y x Ry Rx) as [K1 K2]. split.
  - intros [i Hi]. assert (Ri : 0 <= i < zlen las) by (destruct Hi as (la & ? & ? & ? & Hla & _); eapply znth_range; eauto).
    (* some writer is the last *)
    assert (LW : exists j, last_writer (zlen las) (circle_reach G t lats lons las los radii) y x j).
    { assert (DEC : forall j, 0 <= j < zlen las -> circle_reach G t lats lons las los radii j y x \/ ~ circle_reach G t lats lons las los radii j y x).
      { intros j Hj. destruct (circle_list radii j HL Hj) as (la & lo & r & I & _ & _ & _ & _ & _ & _ & HIn).
        destruct (in_dec (fun a b : Z * Z => ltac:(decide equality; apply Z.eq_dec)) (y, x) I) as [D|D]; [left|right; intros C; apply D]; apply HIn; assumption. }
      assert (LST : forall m : nat, forall n0, n0 = Z.of_nat m -> n0 <= zlen las -> (exists j, last_writer n0 (circle_reach G t lats lons las los radii) y x j) \/ untouched n0 (circle_reach G t lats lons las los radii) y x).
      { induction m as [|m IH]; intros n0 En Hn; [right; intros j Hj; lia|].
        destruct (DEC (Z.of_nat m)) as [D|D]; [lia| |].
        - left. exists (Z.of_nat m). split; [lia|]. split; [exact D|]. intros j Hj. lia.
        - destruct (IH (Z.of_nat m) eq_refl) as [(j & Hj & Hr & HLj)|HU]; [lia| |].
          + left. exists j. split; [lia|]. split; [exact Hr|]. intros k Hk. destruct (Z.eq_dec k (Z.of_nat m)) as [->|]; [exact D|]. apply HLj. lia.
          + right. intros j Hj. destruct (Z.eq_dec j (Z.of_nat m)) as [->|]; [exact D|]. apply HU. lia. }
      destruct (LST (Z.to_nat (zlen las)) (zlen las)) as [LW|U]; [lia|lia|exact LW|]. exfalso. apply (U i Ri Hi). }
    destruct LW as [j Hj]. rewrite (K2 j Hj). unfold field_at. rewrite Hv0. reflexivity.
  - intros HU. rewrite K1 by (intros i _; apply HU). unfold bg. destruct outside; [|exact Hv0].
    rewrite get2_mapmap, Hv0. reflexivity.
Qed.
End Fill.
Lemma c46_partial : forall G t Y X lats lons ig tp las los P input radii value, geo_ok G -> is_grid G t Y X lats lons ig ->
  is_points G tp las los P -> valid_all t las -> rect Y X input -> zlen radii = zlen las -> (forall r, In r radii -> vltb r (fz 0) = false) ->
  exists inside outside, fill G ig input P radii value false = Ok inside /\ fill G ig input P radii value true = Ok outside /\
  rect Y X inside /\ rect Y X outside /\
  forall y x v0, get2 input y x = Ok v0 ->
    ((exists i la lo r q, znth las i = Ok la /\ znth los i = Ok lo /\ znth radii i = Ok r /\ grid_at G t lats lons y x q /\ in_circle (position G t la lo) q r) ->
       get2 inside y x = Ok value /\ get2 outside y x = Ok v0) /\
    ((forall i la lo r q, znth las i = Ok la -> znth los i = Ok lo -> znth radii i = Ok r -> grid_at G t lats lons y x q -> ~ in_circle (position G t la lo) q r) ->
       get2 inside y x = Ok v0 /\ get2 outside y x = Ok value).
Proof.
  intros G t Y X lats lons ig tp las los P input radii value HG HI HP HV HR HL HN.
  destruct (fill_run G t Y X lats lons ig tp las los P HG HI HP HV input radii value false HR HL HN) as (o1 & H1 & R1 & K1).
  destruct (fill_run G t Y X lats lons ig tp las los P HG HI HP HV input radii value true HR HL HN) as (o2 & H2 & R2 & K2).
  exists o1, o2. repeat (split; [assumption|]). intros y x v0 Hv. destruct (K1 y x v0 Hv) as [A1 A2]. destruct (K2 y x v0 Hv) as [B1 B2]. split.
  - intros (i & C). split; [apply A1|apply B1]; exists i; exact C.
  - intros C. assert (N : forall i, ~ circle_reach G t lats lons las los radii i y x).
    { intros i (la & lo & r & q & C1 & C2 & C3 & C4 & C5). eapply C; eauto. }
    split; [apply A2|apply B2]; exact N.
Qed.
Lemma c46_throws : forall G t Y X lats lons ig tp las los P input radii value outside, is_grid G t Y X lats lons ig -> is_points G tp las los P ->
  rect Y X input ->
  zlen radii <> zlen las \/ (exists r, In r radii /\ vltb r (fz 0) = true) ->
  fill G ig input P radii value outside = Throw InvalidArgument.
Proof.
  intros G t Y X lats lons ig tp las los P input radii value outside HI HP HR H.
  unfold fill. rewrite (compat_grid2_ok _ _ _ _ _ _ _ _ HI HR). cbn [bind negb]. rewrite (ip_size _ _ _ _ _ HP).
  destruct (Z.eqb_spec (zlen las) (zlen radii)); [|reflexivity]. cbn [negb].
  destruct H as [H|(r & Hin & Hr)]; [congruence|]. rewrite (proj2 (existsb_exists _ _)); [reflexivity|]. exists r. auto.
Qed.

(** ** C47 *)
Lemma elev_skip_spec G t Y X lats lons ig pe m y x : is_grid G t Y X lats lons ig -> 0 <= y < Y -> 0 <= x < X ->
  exists ge b, get2 (g_elevs ig) y x = Ok ge /\ elev_skip ig pe m y x = Ok b /\ (b = true <-> elev_excluded m pe ge).
Proof.
  intros HI Hy Hx. pose proof (grid_inv _ _ _ _ _ _ _ HI) as (_ & _ & _ & _ & Re & _).
  destruct (rect_get2 _ _ _ _ _ Re Hy Hx) as [ge Hge]. exists ge. unfold elev_skip. rewrite Hge. cbn [bind].
  destruct (is_valid m) eqn:V.
  - eexists. split; [reflexivity|]. split; [reflexivity|]. destruct m as [| | |m]; try discriminate. split.
    + intros K. exists m. auto.
    + intros (m' & E & K). injection E as <-. exact K.
  - exists false. split; [reflexivity|]. split; [reflexivity|]. split; [discriminate|]. intros (m' & -> & _). discriminate.
Qed.
(** a double loop is a loop over pairs *)
Lemma foldM_nest {S} (f : S -> Z * Z -> res S) lx ly : forall s,
  foldM (fun s y => foldM (fun s x => f s (y, x)) s lx) s ly = foldM f s (list_prod ly lx).
Proof.
  induction ly as [|y ly IH]; intros s; [reflexivity|]. cbn [foldM list_prod]. rewrite foldM_app.
  assert (E : foldM (fun s x => f s (y, x)) s lx = foldM f s (map (fun x => (y, x)) lx)).
  { clear IH. revert s. induction lx as [|x lx IH]; intros s; [reflexivity|]. cbn. destruct (f s (y, x)); cbn; auto. }
  rewrite E. destruct (foldM f s _); cbn; auto.
Qed.
Section Doping.
Variables (G : geo) (t : ctype) (Y X : Z) (lats lons : list (list Qc)) (ig : grid) (tp : ctype) (las los : list Qc) (P : points).
Hypothesis HG : geo_ok G.
Hypothesis HI : is_grid G t Y X lats lons ig.
Hypothesis HP : is_points G tp las los P.
Hypothesis HV : valid_all t las.
Lemma excl_run m i pe (curr : val) (L : list (Z * Z)) o : znth (s_elevs P) i = Ok pe ->
  (forall y x, In (y, x) L -> 0 <= y < Y /\ 0 <= x < X) -> rect Y X o ->
  exists o', foldM (fun o (c : Z * Z) => skip <- elev_skip ig pe m (fst c) (snd c) ;; if (skip : bool) then Ok o else set2 o (fst c) (snd c) curr) o L = Ok o' /\
  rect Y X o' /\ forall y x, 0 <= y < Y -> 0 <= x < X ->
    (In (y, x) L /\ not_excluded ig P m i y x -> get2 o' y x = Ok curr) /\ (~ (In (y, x) L /\ not_excluded ig P m i y x) -> get2 o' y x = get2 o y x).
Proof.
  intros Hpe HL HR.
  destruct (write_cells Y X (fun _ => Ok false) (fun _ => Ok curr) (fun y x => ~ not_excluded ig P m i y x) (fun _ _ => curr)
    (fun o (c : Z * Z) => skip <- elev_skip ig pe m (fst c) (snd c) ;; if (skip : bool) then Ok o else set2 o (fst c) (snd c) curr) L HL) with (o := o)
    as (o' & Ho & HR' & K); [|exact HR|].
  - intros y x Hin. destruct (HL y x Hin) as [Ry Rx]. destruct (elev_skip_spec G t Y X lats lons ig pe m y x HI Ry Rx) as (ge & b & Hge & Hb & HbS).
    exists b. split; [intros o0; cbn [fst snd]; rewrite Hb; reflexivity|]. rewrite HbS. split.
    + intros He N. apply (N pe ge Hpe Hge He).
    + intros N. destruct b; [apply HbS; reflexivity|]. exfalso. apply N. intros pe' ge' A1 A2 He. replace pe' with pe in He by congruence. replace ge' with ge in He by congruence.
      apply HbS in He. discriminate.
  - exists o'. split; [exact Ho|]. split; [exact HR'|]. intros y x Hy Hx. destruct (K y x Hy Hx) as [K1 K2]. split.
    + intros [Hin N]. apply K1. split; [exact Hin|]. intros N'. apply N'. exact N.
    + intros N. apply K2. intros [Hin N']. apply N. split; [exact Hin|].
      destruct (elev_skip_spec G t Y X lats lons ig pe m y x HI Hy Hx) as (ge & b & Hge & Hb & HbS).
      intros pe' ge' A1 A2 He. apply N'. intros Q. apply (Q pe' ge' A1 A2 He).
Qed.
Definition circle_target radii m (i y x : Z) : Prop := circle_reach G t lats lons las los radii i y x /\ not_excluded ig P m i y x.
Lemma doping_circle_run background obs radii m : rect Y X background -> zlen obs = zlen las -> zlen radii = zlen las ->
  (forall r, In r radii -> vltb r (fz 0) = false) -> (is_valid m && vltb m (fz 0) = false) ->
  exists out, doping_circle G ig background P obs radii m = Ok out /\ rect Y X out /\ forall y x, 0 <= y < Y -> 0 <= x < X ->
    (untouched (zlen las) (circle_target radii m) y x -> get2 out y x = get2 background y x) /\
    (forall i, last_writer (zlen las) (circle_target radii m) y x i -> get2 out y x = znth obs i).
Proof.
  intros HR HO HL HN Hm. unfold doping_circle. rewrite (compat_grid2_ok _ _ _ _ _ _ _ _ HI HR). cbn [bind negb].
  rewrite (ip_size _ _ _ _ _ HP), HO, HL, Z.eqb_refl. cbn [negb]. rewrite Hm, existsb_false by exact HN.
  pose proof (zlen_nonneg las). destruct (points_inv _ _ _ _ _ HP) as (_ & _ & _ & _ & LE & _).
  match goal with |- context [foldM ?f _ _] =>
    destruct (writers Y X (zlen las) (circle_target radii m) (fun i _ _ => match znth obs i with Ok v => v | _ => MV end) f background)
      as (out & Ho & HRo & K) end; [lia|exact HR| |].
  { intros i o Hi HRO. destruct (circle_list G t Y X lats lons ig tp las los P HG HI HP HV radii i HL Hi) as (la & lo & r & I & Hla & Hlo & Hr & Hp & HS & HRG & HIn).
    rewrite Hp. cbn [bind]. rewrite Hr. cbn [bind]. rewrite HS. cbn [bind].
    destruct (znth_some obs i) as [curr Hc]; [lia|]. rewrite Hc. cbn [bind]. destruct (znth_some (s_elevs P) i) as [pe Hpe]; [lia|]. rewrite Hpe. cbn [bind].
    destruct (excl_run m i pe curr I o Hpe HRG HRO) as (o' & Ho' & HR' & K'). exists o'. split; [exact Ho'|]. split; [exact HR'|].
    intros y x Hy Hx. destruct (K' y x Hy Hx) as [K1 K2]. unfold circle_target. rewrite <- HIn. auto. }
  exists out. split; [exact Ho|]. split; [exact HRo|]. intros y x Hy Hx. destruct (K y x Hy Hx) as [K1 K2]. split; [exact K1|].
  intros i Hi. rewrite (K2 i Hi). destruct Hi as (Ri & _). destruct (znth_some obs i) as [curr Hc]; [lia|]. rewrite Hc. reflexivity.
Qed.
(** the cell nearest to point i *)
Definition square_target (cell : Z -> Z * Z) (hw : list Z) m (i y x : Z) : Prop := square_reach cell hw i y x /\ not_excluded ig P m i y x.
Definition pt_cell (i : Z) : Z * Z := match ('(lat, lon) <- pt_loc P i ;; lookup_grid G ig lat lon) with Ok c => c | _ => (-1, -1) end.
Lemma pt_cell_spec i : 0 <= i < zlen las -> exists la lo, znth las i = Ok la /\ znth los i = Ok lo /\ pt_loc P i = Ok (Fin la, Fin lo) /\
  lookup_grid G ig (Fin la) (Fin lo) = Ok (pt_cell i) /\ 0 <= fst (pt_cell i) < Y /\ 0 <= snd (pt_cell i) < X /\
  closest (grid_at' G t lats lons) (position G t la lo) true (pt_cell i).
Proof.
  intros Hi. destruct (points_inv _ _ _ _ _ HP) as (HLL & _).
  destruct (znth_some las i) as [la Hla]; [lia|]. destruct (znth_some los i) as [lo Hlo]; [lia|]. exists la, lo.
  pose proof (loc_at _ _ _ _ _ _ _ _ HP Hla Hlo) as Hp.
  destruct (cell_of_spec G t Y X lats lons ig HG HI la lo) as (K1 & K2 & K3 & K4); [eapply valid_znth; eauto|].
  assert (pt_cell i = cell_of G ig la lo) as -> by (unfold pt_cell; rewrite Hp; cbn [bind]; rewrite K1; reflexivity).
  repeat (split; [assumption|]). exact K4.
Qed.
Lemma doping_square_run background obs hw m : rect Y X background -> zlen obs = zlen las -> zlen hw = zlen las ->
  (forall h, In h hw -> 0 <= h) -> (is_valid m && vltb m (fz 0) = false) ->
  exists out, doping_square G ig background P obs hw m = Ok out /\ rect Y X out /\ forall y x, 0 <= y < Y -> 0 <= x < X ->
    (untouched (zlen las) (square_target pt_cell hw m) y x -> get2 out y x = get2 background y x) /\
    (forall i, last_writer (zlen las) (square_target pt_cell hw m) y x i -> get2 out y x = znth obs i).
Proof.
  intros HR HO HL HN Hm. unfold doping_square. rewrite (compat_grid2_ok _ _ _ _ _ _ _ _ HI HR). cbn [bind negb].
  rewrite (ip_size _ _ _ _ _ HP), HO, HL, Z.eqb_refl. cbn [negb]. rewrite Hm. rewrite (grid_size_ok _ _ _ _ _ _ _ HI). cbn [bind].
  rewrite existsb_false by (intros h Hh; apply Z.ltb_ge, HN, Hh).
  pose proof (zlen_nonneg las). destruct (points_inv _ _ _ _ _ HP) as (_ & _ & _ & _ & LE & _).
  match goal with |- context [foldM ?f background _] =>
    destruct (writers Y X (zlen las) (square_target pt_cell hw m) (fun i _ _ => match znth obs i with Ok v => v | _ => MV end) f background)
      as (out & Ho & HRo & K) end; [lia|exact HR| |].
  { intros i o Hi HRO. destruct (pt_cell_spec i Hi) as (la & lo & Hla & Hlo & Hp & Hc & R1 & R2 & _).
    rewrite Hp. cbn [bind]. rewrite Hc. cbn [bind]. destruct (pt_cell i) as [iy ix] eqn:EC. cbn [fst snd] in R1, R2.
    destruct (znth_some obs i) as [curr Hcu]; [lia|]. rewrite Hcu. cbn [bind].
    destruct (znth_some hw i) as [h Hh]; [lia|]. rewrite Hh. cbn [bind]. destruct (znth_some (s_elevs P) i) as [pe Hpe]; [lia|]. rewrite Hpe. cbn [bind].
    set (LX := zrange (Z.max 0 (ix - h)) (Z.min (X - 1) (ix + h) + 1)). set (LY := zrange (Z.max 0 (iy - h)) (Z.min (Y - 1) (iy + h) + 1)).
    rewrite (foldM_nest (fun o (c : Z * Z) => skip <- elev_skip ig pe m (fst c) (snd c) ;; if (skip : bool) then Ok o else set2 o (fst c) (snd c) curr) LX LY).
    assert (HLin : forall y x, In (y, x) (list_prod LY LX) <-> (0 <= y < Y /\ 0 <= x < X /\ Z.abs (y - iy) <= h /\ Z.abs (x - ix) <= h)).
    { intros y x. rewrite in_prod_iff. unfold LX, LY. rewrite !in_zrange. lia. }
    destruct (excl_run m i pe curr (list_prod LY LX) o Hpe) as (o' & Ho' & HR' & K'); [intros y x Hin; apply HLin in Hin; tauto|exact HRO|].
    exists o'. split; [exact Ho'|]. split; [exact HR'|].
    intros y x Hy Hx. destruct (K' y x Hy Hx) as [K1 K2]. unfold square_target, square_reach. rewrite EC. cbn [fst snd]. split.
    - intros [(h' & Hh' & A1 & A2) N]. replace h' with h in * by congruence. apply K1. split; [apply HLin; auto|exact N].
    - intros N. apply K2. intros [Hin N']. apply N. split; [|exact N']. exists h. apply HLin in Hin. tauto. }
  exists out. split; [exact Ho|]. split; [exact HRo|]. intros y x Hy Hx. destruct (K y x Hy Hx) as [K1 K2]. split; [exact K1|].
  intros i Hi. rewrite (K2 i Hi). destruct Hi as (Ri & _). destruct (znth_some obs i) as [curr Hc]; [lia|]. rewrite Hc. reflexivity.
Qed.
End Doping.

Lemma c47_square : forall G t Y X lats lons ig tp las los P, geo_ok G -> is_grid G t Y X lats lons ig ->
  is_points G tp las los P -> valid_all t las ->
  exists cell : Z -> Z * Z,
  (forall i la lo, znth las i = Ok la -> znth los i = Ok lo -> closest (grid_at' G t lats lons) (position G t la lo) true (cell i)) /\
  forall background obs hw m, rect Y X background -> zlen obs = zlen las -> zlen hw = zlen las ->
  (forall h, In h hw -> 0 <= h) -> is_valid m && vltb m (fz 0) = false ->
  let target i y x := square_reach cell hw i y x /\ not_excluded ig P m i y x in
  exists out, doping_square G ig background P obs hw m = Ok out /\ rect Y X out /\ forall y x, 0 <= y < Y -> 0 <= x < X ->
    (untouched (zlen las) target y x -> get2 out y x = get2 background y x) /\
    (forall i, last_writer (zlen las) target y x i -> get2 out y x = znth obs i).
Proof.
  intros G t Y X lats lons ig tp las los P HG HI HP HV. exists (pt_cell G ig P). split.
  - intros i la lo Hla Hlo. destruct (pt_cell_spec G t Y X lats lons ig tp las los P HG HI HP HV i) as (la' & lo' & A1 & A2 & _ & _ & _ & _ & C).
    { eapply znth_range; eauto. } replace la with la' by congruence. replace lo with lo' by congruence. exact C.
  - intros background obs hw m H1 H2 H3 H4 H5. exact (doping_square_run G t Y X lats lons ig tp las los P HG HI HP HV background obs hw m H1 H2 H3 H4 H5).
Qed.
Lemma c47_circle : forall G t Y X lats lons ig tp las los P background obs radii m, geo_ok G -> is_grid G t Y X lats lons ig ->
  is_points G tp las los P -> valid_all t las -> rect Y X background -> zlen obs = zlen las -> zlen radii = zlen las ->
  (forall r, In r radii -> vltb r (fz 0) = false) -> is_valid m && vltb m (fz 0) = false ->
  let target i y x := circle_reach G t lats lons las los radii i y x /\ not_excluded ig P m i y x in
  exists out, doping_circle G ig background P obs radii m = Ok out /\ rect Y X out /\ forall y x, 0 <= y < Y -> 0 <= x < X ->
    (untouched (zlen las) target y x -> get2 out y x = get2 background y x) /\
    (forall i, last_writer (zlen las) target y x i -> get2 out y x = znth obs i).
Proof.
  intros G t Y X lats lons ig tp las los P background obs radii m HG HI HP HV H1 H2 H3 H4 H5.
  exact (doping_circle_run G t Y X lats lons ig tp las los P HG HI HP HV background obs radii m H1 H2 H3 H4 H5).
Qed.
Lemma c47_throws : forall G t Y X lats lons ig tp las los P background obs hw radii m, is_grid G t Y X lats lons ig -> is_points G tp las los P ->
  rect Y X background -> zlen obs = zlen las -> zlen hw = zlen las -> zlen radii = zlen las ->
  ((exists h, In h hw /\ h < 0) \/ (exists q, m = Fin q /\ (q < 0)%Qc) -> doping_square G ig background P obs hw m = Throw InvalidArgument) /\
  ((exists r, In r radii /\ vltb r (fz 0) = true) \/ (exists q, m = Fin q /\ (q < 0)%Qc) -> doping_circle G ig background P obs radii m = Throw InvalidArgument).
Proof.
  intros G t Y X lats lons ig tp las los P background obs hw radii m HI HP HR HO HH HL.
  unfold doping_square, doping_circle. rewrite (compat_grid2_ok _ _ _ _ _ _ _ _ HI HR). cbn [bind negb].
  rewrite (ip_size _ _ _ _ _ HP), HO, HH, HL, Z.eqb_refl. cbn [negb]. rewrite (grid_size_ok _ _ _ _ _ _ _ HI). cbn [bind].
  assert (M : forall q, m = Fin q -> (q < 0)%Qc -> is_valid m && vltb m (fz 0) = true).
  { intros q -> Hq. cbn. destruct (qltb_spec q (qz 0)); [reflexivity|]. contradiction. }
  split; intros [(a & Hin & Ha)|(q & Eq & Hq)].
  - destruct (is_valid m && vltb m (fz 0)); [reflexivity|]. rewrite (proj2 (existsb_exists _ _)); [reflexivity|]. exists a. split; [exact Hin|apply Z.ltb_lt; exact Ha].
  - rewrite (M q Eq Hq). reflexivity.
  - destruct (is_valid m && vltb m (fz 0)); [reflexivity|]. rewrite (proj2 (existsb_exists _ _)); [reflexivity|]. exists a. auto.
  - rewrite (M q Eq Hq). reflexivity.
Qed.
