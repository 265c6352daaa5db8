From Coq Require Import Ascii String Lia.
From Verif Require Import Base ListLib QcTac M_COpt P_COpt M_CUtil S_CUtil P_CUtil M_CCal S_CCal P_CCal M_CDown M_CFile P_CFile M_CNc S_CNc P_CNc P_CNc2 P_CNc3 P_CNc4 P_CNc5 P_CNc6 P_CNc7.
Local Open Scope Z_scope.

(** concrete files: dimensions time, member, y, x and level *)
Definition exR : roles := {| r_t := 0; r_e := 1; r_y := 2; r_x := 3 |}.
Definition plain (ds : list Z) (data : list Z -> val) : nc_var := {| n_dims := ds; n_data := data; n_fill := None; n_scale := None; n_offset := None; n_store := Some |}.
Definition exX (v : nc_var) : netcdf := {| x_dims := [(1, true); (2, false); (1, false); (2, false); (2, false)]; x_vars := [(txt "v", v)] |}.
Definition exd : dims := {| d_t := 1; d_y := 1; d_x := 2; d_e := 2 |}.
Definition fld (ny nx ne : Z) (l : vec) : field := {| f_values := l; f_ny := ny; f_nx := nx; f_ne := ne |}.
Lemma ex_proper : proper exR.
Proof. apply proper_of; intros; discriminate. Qed.
Lemma ex_fits v : fits (exX v) exR exd.
Proof. repeat split; cbn; auto; lia. Qed.
Lemma ex_sound ds data : NoDup ds -> (forall k, In k ds -> 0 <= k < 5) -> sound (exX (plain ds data)) (plain ds data).
Proof. intros N H. split; auto. Qed.
Ltac nodup := cbn; repeat (apply NoDup_cons; [cbn; lia|]); apply NoDup_nil.
Ltac okv := split; [nodup|intros k Hk; cbn in Hk; match goal with |- _ <= _ < zlen ?l => let n := eval vm_compute in (zlen l) in change (zlen l) with n end; lia].
Ltac cmp := vm_compute; repeat split; first [discriminate|reflexivity].
Definition ex_v0 : nc_var := plain [0; 2; 3] (fun _ => fz 5).
Lemma ensemble_missing : exists X R d v f, proper R /\ fits X R d /\ sound X v /\ available X R (n_dims v) (-999) 0 /\ find_name (x_vars X) (txt "v") = Some v /\ nc_read X R d (txt "v") (-999) 0 = Ok f /\
  within d 0 0 1 /\ n_data v (at_dims R (fun _ => 0) 0 1 0 0 (n_dims v)) = fz 5 /\ f_get f 0 0 0 = Ok (fz 5) /\ f_get f 0 0 1 = Ok CMV.
Proof.
  exists (exX ex_v0), exR, exd, ex_v0, (fld 1 2 2 [fz 5; CMV; fz 5; CMV]). split; [apply ex_proper|]. split; [apply ex_fits|]. split; [okv|]. split; [split; [intros _; cmp|]; intros k (H & N1 & N2 & N3 & N4); cbn in *; lia|]. split; [reflexivity|]. split; [vm_compute; reflexivity|]. split; [repeat split; cbn; lia|]. split; [reflexivity|]. split; vm_compute; reflexivity.
Qed.
Definition ex_v1 : nc_var := plain [0; 4; 2; 3] (fun _ => fz 5).
Lemma level_negative : exists X R d v, proper R /\ fits X R d /\ sound X v /\ find_name (x_vars X) (txt "v") = Some v /\ nc_read X R d (txt "v") (-1) 0 = UB.
Proof. exists (exX ex_v1), exR, exd, ex_v1. split; [apply ex_proper|]. split; [apply ex_fits|]. split; [okv|]. split; [reflexivity|]. vm_compute. reflexivity. Qed.
Definition exP : nc_var := {| n_dims := [0; 1; 2; 3]; n_data := fun i => match i with [_; 0; _; 0] => fz (-999) | _ => fz 5 end; n_fill := Some (fz (-999)); n_scale := Some (fz 2); n_offset := None; n_store := Some |}.
Lemma fill_scaled : exists X R d v f s, proper R /\ fits X R d /\ sound X v /\ available X R (n_dims v) (-999) 0 /\ find_name (x_vars X) (txt "v") = Some v /\ packed v s 0 (qz (-999)) /\ nc_read X R d (txt "v") (-999) 0 = Ok f /\
  within d 0 0 0 /\ n_fill v = Some (n_data v (at_dims R (fun _ => 0) 0 0 0 0 (n_dims v))) /\ f_get f 0 0 0 = Ok (fz (-1998)).
Proof.
  exists (exX exP), exR, exd, exP, (fld 1 2 2 [fz (-1998); fz 10; fz 10; fz 10]), (qz 2). split; [apply ex_proper|]. split; [apply ex_fits|]. split; [okv|]. split; [split; [intros _; cmp|]; intros k (H & N1 & N2 & N3 & N4); cbn in *; lia|]. split; [reflexivity|]. split; [split; [left; reflexivity|split; [right; auto|left; reflexivity]]|]. split; [vm_compute; reflexivity|]. split; [repeat split; cbn; lia|]. split; [reflexivity|]. vm_compute. reflexivity.
Qed.
Definition written_file (X : netcdf) (R : roles) (d : dims) (vars : list (str * list field)) : netcdf * roles := match nc_write X R d vars with Ok p => p | _ => (X, R) end.
Definition exF : field := fld 1 2 2 [fz 1; fz 2; CMV; fz 4].
Lemma ex_field : of_size exd exF.
Proof. repeat split; cbn; lia. Qed.
Lemma ex_fields : fields_for exd [exF].
Proof. intros t Ht. cbn in Ht. assert (t = 0) as -> by lia. exists exF. split; [reflexivity|apply ex_field]. Qed.
Lemma ex_can_write v ds : n_dims v = ds -> NoDup ds -> (forall k, In k ds -> 0 <= k < 5) -> (forall k, In k [0; 1; 2; 3] -> In k ds) -> can_write (exX v) exR exd [(txt "v", [exF]); (txt "w", [exF])].
Proof.
  intros E N B C. split; [apply ex_proper|]. split; [intros r H; right; change (zlen (x_dims (exX v))) with 5; cbn in H; lia|]. split; [apply ex_fits|]. split; [cbn; lia|]. split; [right; split; [discriminate|left; cmp]|]. split; [cbn; repeat constructor; cbn; intuition discriminate|].
  intros n fs Hn. split; [destruct Hn as [Q|[Q|[]]]; inversion Q; apply ex_fields|]. intros w Hw. assert (w = v) as ->. { cbn [exX x_vars find_name] in Hw. destruct (str_eqb (txt "v") n); [congruence|discriminate]. }
  split; [split; [rewrite E; auto|]; rewrite E; intros k Hk; exact (B k Hk)|]. split; [intros k Hk _; rewrite E; apply C; exact Hk|]. split; [cbn; lia|]. split; [left; cbn; lia|]. intros k (H & N1 & N2 & N3 & N4). rewrite E in H. apply B in H. cbn in N1, N2, N3, N4. assert (k = 4) as -> by lia. cmp.
Qed.
Definition ex_v2 : nc_var := plain [0; 4; 1; 2; 3] (fun _ => fz 7).
Lemma level_written : exists X R d f X' R' g, can_write X R d [(txt "v", [f]); (txt "w", [f])] /\ nc_read X R d (txt "v") 1 0 = Ok g /\ nc_write X R d [(txt "v", [f]); (txt "w", [f])] = Ok (X', R') /\ nc_read X' R' d (txt "v") 1 0 = Ok g /\
  f_get f 0 0 0 = Ok (fz 1) /\ f_get g 0 0 0 = Ok (fz 7).
Proof.
  set (p := written_file (exX ex_v2) exR exd [(txt "v", [exF]); (txt "w", [exF])]). exists (exX ex_v2), exR, exd, exF, (fst p), (snd p), (fld 1 2 2 [fz 7; fz 7; fz 7; fz 7]).
  split; [apply (ex_can_write ex_v2 _ eq_refl); [nodup|cbn; intros; lia|cbn; intros; lia]|]. split; [vm_compute; reflexivity|]. split; [vm_compute; reflexivity|]. split; [vm_compute; reflexivity|]. split; vm_compute; reflexivity.
Qed.
Definition two : dims := {| d_t := 2; d_y := 1; d_x := 2; d_e := 2 |}.
Definition exG : field := fld 1 2 2 [fz 5; fz 6; fz 7; fz 8].
Definition ex_v3 : nc_var := plain [1; 2; 3] (fun _ => fz 7).
Lemma time_lost : exists X R d v f g X' R', proper R /\ fits X R d /\ sound X v /\ find_name (x_vars X) (txt "v") = Some v /\ nc_write X R d [(txt "v", [f; g])] = Ok (X', R') /\ nc_read X' R' d (txt "v") (-999) 0 = Ok g /\ f_get f 0 0 0 = Ok (fz 1) /\ f_get g 0 0 0 = Ok (fz 5).
Proof.
  set (p := written_file (exX ex_v3) exR two [(txt "v", [exF; exG])]). exists (exX ex_v3), exR, two, ex_v3, exF, exG, (fst p), (snd p).
  split; [apply ex_proper|]. split; [repeat split; cbn; auto; lia|]. split; [okv|]. split; [reflexivity|]. split; [vm_compute; reflexivity|]. split; [vm_compute; reflexivity|]. split; vm_compute; reflexivity.
Qed.
(** members *)
Lemma members_lost : exists X R d f X' R' g, nc_write X R d [(txt "v", [f])] = Ok (X', R') /\ dim_size X (r_e R) = 1 /\ of_size d f /\ within d 0 0 1 /\ f_get f 0 0 1 = Ok (fz 2) /\ nc_read X' R' d (txt "v") (-999) 0 = Ok g /\ f_get g 0 0 1 = Ok CMV.
Proof.
  set (X := {| x_dims := [(1, true); (1, false); (1, false); (2, false)]; x_vars := [(txt "v", plain [0; 1; 2; 3] (fun _ => fz 7))] |}). set (p := written_file X exR exd [(txt "v", [exF])]). exists X, exR, exd, exF, (fst p), (snd p), (fld 1 2 2 [fz 1; CMV; CMV; CMV]).
  split; [vm_compute; reflexivity|]. split; [reflexivity|]. split; [apply ex_field|]. split; [repeat split; cbn; lia|]. split; [reflexivity|]. split; vm_compute; reflexivity.
Qed.
Lemma members_not_defined : exists X R d f X' R' g, nc_write X R d [(txt "v", [f])] = Ok (X', R') /\ r_e R = -999 /\ r_e R' <> -999 /\ of_size d f /\ within d 0 0 1 /\ f_get f 0 0 1 = Ok (fz 2) /\ nc_read X' R' d (txt "v") (-999) 0 = Ok g /\ f_get g 0 0 1 = Ok CMV.
Proof.
  set (X := {| x_dims := [(1, true); (1, false); (2, false)]; x_vars := [(txt "v", plain [0; 1; 2] (fun _ => fz 7))] |}). set (R := {| r_t := 0; r_e := -999; r_y := 1; r_x := 2 |}). set (p := written_file X R exd [(txt "v", [exF])]). exists X, R, exd, exF, (fst p), (snd p), (fld 1 2 2 [fz 1; CMV; CMV; CMV]).
  split; [vm_compute; reflexivity|]. split; [reflexivity|]. split; [vm_compute; discriminate|]. split; [apply ex_field|]. split; [repeat split; cbn; lia|]. split; [reflexivity|]. split; vm_compute; reflexivity.
Qed.
(** integers *)
Definition truncated (q : Qc) : Z := Z.quot (Qnum (this q)) (Zpos (Qden (this q))).
Definition exI : nc_var := {| n_dims := [0; 1; 2; 3]; n_data := fun _ => fz 0; n_fill := Some (fz (-32767)); n_scale := Some (fq (1 # 10)); n_offset := Some (fz 3); n_store := fun v => match v with Fin q => if (-32768 <=? truncated q) && (truncated q <=? 32767) then Some (fz (truncated q)) else None | _ => None end |}.
Lemma truncated_part q z : part_before_point q z -> truncated q = z.
Proof.
  intros H. unfold truncated. set (n := Qnum (this q)). set (p := Zpos (Qden (this q))). assert (0 < p) as Pp by (unfold p; lia).
  assert (forall k, (qz k <= q)%Qc <-> k * p <= n) as A. { intros k. unfold Qcle. rewrite this_qz. unfold Qle. cbn [Qnum Qden inject_Z]. fold n p. rewrite Z.mul_1_r. reflexivity. }
  assert (forall k, (q <= qz k)%Qc <-> n <= k * p) as B. { intros k. unfold Qcle. rewrite this_qz. unfold Qle. cbn [Qnum Qden inject_Z]. fold n p. rewrite Z.mul_1_r. reflexivity. }
  assert (forall k, (q < qz k)%Qc <-> n < k * p) as C. { intros k. unfold Qclt. rewrite this_qz. unfold Qlt. cbn [Qnum Qden inject_Z]. fold n p. rewrite Z.mul_1_r. reflexivity. }
  assert (forall k, (qz k < q)%Qc <-> k * p < n) as D. { intros k. unfold Qclt. rewrite this_qz. unfold Qlt. cbn [Qnum Qden inject_Z]. fold n p. rewrite Z.mul_1_r. reflexivity. }
  destruct H as [[H1 [H2 H3]]|[H1 [H2 H3]]].
  - rewrite <- qz_0 in H1. apply A in H1, H2. apply C in H3. rewrite Z.quot_div_nonneg by lia. symmetry. apply (Z.div_unique _ _ _ (n - p * z)); [left|]; nia.
  - rewrite <- qz_0 in H1. apply C in H1. apply D in H2. apply B in H3. replace n with (- (- n)) by lia. rewrite Z.quot_opp_l by lia. rewrite Z.quot_div_nonneg by lia. assert (- n / p = - z); [|lia]. symmetry. apply (Z.div_unique _ _ _ (- n + p * z)); [left|]; nia.
Qed.
Lemma exI_stores : stores_integers exI (-32768) 32767.
Proof. intros q z H. cbn [exI n_store]. rewrite (truncated_part q z H). reflexivity. Qed.
Definition exJ : field := fld 1 2 2 [fq (399 # 100); fq (399 # 100); fq (399 # 100); CMV].
Lemma exJ_integers : integers exd exI (Q2Qc (1 # 10)) (qz 3) [exJ].
Proof.
  exists (-32768), 32767, (-32767). split; [apply exI_stores|]. split; [lia|]. split; [lia|]. split; [split; [left; reflexivity|split; [left; reflexivity|left; reflexivity]]|]. split; [discriminate|].
  intros t f y x e w q z Ht W Ef Ew [-> Nq] Hz. cbn in Ht. assert (t = 0) as -> by lia. inversion Ef; subst f. apply truncated_part in Hz. subst z. destruct W as (W1 & W2 & W3). cbn in W1, W2, W3. assert (y = 0) as -> by lia. assert (x = 0 \/ x = 1) as [->| ->] by lia; assert (e = 0 \/ e = 1) as [->| ->] by lia; vm_compute in Ew; inversion Ew; subst q; vm_compute; (split; [split; discriminate|discriminate]).
Qed.
Lemma exI_can_write : can_write (exX exI) exR exd [(txt "v", [exJ])].
Proof.
  split; [apply ex_proper|]. split; [intros r H; right; change (zlen (x_dims (exX exI))) with 5; cbn in H; lia|]. split; [apply ex_fits|]. split; [cbn; lia|]. split; [right; split; [discriminate|left; cmp]|]. split; [cbn; repeat constructor; cbn; intuition discriminate|].
  intros n fs [Q|[]]. inversion Q; subst n fs. split; [intros t Ht; cbn in Ht; assert (t = 0) as -> by lia; exists exJ; split; [reflexivity|repeat split; cbn; lia]|]. intros v Hv. cbn in Hv. inversion Hv; subst v. split; [okv|]. split; [intros k Hk _; exact Hk|]. split; [discriminate|]. split; [left; discriminate|]. intros k (H & N1 & N2 & N3 & N4). cbn in H, N1, N2, N3, N4. lia.
Qed.
Lemma Fin_inj a b : Fin a = Fin b -> a = b.
Proof. intros [= H]. exact H. Qed.
Lemma not_nearest : exists X R d v s o f X' R' g w w', can_write X R d [(txt "v", [f])] /\ grid_known R d /\ find_name (x_vars X) (txt "v") = Some v /\ integers d v s o [f] /\ nc_write X R d [(txt "v", [f])] = Ok (X', R') /\ nc_read X' R' d (txt "v") (-999) 0 = Ok g /\
  within d 0 0 0 /\ f_get f 0 0 0 = Ok w /\ f_get g 0 0 0 = Ok w' /\ ~ off_by_less (Q2Qc (3 # 4)) s w w'.
Proof.
  set (p := written_file (exX exI) exR exd [(txt "v", [exJ])]). exists (exX exI), exR, exd, exI, (Q2Qc (1 # 10)), (qz 3), exJ, (fst p), (snd p), (fld 1 2 2 [fq (39 # 10); fq (39 # 10); fq (39 # 10); CMV]), (fq (399 # 100)), (fq (39 # 10)).
  split; [apply exI_can_write|]. split; [split; discriminate|]. split; [reflexivity|]. split; [apply exJ_integers|]. split; [vm_compute; reflexivity|]. split; [vm_compute; reflexivity|]. split; [repeat split; cbn; lia|]. split; [reflexivity|]. split; [reflexivity|].
  intros [H _]. destruct (H (Q2Qc (399 # 100))) as (r & [R1 R2] & E); [split; [reflexivity|intros Q; apply Qc_eq_iff in Q; vm_compute in Q; discriminate]|]. assert (r = Q2Qc (-9 # 10)) as ->; [|apply Qclt_alt in R1; vm_compute in R1; discriminate].
  assert (Q2Qc (39 # 10) = Q2Qc (399 # 100) + Q2Qc (1 # 10) * r)%Qc as Q' by (apply Fin_inj; exact E). assert (r = (Q2Qc (39 # 10) - Q2Qc (399 # 100)) * qz 10)%Qc as ->; [|apply Qc_is_canon; reflexivity].
  rewrite Q'. replace ((Q2Qc (399 # 100) + Q2Qc (1 # 10) * r - Q2Qc (399 # 100)) * qz 10)%Qc with (Q2Qc (1 # 10) * qz 10 * r)%Qc by ring. replace (Q2Qc (1 # 10) * qz 10)%Qc with 1%Qc by (apply Qc_is_canon; reflexivity). ring.
Qed.
(** an example of a faithful round trip *)
Definition exV : nc_var := {| n_dims := [3; 1; 0; 4; 2]; n_data := fun _ => fz 7; n_fill := Some (fz (-1)); n_scale := Some (fq (1 # 2)); n_offset := Some (fz 10); n_store := Some |}.
Lemma ex_tells s o m : (forall w, In w (f_values exF) -> forall q, present w q -> ((q - o) / s)%Qc <> m) -> tells exd s o m [exF].
Proof.
  intros H t f y x e w q Ht W Ef Ew P. cbn in Ht. assert (t = 0) as -> by lia. inversion Ef; subst f. eapply H; eauto. unfold f_get in Ew. destruct (f_index exF y x e) as [i| | |]; cbn [bind] in Ew; try discriminate. eapply znth_In; eauto.
Qed.
Lemma ex_faithful n fs : In (n, fs) [(txt "v", [exF]); (txt "w", [exF])] -> faithful (exX exV) exd n fs.
Proof.
  intros [Q|[Q|[]]]; inversion Q; subst n fs; unfold faithful; cbn [exX x_vars find_name].
  - change (str_eqb (txt "v") (txt "v")) with true. cbv iota. split; [intros w; reflexivity|]. exists (Q2Qc (1 # 2)), (qz 10), (qz (-1)). split; [split; [left; reflexivity|split; left; reflexivity]|]. split; [discriminate|]. split; [discriminate|]. apply ex_tells. intros w Hw q [-> Nq]. cbn in Hw. repeat (destruct Hw as [Hw|Hw]; [inversion Hw; subst q; first [intros H; apply Qc_eq_iff in H; vm_compute in H; discriminate|exfalso; apply Nq; reflexivity]|]). destruct Hw.
  - change (str_eqb (txt "v") (txt "w")) with false. cbv iota. intros m Hm. apply ex_tells. intros w Hw q [-> Nq]. unfold fill_float in Hm. inversion Hm; subst m. clear Hm. cbn [exF fld f_values In] in Hw. repeat (destruct Hw as [Hw|Hw]; [inversion Hw; subst q; first [intros H; apply Qc_eq_iff in H; vm_compute in H; discriminate|exfalso; apply Nq; reflexivity]|]). destruct Hw.
Qed.
Lemma exV_can_write : can_write (exX exV) exR exd [(txt "v", [exF]); (txt "w", [exF])].
Proof. apply (ex_can_write exV _ eq_refl); [nodup|cbn; intros; lia|cbn; intros; lia]. Qed.
(** latitudes *)
Definition exLat : nc_var := {| n_dims := [3; 4; 2]; n_data := fun i => match i with [a; 0; b] => if (a =? 1) && (b =? 0) then fz (-1) else fz (50 + a + 10 * b) | _ => fz 0 end; n_fill := Some (fz (-1)); n_scale := None; n_offset := None; n_store := Some |}.
Definition exLat1 : nc_var := {| n_dims := [3]; n_data := fun i => match i with [0] => fz 50 | _ => fz (-1) end; n_fill := Some (fz (-1)); n_scale := None; n_offset := None; n_store := Some |}.
Definition exLX : netcdf := {| x_dims := [(1, true); (2, false); (2, false); (2, false); (2, false)]; x_vars := [] |}.
Lemma fill_one : exists X R v g, sound X v /\ n_dims v = [r_x R] /\ latlon X R v = Ok g /\ n_fill v = Some (n_data v (map (grid_point R 0 1) (n_dims v))) /\ get2 g 0 1 = Ok (fz (-1)).
Proof. exists exLX, exR, exLat1, [[fz 50; fz (-1)]; [fz 50; fz (-1)]]. split; [okv|]. repeat split; vm_compute; reflexivity. Qed.
Lemma exLat_many : sound exLX exLat /\ zlen (n_dims exLat) <> 1 /\ (forall k, In k (n_dims exLat) -> 1 <= dim_size exLX k).
Proof. split; [okv|]. split; [discriminate|]. cbn. intros k [<-|[<-|[<-|[]]]]; cmp. Qed.
(** the value at a point with the missing value of the file *)
Lemma latlon_points X R v m : sound X v -> zlen (n_dims v) <> 1 -> r_y R <> r_x R -> In (r_y R) (n_dims v) -> In (r_x R) (n_dims v) -> (forall k, In k (n_dims v) -> 1 <= dim_size X k) -> n_fill v = Some (Fin m) ->
  exists g, latlon X R v = Ok g /\ rect (dim_size X (r_y R)) (dim_size X (r_x R)) g /\ forall i j q, 0 <= i < dim_size X (r_y R) -> 0 <= j < dim_size X (r_x R) ->
    n_data v (map (grid_point R i j) (n_dims v)) = Fin q -> exists w, get2 g i j = Ok w /\ stands 1 0 m q w.
Proof.
  intros HS L N Hy Hx D F. destruct (latlon_many X R v HS L N Hy Hx) as (g & E & Rg & G); auto. exists g. split; [auto|]. split; [auto|]. intros i j q Hi Hj Q. rewrite (G i j Hi Hj). eexists. split; [reflexivity|]. cbv zeta. rewrite Q. unfold fill_of. rewrite F. split.
  - intros ->. replace (veqb (Fin m) (Fin m)) with true by (symmetry; apply fin_veqb; auto). reflexivity.
  - intros NQ. destruct (veqb (Fin q) (Fin m)) eqn:V; [apply fin_veqb in V; contradiction|]. f_equal. ring.
Qed.
