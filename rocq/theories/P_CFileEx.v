(** Cases for the client's files. *)
From Coq Require Import Ascii String.
From Verif Require Import Base ListLib QcTac M_COpt M_CUtil M_CCal M_CDown M_CFile S_CUtil S_CCal S_CFile P_COpt P_CUtil P_CCal P_CFile P_CFile2 P_CFile3.
Local Open Scope Z_scope.

Definition name (s : string) : str := list_ascii_of_string s.
Definition two_times : dims := {| d_y := 1; d_x := 1; d_e := 1; d_t := 2 |}.
Definition one (v : val) : field := {| f_values := [v]; f_ny := 1; f_nx := 1; f_ne := 1 |}.
Definition start : file := opened two_times [] [] [].
Definition or_start (r : res file) : file := match r with Ok F => F | _ => start end.
(** a file with the variable T: 5 at time 0 and 6 at time 1 *)
Definition temp : core := fresh_core (fun v => str_eqb (v_name v) (name "T")) (fun _ t => Ok (one (fz (5 + t)))).
Definition vT : variable := bare (name "T").
Definition vU : variable := bare (name "U").
Lemma start_reached K ops F : run K start ops = Ok F -> reached K F.
Proof. intros E. exists two_times, [], [], [], ops. do 4 (split; [discriminate|]). exact E. Qed.
Lemma holds_run K ops F v t p : run K start ops = Ok F -> slot F (v_name v) t = Some p -> holds F v t p.
Proof. intros E S. apply (holds_slot F v t p (reached_inv K F (start_reached K ops F E))). exact S. Qed.
Lemma c233_refuted : exists has content F ops F' v t p p' f g, let K := fresh_core has content in
  reached K F /\ run K F ops = Ok F' /\ (forall o, In o ops -> ~ replaces v t o) /\ provided K v /\ holds F v t p /\ deref F (Some p) = Ok f /\ holds F' v t p' /\ deref F' (Some p') = Ok g /\ p <> p' /\ f <> g.
Proof.
  exists (fun v => str_eqb (v_name v) (name "T")), (fun _ t => Ok (one (fz (5 + t)))), (or_start (run temp start [Get vT 0 false])), [Get vT 1 true], (or_start (run temp start [Get vT 0 false; Get vT 1 true])), vT, 0, 0, 1, (one (fz 5)), (one CMV).
  cbv zeta. fold temp. split; [apply (start_reached temp [Get vT 0 false]); vm_compute; reflexivity|]. split; [vm_compute; reflexivity|]. split; [intros o [<-|[]] []|]. split; [intros w E; unfold same_name in E; cbn [temp fresh_core k_has]; rewrite E; reflexivity|].
  split; [apply (holds_run temp [Get vT 0 false]); vm_compute; reflexivity|]. split; [vm_compute; reflexivity|]. split; [apply (holds_run temp [Get vT 0 false; Get vT 1 true]); vm_compute; reflexivity|]. split; [vm_compute; reflexivity|].
  split; [discriminate|]. intros E. assert (K : f_values (one (fz 5)) = f_values (one CMV)) by (rewrite E; reflexivity). cbn in K. injection K as K. discriminate K.
Qed.
Lemma c234_refuted : exists has content F v t, let K := fresh_core has content in reached K F /\ t < 0 /\ get_field K F v t false = UB.
Proof. exists (fun v => str_eqb (v_name v) (name "T")), (fun _ t => Ok (one (fz (5 + t)))), start, vT, (-1). cbv zeta. split; [apply (start_reached _ []); reflexivity|]. split; [reflexivity|]. vm_compute. reflexivity. Qed.
(** text files *)
Definition two_lines : list (Z * vec) := [(0, [fz 60; fz 10; fz 100; fz 3]); (6, [fz 60; fz 10; fz 100; fz 4])].
Definition text_two : file := text_state two_times [one (fz 3); one (fz 4)].
Lemma two_lines_open : text_open two_lines = Ok (two_times, [0; 6], [[fz 60]], [[fz 10]], [[fz 100]], [one (fz 3); one (fz 4)]).
Proof. vm_compute. repeat (f_equal; try (apply Qc_is_canon; reflexivity)). Qed.
Lemma text_holds ops F v t p : run text_core text_two ops = Ok F -> slot F (v_name v) t = Some p -> holds F v t p.
Proof. intros E S. apply (holds_slot F v t p); [|exact S]. apply (reached_inv text_core). exists two_times, [one (fz 3); one (fz 4)], [], [], ops. do 4 (split; [discriminate|]). exact E. Qed.
Lemma c236_refuted : exists lines d times lats lons elevs fields F v w t p, text_open lines = Ok (d, times, lats, lons, elevs, fields) /\ run text_core (text_state d fields) [Get v t false; Get w t false] = Ok F /\ ~ same_name v w /\ holds F v t p /\ holds F w t p /\
  (exists f g F', assign F p g = Ok F' /\ deref F (Some p) = Ok f /\ deref F' (Some p) = Ok g /\ f <> g).
Proof.
  exists two_lines, two_times, [0; 6], [[fz 60]], [[fz 10]], [[fz 100]], [one (fz 3); one (fz 4)], (or_start (run text_core text_two [Get vT 0 false; Get vU 0 false])), vT, vU, 0, 0.
  split; [exact two_lines_open|]. split; [vm_compute; reflexivity|]. split; [intros E; discriminate E|]. split; [apply (text_holds [Get vT 0 false; Get vU 0 false]); vm_compute; reflexivity|]. split; [apply (text_holds [Get vT 0 false; Get vU 0 false]); vm_compute; reflexivity|].
  exists (one (fz 3)), (one (fz 9)). eexists. split; [vm_compute; reflexivity|]. split; [vm_compute; reflexivity|]. split; [vm_compute; reflexivity|]. intros E. assert (K : f_values (one (fz 3)) = f_values (one (fz 9))) by (rewrite E; reflexivity). cbn in K. injection K as K. discriminate K.
Qed.
Lemma c238_refuted : exists lines d times lats lons elevs fields F F' v t p q f g, text_open lines = Ok (d, times, lats, lons, elevs, fields) /\ run text_core (text_state d fields) [Get v t false; Assign p g] = Ok F /\
  get_field text_core (clear_fields F) v t false = Ok (Some q, F') /\ deref F' (Some q) = Ok g /\ znth fields t = Ok f /\ f <> g.
Proof.
  exists two_lines, two_times, [0; 6], [[fz 60]], [[fz 10]], [[fz 100]], [one (fz 3); one (fz 4)], (or_start (run text_core text_two [Get vT 0 false; Assign 0 (one (fz 9))])). eexists. exists vT, 0, 0, 0, (one (fz 3)), (one (fz 9)).
  split; [exact two_lines_open|]. split; [vm_compute; reflexivity|]. split; [vm_compute; reflexivity|]. split; [vm_compute; reflexivity|]. split; [vm_compute; reflexivity|]. intros E. assert (K : f_values (one (fz 3)) = f_values (one (fz 9))) by (rewrite E; reflexivity). cbn in K. injection K as K. discriminate K.
Qed.
(** levels *)
Definition at_level (n : Z) : variable := {| v_name := name "T"; v_min := CMV; v_max := CMV; v_units := []; v_std := []; v_level := n |}.
Definition levels : core := fresh_core (fun v => str_eqb (v_name v) (name "T")) (fun v t => Ok (one (fz (v_level v)))).
Definition aliased : file := opened two_times [] [] [(name "low", at_level 2); (name "high", at_level 10)].
Lemma c239_refuted : exists has content F a b v w t p q f g F1 F2, let K := fresh_core has content in reached K F /\ find_name (f_alias F) a = Some v /\ find_name (f_alias F) b = Some w /\ a <> b /\ v_level v <> v_level w /\ has w = true /\ content v t = Ok f /\ content w t = Ok g /\ f <> g /\
  get_named K F a t = Ok (Some p, F1) /\ get_named K F1 b t = Ok (Some q, F2) /\ deref F2 (Some q) = Ok f.
Proof.
  exists (fun v => str_eqb (v_name v) (name "T")), (fun v t => Ok (one (fz (v_level v)))), aliased, (name "low"), (name "high"), (at_level 2), (at_level 10), 0, 0, 0, (one (fz 2)), (one (fz 10)). do 2 eexists. cbv zeta. fold levels.
  split; [exists two_times, [], [], [(name "low", at_level 2); (name "high", at_level 10)], []; do 4 (split; [discriminate|]); reflexivity|]. split; [reflexivity|]. split; [reflexivity|]. split; [discriminate|]. split; [discriminate|]. split; [reflexivity|]. split; [reflexivity|]. split; [reflexivity|].
  split; [intros E; assert (K : f_values (one (fz 2)) = f_values (one (fz 10))) by (rewrite E; reflexivity); cbn in K; injection K as K; discriminate K|]. split; [vm_compute; reflexivity|]. split; [vm_compute; reflexivity|]. vm_compute. reflexivity.
Qed.
(** written files *)
Lemma c241_refuted : exists lines d times lats lons elevs fields lines', text_open lines = Ok (d, times, lats, lons, elevs, fields) /\ point_write (fun v => v) d times fields = Ok lines' /\ forall r, text_open lines' <> Ok r.
Proof.
  exists two_lines, two_times, [0; 6], [[fz 60]], [[fz 10]], [[fz 100]], [one (fz 3); one (fz 4)], [(0, [fz 3]); (6, [fz 4])]. split; [exact two_lines_open|]. split; [vm_compute; reflexivity|]. intros r E. vm_compute in E. discriminate E.
Qed.
Lemma c242_refuted : exists d times fields lines i v, d_y d = 1 /\ d_x d = 1 /\ zlen times = d_t d /\ NoDup times /\ point_write (fun v => v) d times fields = Ok lines /\ point_open lines None None 0 = Ok (d_e d, times) /\
  get4 fields i 0 0 0 = Ok v /\ cvalid v = true /\ exists f, point_read lines d i = Ok f /\ f_get f 0 0 0 = Ok CMV.
Proof.
  exists two_times, [0; 3600], [one (fz 3); one (fz 4)], [(0, [fz 3]); (3600, [fz 4])], 1, (fz 4). do 3 (split; [reflexivity|]). split; [repeat constructor; cbn; intuition lia|]. split; [vm_compute; reflexivity|]. split; [reflexivity|]. split; [reflexivity|]. split; [reflexivity|].
  eexists. split; [vm_compute; reflexivity|]. vm_compute. reflexivity.
Qed.
