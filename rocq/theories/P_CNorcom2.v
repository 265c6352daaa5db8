(** Examples of the QNH file. *)
From Coq Require Import Ascii String.
From Verif Require Import Base ListLib M_COpt M_CDate S_CDate P_CDate M_CUtil M_CCal M_CFile S_CFile M_CNorcom S_CNorcom P_CNorcom.
Local Open Scope Z_scope.

Lemma leap_moment : moment 951827696 29 12 34.
Proof. exists 11016, 2000, 2, 56. split; [lia|]. split; [apply days_after_iff; split; vm_compute; reflexivity|]. split; [cbn; lia|]. split; [unfold a_time; lia|reflexivity]. Qed.
Lemma qnh_smallest : smallest (qnh_fields 3) 0 2 0 101305 /\ smallest (qnh_fields 3) 0 2 1 99900.
Proof.
  split; [exists (fun t => 101325 - 10 * t)|exists (fun t => 99900 + t)]; (split; [intros t Ht; assert (t = 0 \/ t = 1 \/ t = 2) as [->|[->| ->]] by lia; eexists; (split; [vm_compute; reflexivity|vm_compute; reflexivity])|]); (split; [|split; [lia|intros; lia]]); [exists 2|exists 0]; lia.
Qed.
Lemma qnh_widest : widest [txt "A"; txt "Oslo"] 4.
Proof. split; [intros n [<-|[<-|[]]]; vm_compute; discriminate|right; exists (txt "Oslo"); split; [cbn; auto|reflexivity]]. Qed.
(** a fake file of the default size cannot be opened *)
Lemma c280_default : exists a b c d : option Z, (forall n, In (Some n) [a; b; c; d] -> 0 < n) /\ forall K, fake_open a b c d <> Ok K.
Proof. exists None, None, None, None. split; [intros n [H|[H|[H|[H|[]]]]]; discriminate|]. intros K. rewrite c280; [discriminate|]. intros n [H|[H|[H|[H|[]]]]]; discriminate. Qed.
