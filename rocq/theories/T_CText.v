(** Help texts of the command-line client: C140-C141. *)
From Coq Require Import Ascii String.
From Verif Require Import Base M_COpt S_COpt M_CText S_CText P_COpt P_CText.
Local Open Scope Z_scope.

(** C140: formatting keeps the words of title and message.  False when the title fills its column: it merges with the first word *)
Theorem C140_words_kept_refuted : exists title message tlen mlen indent tws mws, tlen < mlen /\ 0 <= indent /\ Words spacing title tws /\ Words spacing message mws /\
  ~ Words spacing (format_description title message tlen mlen indent) (tws ++ mws).
Proof. exact c140_refuted. Qed.
Print Assumptions C140_words_kept_refuted.
Theorem C140_words_kept_partial : forall title message tlen mlen indent tws mws, 0 <= indent -> (indent + zlen title < tlen \/ mlen <= tlen) ->
  Words spacing title tws -> Words spacing message mws -> Words spacing (format_description title message tlen mlen indent) (tws ++ mws).
Proof. exact c140. Qed.
Print Assumptions C140_words_kept_partial.
Example C140_example : format_description (txt "-v var") (txt "one two  three") 8 14 1 =
  (txt " -v var one two" ++ [newline] ++ txt "        three")%list.
Proof. reflexivity. Qed.

(** C141: no line is longer than the limit.  It can be one longer; continuation lines start below the message *)
Theorem C141_line_length_refuted : exists title message tlen mlen indent ws l ls, 0 <= indent /\ 0 <= tlen < mlen /\ indent + zlen title <= tlen /\ Words (txt " ") message ws /\
  (forall w, In w ws -> ~ In newline w /\ tlen + zlen w <= mlen) /\ Lines (format_description title message tlen mlen indent) ls /\ In l ls /\ mlen < zlen l.
Proof. exact c141_refuted. Qed.
Print Assumptions C141_line_length_refuted.
Theorem C141_line_length_partial : forall title message tlen mlen indent ws, 0 <= indent -> 0 <= tlen < mlen -> mlen < 2147483648 -> ~ In newline title -> indent + zlen title <= mlen + 1 ->
  Words (txt " ") message ws -> (forall w, In w ws -> ~ In newline w /\ tlen + zlen w <= mlen) ->
  exists l ls, Lines (format_description title message tlen mlen indent) (l :: ls) /\ zlen l <= mlen + 1 /\
    forall x, In x ls -> zlen x <= mlen + 1 /\ exists r, x = blanks tlen ++ r.
Proof. exact c141. Qed.
Print Assumptions C141_line_length_partial.
Example C141_example : exists ws, Words (txt " ") (txt "a bc d") ws /\ (forall w, In w ws -> ~ In newline w /\ 2 + zlen w <= 5) /\
  format_description (txt "x") (txt "a bc d") 2 5 0 = (txt "x a bc" ++ [newline] ++ txt "  d")%list.
Proof.
  exists [txt "a"; txt "bc"; txt "d"]. split; [apply split_iff; reflexivity|]. split; [|reflexivity].
  intros w [<-|[<-|[<-|[]]]]; (split; [|vm_compute; discriminate]); cbn; intros I; repeat (destruct I as [I|I]; [discriminate|]); destruct I.
Qed.
