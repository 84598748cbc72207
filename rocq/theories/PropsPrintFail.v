(** Printing to a buffer that throws: C97. *)
From Coq Require Import Lia.
From Verif Require Import Base Iter Charset TagStack XmlPrinter PrintSpec PrintProofs PrintFail PrintFailSpec PrintFailProof.

(** ** C97: the buffer the printer prints to throws in one of its push_back.
    *** One call: as long as no byte is refused it prints and returns what it does with a buffer that takes everything. Otherwise it throws, the bytes before the one refused have
    been appended, and the printer is as before the call, but when the end of a start tag or a whole close tag has been appended (the function [left_by]). *)
Theorem C97_call : forall ocs acs c p p' r b buf answers, p_do ocs acs c p = Ret p' (r, b) ->
  w_do ocs acs c (mkW p buf answers) =
  match refused (length b) answers with
  | None => Ret (mkW p' (buf ++ b) (skipn (length b) answers)) r
  | Some k => Throw (mkW (left_by ocs c k p p' b) (buf ++ firstn k b) (skipn (S k) answers))
  end.
Proof. intros ocs acs c p p' r b buf answers E. apply do_is. exact E. Qed.
Print Assumptions C97_call.
(** A value printed in UTF-16 in the start tag of the element a: the end of the tag, the escaped character and the bytes before the fifth of the text *)
Example C97_call_case : exists p r0 p' b, p_do (UTF16 true) UTF8 (POpen (str "a")) (pr_new true) = Ret p r0 /\ p_do (UTF16 true) UTF8 (PValue (str "<x")) p = Ret p' (true, b) /\
  refused (length b) (repeat true 7 ++ [false; true]) = Some 7%nat /\ length b = 12%nat /\
  exists w, w_do (UTF16 true) UTF8 (PValue (str "<x")) (mkW p (str "..") (repeat true 7 ++ [false; true])) = Throw w /\ w_buf w = str ".." ++ [0; 62; 0; 38; 0; 108; 0] /\ p_state (w_p w) = PContent /\ p_state p = PTagElement.
Proof. vm_compute. do 4 eexists. split; [reflexivity|]. split; [reflexivity|]. split; [reflexivity|]. split; [reflexivity|]. eexists. split; [reflexivity|]. split; [reflexivity|]. split; reflexivity. Qed.

(** *** Any sequence of calls, exceptions caught after each of them, and any bytes refused: no undefined behaviour, and the printer is the one of a sequence of calls that print to a buffer that
    takes everything: of the calls that returned, with the same answers and texts, where for a call that threw nothing, or the end of the start tag, or the close tag is done (the relation
    [told], also for the bytes in the buffer). No more calls throw than bytes are refused. *)
Theorem C97_history : forall ocs acs sub h answers, cs_constructible acs = true -> calls_ok h ->
  exists w rs h' rs', w_run ocs acs h (mkW (pr_new sub) [] answers) = Ret w rs /\ p_run ocs acs h' (pr_new sub) = Ret (w_p w) rs' /\ told h rs (w_buf w) h' rs' /\ (throws rs <= refusals answers)%nat.
Proof.
  intros ocs acs sub h answers Hacs [H1 H2]. destruct (tell_run ocs acs Hacs h (a_new sub) (pr_new sub) [] answers (pr_new_is sub) H1) as (w & rs & h' & rs' & t & E & Ep & T & B & Q); [exact H2|].
  cbn [app] in B. subst t. exists w, rs, h', rs'. split; [exact E|]. split; [exact Ep|]. split; [exact T|]. lia.
Qed.
Print Assumptions C97_history.
(** The close tag of the root: the new line is refused; an open tag: behind the end of the start tag; an attribute *)
Definition c97_calls : list pcall := [POpen (str "a"); POpen (str "b"); POpen (str "b"); PAttr (str "x"); PAttr (str "x"); PValue (str "1"); PClose; PClose; POpen (str "c")].
Definition c97_answers : list bool := repeat true 3 ++ [false] ++ repeat true 4 ++ [false] ++ repeat true 12 ++ [false].
Example C97_history_case : cs_constructible UTF8 = true /\ calls_ok c97_calls /\ refusals c97_answers = 3%nat /\
  exists w, w_run UTF8 UTF8 c97_calls (mkW (pr_new true) [] c97_answers) = Ret w [Some true; None; Some true; None; Some true; Some true; Some true; None; Some true] /\ w_buf w = str "<a><b x x=""1""/></a><c".
Proof.
  split; [reflexivity|]. split; [|split; [reflexivity|]].
  - split; [|vm_compute; discriminate]. unfold c97_calls. repeat constructor; cbn; try (vm_compute; reflexivity).
  - vm_compute. eexists. split; reflexivity.
Qed.

(** *** The text in the buffer when the first call throws begins the text printed to a buffer that takes everything. *)
Lemma run_until ocs acs : forall h p prs buf answers w rs, p_run ocs acs h p = Ret prs rs -> forall ws, w_run ocs acs h (mkW p buf answers) = Ret w (map Some ws ++ [None]) ->
  exists rest, rest <> [] /\ buf ++ concat (map snd rs) = w_buf w ++ rest.
Proof.
  induction h as [|c h IH]; intros p prs buf answers w rs Ep ws Ew.
  - cbn [w_run] in Ew. injection Ew as _ Q. destruct ws; discriminate Q.
  - cbn [p_run] in Ep. destruct (p_do ocs acs c p) as [p1 [r b]|p1|p1| |] eqn:E1; try discriminate Ep. cbn [bind] in Ep. destruct (p_run ocs acs h p1) as [p2 rs2|p2|p2| |] eqn:E2; try discriminate Ep. cbn [bind] in Ep. injection Ep as <- <-.
    cbn [w_run] in Ew. rewrite (C97_call _ _ _ _ _ _ _ buf answers E1) in Ew. cbn [map snd concat]. destruct (refused (length b) answers) as [k|] eqn:Rf.
    + destruct (w_run ocs acs h _) as [w1 rs1|w1|w1| |] eqn:E3; try discriminate Ew. cbn [bind] in Ew. injection Ew as <- Q. destruct ws as [|x ws]; [|discriminate Q]. injection Q as ->.
      destruct h as [|c2 h]; [|cbn [w_run] in E3; destruct (w_do _ _ _ _) as [w4 ?|?|w4| |]; try discriminate E3; destruct (w_run _ _ h w4); discriminate E3]. cbn [w_run] in E3. injection E3 as <-. cbn [w_buf].
      exists (skipn k b ++ concat (map snd rs2)). apply refused_lt in Rf. split.
      * intro Z. apply app_eq_nil in Z. destruct Z as [Z _]. apply (f_equal (@length N)) in Z. rewrite skipn_length in Z. cbn in Z. lia.
      * rewrite <- app_assoc, (app_assoc (firstn k b)), firstn_skipn. reflexivity.
    + destruct (w_run ocs acs h _) as [w1 rs1|w1|w1| |] eqn:E3; try discriminate Ew. cbn [bind] in Ew. injection Ew as <- Q. destruct ws as [|x ws]; [discriminate Q|]. injection Q as _ ->.
      destruct (IH _ _ _ _ _ _ E2 ws E3) as (rest & Z & B). exists rest. split; [exact Z|]. rewrite <- B, <- app_assoc. reflexivity.
Qed.
Theorem C97_until : forall ocs acs sub h answers w ws p rs, w_run ocs acs h (mkW (pr_new sub) [] answers) = Ret w (map Some ws ++ [None]) -> p_run ocs acs h (pr_new sub) = Ret p rs ->
  exists rest, rest <> [] /\ concat (map snd rs) = w_buf w ++ rest.
Proof. intros ocs acs sub h answers w ws p rs Ew Ep. exact (run_until ocs acs h _ _ [] _ _ _ Ep ws Ew). Qed.
Print Assumptions C97_until.
Example C97_until_case : exists w p rs, w_run UTF8 UTF8 (firstn 2 c97_calls) (mkW (pr_new true) [] (repeat true 4 ++ [false])) = Ret w (map Some [true] ++ [None]) /\
  p_run UTF8 UTF8 (firstn 2 c97_calls) (pr_new true) = Ret p rs /\ w_buf w = str "<a><" /\ concat (map snd rs) = str "<a><b".
Proof. vm_compute. do 3 eexists. split; [reflexivity|]. split; [reflexivity|]. split; reflexivity. Qed.

(** *** The caller sets the buffer back to its size before the call that threw and calls again: then nothing is lost or printed twice, but for open tags and contents inside of a start tag and for
    the close tag of the root. *)
Theorem C97_set_back : forall ocs acs c p p' r b buf answers w, p_do ocs acs c p = Ret p' (r, b) -> w_do ocs acs c (mkW p buf answers) = Throw w ->
  match c, p_state p with
  | POpen _, PTagElement | POpen _, PTagAttribute | PValue _, PTagElement => False
  | PClose, _ => tg_empty (p_tags p') = false
  | _, _ => True
  end ->
  w_do ocs acs c (mkW (w_p w) (firstn (length buf) (w_buf w)) []) = Ret (mkW p' (buf ++ b) []) r.
Proof.
  intros ocs acs c p p' r b buf answers w E W K. rewrite (C97_call _ _ _ _ _ _ _ buf answers E) in W. destruct (refused (length b) answers) as [k|]; [|discriminate W]. injection W as <-. cbn [w_p w_buf].
  assert (L : left_by ocs c k p p' b = p).
  { destruct c; cbn [left_by]; try reflexivity; try (destruct (p_state p); reflexivity || contradiction). assert (K' : tg_empty (p_tags p') = false) by (destruct (p_state p); exact K). rewrite K'. destruct (p_state p); reflexivity. }
  rewrite L, firstn_app, Nat.sub_diag, firstn_all. cbn [firstn]. rewrite app_nil_r, (C97_call _ _ _ _ _ _ _ buf [] E).
  assert (R : refused (length b) [] = None) by (destruct (length b); reflexivity). rewrite R, skipn_nil. reflexivity.
Qed.
Print Assumptions C97_set_back.
Example C97_set_back_case : exists p rs p' b w, p_run UTF8 UTF8 [POpen (str "a"); PAttr (str "x")] (pr_new true) = Ret p rs /\ p_do UTF8 UTF8 (PValue (str "1&2")) p = Ret p' (true, b) /\ b = str """1&amp;2""" /\
  w_do UTF8 UTF8 (PValue (str "1&2")) (mkW p (str "<a x=") (repeat true 4 ++ [false])) = Throw w /\ w_buf w = str "<a x=""1&a".
Proof. vm_compute. do 5 eexists. split; [reflexivity|]. split; [reflexivity|]. split; [reflexivity|]. split; reflexivity. Qed.

(** *** For these it is wrong. Inside of a start tag the end of it is appended first and remembered, so that it is missing when the buffer is set back. The close tag of the root is remembered before
    the new line is appended, so that the call repeated fails and the close tag is missing. Without setting back, what was appended is printed twice. *)
Theorem C97_set_back_refuted :
  (exists p rs w w' p', p_run UTF8 UTF8 [POpen (str "a")] (pr_new true) = Ret p rs /\ w_do UTF8 UTF8 (POpen (str "b")) (mkW p (str "<a") [true; false]) = Throw w /\
     w_do UTF8 UTF8 (POpen (str "b")) (mkW (w_p w) (firstn 2 (w_buf w)) []) = Ret w' true /\ w_buf w' = str "<a<b" /\ p_do UTF8 UTF8 (POpen (str "b")) p = Ret p' (true, str "><b")) /\
  (exists p rs w w', p_run UTF8 UTF8 [POpen (str "a"); PExit] (pr_new true) = Ret p rs /\ w_do UTF8 UTF8 PClose (mkW p (str "<a>") (repeat true 4 ++ [false])) = Throw w /\
     w_do UTF8 UTF8 PClose (mkW (w_p w) (firstn 3 (w_buf w)) []) = Ret w' false /\ w_buf w' = str "<a>") /\
  (exists p rs w w', p_run UTF8 UTF8 [POpen (str "a"); PExit] (pr_new true) = Ret p rs /\ w_do UTF8 UTF8 (POpen (str "bc")) (mkW p (str "<a>") [true; true; false]) = Throw w /\
     w_do UTF8 UTF8 (POpen (str "bc")) (mkW (w_p w) (w_buf w) []) = Ret w' true /\ w_buf w' = str "<a><b<bc").
Proof.
  split; [|split].
  - do 5 eexists. split; [vm_compute; reflexivity|]. split; [vm_compute; reflexivity|]. split; [vm_compute; reflexivity|]. split; [vm_compute; reflexivity|]. vm_compute. reflexivity.
  - do 4 eexists. split; [vm_compute; reflexivity|]. split; [vm_compute; reflexivity|]. split; [vm_compute; reflexivity|]. vm_compute. reflexivity.
  - do 4 eexists. split; [vm_compute; reflexivity|]. split; [vm_compute; reflexivity|]. split; [vm_compute; reflexivity|]. vm_compute. reflexivity.
Qed.
Print Assumptions C97_set_back_refuted.
