(** The printer and where it prints to, and the errors of the printer: C70, C71. *)
From Coq Require Import Lia ZifyBool ZifyNat ZifyN.
From Verif Require Import Base Iter Charset CharsetSpec StaticBuffer PropsUtil TagStack XmlPrinter PrintSpec PrintProofs PropsPrint Output.

Section Into.
Context {B : Type} (push : N -> B -> out B unit) (ocs acs : charset).
Lemma push_all_app : forall x y b, push_all push (x ++ y) b = (let! (b1, u) := push_all push x b in push_all push y b1).
Proof. induction x as [|c x IH]; intros y b; [reflexivity|]. cbn [app push_all]. destruct (push c b) as [b1 u|b1|b1| |]; cbn [bind]; [apply IH|reflexivity..]. Qed.
Lemma run_into : forall l p p' rs b b', p_run ocs acs l p = Ret p' rs -> push_all push (concat (map snd rs)) b = Ret b' tt ->
  p_run_into push ocs acs l (p, b) = Ret (p', b') (map fst rs).
Proof.
  induction l as [|c l IH]; intros p p' rs b b' E Hb; cbn [p_run] in E.
  - injection E as <- <-. cbn in Hb. injection Hb as <-. reflexivity.
  - destruct (p_do ocs acs c p) as [p1 r|p1|p1| |] eqn:E1; try discriminate E. cbn [bind] in E. destruct (p_run ocs acs l p1) as [p2 rs2|p2|p2| |] eqn:E2; try discriminate E. cbn [bind] in E.
    injection E as <- <-. cbn [map concat] in Hb. rewrite push_all_app in Hb. cbn [p_run_into p_into fst snd]. unfold p_into. cbn [fst snd]. rewrite E1.
    destruct (push_all push (snd r) b) as [b1 []|b1|b1| |]; try discriminate Hb. cbn [bind omap] in *. rewrite (IH _ _ _ _ _ E2 Hb). reflexivity.
Qed.
End Into.

(** ** C70: what has been printed has arrived.
    Into a StaticBuffer of any capacity the calls succeed as they do otherwise; the buffer holds as much of the text as fits into it and signals overflow if this is
    not all. *)
Theorem C70_buffer : forall ocs acs sub l p rs cap, p_run ocs acs l (pr_new sub) = Ret p rs -> cap < 2 ^ 63 ->
  let text := concat (map snd rs) in
  exists b, p_run_into sb_push ocs acs l (pr_new sub, sb_new cap) = Ret (p, b) (map fst rs) /\
    sb_content b = firstn (N.to_nat cap) text /\ (sb_overflow b = true <-> cap < N.of_nat (length text)).
Proof.
  intros ocs acs sub l p rs cap E Hc text. destruct (C33_first_bytes cap (map OpPush text) Hc) as (b & E1 & E2 & E3).
  - apply Forall_forall. intros op Ho. apply in_map_iff in Ho. destruct Ho as (c & <- & _). exact I.
  - apply Forall_forall. intros op Ho. apply in_map_iff in Ho. destruct Ho as (c & <- & _). exact I.
  - assert (Eb : flat_map op_bytes (map OpPush text) = text) by (clear; induction text as [|c t IH]; [reflexivity|]; cbn; f_equal; exact IH). cbv zeta in E2, E3. rewrite Eb in E2, E3.
    exists b. split; [|split; assumption]. apply (run_into sb_push ocs acs l _ _ _ _ _ E). rewrite <- E1. fold text. clear. generalize (sb_new cap). induction text as [|c t IH]; intro b0; [reflexivity|].
    cbn [push_all map sb_run sb_do]. destruct (sb_push c b0); cbn [bind]; [apply IH|reflexivity..].
Qed.
Print Assumptions C70_buffer.

(** The text with the first character padded to the width of the stream *)
Definition padded (w fill : N) (left : bool) (text : list N) : list N :=
  match text with
  | [] => []
  | c :: t => let pad := repeat fill (N.to_nat (w - 1)) in if left then c :: pad ++ t else pad ++ c :: t
  end.
(** what a device takes of a text *)
Definition taken (room : option N) (text : list N) : list N := match room with None => text | Some r => firstn (N.to_nat r) text end.
Definition refuses (room : option N) (text : list N) : bool := match room with None => false | Some r => r <? N.of_nat (length text) end.

Lemma bad_all : forall l s, os_bad s = true -> push_all oo_push l s = Ret s tt.
Proof. induction l as [|c l IH]; intros s Hs; [reflexivity|]. cbn [push_all oo_push]. unfold oo_push, os_put. rewrite Hs. cbn [bind]. apply IH, Hs. Qed.
Lemma write_bad chunk s : os_bad (os_write chunk s) = os_bad s || refuses (os_room s) chunk.
Proof. unfold os_write, refuses. destruct (os_room s); cbn; [reflexivity|rewrite orb_false_r; reflexivity]. Qed.
Lemma write_bytes chunk s : os_bytes (os_write chunk s) = os_bytes s ++ taken (os_room s) chunk.
Proof.
  unfold os_write, taken. destruct (os_room s) as [r|]; cbn; [|reflexivity]. f_equal. destruct (N.min_spec r (N.of_nat (length chunk))) as [[H ->]|[H ->]]; [reflexivity|].
  rewrite Nat2N.id, !firstn_all2 by lia. reflexivity.
Qed.
Lemma write_room chunk s : os_room (os_write chunk s) = match os_room s with None => None | Some r => Some (r - N.of_nat (length chunk)) end.
Proof. unfold os_write. destruct (os_room s) as [r|]; cbn; [|reflexivity]. f_equal. lia. Qed.
Lemma taken_app room x y : taken room (x ++ y) = taken room x ++ taken (match room with None => None | Some r => Some (r - N.of_nat (length x)) end) y.
Proof. destruct room as [r|]; [|reflexivity]. cbn [taken]. rewrite firstn_app. do 2 f_equal. lia. Qed.
Lemma stream_all : forall l s, os_bad s = false -> os_width s = 0 -> exists s', push_all oo_push l s = Ret s' tt /\
  os_bytes s' = os_bytes s ++ taken (os_room s) l /\ os_bad s' = refuses (os_room s) l.
Proof.
  induction l as [|c l IH]; intros s Hb Hw.
  - exists s. split; [reflexivity|]. destruct (os_room s) as [r|]; cbn [taken refuses length]; rewrite ?firstn_nil, ?app_nil_r; (split; [reflexivity|]); rewrite Hb; [lia|reflexivity].
  - cbn [push_all oo_push]. unfold oo_push, os_put. rewrite Hb, Hw. cbn [bind]. change (N.to_nat (0 - 1)) with 0%nat. cbn [repeat app].
    replace (if os_left s then [c] else [c]) with [c] by (destruct (os_left s); reflexivity).
    set (s1 := mkOs 0 _ _ _ _ _). change (c :: l) with ([c] ++ l). rewrite taken_app.
    assert (B1 : os_bytes s1 = os_bytes s ++ taken (os_room s) [c]) by (unfold s1; cbn [os_bytes]; apply write_bytes).
    assert (R1 : os_room s1 = match os_room s with None => None | Some r => Some (r - N.of_nat (length [c])) end) by (unfold s1; cbn [os_room]; apply write_room).
    assert (D1 : os_bad s1 = refuses (os_room s) [c]) by (unfold s1; cbn [os_bad]; rewrite write_bad, Hb; reflexivity).
    destruct (refuses (os_room s) [c]) eqn:Er.
    + exists s1. split; [apply bad_all; exact D1|]. destruct (os_room s) as [r|]; cbn [refuses length] in Er; [|discriminate Er]. assert (r = 0) by lia. subst r. rewrite B1, D1. split; [cbn; rewrite !app_nil_r; reflexivity|cbn [refuses app length]; lia].
    + destruct (IH s1 D1 eq_refl) as (s' & E1 & E2 & E3). exists s'. split; [exact E1|]. rewrite E2, E3, B1, R1, <- app_assoc. split; [reflexivity|].
      destruct (os_room s) as [r|]; cbn [refuses length app] in *; [lia|reflexivity].
Qed.

(** Into a stream with OstreamOutput: the calls succeed as they do otherwise; the device gets the text, the first character padded to the width set, as far
    as it takes it. *)
Theorem C70_stream : forall ocs acs sub l p rs s, p_run ocs acs l (pr_new sub) = Ret p rs -> os_bad s = false ->
  let text := padded (os_width s) (os_fill s) (os_left s) (concat (map snd rs)) in
  exists s', p_run_into oo_push ocs acs l (pr_new sub, s) = Ret (p, s') (map fst rs) /\
    os_bytes s' = os_bytes s ++ taken (os_room s) text /\ os_bad s' = refuses (os_room s) text.
Proof.
  intros ocs acs sub l p rs s E Hb text.
  assert (G : exists s', push_all oo_push (concat (map snd rs)) s = Ret s' tt /\ os_bytes s' = os_bytes s ++ taken (os_room s) text /\ os_bad s' = refuses (os_room s) text).
  { unfold text, padded. clear E. destruct (concat (map snd rs)) as [|c t].
    - exists s. split; [reflexivity|]. destruct (os_room s) as [r|]; cbn [taken refuses length]; rewrite ?firstn_nil, ?app_nil_r; (split; [reflexivity|]); rewrite Hb; [lia|reflexivity].
    - cbn [push_all]. unfold oo_push at 1, os_put. rewrite Hb. cbn [bind]. set (pad := repeat (os_fill s) (N.to_nat (os_width s - 1))).
      set (chunk := if os_left s then c :: pad else pad ++ [c]).
      assert (Ec : (if os_left s then c :: pad ++ t else pad ++ c :: t) = chunk ++ t) by (unfold chunk; destruct (os_left s); [reflexivity|rewrite <- app_assoc; reflexivity]).
      cbv zeta. rewrite Ec. set (s1 := mkOs 0 _ _ _ _ _). rewrite taken_app.
      assert (B1 : os_bytes s1 = os_bytes s ++ taken (os_room s) chunk) by (unfold s1; cbn [os_bytes]; apply write_bytes).
      assert (R1 : os_room s1 = match os_room s with None => None | Some r => Some (r - N.of_nat (length chunk)) end) by (unfold s1; cbn [os_room]; apply write_room).
      assert (D1 : os_bad s1 = refuses (os_room s) chunk) by (unfold s1; cbn [os_bad]; rewrite write_bad, Hb; reflexivity).
      destruct (refuses (os_room s) chunk) eqn:Er.
      + exists s1. split; [apply bad_all; exact D1|]. destruct (os_room s) as [r|]; cbn [refuses] in Er; [|discriminate Er].
        rewrite B1, D1. cbn [taken refuses]. replace (N.to_nat (r - N.of_nat (length chunk))) with 0%nat by lia. cbn [firstn]. rewrite app_nil_r. split; [reflexivity|]. rewrite app_length. lia.
      + destruct (stream_all t s1 D1 eq_refl) as (s' & E1 & E2 & E3). exists s'. split; [exact E1|]. rewrite E2, E3, B1, R1, <- app_assoc. split; [reflexivity|].
        destruct (os_room s) as [r|]; cbn [refuses] in *; [rewrite app_length; lia|reflexivity]. }
  destruct G as (s' & G1 & G2). exists s'. split; [exact (run_into oo_push ocs acs l _ _ _ _ _ E G1)|exact G2].
Qed.
Print Assumptions C70_stream.

Definition out_calls : list pcall := [POpen (str "abc"); PValue (str "<"); PClose].
Example C70_case : (exists p, p_run UTF8 UTF8 out_calls (pr_new true) = Ret p [(true, str "<abc"); (true, str ">&lt;"); (true, str "</abc>" ++ [10])]) /\
  padded 4 32 false (str "<abc") = str "   <abc" /\ padded 4 32 true (str "<abc") = str "<   abc" /\ taken (Some 3) (str "<abc") = str "<ab" /\ refuses (Some 3) (str "<abc") = true.
Proof. split; [eexists; vm_compute; reflexivity|]. repeat split. Qed.
(** Refuted: all calls succeed with a buffer that holds only a part of the text, with a device that takes only a part, and with a stream that pads the text. *)
Theorem C70_refuted :
  (exists p b, p_run_into sb_push UTF8 UTF8 out_calls (pr_new true, sb_new 3) = Ret (p, b) [true; true; true] /\ sb_content b = str "<ab") /\
  (exists p s, p_run_into oo_push UTF8 UTF8 out_calls (pr_new true, mkOs 0 32 false [] (Some 3) false) = Ret (p, s) [true; true; true] /\ os_bytes s = str "<ab") /\
  (exists p s, p_run_into oo_push UTF8 UTF8 out_calls (pr_new true, mkOs 3 46 true [] None false) = Ret (p, s) [true; true; true] /\ os_bytes s = str "<..abc>&lt;</abc>" ++ [10]).
Proof. repeat split; eexists _, _; split; vm_compute; reflexivity. Qed.
Print Assumptions C70_refuted.

(** ** C71: the last error of the printer.
    What a call says if it fails; the calls for attributes and close tags say nothing *)
Definition complaint (c : pcall) : option (list N) :=
  match c with
  | PHeader _ _ => Some (str "printing xml header not at the beginning of the document")
  | PDoctype _ _ _ => Some (str "defined DOCTYPE with PUBLIC id but no SYSTEM id")
  | PExit | POpen _ | PValue _ => Some (str "printed xml without root element")
  | _ => None
  end.
(** the message of the last failed call which says something, since the last reset *)
Definition error_after (e : option (list N)) (h : pcall * bool) : option (list N) :=
  match h with
  | (PReset _, _) => None
  | (_, true) => e
  | (c, false) => match complaint c with Some m => Some m | None => e end
  end.

Lemma text_error acs f s p p' b : printText acs f s p = Ret p' b -> p' = p.
Proof. unfold printText. destruct (printLoop acs _ f _); cbn [omap]; intro E; try discriminate E. injection E as <- _. reflexivity. Qed.
Lemma all_error ocs acs : forall l p p' b, printAll ocs acs l p = Ret p' b -> p' = p.
Proof.
  induction l as [|s l IH]; intros p p' b E; cbn [printAll] in E; [injection E as <- _; reflexivity|].
  destruct (printToBuffer ocs acs s p) as [p1 b1|p1|p1| |] eqn:E1; try discriminate E. cbn [bind] in E. destruct (printAll ocs acs l p1) as [p2 b2|p2|p2| |] eqn:E2; try discriminate E. cbn [bind] in E.
  injection E as <- _. apply text_error in E1. subst p1. exact (IH _ _ _ E2).
Qed.
Lemma exit_error ocs p p' r : exitTagContext ocs p = Ret p' r -> p_error p' = error_after (p_error p) (PExit, fst r).
Proof. unfold exitTagContext. destruct (p_state p); intro E; injection E as <- <-; reflexivity. Qed.

Lemma do_error ocs acs c p p' r : p_do ocs acs c p = Ret p' r -> p_error p' = error_after (p_error p) (c, fst r).
Proof.
  destruct c as [e s|[r0|] pu sy| |nm|nm|v| |s|]; cbn [p_do]; intro E.
  - unfold printHeader in E. destruct (p_state p); [|injection E as <- <-; reflexivity..].
    destruct s; match type of E with bind (printAll ?o ?a ?l ?q) _ = _ => destruct (printAll o a l q) as [p1 b|p1|p1| |] eqn:E1 end; try discriminate E; cbn [bind] in E; injection E as <- <-; apply all_error in E1; subst p1; reflexivity.
  - unfold printDoctype in E. destruct pu, sy; try (injection E as <- <-; reflexivity);
      match type of E with bind (printAll ?o ?a ?l ?q) _ = _ => destruct (printAll o a l q) as [p1 b|p1|p1| |] eqn:E1 end; try discriminate E; cbn [bind] in E; injection E as <- <-; apply all_error in E1; subst p1; reflexivity.
  - injection E as <- <-. reflexivity.
  - exact (exit_error ocs p p' r E).
  - unfold printOpenTag in E. destruct (exitTagContext ocs p) as [p1 r1|p1|p1| |] eqn:E1; try discriminate E. cbn [bind] in E. pose proof (exit_error ocs p p1 r1 E1) as H1. destruct (fst r1).
    + destruct (printToBuffer ocs acs nm p1) as [p2 b|p2|p2| |] eqn:E2; try discriminate E. cbn [bind] in E. apply text_error in E2. subst p2.
      unfold p_tag in E. destruct (tg_push nm (p_tags p1)) as [t u|t|t| |]; try discriminate E. cbn [omap bind] in E. injection E as <- <-. exact H1.
    + injection E as <- <-. exact H1.
  - unfold printAttribute in E. destruct (p_state p); try (injection E as <- <-; reflexivity).
    destruct (printToBuffer ocs acs nm p) as [p1 b|p1|p1| |] eqn:E1; try discriminate E. cbn [bind] in E. apply text_error in E1. subst p1. injection E as <- <-. reflexivity.
  - unfold printValue in E.
    assert (G : (let! (p1, r) := exitTagContext ocs p in if fst r then let! (p2, b) := printContent ocs acs v p1 in Ret p2 (true, snd r ++ b) else Ret p1 (false, snd r)) = Ret p' r -> p_error p' = error_after (p_error p) (PValue v, fst r)).
    { clear E. intro E. destruct (exitTagContext ocs p) as [p1 r1|p1|p1| |] eqn:E1; try discriminate E. cbn [bind] in E. pose proof (exit_error ocs p p1 r1 E1) as H1. destruct (fst r1).
      - destruct (printContent ocs acs v p1) as [p2 b|p2|p2| |] eqn:E2; try discriminate E. cbn [bind] in E. apply text_error in E2. subst p2. injection E as <- <-. exact H1.
      - injection E as <- <-. exact H1. }
    destruct (p_state p); try exact (G E). unfold printAttributeValue in E.
    match type of E with bind (bind (printText ?a ?f ?s ?q) _) _ = _ => destruct (printText a f s q) as [p1 b|p1|p1| |] eqn:E1 end; try discriminate E. cbn [bind] in E. apply text_error in E1. subst p1. injection E as <- <-. reflexivity.
  - unfold printCloseTag, p_tag in E. destruct (tg_top (p_tags p)) as [t top|t|t| |]; try discriminate E. cbn [omap bind] in E.
    destruct top as [[|b0 n]|]; try (injection E as <- <-; reflexivity). cbn [p_state p_withtags] in E. destruct (p_state p); try (injection E as <- <-; reflexivity).
    + destruct (printToBuffer ocs acs (b0 :: n) (p_withtags p t)) as [p2 b|p2|p2| |] eqn:E2; try discriminate E. cbn [bind] in E. apply text_error in E2. subst p2.
      destruct (tg_pop _) as [t2 u|t2|t2| |]; try discriminate E. cbn [omap bind] in E. injection E as <- <-. reflexivity.
    + destruct (tg_pop _) as [t2 u|t2|t2| |]; try discriminate E. cbn [omap bind] in E. injection E as <- <-. reflexivity.
  - injection E as <- <-. reflexivity.
  - unfold pr_copy in E. destruct (tg_copy (p_tags p)) as [t u|t|t| |]; try discriminate E. injection E as <- <-. reflexivity.
Qed.

(** The last error after every sequence of calls *)
Theorem C71_exact : forall ocs acs sub l p rs, p_run ocs acs l (pr_new sub) = Ret p rs -> p_error p = fold_left error_after (history l rs) None.
Proof.
  intros ocs acs sub l p rs. change None with (p_error (pr_new sub)). generalize (pr_new sub). revert rs.
  induction l as [|c l IH]; intros rs q E; cbn [p_run] in E; [injection E as <- <-; reflexivity|].
  destruct (p_do ocs acs c q) as [p1 r|p1|p1| |] eqn:E1; try discriminate E. cbn [bind] in E. destruct (p_run ocs acs l p1) as [p2 rs2|p2|p2| |] eqn:E2; try discriminate E. cbn [bind] in E.
  injection E as <- <-. unfold history. cbn [map combine fold_left]. rewrite <- (do_error ocs acs c q p1 r E1). exact (IH _ _ E2).
Qed.
Print Assumptions C71_exact.
(** So a call that fails has set the error, if it is not for an attribute or a close tag. *)
Theorem C71_said_partial : forall ocs acs sub l c p rs m, p_run ocs acs (l ++ [c]) (pr_new sub) = Ret p (rs ++ [(false, m)]) -> length rs = length l ->
  (match c with PrintSpec.PAttr _ | PClose => False | _ => True end) -> p_error p = complaint c /\ complaint c <> None.
Proof.
  intros ocs acs sub l c p rs m E Hl Hc. rewrite (C71_exact _ _ _ _ _ _ E). unfold history. rewrite map_app. cbn [map fst].
  assert (Ec : forall (x : list pcall) (y : list bool) a b, length x = length y -> combine (x ++ [a]) (y ++ [b]) = combine x y ++ [(a, b)]).
  { clear. induction x as [|u x IH]; intros [|v y] a b H; try discriminate H; [reflexivity|]. cbn [app combine]. f_equal. apply IH. injection H as H. exact H. }
  rewrite Ec by (rewrite map_length; congruence). rewrite fold_left_app. cbn [fold_left].
  assert (Hr : match c with PReset _ | PCopy => False | _ => True end).
  { assert (E1 : exists q q', p_do ocs acs c q = Ret q' (false, m)).
    { clear -E Hl. revert rs Hl E. generalize (pr_new sub). induction l as [|d l IH]; intros q rs Hl E.
      - destruct rs; [|discriminate Hl]. cbn [app p_run] in E. destruct (p_do ocs acs c q) as [p1 r|p1|p1| |] eqn:E1; try discriminate E. cbn [bind] in E. injection E as <- ->. exists q, p1. exact E1.
      - destruct rs as [|r rs]; [discriminate Hl|]. cbn [app p_run] in E. destruct (p_do ocs acs d q) as [p1 r1|p1|p1| |]; try discriminate E. cbn [bind] in E.
        destruct (p_run ocs acs (l ++ [c]) p1) as [p2 rs2|p2|p2| |] eqn:E2; try discriminate E. cbn [bind] in E. injection E as <- _ ->. injection Hl as Hl. exact (IH p1 rs Hl E2). }
    destruct E1 as (q & q' & E1). destruct c; try exact I; cbn [p_do] in E1; [discriminate E1|]. destruct (pr_copy q); discriminate E1. }
  destruct c; try destruct Hc; try destruct Hr; cbn [error_after complaint]; (split; [reflexivity|discriminate]).
Qed.
Print Assumptions C71_said_partial.

Example C71_case : exists p, p_run UTF8 UTF8 [POpen (str "a"); PHeader None None; POpen (str "a"); PHeader None None; PClose] (pr_new false) =
  Ret p [(false, []); (true, str "<?xml version=""1.0"" encoding=""UTF-8""?>" ++ [10]); (true, str "<a"); (false, []); (true, str "/>" ++ [10])].
Proof. eexists. vm_compute. reflexivity. Qed.
(** Refuted: attributes outside of tags and close tags without open tag fail without an error; and the error stays after calls that succeed. *)
Theorem C71_refuted :
  (exists p, p_run UTF8 UTF8 [PrintSpec.PAttr (str "a")] (pr_new true) = Ret p [(false, [])] /\ p_error p = None) /\
  (exists p, p_run UTF8 UTF8 [PClose] (pr_new true) = Ret p [(false, [])] /\ p_error p = None) /\
  (exists p rs, p_run UTF8 UTF8 [POpen (str "a"); PHeader None None; POpen (str "a"); PClose] (pr_new false) = Ret p rs /\ map fst rs = [false; true; true; true] /\
     p_error p = Some (str "printed xml without root element")).
Proof. split; [eexists; split; vm_compute; reflexivity|]. split; [eexists; split; vm_compute; reflexivity|]. eexists _, _. split; [vm_compute; reflexivity|]. split; vm_compute; reflexivity. Qed.
Print Assumptions C71_refuted.
