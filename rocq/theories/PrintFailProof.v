(** Printing to a buffer that throws (proofs). *)
From Coq Require Import Lia.
From Verif Require Import Base Iter Charset TextScanner TagStack XmlPrinter PrintSpec PrintProofs PrintFail PrintFailSpec.

Lemma put_app : forall a b w, w_put (a ++ b) w = let! (w, _) := w_put a w in w_put b w.
Proof. induction a as [|x a IH]; intros b w; [destruct w; reflexivity|]. cbn [app w_put]. destruct (w_ans w) as [|[|] r]; [apply IH|apply IH|reflexivity]. Qed.
Lemma put_is : forall l p buf ans, w_put l (mkW p buf ans) =
  match refused (length l) ans with
  | None => Ret (mkW p (buf ++ l) (skipn (length l) ans)) tt
  | Some k => Throw (mkW p (buf ++ firstn k l) (skipn (S k) ans))
  end.
Proof.
  induction l as [|x l IH]; intros p buf ans; cbn [w_put length refused].
  - rewrite app_nil_r. reflexivity.
  - cbn [w_ans w_p w_buf]. destruct ans as [|[|] r].
    + rewrite IH. destruct l; cbn [length refused]; rewrite <- app_assoc; [reflexivity|]. reflexivity.
    + rewrite IH. destruct (refused (length l) r) as [k|]; cbn [option_map firstn skipn]; rewrite <- app_assoc; reflexivity.
    + cbn [firstn skipn]. rewrite app_nil_r. reflexivity.
Qed.
Lemma refused_app : forall n m ans, refused (n + m) ans = match refused n ans with Some k => Some k | None => option_map (Nat.add n) (refused m (skipn n ans)) end.
Proof.
  induction n as [|n IH]; intros m ans.
  - cbn [Nat.add refused skipn]. destruct (refused m ans); reflexivity.
  - destruct ans as [|[|] r]; cbn [Nat.add refused skipn]; [destruct m; reflexivity| |reflexivity]. rewrite IH. destruct (refused n r); [reflexivity|]. cbn [option_map]. destruct (refused m (skipn n r)); reflexivity.
Qed.
Lemma skip_skip : forall {A} n m (l : list A), skipn m (skipn n l) = skipn (m + n) l.
Proof. intros A. induction n as [|n IH]; intros m l; [rewrite Nat.add_0_r; reflexivity|]. destruct l as [|x l]; [rewrite !skipn_nil; reflexivity|]. rewrite Nat.add_succ_r. cbn [skipn]. apply IH. Qed.
Lemma refused_lt : forall n ans k, refused n ans = Some k -> (k < n)%nat.
Proof.
  induction n as [|n IH]; intros ans k E; [destruct ans; discriminate E|]. destruct ans as [|[|] r]; cbn [refused] in E; [discriminate E| |injection E as <-; lia].
  destruct (refused n r) as [j|] eqn:Ej; [|discriminate E]. injection E as <-. apply IH in Ej. lia.
Qed.

Section WithCharsets.
Context (ocs acs : charset).
Lemma chars_is : forall l w, w_chars ocs l w = w_put (flat_map (p_print ocs) l) w.
Proof. induction l as [|c l IH]; intros w; [reflexivity|]. cbn [w_chars flat_map]. rewrite put_app. unfold w_char at 1, p_print at 1. destruct (w_put (cs_print ocs c) w); cbn [bind]; auto. Qed.
Lemma subst_is echr estr c w : w_subst ocs echr estr c w = match printSubst ocs echr estr c with Some b => w_put b w | None => Undef end.
Proof.
  unfold w_subst, printSubst. destruct (c <? 128); [|reflexivity]. unfold w_esc, printEsc. destruct (memchr c echr) as [i|]; [|reflexivity]. destruct (nth_error estr i) as [[es|]|]; try reflexivity. apply chars_is.
Qed.
Lemma loop_is f g : (forall c w, g c w = match f c with Some b => w_put b w | None => Undef end) ->
  forall n t t' b w, printLoop acs n f t = Ret t' b -> w_loop acs n g t w = w_put b w.
Proof.
  intro G. induction n as [|n IH]; intros t t' b w E; [discriminate E|]. cbn [printLoop w_loop] in *. destruct (ts_chr cstr_ops (default_cs acs) t) as [t1 c|t1|t1| |]; try discriminate E. cbn [bind] in E.
  destruct (c =? 0); [injection E as <- <-; reflexivity|]. rewrite G. destruct (f c) as [x|]; [|discriminate E].
  destruct (ts_skip cstr_ops (default_cs acs) t1) as [t2 u|t2|t2| |]; try discriminate E. cbn [bind] in E. destruct (printLoop acs n f t2) as [t3 r|t3|t3| |] eqn:L; try discriminate E. cbn [bind] in E. injection E as <- <-.
  rewrite put_app. destruct (w_put x w) as [w1 u1|w1|w1| |]; cbn [bind]; try reflexivity. apply (IH _ _ _ _ L).
Qed.
Lemma text_is f g src p p' b w : (forall c w, g c w = match f c with Some b => w_put b w | None => Undef end) -> printText acs f src p = Ret p' b -> p' = p /\ w_text acs g src w = w_put b w.
Proof.
  intros G E. unfold printText, w_text in *. destruct (printLoop acs (S (length src)) f (ts_make (cstr_make src))) as [t r|t|t| |] eqn:L; try discriminate E. cbn [omap] in E. injection E as <- <-.
  split; [reflexivity|]. eapply loop_is; [exact G|exact L].
Qed.
Lemma buffer_is src p p' b w : printToBuffer ocs acs src p = Ret p' b -> p' = p /\ w_printToBuffer ocs acs src w = w_put b w.
Proof. apply text_is. reflexivity. Qed.
Lemma all_is : forall l p p' b, printAll ocs acs l p = Ret p' b -> p' = p /\ forall w, w_all ocs acs l w = w_put b w.
Proof.
  induction l as [|s l IH]; intros p p' b E; cbn [printAll w_all] in *; [injection E as <- <-; auto|].
  destruct (printToBuffer ocs acs s p) as [p1 b1|p1|p1| |] eqn:E1; try discriminate E. cbn [bind] in E. destruct (printAll ocs acs l p1) as [p2 b2|p2|p2| |] eqn:E2; try discriminate E. cbn [bind] in E. injection E as <- <-.
  destruct (buffer_is _ _ _ _ (mkW p [] []) E1) as [-> _]. destruct (IH _ _ _ E2) as [-> W]. split; [reflexivity|]. intro w. destruct (buffer_is _ _ _ _ w E1) as [_ ->]. rewrite put_app.
  destruct (w_put b1 w); cbn [bind]; auto.
Qed.
Lemma top_same t t' o : tg_top t = Ret t' o -> t' = t.
Proof. unfold tg_top. destruct (tg_topofs t) as [[ofs nn]|]; [|discriminate]. destruct (ofs =? 0); [intro E; injection E as <- <-; reflexivity|]. destruct (_ <=? _); [intro E; injection E as <- <-; reflexivity|discriminate]. Qed.

(** the outcome of a call *)
Definition call_is (c : pcall) (p p' : printer) (r : bool) (b : list N) : Prop := forall buf ans, w_do ocs acs c (mkW p buf ans) =
  match refused (length b) ans with
  | None => Ret (mkW p' (buf ++ b) (skipn (length b) ans)) r
  | Some k => Throw (mkW (left_by ocs c k p p' b) (buf ++ firstn k b) (skipn (S k) ans))
  end.
Lemma printer_eta p : mkPrinter (p_state p) (p_tags p) (p_error p) = p.
Proof. destruct p; reflexivity. Qed.
(** two parts *)
Lemma two l1 l2 p q p' buf ans (r : bool) (f : pwriter -> pwriter) :
  (forall buf ans, f (mkW p buf ans) = mkW q buf ans) ->
  (let! (w, _) := w_put l1 (mkW p buf ans) in let! (w, _) := w_put l2 (f w) in Ret (w_set p' w) r) =
  match refused (length (l1 ++ l2)) ans with
  | None => Ret (mkW p' (buf ++ l1 ++ l2) (skipn (length (l1 ++ l2)) ans)) r
  | Some k => Throw (mkW (if Nat.ltb k (length l1) then p else q) (buf ++ firstn k (l1 ++ l2)) (skipn (S k) ans))
  end.
Proof.
  intro F. rewrite put_is, app_length, refused_app. destruct (refused (length l1) ans) as [k|] eqn:E; cbn [bind].
  - apply refused_lt in E. rewrite (proj2 (Nat.ltb_lt _ _) E), firstn_app. replace (k - length l1)%nat with 0%nat by lia. rewrite app_nil_r. reflexivity.
  - rewrite F, put_is. destruct (refused (length l2) (skipn (length l1) ans)) as [k|]; cbn [option_map bind].
    + rewrite (proj2 (Nat.ltb_ge _ _)) by lia. rewrite firstn_app, (firstn_all2 l1) by lia. replace (length l1 + k - length l1)%nat with k by lia. rewrite <- app_assoc.
      replace (S (length l1 + k)) with (S k + length l1)%nat by lia. rewrite <- skip_skip. reflexivity.
    + unfold w_set. cbn [w_p w_buf w_ans]. rewrite <- app_assoc. rewrite skip_skip. replace (length l2 + length l1)%nat with (length l1 + length l2)%nat by lia. reflexivity.
Qed.
Lemma one_part l p p' buf ans (r : bool) :
  (let! (w, _) := w_put l (mkW p buf ans) in Ret (w_set p' w) r) =
  match refused (length l) ans with
  | None => Ret (mkW p' (buf ++ l) (skipn (length l) ans)) r
  | Some k => Throw (mkW p (buf ++ firstn k l) (skipn (S k) ans))
  end.
Proof. rewrite put_is. destruct (refused (length l) ans); reflexivity. Qed.
Lemma put_keeps l p buf ans : match w_put l (mkW p buf ans) with Ret w _ => w_p w = p | Throw w => w_p w = p | _ => False end.
Proof. rewrite put_is. destruct (refused (length l) ans); reflexivity. Qed.

Lemma chars2 a b w : w_char ocs a w = w_put (cs_print ocs a) w /\ (let! (w, _) := w_char ocs a w in w_char ocs b w) = w_put (cs_print ocs a ++ cs_print ocs b) w.
Proof. split; [reflexivity|]. rewrite put_app. reflexivity. Qed.
Lemma bind_assoc {S A B C} (m : out S A) (f : S -> A -> out S B) (g : S -> B -> out S C) : bind (bind m f) g = bind m (fun s a => bind (f s a) g).
Proof. destruct m; reflexivity. Qed.
(** [w_put] one after the other *)
Lemma put_put {A} a b w (g : pwriter -> unit -> out pwriter A) : bind (w_put a w) (fun w _ => bind (w_put b w) g) = bind (w_put (a ++ b) w) g.
Proof. rewrite put_app, bind_assoc. reflexivity. Qed.
Lemma exit_call p p' r b : exitTagContext ocs p = Ret p' (r, b) -> 
  (p_state p = PContent /\ p' = p /\ r = true /\ b = [] \/ p_state p = PInit /\ p' = p_fail p (str "printed xml without root element") /\ r = false /\ b = [] \/
   (p_state p = PTagElement \/ p_state p = PTagAttribute) /\ p' = p_set p PContent /\ r = true /\ b = cs_print ocs 62).
Proof. unfold exitTagContext. destruct (p_state p) eqn:E; intro Q; injection Q as <- <- <-; unfold printChar, p_print; auto 10. Qed.
(** after the end of a start tag, if there is one *)
Lemma exit_put p buf ans p1 b1 : exitTagContext ocs p = Ret p1 (true, b1) -> forall A (g : pwriter -> bool -> out pwriter A),
  bind (w_exit ocs (mkW p buf ans)) g = bind (w_put b1 (mkW p buf ans)) (fun w _ => g (w_set p1 w) true).
Proof.
  intros E A g. unfold w_exit. cbn [w_p]. destruct (exit_call _ _ _ _ E) as [(S & -> & _ & ->)|[(S & _ & Q & _)|(S & -> & _ & ->)]]; [rewrite S; reflexivity|discriminate Q|].
  assert (Q : bind (let! (w, _) := w_char ocs 62 (mkW p buf ans) in Ret (w_set (p_set (w_p w) PContent) w) true) g = bind (w_put (cs_print ocs 62) (mkW p buf ans)) (fun w _ => g (w_set (p_set p PContent) w) true)).
  { rewrite bind_assoc. unfold w_char. rewrite put_is. destruct (refused (length (cs_print ocs 62)) ans); reflexivity. }
  destruct S as [-> | ->]; exact Q.
Qed.
Lemma tag_same w (m : out tagstack (option (list N))) t o : m = Ret t o -> t = p_tags (w_p w) -> w_tag w m = Ret w o.
Proof. intros -> ->. unfold w_tag. cbn [omap]. destruct w as [[a b c] d e]. reflexivity. Qed.
Lemma do_is c p p' r b : p_do ocs acs c p = Ret p' (r, b) -> call_is c p p' r b.
Proof.
  intros E buf ans. destruct c as [e s|ro pu sy| |n|n|v| |s|]; cbn [p_do w_do] in *.
  - (* header *)
    unfold printHeader, w_header in *. cbn [w_p]. destruct (p_state p) eqn:St; try (injection E as <- <- <-; cbn [length refused skipn]; rewrite app_nil_r; destruct ans; reflexivity). cbn [left_by].
    assert (K : forall l, (let! (p1, b) := printAll ocs acs l p in Ret (p_set p1 PContent) (true, b)) = Ret p' (r, b) ->
       (let! (w, _) := w_all ocs acs l (mkW p buf ans) in Ret (w_set (p_set (w_p w) PContent) w) true) =
       match refused (length b) ans with
       | None => Ret (mkW p' (buf ++ b) (skipn (length b) ans)) r
       | Some k => Throw (mkW p (buf ++ firstn k b) (skipn (S k) ans))
       end).
    { intros l Q. destruct (printAll ocs acs l p) as [p1 b1|p1|p1| |] eqn:E1; try discriminate Q. cbn [bind] in Q. injection Q as <- <- <-. destruct (all_is _ _ _ _ E1) as [-> W]. rewrite W, put_is.
      destruct (refused (length b1) ans); reflexivity. }
    destruct s as [s|]; apply K; exact E.
  - (* doctype *)
    unfold printDoctype, w_doctype in *. cbn [left_by].
    assert (K : forall l, (let! (p1, b) := printAll ocs acs l p in Ret p1 (true, b)) = Ret p' (r, b) ->
       (let! (w, _) := w_all ocs acs l (mkW p buf ans) in Ret w true) =
       match refused (length b) ans with
       | None => Ret (mkW p' (buf ++ b) (skipn (length b) ans)) r
       | Some k => Throw (mkW p (buf ++ firstn k b) (skipn (S k) ans))
       end).
    { intros l Q. destruct (printAll ocs acs l p) as [p1 b1|p1|p1| |] eqn:E1; try discriminate Q. cbn [bind] in Q. injection Q as <- <- <-. destruct (all_is _ _ _ _ E1) as [-> W]. rewrite W, put_is.
      destruct (refused (length b1) ans); reflexivity. }
    assert (N : forall q (x : bool), Ret q (x, []) = Ret p' (r, b) -> Ret (w_set q (mkW p buf ans)) x = match refused (length b) ans with None => Ret (mkW p' (buf ++ b) (skipn (length b) ans)) r | Some k => Throw (mkW p (buf ++ firstn k b) (skipn (S k) ans)) end).
    { intros q x Q. injection Q as <- <- <-. cbn [length refused skipn]. rewrite app_nil_r. destruct ans; reflexivity. }
    destruct ro as [ro|]; [|exact (N p true E)]. destruct pu as [pu|], sy as [sy|]; try (apply K; exact E). exact (N _ _ E).
  - (* exit *)
    cbn [left_by]. unfold w_exit. cbn [w_p]. destruct (exit_call _ _ _ _ E) as [(St & -> & -> & ->)|[(St & -> & -> & ->)|(St & -> & -> & ->)]].
    + rewrite St. cbn [length refused skipn]. rewrite app_nil_r. destruct ans; reflexivity.
    + rewrite St. cbn [length refused skipn]. rewrite app_nil_r. destruct ans; reflexivity.
    + assert (Q : (let! (w, _) := w_char ocs 62 (mkW p buf ans) in Ret (w_set (p_set (w_p w) PContent) w) true) = match refused (length (cs_print ocs 62)) ans with None => Ret (mkW (p_set p PContent) (buf ++ cs_print ocs 62) (skipn (length (cs_print ocs 62)) ans)) true | Some k => Throw (mkW p (buf ++ firstn k (cs_print ocs 62)) (skipn (S k) ans)) end).
      { unfold w_char. rewrite put_is. destruct (refused (length (cs_print ocs 62)) ans); reflexivity. }
      destruct St as [-> | ->]; exact Q.
  - (* open *)
    unfold printOpenTag in E. destruct (exitTagContext ocs p) as [p1 [r1 b1]|p1|p1| |] eqn:E1; try discriminate E. cbn [bind fst snd] in E. destruct r1.
    + unfold w_open. rewrite (exit_put _ _ _ _ _ E1). destruct (printToBuffer ocs acs n p1) as [p2 b2|p2|p2| |] eqn:E2; try discriminate E. cbn [bind] in E. destruct (buffer_is _ _ _ _ (mkW p [] []) E2) as [-> _].
      unfold p_tag in E. destruct (tg_push n (p_tags p1)) as [t u|t|t| |] eqn:E3; try discriminate E. cbn [omap bind] in E. injection E as <- <- <-.
      transitivity (let! (w, _) := w_put b1 (mkW p buf ans) in let! (w, _) := w_put (cs_print ocs 60 ++ b2) (w_set p1 w) in Ret (w_set (p_set (p_withtags p1 t) PTagElement) w) true).
      { pose proof (put_keeps b1 p buf ans) as Kp. destruct (w_put b1 (mkW p buf ans)) as [w u1|w|w| |]; try reflexivity. cbn [bind]. unfold w_set. rewrite <- put_put. unfold w_char.
        pose proof (put_keeps (cs_print ocs 60) p1 (w_buf w) (w_ans w)) as K2. destruct (w_put (cs_print ocs 60) (mkW p1 (w_buf w) (w_ans w))) as [[q2 bf2 an2] u2|w2|w2| |]; try reflexivity. cbn [bind w_p] in *. subst q2.
        destruct (buffer_is _ _ _ _ (mkW p1 bf2 an2) E2) as [_ ->]. rewrite put_is. destruct (refused (length b2) an2); [reflexivity|]. cbn [bind w_p]. rewrite E3. reflexivity. }
      rewrite (two b1 (cs_print ocs 60 ++ b2) p p1 _ buf ans true (w_set p1)) by reflexivity. unfold printChar, p_print.
      destruct (refused (length (b1 ++ cs_print ocs 60 ++ b2)) ans) as [k|]; [|reflexivity]. do 2 f_equal. cbn [left_by].
      destruct (exit_call _ _ _ _ E1) as [(St & -> & _ & ->)|[(St & _ & Q & _)|(St & -> & _ & ->)]]; [rewrite St; destruct (Nat.ltb _ _); reflexivity|discriminate Q|]. destruct St as [-> | ->]; reflexivity.
    + injection E as <- <- <-. unfold w_open. destruct (exit_call _ _ _ _ E1) as [(_ & _ & Q & _)|[(St & -> & _ & ->)|(_ & _ & Q & _)]]; try discriminate Q. unfold w_exit. cbn [w_p]. rewrite St. cbn [bind length refused skipn]. rewrite app_nil_r. destruct ans; reflexivity.
  - (* attribute *)
    unfold printAttribute, w_attr in *. cbn [w_p left_by]. destruct (p_state p) eqn:St; try (injection E as <- <- <-; cbn [length refused skipn]; rewrite app_nil_r; destruct ans; reflexivity).
    destruct (printToBuffer ocs acs n p) as [p2 b2|p2|p2| |] eqn:E2; try discriminate E. cbn [bind] in E. destruct (buffer_is _ _ _ _ (mkW p [] []) E2) as [-> _]. injection E as <- <- <-. unfold printChar, p_print.
    rewrite <- one_part. rewrite <- put_put. unfold w_char. pose proof (put_keeps (cs_print ocs 32) p buf ans) as K1. destruct (w_put (cs_print ocs 32) (mkW p buf ans)) as [w u|w|w| |]; try reflexivity. cbn [bind].
    rewrite <- put_put. destruct w as [q bf an]. cbn [w_p] in K1. subst q. destruct (buffer_is _ _ _ _ (mkW p bf an) E2) as [_ ->]. pose proof (put_keeps b2 p bf an) as K2. destruct (w_put b2 (mkW p bf an)) as [w2 u2|w2|w2| |]; try reflexivity. cbn [bind].
    destruct w2 as [q bf2 an2]. cbn [w_p] in K2. subst q. rewrite put_is. destruct (refused (length (cs_print ocs 61)) an2); reflexivity.
  - (* value *)
    unfold printValue, w_value in *. cbn [w_p]. destruct (p_state p) eqn:St.
    1, 2, 4: (destruct (exitTagContext ocs p) as [p1 [r1 b1]|p1|p1| |] eqn:E1; try discriminate E; cbn [bind fst snd] in E; destruct r1;
      [rewrite (exit_put _ _ _ _ _ E1); destruct (printContent ocs acs v p1) as [p2 b2|p2|p2| |] eqn:E2; try discriminate E; cbn [bind] in E; injection E as <- <- <-;
       assert (W : p2 = p1 /\ forall w, w_content ocs acs v w = w_put b2 w) by (split; [exact (proj1 (text_is _ _ _ _ _ _ (mkW p [] []) (subst_is content_echr content_estr) E2))|intro w; exact (proj2 (text_is _ _ _ _ _ _ w (subst_is content_echr content_estr) E2))]);
       destruct W as [-> W];
       transitivity (let! (w, _) := w_put b1 (mkW p buf ans) in let! (w, _) := w_put b2 (w_set p1 w) in Ret (w_set p1 w) true);
       [destruct (w_put b1 (mkW p buf ans)) as [w u|w|w| |]; try reflexivity; cbn [bind]; rewrite W; unfold w_set; rewrite put_is; destruct (refused (length b2) (w_ans w)); reflexivity|];
       rewrite (two b1 b2 p p1 _ buf ans true (w_set p1)) by reflexivity;
       destruct (refused (length (b1 ++ b2)) ans) as [k|]; [|reflexivity]; do 2 f_equal; cbn [left_by]; rewrite St;
       destruct (exit_call _ _ _ _ E1) as [(St' & -> & _ & ->)|[(St' & _ & Q & _)|(St' & -> & _ & ->)]]; first [discriminate Q|(destruct (Nat.ltb _ _); reflexivity)|(rewrite St in St'; discriminate St')|(destruct St' as [St'|St']; rewrite St in St'; discriminate St')]
      |injection E as <- <- <-; destruct (exit_call _ _ _ _ E1) as [(_ & _ & Q & _)|[(St' & -> & _ & ->)|(_ & _ & Q & _)]]; try discriminate Q; unfold w_exit; cbn [w_p]; rewrite St'; cbn [bind length refused skipn]; rewrite app_nil_r; destruct ans; reflexivity]).
    unfold printAttributeValue in E. destruct (printText acs (printSubst ocs attr_echr attr_estr) v p) as [p2 b2|p2|p2| |] eqn:E2; try discriminate E. cbn [bind] in E. injection E as <- <- <-. cbn [left_by]. rewrite St.
    assert (W : p2 = p /\ forall w, w_text acs (w_subst ocs attr_echr attr_estr) v w = w_put b2 w).
    { split; [exact (proj1 (text_is _ _ _ _ _ _ (mkW p [] []) (subst_is attr_echr attr_estr) E2))|]. intro w. exact (proj2 (text_is _ _ _ _ _ _ w (subst_is attr_echr attr_estr) E2)). }
    destruct W as [-> W]. unfold w_attributeValue, p_print. rewrite <- one_part. rewrite <- put_put. unfold w_char. rewrite bind_assoc.
    pose proof (put_keeps (cs_print ocs 34) p buf ans) as K1. destruct (w_put (cs_print ocs 34) (mkW p buf ans)) as [w u|w|w| |]; try reflexivity. cbn [bind]. rewrite <- put_put, bind_assoc, W.
    destruct w as [q bf an]. cbn [w_p] in K1. subst q. pose proof (put_keeps b2 p bf an) as K2. destruct (w_put b2 (mkW p bf an)) as [w2 u2|w2|w2| |]; try reflexivity. cbn [bind].
    destruct w2 as [q bf2 an2]. cbn [w_p] in K2. subst q. rewrite put_is. destruct (refused (length (cs_print ocs 34)) an2); reflexivity.
  - (* close *)
    unfold printCloseTag, p_tag, w_close in *. cbn [w_p]. destruct (tg_top (p_tags p)) as [t top|t|t| |] eqn:E1; try discriminate E. pose proof (top_same _ _ _ E1) as ->. cbn [omap bind] in E.
    rewrite (tag_same (mkW p buf ans) _ (p_tags p) top eq_refl eq_refl). cbn [bind w_p]. replace (p_withtags p (p_tags p)) with p in E by (destruct p; reflexivity).
    assert (N : Ret p (false, []) = Ret p' (r, b) -> Ret (mkW p buf ans) false = match refused (length b) ans with None => Ret (mkW p' (buf ++ b) (skipn (length b) ans)) r | Some k => Throw (mkW (left_by ocs PClose k p p' b) (buf ++ firstn k b) (skipn (S k) ans)) end).
    { intro Q. injection Q as <- <- <-. cbn [length refused skipn]. rewrite app_nil_r. destruct ans; reflexivity. }
    destruct top as [[|c0 cl]|]; [exact (N E)| |exact (N E)].
    (* what is printed first, then the new line *)
    assert (F : forall b1 q0, p_tags q0 = p_tags p -> (let! (p2, u) := omap (p_withtags q0) (tg_pop (p_tags q0)) in Ret p2 (true, b1 ++ (if tg_empty (p_tags p2) then printChar ocs 10 else []))) = Ret p' (r, b) ->
      (let! (w, _) := w_put b1 (mkW p buf ans) in (let! (w, _) := w_tag (w_set q0 w) (tg_pop (p_tags q0)) in if tg_empty (p_tags (w_p w)) then let! (w, _) := w_char ocs 10 w in Ret w true else Ret w true)) =
      match refused (length b) ans with None => Ret (mkW p' (buf ++ b) (skipn (length b) ans)) r | Some k => Throw (mkW (left_by ocs PClose k p p' b) (buf ++ firstn k b) (skipn (S k) ans)) end).
    { intros b1 q0 Tq Q. destruct (tg_pop (p_tags q0)) as [t2 u2|t2|t2| |] eqn:E2; try discriminate Q. cbn [omap bind] in Q. injection Q as <- <- <-.
      unfold printChar, p_print, w_char. cbn [left_by]. set (p2 := p_withtags q0 t2) in *. change (p_tags p2) with t2. set (nl := if tg_empty t2 then cs_print ocs 10 else []).
      transitivity (let! (w, _) := w_put b1 (mkW p buf ans) in let! (w, _) := w_put nl (w_set p2 w) in Ret (w_set p2 w) true).
      { destruct (w_put b1 (mkW p buf ans)) as [w u|w|w| |]; try reflexivity. cbn [bind]. unfold w_tag. cbn [omap bind w_set w_p w_buf w_ans]. fold p2. change (p_tags p2) with t2. subst nl. destruct (tg_empty t2); [|reflexivity]. unfold w_set. cbn [w_p w_buf w_ans]. fold p2.
        rewrite put_is. destruct (refused (length (cs_print ocs 10)) (w_ans w)); reflexivity. }
      rewrite (two b1 nl p p2 _ buf ans true (w_set p2)) by reflexivity. destruct (refused (length (b1 ++ nl)) ans) as [k|] eqn:Rf; [|reflexivity]. apply refused_lt in Rf. do 2 f_equal. rewrite app_length in *.
      subst nl. destruct (tg_empty t2); cbn [andb length] in *.
      - destruct (Nat.ltb_spec k (length b1)); destruct (Nat.leb_spec (length b1 + length (cs_print ocs 10)) (k + length (cs_print ocs 10))); reflexivity || lia.
      - destruct (Nat.ltb_spec k (length b1)); [destruct (p_state p); reflexivity|lia]. }
    destruct (p_state p) eqn:St; try exact (N E).
    + destruct (printToBuffer ocs acs (c0 :: cl) p) as [p2 b2|p2|p2| |] eqn:E2; try discriminate E. cbn [bind] in E. destruct (buffer_is _ _ _ _ (mkW p [] []) E2) as [-> _].
      rewrite <- (F _ p eq_refl E). unfold printChar, p_print. rewrite <- put_put. unfold w_char. pose proof (put_keeps (cs_print ocs 60) p buf ans) as K1. destruct (w_put (cs_print ocs 60) (mkW p buf ans)) as [[q bf an] u|w|w| |]; try reflexivity. cbn [bind w_p] in *. subst q.
      rewrite <- put_put. pose proof (put_keeps (cs_print ocs 47) p bf an) as K1. destruct (w_put (cs_print ocs 47) (mkW p bf an)) as [[q bf1 an1] u1|w|w| |]; try reflexivity. cbn [bind w_p] in *. subst q.
      rewrite <- put_put. destruct (buffer_is _ _ _ _ (mkW p bf1 an1) E2) as [_ ->]. pose proof (put_keeps b2 p bf1 an1) as K1. destruct (w_put b2 (mkW p bf1 an1)) as [[q bf2 an2] u2|w|w| |]; try reflexivity. cbn [bind w_p] in *. subst q.
      pose proof (put_keeps (cs_print ocs 62) p bf2 an2) as K1. destruct (w_put (cs_print ocs 62) (mkW p bf2 an2)) as [[q bf3 an3] u3|w|w| |]; try reflexivity. cbn [bind w_p] in *. subst q. reflexivity.
    + rewrite <- (F _ (p_set p PContent) eq_refl E). unfold printChar, p_print. rewrite <- put_put. unfold w_char. pose proof (put_keeps (cs_print ocs 47) p buf ans) as K1. destruct (w_put (cs_print ocs 47) (mkW p buf ans)) as [[q bf an] u|w|w| |]; try reflexivity. cbn [bind w_p] in *. subst q.
      pose proof (put_keeps (cs_print ocs 62) p bf an) as K1. destruct (w_put (cs_print ocs 62) (mkW p bf an)) as [[q bf1 an1] u1|w|w| |]; try reflexivity. cbn [bind w_p] in *. subst q. reflexivity.
  - injection E as <- <- <-. cbn [length refused skipn]. rewrite app_nil_r. destruct ans; reflexivity.
  - unfold pr_copy in *. cbn [w_p]. destruct (tg_copy (p_tags p)) as [t t'|t|t| |]; try discriminate E. injection E as <- <- <-. cbn [length refused skipn]. rewrite app_nil_r. destruct ans; reflexivity.
Qed.
End WithCharsets.

(** ** sequences of calls *)
Lemma refusals_skip : forall n ans, (refusals (skipn n ans) <= refusals ans)%nat.
Proof. induction n as [|n IH]; intros ans; [apply le_n|]. destruct ans as [|[|] r]; [apply le_n| |]; cbn [skipn]; specialize (IH r); unfold refusals in *; cbn [filter negb length] in *; lia. Qed.
Lemma refusals_at : forall n ans k, refused n ans = Some k -> (S (refusals (skipn (S k) ans)) <= refusals ans)%nat.
Proof.
  induction n as [|n IH]; intros ans k E; [destruct ans; discriminate E|]. destruct ans as [|[|] r]; cbn [refused] in E; [discriminate E| |injection E as <-; unfold refusals; cbn; lia].
  destruct (refused n r) as [j|] eqn:Ej; [|discriminate E]. injection E as <-. apply IH in Ej. exact Ej.
Qed.
Lemma tell_run ocs acs : cs_constructible acs = true -> forall h a p buf ans, pr_is a p -> Forall call_ok h -> stack_size (a_stack a) + N.of_nat (opened h) <= 2 ^ 62 ->
  exists w rs h' rs' t, w_run ocs acs h (mkW p buf ans) = Ret w rs /\ p_run ocs acs h' p = Ret (w_p w) rs' /\ told h rs t h' rs' /\ w_buf w = buf ++ t /\ (throws rs + refusals (w_ans w) <= refusals ans)%nat.
Proof.
  intro Hacs. induction h as [|c h IH]; intros a p buf ans Ha Hl Hs.
  - exists (mkW p buf ans), [], [], [], []. cbn [w_run p_run w_buf w_ans w_p]. rewrite app_nil_r. split; [reflexivity|]. split; [reflexivity|]. split; [constructor|]. split; [reflexivity|apply le_n].
  - inversion Hl as [|? ? Hc Hl']; subst. rewrite opened_cons in Hs. pose proof (a_do_size acs c a) as Hsz.
    destruct (a_do_is ocs acs Hacs c a p Ha Hc) as [p1 [E1 H1]]; [lia|]. set (r := fst (snd (a_do acs c a))) in *. set (b := enc ocs (snd (snd (a_do acs c a)))) in *.
    pose proof (do_is ocs acs c p p1 r b E1 buf ans) as W. cbn [w_run]. destruct (refused (length b) ans) as [k|] eqn:Rf.
    + assert (Lk := refused_lt _ _ _ Rf). assert (Rk := refusals_at _ _ _ Rf). rewrite W.
      (* the printer as before *)
      assert (U : forall q, q = p -> exists w rs h' rs' t, (let! (w, rs) := w_run ocs acs h (mkW q (buf ++ firstn k b) (skipn (S k) ans)) in Ret w (None :: rs)) = Ret w rs /\ p_run ocs acs h' p = Ret (w_p w) rs' /\ told (c :: h) rs t h' rs' /\ w_buf w = buf ++ t /\ (throws rs + refusals (w_ans w) <= refusals ans)%nat).
      { intros q ->. destruct (IH a p (buf ++ firstn k b) (skipn (S k) ans) Ha Hl') as (w & rs & h' & rs' & t & Ew & Ep & T & B & Q); [lia|]. rewrite Ew. cbn [bind]. exists w, (None :: rs), h', rs', (firstn k b ++ t).
        split; [reflexivity|]. split; [exact Ep|]. split; [constructor; exact T|]. split; [rewrite B, <- app_assoc; reflexivity|]. unfold throws in *. cbn [filter length]. lia. }
      (* the end of the start tag *)
      assert (X : match c with POpen _ | PValue _ => True | _ => False end -> (p_state p = PTagElement \/ p_state p = PTagAttribute /\ exists n, c = POpen n) -> forall q, q = (if Nat.ltb k (length (cs_print ocs 62)) then p else mkPrinter PContent (p_tags p) (p_error p)) ->
        exists w rs h' rs' t, (let! (w, rs) := w_run ocs acs h (mkW q (buf ++ firstn k b) (skipn (S k) ans)) in Ret w (None :: rs)) = Ret w rs /\ p_run ocs acs h' p = Ret (w_p w) rs' /\ told (c :: h) rs t h' rs' /\ w_buf w = buf ++ t /\ (throws rs + refusals (w_ans w) <= refusals ans)%nat).
      { intros Cc St q Eq. destruct (Nat.ltb_spec k (length (cs_print ocs 62))) as [Lt|Ge]; [exact (U q Eq)|]. subst q.
        assert (EX : p_do ocs acs PExit p = Ret (mkPrinter PContent (p_tags p) (p_error p)) (true, cs_print ocs 62)) by (cbn [p_do]; unfold exitTagContext; destruct St as [-> |[-> _]]; reflexivity).
        destruct (a_do_is ocs acs Hacs PExit a p Ha I) as [p2 [E2 H2]]; [unfold opened; cbn; lia|]. rewrite EX in E2. injection E2 as <- _ _.
        pose proof (a_do_size acs PExit a) as Hz. cbn in Hz.
        destruct (IH _ _ (buf ++ firstn k b) (skipn (S k) ans) H2 Hl') as (w & rs & h' & rs' & t & Ew & Ep & T & B & Q); [unfold opened in *; cbn in *; lia|]. rewrite Ew. cbn [bind].
        exists w, (None :: rs), (PExit :: h'), ((true, cs_print ocs 62) :: rs'), (firstn k b ++ t). split; [reflexivity|]. split; [cbn [p_run]; rewrite EX; cbn [bind]; rewrite Ep; reflexivity|].
        assert (Pf : exists b', firstn k b = cs_print ocs 62 ++ b').
        { assert (exists b0, b = cs_print ocs 62 ++ b0) as [b0 ->].
          { destruct c as [| | |n|n|v| | |]; try contradiction; cbn [p_do] in E1.
            - unfold printOpenTag, exitTagContext in E1. assert (S2 : p_state p = PTagElement \/ p_state p = PTagAttribute) by (destruct St as [S|[S _]]; auto). 
              destruct (p_state p); try (destruct S2; discriminate); cbn [bind fst snd] in E1.
              all: destruct (printToBuffer ocs acs n (p_set p PContent)) as [q2 b2|q2|q2| |]; try discriminate E1; cbn [bind] in E1; destruct (p_tag q2 (tg_push n (p_tags q2))) as [q3 u3|q3|q3| |]; try discriminate E1; cbn [bind] in E1; injection E1 as _ _ Eb; rewrite <- Eb; eexists; reflexivity.
            - destruct St as [S|[_ [n Q0]]]; [|discriminate Q0]. unfold printValue, exitTagContext in E1. rewrite S in E1. cbn [bind fst snd] in E1. destruct (printContent ocs acs v (p_set p PContent)) as [q2 b2|q2|q2| |]; try discriminate E1. cbn [bind] in E1. injection E1 as _ _ Eb. rewrite <- Eb. eexists. reflexivity. }
          rewrite firstn_app, (firstn_all2 (cs_print ocs 62)) by exact Ge. eexists. reflexivity. }
        destruct Pf as [b' Pf]. rewrite Pf in *. split; [apply td_exit; assumption|]. split; [rewrite B, <- app_assoc; reflexivity|]. unfold throws in *. cbn [filter length]. lia. }
      destruct c as [e s|ro pu sy| |n|n|v| |s|]; cbn [left_by] in *; try (apply U; reflexivity).
      * destruct (p_state p) eqn:St; try (apply U; reflexivity); (apply X; [exact I| |reflexivity]); [right; eauto|left; reflexivity].
      * destruct (p_state p) eqn:St; try (apply U; reflexivity). apply X; [exact I|left; reflexivity|reflexivity].
      * destruct (_ && _) eqn:Cl; [|apply U; reflexivity].
        destruct (IH _ p1 (buf ++ firstn k b) (skipn (S k) ans) H1 Hl') as (w & rs & h' & rs' & t & Ew & Ep & T & B & Q); [lia|]. rewrite Ew. cbn [bind].
        assert (r = true) as Er. { subst r. destruct (a_do acs PClose a) as [a1 [[|] b1]] eqn:Ea; [reflexivity|]. exfalso. assert (b1 = []) as -> by (cbn [a_do] in Ea; repeat match type of Ea with context [match ?x with _ => _ end] => destruct x end; congruence). cbn in Lk. lia. }
        exists w, (None :: rs), (PClose :: h'), ((true, firstn k b ++ skipn k b) :: rs'), (firstn k b ++ t). split; [reflexivity|].
        split; [cbn [p_run]; rewrite E1, Er; cbn [bind]; rewrite Ep; rewrite firstn_skipn; reflexivity|].
        split; [apply td_close; [intro Z; apply (f_equal (@length N)) in Z; rewrite skipn_length in Z; cbn in Z; lia|exact T]|]. split; [rewrite B, <- app_assoc; reflexivity|]. unfold throws in *. cbn [filter length]. lia.
    + rewrite W. destruct (IH _ p1 (buf ++ b) (skipn (length b) ans) H1 Hl') as (w & rs & h' & rs' & t & Ew & Ep & T & B & Q); [lia|]. rewrite Ew. cbn [bind].
      exists w, (Some r :: rs), (c :: h'), ((r, b) :: rs'), (b ++ t). split; [reflexivity|]. split; [cbn [p_run]; rewrite E1; cbn [bind]; rewrite Ep; reflexivity|]. split; [constructor; exact T|].
      split; [rewrite B, <- app_assoc; reflexivity|]. pose proof (refusals_skip (length b) ans). unfold throws in *. cbn [filter length]. lia.
Qed.
