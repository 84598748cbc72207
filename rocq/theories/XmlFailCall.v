(** A call that returns although the buffer may throw (proofs). *)
From Coq Require Import Lia.
From Verif Require Import Base Iter CharMap Charset TextScanner XmlScanner ReadSpec ScanSpec XmlFail PrintFailSpec XmlFailSpec XmlFailProof.

Section Call.
Context {R : Type} (rops : readerops R) (cfg : config).
Notation scn := (scanner R).
(** the same outcome, or an exception of the buffer *)
Inductive ev {A} (a : list bool) : out (fscn (R := R)) A -> out scn A -> Prop :=
| ev_ret s a' v : (refusals a' <= refusals a)%nat -> ev a (Ret (s, a') v) (Ret s v)
| ev_refused s a' y : (refusals a' < refusals a)%nat -> ev a (Throw (s, a')) y
| ev_jump s a' : ev a (Jump (s, a')) (Jump s)
| ev_throw s a' : ev a (Throw (s, a')) (Throw s)
| ev_undef : ev a Undef Undef
| ev_fuel : ev a Fuel Fuel.
Lemma ev_bind {A B} a x y (f : fscn -> A -> out fscn B) g : ev a x y -> (forall s a' v, ev a' (f (s, a') v) (g s v)) -> ev a (bind x f) (bind y g).
Proof.
  intros H K. destruct H as [s a' v L|s a' y L|s a'|s a'| |]; cbn [bind]; [|apply ev_refused; exact L|apply ev_jump|apply ev_throw|constructor|constructor].
  destruct (K s a' v) as [s2 a2 v2 L2|s2 a2 y2 L2|s2 a2|s2 a2| |]; [apply ev_ret; lia|apply ev_refused; lia|apply ev_jump|apply ev_throw|constructor|constructor].
Qed.
Lemma ev_lift {A} (m : scn -> out scn A) s a : ev a (f_lift m (s, a)) (m s).
Proof. unfold f_lift. cbn [fst snd]. destruct (m s); [apply ev_ret, le_n|apply ev_jump|apply ev_throw|constructor|constructor]. Qed.
Lemma ev_put l s a : ev a (f_put l (s, a)) (Ret (set_obuf (sc_obuf s ++ l) s) tt).
Proof. destruct (put_out l s a) as [(a1 & -> & L)|(a1 & p & r & -> & L & _)]; constructor; exact L. Qed.
Lemma ev_push c s a : ev a (f_push cfg c (s, a)) (Ret (push cfg c s) tt). Proof. apply ev_put. Qed.
Lemma ev_pushes l : forall s a, ev a (f_pushes cfg l (s, a)) (Ret (pushes cfg l s) tt).
Proof. intros s a. rewrite pushes_put, pushes_ob. apply ev_put. Qed.
Lemma ev_fallback s a : ev a (f_fallback_true cfg (s, a)) (Ret (fallbackEntity cfg s) true).
Proof.
  unfold f_fallback_true. change (Ret (fallbackEntity cfg s) true) with (bind (Ret (fallbackEntity cfg s) tt) (fun s (_ : unit) => Ret s true)). eapply ev_bind; [rewrite fallback_put, fallback_ob; apply ev_put|].
  intros. constructor. apply le_n.
Qed.
(** a push, and then a function of the state *)
Lemma ev_then {A B} a (x : out fscn A) s v (f : fscn -> A -> out fscn B) g : ev a x (Ret s v) -> (forall a', ev a' (f (s, a') v) g) -> ev a (bind x f) g.
Proof.
  intros H K. inversion H as [s1 a' v1 L|s1 a' y L| | | |]; subst; cbn [bind]; [|constructor; exact L]. destruct (K a') as [s2 a2 v2 L2|s2 a2 y2 L2|s2 a2|s2 a2| |]; [apply ev_ret; lia|apply ev_refused; lia|apply ev_jump|apply ev_throw|constructor|constructor].
Qed.
Ltac fs := unfold f_set; cbn [fst snd].
Ltac ret := constructor; apply le_n.
Lemma ev_copychar s a : ev a (f_copychar rops cfg (s, a)) (copychar rops cfg s).
Proof. unfold f_copychar, copychar. destruct (cf_raw cfg); (eapply ev_bind; [apply ev_lift|]; intros s1 a1 v; first [apply ev_put|apply ev_push]). Qed.
Lemma ev_numBaseLoop : forall k s a, ev a (f_numBaseLoop rops cfg k (s, a)) (numBaseLoop rops cfg k s).
Proof.
  induction k as [|k IH]; intros s a; cbn [f_numBaseLoop numBaseLoop]; [apply ev_fallback|]. eapply ev_bind; [apply ev_lift|]. intros s1 a1 c. cbn [fst snd]. destruct (c =? 59).
  - destruct (0xFFFFFFFF <? tk_value (sc_tok s1)); [destruct (tok_put c (sc_tok s1)); [fs; apply ev_fallback|constructor]|].
    eapply ev_then; [apply ev_push|]. intro a2. fs. eapply ev_bind; [apply ev_lift|]. intros s3 a3 u. ret.
  - destruct (HEX c) as [h|]; [|constructor]. destruct (tk_base (sc_tok s1) <=? h); [apply ev_fallback|]. destruct (tok_put c (sc_tok s1)) as [t|]; [|constructor].
    fs. eapply ev_bind; [apply ev_lift|]. intros s3 a3 u. apply IH.
Qed.
Lemma ev_numericBase s a : ev a (f_numericBase rops cfg (s, a)) (parseNumericBaseEntity rops cfg s). Proof. apply ev_numBaseLoop. Qed.
Lemma ev_numeric s a : ev a (f_numeric rops cfg (s, a)) (parseNumericEntity rops cfg s).
Proof.
  unfold f_numeric, parseNumericEntity. fs. eapply ev_bind; [apply ev_lift|]. intros s1 a1 c. destruct (c =? 120); [|apply ev_numericBase]. eapply ev_bind; [apply ev_lift|]. intros s2 a2 u. apply ev_numericBase.
Qed.
Lemma ev_pushEntity s a : ev a (f_pushEntity cfg (s, a)) (let (s1, ok) := pushEntity cfg s in Ret s1 ok).
Proof.
  unfold f_pushEntity, pushEntity. cbn [fst]. destruct (predefined (tk_buf (sc_tok s))) as [c|]; [eapply ev_then; [apply ev_push|]; intro; ret|].
  destruct (cf_map cfg) as [m|]; [|ret]. destruct (map_find m (cf_bufaddr cfg)) as [c|]; [eapply ev_then; [apply ev_push|]; intro; ret|ret].
Qed.
Lemma ev_named s a : ev a (f_named rops cfg (s, a)) (parseNamedEntity rops cfg s).
Proof.
  unfold f_named, parseNamedEntity. fs. eapply ev_bind; [apply ev_lift|]. intros s1 a1 c. eapply ev_bind; [apply (ev_lift (fun s => namedLoop rops (15 - tk_pos (sc_tok s)) s c))|]. intros s2 a2 c2.
  destruct (c2 =? 59); [|apply ev_fallback]. cbn [fst]. destruct (tok_put 0 (sc_tok s2)) as [t|]; [|constructor]. fs.
  pose proof (ev_pushEntity (set_tok t s2) a2) as K. destruct (pushEntity cfg (set_tok t s2)) as [s3 ok]. eapply ev_then; [exact K|]. intro a3. destruct ok; [|ret]. eapply ev_bind; [apply ev_lift|]. intros s4 a4 u. ret.
Qed.
Lemma ev_entity s a : ev a (f_entity rops cfg (s, a)) (parseEntity rops cfg s).
Proof.
  unfold f_entity, parseEntity. fs. eapply ev_bind; [apply ev_lift|]. intros s1 a1 c. destruct (c =? 35); [|apply ev_named]. eapply ev_bind; [apply ev_lift|]. intros s2 a2 u. apply ev_numeric.
Qed.
Lemma ev_recover s a : ev a (f_recover rops cfg (s, a)) (parseTokenRecover rops cfg s).
Proof.
  unfold f_recover, parseTokenRecover. cbn [fst]. destruct (tk_id (sc_tok s)); try ret;
    (eapply ev_bind; [first [apply ev_entity|apply ev_numeric|apply ev_numericBase|apply ev_named]|]; intros s1 a1 v; ret).
Qed.
Lemma ev_tokenChar s a : ev a (f_tokenChar rops cfg (s, a)) (tokenChar rops cfg s).
Proof.
  unfold f_tokenChar, tokenChar. eapply ev_bind; [apply ev_lift|]. intros s1 a1 c. destruct (c =? 13); [eapply ev_then; [apply ev_push|]; intro; ret|]. destruct (c =? 10).
  - cbn [fst]. destruct (tk_cr (sc_tok s1)); [ret|]. eapply ev_then; [apply ev_push|]. intro. ret.
  - eapply ev_bind; [apply ev_copychar|]. intros. ret.
Qed.
Lemma ev_tokenLoop it : forall f s a, ev a (f_tokenLoop rops cfg f it (s, a)) (parseTokenLoop rops cfg f it s).
Proof.
  induction f as [|f IH]; intros s a; cbn [f_tokenLoop parseTokenLoop]; [constructor|]. eapply ev_bind; [apply ev_lift|]. intros s1 a1 c. destruct (isTokAt it c) as [[|]|]; [| |constructor].
  - eapply ev_bind; [apply ev_tokenChar|]. intros s2 a2 u. eapply ev_bind; [apply ev_lift|]. intros s3 a3 u3. apply IH.
  - destruct (ctl_eqb c CAmp); [|ret]. eapply ev_bind; [apply ev_lift|]. intros s2 a2 u. eapply ev_bind; [apply ev_entity|]. intros s3 a3 ok. fs. destruct ok; [apply IH|ret].
Qed.
Lemma ev_token it f s a : ev a (f_token rops cfg f it (s, a)) (parseToken rops cfg f it s).
Proof.
  unfold f_token, parseToken. cbn [fst].
  assert (K : ev a (let! (x, ok) := f_recover rops cfg (s, a) in if ok then f_tokenLoop rops cfg f it x else Ret (f_set (upd_tok (tok_init TStart)) x) false)
                   (let! (s1, ok) := parseTokenRecover rops cfg s in if ok then parseTokenLoop rops cfg f it s1 else Ret (upd_tok (tok_init TStart) s1) false)).
  { eapply ev_bind; [apply ev_recover|]. intros s1 a1 [|]; [apply ev_tokenLoop|ret]. }
  destruct (tk_id (sc_tok s)); try exact K; [fs; apply ev_tokenLoop|apply ev_tokenLoop].
Qed.
Lemma ev_doAction f mask ac arg s a : ev a (f_doAction rops cfg f mask ac arg (s, a)) (doAction rops cfg f mask ac arg s).
Proof.
  unfold f_doAction, doAction. cbn [fst]. destruct (tokenDef ac) as [it|].
  - assert (K : ev a (let! (x, ok) := (if N.testbit mask (etype_idx arg) then f_token rops cfg f it (s, a) else f_lift (skipTokenLoop rops f it) (s, a)) in if ok then Ret x (inl arg) else Ret x (inr tt))
       (let! (s1, ok) := (if N.testbit mask (etype_idx arg) then parseToken rops cfg f it s else skipTokenLoop rops f it s) in if ok then Ret s1 (inl arg) else Ret s1 (inr tt) : out scn (etype + unit))).
    { eapply ev_bind; [destruct (N.testbit mask (etype_idx arg)); [apply ev_token|apply ev_lift]|]. intros s1 a1 [|]; ret. }
    destruct (tk_id (sc_tok s)); try exact K. ret.
  - destruct (stringDef ac) as [k|]; [|ret].
    assert (K : ev a (let! (x, ok) := f_lift (expectStr rops k) (s, a) in if ok then match ac with ExpectIdentifierXML => let! (x, _) := f_pushes cfg [63; 120; 109; 108] x in Ret x (inl EHeaderStart) | _ => Ret x (inl ENone) end else Ret x (inr tt))
       (let! (s1, ok) := expectStr rops k s in if ok then match ac with ExpectIdentifierXML => Ret (push cfg 108 (push cfg 109 (push cfg 120 (push cfg 63 s1)))) (inl EHeaderStart) | _ => Ret s1 (inl ENone) end else Ret s1 (inr tt) : out scn (etype + unit))).
    { eapply ev_bind; [apply ev_lift|]. intros s1 a1 [|]; [|ret]. destruct ac; try ret. eapply ev_then; [apply ev_pushes|]. intro. ret. }
    destruct (tk_id (sc_tok s)); try exact K. ret.
Qed.
Lemma ev_nextItem mask : forall f s a, ev a (f_nextItem rops cfg f mask (s, a)) (nextItem rops cfg f mask s).
Proof.
  induction f as [|f IH]; intros s a; cbn [f_nextItem nextItem fst]; [constructor|]. destruct (stm_get (sc_state s)) as [e|]; [|constructor]. eapply ev_bind.
  - destruct (el_action e) as [[ac arg]|]; [|ret]. eapply ev_bind; [apply ev_doAction|]. intros s1 a1 [rt|u]; [|ret]. destruct (Nat.eqb (el_nofnext e) 0); [|ret]. destruct (el_fallback e); ret.
  - intros s1 a1 r. destruct (snd r); [ret|]. eapply ev_bind; [apply ev_lift|]. intros s2 a2 c. fs. eapply ev_bind; [apply ev_lift|]. intros s3 a3 ok. destruct ok; [|ret]. destruct (isNone (fst r)); [apply IH|ret].
Qed.
Lemma no_ref a : (refusals a = 0)%nat -> forall a', ~ (refusals a' < refusals a)%nat. Proof. lia. Qed.
Lemma ev_again mask n f s a s' v : refusals a = 0%nat -> nextItem rops cfg f mask s = Ret s' v -> exists a', f_again rops cfg n f mask (s, a) = Ret (s', a') v /\ refusals a' = 0%nat.
Proof.
  intros H E. pose proof (ev_nextItem mask f s a) as K. rewrite E in K. inversion K as [s1 a' v1 L E1|s1 a' y L| | | |]; subst; [|lia]. exists a'. split; [destruct n; cbn [f_again]; rewrite <- E1; reflexivity|lia].
Qed.
Lemma ev_scan f : forall masks s a s' evs, refusals a = 0%nat -> scan rops cfg f masks s = Ret s' evs -> exists a', f_scan rops cfg f masks (s, a) = Ret (s', a') evs.
Proof.
  induction masks as [|m masks IH]; intros s a s' evs H E; cbn [scan f_scan] in *; [injection E as <- <-; exists a; reflexivity|].
  destruct (nextItem rops cfg f m s) as [s1 v|s1|s1| |] eqn:E1; try discriminate E. cbn [bind] in E. destruct (scan rops cfg f masks s1) as [s2 evs2|s2|s2| |] eqn:E2; try discriminate E. cbn [bind] in E. injection E as <- <-.
  destruct (ev_again m (length a) f s a s1 v H E1) as (a1 & F1 & F2). cbn [snd]. rewrite F1. cbn [bind fst]. destruct (IH _ _ _ _ F2 E2) as (a2 & F3). rewrite F3. cbn [bind]. exists a2. reflexivity.
Qed.
End Call.
