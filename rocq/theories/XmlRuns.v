(** The language read by the scanner (proofs): the state machine. *)
From Verif Require Import Base Iter CharMap CodePages Charset TextScanner Ideal ReaderSim ScannerSim IterSim
  CharsetSpec CharsetProofs ReadSpec ReadProofs XmlScanner ScanSpec ScanProofs CharReader FuelMono Term DocSpec SectSpec XmlSpec DocProofs DocScan XmlTok OpenScan.

(** transitions that miss *)
Definition missed (e : XmlScanner.element) (c : ctl) : option xerror :=
  match nth_error (el_next e) (ctl_idx c) with
  | Some None => match el_fallback e with None => el_miss e | Some _ => None end
  | _ => None
  end.
Definition smiss (st : stm) (c : ctl) : option xerror :=
  match stm_get st with
  | Some e => match el_action e with None => missed e c | Some _ => None end
  | None => None
  end.
Definition taction (st : stm) : option (list bool * etype) :=
  match stm_get st with
  | Some e => match el_action e with
              | Some (a, arg) => match tokenDef a, isNone arg, el_nofnext e with Some isTok, false, S _ => Some (isTok, arg) | _, _, _ => None end
              | None => None
              end
  | None => None
  end.
Definition tmiss (st : stm) (c : ctl) : option xerror := match stm_get st with Some e => missed e c | None => None end.
Definition tgoes (st : stm) (c : ctl) : option (stm * bool) := match stm_get st with Some e => nexts e c | None => None end.

(** characters as control characters *)
Lemma is_ctl : forall c d, inctl (kctl d) [CEndOfText; CAmp; CLt; CEqual; CGt; CSlash; CDash; CExclam; CQuestm; CSq; CDq; COsb; CCsb] && (bin d [0;38;60;61;62;47;45;33;63;39;34;91;93]) = true ->
  (c =? d) = ctl_eqb (kctl c) (kctl d).
Proof. intros c d H. apply andb_prop in H. destruct H as [_ H]. apply bin_in in H. symmetry. apply ctl_is. exact H. Qed.

Ltac kc c := unfold followb, finb, def_headb, quoteb in *;
  repeat match goal with H : c <> _ |- _ => apply N.eqb_neq in H | H : c = _ |- _ => apply N.eqb_eq in H end;
  repeat match goal with H : context [blank c] |- _ => rewrite (blank_ctl c) in H end;
  repeat match goal with H : context [c =? ?d] |- _ => rewrite (is_ctl c d eq_refl) in H end;
  repeat match goal with H : context [kctl c] |- _ => revert H end; clear; generalize (kctl c);
  let x := fresh in intros x; destruct x; try (intros; discriminate); try (intros; reflexivity); cbn; intros; try discriminate; try congruence; auto.

Section X.
Context (outcs : kout) (mask : N).
Hypothesis Hmask : forall t, N.testbit mask (etype_idx t) = true.
Let cfg := kcfg outcs None 0.
Notation pr := (prs outcs).
Notation next := (nextItem (kr_ops outcs) cfg).
Notation silent := (silent outcs None 0 mask).
Notation deliver := (deliver outcs None 0 mask).
Notation hangs := (hangs outcs None 0 mask).
Ltac scn := cbn [bind sc_state sc_err sc_src sc_obuf sc_tokpos sc_tok tk_id tk_cr tk_pos tk_base tk_value tk_buf hd tl app snd fst].

Definition fails (st : stm) (l : list N) (e : xerror) : Prop :=
  exists k, forall f ob b, length b = 16%nat -> exists s, next (k + f) mask (KS st l ob b) = Ret s EErrorOccurred /\ sc_err s = e.
(** what is claimed after the elements *)
Inductive tend := TNone | THang | TFail (e : xerror).
Inductive xruns : stm -> list N -> list (etype * list N) -> tend -> Prop :=
| xr_none : forall st l, xruns st l [] TNone
| xr_hang : forall st l, hangs st l -> xruns st l [] THang
| xr_fail : forall st l e, fails st l e -> xruns st l [] (TFail e)
| xr_cons : forall st l t v st1 l1 els o, deliver st l t v st1 l1 -> xruns st1 l1 els o -> xruns st l ((t, v) :: els) o.

Lemma fails_silent : forall st l st1 l1 e, silent st l st1 l1 -> fails st1 l1 e -> fails st l e.
Proof. intros st l st1 l1 e [k H] [k2 H2]. exists (k + k2)%nat. intros f ob b Hb. rewrite <- Nat.add_assoc. unfold cfg. rewrite H. apply H2. exact Hb. Qed.
Lemma fails_back : forall st l st1 l1 e, silent st l st1 l1 -> fails st l e -> fails st1 l1 e.
Proof.
  intros st l st1 l1 e [k H] [k2 H2]. exists k2. intros f ob b Hb. destruct (H2 (k + f)%nat ob b Hb) as [s [E Es]].
  exists s. split; [|exact Es]. rewrite <- E. replace (k2 + (k + f))%nat with (k + (k2 + f))%nat by lia. unfold cfg. rewrite H. reflexivity.
Qed.
Lemma xruns_silent : forall st l st1 l1 els o, silent st l st1 l1 -> xruns st1 l1 els o -> xruns st l els o.
Proof.
  intros st l st1 l1 els o H Hr. destruct Hr; [constructor|constructor; eapply hangs_silent; eauto|constructor; eapply fails_silent; eauto|].
  econstructor; [eapply deliver_silent; eauto|assumption].
Qed.
Lemma xruns_back : forall st l st1 l1 els o, silent st l st1 l1 -> xruns st l els o -> xruns st1 l1 els o.
Proof.
  intros st l st1 l1 els o H Hr. destruct Hr; [constructor|constructor; eapply hangs_back; eauto|constructor; eapply fails_back; eauto|].
  econstructor; [eapply deliver_back; eauto|assumption].
Qed.
Lemma x_sil : forall st l ns b els o, snext st (kctl (hd 0 l)) = Some (ns, b) -> xruns ns (if b then tl l else l) els o -> xruns st l els o.
Proof. intros st l ns b els o H Hr. eapply xruns_silent; [eapply sil; [reflexivity|exact H]|exact Hr]. Qed.

Lemma blank_self : forall st, (forall c, In c [CEndOfLine; CCntrl; CSpace] -> snext st c = Some (st, true)) ->
  forall ws rest, all blank ws -> silent st (ws ++ rest) st rest.
Proof.
  intros st T. induction ws as [|c ws IH]; intros rest H; [apply silent_refl|]. inversion H; subst.
  eapply silent_trans; [|apply IH; assumption]. cbn [app]. rewrite blank_ctl in H2. apply inctl_in in H2.
  exact (sil _ _ _ _ st (c :: ws ++ rest) (kctl c) st true eq_refl (T _ H2)).
Qed.
Lemma x_ws : forall st ws rest els o, (forall c, In c [CEndOfLine; CCntrl; CSpace] -> snext st c = Some (st, true)) -> all blank ws -> xruns st rest els o -> xruns st (ws ++ rest) els o.
Proof. intros. eapply xruns_silent; [apply blank_self; eassumption|assumption]. Qed.

Lemma s_fails : forall st l e, smiss st (kctl (hd 0 l)) = Some e -> fails st l e.
Proof.
  intros st l er Hs. exists 1%nat. intros f ob bb Hb. cbn [Nat.add]. rewrite nextItem_step. unfold nstep, KS at 1. cbn [sc_state].
  unfold smiss in Hs. destruct (stm_get st) as [e|]; [|discriminate]. destruct (el_action e); [discriminate|]. scn.
  rewrite k_control. unfold KS. scn. unfold transition, missed in *.
  destruct (nth_error (el_next e) (ctl_idx (kctl (hd 0 l)))) as [[ns'|]|]; try discriminate.
  destruct (el_fallback e); [discriminate|]. rewrite Hs. eexists. split; reflexivity.
Qed.
Lemma x_miss : forall st l e, smiss st (kctl (hd 0 l)) = Some e -> xruns st l [] (TFail e).
Proof. intros. constructor. apply s_fails. assumption. Qed.

(** ** Tokens *)
(** the call when the token is read *)
Lemma tok_next : forall st k arg l v r, taction st = Some (tokc k, arg) -> cls_ok k -> tok_reads k l (Some (v, r)) ->
  exists n e, stm_get st = Some e /\ isNone arg = false /\ forall f ob b, length b = 16%nat -> exists b', length b' = 16%nat /\
    next (n + f) mask (KS st l ob b) =
    let! (s3, ok) := transition (kr_ops outcs) e (kctl (hd 0 r)) (KS st r (pr v) b') in
    if ok then Ret s3 arg else Ret s3 EErrorOccurred.
Proof.
  intros st k arg l v r Ha Hk Ht. destruct (ptl_reads outcs k Hk _ _ Ht) as [n Hn]. unfold taction in Ha.
  destruct (stm_get st) as [e|] eqn:Ee; [|discriminate]. destruct (el_action e) as [[a ag]|] eqn:Ea; [|discriminate].
  destruct (tokenDef a) as [it|] eqn:Et; [|discriminate]. destruct (isNone ag) eqn:Eno; [discriminate|].
  destruct (el_nofnext e) as [|nn] eqn:Enn; [discriminate|]. injection Ha as -> ->.
  exists (S n), e. split; [reflexivity|]. split; [exact Eno|]. intros f ob b Hb. destruct (Hn st [] b f Hb) as [b' [Hb' E]]. exists b'. split; [exact Hb'|].
  cbn [Nat.add]. rewrite nextItem_step. unfold nstep, KS at 1. cbn [sc_state]. rewrite Ee, Ea.
  unfold doAction. rewrite Et. unfold KS. cbn [sc_tok tk_id]. rewrite Hmask. unfold parseToken. cbn [sc_tok tk_id].
  unfold upd_tok, set_tok, set_obuf, set_tokpos, tok_id. cbn [sc_state sc_err sc_src sc_obuf sc_tokpos sc_tok tk_id tk_cr tk_pos tk_base tk_value tk_buf kr_ops r_pos].
  cbn [app] in E. unfold PS in E. fold (kr_ops outcs). fold cfg in E. rewrite E. rewrite Enn. cbn [bind Nat.eqb snd fst].
  rewrite k_control. cbn [bind sc_src]. unfold upd_tok, set_tok, tok_id. scn. rewrite Eno. destruct (transition _ _ _ _) as [s3 [|]| | | |]; reflexivity.
Qed.
Lemma tok_undef : forall st k arg l, taction st = Some (tokc k, arg) -> cls_ok k -> tok_reads k l None -> fails st l ErrUndefinedCharacterEntity.
Proof.
  intros st k arg l Ha Hk Ht. destruct (ptl_reads outcs k Hk _ _ Ht) as [n Hn]. unfold taction in Ha.
  destruct (stm_get st) as [e|] eqn:Ee; [|discriminate]. destruct (el_action e) as [[a ag]|] eqn:Ea; [|discriminate].
  destruct (tokenDef a) as [it|] eqn:Et; [|discriminate]. destruct (isNone ag) eqn:Eno; [discriminate|].
  destruct (el_nofnext e) as [|nn] eqn:Enn; [discriminate|]. injection Ha as -> ->.
  exists (S n). intros f ob b Hb. destruct (Hn st [] b f Hb) as [s [E Es]].
  cbn [Nat.add]. rewrite nextItem_step. unfold nstep, KS at 1. cbn [sc_state]. rewrite Ee, Ea.
  unfold doAction. rewrite Et. unfold KS. cbn [sc_tok tk_id]. rewrite Hmask. unfold parseToken. cbn [sc_tok tk_id].
  unfold upd_tok, set_tok, set_obuf, set_tokpos, tok_id. cbn [sc_state sc_err sc_src sc_obuf sc_tokpos sc_tok tk_id tk_cr tk_pos tk_base tk_value tk_buf kr_ops r_pos].
  unfold PS in E. fold (kr_ops outcs). fold cfg in E. rewrite E. cbn [bind snd fst]. exists s. split; [reflexivity|exact Es].
Qed.
Lemma tok_reads_deliver : forall st k arg l v r ns b, taction st = Some (tokc k, arg) -> cls_ok k -> tok_reads k l (Some (v, r)) ->
  tgoes st (kctl (hd 0 r)) = Some (ns, b) -> deliver st l arg v ns (if b then tl r else r).
Proof.
  intros st k arg l v r ns b Ha Hk Ht Hg. destruct (tok_next st k arg l v r Ha Hk Ht) as [n [e [Ee [_ Hn]]]]. exists n. intros f ob bb Hb.
  destruct (Hn f ob bb Hb) as [b' [Hb' E]]. exists b'. split; [exact Hb'|]. fold cfg. rewrite E. unfold tgoes in Hg. rewrite Ee in Hg. unfold transition, nexts in *.
  destruct (nth_error (el_next e) (ctl_idx (kctl (hd 0 r)))) as [[ns'|]|]; try discriminate.
  - injection Hg as <- <-. rewrite k_skip. reflexivity.
  - destruct (el_fallback e) as [fs|]; [|discriminate]. injection Hg as <- <-. reflexivity.
Qed.
Lemma tok_reads_fails : forall st k arg l v r er, taction st = Some (tokc k, arg) -> cls_ok k -> tok_reads k l (Some (v, r)) ->
  tmiss st (kctl (hd 0 r)) = Some er -> fails st l er.
Proof.
  intros st k arg l v r er Ha Hk Ht Hg. destruct (tok_next st k arg l v r Ha Hk Ht) as [n [e [Ee [_ Hn]]]]. exists n. intros f ob bb Hb.
  destruct (Hn f ob bb Hb) as [b' [Hb' E]]. rewrite E. unfold tmiss in Hg. rewrite Ee in Hg. unfold transition, missed in *.
  destruct (nth_error (el_next e) (ctl_idx (kctl (hd 0 r)))) as [[ns'|]|]; try discriminate.
  destruct (el_fallback e); [discriminate|]. rewrite Hg. eexists. split; reflexivity.
Qed.

(** [vst] takes the character behind the token in the same way *)
Lemma x_tok : forall st vst k arg l v r els o, taction st = Some (tokc k, arg) -> cls_ok k -> tok_reads k l (Some (v, r)) ->
  (exists ns b, tgoes st (kctl (hd 0 r)) = Some (ns, b) /\ snext vst (kctl (hd 0 r)) = Some (ns, b)) -> xruns vst r els o -> xruns st l ((arg, v) :: els) o.
Proof.
  intros st vst k arg l v r els o Ha Hk Ht [ns [b [H1 H2]]] Hr. econstructor; [eapply tok_reads_deliver; eauto|].
  eapply xruns_back; [eapply sil; [reflexivity|exact H2]|exact Hr].
Qed.
Lemma x_tokmiss : forall st k arg l v r er, taction st = Some (tokc k, arg) -> cls_ok k -> tok_reads k l (Some (v, r)) -> tmiss st (kctl (hd 0 r)) = Some er ->
  xruns st l [] (TFail er).
Proof. intros. constructor. eapply tok_reads_fails; eauto. Qed.
Lemma x_undef : forall st k arg l, taction st = Some (tokc k, arg) -> cls_ok k -> tok_reads k l None -> xruns st l [] (TFail ErrUndefinedCharacterEntity).
Proof. intros. constructor. eapply tok_undef; eauto. Qed.

(** how it goes on *)
Definition contA (h : bool) (s : step) (els : list (etype * list N)) (o : tend) : Prop :=
  match s with Goes _ r => xruns (vqe h) r els o | Fails e => els = [] /\ o = TFail e | Hangs => els = [] /\ o = THang end.
Definition cont (s : step) (els : list (etype * list N)) (o : tend) : Prop :=
  match s with Goes seek r => forall st, bst seek st -> xruns st r els o | Fails e => els = [] /\ o = TFail e | Hangs => els = [] /\ o = THang end.

Ltac wsst := let c := fresh in let H := fresh in intros c H; cbn in H; repeat (destruct H as [<-|H]; [reflexivity|]); destruct H.

(** ** Attributes *)
Lemma quote_or : forall q, quoteb q = true -> q = 34 \/ q = 39.
Proof. intros q H. unfold quoteb in H. lia. Qed.

Lemma x_value : forall h l els s, value_reads h l els s -> blank (hd 0 l) = false -> forall els' o, contA h s els' o -> xruns (vsk h) l (els ++ els') o.
Proof.
  intros h l els s H Hbl els' o Hc.
  destruct H as [q l v r Hq Ht Hf|q l v r Hq Ht Hf|q l v r Hq Ht Hf|q l Hq Ht|l v r Hq Ht Hf|l v r Hq Ht Hf|l Hq Ht]; cbn [contA] in Hc;
    try (destruct Hc as [-> ->]); try rewrite app_nil_r.
  - apply (x_sil (vsk h) _ (vstr h q) true); [destruct (quote_or q Hq) as [->| ->]; destruct h; reflexivity|]. cbn [tl].
    econstructor; [|exact Hc].
    refine (tok_reads_deliver (vstr h q) (CValue q) (av h) l v (q :: r) (vqe h) true _ Hq Ht _); destruct (quote_or q Hq) as [->| ->]; destruct h; reflexivity.
  - apply (x_sil (vsk h) _ (vstr h q) true); [destruct (quote_or q Hq) as [->| ->]; destruct h; reflexivity|]. cbn [tl].
    apply xr_cons with (st1 := vqe h) (l1 := r).
    + refine (tok_reads_deliver (vstr h q) (CValue q) (av h) l v (q :: r) (vqe h) true _ Hq Ht _); destruct (quote_or q Hq) as [->| ->]; destruct h; reflexivity.
    + apply x_miss. destruct h; kc (hd 0 r).
  - apply (x_sil (vsk h) _ (vstr h q) true); [destruct (quote_or q Hq) as [->| ->]; destruct h; reflexivity|]. cbn [tl].
    eapply (x_tokmiss (vstr h q) (CValue q) (av h)); [destruct (quote_or q Hq) as [->| ->]; destruct h; reflexivity|exact Hq|exact Ht|].
    destruct (quote_or q Hq) as [->| ->]; destruct h; kc (hd 0 r).
  - apply (x_sil (vsk h) _ (vstr h q) true); [destruct (quote_or q Hq) as [->| ->]; destruct h; reflexivity|]. cbn [tl].
    eapply (x_undef (vstr h q) (CValue q) (av h)); [destruct (quote_or q Hq) as [->| ->]; destruct h; reflexivity|exact Hq|exact Ht].
  - apply (x_sil (vsk h) _ (vid h) false); [destruct h; kc (hd 0 l)|].
    eapply (x_tok (vid h) (vqe h) CName (av h)); [destruct h; reflexivity|exact I|exact Ht| |exact Hc].
    destruct h; kc (hd 0 r); eexists _, _; split; reflexivity.
  - apply (x_sil (vsk h) _ (vid h) false); [destruct h; kc (hd 0 l)|].
    eapply (x_tokmiss (vid h) CName (av h)); [destruct h; reflexivity|exact I|exact Ht|]. destruct h; kc (hd 0 r).
  - apply (x_sil (vsk h) _ (vid h) false); [destruct h; kc (hd 0 l)|].
    eapply (x_undef (vid h) CName (av h)); [destruct h; reflexivity|exact I|exact Ht].
Qed.

Lemma blank_hd : forall ws r, all blank ws -> ws <> [] -> blank (hd 0 (ws ++ r)) = true.
Proof. intros [|c ws] r H Hne; [congruence|]. inversion H; subst. assumption. Qed.

Lemma x_attr : forall h l els s, attr_reads h l els s -> forall els' o, contA h s els' o -> xruns (nam h) l (els ++ els') o.
Proof.
  intros h l els s H els' o Hc.
  destruct H as [l Ht|l n r Ht Hb Hn|l n ws1 r Ht Hne Hl Hn|l n ws1 ws2 l2 els s Ht H1 [H2 H2'] Hv]; cbn [contA] in Hc;
    try (destruct Hc as [-> ->]); try rewrite app_nil_r.
  - eapply (x_undef (nam h) CName (an h)); [destruct h; reflexivity|exact I|exact Ht].
  - eapply (x_tokmiss (nam h) CName (an h)); [destruct h; reflexivity|exact I|exact Ht|]. destruct h; kc (hd 0 r).
  - destruct Hl as [Hl Hl2]. eapply (x_tok (nam h) (esk h) CName (an h)); [destruct h; reflexivity|exact I|exact Ht| |].
    + pose proof (blank_hd ws1 r Hl Hne) as Hb. destruct h; kc (hd 0 (ws1 ++ r)); eexists _, _; split; reflexivity.
    + apply x_ws; [destruct h; wsst|exact Hl|]. apply x_miss. destruct h; kc (hd 0 r).
  - cbn [app]. eapply (x_tok (nam h) (esk h) CName (an h)); [destruct h; reflexivity|exact I|exact Ht| |].
    + destruct ws1 as [|c ws1]; [cbn [app hd]; destruct h; eexists _, _; split; reflexivity|].
      pose proof (blank_hd (c :: ws1) (61 :: ws2 ++ l2) H1 ltac:(discriminate)) as Hb. cbn [app hd] in *. destruct h; kc c; eexists _, _; split; reflexivity.
    + apply x_ws; [destruct h; wsst|exact H1|]. apply (x_sil (esk h) _ (vsk h) true); [destruct h; reflexivity|]. cbn [tl].
      apply x_ws; [destruct h; wsst|exact H2|]. eapply x_value; eauto.
Qed.

Lemma attr_goes : forall h l els b r, attr_reads h l els (Goes b r) -> followb h (hd 0 r) = true.
Proof. intros h l els b r H. inversion H; subst. match goal with Hv : value_reads _ _ _ _ |- _ => inversion Hv; subst; assumption end. Qed.

Lemma x_attrs : forall h l els s, attrs_read h l els s -> followb h (hd 0 l) = true -> forall els' o, contA h s els' o -> xruns (vqe h) l (els ++ els') o.
Proof.
  intros h l els s H. induction H as [ws r Hw Hf|ws l els b r els2 s Hne [Hw Hw2] Hf Ha Hs IH|ws l els e Hne [Hw Hw2] Hf Ha]; intros Hfo els' o Hc.
  - cbn [contA app] in *. destruct ws as [|c ws]; [exact Hc|]. inversion Hw; subst.
    eapply xruns_silent with (st1 := isk h) (l1 := r).
    + eapply silent_trans; [|apply (blank_self (isk h)) with (ws := ws); [destruct h; wsst|assumption]].
      cbn [app]. apply (sil _ _ _ _ (vqe h) (c :: ws ++ r) (kctl c) (isk h) true); [reflexivity|]. destruct h; kc c.
    + (* the end of the tag is taken in the same way *)
      assert (Hs : exists ns, snext (vqe h) (kctl (hd 0 r)) = Some (ns, true) /\ snext (isk h) (kctl (hd 0 r)) = Some (ns, true)).
      { destruct h; kc (hd 0 r); eexists; split; reflexivity. }
      destruct Hs as [ns [S1 S2]]. apply (x_sil (isk h) _ ns true); [exact S2|]. eapply xruns_back; [exact (sil _ _ _ _ (vqe h) r _ ns true eq_refl S1)|exact Hc].
  - rewrite <- app_assoc. destruct ws as [|c ws]; [congruence|]. inversion Hw; subst.
    eapply xruns_silent with (st1 := isk h) (l1 := l).
    + eapply silent_trans; [|apply (blank_self (isk h)) with (ws := ws); [destruct h; wsst|assumption]].
      cbn [app]. apply (sil _ _ _ _ (vqe h) (c :: ws ++ l) (kctl c) (isk h) true); [reflexivity|]. destruct h; kc c.
    + apply (x_sil (isk h) _ (nam h) false); [destruct h; kc (hd 0 l)|]. eapply x_attr; [exact Ha|]. cbn [contA]. apply IH; [eapply attr_goes; eauto|exact Hc].
  - destruct ws as [|c ws]; [congruence|]. inversion Hw; subst.
    eapply xruns_silent with (st1 := isk h) (l1 := l).
    + eapply silent_trans; [|apply (blank_self (isk h)) with (ws := ws); [destruct h; wsst|assumption]].
      cbn [app]. apply (sil _ _ _ _ (vqe h) (c :: ws ++ l) (kctl c) (isk h) true); [reflexivity|]. destruct h; kc c.
    + apply (x_sil (isk h) _ (nam h) false); [destruct h; kc (hd 0 l)|]. eapply x_attr; [exact Ha|exact Hc].
Qed.
Lemma attrs_goes : forall h l els b r, attrs_read h l els (Goes b r) -> finb h (hd 0 r) = true.
Proof. intros h l els b r H. remember (Goes b r) as s eqn:Es. induction H; try discriminate; [injection Es as <- <-; assumption|auto]. Qed.

(** ** Tags *)
Lemma clim_fails : forall l, blank (hd 0 l) = false -> hd 0 l <> 62 -> fails TAGCLIM l ErrExpectedTagEnd.
Proof.
  intros l H1 H2. exists 1%nat. intros f ob b Hb. cbn [Nat.add]. rewrite nextItem_step. unfold nstep, KS. cbn [sc_state].
  change (stm_get TAGCLIM) with (Some (match stm_get TAGCLIM with Some e => e | None => el_new end)). cbn iota.
  set (e := match stm_get TAGCLIM with Some e => e | None => el_new end).
  change (el_action e) with (Some (Return, ECloseTagIm)). change (el_nofnext e) with 4%nat. unfold doAction. cbn [tokenDef stringDef bind Nat.eqb snd fst].
  rewrite k_control. unfold set_obuf, set_tokpos. scn.
  assert (E : missed e (kctl (hd 0 l)) = Some ErrExpectedTagEnd) by (kc (hd 0 l)).
  unfold transition, missed in *. destruct (nth_error (el_next e) (ctl_idx (kctl (hd 0 l)))) as [[ns'|]|]; try discriminate.
  destruct (el_fallback e); [discriminate|]. rewrite E. eexists. split; reflexivity.
Qed.
Lemma clim_blank : forall c l, blank c = true -> deliver TAGCLIM (c :: l) ECloseTagIm [] TAGCLIM l.
Proof.
  intros c l H.
  assert (E : nexts (match stm_get TAGCLIM with Some e => e | None => el_new end) (kctl (hd 0 (c :: l))) = Some (TAGCLIM, true)) by (cbn [hd]; kc c).
  exact (ret_deliver outcs None 0 mask TAGCLIM _ _ _ (c :: l) TAGCLIM true eq_refl eq_refl eq_refl eq_refl E).
Qed.
Lemma x_tagend : forall l els s, tagend_reads l els s -> forall els' o, cont s els' o -> xruns TAGAVQE l (els ++ els') o.
Proof.
  intros l els s H els' o Hc. destruct H as [r|ws r Hw|ws r [Hw Hw2] Hn]; cbn [cont] in Hc; try (destruct Hc as [-> ->]); try rewrite app_nil_r.
  - apply (x_sil TAGAVQE _ CONTENT true); [reflexivity|]. cbn [tl app]. apply Hc. reflexivity.
  - apply (x_sil TAGAVQE _ TAGCLIM true); [reflexivity|]. cbn [tl app]. induction Hw as [|c ws Hc1 Hw IH]; cbn [app length repeat].
    + econstructor; [|apply Hc; reflexivity]. exact (ret_deliver outcs None 0 mask TAGCLIM _ _ _ (62 :: r) CONTENT true eq_refl eq_refl eq_refl eq_refl eq_refl).
    + econstructor; [apply clim_blank; exact Hc1|]. exact IH.
  - apply (x_sil TAGAVQE _ TAGCLIM true); [reflexivity|]. cbn [tl app]. induction Hw as [|c ws Hc1 Hw IH]; cbn [app length repeat].
    + constructor. apply clim_fails; assumption.
    + econstructor; [apply clim_blank; exact Hc1|]. exact IH.
Qed.
Lemma x_tag : forall l els s, tag_reads l els s -> forall els' o, cont s els' o -> xruns OPENTAG l (els ++ els') o.
Proof.
  intros l els s H els' o Hc.
  destruct H as [l Ht|l n r Ht Hf|l n r els e Ht Hf Ha|l n r els b r2 els2 s Ht Hf Ha He].
  - destruct Hc as [-> ->]. eapply (x_undef OPENTAG CName); [reflexivity|exact I|exact Ht].
  - destruct Hc as [-> ->]. eapply (x_tokmiss OPENTAG CName); [reflexivity|exact I|exact Ht|]. kc (hd 0 r).
  - cbn [app]. eapply (x_tok OPENTAG (vqe false) CName); [reflexivity|exact I|exact Ht|kc (hd 0 r); eexists _, _; split; reflexivity|].
    eapply x_attrs; eauto.
  - cbn [app]. rewrite <- app_assoc. eapply (x_tok OPENTAG (vqe false) CName); [reflexivity|exact I|exact Ht|kc (hd 0 r); eexists _, _; split; reflexivity|].
    eapply x_attrs; eauto. cbn [contA]. exact (x_tagend _ _ _ He _ _ Hc).
Qed.
Lemma x_close : forall l els s, close_reads l els s -> forall els' o, cont s els' o -> xruns CLOSETAG l (els ++ els') o.
Proof.
  intros l els s H els' o Hc.
  destruct H as [l Ht|l n r Ht Hb Hn|l n ws r Ht Hne [Hw Hw2] Hn|l n ws r Ht Hw]; cbn [cont] in Hc; try (destruct Hc as [-> ->]); try rewrite app_nil_r.
  - eapply (x_undef CLOSETAG CName); [reflexivity|exact I|exact Ht].
  - eapply (x_tokmiss CLOSETAG CName); [reflexivity|exact I|exact Ht|]. kc (hd 0 r).
  - eapply (x_tok CLOSETAG TAGCLSK CName); [reflexivity|exact I|exact Ht| |].
    + pose proof (blank_hd ws r Hw Hne) as Hb. kc (hd 0 (ws ++ r)); eexists _, _; split; reflexivity.
    + apply x_ws; [wsst|exact Hw|]. apply x_miss. kc (hd 0 r).
  - cbn [app]. eapply (x_tok CLOSETAG TAGCLSK CName); [reflexivity|exact I|exact Ht| |].
    + destruct ws as [|c ws]; [cbn [app hd]; eexists _, _; split; reflexivity|].
      pose proof (blank_hd (c :: ws) (62 :: r) Hw ltac:(discriminate)) as Hb. cbn [app hd] in *. kc c; eexists _, _; split; reflexivity.
    + apply x_ws; [wsst|exact Hw|]. apply (x_sil TAGCLSK _ CONTENT true); [reflexivity|]. cbn [tl]. apply Hc. reflexivity.
Qed.

(** ** Key words *)
Lemma expect_ok : forall k l r, key_reads k l (inr r) -> l = k ++ r.
Proof. intros k l r H. remember (inr r) as o eqn:Eo. induction H; try discriminate; [injection Eo as <-; reflexivity|]. rewrite (IHkey_reads Eo). reflexivity. Qed.
Lemma expect_fail : forall k l e, key_reads k l (inl e) -> Forall (fun x => 0 < x < 128) k -> forall st ob tk,
  exists s, expectLoop (kr_ops outcs) k (mkSc st Ok l ob 0 tk) = Ret s false /\ sc_err s = e.
Proof.
  intros k l e H. remember (inl e) as o eqn:Eo. induction H as [r|x k l o H IH|x k l Hl|x k l H0 Hx]; try discriminate; intros Hk st ob tk; inversion Hk; subst.
  - cbn [expectLoop]. rewrite k_ascii. scn. rewrite asc_k by assumption. rewrite N.eqb_refl. rewrite k_skip. unfold upd_tok, set_tok, set_src. scn. apply IH; auto.
  - injection Eo as <-. cbn [expectLoop]. rewrite k_ascii. scn. rewrite asc_k by assumption. replace (hd 0 l =? x) with false by lia.
    rewrite k_control. scn. rewrite Hl. eexists. split; reflexivity.
  - injection Eo as <-. cbn [expectLoop]. rewrite k_ascii. scn. rewrite asc_k by assumption. replace (hd 0 l =? x) with false by lia.
    rewrite k_control. scn. assert (E : ctl_eqb (kctl (hd 0 l)) CEndOfText = false).
    { change CEndOfText with (kctl 0). rewrite ctl_is by (cbn; tauto). apply N.eqb_neq. exact H0. }
    rewrite E. eexists. split; reflexivity.
Qed.
Lemma expect_loop : forall k r, Forall (fun x => 0 < x < 128) k -> forall st ob tk,
  expectLoop (kr_ops outcs) k (mkSc st Ok (k ++ r) ob 0 tk) = Ret (mkSc st Ok r ob 0 (mkTok TParsingDone false 0 0 0 (tk_buf tk))) true.
Proof.
  intros k r Hk. induction Hk as [|x k Hx Hk IH]; intros st ob tk; cbn [expectLoop app]; [reflexivity|].
  rewrite k_ascii. scn. rewrite asc_k by assumption. rewrite N.eqb_refl. rewrite k_skip. unfold upd_tok, set_tok, set_src. scn. rewrite IH. reflexivity.
Qed.
Lemma key_fails : forall st a e k arg l er, stm_get st = Some e -> el_action e = Some (a, arg) -> tokenDef a = None -> stringDef a = Some k -> Forall (fun x => 0 < x < 128) k ->
  key_reads k l (inl er) -> fails st l er.
Proof.
  intros st a e k arg l er He Ea Et Es Hk H. exists 1%nat. intros f ob b Hb. cbn [Nat.add]. rewrite nextItem_step. unfold nstep, KS. cbn [sc_state]. rewrite He, Ea.
  unfold doAction. rewrite Et, Es. cbn [sc_tok tk_id]. unfold expectStr, upd_tok, set_tok, tok_id. scn. cbn [skipn Nat.leb].
  destruct (expect_fail k l er H Hk st ob (mkTok TParsingKey false 0 0 0 b)) as [s [E1 E2]]. rewrite E1. scn. exists s. split; [reflexivity|exact E2].
Qed.
Lemma key_low : Forall (fun x => 0 < x < 128) (str "xml") /\ Forall (fun x => 0 < x < 128) (str "CDATA").
Proof. split; repeat constructor; reflexivity. Qed.

(** ** Sections and definitions *)
Lemma x_pi : forall l s, pi_reads l s -> forall els' o, cont s els' o -> xruns PITAG l els' o.
Proof.
  intros l s H els' o Hc. destruct H as [c r H|c r H Hn|c H]; cbn [cont] in Hc; try (destruct Hc as [-> ->]).
  - eapply xruns_silent; [apply (run_until outcs None 0 mask 63 PITAG PITAGEND); [cbn; tauto|intros []; reflexivity|exact H]|].
    apply (x_sil PITAGEND _ CONTENT true); [reflexivity|]. cbn [tl]. apply Hc. reflexivity.
  - eapply xruns_silent; [apply (run_until outcs None 0 mask 63 PITAG PITAGEND); [cbn; tauto|intros []; reflexivity|exact H]|].
    apply x_miss. kc (hd 0 r).
  - constructor. apply (hang_until outcs None 0 mask 63 PITAG PITAGEND); [cbn; tauto|intros []; reflexivity|exact H].
Qed.

Definition estr (q : N) : stm := if q =? 34 then ENTITYDQ else ENTITYSQ.
Lemma x_def : forall l els s, def_reads l els s -> forall els' o, cont s els' o -> xruns ENTITY l (els ++ els') o.
Proof.
  intros l els s H.
  induction H as [r|c l els s Hb H IH|q l v r els s Hq Ht H IH|q l v r Hq Ht Hn|q l Hq Ht|c r els s Hi H IH|c Hi|l v r els s Hh Ht Hf H IH|l v r Hh Ht Hf|l Hh Ht];
    intros els' o Hc; cbn [cont] in Hc; try (destruct Hc as [-> ->]).
  - apply (x_sil ENTITY _ ENTITYE true); [reflexivity|]. cbn [tl app].
    apply xr_cons with (st1 := SEEKTOK) (l1 := r); [eapply ret0_deliver; reflexivity|]. apply Hc. left. reflexivity.
  - apply (x_sil ENTITY _ ENTITY true); [cbn [hd]; kc c|]. cbn [tl]. apply IH. exact Hc.
  - apply (x_sil ENTITY _ (estr q) true); [destruct (quote_or q Hq) as [->| ->]; reflexivity|]. cbn [tl app].
    apply xr_cons with (st1 := ENTITY) (l1 := r); [|apply IH; exact Hc].
    refine (tok_reads_deliver (estr q) (CValue q) EDocAttribValue l v (q :: r) ENTITY true _ Hq Ht _); destruct (quote_or q Hq) as [->| ->]; reflexivity.
  - apply (x_sil ENTITY _ (estr q) true); [destruct (quote_or q Hq) as [->| ->]; reflexivity|]. cbn [tl app].
    eapply (x_tokmiss (estr q) (CValue q)); [destruct (quote_or q Hq) as [->| ->]; reflexivity|exact Hq|exact Ht|].
    destruct (quote_or q Hq) as [->| ->]; kc (hd 0 r).
  - apply (x_sil ENTITY _ (estr q) true); [destruct (quote_or q Hq) as [->| ->]; reflexivity|]. cbn [tl app].
    eapply (x_undef (estr q) (CValue q)); [destruct (quote_or q Hq) as [->| ->]; reflexivity|exact Hq|exact Ht].
  - apply (x_sil ENTITY _ ENTITYLC true); [reflexivity|]. cbn [tl].
    eapply xruns_silent; [apply (run_until outcs None 0 mask 93 ENTITYLC ENTITY); [cbn; tauto|intros []; reflexivity|exact Hi]|]. apply IH. exact Hc.
  - apply (x_sil ENTITY _ ENTITYLC true); [reflexivity|]. cbn [tl app].
    constructor. apply (hang_until outcs None 0 mask 93 ENTITYLC ENTITY); [cbn; tauto|intros []; reflexivity|exact Hi].
  - apply (x_sil ENTITY _ ENTITYID false); [kc (hd 0 l)|]. cbn [app].
    eapply (x_tok ENTITYID ENTITY CName); [reflexivity|exact I|exact Ht| |apply IH; exact Hc]. kc (hd 0 r); eexists _, _; split; reflexivity.
  - apply (x_sil ENTITY _ ENTITYID false); [kc (hd 0 l)|]. cbn [app].
    eapply (x_tokmiss ENTITYID CName); [reflexivity|exact I|exact Ht|]. kc (hd 0 r).
  - apply (x_sil ENTITY _ ENTITYID false); [kc (hd 0 l)|]. cbn [app].
    eapply (x_undef ENTITYID CName); [reflexivity|exact I|exact Ht].
Qed.

Lemma cdata_follow_fails : forall r, hd 0 r <> 91 -> fails CDATA (str "CDATA" ++ r) ErrExpectedCDATATag.
Proof.
  intros r H. exists 1%nat. intros f ob b Hb. cbn [Nat.add]. rewrite nextItem_step.
  assert (E : missed (match stm_get CDATA with Some e => e | None => el_new end) (kctl (hd 0 r)) = Some ErrExpectedCDATATag) by (kc (hd 0 r)).
  assert (E2 : nstep (kr_ops outcs) cfg f mask (KS CDATA (str "CDATA" ++ r) ob b) =
     let! (s3, ok) := transition (kr_ops outcs) (match stm_get CDATA with Some e => e | None => el_new end) (kctl (hd 0 r)) (KS CDATA r ob b) in
     if ok then Ret s3 None else Ret s3 (Some EErrorOccurred)).
  { unfold nstep, KS. cbn [sc_state]. change (stm_get CDATA) with (Some (match stm_get CDATA with Some e => e | None => el_new end)).
    cbn iota. set (e := match stm_get CDATA with Some e => e | None => el_new end).
    change (el_action e) with (Some (ExpectIdentifierCDATA, ENone)). change (el_nofnext e) with 1%nat.
    unfold doAction, expectStr, upd_tok, set_tok, tok_id. cbn [tokenDef stringDef sc_tok tk_id sc_state sc_err sc_src sc_obuf sc_tokpos tk_pos skipn Nat.leb tk_cr tk_base tk_value tk_buf].
    rewrite expect_loop by apply key_low. cbn [bind Nat.eqb snd fst]. rewrite k_control. cbn [bind sc_src isNone sc_tok sc_state sc_err sc_obuf sc_tokpos tk_pos tk_cr tk_base tk_value tk_buf].
    destruct (transition _ _ _ _) as [s3 [|]| | | |]; reflexivity. }
  rewrite E2. unfold transition, missed in *. destruct (nth_error (el_next _) (ctl_idx (kctl (hd 0 r)))) as [[ns'|]|]; try discriminate.
  destruct (el_fallback _); [discriminate|]. rewrite E. eexists. split; reflexivity.
Qed.

Lemma x_decl : forall l els s, decl_reads l els s -> forall els' o, cont s els' o -> xruns ENTITYSL l (els ++ els') o.
Proof.
  intros l els s H els' o Hc.
  destruct H as [c r H|c H|l Hn|l e H|l r H Hn|l c r H Hs|l c H Hs|l els s H1 H2 H]; cbn [cont] in Hc; try (destruct Hc as [-> ->]); cbn [app].
  - apply (x_sil ENTITYSL _ COMDASH2 true); [reflexivity|]. apply (x_sil COMDASH2 _ COMSEEKE true); [reflexivity|]. cbn [tl].
    eapply xruns_silent; [|apply Hc; left; reflexivity]. apply comment_ok in H.
    exact (run_section outcs None 0 mask 45 comment_run com_st SEEKTOK ltac:(cbn; tauto) com_next c 0%nat r H).
  - apply (x_sil ENTITYSL _ COMDASH2 true); [reflexivity|]. apply (x_sil COMDASH2 _ COMSEEKE true); [reflexivity|]. cbn [tl].
    constructor. apply never_closes_ok in H; [|discriminate]. exact (hang_section outcs None 0 mask 45 comment_run com_st SEEKTOK ltac:(cbn; tauto) com_next c 0%nat H).
  - apply (x_sil ENTITYSL _ COMDASH2 true); [reflexivity|]. cbn [tl]. apply x_miss. kc (hd 0 l).
  - apply (x_sil ENTITYSL _ CDATA true); [reflexivity|]. cbn [tl]. constructor. eapply (key_fails CDATA); [reflexivity|reflexivity|reflexivity|reflexivity|apply key_low|exact H].
  - apply (x_sil ENTITYSL _ CDATA true); [reflexivity|]. cbn [tl]. constructor. rewrite (expect_ok _ _ _ H). apply cdata_follow_fails. exact Hn.
  - apply (x_sil ENTITYSL _ CDATA true); [reflexivity|]. cbn [tl]. rewrite (expect_ok _ _ _ H). apply cdata_ok in Hs.
    eapply xruns_silent; [exact (sil_cdata outcs None 0 mask (c ++ r))|].
    eapply xruns_silent; [exact (run_section outcs None 0 mask 93 cdata_run cdata_st CONTENT ltac:(cbn; tauto) cdata_next c 0%nat r Hs)|]. apply Hc. reflexivity.
  - apply (x_sil ENTITYSL _ CDATA true); [reflexivity|]. cbn [tl]. rewrite (expect_ok _ _ _ H). apply never_closes_ok in Hs; [|discriminate].
    eapply xruns_silent; [exact (sil_cdata outcs None 0 mask c)|]. constructor.
    exact (hang_section outcs None 0 mask 93 cdata_run cdata_st CONTENT ltac:(cbn; tauto) cdata_next c 0%nat Hs).
  - apply (x_sil ENTITYSL _ ENTITY false); [kc (hd 0 l)|]. eapply x_def; eauto.
Qed.

(** ** Markup that is not the header *)
Lemma x_markup : forall first l els s, markup_reads first l els s -> blank (hd 0 l) = false -> (first = true -> hd 0 l <> 63) ->
  forall els' o, cont s els' o -> xruns (if first then STARTTAG else XMLTAG) l (els ++ els') o.
Proof.
  intros first l els s H Hbl Hq els' o Hc.
  destruct H as [l els s Hf H|l s Hf H|l els s H|l els s Hf H|l els s H1 H2 H3 H]; subst.
  - destruct (Hq eq_refl eq_refl).
  - apply (x_sil XMLTAG _ PITAG true); [reflexivity|]. eapply x_pi; eauto.
  - apply (x_sil _ _ ENTITYSL true); [destruct first; reflexivity|]. eapply x_decl; eauto.
  - apply (x_sil XMLTAG _ CLOSETAG true); [reflexivity|]. eapply x_close; eauto.
  - apply (x_sil _ _ OPENTAG false); [|eapply x_tag; eauto]. destruct first; [kc (hd 0 l)|]. specialize (H3 eq_refl). kc (hd 0 l).
Qed.

(** ** Contents *)
Lemma tok_stop : forall k l v r, tok_reads k l (Some (v, r)) -> charb k (hd 0 r) = false /\ hd 0 r <> 38.
Proof.
  intros k l v r H. remember (Some (v, r)) as o eqn:Eo. revert v Eo.
  induction H as [raw r' [H1 H2] H3|raw l v' l' w r' H1 H2 H3 IH|raw l H1 H2|raw l v' l' H1 H2 H3 IH]; intros v0 Eo; try discriminate; injection Eo as <- <-; eauto.
Qed.
Definition tend_of (o : outcome) : tend := match o with Ends => TNone | Broken e => TFail e | Endless => THang end.
Lemma x_content : forall seek l els o, content_reads seek l els o -> forall st, bst seek st -> xruns st l els (tend_of o).
Proof.
  intros seek l els o H.
  induction H as [c l els o Hb H IH|seek l H0|seek l v r els o H1 H2 H3 Ht H IH|seek l H1 H2 H3 Ht|seek ws l els seek2 r els2 o [Hw Hw2] Hm H IH|seek ws l els e [Hw Hw2] Hm|seek ws l els [Hw Hw2] Hm];
    intros st Hst.
  - apply (x_sil st _ st true); [destruct Hst as [->| ->]; cbn [hd]; kc c|]. cbn [tl]. apply IH. exact Hst.
  - apply (x_sil st _ EXIT true); [destruct seek; [destruct Hst as [->| ->]|cbn in Hst; subst st]; kc (hd 0 l)|].
    eapply xr_cons; [eapply ret0_deliver; reflexivity|]. constructor.
  - apply (x_sil st _ TOKEN false); [destruct seek; [specialize (H3 eq_refl); destruct Hst as [->| ->]|cbn in Hst; subst st]; kc (hd 0 l)|].
    assert (Hr : charb CText (hd 0 r) = false /\ hd 0 r <> 38).
    { exact (tok_stop _ _ _ _ Ht). }
    eapply (x_tok TOKEN CONTENT CText); [reflexivity|exact I|exact Ht| |apply IH; reflexivity].
    destruct Hr as [Hr1 Hr2]. unfold charb in Hr1. kc (hd 0 r); eexists _, _; split; reflexivity.
  - apply (x_sil st _ TOKEN false); [destruct seek; [specialize (H3 eq_refl); destruct Hst as [->| ->]|cbn in Hst; subst st]; kc (hd 0 l)|].
    eapply (x_undef TOKEN CText); [reflexivity|exact I|exact Ht].
  - apply (x_sil st _ XMLTAG true); [destruct seek; [destruct Hst as [->| ->]|cbn in Hst; subst st]; reflexivity|]. cbn [tl].
    apply x_ws; [wsst|exact Hw|]. eapply (x_markup false); eauto. discriminate.
  - apply (x_sil st _ XMLTAG true); [destruct seek; [destruct Hst as [->| ->]|cbn in Hst; subst st]; reflexivity|]. cbn [tl].
    apply x_ws; [wsst|exact Hw|]. rewrite <- (app_nil_r els). eapply (x_markup false); eauto; [discriminate|split; reflexivity].
  - apply (x_sil st _ XMLTAG true); [destruct seek; [destruct Hst as [->| ->]|cbn in Hst; subst st]; reflexivity|]. cbn [tl].
    apply x_ws; [wsst|exact Hw|]. rewrite <- (app_nil_r els). eapply (x_markup false); eauto; [discriminate|split; reflexivity].
Qed.
End X.
