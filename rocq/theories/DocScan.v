(** Documents are scanned to their elements (proofs): the state machine. *)
From Verif Require Import Base Iter CharMap CodePages Charset TextScanner Ideal ReaderSim ScannerSim IterSim
  CharsetSpec CharsetProofs ReadSpec ReadProofs XmlScanner ScanSpec ScanProofs CharReader FuelMono Term DocSpec SectSpec DocProofs.

(** transitions of states without action, and states with tokens; the flag says whether the character is consumed *)
Definition nexts (e : XmlScanner.element) (c : ctl) : option (stm * bool) :=
  match nth_error (el_next e) (ctl_idx c) with
  | Some (Some ns) => Some (ns, true)
  | Some None => match el_fallback e with Some fs => Some (fs, false) | None => None end
  | None => None
  end.
Definition snext (st : stm) (c : ctl) : option (stm * bool) :=
  match stm_get st with
  | Some e => match el_action e with None => nexts e c | Some _ => None end
  | None => None
  end.
Definition tnext (st : stm) (c : ctl) : option (list bool * etype * stm * bool) :=
  match stm_get st with
  | Some e => match el_action e with
              | Some (a, arg) => match tokenDef a, isNone arg, el_nofnext e with
                                 | Some isTok, false, S _ => match nexts e c with Some (ns, b) => Some (isTok, arg, ns, b) | None => None end
                                 | _, _, _ => None
                                 end
              | None => None
              end
  | None => None
  end.

Section Doc.
Context (outcs : kout) (m : option (list (N * N))) (addr : N) (mask : N).
Hypothesis Hmask : forall t, N.testbit mask (etype_idx t) = true.
Let cfg := kcfg outcs m addr.
Notation pr := (prs outcs).
Notation next := (nextItem (kr_ops outcs) cfg).

Definition KS (st : stm) (l ob b : list N) : scanner (list N) := mkSc st Ok l ob 0 (mkTok TStart false 0 0 0 b).

(** no element between two states *)
Definition silent (st : stm) (l : list N) (st' : stm) (l' : list N) : Prop :=
  exists k, forall f ob b, next (k + f) mask (KS st l ob b) = next f mask (KS st' l' ob b).
(** one element *)
Definition deliver (st : stm) (l : list N) (t : etype) (v : list N) (st' : stm) (l' : list N) : Prop :=
  exists k, forall f ob b, length b = 16%nat -> exists b', length b' = 16%nat /\ next (k + f) mask (KS st l ob b) = Ret (KS st' l' (pr v) b') t.
(** the next call does not end *)
Definition hangs (st : stm) (l : list N) : Prop := forall f ob b, next f mask (KS st l ob b) = Fuel.
(** the elements delivered one after the other; if [hang] is true then the call after them does not end *)
Context (hang : bool).
Inductive runs : stm -> list N -> list (etype * list N) -> Prop :=
| runs_nil : forall st l, (hang = true -> hangs st l) -> runs st l []
| runs_cons : forall st l t v st1 l1 els, deliver st l t v st1 l1 -> runs st1 l1 els -> runs st l ((t, v) :: els).

Lemma silent_refl : forall st l, silent st l st l.
Proof. intros. exists 0%nat. reflexivity. Qed.
Lemma silent_trans : forall st l st1 l1 st2 l2, silent st l st1 l1 -> silent st1 l1 st2 l2 -> silent st l st2 l2.
Proof. intros st l st1 l1 st2 l2 [k H] [k2 H2]. exists (k + k2)%nat. intros f ob b. rewrite <- Nat.add_assoc, H, H2. reflexivity. Qed.

Lemma deliver_silent : forall st l st1 l1 t v st2 l2, silent st l st1 l1 -> deliver st1 l1 t v st2 l2 -> deliver st l t v st2 l2.
Proof. intros st l st1 l1 t v st2 l2 [k H] [k2 H2]. exists (k + k2)%nat. intros f ob b Hb. rewrite <- Nat.add_assoc, H. apply H2. exact Hb. Qed.
Lemma deliver_back : forall st l st1 l1 t v st2 l2, silent st l st1 l1 -> deliver st l t v st2 l2 -> deliver st1 l1 t v st2 l2.
Proof.
  intros st l st1 l1 t v st2 l2 [k H] [k2 H2]. exists k2. intros f ob b Hb. destruct (H2 (k + f)%nat ob b Hb) as [b' [Hb' E]].
  exists b'. split; [exact Hb'|]. rewrite <- E. replace (k2 + (k + f))%nat with (k + (k2 + f))%nat by lia. rewrite H. reflexivity.
Qed.
Lemma hangs_silent : forall st l st1 l1, silent st l st1 l1 -> hangs st1 l1 -> hangs st l.
Proof.
  intros st l st1 l1 [k H] H1 f ob b. destruct (mono_nextItem (kr_ops outcs) cfg f (k + f) mask (KS st l ob b) ltac:(lia)) as [E|E]; [exact E|].
  rewrite E, H. apply H1.
Qed.
Lemma hangs_back : forall st l st1 l1, silent st l st1 l1 -> hangs st l -> hangs st1 l1.
Proof. intros st l st1 l1 [k H] H1 f ob b. rewrite <- H. apply H1. Qed.
Lemma runs_silent : forall st l st1 l1 els, silent st l st1 l1 -> runs st1 l1 els -> runs st l els.
Proof. intros st l st1 l1 els H Hr. destruct Hr; [constructor; eauto using hangs_silent|]. econstructor; [eapply deliver_silent; eauto|assumption]. Qed.
Lemma runs_back : forall st l st1 l1 els, silent st l st1 l1 -> runs st l els -> runs st1 l1 els.
Proof. intros st l st1 l1 els H Hr. destruct Hr; [constructor; eauto using hangs_back|]. econstructor; [eapply deliver_back; eauto|assumption]. Qed.

Lemma sil : forall st l c ns b, kctl (hd 0 l) = c -> snext st c = Some (ns, b) -> silent st l ns (if b then tl l else l).
Proof.
  intros st l c ns b Hc Hs. exists 1%nat. intros f ob bb. cbn [Nat.add]. rewrite nextItem_step. unfold nstep, KS at 1. cbn [sc_state].
  unfold snext in Hs. destruct (stm_get st) as [e|]; [|discriminate]. destruct (el_action e); [discriminate|]. cbn [bind snd fst].
  rewrite k_control. unfold KS. cbn [bind sc_src]. rewrite Hc. unfold transition, nexts in *.
  destruct (nth_error (el_next e) (ctl_idx c)) as [[ns'|]|]; try discriminate.
  - injection Hs as <- <-. unfold upd_tok, set_tok, set_state, tok_id, KS. cbn [sc_state sc_err sc_src sc_obuf sc_tokpos sc_tok tk_id tk_cr tk_pos tk_base tk_value tk_buf].
    rewrite k_skip. reflexivity.
  - destruct (el_fallback e) as [fs|]; [|discriminate]. injection Hs as <- <-. reflexivity.
Qed.

Lemma tnext_any : forall st c isTok arg ns b, tnext st c = Some (isTok, arg, ns, b) -> isTokAt isTok CAny = Some true.
Proof.
  intros st c isTok arg ns b H. unfold tnext in H. destruct (stm_get st) as [e|]; [|discriminate]. destruct (el_action e) as [[a ag]|]; [|discriminate].
  destruct (tokenDef a) as [it|] eqn:Et; [|discriminate].
  assert (it = isTok) by (destruct (isNone ag); [discriminate|]; destruct (el_nofnext e); [discriminate|]; destruct (nexts e c) as [[? ?]|]; [|discriminate]; congruence).
  subst it. destruct a; try discriminate Et; injection Et as <-; reflexivity.
Qed.

Lemma tok_deliver : forall st isTok arg ns b t rest, tnext st (kctl (hd 0 rest)) = Some (isTok, arg, ns, b) ->
  isTokAt isTok CAmp = Some false -> isTokAt isTok (kctl (hd 0 rest)) = Some false -> kctl (hd 0 rest) <> CAmp ->
  tok_ok (fun c => isTokAt isTok (kctl c) = Some true) t ->
  deliver st (tok_src t ++ rest) arg (tok_chars t) ns (if b then tl rest else rest).
Proof.
  intros st isTok arg ns b t rest Hn Ha Hc Hne Ht.
  destruct (ptl_token outcs m addr isTok st Ha (tnext_any _ _ _ _ _ _ Hn) t Ht) as [k Hk]. exists (S k). intros f ob bb Hb.
  destruct (Hk rest [] bb Hb Hc Hne) as [b' [Hb' E]]. exists b'. split; [exact Hb'|].
  unfold tnext in Hn. cbn [Nat.add]. rewrite nextItem_step. unfold nstep, KS at 1. cbn [sc_state].
  destruct (stm_get st) as [e|] eqn:Ee; [|discriminate]. destruct (el_action e) as [[a ag]|] eqn:Ea; [|discriminate].
  destruct (tokenDef a) as [it|] eqn:Et; [|discriminate]. destruct (isNone ag) eqn:Eno; [discriminate|].
  destruct (el_nofnext e) as [|nn] eqn:Enn; [discriminate|]. destruct (nexts e (kctl (hd 0 rest))) as [[ns0 b0]|] eqn:Enx; [|discriminate].
  injection Hn as <- <- <- <-.
  unfold doAction. rewrite Et. unfold KS. cbn [sc_tok tk_id]. rewrite Hmask. unfold parseToken. cbn [sc_tok tk_id].
  unfold upd_tok, set_tok, set_obuf, set_tokpos, tok_id. cbn [sc_state sc_err sc_src sc_obuf sc_tokpos sc_tok tk_id tk_cr tk_pos tk_base tk_value tk_buf kr_ops r_pos].
  specialize (E f). cbn [app] in E. unfold PS in E. fold (kr_ops outcs). fold cfg in E. rewrite E. cbn [bind Nat.eqb snd fst].
  rewrite k_control. cbn [bind sc_src]. unfold transition. unfold nexts in Enx.
  destruct (nth_error (el_next e) (ctl_idx (kctl (hd 0 rest)))) as [[ns'|]|]; try discriminate.
  - injection Enx as <- <-. rewrite k_skip. cbn [bind]. rewrite Eno. reflexivity.
  - destruct (el_fallback e) as [fs|]; [|discriminate]. injection Enx as <- <-. cbn [bind]. rewrite Eno. reflexivity.
Qed.

(** ** White space and tokens *)
Lemma ws_self : forall st, snext st CSpace = Some (st, true) -> snext st CEndOfLine = Some (st, true) ->
  forall ws rest, Forall white ws -> silent st (ws ++ rest) st rest.
Proof.
  intros st H1 H2. induction ws as [|c ws IH]; intros rest H; [apply silent_refl|]. inversion H; subst.
  eapply silent_trans; [|apply IH; assumption]. cbn [app].
  destruct (white_ctl c H4) as [E|E]; [exact (sil st (c :: ws ++ rest) _ _ _ E H1)|exact (sil st (c :: ws ++ rest) _ _ _ E H2)].
Qed.

Lemma tok_ok_impl : forall (P Q : N -> Prop) t, (forall c, P c -> Q c) -> tok_ok P t -> tok_ok Q t.
Proof.
  intros P Q t H [H1 H2]. split; [eapply Forall_impl; eauto|]. eapply Forall_impl; [|exact H2].
  intros p [Hp1 Hp2]. split; [exact Hp1|]. eapply Forall_impl; eauto.
Qed.

Lemma run_tok : forall st vst isTok arg t rest els (cs : list ctl),
  (forall c, In c cs -> exists ns b, tnext st c = Some (isTok, arg, ns, b) /\ snext vst c = Some (ns, b) /\ isTokAt isTok c = Some false /\ c <> CAmp) ->
  isTokAt isTok CAmp = Some false -> tok_ok (fun c => isTokAt isTok (kctl c) = Some true) t ->
  In (kctl (hd 0 rest)) cs -> runs vst rest els -> runs st (tok_src t ++ rest) ((arg, tok_chars t) :: els).
Proof.
  intros st vst isTok arg t rest els cs H Ha Ht Hin Hr. destruct (H _ Hin) as [ns [b [H1 [H2 [H3 H4]]]]].
  econstructor; [eapply tok_deliver; eauto|]. eapply runs_back; [eapply sil; [reflexivity|exact H2]|exact Hr].
Qed.

Definition name_heads : list ctl := [CUndef; CAny; CDash; CAmp].
Lemma name_head : forall t rest, name_ok t -> In (kctl (hd 0 (tok_src t ++ rest))) name_heads.
Proof.
  intros [raw refs] rest [[H1 H2] Hne]. unfold tok_src in *. cbn [t_raw t_refs] in *. destruct raw as [|c raw].
  - destruct refs as [|[r x] refs]; [cbn in Hne; congruence|]. cbn [app flat_map fst snd]. destruct (ref_amp r) as [y ->].
    cbn [app hd]. right. right. right. left. reflexivity.
  - inversion H1; subst. cbn [app hd]. apply name_ctl in H3. destruct H3 as [<-|[<-|[<-|[]]]]; cbn; auto.
Qed.
Lemma name_tok_ok : forall t, name_ok t -> tok_ok (fun c => isTokAt isTagChar (kctl c) = Some true) t.
Proof. intros t [H _]. eapply tok_ok_impl; [|exact H]. apply name_tok. Qed.

Ltac table := let c := fresh in let H := fresh in intros c H; cbn in H;
  repeat (destruct H as [<-|H]; [eexists _, _; split; [vm_compute; reflexivity|split; [vm_compute; reflexivity|split; [vm_compute; reflexivity|discriminate]]]|]); destruct H.
Ltac heads := let c := fresh in let H := fresh in intros c H; cbn in H; repeat (destruct H as [<-|H]; [reflexivity|]); destruct H.

Lemma sil_head : forall st l cs ns b, In (kctl (hd 0 l)) cs -> (forall c, In c cs -> snext st c = Some (ns, b)) -> silent st l ns (if b then tl l else l).
Proof. intros st l cs ns b H H2. eapply sil; [reflexivity|apply H2; exact H]. Qed.

(** ** Attributes: of the header and of tags *)
Definition isk (h : bool) : stm := if h then XTAGAISK else TAGAISK.
Definition nam (h : bool) : stm := if h then XTAGANAM else TAGANAM.
Definition esk (h : bool) : stm := if h then XTAGAESK else TAGAESK.
Definition vsk (h : bool) : stm := if h then XTAGAVSK else TAGAVSK.
Definition vid (h : bool) : stm := if h then XTAGAVID else TAGAVID.
Definition vstr (h : bool) (q : N) : stm := if h then (if q =? 34 then XTAGAVDQ else XTAGAVSQ) else (if q =? 34 then TAGAVDQ else TAGAVSQ).
Definition vqe (h : bool) : stm := if h then XTAGAVQE else TAGAVQE.
Definition tname (h : bool) : etype := if h then EHeaderAttribName else ETagAttribName.
Definition tvalue (h : bool) : etype := if h then EHeaderAttribValue else ETagAttribValue.
(** what may follow the attributes *)
Definition ends (h : bool) : list ctl := if h then [CQuestm] else [CGt; CSlash].
Definition wsctl : list ctl := [CSpace; CEndOfLine].

Lemma ws_head : forall ws rest cs, Forall white ws -> (ws = [] -> In (kctl (hd 0 rest)) cs) -> In (kctl (hd 0 (ws ++ rest))) (wsctl ++ cs).
Proof.
  intros [|c ws] rest cs H Hn; [apply in_or_app; right; apply Hn; reflexivity|]. inversion H; subst. cbn [app hd].
  apply in_or_app. left. destruct (white_ctl c H2) as [->| ->]; cbn; auto.
Qed.
Lemma kctl_eq : forall c k, kctl c = k -> In (kctl c) [k].
Proof. intros. left. auto. Qed.

Lemma vqe_isk : forall h rest, In (kctl (hd 0 rest)) (ends h) -> forall els, runs (vqe h) rest els -> runs (isk h) rest els.
Proof.
  intros h rest H els Hr.
  assert (Hs : exists ns, silent (vqe h) rest ns (tl rest) /\ silent (isk h) rest ns (tl rest)).
  { destruct h; cbn in H.
    - destruct H as [H|[]]. exists XTAGEND. split; (eapply (sil _ rest _ _ true); [symmetry; exact H|reflexivity]).
    - destruct H as [H|[H|[]]]; [exists CONTENT|exists TAGCLIM]; split; (eapply (sil _ rest _ _ true); [symmetry; exact H|reflexivity]). }
  destruct Hs as [ns [H1 H2]]. eapply runs_silent; [exact H2|]. eapply runs_back; [exact H1|exact Hr].
Qed.
Lemma vqe_ws : forall h ws rest, ws <> [] -> Forall white ws -> silent (vqe h) (ws ++ rest) (isk h) rest.
Proof.
  intros h [|c ws] rest Hne H; [congruence|]. inversion H; subst. eapply silent_trans; [|apply ws_self; [destruct h; reflexivity|destruct h; reflexivity|exact H3]].
  cbn [app]. destruct (white_ctl c H2) as [E|E]; exact (sil (vqe h) (c :: ws ++ rest) _ (isk h) true E ltac:(destruct h; reflexivity)).
Qed.

Lemma run_aval : forall h v rest els, aval_ok v -> In (kctl (hd 0 rest)) (wsctl ++ ends h) -> runs (vqe h) rest els ->
  runs (vsk h) (aval_src v ++ rest) ((tvalue h, aval_chars v) :: els).
Proof.
  intros h [q t|t] rest els Hok Hin Hr; cbn [aval_ok aval_src aval_chars] in *.
  - destruct Hok as [Hq Ht]. cbn [app]. rewrite <- app_assoc. cbn [app].
    apply runs_silent with (st1 := vstr h q) (l1 := tok_src t ++ q :: rest).
    + assert (E : kctl q = if q =? 34 then CDq else CSq) by (destruct Hq as [->| ->]; reflexivity).
      apply (sil (vsk h) (q :: tok_src t ++ q :: rest) (if q =? 34 then CDq else CSq) (vstr h q) true); [exact E|].
      unfold vstr. destruct h, (q =? 34); reflexivity.
    + econstructor; [|exact Hr].
      assert (E : kctl q = if q =? 34 then CDq else CSq) by (destruct Hq as [->| ->]; reflexivity).
      apply (tok_deliver (vstr h q) (if q =? 34 then isDQStringChar else isSQStringChar) (tvalue h) (vqe h) true t (q :: rest)).
      * cbn [hd]. rewrite E. unfold vstr. destruct h, (q =? 34); reflexivity.
      * destruct (q =? 34); reflexivity.
      * cbn [hd]. rewrite E. destruct (q =? 34); reflexivity.
      * cbn [hd]. rewrite E. destruct (q =? 34); discriminate.
      * eapply tok_ok_impl; [|exact Ht]. intros c Hc. apply value_ctl; assumption.
  - eapply runs_silent with (st1 := vid h) (l1 := tok_src t ++ rest).
    + exact (sil_head (vsk h) (tok_src t ++ rest) name_heads (vid h) false (name_head t rest Hok) ltac:(destruct h; heads)).
    + destruct h.
      * eapply (run_tok XTAGAVID XTAGAVQE isTagChar) with (cs := wsctl ++ ends true); [table|reflexivity|apply name_tok_ok; exact Hok|exact Hin|exact Hr].
      * eapply (run_tok TAGAVID TAGAVQE isTagChar) with (cs := wsctl ++ ends false); [table|reflexivity|apply name_tok_ok; exact Hok|exact Hin|exact Hr].
Qed.

Lemma run_attr : forall h a rest els, attr_ok a -> In (kctl (hd 0 rest)) (wsctl ++ ends h) -> runs (vqe h) rest els ->
  runs (vqe h) (attr_src a ++ rest) ((tname h, tok_chars (a_name a)) :: (tvalue h, aval_chars (a_val a)) :: els).
Proof.
  intros h [ws n ws1 ws2 v] rest els [H1 [H2 [H3 [H4 [H5 H6]]]]] Hin Hr. unfold attr_src. cbn [a_ws a_name a_ws1 a_ws2 a_val] in *.
  rewrite <- !app_assoc. eapply runs_silent; [apply vqe_ws; assumption|].
  eapply runs_silent; [exact (sil_head (isk h) _ name_heads (nam h) false (name_head n _ H3) ltac:(destruct h; heads))|]. cbn iota.
  assert (Hr2 : runs (esk h) (ws1 ++ [61] ++ ws2 ++ aval_src v ++ rest) ((tvalue h, aval_chars v) :: els)).
  { eapply runs_silent; [apply ws_self; [destruct h; reflexivity|destruct h; reflexivity|exact H4]|].
    eapply runs_silent; [apply (sil (esk h) _ CEqual (vsk h) true); [reflexivity|destruct h; reflexivity]|]. cbn [tl app].
    eapply runs_silent; [apply ws_self; [destruct h; reflexivity|destruct h; reflexivity|exact H5]|].
    apply run_aval; assumption. }
  assert (Hh : In (kctl (hd 0 (ws1 ++ [61] ++ ws2 ++ aval_src v ++ rest))) (wsctl ++ [CEqual])) by (apply ws_head; [exact H4|intros _; left; reflexivity]).
  destruct h.
  - eapply (run_tok XTAGANAM XTAGAESK isTagChar) with (cs := wsctl ++ [CEqual]); [table|reflexivity|apply name_tok_ok; exact H3|exact Hh|exact Hr2].
  - eapply (run_tok TAGANAM TAGAESK isTagChar) with (cs := wsctl ++ [CEqual]); [table|reflexivity|apply name_tok_ok; exact H3|exact Hh|exact Hr2].
Qed.

Lemma attrs_head : forall h attrs ws rest, Forall attr_ok attrs -> Forall white ws -> In (kctl (hd 0 rest)) (ends h) ->
  In (kctl (hd 0 (attrs_src attrs ++ ws ++ rest))) (wsctl ++ ends h).
Proof.
  intros h [|a attrs] ws rest Ha Hw Hin; cbn [attrs_src flat_map app]; [apply ws_head; auto|].
  inversion Ha; subst. destruct H1 as [H1 [H1' _]]. unfold attr_src. rewrite <- !app_assoc. apply ws_head; [exact H1'|]. intros E. congruence.
Qed.

Lemma run_attrs : forall h attrs ws rest els, Forall attr_ok attrs -> Forall white ws -> In (kctl (hd 0 rest)) (ends h) ->
  runs (vqe h) rest els -> runs (vqe h) (attrs_src attrs ++ ws ++ rest) (attrs_elements (tname h) (tvalue h) attrs ++ els).
Proof.
  intros h attrs ws rest els Ha Hw Hin Hr. induction Ha as [|a attrs Ha1 Ha IH]; cbn [attrs_src attrs_elements flat_map app].
  - destruct ws as [|w ws]; [exact Hr|]. eapply runs_silent; [apply vqe_ws; [discriminate|exact Hw]|]. apply vqe_isk; assumption.
  - rewrite <- app_assoc. apply run_attr; auto. apply attrs_head; assumption.
Qed.

(** ** Elements without text *)
Lemma ret_deliver : forall st e arg n l ns b, stm_get st = Some e -> el_action e = Some (Return, arg) -> isNone arg = false ->
  el_nofnext e = S n -> nexts e (kctl (hd 0 l)) = Some (ns, b) -> deliver st l arg [] ns (if b then tl l else l).
Proof.
  intros st e arg n l ns b He Ea Eno En Hx. exists 1%nat. intros f ob bb Hb. exists bb. split; [exact Hb|].
  cbn [Nat.add]. rewrite nextItem_step. unfold nstep, KS. cbn [sc_state]. rewrite He, Ea. unfold doAction. cbn [tokenDef stringDef bind].
  rewrite En. cbn [Nat.eqb bind snd fst]. unfold set_obuf, set_tokpos. cbn [sc_state sc_err sc_src sc_obuf sc_tokpos sc_tok kr_ops r_pos]. fold (kr_ops outcs).
  rewrite k_control. cbn [bind sc_src]. unfold transition. unfold nexts in Hx.
  destruct (nth_error (el_next e) (ctl_idx (kctl (hd 0 l)))) as [[ns'|]|]; try discriminate.
  - injection Hx as <- <-. rewrite k_skip. cbn [bind]. rewrite Eno. reflexivity.
  - destruct (el_fallback e) as [fs|]; [|discriminate]. injection Hx as <- <-. cbn [bind]. rewrite Eno. reflexivity.
Qed.
Lemma ret0_deliver : forall st e arg l ns, stm_get st = Some e -> el_action e = Some (Return, arg) -> el_nofnext e = 0%nat ->
  match el_fallback e with Some fs => fs | None => st end = ns -> deliver st l arg [] ns l.
Proof.
  intros st e arg l ns He Ea En Hf. exists 1%nat. intros f ob bb Hb. exists bb. split; [exact Hb|].
  cbn [Nat.add]. rewrite nextItem_step. unfold nstep, KS. cbn [sc_state]. rewrite He, Ea. unfold doAction. cbn [tokenDef stringDef bind].
  rewrite En. cbn [Nat.eqb bind snd fst]. subst ns. destruct (el_fallback e); reflexivity.
Qed.
Lemma run_exit : forall l, hang = false -> runs EXIT l [(EExit, [])].
Proof. intros l Hh. econstructor; [|constructor; congruence]. eapply ret0_deliver; reflexivity. Qed.

(** self closing tags *)
Lemma run_clim : forall ws rest els, Forall white ws -> runs CONTENT rest els ->
  runs TAGCLIM (ws ++ 62 :: rest) (repeat (ECloseTagIm, []) (S (length ws)) ++ els).
Proof.
  induction ws as [|c ws IH]; intros rest els H Hr; cbn [app length repeat].
  - econstructor; [|exact Hr]. exact (ret_deliver TAGCLIM _ _ _ (62 :: rest) CONTENT true eq_refl eq_refl eq_refl eq_refl eq_refl).
  - inversion H; subst. apply runs_cons with (st1 := TAGCLIM) (l1 := ws ++ 62 :: rest); [|apply (IH rest els); assumption].
    assert (E : nexts (match stm_get TAGCLIM with Some e => e | None => el_new end) (kctl (hd 0 (c :: ws ++ 62 :: rest))) = Some (TAGCLIM, true)).
    { cbn [hd]. destruct (white_ctl c H2) as [->| ->]; reflexivity. }
    exact (ret_deliver TAGCLIM _ _ _ (c :: ws ++ 62 :: rest) TAGCLIM true eq_refl eq_refl eq_refl eq_refl E).
Qed.

(** ** Comments, CDATA sections, processing instructions *)
Lemma run_section : forall d good (stof : nat -> stm) fin, In d [45; 93] ->
  (forall n c, snext (stof n) c = Some (if ctl_eqb c (kctl d) then stof (S n) else if ctl_eqb c CGt && good n then fin else stof 0%nat, true)) ->
  forall l n rest, sectb d good n l = true -> silent (stof n) (l ++ rest) fin rest.
Proof.
  intros d good stof fin Hd T. assert (Hd2 : In d [0;38;60;61;62;47;45;33;63;39;34;91;93]) by (destruct Hd as [<-|[<-|[]]]; cbn; tauto).
  assert (Hne : forall c d', In d' [0;38;60;61;62;47;45;33;63;39;34;91;93] -> ctl_eqb (kctl c) (kctl d') = (c =? d')).
  { intros c d' Hd'. destruct (N.eqb_spec c d') as [->|Hc]; [destruct (kctl d'); reflexivity|].
    destruct (ctl_eqb (kctl c) (kctl d')) eqn:E; [|reflexivity]. apply ctl_eqb_eq in E. apply kctl_inj in E; [congruence|exact Hd']. }
  induction l as [|x l IH]; intros n rest H; cbn [sectb] in H; [discriminate|]. cbn [app].
  assert (E : snext (stof n) (kctl x) = Some (if x =? d then stof (S n) else if (x =? 62) && good n then fin else stof 0%nat, true)).
  { rewrite T. rewrite (Hne x d Hd2). change CGt with (kctl 62). rewrite (Hne x 62) by (cbn; tauto). reflexivity. }
  destruct (x =? d); [eapply silent_trans; [apply (sil (stof n) (x :: l ++ rest) (kctl x) (stof (S n)) true); [reflexivity|exact E]|apply IH; exact H]|].
  destruct ((x =? 62) && good n).
  - destruct l as [|y l]; [|discriminate]. cbn [app]. apply (sil (stof n) (x :: rest) (kctl x) fin true); [reflexivity|exact E].
  - eapply silent_trans; [apply (sil (stof n) (x :: l ++ rest) (kctl x) (stof 0%nat) true); [reflexivity|exact E]|apply IH; exact H].
Qed.
Definition com_st (n : nat) : stm := match n with O => COMSEEKE | _ => if Nat.even n then COMENDCL else COMENDD2 end.
Lemma com_next : forall n c, snext (com_st n) c = Some (if ctl_eqb c (kctl 45) then com_st (S n) else if ctl_eqb c CGt && comment_run n then SEEKTOK else com_st 0, true).
Proof.
  intros n c. unfold com_st, comment_run. destruct n as [|n]; [destruct c; reflexivity|]. rewrite (Nat.even_succ (S n)), <- Nat.negb_even.
  destruct (Nat.even (S n)); destruct c; reflexivity.
Qed.
Definition cdata_st (n : nat) : stm := match (n mod 3)%nat with O => CDATA1 | 1%nat => CDATA2 | _ => CDATA3 end.
Lemma cdata_next : forall n c, snext (cdata_st n) c = Some (if ctl_eqb c (kctl 93) then cdata_st (S n) else if ctl_eqb c CGt && cdata_run n then CONTENT else cdata_st 0, true).
Proof.
  intros n c. unfold cdata_st, cdata_run.
  assert (E : (S n mod 3 = match n mod 3 with 0 => 1 | 1 => 2 | _ => 0 end)%nat).
  { pose proof (Nat.mod_upper_bound n 3 ltac:(lia)) as H. replace (S n) with (n + 1)%nat by lia. rewrite Nat.add_mod by lia.
    destruct (n mod 3)%nat as [|[|[|k]]]; [reflexivity|reflexivity|reflexivity|lia]. }
  rewrite E. pose proof (Nat.mod_upper_bound n 3 ltac:(lia)) as H. destruct (n mod 3)%nat as [|[|[|k]]]; [| | |lia]; destruct c; reflexivity.
Qed.

Lemma run_until : forall d st fin, In d [63; 93] -> (forall c, snext st c = Some (if ctl_eqb c (kctl d) then fin else st, true)) ->
  forall l rest, ~ In d l -> silent st (l ++ d :: rest) fin rest.
Proof.
  intros d st fin Hd T. assert (Hd2 : In d [0;38;60;61;62;47;45;33;63;39;34;91;93]) by (destruct Hd as [<-|[<-|[]]]; cbn; tauto).
  induction l as [|x l IH]; intros rest H; cbn [app].
  - apply (sil st (d :: rest) (kctl d) fin true); [reflexivity|]. rewrite T. replace (ctl_eqb (kctl d) (kctl d)) with true by (destruct (kctl d); reflexivity). reflexivity.
  - eapply silent_trans; [|apply IH; intros Hi; apply H; right; exact Hi]. apply (sil st (x :: l ++ d :: rest) (kctl x) st true); [reflexivity|].
    rewrite T. destruct (ctl_eqb (kctl x) (kctl d)) eqn:E; [|reflexivity]. apply ctl_eqb_eq in E. apply kctl_inj in E; [|exact Hd2].
    subst. exfalso. apply H. left. reflexivity.
Qed.

Lemma sil_cdata : forall rest, silent CDATA (str "CDATA[" ++ rest) CDATA1 rest.
Proof.
  intros rest. exists 1%nat. intros f ob b. cbn [Nat.add]. rewrite nextItem_step.
  assert (E : nstep (kr_ops outcs) cfg f mask (KS CDATA (str "CDATA[" ++ rest) ob b) = Ret (KS CDATA1 rest ob b) None) by (lazy; reflexivity).
  rewrite E. reflexivity.
Qed.

(** ** Document attribute definitions *)
Lemma parts_head : forall parts tail0, Forall (fun p => fst p <> [] /\ Forall white (fst p) /\ dpart_ok (snd p)) parts -> In (kctl (hd 0 tail0)) (wsctl ++ [CGt]) ->
  In (kctl (hd 0 (flat_map (fun p => fst p ++ dpart_src (snd p)) parts ++ tail0))) (wsctl ++ [CGt]).
Proof.
  intros parts tail0 Hp H0. destruct Hp as [|[w2 d2] parts2 [H4 [H5 _]] _]; cbn [flat_map app fst snd]; [exact H0|].
  rewrite <- !app_assoc. apply ws_head; [exact H5|]. intros E. cbn in H4. congruence.
Qed.
Lemma run_doctype_parts : forall parts tail0 els,
  Forall (fun p => fst p <> [] /\ Forall white (fst p) /\ dpart_ok (snd p)) parts -> In (kctl (hd 0 tail0)) (wsctl ++ [CGt]) -> runs ENTITY tail0 els ->
  runs ENTITY (flat_map (fun p => fst p ++ dpart_src (snd p)) parts ++ tail0) (flat_map (fun p => dpart_elements (snd p)) parts ++ els).
Proof.
  intros parts tail0 els Hp Hw Hr.
  induction Hp as [|[w d] parts [H1 [H2 H3]] Hp IH]; cbn [flat_map app fst snd] in *; [exact Hr|].
  rewrite <- !app_assoc. eapply runs_silent; [apply ws_self; [reflexivity|reflexivity|exact H2]|].
  assert (Hh := parts_head parts tail0 Hp Hw). set (tail := flat_map (fun p => fst p ++ dpart_src (snd p)) parts ++ tail0) in *.
  destruct d as [n|q t|l]; cbn [dpart_src dpart_elements dpart_ok app] in *.
  - eapply runs_silent; [exact (sil_head ENTITY _ name_heads ENTITYID false (name_head n _ H3) ltac:(heads))|]. cbn iota.
    eapply (run_tok ENTITYID ENTITY isTagChar) with (cs := wsctl ++ [CGt]); [table|reflexivity|apply name_tok_ok; exact H3|exact Hh|exact IH].
  - destruct H3 as [Hq Ht]. rewrite <- app_assoc. cbn [app].
    assert (E : kctl q = if q =? 34 then CDq else CSq) by (destruct Hq as [->| ->]; reflexivity).
    eapply runs_silent; [apply (sil ENTITY (q :: tok_src t ++ q :: tail) (if q =? 34 then CDq else CSq) (if q =? 34 then ENTITYDQ else ENTITYSQ) true);
       [exact E|destruct (q =? 34); reflexivity]|]. cbn [tl].
    econstructor; [|exact IH].
    apply (tok_deliver (if q =? 34 then ENTITYDQ else ENTITYSQ) (if q =? 34 then isDQStringChar else isSQStringChar) EDocAttribValue ENTITY true t (q :: tail)).
    + cbn [hd]. rewrite E. destruct (q =? 34); reflexivity.
    + destruct (q =? 34); reflexivity.
    + cbn [hd]. rewrite E. destruct (q =? 34); reflexivity.
    + cbn [hd]. rewrite E. destruct (q =? 34); discriminate.
    + eapply tok_ok_impl; [|exact Ht]. intros c Hc. apply value_ctl; assumption.
  - rewrite <- app_assoc. cbn [app].
    eapply runs_silent; [apply (sil ENTITY (91 :: l ++ 93 :: tail) COsb ENTITYLC true); reflexivity|]. cbn [tl].
    eapply runs_silent; [apply (run_until 93 ENTITYLC ENTITY); [cbn; tauto|intros []; reflexivity|exact H3]|exact IH].
Qed.

Lemma run_doctype : forall T n parts tail0 els, T = XMLTAG \/ T = STARTTAG -> name_ok n -> hd 0 (t_raw n) <> 45 ->
  Forall (fun p => fst p <> [] /\ Forall white (fst p) /\ dpart_ok (snd p)) parts -> In (kctl (hd 0 tail0)) (wsctl ++ [CGt]) -> runs ENTITY tail0 els ->
  runs T (33 :: tok_src n ++ flat_map (fun p => fst p ++ dpart_src (snd p)) parts ++ tail0) ((EDocAttribValue, tok_chars n) :: flat_map (fun p => dpart_elements (snd p)) parts ++ els).
Proof.
  intros T n parts tail0 els HT Hn Hd Hp Hw Hr.
  assert (Hh := parts_head parts tail0 Hp Hw). set (tail := flat_map (fun p => fst p ++ dpart_src (snd p)) parts ++ tail0) in *.
  eapply runs_silent; [apply (sil T (33 :: tok_src n ++ tail) CExclam ENTITYSL true); [reflexivity|destruct HT as [->| ->]; reflexivity]|]. cbn [tl].
  assert (Hhd : In (kctl (hd 0 (tok_src n ++ tail))) [CUndef; CAny; CAmp]).
  { pose proof (name_head n tail Hn) as Hh2. destruct Hh2 as [H|[H|[H|[H|[]]]]]; [left; exact H|right; left; exact H| |right; right; left; exact H].
    exfalso. destruct n as [raw refs]. destruct Hn as [[Hn1 Hn2] Hne]. unfold tok_src in H, Hne. cbn [t_raw t_refs] in *. destruct raw as [|c raw].
    - destruct refs as [|[r x] refs]; [cbn in Hne; congruence|]. cbn [app flat_map fst snd] in H. destruct (ref_amp r) as [y Ey]. rewrite Ey in H. discriminate H.
    - cbn [app hd] in *. change CDash with (kctl 45) in H. symmetry in H. apply kctl_inj in H; [congruence|cbn; tauto]. }
  eapply runs_silent; [apply (sil_head ENTITYSL _ [CUndef; CAny; CAmp] ENTITY false Hhd ltac:(heads))|]. cbn iota.
  eapply runs_silent; [apply (sil_head ENTITY _ [CUndef; CAny; CAmp] ENTITYID false Hhd ltac:(heads))|]. cbn iota.
  eapply (run_tok ENTITYID ENTITY isTagChar) with (cs := wsctl ++ [CGt]); [table|reflexivity|apply name_tok_ok; exact Hn|exact Hh|].
  apply run_doctype_parts; assumption.
Qed.

(** ** Items *)
Definition bst (seek : bool) (st : stm) : Prop := if seek then st = SEEKTOK \/ st = DOCSTART else st = CONTENT.
Definition tag_start (T : stm) (i : item) : Prop := T = XMLTAG \/ (T = STARTTAG /\ first_ok [i]).

Lemma run_open : forall T n attrs ws tail els, T = XMLTAG \/ T = STARTTAG -> name_ok n -> Forall attr_ok attrs -> Forall white ws ->
  In (kctl (hd 0 tail)) (ends false) -> runs TAGAVQE tail els ->
  runs T (tok_src n ++ attrs_src attrs ++ ws ++ tail) ((EOpenTag, tok_chars n) :: attrs_elements ETagAttribName ETagAttribValue attrs ++ els).
Proof.
  intros T n attrs ws tail els HT Hn Ha Hw Hh Hr.
  eapply runs_silent; [exact (sil_head T _ name_heads OPENTAG false (name_head n _ Hn) ltac:(destruct HT as [->| ->]; heads))|]. cbn iota.
  eapply (run_tok OPENTAG TAGAVQE isTagChar) with (cs := wsctl ++ ends false);
    [table|reflexivity|apply name_tok_ok; exact Hn|apply attrs_head; assumption|apply (run_attrs false); assumption].
Qed.

Lemma run_markup : forall i T rest els, item_ok i -> is_text i = false -> tag_start T i ->
  (forall st, bst (item_seek false i) st -> runs st rest els) -> runs T (tl (item_src i) ++ rest) (item_elements false i ++ els).
Proof.
  intros i T rest els Hok Ht HT Hr.
  assert (HTT : T = XMLTAG \/ T = STARTTAG) by (destruct HT as [->|[-> _]]; auto).
  assert (Hc : forall c ns, snext XMLTAG c = Some (ns, true) -> snext STARTTAG c = Some (ns, true) -> snext T c = Some (ns, true)) by (destruct HTT as [->| ->]; auto).
  destruct i as [t|n attrs ws|n attrs ws ws2|n ws|l|l|l|n parts ws]; cbn [item_ok item_src item_elements item_seek bst is_text] in *; try discriminate.
  - destruct Hok as [Hn [Ha Hw]]. cbn [app tl]. rewrite <- !app_assoc. apply run_open; auto; [left; reflexivity|].
    eapply runs_silent; [apply (sil TAGAVQE (62 :: rest) CGt CONTENT true); reflexivity|]. apply Hr. reflexivity.
  - destruct Hok as [Hn [Ha [Hw Hw2]]]. cbn [app tl]. rewrite <- !app_assoc. cbn [app]. rewrite <- !app_assoc. apply run_open; auto; [right; left; reflexivity|].
    eapply runs_silent; [apply (sil TAGAVQE (47 :: ws2 ++ [62] ++ rest) CSlash TAGCLIM true); reflexivity|]. cbn [tl app].
    apply run_clim; [exact Hw2|]. apply Hr. reflexivity.
  - destruct HT as [->|[_ []]]. destruct Hok as [Hn Hw]. change (str "</" ++ tok_src n ++ ws ++ [62]) with (60 :: 47 :: tok_src n ++ ws ++ [62]). cbn [tl app].
    eapply runs_silent; [apply (sil XMLTAG (47 :: (tok_src n ++ ws ++ [62]) ++ rest) CSlash CLOSETAG true); reflexivity|]. cbn [tl]. rewrite <- !app_assoc. cbn [app].
    eapply (run_tok CLOSETAG TAGCLSK isTagChar) with (cs := wsctl ++ [CGt]);
      [table|reflexivity|apply name_tok_ok; exact Hn|apply ws_head; [exact Hw|intros _; left; reflexivity]|].
    eapply runs_silent; [apply ws_self; [reflexivity|reflexivity|exact Hw]|].
    eapply runs_silent; [apply (sil TAGCLSK (62 :: rest) CGt CONTENT true); reflexivity|]. apply Hr. reflexivity.
  - apply comment_ok in Hok. change (str "<!--" ++ l ++ str "-->") with (60 :: 33 :: 45 :: 45 :: l ++ str "-->"). cbn [tl app]. rewrite <- app_assoc.
    eapply runs_silent; [apply (sil T (33 :: 45 :: 45 :: l ++ str "-->" ++ rest) CExclam ENTITYSL true); [reflexivity|apply Hc; reflexivity]|]. cbn [tl].
    eapply runs_silent; [apply (sil ENTITYSL (45 :: 45 :: l ++ str "-->" ++ rest) CDash COMDASH2 true); reflexivity|]. cbn [tl].
    eapply runs_silent; [apply (sil COMDASH2 (45 :: l ++ str "-->" ++ rest) CDash COMSEEKE true); reflexivity|]. cbn [tl].
    eapply runs_silent; [rewrite (app_assoc l); exact (run_section 45 comment_run com_st SEEKTOK ltac:(cbn; tauto) com_next _ 0%nat rest Hok)|].
    apply Hr. left. reflexivity.
  - destruct HT as [->|[_ []]]. change (str "<?" ++ l ++ str "?>") with (60 :: 63 :: l ++ 63 :: [62]). cbn [tl app]. rewrite <- app_assoc.
    eapply runs_silent; [apply (sil XMLTAG (63 :: l ++ (63 :: [62]) ++ rest) CQuestm PITAG true); reflexivity|]. cbn [tl app].
    eapply runs_silent; [apply (run_until 63 PITAG PITAGEND); [cbn; tauto|intros []; reflexivity|exact Hok]|].
    eapply runs_silent; [apply (sil PITAGEND (62 :: rest) CGt CONTENT true); reflexivity|]. apply Hr. reflexivity.
  - apply cdata_ok in Hok. change (str "<![CDATA[" ++ l ++ str "]]>") with (60 :: 33 :: 91 :: str "CDATA[" ++ l ++ str "]]>"). cbn [tl app]. rewrite <- !app_assoc.
    eapply runs_silent; [apply (sil T (33 :: 91 :: str "CDATA[" ++ l ++ str "]]>" ++ rest) CExclam ENTITYSL true); [reflexivity|apply Hc; reflexivity]|]. cbn [tl].
    eapply runs_silent; [apply (sil ENTITYSL (91 :: str "CDATA[" ++ l ++ str "]]>" ++ rest) COsb CDATA true); reflexivity|]. cbn [tl].
    eapply runs_silent; [apply sil_cdata|].
    eapply runs_silent; [rewrite (app_assoc l); exact (run_section 93 cdata_run cdata_st CONTENT ltac:(cbn; tauto) cdata_next _ 0%nat rest Hok)|].
    apply Hr. reflexivity.
  - destruct Hok as [Hn [Hd [Hp Hw]]]. change (str "<!" ++ tok_src n ++ flat_map (fun p => fst p ++ dpart_src (snd p)) parts ++ ws ++ [62])
      with (60 :: 33 :: tok_src n ++ flat_map (fun p => fst p ++ dpart_src (snd p)) parts ++ ws ++ [62]). cbn [tl app]. rewrite <- !app_assoc. cbn [app].
    apply run_doctype; auto; [apply ws_head; [exact Hw|intros _; left; reflexivity]|].
    eapply runs_silent; [apply ws_self; [reflexivity|reflexivity|exact Hw]|].
    eapply runs_silent; [apply (sil ENTITY (62 :: rest) CGt ENTITYE true); reflexivity|]. cbn [tl].
    econstructor; [eapply ret0_deliver; reflexivity|]. cbn. apply Hr. left. reflexivity.
Qed.

(** content *)
Lemma run_text : forall st t rest els, tok_ok text_char t -> tok_src t <> [] -> In (kctl (hd 0 rest)) [CEndOfText; CLt] ->
  In st [CONTENT; SEEKTOK; DOCSTART] -> (st <> CONTENT -> blank (hd 0 (tok_src t)) = false) -> runs CONTENT rest els ->
  runs st (tok_src t ++ rest) ((EContent, tok_chars t) :: els).
Proof.
  intros st t rest els Ht Hne Hh Hst Hb Hr.
  assert (Hs : silent st (tok_src t ++ rest) TOKEN (tok_src t ++ rest)).
  { assert (Hc : kctl (hd 0 (tok_src t ++ rest)) <> CEndOfText /\ kctl (hd 0 (tok_src t ++ rest)) <> CLt).
    { assert (Hhd : text_char (hd 0 (tok_src t ++ rest)) \/ hd 0 (tok_src t ++ rest) = 38).
      { destruct t as [raw refs]. destruct Ht as [H1 _]. unfold tok_src in *. cbn [t_raw t_refs] in *. destruct raw as [|c raw].
        - destruct refs as [|[r x] refs]; [cbn in Hne; congruence|]. cbn [app flat_map fst snd]. destruct (ref_amp r) as [y ->]. right. reflexivity.
        - inversion H1; subst. left. assumption. }
      destruct Hhd as [H|H]; [|rewrite H; split; discriminate]. apply text_ctl in H. split; intros E; rewrite E in H; discriminate. }
    assert (Hbl : st <> CONTENT -> inctl (kctl (hd 0 (tok_src t ++ rest))) [CEndOfLine; CCntrl; CSpace] = false).
    { intros Hx. rewrite <- blank_ctl. destruct (tok_src t) eqn:E; [congruence|]. apply Hb. exact Hx. }
    destruct Hc as [Hc1 Hc2].
    eapply (sil st (tok_src t ++ rest) _ TOKEN false); [reflexivity|].
    destruct Hst as [<-|[<-|[<-|[]]]].
    - destruct (kctl (hd 0 (tok_src t ++ rest))); try congruence; reflexivity.
    - specialize (Hbl ltac:(discriminate)). destruct (kctl (hd 0 (tok_src t ++ rest))); try congruence; try discriminate; reflexivity.
    - specialize (Hbl ltac:(discriminate)). destruct (kctl (hd 0 (tok_src t ++ rest))); try congruence; try discriminate; reflexivity. }
  eapply runs_silent; [exact Hs|].
  eapply (run_tok TOKEN CONTENT isContentChar) with (cs := [CEndOfText; CLt]); [table|reflexivity| |exact Hh|exact Hr].
  eapply tok_ok_impl; [|exact Ht]. apply text_ctl.
Qed.

Lemma strip_sil : forall st l rest, In st [SEEKTOK; DOCSTART] -> silent st (l ++ rest) st (strip l ++ rest).
Proof.
  intros st l rest Hst. induction l as [|c l IH]; [apply silent_refl|]. cbn [strip]. destruct (blank c) eqn:E; [|apply silent_refl].
  eapply silent_trans; [|exact IH]. cbn [app]. rewrite blank_ctl in E. apply inctl_in in E.
  apply (sil st (c :: l ++ rest) (kctl c) st true); [reflexivity|].
  destruct Hst as [<-|[<-|[]]]; destruct E as [<-|[<-|[<-|[]]]]; reflexivity.
Qed.
Lemma strip_head : forall l, l = [] \/ strip l = [] \/ blank (hd 0 (strip l)) = false.
Proof. induction l as [|c l IH]; [left; reflexivity|]. right. cbn [strip]. destruct (blank c) eqn:E; [|right; exact E]. destruct IH as [->|[IH|IH]]; auto. Qed.
Lemma strip_forall : forall (P : N -> Prop) l, Forall P l -> Forall P (strip l).
Proof. intros P l H. induction H as [|c l Hc H IH]; cbn [strip]; [constructor|]. destruct (blank c); [exact IH|constructor; auto]. Qed.

Lemma run_item : forall i seek rest els, item_ok i -> (is_text i = true -> In (kctl (hd 0 rest)) [CEndOfText; CLt]) ->
  (forall st, bst (item_seek seek i) st -> runs st rest els) -> forall st, bst seek st -> runs st (item_src i ++ rest) (item_elements seek i ++ els).
Proof.
  intros i seek rest els Hok Hh Hr st Hst. destruct (is_text i) eqn:Et.
  - destruct i as [t| | | | | | |]; try discriminate. specialize (Hh eq_refl). cbn [item_ok item_src item_elements item_seek] in *.
    destruct Hok as [Ht Hne]. destruct seek; cbn [bst] in Hst.
    + assert (Hin : In st [SEEKTOK; DOCSTART]) by (destruct Hst as [->| ->]; cbn; auto).
      assert (Hs : silent st (tok_src t ++ rest) st (tok_src (tok_strip t) ++ rest)).
      { unfold tok_src, tok_strip. cbn [t_raw t_refs]. rewrite <- !app_assoc. apply strip_sil. exact Hin. }
      eapply runs_silent; [exact Hs|]. destruct (tok_src (tok_strip t)) as [|c l] eqn:E; [cbn [app]; apply Hr; exact Hst|].
      cbn [app]. change (c :: l ++ rest) with ((c :: l) ++ rest). rewrite <- E. apply run_text; auto.
      * destruct Ht as [H1 H2]. split; [apply strip_forall; exact H1|exact H2].
      * rewrite E. discriminate.
      * right. exact Hin.
      * intros _. rewrite E. cbn [hd]. unfold tok_src, tok_strip in E. cbn [t_raw t_refs] in E.
        destruct (strip_head (t_raw t)) as [H|[H|H]].
        -- rewrite H in E. cbn [strip app] in E. destruct (t_refs t) as [|[r x] refs]; [discriminate|]. cbn [flat_map fst snd] in E. destruct (ref_amp r) as [y Ey]. rewrite Ey in E. injection E as <- _. reflexivity.
        -- rewrite H in E. cbn [strip app] in E. destruct (t_refs t) as [|[r x] refs]; [discriminate|]. cbn [flat_map fst snd] in E. destruct (ref_amp r) as [y Ey]. rewrite Ey in E. injection E as <- _. reflexivity.
        -- destruct (strip (t_raw t)) as [|d r] eqn:Es.
           ++ cbn [app] in E. destruct (t_refs t) as [|[r x] refs]; [discriminate|]. cbn [flat_map fst snd] in E. destruct (ref_amp r) as [y Ey]. rewrite Ey in E. injection E as <- _. reflexivity.
           ++ cbn [app] in E. injection E as <- _. exact H.
      * apply Hr. reflexivity.
    + subst st. destruct (tok_src t) as [|c l] eqn:E; [congruence|]. rewrite <- E. cbn [app]. apply run_text; auto; [congruence|left; reflexivity|congruence|].
      apply Hr. reflexivity.
  - assert (Hi : item_elements seek i = item_elements false i) by (destruct i; try discriminate; reflexivity).
    assert (Hs : item_seek seek i = item_seek false i) by (destruct i; try discriminate; reflexivity).
    rewrite Hi. rewrite Hs in Hr. assert (Hlt : exists x, item_src i = 60 :: x) by (destruct i; try discriminate; eexists; reflexivity).
    destruct Hlt as [x Hx]. rewrite Hx. cbn [app].
    assert (Hsil : silent st (60 :: x ++ rest) XMLTAG (x ++ rest)).
    { apply (sil st (60 :: x ++ rest) CLt XMLTAG true); [reflexivity|]. destruct seek; cbn in Hst; [destruct Hst as [->| ->]|subst st]; reflexivity. }
    eapply runs_silent; [exact Hsil|]. replace x with (tl (item_src i)) by (rewrite Hx; reflexivity).
    apply run_markup; auto. left. reflexivity.
Qed.

Fixpoint items_seek (seek : bool) (l : list item) : bool :=
  match l with
  | [] => seek
  | i :: r => items_seek (item_seek seek i) r
  end.
Lemma items_head : forall l i rest, item_ok i -> no_split (i :: l) -> is_text i = true -> In (kctl (hd 0 rest)) [CEndOfText; CLt] ->
  In (kctl (hd 0 (items_src l ++ rest))) [CEndOfText; CLt].
Proof.
  intros [|j l] i rest Hi Hs Ht Hr; cbn [items_src flat_map]; [exact Hr|]. destruct Hs as [Hs _]. right. left.
  destruct j; try (exfalso; apply Hs; auto; fail); reflexivity.
Qed.

Lemma run_items : forall l seek rest els, items_ok l -> In (kctl (hd 0 rest)) [CEndOfText; CLt] ->
  (forall st, bst (items_seek seek l) st -> runs st rest els) ->
  forall st, bst seek st -> runs st (items_src l ++ rest) (items_elements seek l ++ els).
Proof.
  induction l as [|i l IH]; intros seek rest els [H1 H2] Hh Hr st Hst; cbn [items_elements items_seek app] in *; [apply Hr; exact Hst|].
  inversion H1; subst. rewrite <- app_assoc. cbn [items_src flat_map]. fold (items_src l). rewrite <- app_assoc.
  apply run_item; auto; [intros Ht; eapply items_head; eauto|].
  intros st' Hst'. eapply IH; [|exact Hh|exact Hr|exact Hst']. split; [assumption|]. destruct l; [exact I|apply H2].
Qed.
Lemma run_end : forall seek, hang = false -> forall st, bst seek st -> runs st [] [(EExit, [])].
Proof.
  intros seek Hh st Hst. eapply runs_silent; [|apply (run_exit [] Hh)].
  apply (sil st [] CEndOfText EXIT true); [reflexivity|]. destruct seek; cbn in Hst; [destruct Hst as [->| ->]|subst st]; reflexivity.
Qed.
End Doc.
