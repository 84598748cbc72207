(** C55: a comment that is not closed is closed by the beginning of the text, when the position of a CStringIterator wraps. *)
From Coq Require Import Lia.
From Verif Require Import Base Iter CharMap Charset TextScanner XmlScanner ReadSpec ScanSpec FuelMono Term ScanTop PropsScan.

Definition wrap_text : list N := str "<a b='-->'><!--".
Notation wops := (ts_ops cstr_ops UTF8).
Notation wcfg := (xml_config UTF8 UTF8 None 0).
(** in the comment, behind the text, with the position of the iterator *)
Definition wstate (x : stm) (b : list N) (p : N) : scanner (tscan cstr) :=
  mkSc x Ok (mkTs (mkRdr b 0 (mkCstr wrap_text 15 p)) 0 0) (str "-->") 6 (mkTok TStart false 0 0 0 (repeat 0 16)).
Definition zeros : list N := repeat 0 8.

Lemma wdone p : 15 <= p -> cstr_deref (mkCstr wrap_text 15 p) = Ret (mkCstr wrap_text 15 p) 0.
Proof. intro H. unfold cstr_deref. cbn [cs_pos cs_size]. destruct (N.ltb_spec p 15); [lia|reflexivity]. Qed.
Lemma wcontrol p : 15 <= p -> sc_control wops (wstate COMSEEKE zeros p) =
  Ret (set_src (wstate COMSEEKE zeros p) (mkTs (mkRdr zeros 1 (mkCstr wrap_text 15 (u32 (p + 1)))) 0 0)) CEndOfText.
Proof.
  intro H. unfold sc_control, on_src, wstate. cbn [sc_src r_control ts_ops]. unfold ts_control, ts_getcur, ts_lift. cbn [cs_ascii ts_rd]. unfold utf8_ascii, utf8_first. cbn [rpos Nat.eqb]. unfold fetch1.
  cbn [rit deref incr cstr_ops]. rewrite (wdone p H). unfold cstr_incr. cbn [rpos rbuf Nat.ltb Nat.leb omap bind cs_src cs_size cs_pos]. generalize (u32 (p + 1)). intro q. reflexivity.
Qed.
Lemma wstep f m p : 15 <= p -> nextItem wops wcfg (S f) m (wstate COMSEEKE zeros p) = nextItem wops wcfg f m (wstate COMSEEKE zeros (u32 (p + 1))).
Proof.
  intro H. cbn [nextItem]. change (sc_state (wstate COMSEEKE zeros p)) with COMSEEKE.
  destruct (stm_get COMSEEKE) as [e|] eqn:E; [|discriminate E]. vm_compute in E. injection E as <-. cbn [el_action bind snd fst]. rewrite (wcontrol p H). generalize (u32 (p + 1)). intro q. reflexivity.
Qed.
Lemma wsteps m f : forall k p, 15 <= p -> p + N.of_nat (S k) = 4294967296 -> nextItem wops wcfg (S k + f) m (wstate COMSEEKE zeros p) = nextItem wops wcfg f m (wstate COMSEEKE zeros 0).
Proof.
  induction k as [|k IH]; intros p H E; cbn [Nat.add]; rewrite (wstep _ m p H).
  - replace (u32 (p + 1)) with 0; [reflexivity|]. replace (p + 1) with 4294967296 by lia. reflexivity.
  - replace (u32 (p + 1)) with (p + 1) by (unfold u32; symmetry; apply N.mod_small; change (2 ^ 32) with 4294967296; lia). apply IH; lia.
Qed.
Lemma wnone f m s e s2 c s3 : stm_get (sc_state s) = Some e -> el_action e = None -> sc_control wops s = Ret s2 c -> transition wops e c (upd_tok (tok_id TStart) s2) = Ret s3 true ->
  nextItem wops wcfg (S f) m s = nextItem wops wcfg f m s3.
Proof. intros E1 E2 E3 E4. cbn [nextItem]. rewrite E1, E2. cbn [bind snd fst isNone]. rewrite E3. cbn [bind]. rewrite E4. reflexivity. Qed.
Lemma wfirst f : nextItem wops wcfg (S (S (S (S (S (S f)))))) mask_all (wstate TAGAVQE [39; 0; 0; 0; 0; 0; 0; 0] 10) = nextItem wops wcfg f mask_all (wstate COMSEEKE zeros 16).
Proof.
  eapply eq_trans; [eapply wnone; vm_compute; reflexivity|]. eapply eq_trans; [eapply wnone; vm_compute; reflexivity|]. eapply eq_trans; [eapply wnone; vm_compute; reflexivity|].
  eapply eq_trans; [eapply wnone; vm_compute; reflexivity|]. eapply eq_trans; [eapply wnone; vm_compute; reflexivity|]. eapply eq_trans; [eapply wnone; vm_compute; reflexivity|]. reflexivity.
Qed.

Lemma scan_app {R} (o : readerops R) cfg f : forall m1 m2 s s1 e1 s2 e2, scan o cfg f m1 s = Ret s1 e1 -> scan o cfg f m2 s1 = Ret s2 e2 -> scan o cfg f (m1 ++ m2) s = Ret s2 (e1 ++ e2).
Proof.
  induction m1 as [|m m1 IH]; intros m2 s s1 e1 s2 e2 E1 E2; cbn [scan app] in *; [injection E1 as -> <-; exact E2|].
  destruct (nextItem o cfg f m s) as [s' t| | | |]; try discriminate E1. cbn [bind] in *. destruct (scan o cfg f m1 s') as [s3 e3| | | |] eqn:E3; try discriminate E1. injection E1 as -> <-.
  rewrite (IH m2 s' _ _ _ _ E3 E2). reflexivity.
Qed.

(** ** The converse of C55_cstring is false: the scan returns, with a content that is none, and the scan of the same text with SrcIterator does not end *)
Theorem C55_cstring_only_refuted : exists text masks, Forall isByte text /\ N.of_nat (length text) + 16 < 2 ^ 32 /\
  (exists fuel s evs, scan (ts_ops cstr_ops UTF8) (xml_config UTF8 UTF8 None 0) fuel masks (sc_make (ts_make (cstr_make text))) = Ret s evs /\
     elements evs = [(EOpenTag, str "a"); (ETagAttribName, str "b"); (ETagAttribValue, str "-->"); (EContent, str "'>")]) /\
  forall fuel, scan (ts_ops src_ops UTF8) (xml_config UTF8 UTF8 None 0) fuel masks (sc_make (ts_make (src_make text false))) = Fuel.
Proof.
  exists wrap_text, (calls 3 ++ [mask_all]). assert (Hb : Forall isByte wrap_text) by (apply bytes_dec; vm_compute; reflexivity). split; [exact Hb|]. split; [vm_compute; reflexivity|]. split.
  - assert (Hk : exists k, 16 + N.of_nat (S k) = 4294967296) by (exists (N.to_nat 4294967279); rewrite Nat2N.inj_succ, N2Nat.id; reflexivity). destruct Hk as (k & K).
    assert (E3 : exists evs, scan wops wcfg 100 (calls 3) (sc_make (ts_make (cstr_make wrap_text))) = Ret (wstate TAGAVQE [39; 0; 0; 0; 0; 0; 0; 0] 10) evs /\
      elements evs = [(EOpenTag, str "a"); (ETagAttribName, str "b"); (ETagAttribValue, str "-->")]) by (eexists; split; vm_compute; reflexivity).
    destruct E3 as (e3 & E3 & L3).
    assert (E4 : exists s4 t, nextItem wops wcfg 100 mask_all (wstate COMSEEKE zeros 0) = Ret s4 t /\ t = EContent /\ sc_obuf s4 = str "'>") by (do 2 eexists; split; [vm_compute; reflexivity|split; vm_compute; reflexivity]).
    destruct E4 as (s4 & t & E4 & T4 & O4).
    assert (E5 : scan wops wcfg (S (S (S (S (S (S (S k + 100))))))) [mask_all] (wstate TAGAVQE [39; 0; 0; 0; 0; 0; 0; 0] 10) = Ret s4 [observe wops t s4]).
    { cbn [scan]. rewrite wfirst, (wsteps mask_all 100 k 16 ltac:(lia) K), E4. reflexivity. }
    exists (S (S (S (S (S (S (S k + 100)))))))%nat, s4, (e3 ++ [observe wops t s4]). split.
    + eapply scan_app; [|exact E5]. eapply fle_ret; [apply mono_scan|exact E3]. lia.
    + unfold elements in *. rewrite map_app, L3. cbn [map observe ev_type ev_item app]. unfold sc_getItem. rewrite T4, O4. reflexivity.
  - intro fuel. apply (xml_scan_bound UTF8 UTF8 (calls 3 ++ [mask_all]) wrap_text); [reflexivity|exact Hb|vm_compute; reflexivity].
Qed.
Print Assumptions C55_cstring_only_refuted.
