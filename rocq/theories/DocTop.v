(** Documents are scanned to their elements (proofs): whole texts, any encoding, any chunks. *)
From Verif Require Import Base Iter CharMap CodePages Charset TextScanner Ideal ReaderSim ScannerSim IterSim
  CharsetSpec CharsetProofs CharsetMore ReadSpec ReadProofs ChunkRead XmlScanner ScanSpec ScanProofs CharReader FuelMono Term
  ChunkScan ChunkTop ScanTop DocSpec DocProofs DocScan.

(** the element delivered for a value in characters *)
Definition delivered (outcs : kout) (p : etype * list N) : etype * list N * xerror :=
  (fst p, flat_map (kpr outcs) (snd p), Ok).

Section Top.
Context (outcs : kout) (m : option (list (N * N))) (addr : N) (mask : N) (hang : bool).
Hypothesis Hmask : forall t, N.testbit mask (etype_idx t) = true.
Let cfg := kcfg outcs m addr.
Notation next := (nextItem (kr_ops outcs) cfg).

Lemma runs_scan : forall st l els, runs outcs m addr mask hang st l els -> exists k, forall f ob b, length b = 16%nat ->
  exists s evs, scan (kr_ops outcs) cfg (k + f) (repeat mask (length els)) (KS st l ob b) = Ret s evs /\ map element evs = map (delivered outcs) els.
Proof.
  intros st l els H. induction H as [st l|st l t v st1 l1 els [k1 H1] Hr [k2 IH]].
  - exists 0%nat. intros. eexists _, _. split; reflexivity.
  - exists (k1 + k2)%nat. intros f ob b Hb. cbn [length repeat scan].
    destruct (H1 (k2 + f)%nat ob b Hb) as [b1 [Hb1 E1]]. fold cfg in E1. replace (k1 + k2 + f)%nat with (k1 + (k2 + f))%nat by lia. rewrite E1. cbn [bind].
    destruct (IH (k1 + f)%nat (prs outcs v) b1 Hb1) as [s [evs [E2 E3]]]. replace (k1 + (k2 + f))%nat with (k2 + (k1 + f))%nat by lia. rewrite E2. cbn [bind].
    eexists _, _. split; [reflexivity|]. cbn [map]. rewrite E3. reflexivity.
Qed.

Lemma runs_hang : forall st l els, hang = true -> runs outcs m addr mask hang st l els -> forall f ob b, length b = 16%nat ->
  scan (kr_ops outcs) cfg f (repeat mask (S (length els))) (KS st l ob b) = Fuel.
Proof.
  intros st l els Hh H. induction H as [st l Hn|st l t v st1 l1 els [k1 H1] Hr IH]; intros f ob b Hb.
  - cbn [length repeat scan]. pose proof (Hn Hh f ob b) as E. fold cfg in E. rewrite E. reflexivity.
  - cbn [length]. change (repeat mask (S (S (length els)))) with (mask :: repeat mask (S (length els))). cbn [scan].
    destruct (H1 f ob b Hb) as [b1 [Hb1 E1]]. fold cfg in E1.
    destruct (mono_nextItem (kr_ops outcs) cfg f (k1 + f) mask (KS st l ob b) ltac:(lia)) as [E|E]; rewrite E; [reflexivity|]. rewrite E1. cbn [bind].
    rewrite (IH f (prs outcs v) b1 Hb1). reflexivity.
Qed.

(** a first element that needs an empty buffer *)
Definition deliver0 (st : stm) (l : list N) (t : etype) (v : list N) (st' : stm) (l' : list N) : Prop :=
  exists k, forall f b, length b = 16%nat -> exists b', length b' = 16%nat /\ next (k + f) mask (KS st l [] b) = Ret (KS st' l' (prs outcs v) b') t.
Definition runs0 (st : stm) (l : list N) (els : list (etype * list N)) : Prop :=
  (els = [] /\ (hang = true -> hangs outcs m addr mask st l)) \/ exists t v st1 l1 els', els = (t, v) :: els' /\ deliver0 st l t v st1 l1 /\ runs outcs m addr mask hang st1 l1 els'.

Lemma runs_runs0 : forall st l els, runs outcs m addr mask hang st l els -> runs0 st l els.
Proof.
  intros st l els H. destruct H as [st l Hn|st l t v st1 l1 els [k H1] Hr]; [left; auto|]. right. exists t, v, st1, l1, els. split; [reflexivity|].
  split; [|exact Hr]. exists k. intros f b Hb. apply H1. exact Hb.
Qed.
Lemma runs0_silent : forall st l st1 l1 els, silent outcs m addr mask st l st1 l1 -> runs0 st1 l1 els -> runs0 st l els.
Proof.
  intros st l st1 l1 els Hs [[-> Hn]|[t [v [st2 [l2 [els' [-> [[k2 H2] Hr]]]]]]]]; [left; eauto using hangs_silent|]. destruct Hs as [k H]. right. exists t, v, st2, l2, els'.
  split; [reflexivity|]. split; [|exact Hr]. exists (k + k2)%nat. intros f b Hb. rewrite <- Nat.add_assoc. unfold cfg. rewrite H. apply H2. exact Hb.
Qed.
Lemma runs0_scan : forall st l els, runs0 st l els -> exists k, forall f b, length b = 16%nat ->
  exists s evs, scan (kr_ops outcs) cfg (k + f) (repeat mask (length els)) (KS st l [] b) = Ret s evs /\ map element evs = map (delivered outcs) els.
Proof.
  intros st l els [[-> Hn]|[t [v [st1 [l1 [els' [-> [[k1 H1] Hr]]]]]]]].
  - exists 0%nat. intros. eexists _, _. split; reflexivity.
  - destruct (runs_scan _ _ _ Hr) as [k2 IH]. exists (k1 + k2)%nat. intros f b Hb. cbn [length repeat scan].
    destruct (H1 (k2 + f)%nat b Hb) as [b1 [Hb1 E1]]. replace (k1 + k2 + f)%nat with (k1 + (k2 + f))%nat by lia. rewrite E1. cbn [bind].
    destruct (IH (k1 + f)%nat (prs outcs v) b1 Hb1) as [s [evs [E2 E3]]]. replace (k1 + (k2 + f))%nat with (k2 + (k1 + f))%nat by lia. rewrite E2. cbn [bind].
    eexists _, _. split; [reflexivity|]. cbn [map]. rewrite E3. reflexivity.
Qed.

Lemma runs0_hang : forall st l els, hang = true -> runs0 st l els -> forall f b, length b = 16%nat ->
  scan (kr_ops outcs) cfg f (repeat mask (S (length els))) (KS st l [] b) = Fuel.
Proof.
  intros st l els Hh [[-> Hn]|[t [v [st1 [l1 [els' [-> [[k1 H1] Hr]]]]]]]] f b Hb.
  - cbn [length repeat scan]. pose proof (Hn Hh f [] b) as E. fold cfg in E. rewrite E. reflexivity.
  - cbn [length]. change (repeat mask (S (S (length els')))) with (mask :: repeat mask (S (length els'))). cbn [scan].
    destruct (H1 f b Hb) as [b1 [Hb1 E1]].
    destruct (mono_nextItem (kr_ops outcs) cfg f (k1 + f) mask (KS st l [] b) ltac:(lia)) as [E|E]; rewrite E; [reflexivity|]. rewrite E1. cbn [bind].
    rewrite (runs_hang _ _ _ Hh Hr f (prs outcs v) b1 Hb1). reflexivity.
Qed.

Lemma deliver_xml : forall rest, In (kctl (hd 0 rest)) (wsctl ++ ends true) ->
  exists ns, deliver0 XTAG (str "xml" ++ rest) EHeaderStart (str "?xml") ns (tl rest) /\ silent outcs m addr mask XTAGAVQE rest ns (tl rest).
Proof.
  intros rest Hin.
  assert (E : forall f b, next (1 + f) mask (KS XTAG (str "xml" ++ rest) [] b) =
     let! (s3, ok) := transition (kr_ops outcs) (match stm_get XTAG with Some e => e | None => el_new end) (kctl (hd 0 rest)) (KS XTAG rest (prs outcs (str "?xml")) b) in
     if ok then Ret s3 EHeaderStart else Ret s3 EErrorOccurred).
  { intros f b. cbn [Nat.add]. rewrite nextItem_step.
    assert (E : nstep (kr_ops outcs) cfg f mask (KS XTAG (str "xml" ++ rest) [] b) =
      let! (s3, ok) := transition (kr_ops outcs) (match stm_get XTAG with Some e => e | None => el_new end) (kctl (hd 0 rest)) (KS XTAG rest (prs outcs (str "?xml")) b) in
      if ok then Ret s3 (Some EHeaderStart) else Ret s3 (Some EErrorOccurred)).
    { unfold nstep, KS. cbn [sc_state]. change (stm_get XTAG) with (Some (match stm_get XTAG with Some e => e | None => el_new end)).
      cbn iota. set (e := match stm_get XTAG with Some e => e | None => el_new end).
      change (el_action e) with (Some (ExpectIdentifierXML, ENone)). change (el_nofnext e) with 4%nat.
      unfold doAction, expectStr, upd_tok, set_tok, tok_id. cbn [tokenDef stringDef sc_tok tk_id sc_state sc_err sc_src sc_obuf sc_tokpos tk_pos skipn Nat.leb tk_cr tk_base tk_value tk_buf].
      change (str "xml") with [120; 109; 108]. cbn [expectLoop app].
      rewrite k_ascii. cbn [bind sc_src hd]. rewrite asc_k by lia. change (120 =? 120) with true. cbn iota. rewrite k_skip. unfold set_src. cbn [bind sc_state sc_err sc_src sc_obuf sc_tokpos sc_tok tl].
      rewrite k_ascii. cbn [bind sc_src hd]. rewrite asc_k by lia. change (109 =? 109) with true. cbn iota. rewrite k_skip. unfold set_src. cbn [bind sc_state sc_err sc_src sc_obuf sc_tokpos sc_tok tl].
      rewrite k_ascii. cbn [bind sc_src hd]. rewrite asc_k by lia. change (108 =? 108) with true. cbn iota. rewrite k_skip. unfold set_src. cbn [bind sc_state sc_err sc_src sc_obuf sc_tokpos sc_tok tl].
      unfold push, set_obuf. cbn [bind snd fst Nat.eqb sc_state sc_err sc_src sc_obuf sc_tokpos sc_tok].
      rewrite k_control. cbn [bind sc_src isNone]. unfold prs. change (str "?xml") with [63; 120; 109; 108]. cbn [flat_map app]. rewrite app_nil_r, !app_assoc. reflexivity. }
    rewrite E. destruct (transition _ _ _ _) as [s3 [|]| | | |]; reflexivity. }
  assert (T : exists ns, nth_error (el_next (match stm_get XTAG with Some e => e | None => el_new end)) (ctl_idx (kctl (hd 0 rest))) = Some (Some ns) /\ snext XTAGAVQE (kctl (hd 0 rest)) = Some (ns, true)).
  { destruct Hin as [<-|[<-|[<-|[]]]]; eexists; split; reflexivity. }
  destruct T as [ns [T1 T2]]. exists ns. split; [|exact (sil _ _ _ _ _ rest _ ns true eq_refl T2)].
  exists 1%nat. intros f b Hb. exists b. split; [exact Hb|]. rewrite E. unfold transition. rewrite T1. rewrite k_skip. reflexivity.
Qed.

Definition doc_seek (d : doc) : bool := match d_header d with Some _ => items_seek true (d_items d) | None => items_seek false (d_items d) end.
Lemma doc_runs_rest : forall d rest els, doc_ok d -> d_header d <> None \/ d_items d <> [] -> In (kctl (hd 0 rest)) [CEndOfText; CLt] ->
  (forall st, bst (doc_seek d) st -> runs outcs m addr mask hang st rest els) ->
  runs0 START (doc_src d ++ rest) (doc_body d ++ els).
Proof.
  intros [ws h items] rest els [H1 [H2 H3]] Hne Hrest Hr. unfold doc_src, doc_body, doc_seek in *. cbn [d_ws d_header d_items] in *.
  rewrite <- !app_assoc. eapply runs0_silent; [apply ws_self; [reflexivity|reflexivity|exact H1]|]. destruct h as [h|].
  - destruct H3 as [Ha [Hw Hw2]]. unfold header_src, header_elements. rewrite <- !app_assoc.
    change (str "<?xml") with (60 :: 63 :: str "xml"). cbn [app].
    eapply runs0_silent; [apply (sil _ _ _ _ START (60 :: 63 :: _) CLt STARTTAG true); reflexivity|]. cbn [tl].
    eapply runs0_silent; [apply (sil _ _ _ _ STARTTAG (63 :: _) CQuestm XTAG true); reflexivity|]. cbn [tl].
    set (tail := 63 :: h_ws2 h ++ 62 :: items_src items ++ rest).
    assert (Hh : In (kctl (hd 0 (attrs_src (h_attrs h) ++ h_ws h ++ tail))) (wsctl ++ ends true)) by (apply attrs_head; auto; left; reflexivity).
    destruct (deliver_xml _ Hh) as [ns [D1 D2]]. right. eexists _, _, ns, _, _. split; [reflexivity|]. split; [exact D1|].
    eapply runs_back; [exact Hmask|exact D2|]. rewrite <- app_assoc.
    apply (run_attrs outcs m addr mask Hmask hang true); auto; [left; reflexivity|].
    unfold tail. eapply runs_silent; [apply (sil _ _ _ _ XTAGAVQE (63 :: _) CQuestm XTAGEND true); reflexivity|]. cbn [tl].
    eapply runs_silent; [apply ws_self; [reflexivity|reflexivity|exact Hw2]|].
    eapply runs_silent; [apply (sil _ _ _ _ XTAGEND (62 :: _) CGt XTAGDONE true); reflexivity|]. cbn [tl app].
    eapply runs_cons; [eapply ret0_deliver; reflexivity|]. cbn. apply run_items; auto. right. reflexivity.
  - cbn [app]. apply runs_runs0. destruct items as [|i items]; [destruct Hne; congruence|].
    destruct H2 as [Hall Hs]. inversion Hall; subst. cbn [items_elements items_src flat_map items_seek] in *. fold (items_src items). rewrite <- !app_assoc.
    assert (Hlt : exists x, item_src i = 60 :: x) by (destruct i; try contradiction; eexists; reflexivity). destruct Hlt as [x Hx]. rewrite Hx.
    cbn [app]. eapply runs_silent; [apply (sil _ _ _ _ START (60 :: x ++ _) CLt STARTTAG true); reflexivity|]. cbn [tl].
    replace x with (tl (item_src i)) by (rewrite Hx; reflexivity). apply run_markup; auto.
    + destruct i; try contradiction; reflexivity.
    + right. split; [reflexivity|]. destruct i; try contradiction; exact I.
    + intros st Hst. apply run_items with (seek := item_seek false i); auto. split; [assumption|]. destruct items; [exact I|apply Hs].
Qed.

Lemma doc_runs : forall d, hang = false -> doc_ok d -> runs0 START (doc_src d) (doc_elements d).
Proof.
  intros d Hh Hd. unfold doc_elements. destruct (d_header d) as [h|] eqn:Eh; [|destruct (d_items d) as [|i items] eqn:Ei].
  - rewrite <- (app_nil_r (doc_src d)). apply doc_runs_rest; auto; [left; congruence|left; reflexivity|]. apply run_end; auto.
  - destruct d as [ws h items]. destruct Hd as [H1 _]. unfold doc_src, doc_body. cbn [d_ws d_header d_items] in *. subst.
    eapply runs0_silent; [apply ws_self; [reflexivity|reflexivity|exact H1]|]. apply runs_runs0. cbn.
    eapply runs_silent; [|apply (run_exit outcs m addr mask hang [] Hh)]. exact (sil _ _ _ _ START [] CEndOfText EXIT true eq_refl eq_refl).
  - rewrite <- (app_nil_r (doc_src d)). apply doc_runs_rest; auto; [right; congruence|left; reflexivity|]. apply run_end; auto.
Qed.
End Top.

(** ** Texts in memory *)
Lemma codes_to_xml : forall incs o masks text cl els, cs_constructible incs = true -> Forall isByte text -> Forall2 (ucode incs o) (units incs text) cl ->
  (exists k s evs, k_scan o k masks cl = Ret s evs /\ map element evs = els) ->
  forall f, (3 * length text + 4 <= f)%nat ->
  exists s evs, xml_scan incs (ko_cs o) f masks text = Ret s evs /\ map element evs = els.
Proof.
  intros incs o masks text cl els Hcs Hb Hr [k [s [evs [Hk He]]]] f Hf. set (outcs := ko_cs o).
  pose proof (xml_scan_codes incs o k masks text cl Hcs Hb Hr) as H1. rewrite Hk in H1. inversion H1 as [s1 ? a1 ? _ E1 E2| | | |]; subst.
  exists s1, a1. split; [|exact E1]. fold outcs in E2.
  set (F := Nat.max k f).
  assert (EF : xml_scan incs outcs F masks text = Ret s1 a1).
  { eapply fle_ret; [|symmetry; exact E2]. unfold xml_scan. apply mono_scan. lia. }
  destruct (xml_scan incs outcs f masks text) as [s2 a2| | | |] eqn:Ef;
    try (pose proof (mono_scan (ts_ops src_ops incs) (xml_config incs outcs None 0) f F masks (sc_make (ts_make (src_make text false))) ltac:(lia)) as [Hm|Hm];
         unfold xml_scan in *; congruence).
  exfalso. destruct (mono_scan (ts_ops src_ops incs) (xml_config incs outcs None 0) (3 * length text + 4) f masks (sc_make (ts_make (src_make text false))) Hf) as [Hm|Hm].
  - change (xml_scan incs outcs (3 * length text + 4) masks text = Fuel) in Hm. rewrite (xml_scan_bound incs outcs masks text Hcs Hb Hm F) in EF. discriminate.
  - change (xml_scan incs outcs (3 * length text + 4) masks text = xml_scan incs outcs f masks text) in Hm. rewrite Ef in Hm.
    rewrite (xml_scan_bound incs outcs masks text Hcs Hb Hm F) in EF. discriminate.
Qed.
Lemma k_to_xml : forall incs outcs masks cl els, cs_constructible incs = true -> Forall (representable incs) cl ->
  (exists k s evs, k_scan (kplain outcs) k masks cl = Ret s evs /\ map element evs = els) ->
  forall f, (3 * length (flat_map (cs_print incs) cl) + 4 <= f)%nat ->
  exists s evs, xml_scan incs outcs f masks (flat_map (cs_print incs) cl) = Ret s evs /\ map element evs = els.
Proof.
  intros incs outcs masks cl els Hcs Hr H f Hf. apply (codes_to_xml incs (kplain outcs) masks _ cl); auto; [apply print_bytes; auto|apply plain_codes; auto].
Qed.
Lemma delivered_plain : forall outcs els, map (delivered (kplain outcs)) els = map (fun p => (fst p, flat_map (cs_print outcs) (snd p), Ok)) els.
Proof.
  intros outcs els. apply map_ext. intros [t v]. unfold delivered. cbn [fst snd]. f_equal. f_equal.
  induction v as [|c v IH]; [reflexivity|]. cbn [flat_map]. rewrite IH, kpr_plain. reflexivity.
Qed.

Definition full (mask : N) : Prop := forall t, N.testbit mask (etype_idx t) = true.

Theorem doc_xml : forall incs outcs d mask, cs_constructible incs = true -> doc_ok d -> Forall (representable incs) (doc_src d) -> full mask ->
  let text := flat_map (cs_print incs) (doc_src d) in
  forall f, (3 * length text + 4 <= f)%nat ->
  exists s evs, xml_scan incs outcs f (repeat mask (length (doc_elements d))) text = Ret s evs /\
    map element evs = map (fun p => (fst p, flat_map (cs_print outcs) (snd p), Ok)) (doc_elements d).
Proof.
  intros incs outcs d mask Hcs Hd Hr Hm text f Hf. rewrite <- delivered_plain. apply k_to_xml; auto.
  destruct (runs0_scan (kplain outcs) None 0 mask false Hm _ _ _ (doc_runs (kplain outcs) None 0 mask false Hm d eq_refl Hd)) as [k Hk].
  destruct (Hk 0%nat (repeat 0 16) eq_refl) as [s [evs [E1 E2]]]. exists (k + 0)%nat, s, evs. split; [exact E1|exact E2].
Qed.

(** ** Texts in chunks *)
Lemma cont_t : forall x, continuation (128 + x mod 64) = true.
Proof. intros x. unfold continuation. pose proof (N.mod_upper_bound x 64). lia. Qed.
Lemma utf8_print_sequences : forall cl, Forall (representable UTF8) cl -> utf8_sequences (flat_map (cs_print UTF8) cl).
Proof.
  intros cl H. induction H as [|c cl Hc H IH]; [constructor|]. cbn [flat_map]. rewrite (print_spec UTF8 c eq_refl Hc). cbn [spec_encode].
  cbn [representable] in Hc. unfold spec_utf8. change (2 ^ 31) with 2147483648 in Hc.
  change (2 ^ 7) with 128. change (2 ^ 11) with 2048. change (2 ^ 16) with 65536. change (2 ^ 21) with 2097152. change (2 ^ 26) with 67108864.
  change (64 ^ 0) with 1. change (64 ^ 1) with 64. change (64 ^ 2) with 4096. change (64 ^ 3) with 262144. change (64 ^ 4) with 16777216. change (64 ^ 5) with 1073741824.
  destruct (N.ltb_spec c 128); [apply us_single; [lia|exact IH]|].
  assert (A : forall b conts, 192 <= b < 256 -> length conts = utf8_following b -> forallb continuation conts = true -> utf8_sequences ((b :: conts) ++ flat_map (cs_print UTF8) cl)).
  { intros b conts H1 H2 H3. apply us_multi; auto. }
  destruct (N.ltb_spec c 2048); [|destruct (N.ltb_spec c 65536); [|destruct (N.ltb_spec c 2097152); [|destruct (N.ltb_spec c 67108864)]]];
   (apply A; [lia| |cbn [forallb]; rewrite !cont_t; reflexivity]); unfold utf8_following.
  - replace (192 + c / 64 <? 224) with true by lia. reflexivity.
  - replace (224 + c / 4096 <? 224) with false by lia. replace (224 + c / 4096 <? 240) with true by lia. reflexivity.
  - replace (240 + c / 262144 <? 224) with false by lia. replace (240 + c / 262144 <? 240) with false by lia. replace (240 + c / 262144 <? 248) with true by lia. reflexivity.
  - replace (248 + c / 16777216 <? 224) with false by lia. replace (248 + c / 16777216 <? 240) with false by lia. replace (248 + c / 16777216 <? 248) with false by lia.
    replace (248 + c / 16777216 <? 252) with true by lia. reflexivity.
  - replace (252 + c / 1073741824 <? 224) with false by lia. replace (252 + c / 1073741824 <? 240) with false by lia. replace (252 + c / 1073741824 <? 248) with false by lia.
    replace (252 + c / 1073741824 <? 252) with false by lia. replace (252 + c / 1073741824 <? 254) with true by lia. reflexivity.
Qed.
Lemma print_complete : forall incs cl, Forall (representable incs) cl -> complete_text incs (flat_map (cs_print incs) cl).
Proof. intros incs cl H ->. apply utf8_print_sequences. exact H. Qed.

(** a complete scan in memory gives a complete scan in chunks *)
Lemma xml_to_chunks : forall incs outcs masks cl els, cs_constructible incs = true -> Forall (representable incs) cl ->
  let text := flat_map (cs_print incs) cl in
  (forall f, (3 * length text + 4 <= f)%nat -> exists s evs, xml_scan incs outcs f masks text = Ret s evs /\ map element evs = els) ->
  forall c0 chunks f, text = concat (c0 :: chunks) -> (3 * length text + 13 <= f)%nat ->
  exists st evs, scanChunked incs (xml_config incs outcs None 0) feed_new f masks (sc_make (ts_make (src_make c0 (more chunks))), chunks) = Ret st evs /\
    map element evs = els.
Proof.
  intros incs outcs masks cl els Hcs Hr text H c0 chunks f E Hf.
  destruct (H (f - 9)%nat ltac:(lia)) as [s [evs [H1 H2]]].
  assert (Hb : Forall isByte text) by (apply print_bytes; auto). assert (Hc : complete_text incs text) by (apply print_complete; auto).
  rewrite E in H1, Hb, Hc. destruct (chunked_scan incs outcs false (f - 9) masks c0 chunks s evs Hcs Hb Hc H1) as [st' [evs' [H3 [H4 _]]]].
  exists st', evs'. replace (f - 9 + 9)%nat with f in H3 by lia. split; [exact H3|congruence].
Qed.
