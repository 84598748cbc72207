(** Selecting from documents: C52. *)
From Coq Require Import Lia ZifyBool ZifyNat.
From Verif Require Import Base Iter Charset CharsetSpec TextScanner XmlScanner XmlPrinter ReadSpec ScanSpec PropsScan DocSpec DocCheck PropsDoc
  ParseSpec PathAtm PathSelect PathSpec PathProg PathBuild3 PathMatch PathNames PathTags PathParse ParseTop PropsPath PropsParse PipeSpec PipeProofs.

(** ** C52: what is selected from a document given as text.
    The document [d] is the text [doc_src d] in the character set [incs], supplied in chunks; the expressions are texts in the character set [scs], added to an
    automaton with the character set [acs], which is the output character set of the scanner too. The elements delivered by the scanner are passed to the selector.
    With every element of the document each type is reported as often as its paths lead to the element ([matches_of], see PathMatch.v). *)
Theorem C52_select : forall scs incs acs d P, cs_constructible scs = true -> cs_constructible incs = true -> bytewise (default_cs acs) = true ->
  doc_ok d -> d_header d = None -> nested 0 (d_items d) -> Forall (representable incs) (doc_src d) ->
  (forall n, In (EOpenTag, n) (doc_elements d) \/ In (ETagAttribName, n) (doc_elements d) -> Forall (representable (default_cs acs)) n) ->
  Forall (fun p => text_path (default_cs acs) p /\ ParseTop.is_text scs (path_text p) /\ ~ double_colon (text_of scs (path_text p))) P ->
  let text := flat_map (cs_print incs) (doc_src d) in
  forall c0 chunks fuel, text = concat (c0 :: chunks) -> (3 * length text + 13 <= fuel)%nat ->
  exists a st evs rs,
    add_texts scs acs (map (fun p => (tp_type p, path_text p)) P) [] = Ret a (map (fun _ => 0%Z) P) /\
    scanChunked incs (xml_config incs (default_cs acs) None 0) feed_new fuel (calls (length (doc_elements d))) (sc_make (ts_make (src_make c0 (more chunks))), chunks) = Ret st evs /\
    selects a (elements evs) rs /\ length rs = length (doc_elements d) /\
    forall t i, (i < length (doc_elements d))%nat -> reported t rs i = matches_of t P (doc_elements d) i.
Proof.
  intros scs incs acs d P Hs Hi Hb Hd Hh Hn Hr Hk HP text c0 chunks fuel Et Hf. set (dacs := default_cs acs) in *.
  assert (Hcs : cs_constructible dacs = true) by (clearbody dacs; clear -Hb; destruct dacs; cbn [bytewise] in Hb; try discriminate Hb; exact Hb).
  destruct (C46_documents_in_chunks incs dacs d Hi Hd Hr c0 chunks fuel Et Hf) as (st & evs & Escan & Eel).
  assert (Eev : elements evs = map (enc_event dacs) (doc_elements d)).
  { unfold elements. transitivity (map (fun e : etype * list N * xerror => fst e) (map element evs)); [rewrite map_map; reflexivity|]. rewrite Eel, map_map. apply map_ext. intros [t n]. reflexivity. }
  assert (HPt : Forall (text_path dacs) P) by (eapply Forall_impl; [|exact HP]; intros p Hp; apply Hp).
  assert (Hm : meant scs acs (map (fun p => (tp_type p, path_text p)) P) (map tag_calls (map (enc_path dacs) P)) (map (fun _ => true) P)).
  { clear -HP. induction HP as [|p P (Hp & Ht & Hc) HP IH]; cbn [map]; [constructor|].
    change (tag_calls (enc_path dacs p) :: map tag_calls (map (enc_path dacs) P)) with ([tag_calls (enc_path dacs p)] ++ map tag_calls (map (enc_path dacs) P)).
    rewrite <- path_programs by apply Hp. apply mt_yes; [exact Ht|exact Hc|apply (path_writes dacs), Hp|exact IH]. }
  assert (HG : Forall (good_path dacs) (map (enc_path dacs) P)) by (apply Forall_map; eapply Forall_impl; [|exact HPt]; apply path_good).
  assert (Ho : ordered PStart 0 (elements evs) = true) by (rewrite Eev, ordered_enc; apply doc_ordered; assumption).
  assert (Hnh : no_header (elements evs) = true).
  { rewrite Eev. rewrite <- (doc_no_header d Hh). unfold no_header. clear. induction (doc_elements d) as [|ev l IH]; [reflexivity|]. cbn [map forallb]. rewrite IH. reflexivity. }
  destruct (C36_exact dacs (map (enc_path dacs) P) (elements evs) Hb HG Hnh Ho) as (a1 & rs1 & A1 & S1 & L1 & R1).
  destruct (C41_selects scs acs _ _ _ (map tp_expr (map (enc_path dacs) P)) (elements evs) Hs Hm) as (a & zs & rs & a' & rs' & X1 & X2 & X3 & X4 & X5 & X6 & X7).
  - intros m Hin. unfold prog_names in Hin. apply in_flat_map in Hin. destruct Hin as (os & Hos & Hin). apply in_map_iff in Hos. destruct Hos as (p & <- & Hp).
    apply good_usable; [exact Hb|]. rewrite Forall_forall in HG. eapply tags_names; [apply HG; exact Hp|exact Hin].
  - apply paths_tags. eapply Forall_impl; [|exact HG]. intros p Hp. apply Hp.
  - apply Forall_forall. intros x Hx. apply in_map_iff in Hx. destruct Hx as (p & <- & Hp). apply (tags_wf dacs); [exact Hb|]. rewrite Forall_forall in HG. apply HG, Hp.
  - exact Ho.
  - fold dacs in X5. rewrite A1 in X5. injection X5 as <-. assert (rs' = rs1) by (eapply selects_fun; eassumption). subst rs'.
    assert (Ez : zs = map (fun _ => 0%Z) P).
    { clear -X2. revert zs X2. induction P as [|p P IH]; intros [|z zs] X2; cbn [map] in *; try discriminate X2; [reflexivity|]. injection X2 as X2 X3. f_equal; [symmetry; apply Z.eqb_eq; exact X2|apply IH; exact X3]. }
    subst zs. exists a, st, evs, rs. split; [exact X1|]. split; [exact Escan|]. split; [exact X3|].
    assert (Lel : length (elements evs) = length (doc_elements d)) by (rewrite Eev, map_length; reflexivity). split; [transitivity (length (elements evs)); [exact X4|exact Lel]|].
    intros t i Hi'. rewrite <- Lel in Hi'. destruct (X7 t i Hi') as [_ E7]. rewrite E7, R1 by exact Hi'. rewrite Eev. apply matches_enc; [exact Hcs|exact HPt|].
    apply Forall_forall. intros [k n] Hin. unfold key_ok. cbn [fst snd].
    assert (Hnh' : no_header (doc_elements d) = true) by (apply doc_no_header; exact Hh).
    destruct k; cbn [kind_of]; try exact Logic.I; try (apply Hk; auto; fail).
    (* attribute names of a header *)
    exfalso. rename Hin into Hin'. clear -Hin' Hh. revert Hin'. unfold doc_elements, doc_body. rewrite Hh. intro H. apply in_app_or in H. destruct H as [H|[H|[]]]; [|discriminate H].
    revert H. generalize false. induction (d_items d) as [|it l IH]; intros b H; cbn [items_elements] in H; [destruct H|]. apply in_app_or in H. destruct H as [H|H]; [|exact (IH _ H)]. clear IH.
    assert (HA : forall l, ~ In (EHeaderAttribName, n) (attrs_elements ETagAttribName ETagAttribValue l)).
    { clear. intros l H. unfold attrs_elements in H. apply in_flat_map in H. destruct H as (a & _ & [H|[H|[]]]); discriminate H. }
    destruct it; cbn [item_elements] in H.
    + destruct (tok_src _); [destruct H|]. destruct H as [H|[]]. discriminate H.
    + destruct H as [H|H]; [discriminate H|exact (HA _ H)].
    + destruct H as [H|H]; [discriminate H|]. apply in_app_or in H. destruct H as [H|H]; [exact (HA _ H)|]. apply repeat_spec in H. discriminate H.
    + destruct H as [H|[]]. discriminate H.
    + destruct H.
    + destruct H.
    + destruct H.
    + destruct H as [H|H]; [discriminate H|]. apply in_app_or in H. destruct H as [H|H].
      * apply in_flat_map in H. destruct H as ([w q] & _ & H). destruct q; cbn [snd dpart_elements] in H; repeat (destruct H as [H|H]; [discriminate H|]); destruct H.
      * destruct H as [H|[]]. discriminate H.
Qed.
Print Assumptions C52_select.

(** The same for all expressions, also with conditions, alternatives and ranges, some of them possibly rejected, and for documents with a header. What is to be reported is
    counted by [hits_of] for the meaning [E] of the method calls. *)
Theorem C52_expressions : forall scs incs acs d xs ps bs E, cs_constructible scs = true -> cs_constructible incs = true ->
  doc_ok d -> nested 0 (d_items d) -> Forall (representable incs) (doc_src d) ->
  meant scs acs xs ps bs -> (forall m, In m (prog_names ps) -> usable (default_cs acs) m) -> paths_of ps = Some E -> Forall (fun x => wf_expr x = true) E ->
  let text := flat_map (cs_print incs) (doc_src d) in
  forall c0 chunks fuel, text = concat (c0 :: chunks) -> (3 * length text + 13 <= fuel)%nat ->
  exists a zs st evs rs,
    add_texts scs acs xs [] = Ret a zs /\ map (Z.eqb 0) zs = bs /\
    scanChunked incs (xml_config incs (default_cs acs) None 0) feed_new fuel (calls (length (doc_elements d))) (sc_make (ts_make (src_make c0 (more chunks))), chunks) = Ret st evs /\
    selects a (elements evs) rs /\ length rs = length (doc_elements d) /\
    forall t i, (i < length (doc_elements d))%nat -> reported t rs i = hits_of t E 0 (map (fun e => (fst e, flat_map (cs_print (default_cs acs)) (snd e))) (doc_elements d)) i.
Proof.
  intros scs incs acs d xs ps bs E Hs Hi Hd Hn Hr Hm Hu HE Hw text c0 chunks fuel Et Hf. set (dacs := default_cs acs) in *.
  destruct (C46_documents_in_chunks incs dacs d Hi Hd Hr c0 chunks fuel Et Hf) as (st & evs & Escan & Eel).
  assert (Eev : elements evs = map (enc_event dacs) (doc_elements d)).
  { unfold elements. transitivity (map (fun e : etype * list N * xerror => fst e) (map element evs)); [rewrite map_map; reflexivity|]. rewrite Eel, map_map. apply map_ext. intros [t n]. reflexivity. }
  assert (Ho : ordered PStart 0 (elements evs) = true) by (rewrite Eev, ordered_enc; apply doc_ordered_header; assumption).
  destruct (C41_selects scs acs xs ps bs E (elements evs) Hs Hm Hu HE Hw Ho) as (a & zs & rs & a' & rs' & X1 & X2 & X3 & X4 & X5 & X6 & X7).
  assert (Lel : length (elements evs) = length (doc_elements d)) by (rewrite Eev, map_length; reflexivity).
  exists a, zs, st, evs, rs. split; [exact X1|]. split; [exact X2|]. split; [exact Escan|]. split; [exact X3|]. split; [transitivity (length (elements evs)); [exact X4|exact Lel]|]. intros t i Hi'. rewrite <- Lel in Hi'.
  destruct (X7 t i Hi') as [E7 _]. rewrite E7, Eev. reflexivity.
Qed.
Print Assumptions C52_expressions.

(** ["/a//b", "//*@x", "/a//()", "/a/b~"] and <a>t<b x="1"><c/>u &lt; v</b></a> in UTF-16 *)
Definition select_paths : list tagpath :=
  [mkTagpath [(false, nm "a"); (true, nm "b")] TOpen 1; mkTagpath [(true, None)] (TAttr (nm "x")) 2; mkTagpath [(false, nm "a")] (TContent true) 3; mkTagpath [(false, nm "a"); (false, nm "b")] (TClose false) 4].
Definition select_doc : doc :=
  mkDoc [] None [DocSpec.IOpen (name (str "a")) [] []; DocSpec.IText (name (str "t")); DocSpec.IOpen (name (str "b")) [mkAttr (str " ") (name (str "x")) [] [] (Quoted 34 (name (str "1")))] [];
    DocSpec.IEmpty (name (str "c")) [] [] []; DocSpec.IText (mkToken (str "u ") [(Ref RLt, str " v")]); DocSpec.IClose (name (str "b")) []; DocSpec.IClose (name (str "a")) []].
Lemma ident_str n : nonempty n && forallb (fun c => (33 <=? c) && (c <? 128) && negb (existsb (N.eqb c) ([42; 126; 47; 40; 41; 123; 125; 91; 93; 64; 44; 59] ++ [33; 34; 38; 39; 45; 60; 61; 62; 63]))) n = true -> ident n /\ Forall name_char n /\ Forall (representable UTF8) n.
Proof.
  intro H. apply andb_prop in H. destruct H as [Hne H]. rewrite forallb_forall in H.
  assert (G : forall c, In c n -> 33 <= c < 128 /\ ~ In c ([42; 126; 47; 40; 41; 123; 125; 91; 93; 64; 44; 59] ++ [33; 34; 38; 39; 45; 60; 61; 62; 63])).
  { intros c Hc. specialize (H c Hc). apply andb_prop in H. destruct H as [H1 H2]. split; [lia|]. intro Hin. apply Bool.negb_true_iff in H2.
    assert (X : existsb (N.eqb c) ([42; 126; 47; 40; 41; 123; 125; 91; 93; 64; 44; 59] ++ [33; 34; 38; 39; 45; 60; 61; 62; 63]) = true) by (apply existsb_exists; exists c; split; [exact Hin|apply N.eqb_refl]). congruence. }
  split; [split|split].
  - intros ->. discriminate Hne.
  - apply Forall_forall. intros c Hc. destruct (G c Hc) as [Hr Hn]. rewrite in_app_iff in Hn. split; [right; lia|]. split; [tauto|]. rewrite N.mod_small by lia. split; [lia|]. tauto.
  - apply Forall_forall. intros c Hc. destruct (G c Hc) as [Hr Hn]. right. split; [lia|]. intro X. apply Hn. unfold markup_chars in X. cbn in X |- *. tauto.
  - apply Forall_forall. intros c Hc. destruct (G c Hc) as [Hr Hn]. cbn [representable]. lia.
Qed.
Example C52_case : doc_ok select_doc /\ d_header select_doc = None /\ nested 0 (d_items select_doc) /\ Forall (representable (UTF16 true)) (doc_src select_doc) /\
  (forall n, In (EOpenTag, n) (doc_elements select_doc) \/ In (ETagAttribName, n) (doc_elements select_doc) -> Forall (representable UTF8) n) /\
  Forall (fun p => text_path UTF8 p /\ ParseTop.is_text UTF8 (path_text p) /\ ~ double_colon (text_of UTF8 (path_text p))) select_paths /\
  map path_text select_paths = [str "/a//b"; str "//*@x"; str "/a//()"; str "/a/b~"] /\
  doc_elements select_doc = [(EOpenTag, str "a"); (EContent, str "t"); (EOpenTag, str "b"); (ETagAttribName, str "x"); (ETagAttribValue, str "1"); (EOpenTag, str "c"); (ECloseTagIm, []);
    (EContent, str "u < v"); (ECloseTag, str "b"); (ECloseTag, str "a"); (EExit, [])] /\
  map (fun i => map (fun t => matches_of t select_paths (doc_elements select_doc) i) [1; 2; 3; 4]%Z) (seq 0 11) =
    [[0; 0; 0; 0]; [0; 0; 1; 0]; [1; 0; 0; 0]; [0; 0; 0; 0]; [0; 1; 0; 0]; [0; 0; 0; 0]; [0; 0; 0; 0]; [0; 0; 1; 0]; [0; 0; 0; 1]; [0; 0; 0; 0]; [0; 0; 0; 0]]%nat.
Proof.
  split; [apply docb_ok; vm_compute; reflexivity|]. split; [reflexivity|]. split; [cbn; auto|].
  split; [apply Forall_forall; intros c Hc; assert (X : forallb (fun c => c <? 128) (doc_src select_doc) = true) by (vm_compute; reflexivity); rewrite forallb_forall in X; specialize (X c Hc); cbn [representable]; lia|].
  split.
  - intros n H. assert (X : forall e, In e (doc_elements select_doc) -> forallb (fun c => c <? 128) (snd e) = true) by (apply forallb_forall; vm_compute; reflexivity).
    apply Forall_forall. intros c Hc. destruct H as [H|H]; specialize (X _ H); cbn [snd] in X; rewrite forallb_forall in X; specialize (X c Hc); cbn [representable]; lia.
  - split; [|split; [vm_compute; reflexivity|split; vm_compute; reflexivity]].
    assert (T : forall s, nonempty s && forallb (fun c => (33 <=? c) && (c <? 128) && negb (existsb (N.eqb c) ([42; 126; 47; 40; 41; 123; 125; 91; 93; 64; 44; 59] ++ [33; 34; 38; 39; 45; 60; 61; 62; 63]))) s = true -> (length (encoded UTF8 s) <= 1024)%nat -> text_name UTF8 (Some s)).
    { intros s H Hl. destruct (ident_str s H) as (H1 & H2 & H3). repeat split; try assumption; apply H1. }
    apply Forall_forall. intros p Hp. split; [|split; [apply ascii_text|apply no_colons]].
    + destruct Hp as [<-|[<-|[<-|[<-|[]]]]]; (split; cbn [tp_type tp_steps tp_rep]; try discriminate;
        repeat (apply Forall_cons || apply Forall_nil); cbn [snd]; first [exact Logic.I|apply T; [reflexivity|vm_compute; lia]]).
    + destruct Hp as [<-|[<-|[<-|[<-|[]]]]]; vm_compute; reflexivity.
    + destruct Hp as [<-|[<-|[<-|[<-|[]]]]]; vm_compute; reflexivity.
Qed.
