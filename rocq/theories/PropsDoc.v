(** Properties of scanning documents: C19-C21, C25, C26, C46. *)
From Verif Require Import Base Iter CharMap CodePages Charset TextScanner Ideal
  CharsetSpec CharsetProofs CharsetMore ReadSpec ChunkRead XmlScanner ScanSpec ScanProofs CharReader ChunkScan ChunkTop ScanTop PropsScan
  DocSpec SectSpec DocProofs DocScan DocTop DocCheck.

(** Scanning the text [cl], written in the character set [incs], delivers the elements [els] without error. The fuel is the bound of the
    model for the number of steps, see C16. *)
Definition scans_to (incs outcs : charset) (cl : list N) (els : list (etype * list N)) : Prop :=
  let text := flat_map (cs_print incs) cl in
  forall fuel, (3 * length text + 4 <= fuel)%nat ->
  exists s evs, xml_scan incs outcs fuel (calls (length els)) text = Ret s evs /\
    map element evs = map (fun p => (fst p, flat_map (cs_print outcs) (snd p), Ok)) els.
(** the same for the text cut into chunks, each one supplied when the scanner asks for it *)
Definition scans_to_chunks (incs outcs : charset) (cl : list N) (els : list (etype * list N)) : Prop :=
  let text := flat_map (cs_print incs) cl in
  forall c0 chunks fuel, text = concat (c0 :: chunks) -> (3 * length text + 13 <= fuel)%nat ->
  exists st evs, scanChunked incs (xml_config incs outcs None 0) feed_new fuel (calls (length els))
      (sc_make (ts_make (src_make c0 (more chunks))), chunks) = Ret st evs /\
    map element evs = map (fun p => (fst p, flat_map (cs_print outcs) (snd p), Ok)) els.

Lemma mask_all_full : full mask_all.
Proof. intros []; reflexivity. Qed.

(** ** C46: documents *)
Theorem C46_documents : forall incs outcs d, cs_constructible incs = true -> doc_ok d -> Forall (representable incs) (doc_src d) ->
  scans_to incs outcs (doc_src d) (doc_elements d).
Proof. intros incs outcs d Hcs Hd Hr f Hf. exact (doc_xml incs outcs d mask_all Hcs Hd Hr mask_all_full f Hf). Qed.
Print Assumptions C46_documents.

Theorem C46_documents_in_chunks : forall incs outcs d, cs_constructible incs = true -> doc_ok d -> Forall (representable incs) (doc_src d) ->
  scans_to_chunks incs outcs (doc_src d) (doc_elements d).
Proof.
  intros incs outcs d Hcs Hd Hr c0 chunks f E Hf. apply (xml_to_chunks incs outcs _ (doc_src d)); auto.
  intros f' Hf'. exact (C46_documents incs outcs d Hcs Hd Hr f' Hf').
Qed.
Print Assumptions C46_documents_in_chunks.

Lemma repr_dec : forall l, forallb (fun c => c <? 2 ^ 31) l = true -> Forall (representable UTF8) l.
Proof. intros l H. eapply forallb_ok; [|exact H]. intros c Hc. apply N.ltb_lt. exact Hc. Qed.

Example C46_case :
  let d := mkDoc (str " ") (Some (mkHeader [mkAttr (str " ") (name (str "version")) [] [] (Quoted 39 (name (str "1.0")))] [] []))
     [IText (name [10]); IDoctype (name (str "DOCTYPE")) [(str " ", DId (name (str "a"))); (str " ", DList (str "<!ELEMENT b ANY>"))] [];
      IOpen (name (str "a")) [mkAttr (str " ") (name (str "x")) (str " ") [] (Quoted 34 (mkToken (str "1 ") [(Ref RLt, str " 2"); (Ref (RHex (str "20ac")), [])]))] (str " ");
      IText (mkToken [13; 10] [(Ref (RDec (str "65")), str "b")]); IComment (str " c - d "); IEmpty (name (str "b")) [] [] []; ICData (str "x");
      IPI (str "pi x"); IClose (name (str "a")) []] in
  doc_ok d /\ Forall (representable UTF8) (doc_src d) /\
  doc_src d = str " <?xml version='1.0'?>" ++ [10] ++ str "<!DOCTYPE a [<!ELEMENT b ANY>]><a x =" ++ [34] ++ str "1 &lt; 2&#x20ac;" ++ [34] ++ str " >" ++
    [13; 10] ++ str "&#65;b<!-- c - d --><b/><![CDATA[x]]><?pi x?></a>" /\
  doc_elements d = [(EHeaderStart, str "?xml"); (EHeaderAttribName, str "version"); (EHeaderAttribValue, str "1.0"); (EHeaderEnd, []);
    (EDocAttribValue, str "DOCTYPE"); (EDocAttribValue, str "a"); (EDocAttribEnd, []);
    (EOpenTag, str "a"); (ETagAttribName, str "x"); (ETagAttribValue, str "1 < 2" ++ [0x20AC]); (EContent, [10] ++ str "Ab");
    (EOpenTag, str "b"); (ECloseTagIm, []); (ECloseTag, str "a"); (EExit, [])].
Proof. cbv zeta. split; [apply docb_ok; vm_compute; reflexivity|]. split; [apply repr_dec; vm_compute; reflexivity|]. split; vm_compute; reflexivity. Qed.

(** ** C19: self closing tags. White space between the slash and the end of the tag is accepted by the scanner, but each character of
    it delivers a further close element. *)
Definition close_elements (evs : list event) : nat :=
  length (filter (fun e => match ev_type e with ECloseTagIm => true | _ => false end) evs).
(** number of close elements the scanner delivers for an item *)
Definition item_closes (i : item) : nat := match i with IEmpty _ _ _ ws2 => S (length ws2) | _ => 0 end.
(** self closing tags without white space between / and > *)
Definition tight (i : item) : Prop := match i with IEmpty _ _ _ ws2 => ws2 = [] | _ => True end.
Definition is_empty_tag (i : item) : bool := match i with IEmpty _ _ _ _ => true | _ => false end.

Definition im (p : etype * list N) : bool := match fst p with ECloseTagIm => true | _ => false end.
Lemma im_attrs : forall tn tv l, tn <> ECloseTagIm -> tv <> ECloseTagIm -> filter im (attrs_elements tn tv l) = [].
Proof.
  intros tn tv l H1 H2. induction l as [|a l IH]; [reflexivity|]. cbn [attrs_elements flat_map app filter im fst].
  destruct tn; try congruence; destruct tv; try congruence; exact IH.
Qed.
Lemma im_item : forall seek i, length (filter im (item_elements seek i)) = item_closes i.
Proof.
  intros seek i. destruct i as [t|n attrs ws|n attrs ws ws2|n ws|l|l|l|n parts ws]; cbn [item_elements item_closes]; try reflexivity.
  - destruct (tok_src _); reflexivity.
  - cbn [filter im fst]. rewrite im_attrs by discriminate. reflexivity.
  - cbn [filter im fst]. rewrite filter_app, app_length, im_attrs by discriminate. cbn [length Nat.add].
    induction (S (length ws2)) as [|k IH]; [reflexivity|]. cbn [repeat filter im fst length]. rewrite IH. reflexivity.
  - cbn [filter im fst]. rewrite filter_app, app_length. cbn [filter im fst length Nat.add]. rewrite Nat.add_0_r.
    induction parts as [|[w d] parts IH]; [reflexivity|]. cbn [flat_map snd]. rewrite filter_app, app_length, IH. destruct d; reflexivity.
Qed.
Lemma im_items : forall l seek, length (filter im (items_elements seek l)) = list_sum (map item_closes l).
Proof.
  induction l as [|i l IH]; intros seek; [reflexivity|]. cbn [items_elements map list_sum fold_right]. rewrite filter_app, app_length, IH, im_item. reflexivity.
Qed.
Lemma im_doc : forall d, length (filter im (doc_elements d)) = list_sum (map item_closes (d_items d)).
Proof.
  intros d. unfold doc_elements, doc_body. rewrite filter_app, app_length. cbn [filter im fst length]. rewrite Nat.add_0_r.
  destruct (d_header d) as [h|]; [|apply im_items]. rewrite filter_app, app_length. unfold header_elements. cbn [filter im fst].
  rewrite filter_app, im_attrs by discriminate. cbn [app filter im fst length Nat.add]. apply im_items.
Qed.
Lemma close_elements_im : forall outcs evs els, map element evs = map (fun p => (fst p, flat_map (cs_print outcs) (snd p), Ok)) els ->
  close_elements evs = length (filter im els).
Proof.
  intros outcs evs. unfold close_elements. induction evs as [|e evs IH]; intros [|p els] H; try discriminate; [reflexivity|].
  cbn [map] in H. injection H as H1 _ _ H2. specialize (IH els H2). cbn [filter]. unfold im at 1. rewrite H1.
  destruct (fst p); cbn [length]; congruence.
Qed.

(** the number of close elements, exactly *)
Theorem C19_close_elements : forall incs outcs d, cs_constructible incs = true -> doc_ok d -> Forall (representable incs) (doc_src d) ->
  let text := flat_map (cs_print incs) (doc_src d) in
  forall fuel, (3 * length text + 4 <= fuel)%nat ->
  exists s evs, xml_scan incs outcs fuel (calls (length (doc_elements d))) text = Ret s evs /\ ev_type (last evs (mkEv ENone [] Ok 0 0)) = EExit /\
    close_elements evs = list_sum (map item_closes (d_items d)).
Proof.
  intros incs outcs d Hcs Hd Hr text f Hf. destruct (C46_documents incs outcs d Hcs Hd Hr f Hf) as [s [evs [H1 H2]]].
  exists s, evs. split; [exact H1|]. split; [|rewrite (close_elements_im _ _ _ H2); apply im_doc].
  assert (E : map ev_type evs = map fst (doc_elements d)).
  { transitivity (map (fun x => fst (fst x)) (map element evs)); [rewrite map_map; reflexivity|]. rewrite H2, map_map. reflexivity. }
  unfold doc_elements in E. rewrite map_app in E. cbn [map fst] in E.
  assert (G : forall (es : list event) l, map ev_type es = l ++ [EExit] -> ev_type (last es (mkEv ENone [] Ok 0 0)) = EExit).
  { intros es l E'. destruct es as [|e es] using rev_ind; [destruct l; discriminate|]. rewrite last_last. rewrite map_app in E'. cbn [map] in E'.
    apply app_inj_tail in E'. apply E'. }
  eapply G. exact E.
Qed.
Print Assumptions C19_close_elements.

(** one for each tag, if there is no white space between the slash and the end of the tag *)
Theorem C19_one_close_partial : forall incs outcs d, cs_constructible incs = true -> doc_ok d -> Forall (representable incs) (doc_src d) ->
  Forall tight (d_items d) ->
  let text := flat_map (cs_print incs) (doc_src d) in
  forall fuel, (3 * length text + 4 <= fuel)%nat ->
  exists s evs, xml_scan incs outcs fuel (calls (length (doc_elements d))) text = Ret s evs /\ ev_type (last evs (mkEv ENone [] Ok 0 0)) = EExit /\
    close_elements evs = length (filter is_empty_tag (d_items d)).
Proof.
  intros incs outcs d Hcs Hd Hr Ht text f Hf. destruct (C19_close_elements incs outcs d Hcs Hd Hr f Hf) as [s [evs [H1 [H2 H3]]]].
  exists s, evs. split; [exact H1|]. split; [exact H2|]. rewrite H3. clear - Ht.
  assert (G : forall l, Forall tight l -> list_sum (map item_closes l) = length (filter is_empty_tag l)); [|apply G; exact Ht].
  clear. induction l as [|i l IH]; intros H; [reflexivity|]. inversion H as [|? ? Hi Hl]; subst. specialize (IH Hl).
  cbn [map filter list_sum fold_right]. unfold list_sum in IH. rewrite IH. destruct i; cbn [item_closes is_empty_tag tight] in *; try reflexivity. subst. reflexivity.
Qed.
Print Assumptions C19_one_close_partial.

Example C19_case : let d := mkDoc [] None [IOpen (name (str "a")) [] []; IEmpty (name (str "b")) [mkAttr (str " ") (name (str "x")) [] [] (Quoted 39 (name (str "1")))] (str "  ") []; IClose (name (str "a")) []] in
  doc_ok d /\ Forall (representable UTF8) (doc_src d) /\ Forall tight (d_items d) /\ doc_src d = str "<a><b x='1'  /></a>".
Proof.
  cbv zeta. split; [apply docb_ok; vm_compute; reflexivity|]. split; [apply repr_dec; vm_compute; reflexivity|].
  split; [repeat constructor|vm_compute; reflexivity].
Qed.

Theorem C19_refuted : exists s evs,
  xml_scan UTF8 UTF8 100 (calls 4) (str "<a/ >") = Ret s evs /\ map ev_type evs = [EOpenTag; ECloseTagIm; ECloseTagIm; EExit].
Proof. eexists _, _. split; vm_compute; reflexivity. Qed.
Print Assumptions C19_refuted.

(** ** C21: references, in any token *)
Definition sample (n1 n2 : list N) (q : N) (v t n3 : list N) : list N :=
  str "<" ++ n1 ++ str " " ++ n2 ++ str "=" ++ [q] ++ v ++ [q] ++ str ">" ++ t ++ str "</" ++ n3 ++ str ">".

Theorem C21_references : forall incs outcs n1 n2 q v t n3, cs_constructible incs = true ->
  name_ok n1 -> name_ok n2 -> name_ok n3 -> q = 34 \/ q = 39 -> tok_ok (value_char q) v -> tok_ok text_char t -> tok_src t <> [] ->
  let cl := sample (tok_src n1) (tok_src n2) q (tok_src v) (tok_src t) (tok_src n3) in
  Forall (representable incs) cl ->
  scans_to incs outcs cl
    [(EOpenTag, tok_chars n1); (ETagAttribName, tok_chars n2); (ETagAttribValue, tok_chars v); (EContent, tok_chars t); (ECloseTag, tok_chars n3); (EExit, [])].
Proof.
  intros incs outcs n1 n2 q v t n3 Hcs H1 H2 H3 Hq Hv Ht Hne cl Hr.
  set (d := mkDoc [] None [IOpen n1 [mkAttr [32] n2 [] [] (Quoted q v)] []; IText t; IClose n3 []]).
  assert (Ed : doc_src d = cl).
  { unfold d, cl, sample, doc_src, items_src. cbn [d_ws d_header d_items flat_map item_src attrs_src attr_src a_ws a_name a_ws1 a_ws2 a_val aval_src app].
    unfold attr_src. cbn [a_ws a_name a_ws1 a_ws2 a_val aval_src app]. change (str "<") with [60]. change (str " ") with [32]. change (str "=") with [61].
    change (str ">") with [62]. change (str "</") with [60; 47]. rewrite <- ?app_assoc. cbn [app]. rewrite <- ?app_assoc. cbn [app]. rewrite <- ?app_assoc. cbn [app]. rewrite <- ?app_assoc. reflexivity. }
  assert (Ee : doc_elements d = [(EOpenTag, tok_chars n1); (ETagAttribName, tok_chars n2); (ETagAttribValue, tok_chars v); (EContent, tok_chars t); (ECloseTag, tok_chars n3); (EExit, [])]).
  { unfold d, doc_elements, doc_body. cbn [d_ws d_header d_items items_elements item_elements item_seek attrs_elements flat_map app a_name a_val aval_chars].
    destruct (tok_src t) eqn:E; [congruence|]. reflexivity. }
  rewrite <- Ed, <- Ee. apply C46_documents; [exact Hcs| |rewrite Ed; exact Hr].
  unfold doc_ok, d. cbn [d_ws d_header d_items]. split; [constructor|]. split; [|exact I]. split; [|cbn; repeat split; intros [? ?]; discriminate].
  constructor; [|constructor; [|constructor; [|constructor]]]; cbn [item_ok].
  - split; [exact H1|]. split; [|constructor]. constructor; [|constructor]. unfold attr_ok. cbn [a_ws a_name a_ws1 a_ws2 a_val aval_ok].
    split; [discriminate|]. split; [constructor; [left; reflexivity|constructor]|]. split; [exact H2|]. split; [constructor|]. split; [constructor|]. split; assumption.
  - split; assumption.
  - split; [exact H3|constructor].
Qed.
Print Assumptions C21_references.

Example C21_case :
  let n1 := mkToken (str "a") [(Ref (RDec (str "98")), [])] in let n2 := name (str "x") in
  let v := mkToken (str "1 ") [(Ref RQuot, []); (Ref RApos, str "z")] in let t := mkToken [] [(Ref RAmp, str " "); (Ref RGt, []); (Ref (RHex (str "FFFFFFFF")), [0x20AC])] in
  name_ok n1 /\ name_ok n2 /\ tok_ok (value_char 39) v /\ tok_ok text_char t /\
  Forall (representable (UTF16 true)) (sample (tok_src n1) (tok_src n2) 39 (tok_src v) (tok_src t) (tok_src n1)) /\
  sample (tok_src n1) (tok_src n2) 39 (tok_src v) (tok_src t) (tok_src n1) = str "<a&#98; x='1 &quot;&apos;z'>&amp; &gt;&#xFFFFFFFF;" ++ [0x20AC] ++ str "</a&#98;>" /\
  tok_chars n1 = str "ab" /\ tok_chars v = str "1 " ++ [34] ++ str "'z" /\ tok_chars t = str "& >" ++ [0xFFFFFFFF; 0x20AC].
Proof.
  cbv zeta. split; [apply nameb_ok; vm_compute; reflexivity|]. split; [apply nameb_ok; vm_compute; reflexivity|].
  split; [eapply tokb_ok; [apply value_charb_ok|vm_compute; reflexivity]|]. split; [eapply tokb_ok; [apply text_charb_ok|vm_compute; reflexivity]|].
  split; [|repeat split; vm_compute; reflexivity].
  apply (forallb_ok (fun c => (c <=? 0x10FFFF) && ((c <? 0xD800) || (0xDC00 <=? c)))); [cbn [representable]; lia|vm_compute; reflexivity].
Qed.

(** ** C20: end of line normalisation, texts without references *)
Theorem C20_end_of_line : forall incs outcs q v t, cs_constructible incs = true ->
  q = 34 \/ q = 39 -> Forall (value_char q) v -> Forall text_char t -> t <> [] ->
  let cl := sample (str "a") (str "x") q v t (str "a") in
  Forall (representable incs) cl ->
  scans_to incs outcs cl
    [(EOpenTag, str "a"); (ETagAttribName, str "x"); (ETagAttribValue, eol v); (EContent, eol t); (ECloseTag, str "a"); (EExit, [])].
Proof.
  intros incs outcs q v t Hcs Hq Hv Ht Hne cl Hr.
  assert (E : forall l, tok_src (name l) = l) by (intros l; unfold tok_src, name; cbn [t_raw t_refs flat_map]; apply app_nil_r).
  assert (E2 : forall l, tok_chars (name l) = eol l) by (intros l; unfold tok_chars, name; cbn [t_raw t_refs flat_map]; apply app_nil_r).
  pose proof (C21_references incs outcs (name (str "a")) (name (str "x")) q (name v) (name t) (name (str "a")) Hcs) as H.
  rewrite !E, !E2 in H. apply H; auto; try (apply nameb_ok; vm_compute; reflexivity); split; auto; constructor.
Qed.
Print Assumptions C20_end_of_line.

(** [eol] is the normalisation of XML *)
Lemma eol_spec : (forall r, eol (13 :: 10 :: r) = 10 :: eol r) /\ (forall c r, c <> 10 -> eol (13 :: c :: r) = 10 :: eol (c :: r)) /\
  eol [13] = [10] /\ (forall c r, c <> 13 -> eol (c :: r) = c :: eol r) /\ eol [] = [].
Proof.
  repeat split.
  - intros c r H. cbn [eol]. replace (c =? 10) with false by lia. reflexivity.
  - intros c r H. cbn [eol]. replace (c =? 13) with false by lia. reflexivity.
Qed.

Example C20_case : Forall (value_char 39) [97; 13; 13; 10; 9; 10] /\ Forall text_char [10; 13; 98; 13] /\
  Forall (representable (IsoLatin 3)) (sample (str "a") (str "x") 39 [97; 13; 13; 10; 9; 10] [10; 13; 98; 13] (str "a")) /\
  eol [97; 13; 13; 10; 9; 10] = [97; 10; 10; 9; 10] /\ eol [10; 13; 98; 13] = [10; 10; 98; 10].
Proof.
  split; [eapply forallb_ok; [apply value_charb_ok|vm_compute; reflexivity]|]. split; [eapply forallb_ok; [apply text_charb_ok|vm_compute; reflexivity]|].
  split; [|split; vm_compute; reflexivity]. apply (forallb_ok (fun c => (0 <? c) && (c <? 128))); [cbn [representable]; lia|vm_compute; reflexivity].
Qed.

(** ** C25: comments. A comment ends at the first > that follows an even number of dashes, but not none ([closes_first]); so a text
    without two dashes in a row is a comment, but also <!-- a -- b ----> is one. The content is cut where the comment was, and blank characters after it are dropped. *)
Theorem C25_comments_partial : forall incs outcs t1 c t2, cs_constructible incs = true ->
  tok_ok text_char t1 -> tok_ok text_char t2 -> tok_src t1 <> [] -> tok_src t2 <> [] -> blank (hd 0 (tok_src t2)) = false ->
  closes_first 45 comment_run (c ++ str "-->") ->
  let cl := str "<a>" ++ tok_src t1 ++ str "<!--" ++ c ++ str "-->" ++ tok_src t2 ++ str "</a>" in
  Forall (representable incs) cl ->
  scans_to incs outcs cl [(EOpenTag, str "a"); (EContent, tok_chars t1); (EContent, tok_chars t2); (ECloseTag, str "a"); (EExit, [])].
Proof.
  intros incs outcs t1 c t2 Hcs H1 H2 Hn1 Hn2 Hb Hc cl Hr.
  set (d := mkDoc [] None [IOpen (name (str "a")) [] []; IText t1; IComment c; IText t2; IClose (name (str "a")) []]).
  assert (Ed : doc_src d = cl).
  { unfold d, cl, doc_src, items_src. cbn [d_ws d_header d_items flat_map item_src attrs_src app]. unfold name, tok_src at 1 4. cbn [t_raw t_refs flat_map].
    change (str "a") with [97]. change (str "<a>") with [60; 97; 62]. change (str "</a>") with [60; 47; 97; 62]. change (str "<!--") with [60; 33; 45; 45]. change (str "</") with [60; 47].
    rewrite <- ?app_assoc. cbn [app]. rewrite <- ?app_assoc. cbn [app]. rewrite <- ?app_assoc. reflexivity. }
  assert (Es : tok_strip t2 = t2).
  { unfold tok_strip. destruct t2 as [raw refs]. cbn [t_raw t_refs]. f_equal. unfold tok_src in Hb. cbn [t_raw t_refs] in Hb.
    destruct raw as [|x raw]; [reflexivity|]. cbn [app hd] in Hb. cbn [strip]. rewrite Hb. reflexivity. }
  assert (Ee : doc_elements d = [(EOpenTag, str "a"); (EContent, tok_chars t1); (EContent, tok_chars t2); (ECloseTag, str "a"); (EExit, [])]).
  { unfold d, doc_elements, doc_body. cbn [d_ws d_header d_items items_elements item_elements item_seek attrs_elements flat_map app].
    destruct (tok_src t1) eqn:E1; [congruence|]. rewrite Es. destruct (tok_src t2) eqn:E2; [congruence|]. reflexivity. }
  rewrite <- Ed, <- Ee. apply C46_documents; [exact Hcs| |rewrite Ed; exact Hr].
  unfold doc_ok, d. cbn [d_ws d_header d_items]. split; [constructor|]. split; [|exact I]. split; [|cbn; repeat split; intros [? ?]; discriminate].
  constructor; [|constructor; [|constructor; [|constructor; [|constructor; [|constructor]]]]]; cbn [item_ok].
  - split; [apply nameb_ok; vm_compute; reflexivity|]. split; constructor.
  - split; assumption.
  - assumption.
  - split; assumption.
  - split; [apply nameb_ok; vm_compute; reflexivity|constructor].
Qed.
Print Assumptions C25_comments_partial.

Example C25_case : let t1 := name (str "x ") in let c := str "<b> & ' - > -- ---> ----" ++ [0; 255] ++ str "--" in let t2 := mkToken [] [(Ref RAmp, str " y")] in
  tok_ok text_char t1 /\ tok_ok text_char t2 /\ blank (hd 0 (tok_src t2)) = false /\ closes_first 45 comment_run (c ++ str "-->") /\
  Forall (representable UTF8) (str "<a>" ++ tok_src t1 ++ str "<!--" ++ c ++ str "-->" ++ tok_src t2 ++ str "</a>").
Proof.
  cbv zeta. split; [eapply tokb_ok; [apply text_charb_ok|vm_compute; reflexivity]|]. split; [eapply tokb_ok; [apply text_charb_ok|vm_compute; reflexivity]|].
  split; [reflexivity|]. split; [apply comment_ok; vm_compute; reflexivity|].
  apply repr_dec. vm_compute. reflexivity.
Qed.

(** the white space after a comment is lost, and a comment ending with a dash does not end *)
Theorem C25_refuted :
  (exists s evs, xml_scan UTF8 UTF8 100 (calls 4) (str "<a>x<!-- c --> y</a>") = Ret s evs /\
     elements evs = [(EOpenTag, str "a"); (EContent, str "x"); (EContent, str "y"); (ECloseTag, str "a")]) /\
  (exists s evs, xml_scan UTF8 UTF8 100 (calls 3) (str "<a><!-- c ---><b/><!-- d --></a>") = Ret s evs /\
     elements evs = [(EOpenTag, str "a"); (ECloseTag, str "a"); (EExit, [])]).
Proof. split; eexists _, _; split; vm_compute; reflexivity. Qed.
Print Assumptions C25_refuted.

(** ** C26: CDATA sections. They end at the first > that follows 2, 5, 8, ... closing brackets. Their text is never delivered. *)
Theorem C26_cdata_dropped : forall incs outcs t1 c t2, cs_constructible incs = true ->
  tok_ok text_char t1 -> tok_ok text_char t2 -> tok_src t1 <> [] -> tok_src t2 <> [] ->
  closes_first 93 cdata_run (c ++ str "]]>") ->
  let cl := str "<a>" ++ tok_src t1 ++ str "<![CDATA[" ++ c ++ str "]]>" ++ tok_src t2 ++ str "</a>" in
  Forall (representable incs) cl ->
  scans_to incs outcs cl [(EOpenTag, str "a"); (EContent, tok_chars t1); (EContent, tok_chars t2); (ECloseTag, str "a"); (EExit, [])].
Proof.
  intros incs outcs t1 c t2 Hcs H1 H2 Hn1 Hn2 Hc cl Hr.
  set (d := mkDoc [] None [IOpen (name (str "a")) [] []; IText t1; ICData c; IText t2; IClose (name (str "a")) []]).
  assert (Ed : doc_src d = cl).
  { unfold d, cl, doc_src, items_src. cbn [d_ws d_header d_items flat_map item_src attrs_src app]. unfold name, tok_src at 1 4. cbn [t_raw t_refs flat_map].
    change (str "a") with [97]. change (str "<a>") with [60; 97; 62]. change (str "</a>") with [60; 47; 97; 62]. change (str "</") with [60; 47].
    rewrite <- ?app_assoc. cbn [app]. rewrite <- ?app_assoc. cbn [app]. rewrite <- ?app_assoc. reflexivity. }
  assert (Ee : doc_elements d = [(EOpenTag, str "a"); (EContent, tok_chars t1); (EContent, tok_chars t2); (ECloseTag, str "a"); (EExit, [])]).
  { unfold d, doc_elements, doc_body. cbn [d_ws d_header d_items items_elements item_elements item_seek attrs_elements flat_map app].
    destruct (tok_src t1) eqn:E1; [congruence|]. destruct (tok_src t2) eqn:E2; [congruence|]. reflexivity. }
  rewrite <- Ed, <- Ee. apply C46_documents; [exact Hcs| |rewrite Ed; exact Hr].
  unfold doc_ok, d. cbn [d_ws d_header d_items]. split; [constructor|]. split; [|exact I]. split; [|cbn; repeat split; intros [? ?]; discriminate].
  constructor; [|constructor; [|constructor; [|constructor; [|constructor; [|constructor]]]]]; cbn [item_ok].
  - split; [apply nameb_ok; vm_compute; reflexivity|]. split; constructor.
  - split; assumption.
  - assumption.
  - split; assumption.
  - split; [apply nameb_ok; vm_compute; reflexivity|constructor].
Qed.
Print Assumptions C26_cdata_dropped.

Example C26_case : let t1 := name (str "x ") in let c := str "<b> & ' ] > ]] ]]]> ]]]]>]]]" in let t2 := name (str " y") in
  tok_ok text_char t1 /\ tok_ok text_char t2 /\ closes_first 93 cdata_run (c ++ str "]]>") /\
  Forall (representable UTF8) (str "<a>" ++ tok_src t1 ++ str "<![CDATA[" ++ c ++ str "]]>" ++ tok_src t2 ++ str "</a>").
Proof.
  cbv zeta. split; [eapply tokb_ok; [apply text_charb_ok|vm_compute; reflexivity]|]. split; [eapply tokb_ok; [apply text_charb_ok|vm_compute; reflexivity]|].
  split; [apply cdata_ok; vm_compute; reflexivity|].
  apply repr_dec. vm_compute. reflexivity.
Qed.

Theorem C26_refuted : exists s evs, xml_scan UTF8 UTF8 100 (calls 3) (str "<a><![CDATA[text]]></a>") = Ret s evs /\
  elements evs = [(EOpenTag, str "a"); (ECloseTag, str "a"); (EExit, [])].
Proof. eexists _, _; split; vm_compute; reflexivity. Qed.
Print Assumptions C26_refuted.
