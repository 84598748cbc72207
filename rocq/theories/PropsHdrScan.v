(** Header parser and scanner on the same document: C63. *)
From Coq Require Import Lia ZifyBool ZifyNat.
From Verif Require Import Base Iter Charset CharsetSpec CharsetProofs TextScanner XmlScanner ReadSpec ScanSpec PropsScan DocSpec DocCheck DocTop PropsDoc
  XmlHdr HdrSpec HdrProofs HdrExact PropsHdr.

(** ** Headers with the attributes known by the header parser, with values in quotes *)
Definition std_attr (a : attr) : Prop := exists k q v, a_name a = name (attr_name k) /\ a_val a = Quoted q v.
Definition is_encoding (n : list N) : bool := bytes_eqb n (str "encoding").
(** the value of the last attribute encoding as it is written *)
Definition enc_source (l : list attr) : list N :=
  fold_left (fun e a => if is_encoding (tok_src (a_name a)) then match a_val a with Quoted _ v | Bare v => tok_src v end else e) l [].
(** the value of the last attribute encoding among the elements of a document *)
Fixpoint enc_element (e : list N) (els : list (etype * list N)) : list N :=
  match els with
  | (EHeaderAttribName, n) :: ((EHeaderAttribValue, v) :: _) as l => enc_element (if is_encoding n then v else e) l
  | _ :: l => enc_element e l
  | [] => e
  end.
(** the text up to the question mark at the end of the header *)
Definition header_part (d : doc) (h : header) : list N := d_ws d ++ str "<?xml" ++ attrs_src (h_attrs h) ++ DocSpec.h_ws h ++ [63].

Lemma accepted_longer : forall a b e n chunks, h_view (h_feed [a] h_new) = Some (Some true, e, None, n) -> concat chunks = a ++ b ->
  h_view (h_feed chunks h_new) = Some (Some true, e, None, n).
Proof.
  intros a b e n chunks H E. rewrite feed_hb in H by (cbn; lia || reflexivity). cbn [concat] in H. rewrite app_nil_r in H.
  rewrite feed_hb by (cbn; lia || reflexivity). rewrite E, hb_app. destruct (hb a h_new) as [h1 [|b1|]]; [|exact H|exact H].
  unfold vview, hout, h_view in H. discriminate.
Qed.
Lemma white_ws : forall l, Forall white l -> Forall HdrSpec.h_ws l.
Proof. intros l H. eapply Forall_impl; [|exact H]. unfold white, HdrSpec.h_ws. intros c Hc. lia. Qed.

(** no quote in the text of a value *)
Lemma amp_no_quote : forall q a f, (q = 34 \/ q = 39) -> amp_ok a f -> Forall (fun c => c <> q) (amp_src a).
Proof.
  intros q a f Hq H. assert (D : forall l, Forall hex_digit l -> Forall (fun c => c <> q) l).
  { intros l Hl. eapply Forall_impl; [|exact Hl]. unfold hex_digit. intros c Hc. lia. }
  assert (S : forall l, forallb (fun c => negb ((c =? 34) || (c =? 39))) l = true -> Forall (fun c => c <> q) l).
  { intros l Hl. rewrite forallb_forall in Hl. apply Forall_forall. intros c Hc. specialize (Hl c Hc). lia. }
  destruct a as [r|l]; cbn [amp_ok amp_src] in *.
  - destruct r as [ds|ds| | | | |]; cbn [ref_ok ref_src] in *; try (apply S; reflexivity).
    + destruct H as [H _]. apply Forall_app. split; [apply S; reflexivity|]. apply Forall_app. split; [|apply S; reflexivity]. apply D. eapply Forall_impl; [|exact H]. unfold dec_digit, hex_digit. intros c Hc. lia.
    + destruct H as [H _]. apply Forall_app. split; [apply S; reflexivity|]. apply Forall_app. split; [|apply S; reflexivity]. apply D. exact H.
  - constructor; [lia|]. destruct H as [[H _]|[ds [-> [H _]]]].
    + eapply Forall_impl; [|exact H]. intros c [[_ [Hc _]] _] E. apply Hc. subst c. unfold markup_chars. destruct Hq as [-> | ->]; vm_compute; tauto.
    + constructor; [lia|]. eapply Forall_impl; [|exact H]. unfold dec_digit. intros c Hc. lia.
Qed.
Lemma value_no_quote : forall q v, (q = 34 \/ q = 39) -> tok_ok (value_char q) v -> Forall (fun c => c <> q) (tok_src v).
Proof.
  intros q [raw refs] Hq [H1 H2]. unfold tok_src. cbn [t_raw t_refs] in *.
  assert (V : forall l, Forall (value_char q) l -> Forall (fun c => c <> q) l) by (intros l Hl; eapply Forall_impl; [|exact Hl]; intros c [_ Hc]; exact Hc).
  apply Forall_app. split; [apply V; exact H1|]. induction H2 as [|[a w] refs [Ha Hw] H2 IH]; cbn [flat_map fst snd]; [constructor|].
  apply Forall_app. split; [|exact IH]. apply Forall_app. cbn [fst snd] in *. split; [eapply amp_no_quote; eauto|apply V; exact Hw].
Qed.

Lemma name_src : forall l, tok_src (name l) = l.
Proof. intros l. unfold tok_src. cbn [name t_raw t_refs flat_map]. apply app_nil_r. Qed.
Lemma kind_name : forall k, is_encoding (attr_name k) = match k with HEncoding => true | _ => false end.
Proof. intros []; reflexivity. Qed.
Lemma attrs_written : forall l, Forall attr_ok l -> Forall std_attr l -> exists hl, Forall ha_ok hl /\ flat_map ha_src hl = attrs_src l /\
  (forall e, enc_of e hl = fold_left (fun e a => if is_encoding (tok_src (a_name a)) then match a_val a with Quoted _ v | Bare v => tok_src v end else e) l e) /\
  (forall a hl', hl = a :: hl' -> exists c w, ha_pre a = c :: w /\ HdrSpec.h_ws c).
Proof.
  induction l as [|a l IH]; intros Ho Hs; [exists []; repeat split; try constructor; discriminate|].
  inversion Ho as [|? ? Ho1 Ho2]; subst. inversion Hs as [|? ? Hs1 Hs2]; subst. destruct (IH Ho2 Hs2) as (hl & A1 & A2 & A3 & _).
  destruct Hs1 as (k & q & v & En & Ev). destruct Ho1 as (W0 & W1 & Hn & W2 & W3 & Hv). rewrite Ev in Hv. destruct Hv as [Hq Hv].
  exists (mkHa (a_ws a) k (a_ws1 a) (a_ws2 a) q (tok_src v) :: hl). split; [constructor; [|exact A1]|split; [|split]].
  - unfold ha_ok. cbn. split; [apply white_ws; exact W1|]. split; [apply white_ws; exact W2|]. split; [apply white_ws; exact W3|]. split; [exact Hq|apply value_no_quote; assumption].
  - cbn [flat_map attrs_src]. fold (attrs_src l). rewrite A2. f_equal. unfold ha_src, attr_src. cbn. rewrite En, Ev, name_src. cbn [aval_src]. reflexivity.
  - intros e. cbn [enc_of fold_left ha_kind ha_val]. rewrite A3, En, name_src, kind_name, Ev. destruct k; reflexivity.
  - intros a0 hl' E. injection E as <- _. cbn [ha_pre]. apply white_ws in W1. destruct (a_ws a) as [|c w]; [congruence|]. inversion W1; subst. exists c, w. auto.
Qed.

Lemma header_start : forall d h, doc_ok d -> d_header d = Some h -> Forall std_attr (h_attrs h) ->
  xml_start (header_part d h) (nonempty (enc_source (h_attrs h))).
Proof.
  intros d h (Hw & _ & Hh) E Hs. rewrite E in Hh. destruct Hh as (Ha & H1 & H2). unfold header_part.
  destruct (attrs_written _ Ha Hs) as (hl & A1 & A2 & A3 & A4). unfold enc_source. rewrite <- A3, <- A2. apply white_ws in Hw, H1.
  destruct hl as [|[pre k w1 w2 q v] hl].
  - cbn [flat_map enc_of nonempty app]. destruct (DocSpec.h_ws h) as [|c w]; [apply (start_empty _ []); [exact Hw|constructor]|].
    inversion H1; subst. exact (start_hdr (d_ws d) [] c [] w Hw (Forall_nil _) ltac:(assumption) (Forall_nil _) ltac:(assumption)).
  - destruct (A4 _ _ eq_refl) as (c & w & Ep & Hc). cbn [ha_pre] in Ep. subst pre.
    inversion A1 as [|? ? B1 B2]; subst. 
    pose proof (start_hdr (d_ws d) [] c (mkHa w k w1 w2 q v :: hl) (DocSpec.h_ws h) Hw (Forall_nil _) Hc) as X.
    cbn [enc_of ha_kind ha_val] in X |- *. 
    replace (d_ws d ++ str "<?xml" ++ flat_map ha_src (mkHa (c :: w) k w1 w2 q v :: hl) ++ DocSpec.h_ws h ++ [63])
       with (d_ws d ++ 60 :: [] ++ str "?xml" ++ c :: flat_map ha_src (mkHa w k w1 w2 q v :: hl) ++ DocSpec.h_ws h ++ [63]) by (cbn [flat_map ha_src ha_pre]; reflexivity).
    apply X; [|exact H1]. constructor; [|exact B2]. destruct B1 as (B1 & B3). split; [inversion B1; assumption|exact B3].
Qed.

(** ** C63: the header parser, with the bytes of the document in any chunks, finds the encoding as it is written in the header. *)
Theorem C63_encoding : forall incs d h chunks, cs_constructible incs = true -> doc_ok d -> d_header d = Some h -> Forall std_attr (h_attrs h) ->
  Forall (fun c => 0 < c < 128) (header_part d h) -> Forall (representable incs) (doc_src d) ->
  concat chunks = flat_map (cs_print incs) (doc_src d) ->
  h_view (h_feed chunks h_new) = Some (Some true, nonempty (enc_source (h_attrs h)), None, visible (header_part d h)).
Proof.
  intros incs d h chunks Hcs Hd Eh Hs Ha Hr E. pose proof (header_start d h Hd Eh Hs) as X.
  assert (Es : exists rest, doc_src d = header_part d h ++ rest).
  { unfold doc_src, header_part, header_src. rewrite Eh. eexists. rewrite <- !app_assoc. reflexivity. }
  destruct Es as [rest Es]. rewrite Es, flat_map_app in E. rewrite Es in Hr. apply Forall_app in Hr. destruct Hr as [Hr _].
  assert (N0 : Forall (fun c => c <> 0) (header_part d h)) by (eapply Forall_impl; [|exact Ha]; cbn beta; intros c Hc; lia).
  assert (P : flat_map (cs_print incs) (header_part d h) = flat_map (spec_encode incs) (header_part d h)).
  { clear -Hr Hcs. induction Hr as [|c l Hc Hr IH]; [reflexivity|]. cbn [flat_map]. rewrite IH, print_spec by assumption. reflexivity. }
  rewrite P in E. eapply accepted_longer; [|exact E].
  rewrite C31_charsets by exact Ha.
  apply (C32_exact (header_part d h)).
  - cbn [concat]. rewrite app_nil_r. clear -N0. induction N0 as [|c l Hc N0 IH]; [exact (padded_nil 0 ltac:(lia))|]. exact (padded_cons 0 c l l ltac:(lia) Hc IH).
  - exists (header_part d h), []. rewrite app_nil_r. auto.
Qed.
Print Assumptions C63_encoding.

(** ** The scanner delivers the same encoding, if the value has no references and no carriage returns. *)
Definition plain_value (a : attr) : Prop := match a_val a with Quoted _ v | Bare v => t_refs v = [] /\ ~ In 13 (t_raw v) end.
Lemma eol_plain : forall l, ~ In 13 l -> eol l = l.
Proof. induction l as [|c l IH]; intros H; [reflexivity|]. cbn [eol]. destruct (N.eqb_spec c 13) as [->|]; [exfalso; apply H; left; reflexivity|]. rewrite IH; [reflexivity|]. intro X. apply H. right. exact X. Qed.
Lemma plain_chars : forall v, t_refs v = [] -> ~ In 13 (t_raw v) -> tok_chars v = tok_src v.
Proof. intros v H1 H2. unfold tok_chars, tok_src. rewrite H1. cbn [flat_map]. rewrite !app_nil_r. apply eol_plain. exact H2. Qed.
Lemma attrs_value : forall l e rest, Forall std_attr l -> Forall plain_value l ->
  enc_element e (attrs_elements EHeaderAttribName EHeaderAttribValue l ++ rest) =
  enc_element (fold_left (fun e a => if is_encoding (tok_src (a_name a)) then match a_val a with Quoted _ v | Bare v => tok_src v end else e) l e) rest.
Proof.
  induction l as [|a l IH]; intros e rest Hs Hp; [reflexivity|]. inversion Hs as [|? ? Hs1 Hs2]; subst. inversion Hp as [|? ? Hp1 Hp2]; subst.
  destruct Hs1 as (k & q & v & En & Ev). unfold plain_value in Hp1. rewrite Ev in Hp1. destruct Hp1 as [P1 P2].
  cbn [attrs_elements flat_map app fold_left]. fold (attrs_elements EHeaderAttribName EHeaderAttribValue l). cbn [enc_element].
  rewrite IH by assumption. rewrite En, Ev. cbn [aval_chars]. rewrite (plain_chars v) by assumption. rewrite name_src.
  replace (tok_chars (name (attr_name k))) with (attr_name k) by (destruct k; reflexivity). reflexivity.
Qed.
Definition hdr_name (t : etype) : bool := match t with EHeaderAttribName => true | _ => false end.
Lemma enc_none : forall els e, forallb (fun p => negb (hdr_name (fst p))) els = true -> enc_element e els = e.
Proof. induction els as [|[t n] els IH]; intros e H; [reflexivity|]. cbn [forallb fst] in H. apply andb_prop in H. destruct H as [H1 H2]. destruct t; try discriminate H1; cbn [enc_element]; apply IH; exact H2. Qed.
Lemma items_none : forall l seek, forallb (fun p => negb (hdr_name (fst p))) (items_elements seek l) = true.
Proof.
  assert (A : forall l, forallb (fun p : etype * list N => negb (hdr_name (fst p))) (attrs_elements ETagAttribName ETagAttribValue l) = true) by (induction l as [|a l IH]; [reflexivity|exact IH]).
  induction l as [|i l IH]; intros seek; [reflexivity|]. cbn [items_elements]. rewrite forallb_app, IH, Bool.andb_true_r. destruct i as [t|n at_ ws|n at_ ws ws2|n ws|c|c|c|n parts ws]; try reflexivity; cbn [item_elements].
  - destruct (tok_src _); reflexivity.
  - cbn [forallb]. apply A.
  - cbn [forallb]. rewrite forallb_app, A. clear. induction (S (length ws2)) as [|k IH]; [reflexivity|exact IH].
  - cbn [forallb]. apply andb_true_intro. split; [reflexivity|]. rewrite forallb_app. apply andb_true_intro. split; [|reflexivity]. clear. induction parts as [|[w p] parts IH]; [reflexivity|]. cbn [flat_map]. rewrite forallb_app. apply andb_true_intro. split; [destruct p; reflexivity|exact IH].
Qed.
Lemma encoding_element : forall d h, d_header d = Some h -> Forall std_attr (h_attrs h) -> Forall plain_value (h_attrs h) ->
  enc_element [] (doc_elements d) = enc_source (h_attrs h).
Proof.
  intros d h E Hs Hp. unfold doc_elements, doc_body. rewrite E. unfold header_elements. cbn [app enc_element]. rewrite <- !app_assoc. rewrite attrs_value by assumption.
  cbn [app enc_element]. apply enc_none. rewrite forallb_app, items_none. reflexivity.
Qed.

Theorem C63_agree_partial : forall incs outcs d h chunks, cs_constructible incs = true -> doc_ok d -> d_header d = Some h ->
  Forall std_attr (h_attrs h) -> Forall plain_value (h_attrs h) -> Forall (fun c => 0 < c < 128) (header_part d h) -> Forall (representable incs) (doc_src d) ->
  concat chunks = flat_map (cs_print incs) (doc_src d) ->
  exists els n, h_view (h_feed chunks h_new) = Some (Some true, nonempty (enc_element [] els), None, n) /\ scans_to incs outcs (doc_src d) els.
Proof.
  intros incs outcs d h chunks Hcs Hd Eh Hs Hp Ha Hr E. exists (doc_elements d), (visible (header_part d h)). split.
  - rewrite (encoding_element d h Eh Hs Hp). apply (C63_encoding incs); assumption.
  - apply C46_documents; assumption.
Qed.
Print Assumptions C63_agree_partial.
(** <?xml version='1.0' encoding = "x"?><a/> in UTF-16, in two chunks *)
Definition hdr_doc : doc :=
  mkDoc [] (Some (mkHeader [mkAttr [32] (name (str "version")) [] [] (Quoted 39 (name (str "1.0"))); mkAttr [32] (name (str "encoding")) [32] [32] (Quoted 34 (name (str "x")))] [] [])) [IEmpty (name (str "a")) [] [] []].
Example C63_case : doc_ok hdr_doc /\ (exists h, d_header hdr_doc = Some h /\ Forall std_attr (h_attrs h) /\ Forall plain_value (h_attrs h) /\ Forall (fun c => 0 < c < 128) (header_part hdr_doc h) /\
    nonempty (enc_source (h_attrs h)) = Some (str "x")) /\ Forall (representable (UTF16 false)) (doc_src hdr_doc) /\
  doc_src hdr_doc = str "<?xml version='1.0' encoding = ""x""?><a/>" /\
  h_view (h_feed [firstn 21 (flat_map (cs_print (UTF16 false)) (doc_src hdr_doc)); skipn 21 (flat_map (cs_print (UTF16 false)) (doc_src hdr_doc))] h_new) = Some (Some true, Some (str "x"), None, 31%nat).
Proof.
  assert (R : Forall (fun c => 0 < c < 128) (doc_src hdr_doc)).
  { assert (X : forallb (fun c => (0 <? c) && (c <? 128)) (doc_src hdr_doc) = true) by (vm_compute; reflexivity). rewrite forallb_forall in X. apply Forall_forall. intros c Hc. specialize (X c Hc). lia. }
  split; [apply docb_ok; vm_compute; reflexivity|]. split; [|split; [eapply Forall_impl; [|exact R]; cbn beta; intros c Hc; cbn [representable]; lia|split; [vm_compute; reflexivity|vm_compute; reflexivity]]].
  eexists. split; [reflexivity|]. split; [|split; [|split; [|vm_compute; reflexivity]]].
  - constructor; [exists HVersion; do 2 eexists; split; reflexivity|constructor; [exists HEncoding; do 2 eexists; split; reflexivity|constructor]].
  - constructor; [split; [reflexivity|cbn; lia]|constructor; [split; [reflexivity|cbn; lia]|constructor]].
  - apply Forall_forall. intros c Hc. revert c Hc. match goal with |- forall c, In c ?l -> _ => assert (X : forallb (fun c => (0 <? c) && (c <? 128)) l = true) by (vm_compute; reflexivity) end.
    rewrite forallb_forall in X. intros c Hc. specialize (X c Hc). lia.
Qed.
(** a reference in the value; a value without quotes and an attribute of another name are delivered by the scanner, but refused by the header parser *)
Definition one_attr (n : list N) (v : aval) : header := mkHeader [mkAttr [32] (name n) [] [] v] [] [].
Definition with_header (h : header) : doc := mkDoc [] (Some h) [IEmpty (name (str "a")) [] [] []].
Theorem C63_refuted :
  (exists h e n, doc_ok (with_header h) /\ Forall std_attr (h_attrs h) /\ h_view (h_feed [doc_src (with_header h)] h_new) = Some (Some true, Some e, None, n) /\
     enc_element [] (doc_elements (with_header h)) <> e) /\
  (exists h err n, doc_ok (with_header h) /\ doc_src (with_header h) = str "<?xml encoding=x?><a/>" /\ enc_element [] (doc_elements (with_header h)) = str "x" /\
     h_view (h_feed [doc_src (with_header h)] h_new) = Some (Some false, None, Some err, n)) /\
  (exists h err n, doc_ok (with_header h) /\ doc_src (with_header h) = str "<?xml a='b'?><a/>" /\
     h_view (h_feed [doc_src (with_header h)] h_new) = Some (Some false, None, Some err, n)).
Proof.
  split; [|split].
  - exists (one_attr (str "encoding") (Quoted 39 (mkToken [] [(Ref (RDec (str "65")), [])]))), (str "&#65;"). eexists. split; [apply docb_ok; vm_compute; reflexivity|].
    split; [constructor; [exists HEncoding; do 2 eexists; split; reflexivity|constructor]|]. split; [vm_compute; reflexivity|]. vm_compute. discriminate.
  - exists (one_attr (str "encoding") (Bare (name (str "x")))). do 2 eexists. split; [apply docb_ok; vm_compute; reflexivity|]. split; [reflexivity|]. split; vm_compute; reflexivity.
  - exists (one_attr (str "a") (Quoted 39 (name (str "b")))). do 2 eexists. split; [apply docb_ok; vm_compute; reflexivity|]. split; [reflexivity|]. vm_compute. reflexivity.
Qed.
Print Assumptions C63_refuted.
