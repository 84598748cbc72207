(** Printed documents are documents (proofs). *)
From Verif Require Import Base Iter CharMap CodePages Charset TextScanner Ideal ReaderSim ScannerSim IterSim
  CharsetSpec CharsetProofs ReadSpec ReadProofs CharsetMore CstrSim XmlPrinter XmlScanner DocSpec PrintSpec PrintProofs PrintChars.
Ltac Zify.zify_post_hook ::= Z.div_mod_to_equations.

Section Doc.
Context (ocs acs : charset).
Hypothesis Hocs : cs_constructible ocs = true.
Hypothesis Hacs : cs_constructible acs = true.
Let E : list N -> list N := flat_map (spec_encode (default_cs acs)).
Let good (c : N) : Prop := representable (default_cs acs) c /\ c <> 0 /\ c < 2 ^ 32 /\ printable ocs c.

Lemma good_range : forall l, Forall good l -> Forall (in_range ocs) l.
Proof. intros l H. eapply Forall_impl; [|exact H]. intros c [_ [H1 [H2 H3]]]. split; [lia|exact H3]. Qed.
Lemma E_print : forall l, Forall good l -> E l = flat_map (cs_print (default_cs acs)) l.
Proof.
  intros l H. symmetry. eapply flat_map_ext_Forall; [exact H|]. intros c [Hr _]. apply print_spec; [apply default_constructible; exact Hacs|exact Hr].
Qed.
Lemma dec_E : forall l, Forall good l -> dec_text acs (E l) = l.
Proof.
  intros l H. rewrite (E_print l H). unfold dec_text. apply text_chars_print; [apply default_constructible; exact Hacs| |];
  (eapply Forall_impl; [|exact H]); intros c Hc; unfold good in Hc; tauto.
Qed.
Lemma E_nil : forall l, Forall good l -> l <> [] -> E l <> [].
Proof. intros l H Hn He. apply Hn. rewrite <- (dec_E l H), He. reflexivity. Qed.

(** null characters *)
Lemma spec_nonzero : forall cs c, ascii_based cs -> representable (default_cs cs) c -> c <> 0 -> Forall (fun b => b <> 0) (spec_encode (default_cs cs) c).
Proof.
  intros cs c Ha Hr Hz. destruct cs as [|be|be|be|p]; try destruct Ha; cbn [default_cs spec_encode representable] in *.
  - unfold spec_utf8. repeat match goal with |- context [if ?b then _ else _] => destruct b eqn:?F end; repeat (constructor; [lia|]); constructor.
  - destruct (N.ltb_spec c 128); [constructor; [exact Hz|constructor]|]. destruct Hr as [Hr|[Hr [b [Hb _]]]]; [lia|]. rewrite Hb. constructor; [|constructor].
    assert (Hs : forallb (fun c => match iso8859_byte 1 c with Some b => negb (b =? 0) || (c =? 0) | None => true end) bytes256 = true) by (vm_compute; reflexivity).
    pose proof (sweep256 _ Hs c ltac:(lia)) as G. cbn beta in G. rewrite Hb in G. lia.
Qed.
Lemma c_str_id : forall l, Forall (fun b => b <> 0) l -> c_str l = l.
Proof. intros l H. induction H as [|b l Hb H IH]; [reflexivity|]. cbn [c_str]. destruct (N.eqb_spec b 0); [congruence|]. rewrite IH. reflexivity. Qed.
Lemma c_str_E : forall l, ascii_based acs -> Forall good l -> c_str (E l) = E l.
Proof.
  intros l Ha H. apply c_str_id. unfold E. induction H as [|c l Hc H IH]; [constructor|]. cbn [flat_map]. apply Forall_app. split; [|exact IH].
  destruct Hc as [H1 [H2 _]]. apply spec_nonzero; assumption.
Qed.
Lemma dec_lit : forall s t, ascii_based acs -> dec_text UTF8 s = t -> dec_text (IsoLatin 1) s = t -> dec_text acs s = t.
Proof. intros s t Ha H1 H2. destruct acs; try destruct Ha; assumption. Qed.

(** what is printed but not yet an item *)
Inductive cur := COut (acc : list N) | CStart (n : list N) (attrs : list (list N * list N)) | CAttr (n : list N) (attrs : list (list N * list N)) (a : list N).
Definition tname (n : list N) : token := tok_of (raw_ref ocs) n.
Definition tattr (p : list N * list N) : attr := mkAttr [32] (tname (fst p)) [] [] (Quoted 34 (tok_of (attr_ref ocs) (snd p))).
Definition tattrs (l : list (list N * list N)) : list attr := map tattr l.
Definition cur_src (c : cur) : list N :=
  match c with
  | COut acc => tok_src (tok_of (content_ref ocs) acc)
  | CStart n attrs => [60] ++ tok_src (tname n) ++ attrs_src (tattrs attrs)
  | CAttr n attrs a => [60] ++ tok_src (tname n) ++ attrs_src (tattrs attrs) ++ [32] ++ tok_src (tname a) ++ [61]
  end.
Definition cur_elements (c : cur) : list (etype * list N) :=
  let els l := flat_map (fun p : list N * list N => [(ETagAttribName, fst p); (ETagAttribValue, snd p)]) l in
  match c with
  | COut _ => []
  | CStart n attrs => (EOpenTag, n) :: els attrs
  | CAttr n attrs a => (EOpenTag, n) :: els attrs ++ [(ETagAttribName, a)]
  end.
Definition cur_place (c : cur) : place := match c with COut _ => InContent | CStart _ _ => InStartTag | CAttr _ _ _ => InAttribute end.
Definition cur_state (c : cur) : pstate := match c with COut _ => PContent | CStart _ _ => PTagElement | CAttr _ _ _ => PTagAttribute end.
Definition cur_text (c : cur) : list N := match c with COut acc => acc | _ => [] end.
Definition gname (n : list N) : Prop := Forall good n /\ xml_name n.
Definition gval (v : list N) : Prop := Forall (in_range ocs) v.
Definition cur_ok (c : cur) : Prop :=
  match c with
  | COut acc => gval acc
  | CStart n attrs => gname n /\ Forall (fun p => gname (fst p) /\ gval (snd p)) attrs
  | CAttr n attrs a => gname n /\ Forall (fun p => gname (fst p) /\ gval (snd p)) attrs /\ gname a
  end.

Lemma range_right : forall f (P : N -> Prop) l, refs_right ocs f -> Forall (in_range ocs) l -> Forall (fun c => f c = None -> P c) l ->
  tok_ok P (tok_of f l) /\ Forall (representable ocs) (tok_src (tok_of f l)) /\ (Forall (fun c => f c = None -> c <> 13) l -> tok_chars (tok_of f l) = l).
Proof.
  intros f P l Hf Hl HP. split; [|split].
  - apply tok_of_ok. apply Forall_forall. intros c Hc. rewrite Forall_forall in Hl, HP. specialize (Hl c Hc). specialize (HP c Hc). specialize (Hf c Hl).
    destruct (f c); [tauto|apply HP; reflexivity].
  - rewrite tok_of_src. apply pieces_repr; assumption.
  - intros H13. apply tok_of_chars. apply Forall_forall. intros c Hc. rewrite Forall_forall in Hl, H13. specialize (Hl c Hc). specialize (H13 c Hc). specialize (Hf c Hl).
    destruct (f c); [tauto|apply H13; reflexivity].
Qed.
Lemma range_eol : forall f l, refs_right ocs f -> f 10 = None -> f 13 = None -> Forall (in_range ocs) l -> tok_chars (tok_of f l) = eol l.
Proof.
  intros f l Hf H10 H13 Hl. apply tok_of_eol; [exact H10|exact H13|]. eapply Forall_impl; [|exact Hl]. intros c Hc. specialize (Hf c Hc). destruct (f c); [tauto|exact I].
Qed.
Lemma raw_asc : forall c, 0 < c < 128 -> raw_ref ocs c = None.
Proof. intros c Hc. unfold raw_ref. assert (Hr : reprb ocs c = true) by (apply reprb_spec, ascii_repr; exact Hc). rewrite Hr. reflexivity. Qed.
Lemma piece_nonempty : forall f c, piece f c <> [].
Proof. intros f c. unfold piece. destruct (f c) as [[]|]; discriminate. Qed.
Lemma tok_nonempty : forall f l, l <> [] -> tok_src (tok_of f l) <> [].
Proof.
  intros f l Hl. rewrite tok_of_src. destruct l as [|c l]; [congruence|]. cbn [flat_map]. intros H. apply app_eq_nil in H. destruct H as [H _].
  exact (piece_nonempty f c H).
Qed.
Lemma name_not13 : forall c, name_char c -> c <> 13.
Proof. intros c H. unfold name_char in H. lia. Qed.

Lemma gname_tok : forall n, gname n -> name_ok (tname n) /\ Forall (representable ocs) (tok_src (tname n)) /\ tok_chars (tname n) = n /\
  enc ocs n = enc ocs (tok_src (tname n)).
Proof.
  intros n [H1 [H2 H3]]. pose proof (good_range n H1) as Hr. unfold tname.
  destruct (range_right (raw_ref ocs) name_char n (raw_right ocs) Hr) as [G1 [G2 G3]]; [eapply Forall_impl; [|exact H3]; auto|].
  split; [split; [exact G1|apply tok_nonempty; exact H2]|]. split; [exact G2|]. split.
  - apply G3. eapply Forall_impl; [|exact H3]. intros c Hc _. apply name_not13. exact Hc.
  - rewrite tok_of_src. apply raw_pieces; assumption.
Qed.
Lemma gval_tok : forall v, gval v -> tok_ok (value_char 34) (tok_of (attr_ref ocs) v) /\ Forall (representable ocs) (tok_src (tok_of (attr_ref ocs) v)) /\
  tok_chars (tok_of (attr_ref ocs) v) = v /\ enc ocs (flat_map (esc_of attr_escapes) v) = enc ocs (tok_src (tok_of (attr_ref ocs) v)).
Proof.
  intros v Hv. assert (Hnone : forall c, 0 < c -> attr_ref ocs c = None -> value_char 34 c /\ c <> 13).
  { intros c Hc. unfold attr_ref, value_char, text_char.
    repeat (match goal with |- context [N.eqb c ?k] => destruct (N.eqb_spec c k); [discriminate|] end). intros _. lia. }
  assert (H0 : Forall (fun c => 0 < c) v) by (eapply Forall_impl; [|exact Hv]; intros c [Hc _]; lia).
  destruct (range_right (attr_ref ocs) (value_char 34) v (attr_right ocs) Hv) as [G1 [G2 G3]]; [eapply Forall_impl; [|exact H0]; intros c Hc Hn; apply Hnone; assumption|].
  split; [exact G1|]. split; [exact G2|]. split.
  - apply G3. eapply Forall_impl; [|exact H0]. intros c Hc Hn. apply Hnone; assumption.
  - rewrite tok_of_src. apply enc_pieces; [intros c Hc; apply attr_piece; assumption|exact Hv].
Qed.
Lemma gtext_tok : forall v, gval v ->
  tok_ok text_char (tok_of (content_ref ocs) v) /\ Forall (representable ocs) (tok_src (tok_of (content_ref ocs) v)) /\ tok_chars (tok_of (content_ref ocs) v) = eol v.
Proof.
  intros v Hv. assert (H0 : Forall (fun c => 0 < c) v) by (eapply Forall_impl; [|exact Hv]; intros c [Hc _]; lia).
  destruct (range_right (content_ref ocs) text_char v (content_right ocs) Hv) as [G1 [G2 _]].
  { eapply Forall_impl; [|exact H0]. intros c Hc. cbn beta in Hc. unfold content_ref, text_char.
    repeat (match goal with |- context [N.eqb c ?k] => destruct (N.eqb_spec c k); [discriminate|] end). intros _. lia. }
  split; [exact G1|]. split; [exact G2|]. apply range_eol; [apply content_right|apply raw_asc; lia|apply raw_asc; lia|exact Hv].
Qed.
Lemma enc_content : forall v, gval v -> enc ocs (flat_map (esc_of content_escapes) v) = enc ocs (tok_src (tok_of (content_ref ocs) v)).
Proof. intros v Hv. rewrite tok_of_src. apply enc_pieces; [intros c Hc; apply content_piece; assumption|exact Hv]. Qed.
Lemma tok_src_app : forall f a b, tok_src (tok_of f (a ++ b)) = tok_src (tok_of f a) ++ tok_src (tok_of f b).
Proof. intros f a b. rewrite !tok_of_src. apply flat_map_app. Qed.

Lemma drop_blank_raw : forall v, gval v -> drop_raw (content_ref ocs) v = drop_blank v.
Proof.
  intros v Hv. induction Hv as [|c v Hc Hv IH]; [reflexivity|]. cbn [drop_raw drop_blank]. destruct Hc as [Hc _].
  destruct (blank c) eqn:Eb; cbn [andb]; [|destruct (content_ref ocs c); reflexivity].
  assert (Hb : 0 < c <= 32) by (unfold blank in Eb; lia). destruct (N.eqb_spec c 8) as [->|H8]; cbn [negb]; [reflexivity|].
  unfold content_ref, raw_ref. destruct (N.eqb_spec c 60); [lia|]. destruct (N.eqb_spec c 62); [lia|]. destruct (N.eqb_spec c 38); [lia|]. destruct (N.eqb_spec c 8); [lia|].
  assert (Hr : reprb ocs c = true) by (apply reprb_spec, ascii_repr; lia). rewrite Hr. exact IH.
Qed.
Lemma drop_blank_Forall : forall (P : N -> Prop) v, Forall P v -> Forall P (drop_blank v).
Proof. intros P v H. induction H as [|c v Hc H IH]; [constructor|]. cbn [drop_blank]. destruct (blank c && negb (c =? 8)); [exact IH|constructor; assumption]. Qed.

(** the items of the content *)
Definition flush (acc : list N) : list item := match acc with [] => [] | _ => [IText (tok_of (content_ref ocs) acc)] end.
Lemma flush_src : forall acc, items_src (flush acc) = tok_src (tok_of (content_ref ocs) acc).
Proof. intros [|c acc]; [reflexivity|]. cbn [flush items_src flat_map item_src]. apply app_nil_r. Qed.
Lemma flush_ok : forall acc, cur_ok (COut acc) -> Forall item_ok (flush acc).
Proof.
  intros acc H1. destruct acc as [|c acc]; [constructor|].
  cbn [flush]. constructor; [|constructor]. cbn [item_ok]. split; [apply gtext_tok; assumption|apply tok_nonempty; discriminate].
Qed.
Lemma flush_elements : forall acc seek, cur_ok (COut acc) ->
  items_elements seek (flush acc) = content seek acc.
Proof.
  intros acc seek H1. unfold flush, content. destruct acc as [|c acc]; [destruct seek; reflexivity|]. set (v := c :: acc) in *.
  cbn [items_elements item_elements]. rewrite app_nil_r. destruct seek.
  - rewrite tok_of_strip, (drop_blank_raw v H1). pose proof (drop_blank_Forall _ v H1) as G1.
    destruct (drop_blank v) as [|d w]; [reflexivity|]. destruct (gtext_tok _ G1) as [_ [_ ->]].
    destruct (tok_src (tok_of (content_ref ocs) (d :: w))) eqn:Et; [exfalso; eapply tok_nonempty; [|exact Et]; discriminate|reflexivity].
  - destruct (gtext_tok v H1) as [_ [_ ->]]. destruct (tok_src (tok_of (content_ref ocs) v)) eqn:Et; [exfalso; eapply tok_nonempty; [|exact Et]; discriminate|reflexivity].
Qed.
Lemma items_elements_app : forall l1 l2 seek, items_elements seek (l1 ++ l2) = items_elements seek l1 ++ items_elements (fold_left item_seek l1 seek) l2.
Proof. induction l1 as [|i l1 IH]; intros l2 seek; [reflexivity|]. cbn [app items_elements fold_left]. rewrite IH, app_assoc. reflexivity. Qed.

Definition not_text (l : list item) : Prop := match l with IText _ :: _ => False | _ => True end.
Lemma no_split_cons : forall i l, no_split l -> (is_text i = false \/ not_text l) -> no_split (i :: l).
Proof.
  intros i l H1 H2. cbn [no_split]. destruct l as [|j l]; [exact I|]. split; [|exact H1]. intros [Hi Hj]. destruct H2 as [H2|H2]; [congruence|].
  destruct j; cbn in *; congruence || tauto.
Qed.
Lemma no_split_flush : forall acc l, no_split l -> not_text l -> no_split (flush acc ++ l).
Proof. intros [|c acc] l H1 H2; [exact H1|]. cbn [flush app]. apply no_split_cons; auto. Qed.

Lemma attrs_ok : forall l, Forall (fun p => gname (fst p) /\ gval (snd p)) l ->
  Forall attr_ok (tattrs l) /\ Forall (representable ocs) (attrs_src (tattrs l)) /\
  attrs_elements ETagAttribName ETagAttribValue (tattrs l) = flat_map (fun p : list N * list N => [(ETagAttribName, fst p); (ETagAttribValue, snd p)]) l.
Proof.
  intros l H. induction H as [|[n v] l [Hn Hv] H [IH1 [IH2 IH3]]]; [repeat split; constructor|]. cbn [fst snd] in *.
  destruct (gname_tok n Hn) as [N1 [N2 [N3 _]]]. destruct (gval_tok v Hv) as [V1 [V2 [V3 _]]].
  assert (Ha : forall c, 0 < c < 128 -> representable ocs c) by (intros c; apply ascii_repr).
  split; [|split].
  - cbn [tattrs map]. constructor; [|exact IH1]. unfold attr_ok, tattr. cbn [a_ws a_name a_ws1 a_ws2 a_val fst snd aval_ok].
    split; [discriminate|]. split; [constructor; [left; reflexivity|constructor]|]. split; [exact N1|]. split; [constructor|]. split; [constructor|]. split; [left; reflexivity|exact V1].
  - cbn [tattrs map attrs_src flat_map]. apply Forall_app. split; [|exact IH2]. unfold attr_src, tattr. cbn [a_ws a_name a_ws1 a_ws2 a_val fst snd aval_src app].
    constructor; [apply Ha; lia|]. apply Forall_app. split; [exact N2|]. constructor; [apply Ha; lia|]. constructor; [apply Ha; lia|].
    apply Forall_app. split; [exact V2|]. constructor; [apply Ha; lia|constructor].
  - cbn [tattrs map attrs_elements flat_map]. fold (tattrs l). unfold attrs_elements in IH3. rewrite IH3. cbn [tattr a_name a_val aval_chars fst snd]. rewrite N3, V3. reflexivity.
Qed.

Lemma a_run_cons : forall c l a, a_run acs (c :: l) a =
  (fst (a_run acs l (fst (a_do acs c a))), snd (a_do acs c a) :: snd (a_run acs l (fst (a_do acs c a)))).
Proof. intros c l a. cbn [a_run]. destruct (a_do acs c a) as [a1 r]. cbn [fst snd]. destruct (a_run acs l a1). reflexivity. Qed.

Definition all_ok (rs : list (bool * list N)) : Prop := Forall (fun r => fst r = true) rs.

Lemma asc : forall c, 0 < c < 128 -> representable ocs c.
Proof. intros c. apply ascii_repr. Qed.
Lemma lit_repr : forall s, forallb (fun c => (0 <? c) && (c <? 128)) s = true -> Forall (representable ocs) s.
Proof. intros s H. apply Forall_forall. intros c Hc. rewrite forallb_forall in H. specialize (H c Hc). apply asc. lia. Qed.
Ltac reps := repeat first [assumption|apply Forall_nil|apply lit_repr; reflexivity|rewrite Forall_app; split|apply Forall_cons; [apply asc; lia|]].

Lemma attrs_src_snoc : forall l n v, attrs_src (tattrs (l ++ [(n, v)])) = attrs_src (tattrs l) ++ [32] ++ tok_src (tname n) ++ [61; 34] ++ tok_src (tok_of (attr_ref ocs) v) ++ [34].
Proof.
  intros l n v. unfold tattrs, attrs_src. rewrite map_app, flat_map_app. cbn [map flat_map]. rewrite app_nil_r. unfold attr_src, tattr. cbn [a_ws a_name a_ws1 a_ws2 a_val fst snd aval_src app].
  reflexivity.
Qed.

Definition nl (tags : list (list N)) : list N := match tags with [] => [10] | _ => [] end.
Lemma nl_range : in_range ocs 10.
Proof.
  split; [change (2 ^ 32) with 4294967296; lia|]. destruct ocs as [|be|be|be|p]; cbn [printable]; auto; [change (2 ^ 31) with 2147483648; lia|].
  destruct p as [|[[]|[]|]]; auto. left. lia.
Qed.
Lemma nl_ok : forall tags, cur_ok (COut (nl tags)).
Proof.
  intros tags. pose proof nl_range as Hr. destruct tags; cbn [nl cur_ok]; unfold gval; first [apply Forall_nil|apply Forall_cons; [exact Hr|apply Forall_nil]].
Qed.

(** the document type *)
Definition dstr (v : list N) : list N * dpart := ([32], DStr 34 (tok_of (raw_ref ocs) v)).
Definition did (v : list N) : list N * dpart := ([32], DId (tname v)).
Definition doctype_item (r : list N) (pu sy : option (list N)) : item :=
  IDoctype (name (str "DOCTYPE"))
    (did r :: match pu, sy with
              | Some pu, Some sy => [([32], DId (name (str "PUBLIC"))); dstr pu; dstr sy]
              | _, Some sy => [([32], DId (name (str "SYSTEM"))); dstr sy]
              | _, None => []
              end) [].
Definition doctype_text (r : list N) (pu sy : option (list N)) : list N :=
  str "<!DOCTYPE " ++ r ++ match pu, sy with
              | Some pu, Some sy => str " PUBLIC """ ++ pu ++ str """ """ ++ sy ++ str """"
              | _, Some sy => str " SYSTEM """ ++ sy ++ str """"
              | _, None => []
              end ++ str ">".
Lemma doctype_dec : forall r pu sy, ascii_based acs -> Forall good r -> (forall v, pu = Some v -> Forall good v) -> (forall v, sy = Some v -> Forall good v) ->
  (pu <> None -> sy <> None) ->
  flat_map (dec_text acs) (doctype_texts (E r) (omap_text E pu) (omap_text E sy)) = doctype_text r pu sy.
Proof.
  intros r pu sy Ha Hr Hpu Hsy Hok. unfold doctype_texts, doctype_text.
  destruct pu as [pu|], sy as [sy|]; cbn [omap_text]; [|exfalso; apply Hok; [discriminate|reflexivity]| |];
    cbn [flat_map]; rewrite ?(c_str_E _ Ha) by auto; rewrite ?dec_E by auto.
  - rewrite (dec_lit (str "<!DOCTYPE ") (str "<!DOCTYPE ")) by (first [exact Ha|vm_compute; reflexivity]).
    rewrite (dec_lit (str " PUBLIC """) (str " PUBLIC """)) by (first [exact Ha|vm_compute; reflexivity]).
    rewrite (dec_lit (str """ """) (str """ """)) by (first [exact Ha|vm_compute; reflexivity]).
    rewrite (dec_lit (str """>") (str """>")) by (first [exact Ha|vm_compute; reflexivity]). rewrite <- ?app_assoc. reflexivity.
  - rewrite (dec_lit (str "<!DOCTYPE ") (str "<!DOCTYPE ")) by (first [exact Ha|vm_compute; reflexivity]).
    rewrite (dec_lit (str " SYSTEM """) (str " SYSTEM """)) by (first [exact Ha|vm_compute; reflexivity]).
    rewrite (dec_lit (str """>") (str """>")) by (first [exact Ha|vm_compute; reflexivity]). rewrite <- ?app_assoc. reflexivity.
  - rewrite (dec_lit (str "<!DOCTYPE " ++ [0]) (str "<!DOCTYPE ")) by (first [exact Ha|vm_compute; reflexivity]).
    rewrite (dec_lit (str ">" ++ [0]) (str ">")) by (first [exact Ha|vm_compute; reflexivity]). rewrite <- ?app_assoc. reflexivity.
Qed.
Lemma gid_tok : forall v, Forall good v -> quoted_id v -> tok_ok (value_char 34) (tok_of (raw_ref ocs) v) /\ Forall (representable ocs) (tok_src (tok_of (raw_ref ocs) v)) /\
  tok_chars (tok_of (raw_ref ocs) v) = eol v /\ enc ocs v = enc ocs (tok_src (tok_of (raw_ref ocs) v)).
Proof.
  intros v H1 H2. pose proof (good_range v H1) as Hr.
  destruct (range_right (raw_ref ocs) (value_char 34) v (raw_right ocs) Hr) as [G1 [G2 G3]]; [eapply Forall_impl; [|exact H2]; intros c Hc _; exact Hc|].
  split; [exact G1|]. split; [exact G2|]. split.
  - apply range_eol; [apply raw_right|apply raw_asc; lia|apply raw_asc; lia|exact Hr].
  - rewrite tok_of_src. apply raw_pieces; assumption.
Qed.
Lemma name_lit : forall s, forallb (fun c => ((65 <=? c) && (c <=? 90)) || ((97 <=? c) && (c <=? 122))) s = true -> s <> [] -> name_ok (name s) /\ tok_chars (name s) = s /\ tok_src (name s) = s /\ Forall (representable ocs) s.
Proof.
  intros s H Hn. assert (Hs : Forall (fun c => 65 <= c <= 90 \/ 97 <= c <= 122) s) by (apply Forall_forall; intros c Hc; rewrite forallb_forall in H; specialize (H c Hc); lia).
  assert (Es : tok_src (name s) = s) by (unfold tok_src; cbn [name t_raw t_refs flat_map]; apply app_nil_r).
  split; [|split; [|split; [exact Es|]]].
  - split; [|rewrite Es; exact Hn]. split; [|constructor]. cbn [name t_raw]. eapply Forall_impl; [|exact Hs]. intros c Hc. right. cbn beta in Hc. split; [lia|].
    intros Hin. vm_compute in Hin. lia.
  - unfold tok_chars. cbn [name t_raw t_refs flat_map]. rewrite app_nil_r. apply eol_id. eapply Forall_impl; [|exact Hs]. intros c Hc. cbn beta in Hc. lia.
  - eapply Forall_impl; [|exact Hs]. intros c Hc. apply asc. cbn beta in Hc. lia.
Qed.
Lemma doctype_ok : forall r pu sy, gname r -> (forall v, pu = Some v -> Forall good v) -> (forall v, sy = Some v -> Forall good v) -> oquoted pu -> oquoted sy ->
  item_ok (doctype_item r pu sy) /\ Forall (representable ocs) (item_src (doctype_item r pu sy)) /\
  enc ocs (doctype_text r pu sy) = enc ocs (item_src (doctype_item r pu sy)) /\
  forall seek, item_elements seek (doctype_item r pu sy) = doctype_delivered r pu sy.
Proof.
  intros r pu sy Hr Hpu Hsy Qpu Qsy. destruct (gname_tok r Hr) as [R1 [R2 [R3 R4]]].
  destruct (name_lit (str "DOCTYPE") eq_refl ltac:(discriminate)) as [D1 [D2 [D3 D4]]].
  destruct (name_lit (str "PUBLIC") eq_refl ltac:(discriminate)) as [P1 [P2 [P3 P4]]].
  destruct (name_lit (str "SYSTEM") eq_refl ltac:(discriminate)) as [S1 [S2 [S3 S4]]].
  assert (Hid : forall o v, o = Some v -> (forall v, o = Some v -> Forall good v) -> oquoted o -> tok_ok (value_char 34) (tok_of (raw_ref ocs) v) /\
    Forall (representable ocs) (tok_src (tok_of (raw_ref ocs) v)) /\ tok_chars (tok_of (raw_ref ocs) v) = eol v /\ enc ocs v = enc ocs (tok_src (tok_of (raw_ref ocs) v))).
  { intros o v -> H1 H2. apply gid_tok; [apply H1; reflexivity|exact H2]. }
  assert (W : [32] <> [] /\ Forall white [32]) by (split; [discriminate|constructor; [left; reflexivity|constructor]]).
  assert (Q : 34 = 34 \/ 34 = 39) by (left; reflexivity).
  unfold doctype_item, doctype_text, doctype_delivered, dstr, did.
  destruct pu as [pu|], sy as [sy|];
    try (destruct (Hid _ pu eq_refl Hpu Qpu) as [PU1 [PU2 [PU3 PU4]]]); try (destruct (Hid _ sy eq_refl Hsy Qsy) as [SY1 [SY2 [SY3 SY4]]]).
  all: split; [cbn [item_ok]; split; [exact D1|]; split; [vm_compute; discriminate|]; split; [|constructor]; repeat (constructor; [cbn [fst snd dpart_ok]; split; [apply W|]; split; [apply W|]; auto|]); constructor|].
  all: cbn [item_src item_elements flat_map fst snd dpart_src dpart_elements]; rewrite ?D2, ?D3, ?P2, ?P3, ?S2, ?S3, ?R3, ?PU3, ?SY3, ?app_nil_r.
  all: split; [reps|].
  all: split; [|intros _; reflexivity].
  - change (str "<!DOCTYPE ") with (str "<!" ++ str "DOCTYPE" ++ [32]). change (str " PUBLIC """) with ([32] ++ str "PUBLIC" ++ [32] ++ [34]). change (str """ """) with ([34] ++ [32] ++ [34]). change (str """") with [34].
    change (str ">") with [62]. change (34 :: tok_src (tok_of (raw_ref ocs) pu) ++ [34]) with ([34] ++ tok_src (tok_of (raw_ref ocs) pu) ++ [34]).
    change (34 :: tok_src (tok_of (raw_ref ocs) sy) ++ [34]) with ([34] ++ tok_src (tok_of (raw_ref ocs) sy) ++ [34]).
    rewrite ?enc_app, R4, PU4, SY4, <- ?app_assoc. reflexivity.
  - change (str "<!DOCTYPE ") with (str "<!" ++ str "DOCTYPE" ++ [32]). change (str ">") with [62].
    rewrite ?enc_app, R4, <- ?app_assoc. reflexivity.
  - change (str "<!DOCTYPE ") with (str "<!" ++ str "DOCTYPE" ++ [32]). change (str " SYSTEM """) with ([32] ++ str "SYSTEM" ++ [32] ++ [34]). change (str """") with [34].
    change (str ">") with [62].
    change (34 :: tok_src (tok_of (raw_ref ocs) sy) ++ [34]) with ([34] ++ tok_src (tok_of (raw_ref ocs) sy) ++ [34]).
    rewrite ?enc_app, R4, SY4, <- ?app_assoc. reflexivity.
  - change (str "<!DOCTYPE ") with (str "<!" ++ str "DOCTYPE" ++ [32]). change (str ">") with [62].
    rewrite ?enc_app, R4, <- ?app_assoc. reflexivity.
Qed.

(** ** The main lemma *)
Definition good_items (src : list N) (items : list item) : Prop :=
  Forall item_ok items /\ no_split items /\ Forall (representable ocs) (items_src items) /\ enc ocs src = enc ocs (items_src items).
Lemma gi_cons : forall i s src items, item_ok i -> Forall (representable ocs) (item_src i) -> is_text i = false -> enc ocs s = enc ocs (item_src i) ->
  good_items src items -> good_items (s ++ src) (i :: items).
Proof.
  intros i s src items H1 H2 H3 H4 [G1 [G2 [G3 G4]]]. split; [constructor; assumption|]. split; [apply no_split_cons; auto|].
  cbn [items_src flat_map]. fold (items_src items). split; [rewrite Forall_app; auto|]. rewrite !enc_app, H4, G4. reflexivity.
Qed.
Lemma gi_flush : forall acc src items, cur_ok (COut acc) -> not_text items -> good_items src items ->
  good_items (tok_src (tok_of (content_ref ocs) acc) ++ src) (flush acc ++ items).
Proof.
  intros acc src items H1 H2 [G1 [G2 [G3 G4]]]. split; [rewrite Forall_app; split; [apply flush_ok; exact H1|exact G1]|]. split; [apply no_split_flush; assumption|].
  unfold items_src in *. rewrite flat_map_app. fold (items_src (flush acc)). rewrite flush_src. split; [rewrite Forall_app; split; [|exact G3]|rewrite !enc_app, G4; reflexivity].
  apply gtext_tok; exact H1.
Qed.
Lemma flush_seek : forall acc seek i, is_text i = false -> (match i with IComment _ | IDoctype _ _ _ => True | _ => True end) ->
  item_seek (fold_left item_seek (flush acc) seek) i = item_seek false i.
Proof. intros acc seek i H _. destruct i; cbn [is_text item_seek] in *; congruence. Qed.
Lemma item_elements_seek : forall i seek, is_text i = false -> item_elements seek i = item_elements false i.
Proof. intros i seek H. destruct i; cbn [is_text item_elements] in *; congruence. Qed.
Lemma item_seek_any : forall i seek, is_text i = false -> item_seek seek i = item_seek false i.
Proof. intros i seek H. destruct i; cbn [is_text item_seek] in *; congruence. Qed.

Definition result (c : cur) (tags : list (list N)) (l : list pcall) (text : list N) (items : list item) : Prop :=
  good_items (cur_src c ++ text) items /\
  match c with
  | COut acc => (forall seek, items_elements seek items = delivered InContent seek acc tags l) /\
      (acc = [] -> match l with (POpen _ | PDoctype (Some _) _ _) :: _ => first_ok items | _ => True end)
  | _ => (forall seek, items_elements seek items = cur_elements c ++ delivered (cur_place c) false [] tags l) /\ not_text items /\ first_ok items
  end.

(** the end of a start tag *)
Lemma open_item : forall n attrs, cur_ok (CStart n attrs) ->
  let i := IOpen (tname n) (tattrs attrs) [] in
  item_ok i /\ Forall (representable ocs) (item_src i) /\ item_src i = cur_src (CStart n attrs) ++ [62] /\ item_elements false i = cur_elements (CStart n attrs).
Proof.
  intros n attrs [Hn Ha] i. destruct (gname_tok n Hn) as [N1 [N2 [N3 N4]]]. destruct (attrs_ok attrs Ha) as [A1 [A2 A3]].
  split; [cbn; repeat split; auto; apply N1|]. subst i. cbn [item_src cur_src item_elements cur_elements]. split; [cbn [app]; reps|]. split; [rewrite <- !app_assoc; reflexivity|].
  rewrite N3, A3. reflexivity.
Qed.
Lemma empty_item : forall n attrs, cur_ok (CStart n attrs) ->
  let i := IEmpty (tname n) (tattrs attrs) [] [] in
  item_ok i /\ Forall (representable ocs) (item_src i) /\ item_src i = cur_src (CStart n attrs) ++ [47; 62] /\ item_elements false i = cur_elements (CStart n attrs) ++ [(ECloseTagIm, [])].
Proof.
  intros n attrs [Hn Ha] i. destruct (gname_tok n Hn) as [N1 [N2 [N3 N4]]]. destruct (attrs_ok attrs Ha) as [A1 [A2 A3]].
  split; [cbn; repeat split; auto; apply N1|]. subst i. cbn [item_src cur_src item_elements cur_elements]. split; [cbn [app]; reps|]. split; [rewrite <- !app_assoc; reflexivity|].
  rewrite N3, A3. reflexivity.
Qed.
Lemma close_item : forall n, gname n ->
  let i := IClose (tname n) [] in
  item_ok i /\ Forall (representable ocs) (item_src i) /\ enc ocs (item_src i) = enc ocs ([60; 47] ++ n ++ [62]) /\ item_elements false i = [(ECloseTag, n)].
Proof.
  intros n Hn i. destruct (gname_tok n Hn) as [N1 [N2 [N3 N4]]].
  split; [cbn; split; [exact N1|constructor]|]. subst i. cbn [item_src item_elements]. split; [cbn [app]; reps|]. split; [|rewrite N3; reflexivity].
  change (str "</") with [60; 47]. rewrite !enc_app, N4. reflexivity.
Qed.

(** [items] deliver [els] whatever is before *)
Definition delivers (items : list item) (f : bool -> list (etype * list N)) : Prop := forall seek, items_elements seek items = f seek.
Lemma r_leave : forall n attrs tags c l (t : list N) items, cur_ok (CStart n attrs) -> good_items t items ->
  delivers items (fun _ => delivered InStartTag false [] tags (c :: l)) \/ (items_elements false items = delivered InStartTag false [] tags (c :: l)) ->
  result (CStart n attrs) tags (c :: l) ([62] ++ t) (IOpen (tname n) (tattrs attrs) [] :: items).
Proof.
  intros n attrs tags c l t items Hc Hg Hd. destruct (open_item n attrs Hc) as [O1 [O2 [O3 O4]]]. split.
  - rewrite app_assoc, <- O3. apply gi_cons; auto.
  - split; [|split; exact I]. intros seek. cbn [items_elements]. rewrite item_elements_seek, O4 by reflexivity. cbn [item_seek cur_place].
    destruct Hd as [Hd|Hd]; rewrite Hd; reflexivity.
Qed.
Lemma r_open : forall acc n tags l t items, cur_ok (COut acc) -> gname n -> result (CStart n []) (n :: tags) l t items ->
  result (COut acc) tags (POpen n :: l) ([60] ++ n ++ t) (flush acc ++ items).
Proof.
  intros acc n tags l t items Hc Hn [Hg [Hd [Ht Hf]]]. destruct (gname_tok n Hn) as [N1 [N2 [N3 N4]]].
  assert (Hg' : good_items ([60] ++ n ++ t) items).
  { destruct Hg as [G1 [G2 [G3 G4]]]. split; [exact G1|]. split; [exact G2|]. split; [exact G3|]. rewrite <- G4. cbn [cur_src tattrs map attrs_src flat_map].
    rewrite app_nil_r, <- app_assoc, !enc_app, N4. reflexivity. }
  split; [apply gi_flush; assumption|]. split.
  - intros seek. rewrite items_elements_app, flush_elements, Hd by exact Hc. cbn [delivered place_after cur_elements flat_map cur_place app]. reflexivity.
  - intros ->. exact Hf.
Qed.

Lemma doc_main : forall l c tags, cur_ok c -> Forall (texts_ok ocs acs) l -> doc_calls acs (cur_place c) l -> Forall gname tags ->
  all_ok (snd (a_run acs (map (app_call acs) l) (mkA (cur_state c) (map E tags)))) ->
  exists items, result c tags l (flat_map snd (snd (a_run acs (map (app_call acs) l) (mkA (cur_state c) (map E tags))))) items.
Proof.
  induction l as [|call l IH]; intros c tags Hc Ht Hd Hg Hok.
  - cbn [map a_run snd flat_map] in *. cbn [doc_calls] in Hd. destruct c as [acc|n attrs|n attrs a]; cbn [cur_place] in Hd; try discriminate.
    exists (flush acc). split.
    + pose proof (gi_flush acc [] [] Hc I) as G. rewrite !app_nil_r in *. apply G. repeat split; constructor.
    + split; [intros seek; apply flush_elements; exact Hc|]. intros ->. exact I.
  - cbn [map] in *. rewrite a_run_cons in *. cbn [snd flat_map] in *. inversion Hok as [|? ? Hok1 Hok2]; subst. inversion Ht as [|? ? Ht1 Ht2]; subst.
    cbn [doc_calls] in Hd. destruct Hd as [Hd1 Hd2].
    (* the next call from another cursor *)
    assert (Next : forall c' tags', cur_ok c' -> Forall gname tags' -> cur_place c' = place_after (cur_place c) (call, true) ->
      fst (a_do acs (app_call acs call) (mkA (cur_state c) (map E tags))) = mkA (cur_state c') (map E tags') ->
      exists items, result c' tags' l (flat_map snd (snd (a_run acs (map (app_call acs) l) (fst (a_do acs (app_call acs call) (mkA (cur_state c) (map E tags))))))) items).
    { intros c' tags' Hc' Hg' Hp Hs. rewrite Hs in *. apply IH; auto. rewrite Hp. exact Hd2. }
    set (rest := flat_map snd (snd (a_run acs (map (app_call acs) l) (fst (a_do acs (app_call acs call) (mkA (cur_state c) (map E tags))))))) in *. clearbody rest.
    clear IH Hok2 Hd2.
    assert (Hnames : forall n, call = POpen n \/ call = PAttr n -> gname n).
    { intros n Hn. unfold texts_ok in Ht1. destruct Hn as [-> | ->]; cbn [call_texts doc_call] in *; inversion Ht1; subst; split; try assumption; apply Hd1. }
    assert (Hval : forall v, call = PValue v -> Forall good v) by (intros v ->; unfold texts_ok in Ht1; cbn [call_texts] in Ht1; inversion Ht1; subst; assumption).
    assert (Hstack : forall n, Forall good n -> n <> [] -> E n <> []) by (intros n; apply E_nil).
    destruct call as [e s|r pu sy| |n|n|v| |s|].
    + (* header *) exfalso. destruct c; cbn in Hok1; discriminate.
    + (* doctype *)
      destruct r as [r|].
      * destruct Hd1 as [Ha [Hpl [Hr [Qpu Qsy]]]]. destruct c as [acc|n attrs|n attrs a]; cbn [cur_place] in Hpl; try discriminate.
        unfold texts_ok in Ht1. cbn [call_texts some_list] in Ht1. rewrite !Forall_app in Ht1. destruct Ht1 as [T1 [T2 T3]]. inversion T1 as [|? ? Gr _]; subst.
        assert (Gpu : forall v, pu = Some v -> Forall good v) by (intros v ->; cbn [some_list] in T2; inversion T2; assumption).
        assert (Gsy : forall v, sy = Some v -> Forall good v) by (intros v ->; cbn [some_list] in T3; inversion T3; assumption).
        assert (Hps : pu <> None -> sy <> None) by (destruct pu, sy; cbn in Hok1; try discriminate; intros; congruence).
        destruct (Next (COut []) tags) as [items [G1 [G2 G3]]]; [constructor|exact Hg|destruct pu, sy; reflexivity|destruct pu, sy; reflexivity|].
        destruct (doctype_ok r pu sy (conj Gr Hr) Gpu Gsy Qpu Qsy) as [D1 [D2 [D3 D4]]].
        exists (flush acc ++ doctype_item r pu sy :: items).
        assert (Eout : snd (snd (a_do acs (app_call acs (PDoctype (Some r) pu sy)) (mkA (cur_state (COut acc)) (map E tags)))) = doctype_text r pu sy).
        { rewrite <- (doctype_dec r pu sy Ha Gr Gpu Gsy Hps). destruct pu, sy; cbn in Hok1; try discriminate; reflexivity. }
        rewrite Eout. split.
        -- apply gi_flush; [exact Hc|exact I|]. apply gi_cons; auto.
        -- split.
           ++ intros seek. rewrite items_elements_app, flush_elements by exact Hc. cbn [items_elements]. rewrite D4. cbn [doctype_item item_seek]. rewrite G2.
              cbn [delivered place_after]. reflexivity.
           ++ intros ->. exact I.
      * destruct (Next c tags) as [items [G1 G2]]; [exact Hc|exact Hg|destruct c; reflexivity|destruct c; reflexivity|]. exists items.
        split; [exact G1|]. destruct c as [acc|n attrs|n attrs a]; cbn [delivered place_after cur_place] in *; [|exact G2|exact G2]. split; [apply G2|auto].
    + (* exit *)
      destruct c as [acc|n attrs|n attrs a].
      * destruct (Next (COut acc) tags) as [items [G1 [G2 G3]]]; [exact Hc|exact Hg|reflexivity|reflexivity|]. exists items. split; [exact G1|]. split; [exact G2|auto].
      * destruct (Next (COut []) tags) as [items [G1 [G2 G3]]]; [constructor|exact Hg|reflexivity|reflexivity|].
        eexists. apply r_leave; [exact Hc|exact G1|]. right. apply G2.
      * exfalso. apply Hd1. reflexivity.
    + (* open *)
      pose proof (Hnames n (or_introl eq_refl)) as Hn. destruct Hd1 as [_ Hpl].
      destruct (Next (CStart n []) (n :: tags)) as [items G]; [split; [exact Hn|constructor]|constructor; assumption|reflexivity|destruct c; reflexivity|].
      destruct c as [acc|m attrs|m attrs a].
      * exists (flush acc ++ items).
        assert (Eout : snd (snd (a_do acs (app_call acs (POpen n)) (mkA (cur_state (COut acc)) (map E tags)))) = [60] ++ n).
        { cbn [app_call map_call a_do cur_state aexit a_state snd app]. f_equal. apply dec_E. apply Hn. }
        rewrite Eout, <- app_assoc. apply r_open; assumption.
      * assert (Eout : snd (snd (a_do acs (app_call acs (POpen n)) (mkA (cur_state (CStart m attrs)) (map E tags)))) = [62] ++ [60] ++ n).
        { cbn [app_call map_call a_do cur_state aexit a_state snd app]. f_equal. f_equal. apply dec_E. apply Hn. }
        rewrite Eout, <- !app_assoc. pose proof (r_open [] n tags l rest items (Forall_nil _) Hn G) as [R1 [R2 R3]].
        eexists. apply r_leave; [exact Hc|exact R1|]. right. apply R2.
      * exfalso. apply Hpl. reflexivity.
    + (* attribute *)
      pose proof (Hnames n (or_intror eq_refl)) as Hn.
      destruct c as [acc|m attrs|m attrs a]; try (cbn in Hok1; discriminate).
      destruct Hc as [Hm Ha]. destruct (Next (CAttr m attrs n) tags) as [items [G1 [G2 [G3 G4]]]]; [repeat split; try assumption; apply Hm || apply Hn|exact Hg|reflexivity|reflexivity|].
      exists items. assert (Eout : snd (snd (a_do acs (app_call acs (PAttr n)) (mkA (cur_state (CStart m attrs)) (map E tags)))) = [32] ++ n ++ [61]).
      { cbn [app_call map_call a_do cur_state a_state snd app]. f_equal. f_equal. apply dec_E. apply Hn. }
      rewrite Eout. destruct (gname_tok n Hn) as [N1 [N2 [N3 N4]]]. split; [|split; [|split; assumption]].
      * destruct G1 as [K1 [K2 [K3 K4]]]. split; [exact K1|]. split; [exact K2|]. split; [exact K3|]. rewrite <- K4. cbn [cur_src]. rewrite <- !app_assoc, !enc_app, N4. reflexivity.
      * intros seek. rewrite G2. cbn [cur_elements cur_place delivered place_after]. cbn [app]. rewrite <- app_assoc. reflexivity.
    + (* value *)
      pose proof (Hval v eq_refl) as Hv. pose proof (good_range v Hv) as Hvr.
      assert (Hdv : dec_text acs (E v) = v) by (apply dec_E; exact Hv).
      destruct c as [acc|m attrs|m attrs a].
      *         destruct (Next (COut (acc ++ v)) tags) as [items [G1 [G2 G3]]]; [cbn [cur_ok]; unfold gval; rewrite Forall_app; split; assumption|exact Hg|reflexivity|reflexivity|].
        exists items. assert (Eout : snd (snd (a_do acs (app_call acs (PValue v)) (mkA (cur_state (COut acc)) (map E tags)))) = flat_map (esc_of content_escapes) v).
        { cbn [app_call map_call a_do cur_state aexit a_state snd app]. f_equal. exact Hdv. }
        rewrite Eout. split; [|split; [exact G2|auto]]. destruct G1 as [K1 [K2 [K3 K4]]]. split; [exact K1|]. split; [exact K2|]. split; [exact K3|]. rewrite <- K4.
        cbn [cur_src]. rewrite tok_src_app, !enc_app, (enc_content v Hvr), app_assoc. reflexivity.
      *         destruct (Next (COut v) tags) as [items [G1 [G2 G3]]]; [assumption|exact Hg|reflexivity|reflexivity|].
        assert (Eout : snd (snd (a_do acs (app_call acs (PValue v)) (mkA (cur_state (CStart m attrs)) (map E tags)))) = [62] ++ flat_map (esc_of content_escapes) v).
        { cbn [app_call map_call a_do cur_state aexit a_state snd app]. f_equal. f_equal. exact Hdv. }
        rewrite Eout, <- app_assoc. eexists. apply r_leave; [exact Hc| |right; apply G2].
        destruct G1 as [K1 [K2 [K3 K4]]]. split; [exact K1|]. split; [exact K2|]. split; [exact K3|]. rewrite <- K4. cbn [cur_src]. rewrite !enc_app, (enc_content v Hvr). reflexivity.
      * destruct Hc as [Hm [Ha Hn]]. destruct (gval_tok v Hvr) as [V1 [V2 [V3 V4]]].
        destruct (Next (CStart m (attrs ++ [(a, v)])) tags) as [items [G1 [G2 [G3 G4]]]]; [split; [exact Hm|rewrite Forall_app; split; [exact Ha|constructor; [split; assumption|constructor]]]|exact Hg|reflexivity|reflexivity|].
        assert (Eout : snd (snd (a_do acs (app_call acs (PValue v)) (mkA (cur_state (CAttr m attrs a)) (map E tags)))) = [34] ++ flat_map (esc_of attr_escapes) v ++ [34]).
        { cbn [app_call map_call a_do cur_state a_state snd app]. do 3 f_equal. exact Hdv. }
        rewrite Eout. exists items. split; [|split; [|split; assumption]].
        -- destruct G1 as [K1 [K2 [K3 K4]]]. split; [exact K1|]. split; [exact K2|]. split; [exact K3|]. rewrite <- K4. cbn [cur_src]. rewrite attrs_src_snoc.
           change [61; 34] with ([61] ++ [34]). rewrite <- !app_assoc, !enc_app, V4. reflexivity.
        -- intros seek. rewrite G2. cbn [cur_elements cur_place delivered place_after]. rewrite flat_map_app. cbn [flat_map fst snd app]. rewrite <- !app_assoc. reflexivity.
    + (* close *)
      destruct tags as [|n tags]; [cbn in Hok1; discriminate|]. inversion Hg as [|? ? Hn Hg']; subst. destruct Hn as [Hn1 Hn2].
      pose proof (Hstack n Hn1 (proj1 Hn2)) as Hne. pose proof (dec_E n Hn1) as Hdn.
      assert (Hnl : match map E tags with [] => [10] | _ :: _ => [] end = nl tags) by (destruct tags; reflexivity).
      destruct c as [acc|m attrs|m attrs a].
      * destruct (Next (COut (nl tags)) tags) as [items [G1 [G2 G3]]]; [apply nl_ok|exact Hg'|reflexivity|cbn [app_call map_call a_do map a_stack a_state cur_state]; destruct (E n); [congruence|reflexivity]|].
        assert (Eout : snd (snd (a_do acs (app_call acs PClose) (mkA (cur_state (COut acc)) (map E (n :: tags))))) = ([60; 47] ++ n ++ [62]) ++ nl tags).
        { cbn [app_call map_call a_do map a_stack a_state cur_state]. rewrite Hnl. destruct (E n) eqn:En; [congruence|]. cbn [snd]. rewrite Hdn, <- !app_assoc. reflexivity. }
        rewrite Eout, <- app_assoc. destruct (close_item n (conj Hn1 Hn2)) as [I1 [I2 [I3 I4]]].
        exists (flush acc ++ IClose (tname n) [] :: items). split; [|split; [|intros ->; exact I]].
        -- cbn [cur_src]. apply gi_flush; [exact Hc|exact I|]. apply gi_cons; auto.
           destruct G1 as [K1 [K2 [K3 K4]]]. split; [exact K1|]. split; [exact K2|]. split; [exact K3|]. rewrite <- K4. cbn [cur_src].
           rewrite !enc_app. f_equal. destruct tags; [|reflexivity]. cbn [nl]. rewrite tok_of_src. cbn [flat_map]. unfold piece, content_ref, raw_ref. cbn [N.eqb].
           assert (Hr10 : reprb ocs 10 = true) by (apply reprb_spec, asc; lia). rewrite Hr10. reflexivity.
        -- intros seek. rewrite items_elements_app, flush_elements by exact Hc. cbn [items_elements]. rewrite item_elements_seek, I4 by reflexivity. cbn [item_seek].
           rewrite G2. cbn [delivered place_after hd tl]. rewrite <- app_assoc. reflexivity.
      * destruct (Next (COut (nl tags)) tags) as [items [G1 [G2 G3]]]; [apply nl_ok|exact Hg'|reflexivity|cbn [app_call map_call a_do map a_stack a_state cur_state]; destruct (E n); [congruence|reflexivity]|].
        assert (Eout : snd (snd (a_do acs (app_call acs PClose) (mkA (cur_state (CStart m attrs)) (map E (n :: tags))))) = [47; 62] ++ nl tags).
        { cbn [app_call map_call a_do map a_stack a_state cur_state]. rewrite Hnl. destruct (E n) eqn:En; [congruence|]. reflexivity. }
        rewrite Eout. destruct (empty_item m attrs Hc) as [I1 [I2 [I3 I4]]]. exists (IEmpty (tname m) (tattrs attrs) [] [] :: items).
        split; [|split; [|split; exact I]].
        -- rewrite app_assoc, app_assoc, <- I3, <- app_assoc. apply gi_cons; auto.
           destruct G1 as [K1 [K2 [K3 K4]]]. split; [exact K1|]. split; [exact K2|]. split; [exact K3|]. rewrite <- K4. cbn [cur_src].
           rewrite !enc_app. f_equal. destruct tags; [|reflexivity]. cbn [nl]. rewrite tok_of_src. cbn [flat_map]. unfold piece, content_ref, raw_ref. cbn [N.eqb].
           assert (Hr10 : reprb ocs 10 = true) by (apply reprb_spec, asc; lia). rewrite Hr10. reflexivity.
        -- intros seek. cbn [items_elements]. rewrite item_elements_seek, I4 by reflexivity. cbn [item_seek]. rewrite G2. cbn [delivered place_after cur_place hd tl].
           rewrite <- app_assoc. reflexivity.
      * exfalso. cbn [app_call map_call a_do map a_stack a_state cur_state] in Hok1. destruct (E n); cbn in Hok1; discriminate.
    + destruct Hd1.
    + (* copy *)
      destruct (Next c tags) as [items [G1 G2]]; [exact Hc|exact Hg|destruct c; reflexivity|destruct c; reflexivity|]. exists items.
      split; [exact G1|]. destruct c as [acc|n attrs|n attrs a]; cbn [delivered place_after cur_place] in *; [|exact G2|exact G2]. split; [apply G2|auto].
Qed.

(** ** The header *)
Definition hid (n v : list N) : attr := mkAttr [32] (name n) [] [] (Quoted 34 (tok_of (raw_ref ocs) v)).
Definition hval (e : option (list N)) : list N := match e with Some e => e | None => str "UTF-8" end.
Definition header_of (e s : option (list N)) : header :=
  mkHeader (hid (str "version") (str "1.0") :: hid (str "encoding") (hval e) :: match s with Some s => [hid (str "standalone") s] | None => [] end) [] [].
Definition header_text (e s : option (list N)) : list N :=
  str "<?xml version=""1.0"" encoding=""" ++ hval e ++ match s with Some s => str """ standalone=""" ++ s | None => [] end ++ str """?>".
Lemma header_dec : forall e s, ascii_based acs -> (forall v, e = Some v -> Forall good v) -> (forall v, s = Some v -> Forall good v) ->
  flat_map (dec_text acs) (header_texts (omap_text E e) (omap_text E s)) = header_text e s ++ [10].
Proof.
  intros e s Ha He Hs. unfold header_texts, header_text.
  assert (Hv : dec_text acs match omap_text E e with Some e => c_str e | None => str "UTF-8" end = hval e).
  { destruct e as [e|]; cbn [omap_text hval]; [rewrite c_str_E by auto; apply dec_E; auto|]. apply dec_lit; [exact Ha|vm_compute; reflexivity|vm_compute; reflexivity]. }
  destruct s as [s|]; cbn [omap_text]; cbn zeta; cbn [flat_map]; rewrite Hv; rewrite ?c_str_E by auto; rewrite ?dec_E by auto.
  - rewrite (dec_lit (str "<?xml version=""1.0"" encoding=""") (str "<?xml version=""1.0"" encoding=""")) by (first [exact Ha|vm_compute; reflexivity]).
    rewrite (dec_lit (str """ standalone=""") (str """ standalone=""")) by (first [exact Ha|vm_compute; reflexivity]).
    rewrite (dec_lit (str """?>" ++ [10]) (str """?>" ++ [10])) by (first [exact Ha|vm_compute; reflexivity]). rewrite <- ?app_assoc. reflexivity.
  - rewrite (dec_lit (str "<?xml version=""1.0"" encoding=""") (str "<?xml version=""1.0"" encoding=""")) by (first [exact Ha|vm_compute; reflexivity]).
    rewrite (dec_lit (str """?>" ++ [10]) (str """?>" ++ [10])) by (first [exact Ha|vm_compute; reflexivity]). rewrite <- ?app_assoc. reflexivity.
Qed.
(** a literal is expressed as itself *)
Lemma raw_lit : forall s, forallb (fun c => (0 <? c) && (c <? 128)) s = true -> tok_of (raw_ref ocs) s = name s.
Proof.
  induction s as [|c s IH]; intros H; [reflexivity|]. cbn [forallb] in H. apply andb_prop in H. destruct H as [H1 H2]. cbn [tok_of]. rewrite (IH H2).
  unfold raw_ref. assert (Hr : reprb ocs c = true) by (apply reprb_spec, asc; lia). rewrite Hr. reflexivity.
Qed.
Lemma hid_ok : forall n v, name_ok (name n) /\ tok_chars (name n) = n /\ tok_src (name n) = n /\ Forall (representable ocs) n ->
  tok_ok (value_char 34) (tok_of (raw_ref ocs) v) /\ Forall (representable ocs) (tok_src (tok_of (raw_ref ocs) v)) /\
  tok_chars (tok_of (raw_ref ocs) v) = eol v /\ enc ocs v = enc ocs (tok_src (tok_of (raw_ref ocs) v)) ->
  attr_ok (hid n v) /\ Forall (representable ocs) (attr_src (hid n v)) /\ enc ocs (attr_src (hid n v)) = enc ocs ([32] ++ n ++ [61; 34] ++ v ++ [34]) /\
  a_name (hid n v) = name n /\ tok_chars (a_name (hid n v)) = n /\ aval_chars (a_val (hid n v)) = eol v.
Proof.
  intros n v [N1 [N2 [N3 N4]]] [V1 [V2 [V3 V4]]]. unfold attr_ok, attr_src, hid. cbn [a_ws a_name a_ws1 a_ws2 a_val aval_ok aval_src aval_chars]. rewrite N2, N3, V3.
  split; [|split; [|split; [|auto]]].
  - split; [discriminate|]. split; [constructor; [left; reflexivity|constructor]|]. split; [exact N1|]. split; [constructor|]. split; [constructor|]. split; [left; reflexivity|exact V1].
  - reps.
  - change [61; 34] with ([61] ++ [34]). change (34 :: tok_src (tok_of (raw_ref ocs) v) ++ [34]) with ([34] ++ tok_src (tok_of (raw_ref ocs) v) ++ [34]).
    rewrite !enc_app, V4, <- !app_assoc. reflexivity.
Qed.
Lemma lit_val : forall s, forallb (fun c => ((0 <? c) && (c <? 128)) && negb ((c =? 38) || (c =? 60) || (c =? 34) || (c =? 13))) s = true ->
  tok_ok (value_char 34) (tok_of (raw_ref ocs) s) /\ Forall (representable ocs) (tok_src (tok_of (raw_ref ocs) s)) /\
  tok_chars (tok_of (raw_ref ocs) s) = eol s /\ enc ocs s = enc ocs (tok_src (tok_of (raw_ref ocs) s)).
Proof.
  intros s H. assert (Hs : Forall (fun c => 0 < c < 128 /\ c <> 38 /\ c <> 60 /\ c <> 34 /\ c <> 13) s).
  { apply Forall_forall. intros c Hc. rewrite forallb_forall in H. specialize (H c Hc). lia. }
  rewrite raw_lit by (apply forallb_forall; intros c Hc; rewrite forallb_forall in H; specialize (H c Hc); lia).
  assert (Es : tok_src (name s) = s) by (unfold tok_src; cbn [name t_raw t_refs flat_map]; apply app_nil_r). rewrite Es.
  split; [|split; [|split; [|reflexivity]]].
  - split; [|constructor]. cbn [name t_raw]. eapply Forall_impl; [|exact Hs]. intros c Hc. cbn beta in Hc. unfold value_char, text_char. lia.
  - eapply Forall_impl; [|exact Hs]. intros c Hc. apply asc. cbn beta in Hc. lia.
  - unfold tok_chars. cbn [name t_raw t_refs flat_map]. rewrite app_nil_r. reflexivity.
Qed.
Lemma header_good : forall e s, (forall v, e = Some v -> Forall good v) -> (forall v, s = Some v -> Forall good v) -> oquoted e -> oquoted s ->
  header_ok (header_of e s) /\ Forall (representable ocs) (header_src (header_of e s)) /\
  enc ocs (header_text e s) = enc ocs (header_src (header_of e s)) /\ header_elements (header_of e s) = header_delivered e s.
Proof.
  intros e s He Hs Qe Qs.
  destruct (hid_ok (str "version") (str "1.0") (name_lit (str "version") eq_refl ltac:(discriminate)) (lit_val (str "1.0") eq_refl)) as [A1 [A2 [A3 [A4 [A5 A6]]]]].
  assert (Hv : tok_ok (value_char 34) (tok_of (raw_ref ocs) (hval e)) /\ Forall (representable ocs) (tok_src (tok_of (raw_ref ocs) (hval e))) /\
    tok_chars (tok_of (raw_ref ocs) (hval e)) = eol (hval e) /\ enc ocs (hval e) = enc ocs (tok_src (tok_of (raw_ref ocs) (hval e)))).
  { destruct e as [e|]; cbn [hval]; [apply gid_tok; [auto|exact Qe]|apply lit_val; reflexivity]. }
  destruct (hid_ok (str "encoding") (hval e) (name_lit (str "encoding") eq_refl ltac:(discriminate)) Hv) as [B1 [B2 [B3 [B4 [B5 B6]]]]].
  unfold header_ok, header_src, header_elements, header_delivered, header_of, header_text. cbn [h_attrs h_ws h_ws2].
  destruct s as [s|].
  - destruct (hid_ok (str "standalone") s (name_lit (str "standalone") eq_refl ltac:(discriminate)) (gid_tok s (Hs s eq_refl) Qs)) as [C1 [C2 [C3 [C4 [C5 C6]]]]].
    split; [split; [|split; constructor]; constructor; [exact A1|constructor; [exact B1|constructor; [exact C1|constructor]]]|].
    split; [cbn [attrs_src flat_map]; reps|]. split.
    + cbn [attrs_src flat_map]. rewrite !enc_app, A3, B3, C3, <- !enc_app, <- ?app_assoc. cbn [app]. rewrite <- ?app_assoc. cbn [app].
      reflexivity.
    + cbn [attrs_elements flat_map app]. rewrite A5, A6, B5, B6, C5, C6. destruct e; reflexivity.
  - split; [split; [|split; constructor]; constructor; [exact A1|constructor; [exact B1|constructor]]|].
    split; [cbn [attrs_src flat_map]; reps|]. split.
    + cbn [attrs_src flat_map]. rewrite !enc_app, A3, B3, <- !enc_app, <- ?app_assoc. cbn [app]. rewrite <- ?app_assoc. cbn [app]. reflexivity.
    + cbn [attrs_elements flat_map app]. rewrite A5, A6, B5, B6. destruct e; reflexivity.
Qed.

(** ** Documents *)
Theorem doc_print : forall sub l, doc_first sub l -> Forall (texts_ok ocs acs) l -> doc_calls acs InContent l ->
  let rs := snd (a_run acs (map (app_call acs) l) (a_new sub)) in
  all_ok rs ->
  exists d, doc_ok d /\ Forall (representable ocs) (doc_src d) /\ enc ocs (flat_map snd rs) = enc ocs (doc_src d) /\
    doc_elements d = delivered InContent false [] [] l ++ [(EExit, [])].
Proof.
  intros sub l Hf Ht Hd rs Hok. subst rs.
  assert (Hsub : sub = true -> exists d, doc_ok d /\ Forall (representable ocs) (doc_src d) /\ 
    enc ocs (flat_map snd (snd (a_run acs (map (app_call acs) l) (a_new sub)))) = enc ocs (doc_src d) /\ doc_elements d = delivered InContent false [] [] l ++ [(EExit, [])]).
  { intros ->. destruct (doc_main l (COut []) [] (Forall_nil _) Ht Hd (Forall_nil _) Hok) as [items [[G1 [G2 [G3 G4]]] [K1 K2]]].
    exists (mkDoc [] None items). split; [|split; [|split]].
    - split; [constructor|]. split; [split; assumption|]. cbn [d_header d_items]. specialize (K2 eq_refl). destruct l as [|c l]; [destruct Hf|].
      destruct c as [e s|[r|] pu sy| |n|n|v| |s|]; try contradiction; try exact K2. discriminate Hf.
    - exact G3.
    - exact G4.
    - unfold doc_elements, doc_body. cbn [d_header d_items]. rewrite K1. reflexivity. }
  destruct l as [|c l]; [destruct Hf|]. destruct c as [e s|[r|] pu sy| |n|n|v| |s|]; try contradiction; try (apply Hsub; exact Hf). clear Hsub.
  cbn [doc_first] in Hf. subst sub. cbn [map] in *. rewrite a_run_cons in *. cbn [snd flat_map] in *. inversion Hok as [|? ? Hok1 Hok2]; subst. inversion Ht as [|? ? Ht1 Ht2]; subst.
  destruct Hd as [[Ha [Qe Qs]] Hd2]. unfold texts_ok in Ht1. cbn [call_texts] in Ht1. rewrite Forall_app in Ht1. destruct Ht1 as [T1 T2].
  assert (Ge : forall v, e = Some v -> Forall good v) by (intros v ->; cbn [some_list] in T1; inversion T1; assumption).
  assert (Gs : forall v, s = Some v -> Forall good v) by (intros v ->; cbn [some_list] in T2; inversion T2; assumption).
  destruct (doc_main l (COut [10]) [] (nl_ok []) Ht2 Hd2 (Forall_nil _) Hok2) as [items [[G1 [G2 [G3 G4]]] [K1 K2]]].
  destruct (header_good e s Ge Gs Qe Qs) as [H1 [H2 [H3 H4]]].
  exists (mkDoc [] (Some (header_of e s)) items). unfold doc_src, doc_elements, doc_body. cbn [d_ws d_header d_items app]. split; [|split; [|split]].
  - split; [constructor|]. split; [split; assumption|]. exact H1.
  - rewrite Forall_app. split; assumption.
  - assert (Eout : snd (snd (a_do acs (app_call acs (PHeader e s)) (a_new false))) = header_text e s ++ [10]) by (rewrite <- (header_dec e s Ha Ge Gs); reflexivity).
    rewrite Eout, <- app_assoc, !enc_app, H3, <- G4, enc_app. f_equal. f_equal. cbn [cur_src]. rewrite tok_of_src. cbn [flat_map]. unfold piece, content_ref, raw_ref. cbn [N.eqb].
    assert (Hr10 : reprb ocs 10 = true) by (apply reprb_spec, asc; lia). rewrite Hr10. reflexivity.
  - rewrite H4, K1. cbn [delivered place_after]. rewrite <- app_assoc. reflexivity.
Qed.
End Doc.
