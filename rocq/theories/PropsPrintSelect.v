(** From the printer through the scanner to the selector: C69. *)
From Coq Require Import Lia ZifyBool ZifyNat.
From Verif Require Import Base Iter Charset CharsetSpec TextScanner XmlScanner XmlPrinter ReadSpec ScanSpec PropsScan DocSpec DocCheck PropsDoc
  ParseSpec PathAtm PathSelect PathSpec PathProg PathBuild3 PathMatch PathNames PathTags PathParse ParseTop PropsPath PropsParse PipeSpec PipeProofs PropsSelect
  PrintSpec PrintProofs PrintDoc PropsPrint PrintSelect.

(** the calls [l] of a printer, all successful, print [text]; [ocs] is the character set of the document, [acs] the one of the arguments *)
Definition prints (ocs acs : charset) (sub : bool) (l : list pcall) (text : list N) : Prop :=
  doc_first sub l /\ doc_calls acs InContent l /\ Forall (texts_ok ocs acs) l /\ calls_ok (map (app_call acs) l) /\
  exists p rs, p_run ocs acs (map (app_call acs) l) (pr_new sub) = Ret p rs /\ Forall (fun r => fst r = true) rs /\ concat (map snd rs) = text.
(** the elements of the document printed by the calls *)
Definition printed (l : list pcall) : list (etype * list N) := delivered InContent false [] [] l ++ [(EExit, [])].

Lemma prints_scanned ocs acs sub l text outcs : cs_constructible ocs = true -> cs_constructible acs = true -> prints ocs acs sub l text ->
  ordered PStart 0 (printed l) = true /\ (sub = true -> Forall no_header_call l) /\
  forall c0 chunks fuel, text = concat (c0 :: chunks) -> (3 * length text + 13 <= fuel)%nat ->
  exists st evs, scanChunked ocs (xml_config ocs outcs None 0) feed_new fuel (calls (length (printed l))) (sc_make (ts_make (src_make c0 (more chunks))), chunks) = Ret st evs /\
    elements evs = map (enc_event outcs) (printed l).
Proof.
  intros Ho Ha (Hf & Hd & Ht & Hc & p & rs & E & Hok & Et).
  assert (Hok' : all_ok (snd (a_run acs (map (app_call acs) l) (a_new sub)))).
  { destruct (run_state ocs acs sub _ Ha Hc) as [p0 [E0 _]]. rewrite E in E0. injection E0 as <- Ers.
    unfold all_ok. rewrite Ers in Hok. apply Forall_forall. intros r Hr. rewrite Forall_forall in Hok. specialize (Hok (fst r, enc ocs (snd r))).
    cbn [fst] in Hok. apply Hok. apply in_map_iff. exists r. auto. }
  split; [exact (printed_ordered acs sub l Hf Hd Hok')|]. split.
  { intros ->. apply (ok_no_header acs l (a_new true)); [discriminate|exact (calls_no_reset acs l _ Hd)|exact Hok']. }
  intros c0 chunks fuel Ec Hfu. destruct (C29_documents_partial ocs acs outcs sub l p rs Ho Ha Hf Hd Ht Hc E Hok) as (cl & E1 & _ & E3). rewrite Et in E1.
  destruct (E3 c0 chunks fuel) as (st & evs & Escan & Eel); [rewrite <- E1; exact Ec|rewrite <- E1; exact Hfu|]. exists st, evs. split; [exact Escan|].
  unfold elements. transitivity (map (fun e : etype * list N * xerror => fst e) (map element evs)); [rewrite map_map; reflexivity|]. rewrite Eel, map_map. apply map_ext. intros [t n]. reflexivity.
Qed.

(** ** C69: what is printed is selected.
    The text printed by the calls [l] is scanned in the character set of the document, in any chunks, with the character set [dcs] of the automaton as output
    character set; the elements are passed to the selector of the automaton with the expressions given as texts. Each type is reported with the elements of the
    document printed, not of its text. *)
Theorem C69_expressions : forall ocs acs sub l text scs dcs xs ps bs E, cs_constructible ocs = true -> cs_constructible acs = true -> prints ocs acs sub l text ->
  cs_constructible scs = true -> meant scs dcs xs ps bs -> (forall m, In m (prog_names ps) -> usable (default_cs dcs) m) -> paths_of ps = Some E -> Forall (fun x => wf_expr x = true) E ->
  forall c0 chunks fuel, text = concat (c0 :: chunks) -> (3 * length text + 13 <= fuel)%nat ->
  exists a zs st evs rs,
    add_texts scs dcs xs [] = Ret a zs /\ map (Z.eqb 0) zs = bs /\
    scanChunked ocs (xml_config ocs (default_cs dcs) None 0) feed_new fuel (calls (length (printed l))) (sc_make (ts_make (src_make c0 (more chunks))), chunks) = Ret st evs /\
    selects a (elements evs) rs /\ length rs = length (printed l) /\
    forall t i, (i < length (printed l))%nat -> reported t rs i = hits_of t E 0 (map (fun e => (fst e, flat_map (cs_print (default_cs dcs)) (snd e))) (printed l)) i.
Proof.
  intros ocs acs sub l text scs dcs xs ps bs E Ho Ha Hp Hs Hm Hu HE Hw c0 chunks fuel Et Hf.
  destruct (prints_scanned ocs acs sub l text (default_cs dcs) Ho Ha Hp) as (Hord & _ & Hsc). destruct (Hsc c0 chunks fuel Et Hf) as (st & evs & Escan & Eev).
  assert (Hord' : ordered PStart 0 (elements evs) = true) by (rewrite Eev, ordered_enc; exact Hord).
  destruct (C41_selects scs dcs xs ps bs E (elements evs) Hs Hm Hu HE Hw Hord') as (a & zs & rs & a' & rs' & X1 & X2 & X3 & X4 & X5 & X6 & X7).
  assert (Lel : length (elements evs) = length (printed l)) by (rewrite Eev, map_length; reflexivity).
  exists a, zs, st, evs, rs. split; [exact X1|]. split; [exact X2|]. split; [exact Escan|]. split; [exact X3|]. split; [transitivity (length (elements evs)); [exact X4|exact Lel]|]. intros t i Hi'. rewrite <- Lel in Hi'.
  destruct (X7 t i Hi') as [E7 _]. rewrite E7, Eev. reflexivity.
Qed.
Print Assumptions C69_expressions.

(** For tag paths and documents printed without header the reports are the ways of the paths through the open tags. *)
Theorem C69_paths : forall ocs acs l text scs dcs P, cs_constructible ocs = true -> cs_constructible acs = true -> prints ocs acs true l text ->
  cs_constructible scs = true -> bytewise (default_cs dcs) = true -> (forall n, In (POpen n) l \/ In (PrintSpec.PAttr n) l -> Forall (representable (default_cs dcs)) n) ->
  Forall (fun p => text_path (default_cs dcs) p /\ ParseTop.is_text scs (path_text p) /\ ~ double_colon (text_of scs (path_text p))) P ->
  forall c0 chunks fuel, text = concat (c0 :: chunks) -> (3 * length text + 13 <= fuel)%nat ->
  exists a st evs rs,
    add_texts scs dcs (map (fun p => (tp_type p, path_text p)) P) [] = Ret a (map (fun _ => 0%Z) P) /\
    scanChunked ocs (xml_config ocs (default_cs dcs) None 0) feed_new fuel (calls (length (printed l))) (sc_make (ts_make (src_make c0 (more chunks))), chunks) = Ret st evs /\
    selects a (elements evs) rs /\ length rs = length (printed l) /\
    forall t i, (i < length (printed l))%nat -> reported t rs i = matches_of t P (printed l) i.
Proof.
  intros ocs acs l text scs dcs0 P Ho Ha Hp Hs Hb Hk HP c0 chunks fuel Et Hf. set (dcs := default_cs dcs0) in *.
  assert (Hcs : cs_constructible dcs = true) by (clearbody dcs; clear -Hb; destruct dcs; cbn [bytewise] in Hb; try discriminate Hb; exact Hb).
  destruct (prints_scanned ocs acs true l text dcs Ho Ha Hp) as (Hord & Hnh & Hsc). destruct (Hsc c0 chunks fuel Et Hf) as (st & evs & Escan & Eev). specialize (Hnh eq_refl).
  assert (HPt : Forall (text_path dcs) P) by (eapply Forall_impl; [|exact HP]; intros p Hpp; apply Hpp).
  assert (Hm : meant scs dcs0 (map (fun p => (tp_type p, path_text p)) P) (map tag_calls (map (enc_path dcs) P)) (map (fun _ => true) P)).
  { clear -HP. induction HP as [|p P (Hp & Ht & Hc) HP IH]; cbn [map]; [constructor|].
    change (tag_calls (enc_path dcs p) :: map tag_calls (map (enc_path dcs) P)) with ([tag_calls (enc_path dcs p)] ++ map tag_calls (map (enc_path dcs) P)).
    rewrite <- path_programs by apply Hp. apply mt_yes; [exact Ht|exact Hc|apply (path_writes dcs), Hp|exact IH]. }
  assert (HG : Forall (good_path dcs) (map (enc_path dcs) P)) by (apply Forall_map; eapply Forall_impl; [|exact HPt]; apply path_good).
  assert (Hord' : ordered PStart 0 (elements evs) = true) by (rewrite Eev, ordered_enc; exact Hord).
  assert (HN : no_header (elements evs) = true).
  { rewrite Eev. apply forallb_forall. intros ev Hev. apply in_map_iff in Hev. destruct Hev as (ev0 & <- & Hev). revert ev0 Hev. apply Forall_forall. apply Forall_app.
    split; [|repeat constructor]. apply (del_forall (fun ev => match kind_of (fst (enc_event dcs ev)) with KHeader | KHdrEnd => false | _ => true end = true) l); try reflexivity; [|apply incl_refl|exact Hnh].
    intros t n _ _. unfold enc_event. cbn [fst]. unfold of_header. destruct (kind_of t); intro X; reflexivity || discriminate X. }
  assert (HK : Forall (key_ok dcs) (printed l)).
  { apply Forall_app. split; [|repeat constructor]. apply (del_forall (key_ok dcs) l); [intros n Hn; apply Hk; left; exact Hn|intros n Hn; apply Hk; right; exact Hn| |apply incl_refl|exact Hnh].
    intros t n H1 H2 H3. destruct t; try congruence; try exact Logic.I; discriminate H3. }
  destruct (C36_exact dcs (map (enc_path dcs) P) (elements evs) Hb HG HN Hord') as (a1 & rs1 & A1 & S1 & L1 & R1).
  destruct (C41_selects scs dcs0 _ _ _ (map tp_expr (map (enc_path dcs) P)) (elements evs) Hs Hm) as (a & zs & rs & a' & rs' & X1 & X2 & X3 & X4 & X5 & X6 & X7).
  - intros m Hin. unfold prog_names in Hin. apply in_flat_map in Hin. destruct Hin as (os & Hos & Hin). apply in_map_iff in Hos. destruct Hos as (p & <- & Hpp).
    apply good_usable; [exact Hb|]. rewrite Forall_forall in HG. eapply tags_names; [apply HG; exact Hpp|exact Hin].
  - apply paths_tags. eapply Forall_impl; [|exact HG]. intros p Hpp. apply Hpp.
  - apply Forall_forall. intros x Hx. apply in_map_iff in Hx. destruct Hx as (p & <- & Hpp). apply (tags_wf dcs); [exact Hb|]. rewrite Forall_forall in HG. apply HG, Hpp.
  - exact Hord'.
  - fold dcs in X5. rewrite A1 in X5. injection X5 as <-. assert (rs' = rs1) by (eapply selects_fun; eassumption). subst rs'.
    assert (Ez : zs = map (fun _ => 0%Z) P).
    { clear -X2. revert zs X2. induction P as [|p P IH]; intros [|z zs] X2; cbn [map] in *; try discriminate X2; [reflexivity|]. injection X2 as X2 X3. f_equal; [symmetry; apply Z.eqb_eq; exact X2|apply IH; exact X3]. }
    subst zs. exists a, st, evs, rs. split; [exact X1|]. split; [exact Escan|]. split; [exact X3|].
    assert (Lel : length (elements evs) = length (printed l)) by (rewrite Eev, map_length; reflexivity). split; [transitivity (length (elements evs)); [exact X4|exact Lel]|].
    intros t i Hi'. rewrite <- Lel in Hi'. destruct (X7 t i Hi') as [_ E7]. rewrite E7, R1 by exact Hi'. rewrite Eev. apply matches_enc; [exact Hcs|exact HPt|exact HK].
Qed.
Print Assumptions C69_paths.

(** <a><b x="1 &lt; 2"><c/>u</b>&#x444;</a>, printed in ISO-8859-1, with the paths of C52: "/a//b", "//*@x", "/a//()", "/a/b~" *)
Definition pipe_calls : list pcall :=
  [POpen (str "a"); POpen (str "b"); PrintSpec.PAttr (str "x"); PValue (str "1 < 2"); POpen (str "c"); PClose; PValue (str "u"); PClose; PValue [0x444]; PClose].
Definition pipe_text : list N := str "<a><b x=""1 &lt; 2""><c/>u</b>&#x444;</a>" ++ [10].
Lemma pipe_prints : prints (IsoLatin 1) UTF8 true pipe_calls pipe_text.
Proof.
  assert (Hn : forall s, nameb (name s) = true -> xml_name s).
  { intros s Hs. destruct (nameb_ok _ Hs) as [[H1 _] H2]. split; [|exact H1]. intros ->. apply H2. reflexivity. }
  split; [reflexivity|]. split.
  { unfold pipe_calls. cbn [doc_calls doc_call place_after oquoted].
    repeat match goal with
    | |- _ /\ _ => split
    | |- True => exact Logic.I
    | |- _ = _ => reflexivity
    | |- xml_name _ => apply Hn; vm_compute; reflexivity
    | |- _ <> _ => discriminate
    | |- _ -> Forall _ _ => intros ?H; first [exfalso; apply H; reflexivity|repeat (constructor; [discriminate|]); constructor]
    end. }
  split.
  { repeat (constructor; [unfold texts_ok; cbn [call_texts some_list app]; repeat (constructor; [repeat (constructor; [split; [vm_compute; reflexivity|split; [discriminate|split; [vm_compute; reflexivity|exact Logic.I]]]|]); constructor|]); constructor|]); constructor. }
  split.
  { split; [repeat (constructor; [cbn [app_call map_call call_ok omap_text osmall]; repeat split; try exact Logic.I; try (apply smallb_ok; vm_compute; reflexivity)|]); try constructor|vm_compute; discriminate]. }
  eexists _, _. split; [vm_compute; reflexivity|]. split; [repeat constructor|vm_compute; reflexivity].
Qed.
Example C69_case : prints (IsoLatin 1) UTF8 true pipe_calls pipe_text /\
  (forall n, In (POpen n) pipe_calls \/ In (PrintSpec.PAttr n) pipe_calls -> Forall (representable UTF8) n) /\
  printed pipe_calls = [(EOpenTag, str "a"); (EOpenTag, str "b"); (ETagAttribName, str "x"); (ETagAttribValue, str "1 < 2"); (EOpenTag, str "c"); (ECloseTagIm, []); (EContent, str "u");
    (ECloseTag, str "b"); (EContent, [0x444]); (ECloseTag, str "a"); (EContent, [10]); (EExit, [])] /\
  map (fun i => map (fun t => matches_of t select_paths (printed pipe_calls) i) [1; 2; 3; 4]%Z) (seq 0 12) =
    [[0; 0; 0; 0]; [1; 0; 0; 0]; [0; 0; 0; 0]; [0; 1; 0; 0]; [0; 0; 0; 0]; [0; 0; 0; 0]; [0; 0; 1; 0]; [0; 0; 0; 1]; [0; 0; 1; 0]; [0; 0; 0; 0]; [0; 0; 0; 0]; [0; 0; 0; 0]]%nat.
Proof.
  split; [exact pipe_prints|]. split.
  - intros n H. unfold pipe_calls in H. cbn [In] in H. apply Forall_forall. intros c Hc.
    assert (X : forallb (fun c => c <? 128) n = true) by (repeat match goal with H : _ \/ _ |- _ => destruct H as [H|H] | H : False |- _ => destruct H | H : _ = _ |- _ => first [discriminate H|injection H as <-] end; reflexivity).
    rewrite forallb_forall in X. specialize (X c Hc). cbn [representable]. lia.
  - split; vm_compute; reflexivity.
Qed.

(** A document with a header and an expression with a condition; the attributes of the header do not fulfil the condition on /a. *)
Definition cond_calls : list pcall := [PHeader None (Some (str "yes")); POpen (str "a"); PrintSpec.PAttr (str "x"); PValue (str "1"); POpen (str "b"); PValue (str "t"); PClose; PClose].
Definition cond_text : list N := str "<?xml version=""1.0"" encoding=""UTF-8"" standalone=""yes""?>" ++ [10] ++ str "<a x=""1""><b>t</b></a>" ++ [10].
Definition cond_exprs : list (Z * list N) := [(1%Z, str "/a[@x='1']/b()"); (2%Z, str "/a[@standalone='yes']/b()"); (3%Z, str "[")].
Definition cond_meaning := programs_for UTF8 1 (fst (parsed (str "/a[@x='1']/b()"))) ++ programs_for UTF8 2 (fst (parsed (str "/a[@standalone='yes']/b()"))).
Lemma cond_prints : prints (IsoLatin 1) UTF8 false cond_calls cond_text.
Proof.
  assert (Hn : forall s, nameb (name s) = true -> xml_name s).
  { intros s Hs. destruct (nameb_ok _ Hs) as [[H1 _] H2]. split; [|exact H1]. intros ->. apply H2. reflexivity. }
  split; [reflexivity|]. split.
  { unfold cond_calls. cbn [doc_calls doc_call place_after oquoted].
    repeat match goal with
    | |- _ /\ _ => split
    | |- True => exact Logic.I
    | |- ascii_based _ => exact Logic.I
    | |- quoted_id _ => unfold quoted_id, value_char, text_char; repeat (constructor; [repeat split; discriminate|]); constructor
    | |- _ = _ => reflexivity
    | |- xml_name _ => apply Hn; vm_compute; reflexivity
    | |- _ <> _ => discriminate
    | |- _ -> Forall _ _ => intros ?H; first [exfalso; apply H; reflexivity|repeat (constructor; [discriminate|]); constructor]
    end. }
  split.
  { repeat (constructor; [unfold texts_ok; cbn [call_texts some_list app]; repeat (constructor; [repeat (constructor; [split; [vm_compute; reflexivity|split; [discriminate|split; [vm_compute; reflexivity|exact Logic.I]]]|]); constructor|]); constructor|]); constructor. }
  split.
  { split; [repeat (constructor; [cbn [app_call map_call call_ok omap_text osmall]; repeat split; try exact Logic.I; try (apply smallb_ok; vm_compute; reflexivity)|]); try constructor|vm_compute; discriminate]. }
  eexists _, _. split; [vm_compute; reflexivity|]. split; [repeat constructor|vm_compute; reflexivity].
Qed.
Example C69_expressions_case : prints (IsoLatin 1) UTF8 false cond_calls cond_text /\ meant UTF8 UTF8 cond_exprs cond_meaning [true; true; false] /\
  (forall m, In m (prog_names cond_meaning) -> usable UTF8 m) /\
  exists E, paths_of cond_meaning = Some E /\ Forall (fun x => wf_expr x = true) E /\
    map (fun i => map (fun t => hits_of t E 0 (map (fun e => (fst e, flat_map (cs_print UTF8) (snd e))) (printed cond_calls)) i) [1; 2; 3]%Z) (seq 0 18) =
    repeat [0; 0; 0]%nat 12 ++ [[1; 0; 0]]%nat ++ repeat [0; 0; 0]%nat 5.
Proof.
  split; [exact cond_prints|]. split; [|split].
  - assert (T : forall l, In l (map snd cond_exprs) -> is_text UTF8 l /\ text_of UTF8 l = l) by (intros l Hl; apply ascii_text; revert l Hl; apply forallb_forall; vm_compute; reflexivity).
    cbn [cond_exprs map snd] in T. unfold cond_exprs, cond_meaning. rewrite <- (app_nil_r (programs_for UTF8 2 _)).
    apply mt_yes; [apply T; cbn; tauto|apply no_colons; vm_compute; reflexivity|apply written; vm_compute; reflexivity|].
    apply mt_yes; [apply T; cbn; tauto|apply no_colons; vm_compute; reflexivity|apply written; vm_compute; reflexivity|].
    apply mt_no; [apply T; cbn; tauto|right; split; [apply not_written; vm_compute; reflexivity|apply prefixes_ok; vm_compute; reflexivity]|apply mt_nil].
  - intros m Hm. apply good_usable; [reflexivity|]. apply good_nameb_ok. revert m Hm. apply forallb_forall. vm_compute. reflexivity.
  - eexists. split; [vm_compute; reflexivity|]. split; [repeat constructor|vm_compute; reflexivity].
Qed.
