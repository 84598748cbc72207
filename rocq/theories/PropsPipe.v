(** Selecting from every text: C52. *)
From Coq Require Import Lia ZifyBool ZifyNat.
From Verif Require Import Base Iter Charset CharsetSpec TextScanner XmlScanner XmlPrinter ReadSpec ScanSpec GrammarSpec PropsScan DocSpec DocCheck PropsDoc XmlSpec PropsXml
  BytesSpec BytesProofs PropsBytes ParseSpec PathAtm PathSelect PathSpec PathProg PathBuild3 PathMatch PathNames PathTags PathParse ParseTop PropsPath PropsParse PipeSpec PipeProofs.

(** [n] tags are open: no tag is closed that is not open *)
Fixpoint closes_open (n : nat) (els : list (etype * list N)) : bool :=
  match els with
  | [] => true
  | (EOpenTag, _) :: l => closes_open (S n) l
  | (ECloseTag, _) :: l | (ECloseTagIm, _) :: l => match n with O => false | S n => closes_open n l end
  | _ :: l => closes_open n l
  end.

Definition compat (g : gstate) (p : phase) : Prop :=
  match g with
  | GStart => p = PStart
  | GHeader | GTag => p = PAttr
  | GHeaderValue | GValue => p = PVal
  | _ => p <> PVal
  end.
Lemma grammar_ordered : forall els g p n, compat g p -> gaccept false g (map fst els) = true -> Forall (fun e => fst e <> EErrorOccurred) els ->
  closes_open n els = true -> ordered p n els = true.
Proof.
  induction els as [|[t v] l IH]; intros g p n Hc Hg He Hl; [reflexivity|]. inversion He as [|? ? He1 He2]; subst. cbn [fst] in He1.
  cbn [map fst gaccept] in Hg. cbn [ordered fst].
  destruct (gstep false g t) as [g'|] eqn:Eg; [|destruct t; try discriminate Hg; congruence].
  assert (Hg' : gaccept false g' (map fst l) = true) by (destruct t; try exact Hg; congruence). clear Hg.
  destruct t, g; cbn [gstep gbody] in Eg; try discriminate Eg; injection Eg as <-; cbn [compat] in Hc; cbn [closes_open] in Hl; cbn [kind_of];
    destruct p; try (exfalso; congruence); cbn [phase_after level_after];
    try (destruct n as [|n]; [discriminate Hl|]); (eapply IH; [|exact Hg'|exact He2|exact Hl]); cbn [compat]; congruence.
Qed.

Lemma reading_ordered : forall l els o, text_reads l els o -> closes_open 0 els = true -> ordered PStart 0 els = true.
Proof.
  intros l els o H Hl. pose proof (text_exits _ _ _ H) as X.
  assert (He : Forall (fun e => fst e <> EErrorOccurred) els).
  { assert (N : forall a, noexit a -> Forall (fun e : etype * list N => fst e <> EErrorOccurred) a).
    { intros a Ha. eapply Forall_impl; [|exact Ha]. intros [t v] Ht E. cbn [fst] in *. rewrite E in Ht. discriminate. }
    destruct o as [|e|]; cbn [exits] in X; [destruct X as [a [-> X]]; apply Forall_app; split; [apply N; exact X|repeat constructor; discriminate]|apply N; exact X|apply N; exact X]. }
  destruct (reads_k _ _ _ H) as [[k A] _]. destruct (A k (Nat.le_refl k)) as [s [evs [E1 E2]]].
  pose proof (C18_grammar_any_source_partial _ _ _ _ _ _ _ E1) as G.
  assert (T : map ev_type evs = map fst els).
  { transitivity (map (fun x : etype * list N * xerror => fst (fst x)) (map element evs)); [rewrite map_map; reflexivity|]. rewrite E2, map_map. reflexivity. }
  rewrite T in G. eapply grammar_ordered; [|exact G|exact He|exact Hl]. reflexivity.
Qed.
Lemma ordered_types : forall a b p n, map (fun e : PathSpec.event => fst e) a = map (fun e : PathSpec.event => fst e) b -> ordered p n a = ordered p n b.
Proof.
  induction a as [|x a IH]; intros [|y b] p n E; cbn [map] in E; try discriminate; [reflexivity|]. injection E as E1 E2. cbn [ordered]. rewrite E1.
  destruct (phase_after p (kind_of (fst y))), (level_after n (kind_of (fst y))); try reflexivity. apply IH. exact E2.
Qed.

(** ** C52 for every text of bytes: with the elements before the end of the text, the first error or the place where the scanner does not end, each type is reported as
    often as counted by [hits_of], as long as no tag is closed that is not open. *)
Theorem C52_texts : forall scs incs acs text els o xs ps bs E, cs_constructible scs = true -> cs_constructible incs = true -> Forall isByte text ->
  text_reads (letters incs text) els o -> closes_open 0 els = true ->
  meant scs acs xs ps bs -> (forall m, In m (prog_names ps) -> usable (default_cs acs) m) -> paths_of ps = Some E -> Forall (fun x => wf_expr x = true) E ->
  let outcs := default_cs acs in
  exists a zs rs, add_texts scs acs xs [] = Ret a zs /\ map (Z.eqb 0) zs = bs /\
    length rs = length els /\ (forall t i, (i < length els)%nat -> reported t rs i = hits_of t E 0 (map (fun e => (fst e, flat_map (BytesSpec.written incs outcs text) (snd e))) els) i) /\
    (forall fuel, (3 * length text + 4 <= fuel)%nat -> exists s evs, xml_scan incs outcs fuel (calls (length els)) text = Ret s evs /\ selects a (elements evs) rs) /\
    (complete_text incs text -> forall c0 chunks fuel, text = concat (c0 :: chunks) -> (3 * length text + 13 <= fuel)%nat -> exists st evs,
       scanChunked incs (xml_config incs outcs None 0) feed_new fuel (calls (length els)) (sc_make (ts_make (src_make c0 (more chunks))), chunks) = Ret st evs /\
       selects a (elements evs) rs).
Proof.
  intros scs incs acs text els o xs ps bs E Hs Hi Hb Hr Hl Hm Hu HE Hw outcs.
  set (D := map (fun e : etype * list N => (fst e, flat_map (BytesSpec.written incs outcs text) (snd e))) els).
  assert (Ho : ordered PStart 0 D = true).
  { rewrite (ordered_types D els); [eapply reading_ordered; eassumption|]. unfold D. rewrite map_map. reflexivity. }
  destruct (C41_selects scs acs xs ps bs E D Hs Hm Hu HE Hw Ho) as (a & zs & rs & a' & rs' & X1 & X2 & X3 & X4 & X5 & X6 & X7).
  assert (LD : length D = length els) by (unfold D; apply map_length).
  destruct (C59_bytes_elements incs outcs text els o Hi Hb Hr) as [S1 S2].
  assert (EV : forall evs, map element evs = bytes_deliver incs outcs text els -> elements evs = D).
  { intros evs Ee. unfold elements. transitivity (map (fun e : etype * list N * xerror => fst e) (map element evs)); [rewrite map_map; reflexivity|]. rewrite Ee. unfold bytes_deliver, D. rewrite map_map. reflexivity. }
  exists a, zs, rs. split; [exact X1|]. split; [exact X2|]. split; [etransitivity; [exact X4|exact LD]|]. split; [|split].
  - intros t i Hi'. apply X7. eapply Nat.lt_le_trans; [exact Hi'|]. apply Nat.eq_le_incl. symmetry. exact LD.
  - intros f Hf. destruct (S1 f Hf) as [s [evs [E1 E2]]]. exists s, evs. split; [exact E1|]. rewrite (EV _ E2). exact X3.
  - intros Hc c0 chunks f Ec Hf. destruct (S2 Hc c0 chunks f Ec Hf) as [s [evs [E1 E2]]]. exists s, evs. split; [exact E1|]. rewrite (EV _ E2). exact X3.
Qed.
Print Assumptions C52_texts.

(** the expressions of [sample_texts] and a text with an incomplete sequence of bytes and a tag that is not finished *)
Definition C52_text : list N := str "<a><b x=1>" ++ [0xE2; 0x82] ++ str "<c>t<b".
Example C52_texts_case : Forall isByte C52_text /\
  text_reads (letters UTF8 C52_text) [(EOpenTag, str "a"); (EOpenTag, str "b"); (ETagAttribName, str "x"); (ETagAttribValue, str "1"); (EContent, (2 ^ 32 + 10) :: str "c>t")] (Broken ErrExpectedTagAttribute) /\
  closes_open 0 [(EOpenTag, str "a"); (EOpenTag, str "b"); (ETagAttribName, str "x"); (ETagAttribValue, str "1"); (EContent, (2 ^ 32 + 10) :: str "c>t")] = true /\
  exists E, paths_of sample_meaning = Some E /\
    map (fun i => map (fun t => hits_of t E 0 (map (fun e => (fst e, flat_map (BytesSpec.written UTF8 UTF8 C52_text) (snd e)))
      [(EOpenTag, str "a"); (EOpenTag, str "b"); (ETagAttribName, str "x"); (ETagAttribValue, str "1"); (EContent, (2 ^ 32 + 10) :: str "c>t")]) i) [1; 3; 5]%Z) (seq 0 5) =
    [[0; 0; 0]; [0; 1; 0]; [0; 0; 0]; [0; 0; 1]; [1; 0; 0]]%nat.
Proof.
  assert (L : letters UTF8 C52_text = str "<a><b x=1>" ++ [2 ^ 32 + 10] ++ str "c>t<b") by (vm_compute; reflexivity).
  split; [vm_compute; repeat constructor|]. split; [|split; [vm_compute; reflexivity|]].
  - rewrite L. set (X := [2 ^ 32 + 10] ++ str "c>t<b").
    apply (tx_text [] [] (str "a><b x=1>" ++ X) [(EOpenTag, str "a")] false (str "<b x=1>" ++ X) [(EOpenTag, str "b"); (ETagAttribName, str "x"); (ETagAttribValue, str "1"); (EContent, (2 ^ 32 + 10) :: str "c>t")]); [constructor|apply longest_dec; reflexivity| |].
    + apply mk_tag; [discriminate|discriminate|discriminate|].
      apply (tg_tag _ (str "a") (str "><b x=1>" ++ X) [] false (str "><b x=1>" ++ X) []); [apply (tr_end CName (str "a")); [apply longest_dec; reflexivity|discriminate]|reflexivity| |apply te_gt].
      apply (ar_end false []); [constructor|reflexivity].
    + apply (ct_markup false [] (str "b x=1>" ++ X) [(EOpenTag, str "b"); (ETagAttribName, str "x"); (ETagAttribValue, str "1")] false X [(EContent, (2 ^ 32 + 10) :: str "c>t")]); [apply longest_dec; reflexivity| |].
      * apply mk_tag; [discriminate|discriminate|discriminate|].
        apply (tg_tag _ (str "b") (str " x=1>" ++ X) [(ETagAttribName, str "x"); (ETagAttribValue, str "1")] false (str ">" ++ X) []); [apply (tr_end CName (str "b")); [apply longest_dec; reflexivity|discriminate]|reflexivity| |apply te_gt].
        apply (ar_attr false (str " ") (str "x=1>" ++ X) [(ETagAttribName, str "x"); (ETagAttribValue, str "1")] false (str ">" ++ X) []); [discriminate|apply longest_dec; reflexivity|reflexivity| |].
        -- apply (tr_attr false _ (str "x") [] [] (str "1>" ++ X) [(ETagAttribValue, str "1")]); [|constructor|apply longest_dec; reflexivity|].
           ++ apply (tr_end CName (str "x")); [apply longest_dec; reflexivity|discriminate].
           ++ apply (vr_bare false _ (str "1") (str ">" ++ X)); [reflexivity| |reflexivity]. apply (tr_end CName (str "1")); [apply longest_dec; reflexivity|discriminate].
        -- apply (ar_end false []); [constructor|reflexivity].
      * apply (ct_text false X ((2 ^ 32 + 10) :: str "c>t") (str "<b") []); [discriminate|discriminate|discriminate| |].
        -- apply (tr_end CText ((2 ^ 32 + 10) :: str "c>t") (str "<b")); [apply longest_dec; reflexivity|discriminate].
        -- apply (ct_fails false [] (str "b")); [apply longest_dec; reflexivity|]. apply mk_tag; [discriminate|discriminate|discriminate|].
           apply (tg_follow _ (str "b") []); [apply (tr_end CName (str "b") []); [apply longest_dec; reflexivity|discriminate]|reflexivity].
  - eexists. split; [vm_compute; reflexivity|]. vm_compute. reflexivity.
Qed.
