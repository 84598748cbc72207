(** C16, C15: texts without sections. *)
From Verif Require Import Base Iter CharMap CodePages Charset TextScanner XmlScanner CharsetSpec CharsetProofs ReadSpec ReadProofs ScanSpec ScanProofs Ideal ReaderSim ScanTop SourceSim MaskProofs EndsSpec Ends PropsScan PropsDoc PropsSource.

(** ** C16. In texts without comments, CDATA sections, processing instructions and entity lists every call ends. *)
Theorem C16_ends_partial : forall incs outcs masks cl fuel, cs_constructible incs = true -> Forall (representable incs) cl -> without_sections cl ->
  (3 * length cl + 3 < fuel)%nat -> exists s evs, xml_scan incs outcs fuel masks (flat_map (cs_print incs) cl) = Ret s evs.
Proof.
  intros incs outcs masks cl fuel Hcs Hr Hw Hf. pose proof (sections_end incs outcs masks cl fuel Hcs Hr Hw Hf) as H.
  pose proof (xml_scan_clean incs outcs fuel masks _ Hcs (print_bytes incs cl Hcs Hr)) as C.
  destruct (xml_scan incs outcs fuel masks _) as [s evs| | | |]; cbn [clean] in C; try contradiction; eauto; congruence.
Qed.
Print Assumptions C16_ends_partial.
(** a text with a header, a document type, errors in the tags and brackets and dashes elsewhere *)
Definition ends_text : list N := str "<?xml version='1.0'?> <!DOCTYPE a 'b?'><a b=1 c->x - y? ! </a <".
Lemma without_sections_dec : forall pre l,
  (fix go (pre l : list N) := match l with
    | [] => true
    | c :: r => (if c =? 60 then match behind_blanks r with
                   | x :: t => (if x =? 63 then forallb (fun c => (1 <=? c) && (c <=? 32)) pre else true) && (if x =? 33 then negb (hd 0 t =? 45) && negb (existsb (N.eqb 91) t) else true)
                   | [] => true end else true) && go (pre ++ [c]) r end) pre l = true ->
  forall p r, l = p ++ 60 :: r -> match behind_blanks r with
  | c :: t => (c = ch "?" -> blanks (pre ++ p)) /\ (c = ch "!" -> hd 0 t <> ch "-" /\ ~ In (ch "[") t)
  | [] => True
  end.
Proof.
  intros pre l. revert pre. induction l as [|c l IH]; intros pre H p r E; [destruct p; discriminate|].
  apply andb_prop in H. destruct H as [H1 H2]. destruct p as [|q p]; cbn [app] in E; injection E as -> ->.
  - cbn [N.eqb Pos.eqb] in H1. destruct (behind_blanks r) as [|x t]; [exact I|]. apply andb_prop in H1. destruct H1 as [H3 H4]. rewrite app_nil_r. split; intros Ex.
    + replace (x =? 63) with true in H3 by (rewrite Ex; reflexivity). unfold blanks. rewrite forallb_forall in H3. apply Forall_forall. intros y Hy. specialize (H3 y Hy). lia.
    + replace (x =? 33) with true in H4 by (rewrite Ex; reflexivity). apply andb_prop in H4. destruct H4 as [H4 H5]. split; [intros E; rewrite E in H4; discriminate|]. intros Hin. apply negb_true_iff in H5.
      assert (existsb (N.eqb 91) t = true) by (apply existsb_exists; exists 91; auto). congruence.
  - specialize (IH (pre ++ [q]) H2 p r eq_refl). rewrite <- app_assoc in IH. exact IH.
Qed.
Example C16_ends_case : Forall (representable UTF8) ends_text /\ without_sections ends_text /\
  exists s evs, xml_scan UTF8 UTF8 (3 * length ends_text + 4) (calls 12) (flat_map (cs_print UTF8) ends_text) = Ret s evs /\
  map ev_type evs = [EHeaderStart; EHeaderAttribName; EHeaderAttribValue; EHeaderEnd; EDocAttribValue; EDocAttribValue; EDocAttribValue; EDocAttribEnd; EOpenTag; ETagAttribName; ETagAttribValue; EErrorOccurred].
Proof.
  split; [apply repr_dec; vm_compute; reflexivity|]. split; [intros p r E; apply (without_sections_dec [] ends_text ltac:(vm_compute; reflexivity) p r E)|].
  eexists. eexists. split; vm_compute; reflexivity.
Qed.

(** ** C15. Nothing behind the null terminator of a char* is read for such texts. *)
Lemma whole_print : forall cs cl, cs_constructible cs = true -> Forall (representable cs) cl -> whole cs (flat_map (cs_print cs) cl).
Proof.
  intros cs cl Hcs Hr. induction Hr as [|c cl Hc Hr IH]; cbn [flat_map]; [constructor|]. apply whole_char; rewrite clen_print by assumption.
  - rewrite app_length. lia.
  - rewrite skipn_app_exact by reflexivity. exact IH.
Qed.
Theorem C15_charptr_partial : forall incs outcs masks cl fuel, cs_constructible incs = true -> Forall (representable incs) cl -> without_sections cl ->
  (3 * length cl + 3 < fuel)%nat ->
  exists s evs, scan (ts_ops cptr_ops incs) (xml_config incs outcs None 0) fuel masks
    (sc_make (ts_make (mkCptr (flat_map (cs_print incs) cl ++ repeat 0 (null_size incs)) 0))) = Ret s evs.
Proof.
  intros incs outcs masks cl fuel Hcs Hr Hw Hf. destruct (C16_ends_partial incs outcs masks cl fuel Hcs Hr Hw Hf) as [s [evs E]].
  replace (repeat 0 (null_size incs)) with (term incs) by (destruct incs as [|[]|[]|[]|p]; reflexivity).
  destruct (cptr_scan incs outcs None 0 Hcs fuel masks _ s evs (print_bytes incs cl Hcs Hr) (whole_print incs cl Hcs Hr) E) as [s' [evs' [H _]]]. eauto.
Qed.
Print Assumptions C15_charptr_partial.
