(** Properties of the printer: C27-C29. *)
From Verif Require Import Base Iter CharMap CodePages Charset TextScanner Ideal CharsetSpec CharsetProofs CharsetMore ReadSpec ReadProofs CstrSim
  XmlScanner ScanSpec PropsScan DocSpec DocTop DocCheck PropsDoc XmlPrinter PrintSpec PrintProofs PrintChars PrintDoc.

(** the calls made with their success *)
Definition history (h : list pcall) (rs : list presult) : list (pcall * bool) := combine h (map fst rs).

Lemma run_state : forall ocs acs sub h, cs_constructible acs = true -> calls_ok h ->
  exists p, p_run ocs acs h (pr_new sub) = Ret p (map (fun r => (fst r, enc ocs (snd r))) (snd (a_run acs h (a_new sub)))) /\
    pr_is (fst (a_run acs h (a_new sub))) p /\ stack_size (a_stack (fst (a_run acs h (a_new sub)))) <= N.of_nat (opened h) /\
    a_good (fst (a_run acs h (a_new sub))) /\
    (forall rs, rs = map (fun r => (fst r, enc ocs (snd r))) (snd (a_run acs h (a_new sub))) ->
       a_stack (fst (a_run acs h (a_new sub))) = open_tags [] (history h rs) /\ a_place (fst (a_run acs h (a_new sub))) = place_of (history h rs)).
Proof.
  intros ocs acs sub h Hacs [H1 H2]. destruct (a_run_is ocs acs Hacs h (a_new sub) (pr_new sub) (pr_new_is sub) H1) as [p [E [Hp Hs]]].
  { change (stack_size (a_stack (a_new sub))) with 0. lia. }
  exists p. split; [exact E|]. split; [exact Hp|]. split; [change (stack_size (a_stack (a_new sub))) with 0 in Hs; lia|].
  split; [apply a_run_good; intros _; reflexivity|]. intros rs ->. unfold history. rewrite map_map. cbn [fst].
  pose proof (a_run_hist acs h (a_new sub)) as G. cbn zeta in G. destruct G as [G1 G2]. unfold oks in *.
  split; [exact G1|]. rewrite G2. unfold place_of. destruct sub; reflexivity.
Qed.

(** ** C27: tags are balanced. Whatever calls were made before, a close call ends the innermost open tag: [T n] is what was printed as name
    when it was opened with the bytes [n]. It fails if no tag is open, for a tag opened with an empty name, and behind an attribute name; then
    nothing is printed. *)
Theorem C27_balanced : forall ocs acs, cs_constructible acs = true -> exists T : list N -> list N,
  (forall cl, Forall (fun c => representable (default_cs acs) c /\ c <> 0) cl -> T (flat_map (spec_encode (default_cs acs)) cl) = flat_map (cs_print ocs) cl) /\
  forall sub h, calls_ok h -> exists p rs, p_run ocs acs h (pr_new sub) = Ret p rs /\
    let pl := place_of (history h rs) in
    let print := flat_map (cs_print ocs) in
    (forall n, calls_ok (h ++ [POpen n]) -> exists p' ok b, p_do ocs acs (POpen n) p = Ret p' (ok, b) /\
       b = if ok then (match pl with InContent => [] | _ => print [62] end) ++ print [60] ++ T n else []) /\
    exists p' ok b, p_do ocs acs PClose p = Ret p' (ok, b) /\
      match open_tags [] (history h rs) with
      | [] => ok = false /\ b = []
      | n :: outer =>
          (ok = true <-> n <> [] /\ pl <> InAttribute) /\
          b = if ok
              then match pl with InStartTag => print (str "/>") | _ => print (str "</") ++ T n ++ print [62] end ++
                   match outer with [] => print [10] | _ => [] end
              else []
      end.
Proof.
  intros ocs acs Hacs. exists (fun n => flat_map (cs_print ocs) (dec_text acs n)). split.
  { intros cl Hcl. f_equal. unfold dec_text. rewrite <- (flat_map_ext_Forall _ (cs_print (default_cs acs)) (spec_encode (default_cs acs)) cl Hcl).
    - apply text_chars_print; [apply default_constructible; exact Hacs| |]; (eapply Forall_impl; [|exact Hcl]); intros c Hc; apply Hc.
    - intros c [Hc _]. apply print_spec; [apply default_constructible; exact Hacs|exact Hc]. }
  intros sub h Hh. destruct (run_state ocs acs sub h Hacs Hh) as [p [E [Hp [Hs [Hgood Hhist]]]]]. eexists p, _. split; [exact E|]. cbv zeta.
  destruct (Hhist _ eq_refl) as [<- <-]. set (a := fst (a_run acs h (a_new sub))) in *. clearbody a. destruct Hh as [Hh1 Hh2]. split.
  - intros n [Hn1 Hn2]. rewrite opened_app in Hn2. rewrite Forall_app in Hn1. destruct Hn1 as [_ Hn1]. inversion Hn1 as [|? ? Hn _]; subst.
    destruct (a_do_is ocs acs Hacs (POpen n) a p Hp Hn) as [p' [E' _]]; [lia|]. eexists p', _, _. split; [exact E'|].
    destruct a as [st stk]. unfold a_place. destruct st; cbn [a_do aexit a_state fst snd]; unfold aexit; cbn [a_state fst snd]; rewrite ?enc_app; reflexivity.
  - destruct (a_do_is ocs acs Hacs PClose a p Hp I) as [p' [E' _]]; [cbn [opened map list_sum fold_right]; lia|]. eexists p', _, _. split; [exact E'|].
    destruct a as [st stk]. unfold a_good in Hgood. cbn [a_state a_stack a_do] in *. destruct stk as [|n stk]; [split; reflexivity|]. unfold a_place. cbn [a_state].
    destruct n as [|c0 n0]; [cbn [fst snd]; split; [|reflexivity]; split; [discriminate|intros [[] _]; reflexivity]|].
    destruct st; cbn [fst snd].
    + specialize (Hgood eq_refl). discriminate.
    + split; [split; [intros _; split; discriminate|reflexivity]|]. rewrite !enc_app. rewrite <- !app_assoc. destruct stk; reflexivity.
    + split; [split; [discriminate|intros [_ []]; reflexivity]|reflexivity].
    + split; [split; [intros _; split; discriminate|reflexivity]|]. rewrite enc_app. destruct stk; reflexivity.
Qed.
Print Assumptions C27_balanced.

Lemma smallb_ok : forall l, forallb (fun b => b <? 256) l && (N.of_nat (length l) <? 1000) = true -> small l.
Proof. apply lit_small. Qed.
Example C27_case :
  let h := [PHeader None None; PClose; POpen (str "a"); PAttr (str "x"); PClose; PValue (str "1"); POpen (str "b"); PCopy; PAttr (str "y"); PAttr (str "z");
            PValue (str "<2>"); PClose; PValue (str "text")] in
  calls_ok h /\
  exists p rs, p_run UTF8 UTF8 h (pr_new false) = Ret p rs /\
    map fst rs = [true; false; true; true; false; true; true; true; true; false; true; true; true] /\
    open_tags [] (history h rs) = [str "a"] /\ place_of (history h rs) = InContent /\
    concat (map snd rs) = str "<?xml version=""1.0"" encoding=""UTF-8""?>" ++ [10] ++ str "<a x=""1""><b y=""&lt;2&gt;""/>text" /\
    exists p', p_do UTF8 UTF8 PClose p = Ret p' (true, str "</a>" ++ [10]).
Proof.
  cbv zeta. split.
  { split; [repeat (constructor; [first [exact I|apply smallb_ok; reflexivity|split; exact I]|]); constructor|vm_compute; discriminate]. }
  eexists _, _. split; [vm_compute; reflexivity|]. repeat (split; [vm_compute; reflexivity|]). eexists. vm_compute. reflexivity.
Qed.

(** ** C28: escaping. Any bytes printed as value stand for the characters [cl]; what is printed is a text where all the characters [bad]
    of [cl] are replaced by references, so that an ampersand only starts a reference. *)
Definition bad_in_attribute : list N := [60; 62; 38; 34; 39; 8; 9; 10; 13].
Definition bad_in_content : list N := [60; 62; 38; 8].
Theorem C28_escaped : forall ocs acs src, cs_constructible ocs = true -> cs_constructible acs = true -> small src ->
  exists cl,
  (forall cl0, Forall (fun c => representable (default_cs acs) c /\ c <> 0) cl0 -> src = flat_map (spec_encode (default_cs acs)) cl0 -> cl = cl0) /\
  (Forall (printable ocs) cl ->
   exists ea ec, escaped bad_in_attribute ea cl /\ escaped bad_in_content ec cl /\
     forall sub h p rs, calls_ok h -> p_run ocs acs h (pr_new sub) = Ret p rs ->
       exists p' ok b, p_do ocs acs (PValue src) p = Ret p' (ok, b) /\
         let print := flat_map (spec_encode ocs) in
         b = if ok
             then match place_of (history h rs) with
                  | InAttribute => print [34] ++ print ea ++ print [34]
                  | InStartTag => print [62] ++ print ec
                  | InContent => print ec
                  end
             else []).
Proof.
  intros ocs acs src Hocs Hacs Hsrc. exists (dec_text acs src). split.
  { intros cl Hcl ->. unfold dec_text. rewrite <- (flat_map_ext_Forall _ (cs_print (default_cs acs)) (spec_encode (default_cs acs)) cl Hcl).
    - apply text_chars_print; [apply default_constructible; exact Hacs| |]; (eapply Forall_impl; [|exact Hcl]); intros c Hc; apply Hc.
    - intros c [Hc _]. apply print_spec; [apply default_constructible; exact Hacs|exact Hc]. }
  intros Hpr. pose proof (dec_text_range acs src Hacs (proj1 Hsrc)) as Hrange.
  assert (Hr : Forall (in_range ocs) (dec_text acs src)).
  { apply Forall_forall. intros c Hc. rewrite Forall_forall in Hpr, Hrange. split; auto. }
  set (cl := dec_text acs src) in *.
  exists (flat_map (piece (attr_ref ocs)) cl), (flat_map (piece (content_ref ocs)) cl).
  assert (Hbad : forall f bad, forallb (fun c => match f c with None => false | Some _ => true end) bad = true -> forall c : N, In c bad -> f c <> @None ref).
  { intros f bad H c Hc. rewrite forallb_forall in H. specialize (H c Hc). destruct (f c); congruence. }
  split; [apply (pieces_escaped ocs); [apply attr_right|apply Hbad; reflexivity|exact Hr]|].
  split; [apply (pieces_escaped ocs); [apply content_right|apply Hbad; reflexivity|exact Hr]|].
  intros sub h p rs Hh E. destruct (run_state ocs acs sub h Hacs Hh) as [p0 [E0 [Hp [Hs [Hgood Hhist]]]]]. rewrite E in E0. injection E0 as <- Ers.
  destruct (Hhist rs Ers) as [_ <-]. set (a := fst (a_run acs h (a_new sub))) in *. clearbody a.
  destruct (a_do_is ocs acs Hacs (PValue src) a p Hp Hsrc) as [p' [E' _]]; [destruct Hh; cbn [opened map list_sum fold_right]; lia|].
  eexists p', _, _. split; [exact E'|]. cbv zeta.
  assert (Ha : enc ocs (flat_map (esc_of attr_escapes) cl) = flat_map (spec_encode ocs) (flat_map (piece (attr_ref ocs)) cl)).
  { rewrite (enc_pieces ocs (attr_ref ocs)); [|intros; apply attr_piece; assumption|exact Hr]. apply enc_spec; [exact Hocs|]. apply pieces_repr; [apply attr_right|exact Hr]. }
  assert (Hc : enc ocs (flat_map (esc_of content_escapes) cl) = flat_map (spec_encode ocs) (flat_map (piece (content_ref ocs)) cl)).
  { rewrite (enc_pieces ocs (content_ref ocs)); [|intros; apply content_piece; assumption|exact Hr]. apply enc_spec; [exact Hocs|]. apply pieces_repr; [apply content_right|exact Hr]. }
  assert (H34 : flat_map (spec_encode ocs) [34] = enc ocs [34]) by (symmetry; apply enc_spec; [exact Hocs|constructor; [apply ascii_repr; lia|constructor]]).
  assert (H62 : flat_map (spec_encode ocs) [62] = enc ocs [62]) by (symmetry; apply enc_spec; [exact Hocs|constructor; [apply ascii_repr; lia|constructor]]).
  rewrite H34, H62, <- Ha, <- Hc, <- !enc_app.
  destruct a as [st stk]. unfold a_place. cbn [a_do a_state]. destruct st; cbn [fst snd]; unfold aexit; cbn [a_state fst snd]; reflexivity.
Qed.
Print Assumptions C28_escaped.

(** so markup characters do not occur in the text printed *)
Theorem C28_no_markup : forall bad e cl x, escaped bad e cl -> In x bad -> In x [60; 62; 34; 39; 8; 9; 10; 13] -> ~ In x e.
Proof.
  intros bad e cl x H Hb Hx. induction H as [|c e cl Hc H IH|r e cl Hr H IH]; [intros []| |].
  - intros [->|Hin]; auto.
  - rewrite in_app_iff. intros [Hin|Hin]; [|auto]. clear IH H Hb. assert (Hd : Forall (fun y => y = 38 \/ y = 35 \/ y = 59 \/ 48 <= y <= 57 \/ 65 <= y <= 90 \/ 97 <= y <= 122) (ref_src r)).
    { assert (Hlit : forall l, forallb (fun y => (y =? 38) || (y =? 35) || (y =? 59) || ((48 <=? y) && (y <=? 57)) || ((65 <=? y) && (y <=? 90)) || ((97 <=? y) && (y <=? 122))) l = true ->
        Forall (fun y => y = 38 \/ y = 35 \/ y = 59 \/ 48 <= y <= 57 \/ 65 <= y <= 90 \/ 97 <= y <= 122) l).
      { intros l Hl. apply Forall_forall. intros y Hy. rewrite forallb_forall in Hl. specialize (Hl y Hy). lia. }
      destruct r as [ds|ds| | | | |]; cbn [ref_src ref_ok] in *; [| |apply Hlit; reflexivity|apply Hlit; reflexivity|apply Hlit; reflexivity|apply Hlit; reflexivity|apply Hlit; reflexivity];
      destruct Hr as [Hd _]; apply Forall_app; (split; [apply Hlit; reflexivity|]); apply Forall_app; (split; [|apply Hlit; reflexivity]);
      (eapply Forall_impl; [|exact Hd]); intros y Hy; unfold dec_digit, hex_digit in Hy; lia. }
    rewrite Forall_forall in Hd. specialize (Hd x Hin). cbn [In] in Hx. lia.
Qed.
Print Assumptions C28_no_markup.

Example C28_case : let cl := str "<a x='&amp;'>" ++ [0x20AC; 13] in
  small (flat_map (spec_encode UTF8) cl) /\ Forall (fun c => representable UTF8 c /\ c <> 0) cl /\ Forall (printable (IsoLatin 1)) cl /\
  exists p b, p_run (IsoLatin 1) UTF8 [POpen (str "a"); PValue (flat_map (spec_encode UTF8) cl)] (pr_new true) = Ret p [(true, str "<a"); (true, b)] /\
    b = str ">&lt;a x='&amp;amp;'&gt;&#x20ac;" ++ [13].
Proof.
  cbv zeta. split; [apply smallb_ok; vm_compute; reflexivity|]. split; [repeat (constructor; [split; [vm_compute; reflexivity|discriminate]|]); constructor|].
  split; [repeat (constructor; [exact I|]); constructor|]. eexists _, _. split; vm_compute; reflexivity.
Qed.

(** ** C29: printed documents are scanned to what was printed.
    Attribute values are scanned exactly as they were printed; the texts of contents, of the header and of the doctype with their ends of line normalised
    ([eol], as a carriage return is not printed as reference there). Not covered: attribute names without value and application character sets not based on ASCII. *)
Theorem C29_documents_partial : forall ocs acs outcs sub l p rs, cs_constructible ocs = true -> cs_constructible acs = true ->
  doc_first sub l -> doc_calls acs InContent l -> Forall (texts_ok ocs acs) l -> calls_ok (map (app_call acs) l) ->
  p_run ocs acs (map (app_call acs) l) (pr_new sub) = Ret p rs -> Forall (fun r => fst r = true) rs ->
  let text := concat (map snd rs) in
  let els := delivered InContent false [] [] l ++ [(EExit, [])] in
  exists cl, text = flat_map (cs_print ocs) cl /\ scans_to ocs outcs cl els /\ scans_to_chunks ocs outcs cl els.
Proof.
  intros ocs acs outcs sub l p rs Hocs Hacs Hf Hd Ht Hsz E Hok text els.
  destruct (run_state ocs acs sub _ Hacs Hsz) as [p0 [E0 _]]. rewrite E in E0. injection E0 as <- Ers.
  assert (Hok' : all_ok (snd (a_run acs (map (app_call acs) l) (a_new sub)))).
  { unfold all_ok. rewrite Ers in Hok. apply Forall_forall. intros r Hr. rewrite Forall_forall in Hok. specialize (Hok (fst r, enc ocs (snd r))).
    cbn [fst] in Hok. apply Hok. apply in_map_iff. exists r. auto. }
  destruct (doc_print ocs acs Hocs Hacs sub l Hf Ht Hd Hok') as [d [D1 [D2 [D3 D4]]]]. exists (doc_src d).
  assert (Et : text = flat_map (cs_print ocs) (doc_src d)).
  { change (flat_map (cs_print ocs) (doc_src d)) with (enc ocs (doc_src d)). rewrite <- D3. unfold text. rewrite Ers.
    generalize (snd (a_run acs (map (app_call acs) l) (a_new sub))). intros q. induction q as [|r q IH]; [reflexivity|]. cbn [map concat flat_map snd]. rewrite enc_app, IH. reflexivity. }
  split; [exact Et|]. unfold els. rewrite <- D4. split; [apply C46_documents; assumption|apply C46_documents_in_chunks; assumption].
Qed.
Print Assumptions C29_documents_partial.

Example C29_case :
  let l := [PHeader None (Some (str "yes")); PDoctype (Some (str "a")) None (Some (str "a.dtd")); POpen (str "a"); PAttr (str "x"); PValue (str "1 < ""2""" ++ [13; 10; 0x20AC]);
            POpen (str "b"); PClose; PValue (str "te" ++ [13] ++ str "xt" ++ [13]); PValue ([10] ++ str " & more"); POpen [0x444]; PExit; PClose; PClose] in
  doc_first false l /\ doc_calls UTF8 InContent l /\ Forall (texts_ok (IsoLatin 5) UTF8) l /\ calls_ok (map (app_call UTF8) l) /\
  (exists p rs, p_run (IsoLatin 5) UTF8 (map (app_call UTF8) l) (pr_new false) = Ret p rs /\ forallb fst rs = true /\
     concat (map snd rs) = str "<?xml version=""1.0"" encoding=""UTF-8"" standalone=""yes""?>" ++ [10] ++
       str "<!DOCTYPE a SYSTEM ""a.dtd""><a x=""1 &lt; &quot;2&quot;&#13;&#10;&#x20ac;""><b/>te" ++ [13] ++ str "xt" ++ [13; 10] ++ str " &amp; more<&#x444;></&#x444;></a>" ++ [10]) /\
  delivered InContent false [] [] l =
    [(EHeaderStart, str "?xml"); (EHeaderAttribName, str "version"); (EHeaderAttribValue, str "1.0"); (EHeaderAttribName, str "encoding"); (EHeaderAttribValue, str "UTF-8");
     (EHeaderAttribName, str "standalone"); (EHeaderAttribValue, str "yes"); (EHeaderEnd, []);
     (EDocAttribValue, str "DOCTYPE"); (EDocAttribValue, str "a"); (EDocAttribValue, str "SYSTEM"); (EDocAttribValue, str "a.dtd"); (EDocAttribEnd, []);
     (EOpenTag, str "a"); (ETagAttribName, str "x"); (ETagAttribValue, str "1 < ""2""" ++ [13; 10; 0x20AC]); (EOpenTag, str "b"); (ECloseTagIm, []);
     (EContent, str "te" ++ [10] ++ str "xt" ++ [10] ++ str " & more"); (EOpenTag, [0x444]); (ECloseTag, [0x444]); (ECloseTag, str "a"); (EContent, [10])].
Proof.
  cbv zeta. split; [reflexivity|].
  assert (Hn : forall s, nameb (name s) = true -> xml_name s).
  { intros s Hs. destruct (nameb_ok _ Hs) as [[H1 _] H2]. split; [|exact H1]. intros ->. apply H2. reflexivity. }
  split.
  { cbn [doc_calls doc_call place_after oquoted].
    repeat match goal with
    | |- _ /\ _ => split
    | |- True => exact I
    | |- ascii_based _ => exact I
    | |- _ = _ => reflexivity
    | |- xml_name _ => apply Hn; vm_compute; reflexivity
    | |- quoted_id _ => unfold quoted_id, value_char, text_char; repeat (constructor; [repeat split; discriminate|]); constructor
    | |- _ <> _ => discriminate
    | |- _ -> Forall _ _ => intros ?H; first [exfalso; apply H; reflexivity|repeat (constructor; [discriminate|]); constructor]
    end. }
  split.
  { repeat (constructor; [unfold texts_ok; cbn [call_texts some_list app]; repeat (constructor; [repeat (constructor; [split; [vm_compute; reflexivity|split; [discriminate|split; [vm_compute; reflexivity|exact I]]]|]); constructor|]); constructor|]); constructor. }
  split.
  { split; [repeat (constructor; [cbn [app_call map_call call_ok omap_text osmall]; repeat split; try exact I; try (apply smallb_ok; vm_compute; reflexivity)|]); try constructor|vm_compute; discriminate]. }
  split; [eexists _, _; split; [vm_compute; reflexivity|split; vm_compute; reflexivity]|vm_compute; reflexivity].
Qed.

(** The property does not hold for all documents: a carriage return in content is printed as it is and scanned as newline; the header is
    destroyed if the character set of the application is not based on ASCII; a tag may be opened behind an attribute name without value,
    then an empty value is scanned. *)
Theorem C29_refuted :
  (exists p rs s evs, p_run UTF8 UTF8 [POpen (str "a"); PValue [120; 13; 121]; PClose] (pr_new true) = Ret p rs /\ forallb fst rs = true /\
     xml_scan UTF8 UTF8 100 (calls 5) (concat (map snd rs)) = Ret s evs /\
     elements evs = [(EOpenTag, str "a"); (EContent, [120; 10; 121]); (ECloseTag, str "a"); (EContent, [10]); (EExit, [])]) /\
  (exists p rs s evs, p_run UTF8 (UTF16 true) (map (app_call (UTF16 true)) [PHeader None None; POpen (str "a"); PClose]) (pr_new false) = Ret p rs /\ forallb fst rs = true /\
     xml_scan UTF8 UTF8 100 (calls 1) (concat (map snd rs)) = Ret s evs /\ map fst (elements evs) = [EErrorOccurred]) /\
  (exists p rs s evs, p_run UTF8 UTF8 [POpen (str "a"); PAttr (str "x"); POpen (str "b"); PClose; PClose] (pr_new true) = Ret p rs /\ forallb fst rs = true /\
     concat (map snd rs) = str "<a x=><b/></a>" ++ [10] /\
     xml_scan UTF8 UTF8 100 (calls 4) (concat (map snd rs)) = Ret s evs /\ elements evs = [(EOpenTag, str "a"); (ETagAttribName, str "x"); (ETagAttribValue, []); (EOpenTag, str "b")]).
Proof. repeat split; do 4 eexists; repeat (split; [vm_compute; reflexivity|]); vm_compute; reflexivity. Qed.
Print Assumptions C29_refuted.
