(** The language read by the scanner: C59, and with it C16, C46. *)
From Verif Require Import Base Iter CharMap CodePages Charset TextScanner Ideal
  CharsetSpec CharsetProofs CharsetMore ReadSpec ReadProofs ChunkRead XmlScanner ScanSpec ScanProofs CharReader ChunkScan ChunkTop ScanTop PropsScan
  DocSpec SectSpec XmlSpec DocProofs DocScan DocTop DocCheck PropsDoc OpenScan FuelMono Term XmlRuns XmlTop XmlTotal.

(** The elements [els] are delivered and the call after them reports the error [e]. *)
Definition breaks_after (incs outcs : charset) (cl : list N) (els : list (etype * list N)) (e : xerror) : Prop :=
  let text := flat_map (cs_print incs) cl in
  forall fuel, (3 * length text + 4 <= fuel)%nat ->
  exists s evs item, xml_scan incs outcs fuel (calls (S (length els))) text = Ret s evs /\
    map element evs = map (fun p => (fst p, flat_map (cs_print outcs) (snd p), Ok)) els ++ [(EErrorOccurred, item, e)].
Definition breaks_after_chunks (incs outcs : charset) (cl : list N) (els : list (etype * list N)) (e : xerror) : Prop :=
  let text := flat_map (cs_print incs) cl in
  forall c0 chunks fuel, text = concat (c0 :: chunks) -> (3 * length text + 13 <= fuel)%nat ->
  exists st evs item, scanChunked incs (xml_config incs outcs None 0) feed_new fuel (calls (S (length els)))
      (sc_make (ts_make (src_make c0 (more chunks))), chunks) = Ret st evs /\
    map element evs = map (fun p => (fst p, flat_map (cs_print outcs) (snd p), Ok)) els ++ [(EErrorOccurred, item, e)].

(** ** C59: the rules of [text_reads] say for every text what is delivered, and how it ends *)
Theorem C59_total : forall cl, exists els o, text_reads cl els o.
Proof. exact text_total. Qed.
Print Assumptions C59_total.

Theorem C59_elements : forall incs outcs cl els o, cs_constructible incs = true -> Forall (representable incs) cl -> text_reads cl els o ->
  scans_to incs outcs cl els /\ scans_to_chunks incs outcs cl els.
Proof.
  intros incs outcs cl els o Hcs Hr H.
  assert (S1 : scans_to incs outcs cl els).
  { intros f Hf. rewrite <- delivered_plain. apply k_to_xml; auto. exact (first_elements (kplain outcs) mask_all mask_all_full _ _ _ _ (x_text (kplain outcs) mask_all mask_all_full _ _ _ H) (repeat 0 16) eq_refl). }
  split; [exact S1|]. intros c0 chunks f E Hf. apply (xml_to_chunks incs outcs _ cl); auto.
Qed.
Print Assumptions C59_elements.

Theorem C59_errors : forall incs outcs cl els e, cs_constructible incs = true -> Forall (representable incs) cl -> text_reads cl els (Broken e) ->
  breaks_after incs outcs cl els e /\ breaks_after_chunks incs outcs cl els e.
Proof.
  intros incs outcs cl els e Hcs Hr H.
  destruct (first_fails (kplain outcs) mask_all mask_all_full _ _ _ _ (x_text (kplain outcs) mask_all mask_all_full _ _ _ H) (repeat 0 16) eq_refl) as [k [s [evs [item [E1 E2]]]]].
  assert (S1 : forall f, (3 * length (flat_map (cs_print incs) cl) + 4 <= f)%nat -> exists s evs, xml_scan incs outcs f (calls (S (length els))) (flat_map (cs_print incs) cl) = Ret s evs /\
     map element evs = map (fun p => (fst p, flat_map (cs_print outcs) (snd p), Ok)) els ++ [(EErrorOccurred, item, e)]).
  { rewrite <- delivered_plain. apply k_to_xml; auto. exists k, s, evs. split; [exact E1|exact E2]. }
  split.
  - intros f Hf. destruct (S1 f Hf) as [s' [evs' H']]. exists s', evs', item. exact H'.
  - intros c0 chunks f E Hf. destruct (xml_to_chunks incs outcs _ cl _ Hcs Hr S1 c0 chunks f E Hf) as [st [evs' H']]. exists st, evs', item. exact H'.
Qed.
Print Assumptions C59_errors.

Theorem C59_endless : forall incs outcs cl els, cs_constructible incs = true -> Forall (representable incs) cl -> text_reads cl els Endless ->
  let text := flat_map (cs_print incs) cl in
  (forall fuel, xml_scan incs outcs fuel (calls (S (length els))) text = Fuel) /\
  forall c0 chunks fuel, text = concat (c0 :: chunks) ->
    scanChunked incs (xml_config incs outcs None 0) feed_new fuel (calls (S (length els))) (sc_make (ts_make (src_make c0 (more chunks))), chunks) = Fuel.
Proof.
  intros incs outcs cl els Hcs Hr H text.
  assert (S1 : forall fuel, xml_scan incs outcs fuel (calls (S (length els))) text = Fuel).
  2:{ split; [exact S1|]. intros c0 chunks fuel E. assert (Hb : Forall isByte text) by (apply print_bytes; auto).
      assert (Hc : complete_text incs text) by (apply print_complete; auto). rewrite E in S1, Hb, Hc. exact (chunks_hang incs outcs false _ c0 chunks Hcs Hb Hc S1 fuel). }
  intros f. pose proof (xml_scan_chars incs outcs f (calls (S (length els))) cl Hcs Hr) as HS.
  assert (E : k_scan (kplain outcs) f (calls (S (length els))) cl = Fuel) by exact (first_hang (kplain outcs) mask_all mask_all_full _ _ _ (x_text (kplain outcs) mask_all mask_all_full _ _ _ H) (repeat 0 16) eq_refl f).
  rewrite E in HS. fold text in HS. inversion HS. reflexivity.
Qed.
Print Assumptions C59_endless.

(** *** Readings of some texts *)
Lemma longest_dec : forall p a r, forallb p a && negb (p (hd 0 r)) = true -> longest p a r.
Proof. intros p a r H. apply andb_prop in H. destruct H as [H1 H2]. split; [apply Forall_forall; intros c Hc; exact (proj1 (forallb_forall p a) H1 c Hc)|]. destruct (p (hd 0 r)); [discriminate|reflexivity]. Qed.
Lemma all_dec : forall p a, forallb p a = true -> all p a.
Proof. intros p a H. apply Forall_forall. intros c Hc. exact (proj1 (forallb_forall p a) H c Hc). Qed.

(** <a b="1&#65;">x&lt;y</a> *)
Definition C59_text1 : list N := str "<a b=" ++ [34] ++ str "1&#65;" ++ [34] ++ str ">x&lt;y</a>".
Example C59_case_ends : text_reads C59_text1
  [(EOpenTag, str "a"); (ETagAttribName, str "b"); (ETagAttribValue, str "1A"); (EContent, str "x<y"); (ECloseTag, str "a"); (EExit, [])] Ends /\ Forall (representable UTF8) C59_text1.
Proof.
  split; [|apply repr_dec; vm_compute; reflexivity]. refine (tx_text [] [] (tl C59_text1) [(EOpenTag, str "a"); (ETagAttribName, str "b"); (ETagAttribValue, str "1A")] false (str "x&lt;y</a>") [(EContent, str "x<y"); (ECloseTag, str "a"); (EExit, [])] Ends _ _ _ _).
  - constructor.
  - apply longest_dec. reflexivity.
  - apply mk_tag; [discriminate|discriminate|discriminate|].
    refine (tg_tag _ (str "a") _ [(ETagAttribName, str "b"); (ETagAttribValue, str "1A")] false (62 :: str "x&lt;y</a>") [] _ _ _ _ (te_gt _)); [| |].
    + apply (tr_end CName (str "a")); [apply longest_dec; reflexivity|discriminate].
    + reflexivity.
    + apply (ar_attr false (str " ") (str "b=" ++ [34] ++ str "1&#65;" ++ [34] ++ str ">x&lt;y</a>") [(ETagAttribName, str "b"); (ETagAttribValue, str "1A")] false (62 :: str "x&lt;y</a>") []); [discriminate|apply longest_dec; reflexivity|reflexivity| |].
      * apply (tr_attr false _ (str "b") [] [] ([34] ++ str "1&#65;" ++ [34] ++ str ">x&lt;y</a>") [(ETagAttribValue, str "1A")]); [|constructor|apply longest_dec; reflexivity|].
        -- apply (tr_end CName (str "b")); [apply longest_dec; reflexivity|discriminate].
        -- apply (vr_quoted false 34 (str "1&#65;" ++ [34] ++ str ">x&lt;y</a>") (str "1A")); [reflexivity| |reflexivity].
           apply (tr_amp (CValue 34) (str "1") (str "#65;" ++ [34] ++ str ">x&lt;y</a>") (str "A") ([34] ++ str ">x&lt;y</a>") []); [apply all_dec; reflexivity| |].
           ++ apply (am_number 10 [35] (str "65") _ bm_dec); [apply all_dec; reflexivity|cbn; lia|vm_compute; reflexivity].
           ++ apply (tr_end (CValue 34) []); [apply longest_dec; reflexivity|discriminate].
      * apply (ar_end false []); [constructor|reflexivity].
  - apply (ct_text false _ (str "x<y") (str "</a>")); [discriminate|discriminate|discriminate| |].
    + apply (tr_amp CText (str "x") (str "lt;y</a>") (str "<") (str "y</a>") (str "y")); [apply all_dec; reflexivity| |].
      * apply (am_entity (str "lt") 60). left. reflexivity.
      * apply (tr_end CText (str "y")); [apply longest_dec; reflexivity|discriminate].
    + apply (ct_markup false [] (str "/a>") [(ECloseTag, str "a")] false []); [apply longest_dec; reflexivity| |apply ct_end; reflexivity].
      apply mk_close; [reflexivity|]. apply (cl_close _ (str "a") []); [|constructor]. apply (tr_end CName (str "a")); [apply longest_dec; reflexivity|discriminate].
Qed.
(** an attribute without value, and a comment that is not closed *)
Example C59_case_errors : text_reads (str "<a b >") [(EOpenTag, str "a"); (ETagAttribName, str "b")] (Broken ErrExpectedEqual).
Proof.
  apply (tx_fails [] [] (str "a b >")); [constructor|apply longest_dec; reflexivity|]. apply mk_tag; [discriminate|discriminate|discriminate|].
  apply (tg_attrs _ (str "a") (str " b >")); [apply (tr_end CName (str "a")); [apply longest_dec; reflexivity|discriminate]|reflexivity|].
  apply (ar_fails false (str " ") (str "b >")); [discriminate|apply longest_dec; reflexivity|reflexivity|].
  apply (tr_noequal false _ (str "b") (str " ") (str ">")); [apply (tr_end CName (str "b")); [apply longest_dec; reflexivity|discriminate]|discriminate|apply longest_dec; reflexivity|discriminate].
Qed.
Example C59_case_endless : text_reads (str "<a>x<!-- -> -") [(EOpenTag, str "a"); (EContent, str "x")] Endless.
Proof.
  apply (tx_text [] [] (str "a>x<!-- -> -") [(EOpenTag, str "a")] false (str "x<!-- -> -") [(EContent, str "x")]); [constructor|apply longest_dec; reflexivity| |].
  - apply mk_tag; [discriminate|discriminate|discriminate|].
    apply (tg_tag _ (str "a") (str ">x<!-- -> -") [] false (str ">x<!-- -> -") []); [apply (tr_end CName (str "a")); [apply longest_dec; reflexivity|discriminate]|reflexivity| |apply te_gt].
    apply (ar_end false []); [constructor|reflexivity].
  - apply (ct_text false _ (str "x") (str "<!-- -> -") []); [discriminate|discriminate|discriminate|apply (tr_end CText (str "x")); [apply longest_dec; reflexivity|discriminate]|].
    apply (ct_hangs false [] (str "!-- -> -")); [apply longest_dec; reflexivity|]. apply mk_decl. apply (dc_comment_open (str " -> -")).
    apply never_closes_ok; [discriminate|vm_compute; reflexivity].
Qed.
(** the scanner, run on two of them *)
Example C59_case_run : exists s1 evs1 s2 evs2,
  xml_scan UTF8 UTF8 100 (calls 6) C59_text1 = Ret s1 evs1 /\
  map element evs1 = [(EOpenTag, str "a", Ok); (ETagAttribName, str "b", Ok); (ETagAttribValue, str "1A", Ok); (EContent, str "x<y", Ok); (ECloseTag, str "a", Ok); (EExit, [], Ok)] /\
  xml_scan UTF8 UTF8 100 (calls 3) (str "<a b >") = Ret s2 evs2 /\
  map element evs2 = [(EOpenTag, str "a", Ok); (ETagAttribName, str "b", Ok); (EErrorOccurred, str "b", ErrExpectedEqual)].
Proof. do 4 eexists. split; [vm_compute; reflexivity|]. split; [vm_compute; reflexivity|]. split; vm_compute; reflexivity. Qed.

(** ** The other direction: what is delivered tells how the text is read *)
Lemma scan_app : forall {R} (rops : readerops R) cfg f m1 m2 s s' evs, scan rops cfg f (m1 ++ m2) s = Ret s' evs ->
  exists s1 evs1 evs2, scan rops cfg f m1 s = Ret s1 evs1 /\ scan rops cfg f m2 s1 = Ret s' evs2 /\ evs = evs1 ++ evs2.
Proof.
  intros R rops cfg f m1 m2. induction m1 as [|m m1 IH]; intros s s' evs H; cbn [app scan] in *; [eexists _, [], _; split; [reflexivity|split; [exact H|reflexivity]]|].
  destruct (nextItem rops cfg f m s) as [s1 t| | | |]; cbn [bind] in *; try discriminate. destruct (scan rops cfg f (m1 ++ m2) s1) as [s2 e| | | |] eqn:E; cbn [bind] in *; try discriminate.
  injection H as <- <-. destruct (IH _ _ _ E) as [s3 [e1 [e2 [H1 [H2 ->]]]]]. rewrite H1. cbn [bind]. eexists _, _, _. split; [reflexivity|]. split; [exact H2|]. reflexivity.
Qed.
Lemma calls_add : forall n k, calls (n + k) = calls n ++ calls k.
Proof. intros n k. unfold calls. apply repeat_app. Qed.
Lemma scan_length : forall {R} (rops : readerops R) cfg f m s s' evs, scan rops cfg f m s = Ret s' evs -> length evs = length m.
Proof.
  intros R rops cfg f m. induction m as [|x m IH]; intros s s' evs H; cbn [scan] in H; [injection H as _ <-; reflexivity|].
  destruct (nextItem rops cfg f x s) as [s1 t| | | |]; cbn [bind] in *; try discriminate. destruct (scan rops cfg f m s1) as [s2 e| | | |] eqn:E; cbn [bind] in *; try discriminate.
  injection H as <- <-. cbn [length]. rewrite (IH _ _ _ E). reflexivity.
Qed.
(** calls of one number are the beginning of the calls of another *)
Lemma calls_prefix : forall incs outcs f n m text s evs s2 evs2, xml_scan incs outcs f (calls n) text = Ret s evs -> xml_scan incs outcs f (calls m) text = Ret s2 evs2 ->
  (n <= m)%nat -> evs = firstn n evs2.
Proof.
  intros incs outcs f n m text s evs s2 evs2 H1 H2 Hn. unfold xml_scan in *. replace m with (n + (m - n))%nat in H2 by lia. rewrite calls_add in H2.
  destruct (scan_app _ _ _ _ _ _ _ _ H2) as [s3 [e1 [e2 [H3 [_ ->]]]]]. rewrite H1 in H3. injection H3 as <- <-.
  pose proof (scan_length _ _ _ _ _ _ _ H1) as L. unfold calls in L. rewrite repeat_length in L. rewrite firstn_app, L, Nat.sub_diag. cbn [firstn]. rewrite app_nil_r, <- L, firstn_all. reflexivity.
Qed.
Lemma fuel_up : forall incs outcs f F masks text s evs, xml_scan incs outcs f masks text = Ret s evs -> (f <= F)%nat -> xml_scan incs outcs F masks text = Ret s evs.
Proof. intros incs outcs f F masks text s evs H Hf. unfold xml_scan in *. eapply fle_ret; [|exact H]. apply mono_scan. exact Hf. Qed.

(** only the last element is Exit, and only of a text that ends; no element is an error *)
Definition inner (t : etype) : bool := match t with EExit | EErrorOccurred => false | _ => true end.
Definition noexit (els : list (etype * list N)) : Prop := Forall (fun p => inner (fst p) = true) els.
Lemma noexit_app : forall a b, noexit a -> noexit b -> noexit (a ++ b).
Proof. intros. apply Forall_app. split; assumption. Qed.
Lemma value_noexit : forall h l els s, value_reads h l els s -> noexit els.
Proof. intros h l els s H. destruct H; repeat constructor; destruct h; reflexivity. Qed.
Lemma attr_noexit : forall h l els s, attr_reads h l els s -> noexit els.
Proof. intros h l els s H. destruct H; repeat constructor; try (destruct h; reflexivity). eapply value_noexit; eauto. Qed.
Lemma attrs_noexit : forall h l els s, attrs_read h l els s -> noexit els.
Proof. intros h l els s H. induction H; [constructor|apply noexit_app; [eapply attr_noexit; eauto|assumption]|eapply attr_noexit; eauto]. Qed.
Lemma repeat_noexit : forall n, noexit (repeat (ECloseTagIm, []) n).
Proof. induction n; constructor; [reflexivity|assumption]. Qed.
Lemma markup_noexit : forall first l els s, markup_reads first l els s -> noexit els.
Proof.
  assert (T : forall l els s, tag_reads l els s -> noexit els).
  { intros l els s H. destruct H as [| |l n r els e H1 H2 H3|l n r els b r2 els2 s H1 H2 H3 H4]; try constructor; try reflexivity; [eapply attrs_noexit; eauto|].
    apply noexit_app; [eapply attrs_noexit; eauto|]. destruct H4; [constructor|apply repeat_noexit|apply repeat_noexit]. }
  assert (C : forall l els s, close_reads l els s -> noexit els) by (intros l els s H; destruct H; repeat constructor; reflexivity).
  assert (Hd : forall l els s, header_reads l els s -> noexit els).
  { intros l els s H. destruct H as [| |l r els e H1 H2 H3|l r els b ws r2 H1 H2 H3 H4 H5|l r els b ws r2 H1 H2 H3 H4]; try constructor; try reflexivity; [eapply attrs_noexit; eauto|eapply attrs_noexit; eauto|].
    apply noexit_app; [eapply attrs_noexit; eauto|]. repeat constructor. }
  assert (D : forall l els s, def_reads l els s -> noexit els) by (intros l els s H; induction H; repeat constructor; try reflexivity; assumption).
  assert (E : forall l els s, decl_reads l els s -> noexit els) by (intros l els s H; destruct H; try constructor; eauto).
  intros first l els s H. destruct H; try constructor; eauto.
Qed.
Definition exits (els : list (etype * list N)) (o : outcome) : Prop :=
  match o with Ends => exists els0, els = els0 ++ [(EExit, [])] /\ noexit els0 | _ => noexit els end.
Lemma exits_app : forall a els o, noexit a -> exits els o -> exits (a ++ els) o.
Proof.
  intros a els [|e|] Ha H; cbn [exits] in *; try (apply noexit_app; assumption). destruct H as [els0 [-> H]]. exists (a ++ els0). split; [apply app_assoc|]. apply noexit_app; assumption.
Qed.
Lemma content_exits : forall seek l els o, content_reads seek l els o -> exits els o.
Proof.
  intros seek l els o H. induction H as [c l els o Hb H IH|seek l H0|seek l v r els o H1 H2 H3 Ht H IH|seek l H1 H2 H3 Ht|seek ws l els seek2 r els2 o Hw Hm H IH|seek ws l els e Hw Hm|seek ws l els Hw Hm].
  - exact IH.
  - exists []. split; [reflexivity|constructor].
  - apply (exits_app [(EContent, v)]); [repeat constructor; reflexivity|exact IH].
  - constructor.
  - apply exits_app; [eapply markup_noexit; eauto|exact IH].
  - eapply markup_noexit; eauto.
  - eapply markup_noexit; eauto.
Qed.
Lemma text_exits : forall l els o, text_reads l els o -> exits els o.
Proof.
  intros l els o H. destruct H as [ws l Hw H0|ws l Hw H0 H1|ws ws0 l els seek r els2 o Hw Hw0 Hm Hc|ws ws0 l els e Hw Hw0 Hm|ws ws0 l els Hw Hw0 Hm].
  - exists []. split; [reflexivity|constructor].
  - constructor.
  - apply exits_app; [eapply markup_noexit; eauto|eapply content_exits; eauto].
  - eapply markup_noexit; eauto.
  - eapply markup_noexit; eauto.
Qed.

(** what is known of the scan of a text of bytes read as [els], [o] *)
Definition reads_as (incs outcs : charset) (text : list N) (wr : N -> list N) (els : list (etype * list N)) (o : outcome) : Prop :=
  (forall f, (3 * length text + 4 <= f)%nat -> exists s evs, xml_scan incs outcs f (calls (length els)) text = Ret s evs /\
     map element evs = map (fun p => (fst p, flat_map wr (snd p), Ok)) els) /\
  (forall e, o = Broken e -> forall f, (3 * length text + 4 <= f)%nat -> exists s evs item, xml_scan incs outcs f (calls (S (length els))) text = Ret s evs /\
     map element evs = map (fun p => (fst p, flat_map wr (snd p), Ok)) els ++ [(EErrorOccurred, item, e)]) /\
  (o = Endless -> forall f, xml_scan incs outcs f (calls (S (length els))) text = Fuel).
Lemma exact_gen : forall incs outcs text wr els o, reads_as incs outcs text wr els o ->
  o = Endless <-> exists n, (n <= S (length els))%nat /\ (o = Ends -> (n <= length els)%nat) /\ forall fuel, xml_scan incs outcs fuel (calls n) text = Fuel.
Proof.
  intros incs outcs text wr els o [HE [HR HH]]. split.
  - intros ->. exists (S (length els)). split; [lia|]. split; [discriminate|]. apply HH. reflexivity.
  - intros [n [Hn [Hn2 Hf]]].
    assert (G : forall m, (n <= m)%nat -> forall f s evs, xml_scan incs outcs f (calls m) text = Ret s evs -> False).
    { intros m Hm f s evs E. unfold xml_scan in E. replace m with (n + (m - n))%nat in E by lia. rewrite calls_add in E.
      destruct (scan_app _ _ _ _ _ _ _ _ E) as [s3 [e1 [e2 [H3 _]]]]. pose proof (Hf f) as H4. unfold xml_scan in H4. rewrite H4 in H3. discriminate. }
    destruct o as [|e|]; [|  |reflexivity]; exfalso.
    + destruct (HE _ (Nat.le_refl _)) as [s [evs [E _]]]. exact (G _ (Hn2 eq_refl) _ _ _ E).
    + destruct (HR e eq_refl _ (Nat.le_refl _)) as [s [evs [item [E _]]]]. exact (G _ Hn _ _ _ E).
Qed.

Lemma accepted_gen : forall incs outcs text wr els o, reads_as incs outcs text wr els o -> exits els o -> forall fuel n s evs ev,
  xml_scan incs outcs fuel (calls n) text = Ret s (evs ++ [ev]) ->
  Forall (fun e => ev_type e <> EExit /\ ev_type e <> EErrorOccurred) evs -> ev_type ev = EExit ->
  o = Ends /\ map element (evs ++ [ev]) = map (fun p => (fst p, flat_map wr (snd p), Ok)) els.
Proof.
  intros incs outcs text wr els o [HE [HR HH]] X fuel n s evs ev HS Hev Hx.
  set (F := Nat.max fuel (3 * length text + 4)).
  pose proof (fuel_up _ _ _ F _ _ _ _ HS ltac:(unfold F; lia)) as HF.
  pose proof (scan_length _ _ _ _ _ _ _ HF) as L. unfold calls in L. rewrite repeat_length, app_length in L. cbn [length] in L.
  destruct (HE F ltac:(unfold F; lia)) as [s2 [evs2 [E2 D2]]].
  assert (L2 : length evs2 = length els) by (apply (f_equal (@length _)) in D2; rewrite !map_length in D2; exact D2).
  assert (T : map ev_type evs2 = map fst els).
  { transitivity (map (fun e => fst (fst e)) (map element evs2)); [rewrite map_map; reflexivity|]. rewrite D2, map_map. reflexivity. }
  destruct (Nat.le_gt_cases n (length els)) as [Hn|Hn].
  - pose proof (calls_prefix _ _ _ _ _ _ _ _ _ _ HF E2 Hn) as P.
    assert (I : In EExit (map fst els)).
    { rewrite <- T. rewrite <- (firstn_skipn n evs2), <- P, !map_app. apply in_or_app. left. apply in_or_app. right. left. exact Hx. }
    destruct o as [|e|]; cbn [exits] in X.
    + destruct X as [els0 [-> X]]. split; [reflexivity|]. rewrite app_length in *. cbn [length] in *.
      destruct (Nat.eq_dec n (length els0 + 1)) as [En|En]; [rewrite P, firstn_all2 by lia; exact D2|]. exfalso.
      assert (I2 : In EExit (map fst els0)).
      { rewrite map_app in T. assert (T2 : map ev_type (firstn (length els0) evs2) = map fst els0).
        { rewrite <- firstn_map, T. rewrite <- (map_length fst els0), firstn_app, Nat.sub_diag, firstn_all. cbn [firstn]. apply app_nil_r. }
        rewrite <- T2. replace (firstn (length els0) evs2) with (firstn n evs2 ++ firstn (length els0 - n) (skipn n evs2)).
        { rewrite <- P, !map_app. apply in_or_app. left. apply in_or_app. right. left. exact Hx. }
        rewrite <- (firstn_skipn n evs2) at 3. rewrite firstn_app. rewrite firstn_length, L2. replace (Nat.min n (length els0 + 1)) with n by lia.
        rewrite (firstn_all2 (n := length els0) (firstn n evs2)) by (rewrite firstn_length; lia). reflexivity. }
      apply in_map_iff in I2. destruct I2 as [p [Ep Ip]]. pose proof (proj1 (Forall_forall _ _) X p Ip) as XX; cbn beta in XX; rewrite Ep in XX; discriminate.
    + exfalso. apply in_map_iff in I. destruct I as [p [Ep Ip]]. pose proof (proj1 (Forall_forall _ _) X p Ip) as XX; cbn beta in XX; rewrite Ep in XX; discriminate.
    + exfalso. apply in_map_iff in I. destruct I as [p [Ep Ip]]. pose proof (proj1 (Forall_forall _ _) X p Ip) as XX; cbn beta in XX; rewrite Ep in XX; discriminate.
  - exfalso. destruct o as [|e|]; cbn [exits] in X.
    + destruct X as [els0 [-> X]]. rewrite app_length in Hn, L2, E2. cbn [length] in Hn, L2, E2. pose proof (calls_prefix _ _ _ _ _ _ _ _ _ _ E2 HF ltac:(lia)) as P.
      assert (I : In EExit (map ev_type evs2)) by (rewrite T, map_app; apply in_or_app; right; left; reflexivity).
      rewrite P, firstn_app in I. replace (length els0 + 1 - length evs)%nat with 0%nat in I by lia. cbn [firstn] in I. rewrite app_nil_r in I.
      apply in_map_iff in I. destruct I as [e [Ee Ie]]. assert (Ie2 : In e evs) by (rewrite <- (firstn_skipn (length els0 + 1) evs); apply in_or_app; left; exact Ie).
      exact (proj1 (proj1 (Forall_forall _ _) Hev e Ie2) Ee).
    + destruct (HR e eq_refl F ltac:(unfold F; lia)) as [s3 [evs3 [item [E3 D3]]]].
      pose proof (calls_prefix _ _ _ _ _ _ _ _ _ _ E3 HF ltac:(lia)) as P.
      assert (I : In EErrorOccurred (map ev_type evs3)).
      { assert (T3 : map ev_type evs3 = map (fun e => fst (fst e)) (map element evs3)) by (rewrite map_map; reflexivity). rewrite T3, D3, map_app. apply in_or_app. right. left. reflexivity. }
      apply in_map_iff in I. destruct I as [e1 [Ee Ie]]. rewrite P in Ie.
      assert (Ie2 : In e1 (evs ++ [ev])) by (rewrite <- (firstn_skipn (S (length els)) (evs ++ [ev])); apply in_or_app; left; exact Ie).
      apply in_app_or in Ie2. destruct Ie2 as [Ie2|[<-|[]]]; [exact (proj2 (proj1 (Forall_forall _ _) Hev e1 Ie2) Ee)|congruence].
    + pose proof (HH eq_refl F) as E3. unfold xml_scan in E3, HF. replace n with (S (length els) + (n - S (length els)))%nat in HF by lia.
      rewrite calls_add in HF. destruct (scan_app _ _ _ _ _ _ _ _ HF) as [s3 [e1 [e2 [H3 _]]]]. rewrite E3 in H3. discriminate.
Qed.

Lemma chars_read_as : forall incs outcs cl els o, cs_constructible incs = true -> Forall (representable incs) cl -> text_reads cl els o ->
  reads_as incs outcs (flat_map (cs_print incs) cl) (cs_print outcs) els o.
Proof.
  intros incs outcs cl els o Hcs Hr H. split; [exact (proj1 (C59_elements incs outcs cl els o Hcs Hr H))|]. split.
  - intros e ->. exact (proj1 (C59_errors incs outcs cl els e Hcs Hr H)).
  - intros ->. apply (C59_endless incs outcs cl els); assumption.
Qed.

(** *** C16: the calls up to the end of the text or the first error do not all end, exactly for the texts read as [Endless] *)
Theorem C16_exact : forall incs outcs cl els o, cs_constructible incs = true -> Forall (representable incs) cl -> text_reads cl els o ->
  let text := flat_map (cs_print incs) cl in
  o = Endless <-> exists n, (n <= S (length els))%nat /\ (o = Ends -> (n <= length els)%nat) /\ forall fuel, xml_scan incs outcs fuel (calls n) text = Fuel.
Proof. intros incs outcs cl els o Hcs Hr H text. eapply exact_gen. apply chars_read_as; eassumption. Qed.
Print Assumptions C16_exact.

(** *** C46: a text that is scanned up to Exit without an error is read so by the rules; that is the language accepted *)
Theorem C46_accepted : forall incs outcs cl fuel n s evs ev, cs_constructible incs = true -> Forall (representable incs) cl ->
  xml_scan incs outcs fuel (calls n) (flat_map (cs_print incs) cl) = Ret s (evs ++ [ev]) ->
  Forall (fun e => ev_type e <> EExit /\ ev_type e <> EErrorOccurred) evs -> ev_type ev = EExit ->
  exists els, text_reads cl els Ends /\ map element (evs ++ [ev]) = map (fun p => (fst p, flat_map (cs_print outcs) (snd p), Ok)) els.
Proof.
  intros incs outcs cl fuel n s evs ev Hcs Hr HS Hev Hx. destruct (C59_total cl) as [els [o H]]. exists els.
  destruct (accepted_gen _ _ _ _ _ _ (chars_read_as incs outcs cl els o Hcs Hr H) (text_exits _ _ _ H) _ _ _ _ _ HS Hev Hx) as [-> E]. split; assumption.
Qed.
Print Assumptions C46_accepted.
Example C46_accepted_case : exists s evs ev, xml_scan UTF8 UTF8 100 (calls 6) (flat_map (cs_print UTF8) C59_text1) = Ret s (evs ++ [ev]) /\ ev_type ev = EExit /\
  Forall (fun e => ev_type e <> EExit /\ ev_type e <> EErrorOccurred) evs /\ Forall (representable UTF8) C59_text1.
Proof.
  eexists _, [_; _; _; _; _], _. split; [vm_compute; reflexivity|]. split; [reflexivity|]. split; [|exact (proj2 C59_case_ends)]. repeat constructor; discriminate.
Qed.

(** *** No text has two readings *)
Definition wide : kout := mkKo (UCS4 true) (fun i => [256 + i; 0; 0; 0]).
Lemma wide_low : forall c, c < 2 ^ 32 -> kpr wide c = [c / 16777216; c / 65536 mod 256; c / 256 mod 256; c mod 256].
Proof.
  intros c Hc. rewrite kpr_low by exact Hc. cbn [ko_cs wide]. rewrite (print_spec (UCS4 true) c eq_refl) by (cbn [representable]; exact Hc).
  cbn [spec_encode]. unfold spec_ucs4. change (2 ^ 32) with 4294967296 in Hc. repeat (f_equal; try lia).
Qed.
Lemma wide_high : forall c, 2 ^ 32 <= c -> kpr wide c = [256 + (c - 2 ^ 32); 0; 0; 0].
Proof. intros c Hc. unfold kpr. replace (c <? 2 ^ 32) with false by lia. reflexivity. Qed.
Lemma wide_inj1 : forall c d x y, kpr wide c ++ x = kpr wide d ++ y -> c = d /\ x = y.
Proof.
  intros c d x y H. destruct (N.lt_ge_cases c (2 ^ 32)) as [Hc|Hc], (N.lt_ge_cases d (2 ^ 32)) as [Hd|Hd];
  rewrite ?(wide_low c), ?(wide_low d), ?(wide_high c), ?(wide_high d) in H by assumption; cbn [app] in H;
  change (2 ^ 32) with 4294967296 in *; injection H; intros; (split; [lia|assumption]).
Qed.
Lemma wide_inj : forall v w, flat_map (kpr wide) v = flat_map (kpr wide) w -> v = w.
Proof.
  assert (N0 : forall c x, kpr wide c ++ x <> []).
  { intros c x. destruct (N.lt_ge_cases c (2 ^ 32)) as [Hc|Hc]; [rewrite wide_low by exact Hc|rewrite wide_high by exact Hc]; discriminate. }
  induction v as [|c v IH]; intros [|d w] H; cbn [flat_map] in H; [reflexivity|symmetry in H; destruct (N0 _ _ H)|destruct (N0 _ _ H)|].
  destruct (wide_inj1 _ _ _ _ H) as [-> E]. f_equal. apply IH. exact E.
Qed.
Lemma wide_delivered : forall els els', map (delivered wide) els = map (delivered wide) els' -> els = els'.
Proof.
  induction els as [|[t v] els IH]; intros [|[t' v'] els'] H; cbn [map] in H; try discriminate; [reflexivity|].
  injection H as -> E2 E3. apply wide_inj in E2. subst. f_equal. apply IH. exact E3.
Qed.

Definition k_reads (l : list N) (els : list (etype * list N)) (o : outcome) : Prop :=
  (exists k, forall f, (k <= f)%nat -> exists s evs, k_scan wide f (calls (length els)) l = Ret s evs /\ map element evs = map (delivered wide) els) /\
  match o with
  | Ends => True
  | Broken e => exists k, forall f, (k <= f)%nat -> exists s evs item, k_scan wide f (calls (S (length els))) l = Ret s evs /\
      map element evs = map (delivered wide) els ++ [(EErrorOccurred, item, e)]
  | Endless => forall f, k_scan wide f (calls (S (length els))) l = Fuel
  end.
Lemma reads_k : forall l els o, text_reads l els o -> k_reads l els o.
Proof.
  intros l els o H. pose proof (x_text wide mask_all mask_all_full _ _ _ H) as X. split.
  - destruct (first_elements wide mask_all mask_all_full _ _ _ _ X (repeat 0 16) eq_refl) as [k [s [evs [E1 E2]]]]. exists k. intros f Hf. exists s, evs. split; [|exact E2].
    eapply fle_ret; [|exact E1]. unfold k_scan. apply mono_scan. exact Hf.
  - destruct o as [|e|]; [exact I| |exact (first_hang wide mask_all mask_all_full _ _ _ X (repeat 0 16) eq_refl)].
    destruct (first_fails wide mask_all mask_all_full _ _ _ _ X (repeat 0 16) eq_refl) as [k [s [evs [item [E1 E2]]]]]. exists k. intros f Hf. exists s, evs, item. split; [|exact E2].
    eapply fle_ret; [|exact E1]. unfold k_scan. apply mono_scan. exact Hf.
Qed.
Lemma k_prefix : forall f n m l s evs s2 evs2, k_scan wide f (calls n) l = Ret s evs -> k_scan wide f (calls m) l = Ret s2 evs2 ->
  (n <= m)%nat -> evs = firstn n evs2.
Proof.
  intros f n m l s evs s2 evs2 H1 H2 Hn. unfold k_scan in *. replace m with (n + (m - n))%nat in H2 by lia. rewrite calls_add in H2.
  destruct (scan_app _ _ _ _ _ _ _ _ H2) as [s3 [e1 [e2 [H3 [_ ->]]]]]. rewrite H1 in H3. injection H3 as <- <-.
  pose proof (scan_length _ _ _ _ _ _ _ H1) as L. unfold calls in L. rewrite repeat_length in L. rewrite firstn_app, L, Nat.sub_diag. cbn [firstn]. rewrite app_nil_r, <- L, firstn_all. reflexivity.
Qed.
Lemma reads_longer : forall l els o els' o', text_reads l els o -> text_reads l els' o' -> (length els <= length els')%nat -> els = els' /\ o = o'.
Proof.
  intros l els o els' o' H H' HL. destruct (reads_k _ _ _ H) as [[k1 A] B]. destruct (reads_k _ _ _ H') as [[k2 A'] B'].
  pose proof (text_exits _ _ _ H) as X. pose proof (text_exits _ _ _ H') as X'.
  (* els is the beginning of els' *)
  assert (P : els = firstn (length els) els').
  { set (F := Nat.max k1 k2). destruct (A F ltac:(lia)) as [s [evs [E1 E2]]]. destruct (A' F ltac:(lia)) as [s' [evs' [E1' E2']]].
    pose proof (k_prefix _ _ _ _ _ _ _ _ E1 E1' HL) as E. subst evs. apply wide_delivered. rewrite <- E2, <- firstn_map, E2', firstn_map. reflexivity. }
  destruct (Nat.eq_dec (length els) (length els')) as [Heq|Hne].
  - rewrite Heq, firstn_all in P. subst els'. split; [reflexivity|].
    assert (NE : forall a, noexit (a ++ [(EExit, [])]) -> False).
    { intros a Ha. unfold noexit in Ha. apply Forall_app in Ha. destruct Ha as [_ Ha]. inversion Ha as [|? ? H1 _]. discriminate. }
    destruct o as [|e|], o' as [|e'|]; try reflexivity; cbn [exits] in X, X';
      try (destruct X as [a [-> _]]; destruct (NE _ X')); try (destruct X' as [a [-> _]]; destruct (NE _ X)).
    + destruct B as [k3 B]. destruct B' as [k4 B']. set (F := Nat.max k3 k4).
      destruct (B F ltac:(lia)) as [s [evs [item [E1 E2]]]]. destruct (B' F ltac:(lia)) as [s' [evs' [item' [E1' E2']]]].
      rewrite E1 in E1'. injection E1' as <- <-. rewrite E2 in E2'. apply app_inj_tail in E2'. destruct E2' as [_ E]. injection E as _ ->. reflexivity.
    + destruct B as [k3 B]. destruct (B k3 ltac:(lia)) as [s [evs [item [E1 _]]]]. rewrite B' in E1. discriminate.
    + destruct B' as [k3 B']. destruct (B' k3 ltac:(lia)) as [s [evs [item [E1 _]]]]. rewrite B in E1. discriminate.
  - (* the call after els gives the next element of els' *)
    exfalso. destruct o as [|e|]; cbn [exits] in X.
    + destruct X as [a [-> _]]. destruct o' as [|e'|]; cbn [exits] in X'.
      * destruct X' as [a' [-> Xa']]. rewrite !app_length in *. cbn [length] in *. rewrite firstn_app in P. replace (length a + 1 - length a')%nat with 0%nat in P by lia. cbn [firstn] in P.
        rewrite app_nil_r in P. assert (Hin : In (EExit, []) a') by (rewrite <- (firstn_skipn (length a + 1) a'), <- P; apply in_or_app; left; apply in_or_app; right; left; reflexivity).
        unfold noexit in Xa'. rewrite Forall_forall in Xa'. discriminate (Xa' _ Hin).
      * assert (Hin : In (EExit, []) els') by (rewrite <- (firstn_skipn (length (a ++ [(EExit, [])])) els'), <- P; apply in_or_app; left; apply in_or_app; right; left; reflexivity).
        unfold noexit in X'. rewrite Forall_forall in X'. discriminate (X' _ Hin).
      * assert (Hin : In (EExit, []) els') by (rewrite <- (firstn_skipn (length (a ++ [(EExit, [])])) els'), <- P; apply in_or_app; left; apply in_or_app; right; left; reflexivity).
        unfold noexit in X'. rewrite Forall_forall in X'. discriminate (X' _ Hin).
    + destruct B as [k3 B]. set (F := Nat.max k3 k2). destruct (B F ltac:(lia)) as [s [evs [item [E1 E2]]]]. destruct (A' F ltac:(lia)) as [s' [evs' [E1' E2']]].
      pose proof (k_prefix _ _ _ _ _ _ _ _ E1 E1' ltac:(lia)) as E. subst evs. rewrite <- firstn_map, E2', firstn_map in E2.
      assert (Hin : In (EErrorOccurred, item, e) (map (delivered wide) (firstn (S (length els)) els'))) by (rewrite E2; apply in_or_app; right; left; reflexivity).
      apply in_map_iff in Hin. destruct Hin as [[t v] [E Hin]]. unfold delivered in E. cbn [fst snd] in E. injection E as -> _ _.
      assert (Hin' : In (EErrorOccurred, v) els') by (rewrite <- (firstn_skipn (S (length els)) els'); apply in_or_app; left; exact Hin).
      destruct o' as [|e'|]; cbn [exits] in X'; [destruct X' as [a [-> X']]; apply in_app_or in Hin'; destruct Hin' as [Hin'|[Hin'|[]]]; [|discriminate]| |];
        unfold noexit in X'; rewrite Forall_forall in X'; discriminate (X' _ Hin').
    + destruct (A' k2 ltac:(lia)) as [s' [evs' [E1' _]]]. unfold k_scan in *. replace (length els') with (S (length els) + (length els' - S (length els)))%nat in E1' by lia. rewrite calls_add in E1'.
      destruct (scan_app _ _ _ _ _ _ _ _ E1') as [s3 [e1 [e2 [H3 _]]]]. rewrite B in H3. discriminate.
Qed.
Theorem C59_unique : forall cl els o els' o', text_reads cl els o -> text_reads cl els' o' -> els = els' /\ o = o'.
Proof.
  intros cl els o els' o' H H'. destruct (Nat.le_ge_cases (length els) (length els')) as [L|L]; [eapply reads_longer; eauto|].
  destruct (reads_longer _ _ _ _ _ H' H L) as [-> ->]. auto.
Qed.
Print Assumptions C59_unique.
Example C59_unique_case : forall els o, text_reads C59_text1 els o -> o = Ends /\ length els = 6%nat.
Proof. intros els o H. destruct (C59_unique _ _ _ _ _ H (proj1 C59_case_ends)) as [-> ->]. split; reflexivity. Qed.
