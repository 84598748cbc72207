(** Iterators of the XML scanner as input iterators: C87, C88. *)
From Verif Require Import Base Iter CharMap CodePages Charset TextScanner Ideal CharsetSpec ReadSpec ChunkRead XmlScanner ScanSpec ScanProofs ScanTop PropsScan
  XmlSpec PropsXml BytesSpec BytesProofs XmlIter PropsToken PropsBytes Examples ExampleSpec ExampleProofs ExampleSelect PropsExamples.

(** ** C87: iterators that are equal. An input iterator of the standard library has an equality, that is an equivalence, and two iterators that are
    equal can be exchanged. Here an iterator is not even equal to itself or to its copy, unless it has visited no element or has reached the end. *)
Definition before_or_behind (it : xiter) : Prop := ie_type (xi_elem it) = ENone \/ ie_type (xi_elem it) = EExit.
Theorem C87_equal_partial : forall a b c,
  (x_eq a b = true <-> ie_type (xi_elem a) = ie_type (xi_elem b) /\ before_or_behind a) /\
  x_eq a b = x_eq b a /\
  (x_eq a b = true -> x_eq b c = true -> x_eq a c = true) /\
  (x_eq a a = true <-> before_or_behind a).
Proof.
  intros [[ta ca za] ia] [[tb cb zb] ib] [[tc cc zc] ic]. unfold x_eq, before_or_behind. cbn [xi_elem ie_type].
  split; [|split; [|split]].
  - split.
    + destruct ta, tb; intros H; try discriminate H; auto.
    + intros [-> [-> | ->]]; reflexivity.
  - destruct ta, tb; reflexivity.
  - destruct ta, tb; intros H; try discriminate H; destruct tc; intros H2; try discriminate H2; reflexivity.
  - split; [destruct ta; intros H; try discriminate H; auto|intros [-> | ->]; reflexivity].
Qed.
Print Assumptions C87_equal_partial.
Example C87_case : x_eq x_end x_end = true /\ x_eq (mkXi (mkItel EExit PNull 0%nat) true) x_end = true /\ x_eq (mkXi (mkItel EContent PNull 0%nat) true) x_end = false.
Proof. split; [reflexivity|]. split; reflexivity. Qed.
(** an iterator on an element that is neither None nor Exit is not equal to itself; iterators equal to each other can be on different scanners *)
Theorem C87_refuted : exists s it s1 it1 s2 it2,
  x_begin (ts_ops src_ops UTF8) (xml_config UTF8 UTF8 None 0) 100 true (sc_make (ts_make (src_make (str "<a/>") false)), 0%nat) = Ret s it /\
  ie_type (xi_elem it) = EOpenTag /\ x_eq it it = false /\
  x_begin (ts_ops src_ops UTF8) (xml_config UTF8 UTF8 None 0) 100 false (sc_make (ts_make (src_make (str "<a/>") false)), 0%nat) = Ret s1 it1 /\
  x_begin (ts_ops src_ops UTF8) (xml_config UTF8 UTF8 None 0) 100 false (sc_make (ts_make (src_make (str "<b/>") false)), 0%nat) = Ret s2 it2 /\
  x_eq it1 it2 = true /\ x_eq it1 x_end = false.
Proof. do 6 eexists. check. Qed.
Print Assumptions C87_refuted.

(** ** C88: the loop [for (it = begin(); it->valid(); ++it)] *)
Section Valid.
Context {R : Type} (rops : readerops R) (cfg : config) (fuel : nat).
Fixpoint v_loop (n : nat) (it : xiter) (s : xsc) : out xsc (list (etype * option (list N)) * xiter) :=
  match n with
  | 0%nat => Fuel
  | S n' =>
      if ie_valid (xi_elem it)
      then let visit := (ie_type (xi_elem it), x_read s (ie_content (xi_elem it)) (ie_size (xi_elem it))) in
           let! (s1, it1) := x_preinc rops cfg fuel it s in
           let! (s2, l) := v_loop n' it1 s1 in Ret s2 (visit :: fst l, snd l)
      else Ret s ([], it)
  end.
Definition v_foreach (n : nat) (s : xsc) : out xsc (list (etype * option (list N)) * xiter) :=
  let! (s1, it) := x_begin rops cfg fuel true s in v_loop n it s1.
End Valid.

(** an element of the document: neither the end nor an error *)
Definition of_document (e : event) : Prop := ev_type e <> EExit /\ ev_type e <> EErrorOccurred.
Definition seen (e : event) : etype * option (list N) := (ev_type e, Some (ev_item e)).
(** what the iterator tells when the loop is over: the type of the element, and the content of it as error, if it is one *)
Definition tells {R} (s : @xsc R) (it : xiter) (ev : event) : Prop :=
  ie_type (xi_elem it) = ev_type ev /\
  (ev_type ev = EExit -> ie_error (xi_elem it) = PNull) /\
  (ev_type ev = EErrorOccurred -> x_read s (ie_error (xi_elem it)) (ie_size (xi_elem it)) = Some (ev_item ev)).

Lemma v_step : forall {R} (rops : readerops R) cfg fuel n s k,
  v_foreach rops cfg fuel (S n) (s, k) =
  match nextItem rops cfg fuel mask_all s with
  | Ret s1 t => let x1 := (s1, S k) in
      match t with
      | EExit | EErrorOccurred => Ret x1 ([], mkXi (mkItel t (x_itemPtr x1) (x_itemSize x1)) true)
      | _ => let! (x2, l) := v_foreach rops cfg fuel n x1 in Ret x2 ((t, Some (sc_getItem s1)) :: fst l, snd l)
      end
  | Jump s1 => Jump (s1, S k)
  | Throw s1 => Throw (s1, S k)
  | Undef => Undef
  | Fuel => Fuel
  end.
Proof.
  intros R rops cfg fuel n s k. unfold v_foreach at 1, x_begin, x_next. cbn [fst snd]. change 65535 with mask_all.
  destruct (nextItem rops cfg fuel mask_all s) as [s1 t| | | |]; cbn [omap bind]; try reflexivity. cbn [v_loop].
  pose proof (x_read_item (s1, S k)) as HR. cbn [fst] in HR.
  destruct t; unfold ie_valid; cbn [xi_elem ie_type ie_content ie_size]; try reflexivity; rewrite HR; unfold v_foreach, x_preinc, x_skip, x_begin, x_next; cbn [xi_input fst snd];
    change 65535 with mask_all; destruct (nextItem rops cfg fuel mask_all s1); reflexivity.
Qed.

Theorem C88_valid : forall {R} (rops : readerops R) cfg fuel n s k,
  (forall evs ev s', (length evs < n)%nat -> scan rops cfg fuel (calls (S (length evs))) s = Ret s' (evs ++ [ev]) -> Forall of_document evs -> ~ of_document ev ->
     exists it, v_foreach rops cfg fuel n (s, k) = Ret (s', (S (length evs) + k)%nat) (map seen evs, it) /\ tells (s', (S (length evs) + k)%nat) it ev) /\
  (forall x v it, v_foreach rops cfg fuel n (s, k) = Ret x (v, it) ->
     exists evs ev, scan rops cfg fuel (calls (S (length evs))) s = Ret (fst x) (evs ++ [ev]) /\ Forall of_document evs /\ ~ of_document ev /\ v = map seen evs /\ tells x it ev).
Proof.
  intros R rops cfg fuel. induction n as [|n IH]; intros s k.
  - split; [intros evs ev s' H; lia|]. intros x v it E. unfold v_foreach in E. destruct (x_begin rops cfg fuel true (s, k)); cbn [bind v_loop] in E; discriminate E.
  - rewrite v_step. split.
    + intros evs ev s' Hn HS He Hv. destruct evs as [|e evs].
      * cbn [length calls repeat scan app] in HS. destruct (nextItem rops cfg fuel mask_all s) as [s1 t| | | |]; cbn [bind] in HS; try discriminate HS. injection HS as <- <-.
        unfold of_document in Hv. cbn [observe ev_type] in Hv.
        assert (Ht : t = EExit \/ t = EErrorOccurred) by (destruct t; auto; exfalso; apply Hv; split; discriminate).
        exists (mkXi (mkItel t (x_itemPtr (s1, S k)) (x_itemSize (s1, S k))) true). split; [destruct Ht as [-> | ->]; reflexivity|].
        unfold tells. cbn [xi_elem ie_type observe ev_type ev_item ie_size ie_error]. split; [reflexivity|]. split; intros ->; [reflexivity|]. unfold ie_error. cbn [ie_type ie_content].
        exact (x_read_item (s1, S k)).
      * change (calls (S (length (e :: evs)))) with (mask_all :: calls (S (length evs))) in HS. cbn [scan app] in HS.
        destruct (nextItem rops cfg fuel mask_all s) as [s1 t| | | |]; cbn [bind] in HS; try discriminate HS.
        destruct (scan rops cfg fuel (calls (S (length evs))) s1) as [s2 evs2| | | |] eqn:E2; cbn [bind] in HS; try discriminate HS. injection HS as <- <- ->.
        inversion He as [|? ? [He1 He1'] He2]; subst. cbn [observe ev_type] in He1, He1'.
        destruct (proj1 (IH s1 (S k)) evs ev s2 ltac:(cbn [length] in Hn; lia) E2 He2 Hv) as [it [E3 T]]. exists it.
        replace (S (length (observe rops t s1 :: evs)) + k)%nat with (S (length evs) + S k)%nat by (cbn [length]; lia). split; [|exact T].
        cbv zeta. rewrite E3. cbn [bind fst snd map]. destruct t; try reflexivity; congruence.
    + intros x v it E. destruct (nextItem rops cfg fuel mask_all s) as [s1 t| | | |] eqn:E1; try discriminate E. cbv zeta in E.
      assert (Ht : (t = EExit \/ t = EErrorOccurred) \/ (t <> EExit /\ t <> EErrorOccurred)) by (destruct t; auto; right; split; discriminate).
      destruct Ht as [Ht|[H1 H2]].
      * exists [], (observe rops t s1). cbn [length calls repeat scan app]. rewrite E1. cbn [bind].
        assert (E' : x = (s1, S k) /\ v = [] /\ it = mkXi (mkItel t (x_itemPtr (s1, S k)) (x_itemSize (s1, S k))) true) by (destruct Ht as [-> | ->]; injection E as <- <- <-; auto).
        destruct E' as [-> [-> ->]]. cbn [fst]. split; [reflexivity|]. split; [constructor|]. split; [unfold of_document; cbn [observe ev_type]; destruct Ht; intros [? ?]; congruence|].
        split; [reflexivity|]. unfold tells. cbn [xi_elem ie_type observe ev_type ev_item ie_size]. split; [reflexivity|]. split; intros ->; [reflexivity|]. unfold ie_error. cbn [ie_type ie_content].
        exact (x_read_item (s1, S k)).
      * assert (E' : (let! (x2, l) := v_foreach rops cfg fuel n (s1, S k) in Ret x2 ((t, Some (sc_getItem s1)) :: fst l, snd l)) = Ret x (v, it)) by (destruct t; try exact E; congruence).
        clear E. destruct (v_foreach rops cfg fuel n (s1, S k)) as [x2 [v2 it2]| | | |] eqn:E2; cbn [bind fst snd] in E'; try discriminate E'. injection E' as <- <- <-.
        destruct (proj2 (IH s1 (S k)) x2 v2 it2 E2) as [evs [ev [ES [He [Hv [-> T]]]]]]. exists (observe rops t s1 :: evs), ev.
        change (calls (S (length (observe rops t s1 :: evs)))) with (mask_all :: calls (S (length evs))). cbn [scan app]. rewrite E1. cbn [bind]. rewrite ES. cbn [bind].
        split; [reflexivity|]. split; [constructor; [split; assumption|exact He]|]. split; [exact Hv|]. split; [reflexivity|exact T].
Qed.
Print Assumptions C88_valid.

(** For every text: the elements the text consists of, then the end or the first error. *)
Theorem C88_text : forall text els o, Forall isByte text -> o <> Endless -> text_reads (letters UTF8 text) (els ++ last_element o) o ->
  forall fuel n k, (3 * length text + 4 <= fuel)%nat -> (length els < n)%nat ->
  exists x it, v_foreach (ts_ops src_ops UTF8) (xml_config UTF8 UTF8 None 0) fuel n (sc_make (ts_make (src_make text false)), k) = Ret x (map readable (as_bytes text els), it) /\
    (o = Ends -> ie_type (xi_elem it) = EExit /\ ie_error (xi_elem it) = PNull) /\
    (forall e, o = Broken e -> ie_type (xi_elem it) = EErrorOccurred /\ ie_error (xi_elem it) <> PNull).
Proof.
  intros text els o Hb Ho H fuel n k Hf Hn. destruct (example_scan text els o Hb Ho H) as [e [He S]].
  destruct (S fuel Hf) as [s [evs [ev [E1 [E2 [E3 [E4 E5]]]]]]].
  assert (Hlen : length els = length evs) by (rewrite <- (map_length visited evs), E2; unfold as_bytes; rewrite map_length; reflexivity). rewrite Hlen in E1, Hn.
  assert (D : Forall of_document evs).
  { apply (Forall_impl _ (P := fun e => goes_on (ev_type e) = true)); [|exact E3]. intros a Ha. unfold of_document. destruct (ev_type a); try discriminate Ha; split; discriminate. }
  assert (D2 : ~ of_document ev) by (unfold of_document; intros [D1 D2]; destruct (ev_type ev); try discriminate E4; congruence).
  destruct (proj1 (C88_valid _ _ fuel n _ k) evs ev s Hn E1 D D2) as [it [E T]]. eexists. exists it.
  split; [rewrite E; repeat f_equal; rewrite <- E2, map_map; reflexivity|].
  destruct T as [T1 [T2 T3]]. unfold end_with in E5. split.
  - intros ->. cbn [ends_as] in He. subst e. destruct (ev_type ev); try discriminate E4; try discriminate E5. split; [exact T1|apply T2; reflexivity].
  - intros er ->. destruct He as [msg ->]. destruct (ev_type ev); try discriminate E4; try discriminate E5. split; [exact T1|]. intros HN. specialize (T3 eq_refl). rewrite HN in T3. discriminate T3.
Qed.
Print Assumptions C88_text.
Example C88_case : exists x it x2 it2,
  v_foreach (ts_ops src_ops UTF8) (xml_config UTF8 UTF8 None 0) 100 10 (sc_make (ts_make (src_make (str "<a>b</a>") false)), 0%nat) =
    Ret x ([(EOpenTag, Some (str "a")); (EContent, Some (str "b")); (ECloseTag, Some (str "a"))], it) /\
  ie_type (xi_elem it) = EExit /\
  v_foreach (ts_ops src_ops UTF8) (xml_config UTF8 UTF8 None 0) 100 10 (sc_make (ts_make (src_make (str "<a>b</a") false)), 0%nat) =
    Ret x2 ([(EOpenTag, Some (str "a")); (EContent, Some (str "b"))], it2) /\
  ie_type (xi_elem it2) = EErrorOccurred.
Proof. do 4 eexists. check. Qed.
(** the hypotheses of C88_text, with the text of C74 *)
Example C88_case_text : Forall isByte C74_address /\ text_reads (letters UTF8 C74_address) (C74_elements ++ last_element Ends) Ends /\ as_bytes C74_address C74_elements = C74_elements.
Proof. destruct C74_case_reads as [E [H [_ [Hb [_ H2]]]]]. rewrite E. auto. Qed.
