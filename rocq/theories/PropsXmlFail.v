(** * C98: the scanner with an output buffer that throws *)
From Coq Require Import Lia.
From Verif Require Import Base Iter CharMap Charset CodePages TextScanner XmlScanner ReadSpec ScanSpec Ideal ReaderSim ScannerSim IterSim ReadProofs ScanProofs MaskProofs PosProofs PathNames PrintFailSpec XmlFail XmlFailSpec XmlFailProof XmlFailCall.

(** ** A call of nextItem, for any reader: if it returns then it does what it does with a buffer that does not throw; if it throws then the buffer did *)
Theorem C98_call : forall (R : Type) (rops : readerops R) cfg fuel mask (s : scanner R) answers,
  match f_nextItem rops cfg fuel mask (s, answers) with
  | Ret x t => nextItem rops cfg fuel mask s = Ret (fst x) t
  | Throw x => (refusals (snd x) < refusals answers)%nat \/ nextItem rops cfg fuel mask s = Throw (fst x)
  | Jump x => nextItem rops cfg fuel mask s = Jump (fst x)
  | Undef => nextItem rops cfg fuel mask s = Undef
  | Fuel => nextItem rops cfg fuel mask s = Fuel
  end.
Proof.
  intros. destruct (ev_nextItem rops cfg mask fuel s answers) as [s' a' v L|s' a' y L|s' a'|s' a'| |]; cbn [fst snd]; try reflexivity; [left; exact L|right; reflexivity].
Qed.
Print Assumptions C98_call.
(** ** With a buffer that does not throw the scanner is the one of XmlScanner.v *)
Lemma ref0 : forall a, ~ In false a -> refusals a = 0%nat.
Proof. induction a as [|[|] a IH]; intro H; [reflexivity| |destruct H; left; reflexivity]. apply IH. intro K. apply H. right. exact K. Qed.
Theorem C98_enough : forall (R : Type) (rops : readerops R) cfg fuel masks (s0 : scanner R) answers s evs, ~ In false answers ->
  scan rops cfg fuel masks s0 = Ret s evs -> exists rest, f_scan rops cfg fuel masks (s0, answers) = Ret (s, rest) evs.
Proof. intros R rops cfg fuel masks s0 answers s evs H E. exact (ev_scan rops cfg fuel masks s0 answers s evs (ref0 _ H) E). Qed.
Print Assumptions C98_enough.

(** ** The characters of a text *)
Lemma clen8 cs l : (clen cs l <= 8)%nat.
Proof.
  destruct cs; cbn [clen]; try lia.
  - assert (H : forall n : nat, (N.to_nat (nth n utf8LengthTab 0%N) <= 8)%nat).
    { intro n. destruct (Nat.lt_ge_cases n 256) as [Hn|Hn].
      - assert (F : forallb (fun v => v <=? 8)%N utf8LengthTab = true) by (vm_compute; reflexivity).
        rewrite forallb_forall in F. assert (K : In (nth n utf8LengthTab 0%N) utf8LengthTab) by (apply nth_In; exact Hn). apply F in K. apply N.leb_le in K. lia.
      - rewrite nth_overflow; [cbn; lia|]. change (length utf8LengthTab) with 256%nat. exact Hn. }
    specialize (H (N.to_nat (nb l 0))). lia.
  - unfold utf16_size_of. match goal with |- context [if ?c then _ else _] => destruct c end; lia.
Qed.
Lemma firstn_zeros n k : (k <= n)%nat -> firstn k (repeat 0 n) = repeat 0 k.
Proof. revert n. induction k as [|k IH]; intros [|n] H; cbn [firstn repeat]; try reflexivity; [lia|]. f_equal. apply IH. lia. Qed.
Lemma pad8 n l : (n <= 8)%nat -> pad n l = firstn n (l ++ repeat 0 8).
Proof. intro H. unfold pad. rewrite !firstn_app. f_equal. rewrite !firstn_zeros by lia. reflexivity. Qed.
Lemma raw_in cs text : Forall (fun e => (length (u_raw e) <= 8)%nat /\ exists x y, text ++ repeat 0 8 = x ++ u_raw e ++ y) (units cs text).
Proof.
  unfold units. generalize (length text) as n. intro n. revert text. induction n as [|n IH]; intros text; cbn [units_n]; [constructor|]. destruct text as [|b text]; [constructor|]. set (l := b :: text) in *. constructor.
  - cbn [dec u_raw]. pose proof (clen8 cs l) as C. rewrite (pad8 _ _ C). split; [rewrite firstn_length; lia|]. exists [], (skipn (clen cs l) (l ++ repeat 0 8)). cbn [app]. rewrite firstn_skipn. reflexivity.
  - specialize (IH (skipn (clen cs l) l)). apply Forall_forall. intros e He. rewrite Forall_forall in IH. destruct (IH e He) as (K & x & y & E). split; [exact K|].
    exists (firstn (clen cs l) l ++ x), y. rewrite <- app_assoc, <- E, app_assoc, firstn_skipn. reflexivity.
Qed.

(** ** Repeated calls deliver the same elements, with the same types, errors and positions; the texts are changed by pieces of what was printed *)
Lemma again_any {R} (o1 : readerops R) prel rel relp relj incs outcs m addr fuel masks text answers r s evs : cs_constructible incs = true ->
  rsim prel o1 (ur_ops (dec incs [])) rel relp relj -> prel 0 0 -> rel r (mkUr (units incs text) 0) ->
  let cfg := xml_config incs outcs m addr in scan o1 cfg fuel masks (sc_make r) = Ret s evs ->
  exists x evs0 evs', f_scan o1 cfg fuel masks (sc_make r, answers) = Ret x evs' /\ Forall2 (evrel prel) evs evs0 /\
    Forall2 (fun e e' => same_text (changed (piece outcs text) (missing outcs)) e e' /\ prel (ev_tokpos e') (ev_tokpos e) /\ prel (ev_pos e') (ev_pos e)) evs0 evs'.
Proof.
  intros Hc Hs P0 Hr cfg E.
  assert (H : srel prel rel (sc_make r) (sc_make (mkUr (units incs text) 0))) by (constructor; auto).
  pose proof (sim_scan _ _ _ _ prel _ _ (sim_nextItem _ _ cfg _ _ _ _ Hs) (rs_pos _ _ _ _ _ _ Hs) fuel masks _ _ H) as K. rewrite E in K. inversion K as [s1 t1 a1 evs0 Hst Ea E1 E2| | | |]; subst. symmetry in E2.
  assert (A0 : ctl_of (u_asc (dec incs [])) = CEndOfText) by (rewrite units_asc by exact Hc; reflexivity).
  assert (X : exists x evs', f_scan o1 cfg fuel masks (sc_make r, answers) = Ret x evs' /\
    Forall2 (fun e e' => same_text (changed (piece outcs text) (missing outcs)) e e' /\ prel (ev_tokpos e') (ev_tokpos e) /\ prel (ev_pos e') (ev_pos e)) evs0 evs').
  { eapply (x_scan _ (dec incs []) cfg prel _ _ _ Hs (piece outcs text) (missing outcs) (fun e => In e (units incs text)) True True A0);
    [| | | | | | | | | | |exact E2].
  - intros e He p q Hp Hq. destruct p as [|p0 p]; [left; reflexivity|right]. destruct (cf_raw cfg).
    + pose proof (raw_in incs text) as F. rewrite Forall_forall in F. destruct (F e He) as (L & x & y & Ex). rewrite Hp in L, Ex. apply (pc_copied _ _ x (p0 :: p) (q ++ y)); [discriminate|destruct q; [congruence|]; rewrite app_length in L; cbn [length] in *; lia|].
      rewrite Ex, <- app_assoc. reflexivity.
    + apply (pc_char _ _ (u_val e) _ q); [discriminate|exact Hq|exact Hp].
  - intros; exact I.
  - intros; exact I.
  - intros p q Hp Hq. destruct p as [|p0 p]; [left; reflexivity|right]. apply (pc_char _ _ 10 _ q); [discriminate|exact Hq|exact Hp].
  - intros _ c p q Hp Hq. destruct p as [|p0 p]; [left; reflexivity|right]. apply (pc_char _ _ c _ q); [discriminate|exact Hq|exact Hp].
  - intros _ l Hl p q Hp Hq. destruct p as [|p0 p]; [left; reflexivity|right]. apply (pc_ampersand _ _ l _ q); [exact Hl|discriminate|exact Hq|exact Hp].
  - intros _. apply pc_semicolon.
  - intros _ p q Hq Ep. exists p. split; [exact Hq|exact Ep].
  - unfold sc_make. constructor; [exact P0|exact Hr|constructor|reflexivity|apply Forall_forall; intros e He; exact He].
  - split; intros _; exact I.
  - apply br; [constructor|reflexivity..]. }
  destruct X as (x & evs' & X1 & X2). exists x, evs0, evs'. auto.
Qed.
Theorem C98_scan : forall incs outcs entitymap addr fuel masks text answers s evs, cs_constructible incs = true -> Forall isByte text ->
  let cfg := xml_config incs outcs entitymap addr in
  scan (ts_ops src_ops incs) cfg fuel masks (sc_make (ts_make (src_make text false))) = Ret s evs ->
  exists x evs', f_scan (ts_ops src_ops incs) cfg fuel masks (sc_make (ts_make (src_make text false)), answers) = Ret x evs' /\
    Forall2 (same_but (changed (piece outcs text) (missing outcs))) evs evs'.
Proof.
  intros incs outcs m addr fuel masks text answers s evs Hc Hb cfg E.
  destruct (again_any _ eq _ _ _ incs outcs m addr fuel masks text answers _ s evs Hc (src_ur_rsim incs Hc) eq_refl (src_ur_make incs text Hb) E) as (x & evs0 & evs' & X1 & X2 & X3).
  apply evrel_eq in X2. subst evs0. exists x, evs'. split; [exact X1|]. clear - X3. induction X3 as [|e e' l l' ((T1 & T2 & T3) & T4 & T5) X3 IH]; constructor; [|exact IH]. split; [exact T1|]. split; [exact T2|]. auto.
Qed.
Print Assumptions C98_scan.
(** ** The same for an input stream, whatever the blocks it is read in *)
Theorem C98_istream : forall incs outcs entitymap addr fuel masks reads bufsize i answers s evs, cs_constructible incs = true ->
  Forall (fun r => rd_err r = false /\ rd_data r <> [] /\ N.of_nat (length (rd_data r)) <= bufsize) reads ->
  Forall isByte (flat_map rd_data reads) -> istrm_make reads bufsize = Ret i tt ->
  let cfg := xml_config incs outcs entitymap addr in
  scan (ts_ops istrm_ops incs) cfg fuel masks (sc_make (ts_make i)) = Ret s evs ->
  exists x evs', f_scan (ts_ops istrm_ops incs) cfg fuel masks (sc_make (ts_make i), answers) = Ret x evs' /\
    Forall2 (same_text (changed (piece outcs (flat_map rd_data reads)) (missing outcs))) evs evs'.
Proof.
  intros incs outcs m addr fuel masks reads bufsize i answers s evs Hc Hg Hb Hi cfg E.
  destruct (istrm_make_rel incs reads bufsize Hg Hb) as [i2 [Ei Hr]]. rewrite Hi in Ei. injection Ei as <-.
  pose proof (rsim_comp _ _ _ _ _ _ _ _ _ _ _ (istrm_rsim incs Hc) (ur_rsim incs)) as Hs.
  assert (Hs' := rsim_prel _ (fun _ _ => True) _ _ _ _ _ (fun _ _ _ => I) Hs).
  assert (Hr' : rcomp (isr incs) (urel incs) (ts_make i) (mkUr (units incs (flat_map rd_data reads)) 0)) by (eexists; split; [exact Hr|unfold urel; cbn; auto]).
  destruct (again_any _ (fun _ _ => True) _ _ _ incs outcs m addr fuel masks _ answers _ s evs Hc Hs' I Hr' E) as (x & evs0 & evs' & X1 & X2 & X3).
  exists x, evs'. split; [exact X1|]. clear - X2 X3. revert evs' X3. induction X2 as [|e e0 evs evs0 (H & _) X2 IH]; intros evs' X3; inversion X3 as [|e0' e' l l' ((T1 & T2 & T3) & _) X4 Q1 Q2]; subst; constructor; [|apply IH; exact X4].
  unfold ScanSpec.element in H. injection H as H1 H2 H3. unfold same_text. rewrite H1, H2, H3. auto.
Qed.
Print Assumptions C98_istream.

(** ** Nothing is changed if all characters are printed as one byte, and there is no ampersand and no question mark *)
Definition low (b : N) : Prop := 0 < b < 128 /\ b <> 38 /\ b <> 63.
Lemma low_units cs text : bytewise cs = true -> Forall low text -> Forall (fun e => low (u_asc e) /\ u_val e = u_asc e /\ length (u_raw e) = 1%nat) (units cs text).
Proof.
  intros Hc. unfold units. generalize (length text) as n. intro n. revert text. induction n as [|n IH]; intros text H; cbn [units_n]; [constructor|]. destruct text as [|b text]; [constructor|]. inversion H as [|b' l' Hb Hl]; subst.
  assert (C : clen cs (b :: text) = 1%nat).
  { destruct cs; try discriminate Hc; [|reflexivity]. cbn [clen]. unfold nb. cbn [nth]. assert (F : forallb (fun v => Nat.eqb (Nat.max 1 (N.to_nat (nth (N.to_nat v) utf8LengthTab 0))) 1) (map N.of_nat (seq 0 128)) = true) by (vm_compute; reflexivity).
    rewrite forallb_forall in F. apply Nat.eqb_eq, F. rewrite <- (N2Nat.id b). apply in_map, in_seq. destruct Hb as (Hb & _). lia. }
  assert (A : casc cs (b :: text) = b). { destruct Hb as (Hb & _). destruct cs; try discriminate Hc; cbn [casc nb nth]; (destruct (N.ltb_spec 127 b); [lia|reflexivity]). }
  constructor.
  - cbn [dec u_asc u_val u_raw]. rewrite A. split; [exact Hb|]. split; [|rewrite C; reflexivity]. destruct Hb as (Hb & _). destruct cs; try discriminate Hc.
    + unfold cval. rewrite C. unfold pad, utf8_value_of. cbn [app firstn nth]. destruct (N.ltb_spec 127 b); [lia|]. reflexivity.
    + unfold cval, nb. cbn [nth]. unfold ucharcode. cbn in Hc. destruct (N.ltb_spec b 128); reflexivity || lia.
  - rewrite C. cbn [skipn]. apply IH. exact Hl.
Qed.
Lemma low_print cs c : bytewise cs = true -> 0 < c < 128 -> (length (cs_print cs c) <= 1)%nat.
Proof.
  intros Hc H. destruct cs; try discriminate Hc; cbn [cs_print].
  - unfold utf8_print. destruct (N.leb_spec c 127); [cbn; lia|lia].
  - unfold iso_print. destruct (invcode page c) eqn:E; [|cbn; lia]. unfold invcode in E. destruct (invcodePage page); [|discriminate E]. destruct (ovlPage page); [|discriminate E].
    destruct (N.leb_spec c 128); [|lia]. injection E as <-. destruct (N.eqb_spec c 0); [lia|]. cbn. lia.
Qed.
Lemma okp1 u : (length u <= 1)%nat -> okp (fun _ => False) u.
Proof. intros H p r -> Hr. left. destruct r; [congruence|]. rewrite app_length in H. cbn [length] in H. destruct p; [reflexivity|cbn [length] in H; lia]. Qed.
Lemma same_any {R} (o1 : readerops R) prel rel relp relj incs outcs m addr fuel masks text answers r s evs : bytewise incs = true -> bytewise outcs = true -> Forall low text ->
  rsim prel o1 (ur_ops (dec incs [])) rel relp relj -> prel 0 0 -> rel r (mkUr (units incs text) 0) ->
  let cfg := xml_config incs outcs m addr in scan o1 cfg fuel masks (sc_make r) = Ret s evs ->
  exists x evs0 evs', f_scan o1 cfg fuel masks (sc_make r, answers) = Ret x evs' /\ Forall2 (evrel prel) evs evs0 /\ Forall2 (evrel prel) evs' evs0.
Proof.
  intros Hi Ho Hl Hs P0 Hr cfg E. assert (Hc : cs_constructible incs = true) by (destruct incs; try discriminate Hi; exact Hi).
  assert (H : srel prel rel (sc_make r) (sc_make (mkUr (units incs text) 0))) by (constructor; auto).
  pose proof (sim_scan _ _ _ _ prel _ _ (sim_nextItem _ _ cfg _ _ _ _ Hs) (rs_pos _ _ _ _ _ _ Hs) fuel masks _ _ H) as K. rewrite E in K. inversion K as [s1 t1 a1 evs0 Hst Ea E1 E2| | | |]; subst. symmetry in E2.
  assert (A0 : ctl_of (u_asc (dec incs [])) = CEndOfText) by (rewrite units_asc by exact Hc; reflexivity).
  assert (X : exists x evs', f_scan o1 cfg fuel masks (sc_make r, answers) = Ret x evs' /\
    Forall2 (fun e e' => same_text (changed (fun _ => False) (fun _ => False)) e e' /\ prel (ev_tokpos e') (ev_tokpos e) /\ prel (ev_pos e') (ev_pos e)) evs0 evs').
  { eapply (x_scan _ (dec incs []) cfg prel _ _ _ Hs (fun _ => False) (fun _ => False)
      (fun e => low (u_asc e) /\ u_val e = u_asc e /\ length (u_raw e) = 1%nat) False False A0); [| | | | | | | | | | |exact E2].
    - intros e (A & V & L). apply okp1. destruct (cf_raw cfg); [rewrite L; lia|]. rewrite V. apply low_print; [exact Ho|apply A].
    - intros e (A & _) Ha. apply ctl_amp in Ha. destruct A as (_ & A & _). contradiction.
    - intros e (((A1 & A2) & _ & A) & _) Ha. apply A.
      assert (S : forallb (fun a => match ctl_of a with CQuestm => a =? 63 | _ => true end) (map N.of_nat (seq 0 128)) = true) by (vm_compute; reflexivity). rewrite forallb_forall in S.
      specialize (S (u_asc e)). rewrite Ha in S. apply N.eqb_eq, S. rewrite <- (N2Nat.id (u_asc e)). apply in_map, in_seq. lia.
    - apply okp1, low_print; [exact Ho|lia].
    - contradiction.
    - contradiction.
    - contradiction.
    - contradiction.
    - unfold sc_make. constructor; [exact P0|exact Hr|constructor|reflexivity|apply low_units; [exact Hi|exact Hl]].
    - split; [intro D; discriminate D|intro D; contradiction D].
    - apply br; [constructor|reflexivity..]. }
  destruct X as (x & evs' & X & F). exists x, evs0, evs'. split; [exact X|]. split; [exact Ea|]. clear - F. induction F as [|e e' l l' ((T1 & T2 & T3) & T4 & T5) F IH]; constructor; [|exact IH].
  apply ch_none in T2; [|intros p D; exact D|intros q D; exact D]. split; [|auto]. unfold ScanSpec.element. congruence.
Qed.
Theorem C98_same : forall incs outcs entitymap addr fuel masks text answers s evs, bytewise incs = true -> bytewise outcs = true -> Forall low text ->
  let cfg := xml_config incs outcs entitymap addr in
  scan (ts_ops src_ops incs) cfg fuel masks (sc_make (ts_make (src_make text false))) = Ret s evs ->
  exists x, f_scan (ts_ops src_ops incs) cfg fuel masks (sc_make (ts_make (src_make text false)), answers) = Ret x evs.
Proof.
  intros incs outcs m addr fuel masks text answers s evs Hi Ho Hl cfg E. assert (Hc : cs_constructible incs = true) by (destruct incs; try discriminate Hi; exact Hi).
  assert (Hb : Forall isByte text) by (eapply Forall_impl; [|exact Hl]; intros b (Hb & _); unfold isByte; lia).
  destruct (same_any _ eq _ _ _ incs outcs m addr fuel masks text answers _ s evs Hi Ho Hl (src_ur_rsim incs Hc) eq_refl (src_ur_make incs text Hb) E) as (x & evs0 & evs' & X1 & X2 & X3).
  apply evrel_eq in X2. apply evrel_eq in X3. subst. exists x. exact X1.
Qed.
Print Assumptions C98_same.

(** ** Texts are changed where a character is printed as several bytes, in the start of a header, and for what is not a reference *)
Definition texts (r : out (fscn (R := tscan srcit)) (list event)) : list (list N) := match r with Ret _ evs => map ev_item evs | _ => [] end.
Definition undisturbed (r : out (scanner (tscan srcit)) (list event)) : list (list N) := match r with Ret _ evs => map ev_item evs | _ => [] end.
Theorem C98_refuted :
  (exists masks text answers, undisturbed (xml_scan UTF8 UTF8 64 masks text) = [str "a"; [195; 169]] /\ texts (xml_again UTF8 UTF8 64 masks text answers) = [str "a"; [195; 195; 169]])
  /\ (exists masks text answers, undisturbed (xml_scan UTF8 UTF8 64 masks text) = [str "?xml"] /\ texts (xml_again UTF8 UTF8 64 masks text answers) = [str "?x"])
  /\ (exists masks text answers, undisturbed (xml_scan UTF8 UTF8 64 masks text) = [str "a"; str "&#12345678901;;"] /\ texts (xml_again UTF8 UTF8 64 masks text answers) = [str "a"; str "&#12&#12345678901;;;"]).
Proof.
  split; [|split].
  - exists [0xFFFF; 0xFFFF], (str "<a>" ++ [195; 169]), [true; true; false]. split; vm_compute; reflexivity.
  - exists [0xFFFF], (str "<?xml version='1'?>"), [true; true; false]. split; vm_compute; reflexivity.
  - exists [0xFFFF; 0xFFFF], (str "<a>&#12345678901;"), [true; true; true; true; true; false]. split; vm_compute; reflexivity.
Qed.
Print Assumptions C98_refuted.

(** ** Cases *)
Definition ex_text : list N := str "<a b='c'>d e</a>".
Definition ex_masks : list N := repeat 0xFFFF 6.
Example C98_same_case : Forall low ex_text /\ exists s evs x, xml_scan UTF8 UTF8 64 ex_masks ex_text = Ret s evs /\ evs <> [] /\ xml_again UTF8 UTF8 64 ex_masks ex_text [false; false; true; false; false; true; false] = Ret x evs /\ snd x = [].
Proof.
  split; [repeat (constructor; [unfold low; split; [split; reflexivity|split; discriminate]|]); constructor|]. do 3 eexists. split; [vm_compute; reflexivity|]. split; [discriminate|]. split; vm_compute; reflexivity.
Qed.
Example C98_scan_case : Forall isByte (str "<a>" ++ [195; 169]) /\ changed (piece UTF8 (str "<a>" ++ [195; 169])) (missing UTF8) [195; 169] [195; 195; 169].
Proof.
  split; [repeat (constructor; [unfold isByte; reflexivity|]); constructor|]. apply (ch_insert _ _ _ [] [195] [195; 169]); [constructor|]. apply (pc_copied _ _ (str "<a>") [195] ([169] ++ repeat 0 8)); [discriminate|cbn; lia|reflexivity].
Qed.
Example C98_call_case : exists s a, f_nextItem (ts_ops src_ops UTF8) (xml_config UTF8 UTF8 None 0) 64 0xFFFF (sc_make (ts_make (src_make ex_text false)), [false; true]) = Throw (s, a) /\ a = [true].
Proof. do 2 eexists. split; vm_compute; reflexivity. Qed.
Example C98_istream_case : exists i s evs x evs', istrm_make [mkRd (str "<a>h" ++ [195]) false; mkRd ([169] ++ str "</a>") false] 16 = Ret i tt /\
  scan (ts_ops istrm_ops UTF8) (xml_config UTF8 UTF8 None 0) 64 (repeat 0xFFFF 3) (sc_make (ts_make i)) = Ret s evs /\ map ev_item evs = [str "a"; str "h" ++ [195; 169]; str "a"] /\
  f_scan (ts_ops istrm_ops UTF8) (xml_config UTF8 UTF8 None 0) 64 (repeat 0xFFFF 3) (sc_make (ts_make i), [true; true; true; false; false]) = Ret x evs' /\ map ev_item evs' = [str "a"; str "h" ++ [195; 195; 169]; str "a"].
Proof. do 5 eexists. split; [vm_compute; reflexivity|]. split; [vm_compute; reflexivity|]. split; [vm_compute; reflexivity|]. split; [vm_compute; reflexivity|vm_compute; reflexivity]. Qed.
