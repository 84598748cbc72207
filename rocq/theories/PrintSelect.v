(** The elements of printed documents are in order (proofs). *)
From Coq Require Import Lia ZifyBool ZifyNat.
From Verif Require Import Base Iter Charset CharsetSpec TextScanner XmlScanner XmlPrinter DocSpec PrintSpec PrintProofs PrintDoc PathSpec.

Definition at_place (pl : place) (a : amach) : Prop :=
  match pl with InContent => a_state a = PContent | InStartTag => a_state a = PTagElement | InAttribute => a_state a = PTagAttribute end.
Definition at_phase (pl : place) (p : phase) : Prop :=
  match pl with InContent => p <> PVal | InStartTag => p = PAttr | InAttribute => p = PVal end.

Lemma content_ordered drop text p n rest : p <> PVal -> (forall q, q <> PVal -> ordered q n rest = true) -> ordered p n (content drop text ++ rest) = true.
Proof.
  intros Hp Hr. unfold content. destruct (if drop then drop_blank text else text); [apply Hr; exact Hp|]. cbn [app ordered fst kind_of level_after].
  destruct p; try congruence; cbn [phase_after]; apply Hr; discriminate.
Qed.
Lemma other_ordered : forall l p n rest, p <> PVal -> Forall (fun e => kind_of (fst e) = KOther) l -> ordered p n rest = true -> ordered p n (l ++ rest) = true.
Proof.
  induction l as [|e l IH]; intros p n rest Hp Hl Hr; [exact Hr|]. inversion Hl as [|? ? He Hl']; subst. cbn [app ordered]. rewrite He.
  assert (phase_after p KOther = Some p) as -> by (destruct p; try reflexivity; congruence). cbn [level_after]. apply IH; assumption.
Qed.

Lemma del_ordered acs : forall l pl drop text tags a p, at_place pl a -> length tags = length (a_stack a) -> at_phase pl p -> doc_calls acs pl l ->
  all_ok (snd (a_run acs (map (app_call acs) l) a)) -> ordered p (length tags) (delivered pl drop text tags l ++ [(EExit, [])]) = true.
Proof.
  induction l as [|c l IH]; intros pl drop text tags a p Ha Ht Hp Hd Hok.
  - cbn [delivered doc_calls] in *. subst pl. apply content_ordered; [exact Hp|]. intros q Hq. cbn. destruct q; reflexivity || congruence.
  - cbn [map] in Hok. rewrite a_run_cons in Hok. cbn [snd] in Hok. inversion Hok as [|? ? Hok1 Hok2]; subst. clear Hok. destruct Hd as [Hd1 Hd2]. destruct a as [st stk]. cbn [a_stack] in Ht.
    destruct c as [e s|[r|] pu sy| |nm|nm|v| |s|]; cbn [app_call map_call omap_text a_do place_after doc_call] in *.
    + exfalso. unfold at_place in Ha. cbn [a_state] in *. destruct pl; subst st; discriminate Hok1.
    + destruct Hd1 as (_ & -> & _). cbn [at_place a_state at_phase] in *. subst st. cbn [delivered place_after].
      rewrite <- !app_assoc. apply content_ordered; [exact Hp|]. intros q Hq. apply other_ordered; [exact Hq| |].
      * unfold doctype_delivered. destruct pu, sy; repeat constructor.
      * eapply IH; try exact Hd2; [| |exact Hq|]; [| |].
        all: destruct pu, sy; cbn [omap_text fst snd] in *; try discriminate Hok1; try exact Hok2; try exact Ht; reflexivity.
    + cbn [delivered place_after]. eapply IH; eauto.
    + cbn [delivered place_after]. destruct pl; [| |contradiction Hd1; reflexivity]; cbn [at_place a_state aexit] in *; subst st; cbn [fst snd] in *; (eapply IH; [| | |exact Hd2|exact Hok2]; [reflexivity|exact Ht|]); cbn [at_phase] in *; [exact Hp|subst p; discriminate].
    + cbn [delivered place_after]. destruct Hd1 as [_ Hpl]. rewrite <- app_assoc.
      assert (Hp' : p <> PVal) by (destruct pl; cbn [at_phase] in Hp; congruence).
      apply content_ordered; [exact Hp'|]. intros q Hq. cbn [app ordered fst kind_of level_after].
      assert (phase_after q KOpen = Some PAttr) as -> by (destruct q; try reflexivity; congruence).
      change (S (length tags)) with (length (nm :: tags)).
      destruct pl; [| |congruence]; cbn [at_place a_state aexit] in *; subst st; cbn [fst snd a_stack] in *; (eapply IH; [| | |exact Hd2|exact Hok2]; [reflexivity|cbn; f_equal; exact Ht|reflexivity]).
    + cbn [delivered place_after]. destruct pl; cbn [at_place a_state at_phase] in *; subst st; try discriminate Hok1. subst p. cbn [app ordered fst kind_of phase_after level_after].
      eapply IH; [| | |exact Hd2|exact Hok2]; [reflexivity|exact Ht|reflexivity].
    + cbn [delivered place_after]. destruct pl; cbn [at_place a_state at_phase aexit] in *; subst st; cbn [fst snd] in *.
      * eapply IH; [| | |exact Hd2|exact Hok2]; [reflexivity|exact Ht|exact Hp].
      * eapply IH; [| | |exact Hd2|exact Hok2]; [reflexivity|exact Ht|subst p; discriminate].
      * subst p. cbn [app ordered fst kind_of phase_after level_after]. eapply IH; [| | |exact Hd2|exact Hok2]; [reflexivity|exact Ht|reflexivity].
    + cbn [delivered place_after]. rewrite <- app_assoc. destruct stk as [|n0 stk]; [discriminate Hok1|]. destruct n0 as [|b0 n0]; [discriminate Hok1|]. cbn [length] in Ht.
      destruct tags as [|t0 tags]; [discriminate Ht|]. cbn [length tl hd] in *. injection Ht as Ht.
      destruct pl; cbn [at_place a_state at_phase] in *; subst st; cbn [fst snd a_stack] in *; [| |discriminate Hok1].
      * rewrite <- app_assoc. apply content_ordered; [exact Hp|]. intros q Hq. cbn [app ordered fst kind_of level_after].
        assert (phase_after q KClose = Some PBody) as -> by (destruct q; try reflexivity; congruence).
        eapply IH; [| | |exact Hd2|exact Hok2]; [reflexivity|exact Ht|discriminate].
      * subst p. cbn [app ordered fst kind_of phase_after level_after]. eapply IH; [| | |exact Hd2|exact Hok2]; [reflexivity|exact Ht|discriminate].
    + destruct Hd1.
    + cbn [delivered place_after]. eapply IH; eauto.
Qed.

Lemma printed_ordered acs sub l : doc_first sub l -> doc_calls acs InContent l -> all_ok (snd (a_run acs (map (app_call acs) l) (a_new sub))) ->
  ordered PStart 0 (delivered InContent false [] [] l ++ [(EExit, [])]) = true.
Proof.
  intros Hf Hd Hok. assert (S1 : sub = true -> ordered PStart 0 (delivered InContent false [] [] l ++ [(EExit, [])]) = true).
  { intros ->. apply (del_ordered acs l InContent false [] [] (a_new true)); [reflexivity|reflexivity|discriminate|assumption|assumption]. }
  destruct l as [|c l]; [destruct Hf|]. destruct c as [e s|[r|] pu sy| |nm|nm|v| |s|]; try contradiction Hf; try (apply S1; exact Hf).
  cbn [doc_first] in Hf. subst sub. clear S1. cbn [map] in Hok. rewrite a_run_cons in Hok. cbn [snd] in Hok. inversion Hok as [|? ? _ Hok2]; subst. destruct Hd as [_ Hd].
  cbn [delivered place_after] in *. unfold header_delivered. rewrite <- !app_assoc. cbn [app ordered fst kind_of phase_after level_after].
  assert (G : ordered PAttr 0 ((EHeaderEnd, []) :: delivered InContent true [10] [] l ++ [(EExit, [])]) = true).
  { cbn [ordered fst kind_of phase_after level_after]. apply (del_ordered acs l InContent true [10] [] (mkA PContent [])); [reflexivity|reflexivity|discriminate|assumption|assumption]. }
  destruct s as [s|]; cbn [app ordered fst kind_of phase_after level_after]; exact G.
Qed.

(** What holds for all elements delivered *)
Definition of_header (t : etype) : bool := match kind_of t with KHeader | KHdrEnd => true | _ => match t with EHeaderAttribName => true | _ => false end end.
Definition no_header_call (c : pcall) : Prop := match c with PHeader _ _ => False | _ => True end.
Lemma del_forall (Q : etype * list N -> Prop) l0 : (forall n, In (POpen n) l0 -> Q (EOpenTag, n)) -> (forall n, In (PrintSpec.PAttr n) l0 -> Q (ETagAttribName, n)) ->
  (forall t n, t <> EOpenTag -> t <> ETagAttribName -> of_header t = false -> Q (t, n)) ->
  forall l pl drop text tags, incl l l0 -> Forall no_header_call l -> Forall Q (delivered pl drop text tags l).
Proof.
  intros Q1 Q2 Q3. assert (QC : forall drop text, Forall Q (content drop text)) by (intros; unfold content; destruct (if drop then _ else _); repeat constructor; apply Q3; discriminate || reflexivity).
  induction l as [|c l IH]; intros pl drop text tags Hi Hn; cbn [delivered]; [apply QC|]. inversion Hn as [|? ? Hc Hn']; subst.
  assert (Hi' : incl l l0) by (intros x Hx; apply Hi; right; exact Hx). specialize (Hi c (or_introl eq_refl)).
  destruct c as [e s|[r|] pu sy| |nm|nm|v| |s|]; try (apply IH; assumption).
  - destruct Hc.
  - apply Forall_app. split; [apply QC|]. apply Forall_app. split; [|apply IH; assumption].
    unfold doctype_delivered. destruct pu, sy; cbn [app]; repeat constructor; apply Q3; discriminate || reflexivity.
  - apply Forall_app. split; [apply QC|]. constructor; [apply Q1; exact Hi|apply IH; assumption].
  - constructor; [apply Q2; exact Hi|apply IH; assumption].
  - destruct pl; try (apply IH; assumption). constructor; [apply Q3; discriminate || reflexivity|apply IH; assumption].
  - apply Forall_app. split; [|apply IH; assumption]. destruct pl; [apply Forall_app; split; [apply QC|]| |apply Forall_app; split; [apply QC|]]; repeat constructor; apply Q3; discriminate || reflexivity.
Qed.
Lemma ok_no_header acs : forall l a, a_state a <> PInit -> (forall s, ~ In (PReset s) l) -> all_ok (snd (a_run acs (map (app_call acs) l) a)) -> Forall no_header_call l.
Proof.
  induction l as [|c l IH]; intros a Ha Hr Hok; constructor; cbn [map] in Hok; rewrite a_run_cons in Hok; cbn [snd] in Hok; inversion Hok as [|? ? Hok1 Hok2]; subst.
  - destruct c; try exact I. cbn [app_call map_call a_do] in Hok1. destruct a as [st stk]. cbn [a_state] in *. destruct st; try discriminate Hok1. congruence.
  - apply (IH _) with (3 := Hok2); [|intros s Hs; apply (Hr s); right; exact Hs]. destruct a as [st stk].
    destruct c as [e s|[r|] pu sy| |nm|nm|v| |s|]; cbn [app_call map_call a_do] in *; unfold aexit in *; cbn [a_state a_stack fst] in *.
    all: try (destruct st; cbn; congruence).
    + destruct pu, sy; cbn; congruence.
    + destruct stk as [|[|] stk]; cbn; try congruence. destruct st; cbn; congruence.
    + exfalso. apply (Hr s). left. reflexivity.
Qed.
Lemma calls_no_reset acs : forall l pl, doc_calls acs pl l -> forall s, ~ In (PReset s) l.
Proof. induction l as [|c l IH]; intros pl Hd s H; [destruct H|]. destruct Hd as [Hc Hd]. destruct H as [->|H]; [exact Hc|exact (IH _ Hd s H)]. Qed.
