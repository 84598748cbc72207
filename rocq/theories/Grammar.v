(** The sequence of elements follows the grammar, Exit is final (proofs). *)
From Verif Require Import Base Iter CharMap CodePages Charset TextScanner Ideal ReaderSim ScannerSim IterSim
  CharsetSpec CharsetProofs CharsetMore ReadSpec ReadProofs ChunkRead XmlScanner ScanSpec ScanProofs Safety FuelMono ChunkScan Term GrammarSpec.

Definition gstate_eqb (a b : gstate) : bool :=
  match a, b with
  | GStart, GStart | GHeader, GHeader | GHeaderValue, GHeaderValue | GBody, GBody | GTag, GTag | GValue, GValue
  | GClosed, GClosed | GDoc, GDoc | GEnd, GEnd => true
  | _, _ => false
  end.
Lemma gstate_eqb_eq : forall a b, gstate_eqb a b = true -> a = b.
Proof. intros a b. destruct a, b; cbn; congruence. Qed.
Definition stm_eqb (a b : stm) : bool := Nat.eqb (stm_idx a) (stm_idx b).
Lemma stm_eqb_eq : forall a b, stm_eqb a b = true -> a = b.
Proof. intros a b H. destruct a, b; try reflexivity; discriminate H. Qed.

(** element type delivered by the action of a state *)
Definition act_type (e : XmlScanner.element) : etype :=
  match el_action e with
  | None => ENone
  | Some (ExpectIdentifierXML, _) => EHeaderStart
  | Some (ExpectIdentifierCDATA, _) => ENone
  | Some (_, t) => t
  end.
(** states possible after a state *)
Definition succs (s : stm) (e : XmlScanner.element) : list stm :=
  flat_map (fun o => match o with Some x => [x] | None => [] end) (el_fallback e :: el_next e) ++
  (if Nat.eqb (el_nofnext e) 0 then match el_fallback e with Some _ => [] | None => [s] end else []).

(** pairs reachable in one step; [None] if the grammar does not allow it *)
Definition gsuccs (p : gstate * stm) : option (list (gstate * stm)) :=
  match stm_get (snd p) with
  | None => None
  | Some e =>
      if isNone (act_type e) then Some (map (fun s => (fst p, s)) (succs (snd p) e))
      else match gstep false (fst p) (act_type e) with
           | Some g => Some (map (fun s => (g, s)) (succs (snd p) e))
           | None => None
           end
  end.
Definition gmem (p : gstate * stm) (l : list (gstate * stm)) : bool :=
  existsb (fun q => gstate_eqb (fst p) (fst q) && stm_eqb (snd p) (snd q)) l.
Lemma gmem_in : forall p l, gmem p l = true -> In p l.
Proof.
  intros [a b] l H. apply existsb_exists in H. destruct H as [[c d] [Hi H]]. apply andb_prop in H. destruct H as [H1 H2].
  apply gstate_eqb_eq in H1. apply stm_eqb_eq in H2. cbn in *. subst. exact Hi.
Qed.
Definition gadd (l ps : list (gstate * stm)) : list (gstate * stm) :=
  fold_left (fun l p => if gmem p l then l else l ++ [p]) ps l.
Fixpoint gclose (n : nat) (l : list (gstate * stm)) : list (gstate * stm) :=
  match n with
  | 0%nat => l
  | S n' => gclose n' (fold_left (fun l p => match gsuccs p with Some ps => gadd l ps | None => l end) l l)
  end.
Definition gpairs : list (gstate * stm) := Eval vm_compute in gclose 30 [(GStart, START)].

Lemma gpairs_closed : forallb (fun p => match gsuccs p with
  | Some ps => forallb (fun q => gmem q gpairs) ps
  | None => false end) gpairs = true.
Proof. vm_compute. reflexivity. Qed.

Section Grammar.
Context {R : Type} (rops : readerops R) (cfg : config).
Notation scn := (scanner R).

Lemma succs_next : forall s e c ns, nth_error (el_next e) (ctl_idx c) = Some (Some ns) -> In ns (succs s e).
Proof.
  intros s e c ns H. unfold succs. apply in_or_app. left. apply in_flat_map. exists (Some ns). split; [|left; reflexivity].
  right. eapply nth_error_In. exact H.
Qed.
Lemma succs_fallback : forall s e fs, el_fallback e = Some fs -> In fs (succs s e).
Proof.
  intros s e fs H. unfold succs. apply in_or_app. left. apply in_flat_map. exists (Some fs). split; [|left; reflexivity].
  left. exact H.
Qed.

Lemma nstep_state : forall f mask s s' o, nstep rops cfg f mask s = Ret s' o ->
  exists e, stm_get (sc_state s) = Some e /\
  match o with
  | None => In (sc_state s') (succs (sc_state s) e) /\ isNone (act_type e) = true
  | Some t => (t = EErrorOccurred /\ sc_state s' = sc_state s) \/
              (t = act_type e /\ isNone (act_type e) = false /\ In (sc_state s') (succs (sc_state s) e))
  end.
Proof.
  intros f mask s s' o H. unfold nstep in H. destruct (stm_get (sc_state s)) as [e|] eqn:He; [|discriminate]. exists e. split; [reflexivity|].
  assert (Hact : forall s1 r, (match el_action e with
         | None => Ret s (ENone, false)
         | Some (a, arg) =>
             let! (s1, res) := doAction rops cfg f mask a arg s in
             match res with
             | inr _ => Ret s1 (EErrorOccurred, true)
             | inl rt =>
                 if Nat.eqb (el_nofnext e) 0
                 then Ret (match el_fallback e with Some fs => set_state fs s1 | None => s1 end) (rt, true)
                 else Ret s1 (rt, false)
             end
         end) = Ret s1 r ->
     (snd r = false /\ fst r = act_type e /\ sc_state s1 = sc_state s) \/
     (snd r = true /\ fst r = EErrorOccurred /\ sc_state s1 = sc_state s) \/
     (snd r = true /\ fst r = act_type e /\ isNone (act_type e) = false /\ In (sc_state s1) (succs (sc_state s) e))).
  { intros s1 r. destruct (el_action e) as [[a arg]|] eqn:Ea.
    - assert (Hst := stk_doAction rops cfg f mask a arg (sc_state s) s eq_refl).
      destruct (doAction rops cfg f mask a arg s) as [s2 res| | | |] eqn:Ed; cbn [bind]; try discriminate. cbn [stk] in Hst.
      destruct res as [rt|].
      + pose proof (doAction_rt _ _ _ _ _ _ _ _ _ Ed) as Hrt.
        assert (Ert : rt = act_type e) by (unfold act_type; rewrite Ea; destruct a; exact Hrt).
        destruct (Nat.eqb (el_nofnext e) 0) eqn:En; intros E; injection E as <- <-; cbn [fst snd].
        * right. right. split; [reflexivity|]. split; [exact Ert|]. split.
          { clear - He En Ea. destruct (sc_state s); vm_compute in He; injection He as <-; try discriminate En; reflexivity. }
          destruct (el_fallback e) as [fs|] eqn:Ef; [apply succs_fallback; exact Ef|].
          unfold succs. apply in_or_app. right. rewrite En, Ef. left. auto.
        * left. auto.
      + intros E; injection E as <- <-; cbn [fst snd]. right. left. auto.
    - intros E; injection E as <- <-. left. unfold act_type. rewrite Ea. auto. }
  destruct (match el_action e with None => _ | Some _ => _ end) as [s1 r| | | |]; cbn [bind] in H; try discriminate.
  specialize (Hact s1 r eq_refl). destruct r as [rt b]. cbn [fst snd] in *.
  destruct Hact as [[-> [-> Hst]]|[[-> [-> Hst]]|[-> [-> [Hn Hst]]]]].
  - pose proof (stk_src (sc_state s) (r_control rops) s1 Hst) as Hc. fold (sc_control rops s1) in Hc.
    destruct (sc_control rops s1) as [s2 c| | | |]; cbn [bind] in H; try discriminate. cbn [stk] in Hc.
    unfold transition in H. destruct (nth_error (el_next e) (ctl_idx c)) as [[ns|]|] eqn:En; [| |discriminate].
    + pose proof (stk_src ns (r_skip rops) (set_state ns (upd_tok (tok_id TStart) s2)) eq_refl) as Hk.
      fold (sc_skip rops (set_state ns (upd_tok (tok_id TStart) s2))) in Hk.
      destruct (sc_skip rops _) as [s3 u| | | |]; cbn [bind] in H; try discriminate. cbn [stk] in Hk. subst ns.
      apply (succs_next (sc_state s)) in En.
      destruct (isNone (act_type e)) eqn:Et; injection H as <- <-; auto.
    + destruct (el_fallback e) as [fs|] eqn:Ef; cbn [bind] in H.
      * destruct (isNone (act_type e)) eqn:Et; injection H as <- <-; pose proof (succs_fallback (sc_state s) e fs Ef); auto.
      * destruct (el_miss e); cbn [bind] in H; injection H as <- <-; auto.
  - injection H as <- <-. auto.
  - injection H as <- <-. auto.
Qed.

Lemma gpairs_step : forall g s e, In (g, s) gpairs -> stm_get s = Some e ->
  if isNone (act_type e) then (forall x, In x (succs s e) -> In (g, x) gpairs)
  else exists g', gstep false g (act_type e) = Some g' /\ (forall x, In x (succs s e) -> In (g', x) gpairs).
Proof.
  intros g s e Hin He. pose proof gpairs_closed as Hc. rewrite forallb_forall in Hc. specialize (Hc _ Hin). unfold gsuccs in Hc.
  cbn [fst snd] in Hc. rewrite He in Hc. destruct (isNone (act_type e)).
  - intros x Hx. rewrite forallb_forall in Hc. apply gmem_in. apply Hc. apply in_map. exact Hx.
  - destruct (gstep false g (act_type e)) as [g'|]; [|discriminate]. exists g'. split; [reflexivity|].
    intros x Hx. rewrite forallb_forall in Hc. apply gmem_in. apply Hc. apply (in_map (fun s => (g', s))). exact Hx.
Qed.

Lemma grammar_next : forall mask f s s' t g, In (g, sc_state s) gpairs -> nextItem rops cfg f mask s = Ret s' t ->
  (t = EErrorOccurred /\ In (g, sc_state s') gpairs) \/
  (exists g', gstep false g t = Some g' /\ t <> EErrorOccurred /\ In (g', sc_state s') gpairs).
Proof.
  intros mask. induction f as [|f IH]; intros s s' t g Hg H; [discriminate H|]. rewrite nextItem_step in H.
  destruct (nstep rops cfg f mask s) as [s3 o| | | |] eqn:E; cbn [bind] in H; try discriminate.
  destruct (nstep_state _ _ _ _ _ E) as [e [He Ho]]. pose proof (gpairs_step _ _ _ Hg He) as Hs. destruct o as [t'|].
  - injection H as <- <-. destruct Ho as [[-> Hst]|[-> [Hn Hin]]].
    + left. split; [reflexivity|]. rewrite Hst. exact Hg.
    + rewrite Hn in Hs. destruct Hs as [g' [Hg' Hx]]. right. exists g'. split; [exact Hg'|]. split; [|auto].
      intros E0. rewrite E0 in Hg'. destruct g; discriminate Hg'.
  - destruct Ho as [Hin Hn]. rewrite Hn in Hs. apply (IH s3 s' t g); auto.
Qed.

Theorem grammar_scan : forall f masks s s' evs g, In (g, sc_state s) gpairs -> scan rops cfg f masks s = Ret s' evs ->
  gaccept false g (map ev_type evs) = true.
Proof.
  intros f. induction masks as [|m masks IH]; intros s s' evs g Hg H; cbn [scan] in H.
  - injection H as <- <-. reflexivity.
  - destruct (nextItem rops cfg f m s) as [s1 t| | | |] eqn:E; cbn [bind] in H; try discriminate.
    destruct (scan rops cfg f masks s1) as [s2 evs2| | | |] eqn:E2; cbn [bind] in H; try discriminate. injection H as <- <-.
    cbn [map observe ev_type]. destruct (grammar_next _ _ _ _ _ _ Hg E) as [[-> Hg1]|[g' [Hs [Hne Hg1]]]].
    + cbn [gaccept]. eapply IH; eauto.
    + assert (Ha : gaccept false g (t :: map ev_type evs2) = gaccept false g' (map ev_type evs2)).
      { cbn [gaccept]. rewrite Hs. destruct t; try reflexivity. congruence. }
      rewrite Ha. eapply IH; eauto.
Qed.

(** ** Exit *)
Lemma exit_again : forall f mask s, sc_state s = EXIT ->
  nextItem rops cfg (S f) mask s = Ret (set_obuf [] (set_tokpos (r_pos rops (sc_src s)) s)) EExit.
Proof. intros f mask s H. cbn [nextItem]. rewrite H. reflexivity. Qed.

Lemma act_exit : forall s e, stm_get s = Some e -> act_type e = EExit -> s = EXIT.
Proof. intros s e H. destruct s; vm_compute in H; injection H as <-; cbn; congruence. Qed.

Lemma exit_state : forall mask f s s', nextItem rops cfg f mask s = Ret s' EExit ->
  sc_state s' = EXIT /\ sc_obuf s' = [] /\ sc_tokpos s' = r_pos rops (sc_src s').
Proof.
  intros mask. induction f as [|f IH]; intros s s' H; [discriminate H|]. rewrite nextItem_step in H.
  destruct (nstep rops cfg f mask s) as [s3 o| | | |] eqn:E; cbn [bind] in H; try discriminate.
  destruct (nstep_state _ _ _ _ _ E) as [e [He Ho]]. destruct o as [t|]; [|eapply IH; eauto].
  injection H as -> ->. destruct Ho as [[Ho _]|[Ho _]]; [discriminate|]. symmetry in Ho.
  pose proof (act_exit _ _ He Ho) as Hs. unfold nstep in E. rewrite Hs in E. vm_compute in E. injection E as <-.
  cbn. auto.
Qed.
End Grammar.
