(** Proofs about tests/test_XMLPathSelect.cpp. *)
From Coq Require Import Lia.
From Verif Require Import Base Iter CharMap Charset TextScanner XmlScanner ScanSpec FuelMono PropsScan XmlIter Names PathAtm PathSelect PathProg AtmMemory AtmValue AtmHeapProofs AtmPrint Examples
  ExampleSpec ExampleProofs TestSpec TestProgsProofs TestSelect.

(** ** The automaton *)
Definition v_as (x : out vatm pelem) : out atm pelem := match x with Ret a p => Ret (map fst a) p | Jump a => Jump (map fst a) | Throw a => Throw (map fst a) | Undef => Undef | Fuel => Fuel end.
Lemma v_bind : forall x f g, (forall a p, v_as (f a p) = g (map fst a) p) -> v_as (bind x f) = bind (v_as x) g.
Proof. intros [a p|a|a| |] f g H; cbn [bind v_as]; try reflexivity. apply H. Qed.
Lemma select_map : forall cs op v p a, v_as (v_doSelect cs op v p a) = pe_doSelect cs op v p (map fst a).
Proof.
  intros cs op v p a. unfold v_doSelect, pe_doSelect. destruct v as [v|].
  - destruct (static_key cs v) as [[] k| | | |]; cbn [bind omap v_as]; try reflexivity. rewrite (next_map _ _ _ (Some v)).
    destruct (v_defineNext (pe_idx p) op (Some k) (Some v) (pe_follow p) a) as [? [n a1]| | | |]; reflexivity.
  - cbn [bind]. rewrite (next_map _ _ _ None). destruct (v_defineNext (pe_idx p) op None None (pe_follow p) a) as [? [n a1]| | | |]; reflexivity.
Qed.
Lemma push_map : forall t p a, v_as (v_push t p a) = pe_assignType t p (map fst a).
Proof.
  intros t p a. unfold v_push, pe_assignType. rewrite output_map.
  destruct (v_defineOutput (pe_idx p) (pe_print p) t (pe_follow p) (pe_start p) (pe_end p) a) as [? [[n|] a1]| | | |]; reflexivity.
Qed.
Lemma op_map : forall cs o p a, v_as (v_op cs o p a) = pe_op cs o p (map fst a).
Proof.
  intros cs o p a. destruct o; cbn [v_op pe_op]; try reflexivity; try apply select_map; try apply push_map.
  - unfold pe_selectAttribute. rewrite <- select_map. apply v_bind. intros; reflexivity.
  - unfold pe_ifAttribute. rewrite <- select_map. apply v_bind. intros; apply select_map.
  - unfold v_opt, pe_opt. destruct (pe_TO i p); reflexivity.
  - unfold v_opt, pe_opt. destruct (pe_RANGE i j p); reflexivity.
  - unfold v_opt, pe_opt. destruct (pe_INDEX i p); reflexivity.
Qed.
Lemma ops_map : forall cs os p a, v_as (v_ops cs os p a) = pe_ops cs os p (map fst a).
Proof. intros cs. induction os as [|o os IH]; intros p a; cbn [v_ops pe_ops]; [reflexivity|]. rewrite <- op_map. apply v_bind. intros; apply IH. Qed.
Lemma paths_map : forall cs ps a, add_paths cs ps (map fst a) = match v_paths cs ps a with Ret a _ => Ret (map fst a) tt | Jump a => Jump (map fst a) | Throw a => Throw (map fst a) | Undef => Undef | Fuel => Fuel end.
Proof.
  intros cs. induction ps as [|os ps IH]; intros a; cbn [v_paths add_paths]; [reflexivity|]. rewrite <- ops_map. destruct (v_ops cs os pe_root a) as [a1 p|a1|a1| |]; cbn [bind v_as]; try reflexivity. apply IH.
Qed.

(** names and keys *)
Definition named (cs : charset) (v : vstate) : Prop := match snd v, st_key (fst v) with Some n, Some k => static_key cs n = Ret tt k | None, None => True | _, _ => False end.
Lemma f_upd : forall {A} (P : A -> Prop) l i x, Forall P l -> P x -> Forall P (upd i x l).
Proof. intros A P l. induction l as [|y l IH]; intros [|i] x H Hx; cbn [upd]; auto; inversion H; subst; constructor; auto. Qed.
Lemma named_upd : forall cs i f a, Forall (named cs) a -> (forall v, named cs v -> named cs (f v)) -> Forall (named cs) (v_upd i f a).
Proof.
  intros cs i f a H Hf. unfold v_upd. destruct (nth_error a i) as [s|] eqn:E; [|exact H]. apply f_upd; [exact H|]. apply Hf. rewrite Forall_forall in H. apply H. eapply nth_error_In; eauto.
Qed.
Lemma named_alt : forall cs i a j b, Forall (named cs) a -> v_alt i a = Ret tt (j, b) -> Forall (named cs) b.
Proof.
  intros cs i a j b H E. unfold v_alt in E. destruct (nth_error a i) as [s|]; [|discriminate]. destruct (st_isempty (fst s)); [injection E as <- <-; exact H|].
  destruct (atm_last (S (length a)) i (map fst a)) as [? n| | | |]; try discriminate. injection E as <- <-. apply Forall_app. split; [|constructor; [exact I|constructor]].
  apply named_upd; [exact H|]. intros v Hv. exact Hv.
Qed.
Lemma named_start : forall cs (i : nat) (a : vatm), Forall (named cs) a -> Forall (named cs) (snd (match a with [] => (O, [v_new]) | _ => (i, a) end)).
Proof. intros cs i [|v a] H; [constructor; [exact I|constructor]|exact H]. Qed.
Lemma named_next : forall cs i op key src follow a n b, Forall (named cs) a -> match src, key with Some s, Some k => static_key cs s = Ret tt k | None, None => True | _, _ => False end ->
  v_defineNext i op key src follow a = Ret tt (n, b) -> Forall (named cs) b.
Proof.
  intros cs i op key src follow a n b H Hk E. unfold v_defineNext in E. pose proof (named_start cs i a H) as H1. destruct (match a with [] => _ | _ => _ end) as [i1 a1]. cbn [snd] in H1. clear H a i.
  destruct (atm_find (S (length a1)) op key follow (Some i1) (map fst a1)) as [? [[m|]|]| | | |]; try discriminate; [injection E as <- <-; exact H1|].
  destruct (atm_last (S (length a1)) i1 (map fst a1)) as [? j| | | |]; try discriminate. destruct (v_alt j a1) as [[] [k a2]| | | |] eqn:E2; try discriminate. cbn [bind fst snd] in E. injection E as <- <-.
  apply named_upd; [|intros v _; exact Hk]. apply Forall_app. split; [eapply named_alt; eauto|constructor; [exact I|constructor]].
Qed.
Lemma named_output : forall cs i m t follow b e a n c, Forall (named cs) a -> v_defineOutput i m t follow b e a = Ret tt (n, c) -> Forall (named cs) c.
Proof.
  intros cs i m t follow b e a n c H E. unfold v_defineOutput in E. pose proof (named_start cs i a H) as H1. destruct (match a with [] => _ | _ => _ end) as [i1 a1]. cbn [snd] in H1. clear H a i.
  destruct (Nat.leb (length a1) i1); [injection E as <- <-; exact H1|]. destruct (v_alt i1 a1) as [[] [k a2]| | | |] eqn:E2; try discriminate. cbn [bind fst snd] in E. injection E as <- <-.
  apply named_upd; [eapply named_alt; eauto|]. intros v Hv. exact Hv.
Qed.
Lemma named_select : forall cs op v p a b q, Forall (named cs) a -> v_doSelect cs op v p a = Ret b q -> Forall (named cs) b.
Proof.
  intros cs op v p a b q H E. unfold v_doSelect in E.
  assert (K : exists key, match v, key with Some s, Some k => static_key cs s = Ret tt k | None, None => True | _, _ => False end /\
    match v_defineNext (pe_idx p) op key v (pe_follow p) a with Ret _ (i, a) => Ret a (pe_selected i p) | Fuel => Fuel | _ => Undef end = Ret b q).
  { destruct v as [v|]; [|exists None; split; [exact I|exact E]]. destruct (static_key cs v) as [[] k| | | |] eqn:E1; try discriminate. exists (Some k). split; [reflexivity|exact E]. }
  destruct K as [key [K1 K2]]. destruct (v_defineNext (pe_idx p) op key v (pe_follow p) a) as [[] [n c]| | | |] eqn:E1; try discriminate. injection K2 as <- _. eapply named_next; eauto.
Qed.
Lemma named_op : forall cs o p a b q, Forall (named cs) a -> v_op cs o p a = Ret b q -> Forall (named cs) b.
Proof.
  intros cs o p a b q H E. destruct o; cbn [v_op] in E; try (eapply named_select; eassumption); try (injection E as <- _; exact H);
    try (unfold v_opt in E; match type of E with match ?X with _ => _ end = _ => destruct X end; [injection E as <- _; exact H|discriminate]).
  - destruct (v_doSelect cs OpAttribute name p a) as [a1 p1| | | |] eqn:E1; try discriminate. cbn [bind] in E. injection E as <- _. eapply named_select; eauto.
  - destruct (v_doSelect cs OpAttribute name p a) as [a1 p1| | | |] eqn:E1; try discriminate. cbn [bind] in E. eapply named_select; [|exact E]. eapply named_select; eauto.
  - unfold v_push in E. destruct (v_defineOutput (pe_idx p) (pe_print p) t (pe_follow p) (pe_start p) (pe_end p) a) as [[] [[n|] c]| | | |] eqn:E1; try discriminate. injection E as <- _. eapply named_output; eauto.
Qed.
Lemma named_ops : forall cs os p a b q, Forall (named cs) a -> v_ops cs os p a = Ret b q -> Forall (named cs) b.
Proof.
  intros cs. induction os as [|o os IH]; intros p a b q H E; cbn [v_ops] in E; [injection E as <- _; exact H|]. destruct (v_op cs o p a) as [a1 p1| | | |] eqn:E1; try discriminate. cbn [bind] in E.
  eapply IH; [|exact E]. eapply named_op; eauto.
Qed.
Lemma named_paths : forall cs ps a b u, Forall (named cs) a -> v_paths cs ps a = Ret b u -> Forall (named cs) b.
Proof.
  intros cs. induction ps as [|os ps IH]; intros a b u H E; cbn [v_paths] in E; [injection E as <- _; exact H|]. destruct (v_ops cs os pe_root a) as [a1 p1| | | |] eqn:E1; try discriminate. cbn [bind] in E.
  eapply IH; [|exact E]. eapply named_ops; eauto.
Qed.

(** ** The loop *)
Section Loop.
Context {R : Type} (rops : readerops R) (cfg : config) (a : atm).
Definition try_all (fuel fs n : nat) (s : @xsc R) (sl : sel) (put : list N) : out (@xsc R * sel * list N) verdict :=
  let! (st, it) := omap (fun s' => (s', sl, put)) (x_begin rops cfg fuel true s) in try_loop rops cfg a fuel fs n it (fst (fst st)) sl put.
Definition try_lines (e : etype * list N) (r : list Z) : list N :=
  str "Try " ++ name_of (fst e) ++ str " '" ++ before_null (snd e) ++ str "'" ++ [10] ++ flat_map (fun z => str "Element " ++ show_int z ++ str ": " ++ before_null (snd e) ++ [10]) r.
Lemma try_all_step : forall fuel fs n (s : @xsc R) sl put,
  try_all fuel fs (S n) s sl put =
  match nextItem rops cfg fuel 0xFFFF (fst s) with
  | Ret s1 t => let s1 := (s1, S (snd s)) in
      match t with
      | EExit => Ret (s1, sl, put) SaysOk
      | _ => match sel_element_post fs fs a t (Some (sc_getItem (fst s1))) sl with
             | Ret sl r => try_all fuel fs n s1 sl (put ++ try_lines (t, sc_getItem (fst s1)) r)
             | Jump sl => Jump (s1, sl, put ++ try_lines (t, sc_getItem (fst s1)) []) | Throw sl => Throw (s1, sl, put ++ try_lines (t, sc_getItem (fst s1)) []) | Undef => Undef | Fuel => Fuel
             end
      end
  | Jump s1 => Jump ((s1, S (snd s)), sl, put)
  | Throw s1 => Throw ((s1, S (snd s)), sl, put)
  | Undef => Undef
  | Fuel => Fuel
  end.
Proof.
  intros fuel fs n [s k] sl put. unfold try_all at 1, x_begin, x_next. cbn [fst snd].
  destruct (nextItem rops cfg fuel 65535 s) as [s1 t| | | |]; cbn [omap bind fst snd]; try reflexivity.
  assert (HR : x_elem (mkXi (mkItel t (x_itemPtr (s1, S k)) (x_itemSize (s1, S k))) true) (s1, S k) = Some (sc_getItem s1)).
  { unfold x_elem, x_read, x_itemPtr, x_itemSize, sc_getItem. cbn [fst snd xi_elem ie_content ie_size]. destruct (sc_obuf s1) as [|b l] eqn:E; [reflexivity|].
    rewrite Nat.eqb_refl. replace (Nat.leb (length (b :: l)) (length (b :: l) + 1)) with true by (symmetry; apply Nat.leb_le; lia). cbn [andb].
    rewrite firstn_app, firstn_all, Nat.sub_diag, app_nil_r. reflexivity. }
  assert (HC : c_string (s1, S k) (x_itemPtr (s1, S k)) = Some (before_null (sc_getItem s1))).
  { unfold c_string, x_itemPtr, sc_getItem. cbn [fst snd]. destruct (sc_obuf s1) as [|b l]; [reflexivity|]. rewrite Nat.eqb_refl. reflexivity. }
  cbn [try_loop]. unfold x_name. cbn [x_eq xi_elem ie_type x_end ie_end ie_content].
  destruct t; try reflexivity; cbn [x_eq xi_elem ie_type x_end ie_end ie_content] in HR |- *; rewrite HC, HR, name_of_ok; cbn [xi_elem ie_type];
    (destruct (sel_element_post fs fs a _ _ sl) as [sl1 r| | | |]; cbn [omap bind fst snd]; try reflexivity);
    unfold try_lines; cbn [fst snd flat_map]; rewrite <- ?app_assoc, ?app_nil_r; try reflexivity;
    unfold try_all, x_postinc, x_skip, x_begin, x_next; cbn [xi_input fst snd xi_elem ie_type];
    destruct (nextItem rops cfg fuel 65535 s1); cbn [omap bind fst snd]; rewrite <- ?app_assoc; reflexivity.
Qed.
(* both directions *)
Definition all_lines (els : list (etype * list N)) (rs : list (list Z)) : list N := flat_map (fun p => try_lines (fst p) (snd p)) (combine els rs).
Definition not_exit (t : etype) : bool := match t with EExit => false | _ => true end.
Lemma try_scan : forall evs ev n fuel fs s s' k sl sl' rs put, (length evs < n)%nat -> scan rops cfg fuel (calls (S (length evs))) s = Ret s' (evs ++ [ev]) ->
  Forall (fun e => ev_type e <> EExit) evs -> ev_type ev = EExit -> sel_run_post fs fs a (map visited evs) sl = Ret sl' rs ->
  try_all fuel fs n (s, k) sl put = Ret ((s', (S (length evs) + k)%nat), sl', put ++ all_lines (map visited evs) rs) SaysOk.
Proof.
  induction evs as [|e evs IH]; intros ev n fuel fs s s' k sl sl' rs put Hn HS He Hv Hrun; (destruct n as [|n]; [cbn [length] in Hn; lia|]); rewrite try_all_step; cbn [fst snd].
  - cbn [length calls repeat scan app] in HS. destruct (nextItem rops cfg fuel mask_all s) as [s1 t| | | |] eqn:E1; cbn [bind] in HS; try discriminate.
    change 65535 with mask_all. rewrite E1. injection HS as <- <-. cbn [map sel_run_post] in Hrun. injection Hrun as <- <-. unfold all_lines. cbn [map combine flat_map]. rewrite app_nil_r. cbn [observe ev_type] in Hv. rewrite Hv. reflexivity.
  - cbn [length] in *. change (calls (S (S (length evs)))) with (mask_all :: calls (S (length evs))) in HS. cbn [scan app] in HS.
    destruct (nextItem rops cfg fuel mask_all s) as [s1 t| | | |] eqn:E1; cbn [bind] in HS; try discriminate.
    destruct (scan rops cfg fuel (calls (S (length evs))) s1) as [s2 evs2| | | |] eqn:E2; cbn [bind] in HS; try discriminate. injection HS as <- <- ->.
    change 65535 with mask_all. rewrite E1. inversion He as [|? ? He1 He2]; subst. cbn [observe ev_type] in He1.
    cbn [map] in Hrun. unfold visited at 1 in Hrun. cbn [observe ev_type ev_item sel_run_post] in Hrun.
    destruct (sel_element_post fs fs a t (Some (sc_getItem s1)) sl) as [sl1 r| | | |] eqn:E3; cbn [bind] in Hrun; try discriminate.
    destruct (sel_run_post fs fs a (map visited evs) sl1) as [sl2 rs2| | | |] eqn:E4; cbn [bind] in Hrun; try discriminate. injection Hrun as <- <-.
    assert (G : try_all fuel fs n (s1, S k) sl1 (put ++ try_lines (t, sc_getItem s1) r) =
       Ret ((s2, (S (S (length evs)) + k)%nat), sl2, put ++ all_lines (map visited (observe rops t s1 :: evs)) (r :: rs2)) SaysOk).
    { rewrite (IH ev n fuel fs s1 s2 (S k) sl1 sl2 rs2); [|lia|exact E2|exact He2|exact Hv|exact E4]. unfold all_lines. cbn [map combine flat_map fst snd]. rewrite <- app_assoc. unfold visited at 2. cbn [observe ev_type ev_item].
      replace (S (length evs) + S k)%nat with (S (S (length evs)) + k)%nat by lia. reflexivity. }
    destruct t; try (contradiction He1; reflexivity); exact G.
Qed.
Lemma try_only : forall n fuel fs s k sl put st sl' put' v, try_all fuel fs n (s, k) sl put = Ret (st, sl', put') v -> v = SaysOk /\
  exists evs ev s' rs, (length evs < n)%nat /\ scan rops cfg fuel (calls (S (length evs))) s = Ret s' (evs ++ [ev]) /\ Forall (fun e => ev_type e <> EExit) evs /\ ev_type ev = EExit /\
    sel_run_post fs fs a (map visited evs) sl = Ret sl' rs /\ put' = put ++ all_lines (map visited evs) rs /\ st = (s', (S (length evs) + k)%nat).
Proof.
  induction n as [|n IH]; intros fuel fs s k sl put st sl' put' v H.
  { unfold try_all in H. destruct (x_begin rops cfg fuel true (s, k)) as [? ?| | | |]; discriminate. }
  rewrite try_all_step in H. cbn [fst snd] in H. change 65535 with mask_all in H. destruct (nextItem rops cfg fuel mask_all s) as [s1 t| | | |] eqn:E1; try discriminate.
  assert (D : {t = EExit} + {t <> EExit}) by (destruct t; first [left; reflexivity|right; discriminate]). destruct D as [-> | D].
  - injection H as <- <- <- <-. split; [reflexivity|]. exists [], (observe rops EExit s1), s1, []. split; [cbn; lia|]. split; [cbn [length calls repeat scan]; rewrite E1; reflexivity|].
    split; [constructor|]. split; [reflexivity|]. split; [reflexivity|]. split; [unfold all_lines; cbn; rewrite app_nil_r; reflexivity|reflexivity].
  - assert (H1 : match sel_element_post fs fs a t (Some (sc_getItem s1)) sl with Ret sl r => try_all fuel fs n (s1, S k) sl (put ++ try_lines (t, sc_getItem s1) r)
        | Jump sl => Jump ((s1, S k), sl, put ++ try_lines (t, sc_getItem s1) []) | Throw sl => Throw ((s1, S k), sl, put ++ try_lines (t, sc_getItem s1) []) | Undef => Undef | Fuel => Fuel end = Ret (st, sl', put') v)
      by (destruct t; try exact H; contradiction D; reflexivity). clear H.
    destruct (sel_element_post fs fs a t (Some (sc_getItem s1)) sl) as [sl1 r| | | |] eqn:E2; try discriminate. apply IH in H1. destruct H1 as [-> [evs [ev [s' [rs [K1 [K2 [K3 [K4 [K5 [K6 K7]]]]]]]]]]].
    split; [reflexivity|]. exists (observe rops t s1 :: evs), ev, s', (r :: rs). split; [cbn [length]; lia|]. split; [|split; [|split; [exact K4|split; [|split]]]].
    + cbn [length]. change (calls (S (S (length evs)))) with (mask_all :: calls (S (length evs))). cbn [scan app]. rewrite E1. cbn [bind]. rewrite K2. reflexivity.
    + constructor; [exact D|exact K3].
    + cbn [map]. unfold visited at 1. cbn [observe ev_type ev_item sel_run_post]. rewrite E2. cbn [bind]. rewrite K5. reflexivity.
    + rewrite K6. unfold all_lines. cbn [map combine flat_map fst snd]. rewrite <- app_assoc. reflexivity.
    + rewrite K7. cbn [length]. f_equal. lia.
Qed.
End Loop.
