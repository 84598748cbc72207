(** No sequence of calls on a path selector leaves the stacks of tokens or the states of the automaton. *)
From Coq Require Import Lia.
From Verif Require Import Base Charset XmlScanner PathAtm PathSelect PathSpec PathExtra PathProg PathInspect InspectSpec PathRun1 PathRun8.

(** ** the automaton: successors and links go upwards *)
Definition st_up (n i : nat) (st : pstate) : Prop :=
  (forall j, st_next st = Some j -> (i < j < n)%nat) /\ (forall j, st_link st = Some j -> (i < j < n)%nat) /\ (st_key st <> None -> st_next st <> None).
Definition atm_up (a : atm) : Prop := forall i st, nth_error a i = Some st -> st_up (length a) i st.

Lemma st_up_mono n m i st : st_up n i st -> (n <= m)%nat -> st_up m i st.
Proof. intros [A [B C]] H. split; [|split; [|exact C]]; intros j Hj; [specialize (A j Hj)|specialize (B j Hj)]; lia. Qed.
Lemma st_up_new n i : st_up n i st_new.
Proof. split; [|split]; intros; try discriminate. contradiction. Qed.

Lemma last_up a : atm_up a -> forall f i, (i < length a)%nat -> (length a - i < f)%nat ->
  exists j st, atm_last f i a = Ret a j /\ (i <= j < length a)%nat /\ nth_error a j = Some st /\ st_link st = None.
Proof.
  intros W. induction f as [|f IH]; intros i Hi Hf; [lia|]. cbn [atm_last].
  destruct (nth_error a i) as [st|] eqn:E; [|apply nth_error_None in E; lia].
  destruct (st_link st) as [j|] eqn:L; [|exists i, st; repeat split; auto].
  destruct (W i st E) as [_ [B _]]. specialize (B j L). destruct (IH j) as [k [sk [E1 [H1 H2]]]]; [lia|lia|].
  exists k, sk. split; [exact E1|]. split; [lia|exact H2].
Qed.
Lemma find_up a op key follow : atm_up a -> forall f i, (i < length a)%nat -> (length a - i < f)%nat ->
  exists r, atm_find f op key follow (Some i) a = Ret a r /\ (r = None \/ exists j, r = Some (Some j) /\ (j < length a)%nat).
Proof.
  intros W. induction f as [|f IH]; intros i Hi Hf; [lia|]. cbn [atm_find].
  destruct (nth_error a i) as [st|] eqn:E; [|apply nth_error_None in E; lia]. destruct (W i st E) as [A [B C]].
  match goal with |- context [if ?b then _ else _] => destruct b eqn:Hb end.
  - destruct (st_key st) as [k|] eqn:K; [|discriminate]. destruct (st_next st) as [j|] eqn:Nx; [|exfalso; apply C; [discriminate|reflexivity]].
    eexists. split; [reflexivity|]. right. exists j. split; [reflexivity|]. specialize (A j eq_refl). lia.
  - destruct (st_link st) as [j|] eqn:L.
    + specialize (B j eq_refl). apply IH; lia.
    + destruct f as [|f]; [lia|]. exists None. split; [reflexivity|left; reflexivity].
Qed.

Lemma upd_len {A} (x : A) : forall l i, length (upd i x l) = length l.
Proof. induction l as [|y l IH]; intros [|i]; cbn; auto. Qed.
Lemma atm_upd_len i f a : length (atm_upd i f a) = length a.
Proof. unfold atm_upd. destruct (nth_error a i); [apply upd_len|reflexivity]. Qed.
Lemma atm_upd_nth i f a k : nth_error (atm_upd i f a) k = if Nat.eqb i k then match nth_error a k with Some s => Some (f s) | None => None end else nth_error a k.
Proof.
  unfold atm_upd. destruct (nth_error a i) as [s|] eqn:E.
  - rewrite nth_upd. destruct (Nat.eqb i k) eqn:H; [|reflexivity]. apply Nat.eqb_eq in H. subst k. rewrite E. reflexivity.
  - destruct (Nat.eqb i k) eqn:H; [|reflexivity]. apply Nat.eqb_eq in H. subst k. rewrite E. reflexivity.
Qed.
Lemma atm_up_upd a i f : atm_up a -> (forall st, nth_error a i = Some st -> st_up (length a) i (f st)) -> atm_up (atm_upd i f a).
Proof.
  intros W H k st. rewrite atm_upd_nth, atm_upd_len. destruct (Nat.eqb i k) eqn:E; [|apply W].
  apply Nat.eqb_eq in E. subst k. destruct (nth_error a i) as [s|] eqn:E2; [|discriminate]. intros [= <-]. apply H. reflexivity.
Qed.
Lemma atm_up_snoc a : atm_up a -> atm_up (a ++ [st_new]).
Proof.
  intros W k st E. rewrite app_length. cbn [length]. destruct (Nat.lt_ge_cases k (length a)) as [H|H].
  - rewrite nth_error_app1 in E by exact H. eapply st_up_mono; [apply W; exact E|lia].
  - rewrite nth_error_app2 in E by exact H. destruct (k - length a)%nat as [|m]; [|destruct m; discriminate]. injection E as <-. apply st_up_new.
Qed.

(** new states *)
Lemma alt_up a i : atm_up a -> (i < length a)%nat ->
  exists a' j, atm_alt i a = Ret a' j /\ atm_up a' /\ (j < length a')%nat /\ (length a <= length a')%nat /\
    exists st, nth_error a' j = Some st /\ st_next st = None /\ st_key st = None \/ (a' = a /\ j = i).
Proof.
  intros W Hi. unfold atm_alt. destruct (nth_error a i) as [st|] eqn:E; [|apply nth_error_None in E; lia].
  destruct (st_isempty st) eqn:Em.
  - exists a, i. split; [reflexivity|]. split; [exact W|]. split; [exact Hi|]. split; [lia|]. exists st. right. auto.
  - destruct (last_up a W (S (length a)) i Hi ltac:(lia)) as [j [sj [E1 [H1 [H2 H3]]]]]. rewrite E1. cbn [bind].
    exists (atm_upd j (st_setLink (length a)) a ++ [st_new]), (length a). split; [reflexivity|].
    split; [|rewrite app_length, atm_upd_len; cbn [length]; split; [lia|split; [lia|]]].
    + intros k s Ek. rewrite app_length, atm_upd_len. cbn [length]. destruct (Nat.lt_ge_cases k (length a)) as [H|H].
      * rewrite nth_error_app1 in Ek by (rewrite atm_upd_len; exact H). rewrite atm_upd_nth in Ek. destruct (Nat.eqb j k) eqn:Ej.
        -- apply Nat.eqb_eq in Ej. subst k. rewrite H2 in Ek. injection Ek as <-. destruct (W j sj H2) as [A [B C]].
           split; [|split; [|exact C]]; cbn [st_setLink st_next st_link]; intros m Hm; [specialize (A m Hm); lia|]. injection Hm as <-. lia.
        -- eapply st_up_mono; [apply W; exact Ek|lia].
      * rewrite nth_error_app2 in Ek by (rewrite atm_upd_len; exact H). rewrite atm_upd_len in Ek.
        destruct (k - length a)%nat as [|m]; [|destruct m; discriminate]. injection Ek as <-. apply st_up_new.
    + exists st_new. left. rewrite nth_error_app2 by (rewrite atm_upd_len; lia). rewrite atm_upd_len, Nat.sub_diag. auto.
Qed.

Definition nrm (a : atm) : atm := match a with [] => [st_new] | _ => a end.
Lemma nrm_ne a : (0 < length a)%nat -> nrm a = a.
Proof. destruct a; cbn; [lia|reflexivity]. Qed.
Lemma defineNext_up a i op key follow : atm_up (nrm a) -> (i < length (nrm a))%nat ->
  exists a' n, atm_defineNext i op key follow a = Ret a' n /\ atm_up (nrm a') /\ (n < length (nrm a'))%nat /\ (length (nrm a) <= length (nrm a'))%nat.
Proof.
  intros W Hi. unfold atm_defineNext.
  assert (E0 : (match a with [] => (O, [st_new]) | _ => (i, a) end) = (i, nrm a)) by (destruct a; [cbn in Hi; replace i with O by lia|]; reflexivity).
  rewrite E0. clear E0. remember (nrm a) as b eqn:Hb. clear Hb a.
  destruct (find_up b op key follow W (S (length b)) i Hi ltac:(lia)) as [r [E1 [->|[j [-> Hj]]]]]; rewrite E1; cbn [bind].
  2:{ exists b, j. rewrite nrm_ne by lia. auto. }
  destruct (last_up b W (S (length b)) i Hi ltac:(lia)) as [k [sk [E2 [H2 _]]]]. rewrite E2. cbn [bind].
  destruct (alt_up b k W ltac:(lia)) as [b1 [j [E3 [W1 [H3 [H4 _]]]]]]. rewrite E3. cbn [bind].
  assert (L : (length (b1 ++ [st_new]) - 1 = length b1)%nat) by (rewrite app_length; cbn [length]; lia). rewrite L.
  eexists. eexists. split; [reflexivity|]. rewrite nrm_ne by (rewrite atm_upd_len, app_length; cbn [length]; lia).
  rewrite atm_upd_len, app_length. cbn [length]. split; [|split; lia]. apply atm_up_upd; [apply atm_up_snoc; exact W1|].
  intros st E. rewrite app_length. cbn [length]. rewrite nth_error_app1 in E by exact H3. destruct (W1 j st E) as [A [B C]].
  split; [|split]; cbn [st_defineNext st_next st_link st_key].
  - intros m [= <-]. lia.
  - intros m Hm. specialize (B m Hm). lia.
  - discriminate.
Qed.
Lemma defineOutput_up a i m t follow b e : atm_up (nrm a) -> (i < length (nrm a))%nat ->
  exists a' n, atm_defineOutput i m t follow b e a = Ret a' n /\ atm_up (nrm a') /\ (n < length (nrm a'))%nat /\ (length (nrm a) <= length (nrm a'))%nat.
Proof.
  intros W Hi. unfold atm_defineOutput.
  assert (E0 : (match a with [] => (O, [st_new]) | _ => (i, a) end) = (i, nrm a)) by (destruct a; [cbn in Hi; replace i with O by lia|]; reflexivity).
  rewrite E0. clear E0. remember (nrm a) as c eqn:Hc. clear Hc a.
  replace (Nat.leb (length c) i) with false by (symmetry; apply Nat.leb_gt; exact Hi).
  destruct (alt_up c i W Hi) as [b1 [j [E3 [W1 [H3 [H4 _]]]]]]. rewrite E3. cbn [bind].
  eexists. eexists. split; [reflexivity|]. rewrite nrm_ne by (rewrite atm_upd_len; lia). rewrite atm_upd_len. split; [|split; [exact H3|exact H4]].
  apply atm_up_upd; [exact W1|]. intros st E. exact (W1 j st E).
Qed.

(** ** programs of calls *)
Definition pos_up (a : atm) (p : pelem) : Prop := atm_up (nrm a) /\ (pe_idx p < length (nrm a))%nat.
Lemma doSelect_up cs op n p a : pos_up a p -> (forall m, n = Some m -> name_read cs m) ->
  exists a' p', pe_doSelect cs op n p a = Ret a' p' /\ pos_up a' p' /\ (length (nrm a) <= length (nrm a'))%nat.
Proof.
  intros [W Hp] Hn. unfold pe_doSelect.
  assert (K : exists key, match n with
    | None => Ret a None
    | Some v => match static_key cs v with Ret _ k => Ret a (Some k) | Throw _ => Throw a | Jump _ => Jump a | Undef => Undef | Fuel => Fuel end
    end = Ret a key).
  { destruct n as [v|]; [|eauto]. destruct (Hn v eq_refl) as [k ->]. eauto. }
  destruct K as [key ->]. cbn [bind]. destruct (defineNext_up a (pe_idx p) op key (pe_follow p) W Hp) as [a' [i [-> [H1 [H2 H3]]]]]. cbn [bind].
  eexists. eexists. split; [reflexivity|]. split; [split|]; assumption.
Qed.
Lemma doRange_idx b e p : pe_idx (pe_doRange b e p) = pe_idx p.
Proof. unfold pe_doRange. destruct (_ =? _)%Z; [reflexivity|]. destruct (_ <? _)%Z; [reflexivity|]. destruct (_ <? _)%Z; reflexivity. Qed.
Lemma op_up cs o p a : pos_up a p -> (forall n, In n (op_names o) -> name_read cs n) -> op_fits o ->
  exists a' p', pe_op cs o p a = Ret a' p' /\ pos_up a' p' /\ (length (nrm a) <= length (nrm a'))%nat.
Proof.
  intros P Hn Hf. assert (RR : forall b e, pos_up a (pe_doRange b e p)) by (intros b e; destruct P as [W Hp]; split; [exact W|rewrite doRange_idx; exact Hp]).
  destruct o as [n| |n|n v| | |i|i|i j|i|t]; cbn [pe_op op_names op_fits] in *.
  - apply doSelect_up; [exact P|]. intros m ->. apply Hn. left. reflexivity.
  - apply doSelect_up; [exact P|discriminate].
  - unfold pe_selectAttribute. destruct (doSelect_up cs OpAttribute n p a P) as [a1 [p1 [-> [P1 L1]]]]; [intros m ->; apply Hn; left; reflexivity|]. cbn [bind]. eauto.
  - unfold pe_ifAttribute. destruct (doSelect_up cs OpAttribute n p a P) as [a1 [p1 [-> [P1 L1]]]]; [intros m ->; apply Hn; left; reflexivity|]. cbn [bind].
    destruct (doSelect_up cs OpThisValue v p1 a1 P1) as [a2 [p2 [-> [P2 L2]]]]; [intros m ->; apply Hn; apply in_or_app; right; left; reflexivity|].
    eexists. eexists. split; [reflexivity|]. split; [exact P2|lia].
  - eauto.
  - eauto.
  - unfold pe_TO. destruct (0 <=? i)%Z; [replace (i =? int_max)%Z with false by (symmetry; apply Z.eqb_neq; exact Hf)|]; cbn [pe_opt]; eexists; eexists; (split; [reflexivity|split; [apply RR|lia]]).
  - cbn [pe_FROM pe_opt]. eexists; eexists; (split; [reflexivity|split; [apply RR|lia]]).
  - unfold pe_RANGE. destruct (0 <=? j)%Z; [replace (j =? int_max)%Z with false by (symmetry; apply Z.eqb_neq; exact Hf)|]; cbn [pe_opt]; eexists; eexists; (split; [reflexivity|split; [apply RR|lia]]).
  - unfold pe_INDEX. replace (i =? int_max)%Z with false by (symmetry; apply Z.eqb_neq; exact Hf). cbn [pe_opt]. eexists; eexists; (split; [reflexivity|split; [apply RR|lia]]).
  - unfold pe_assignType. destruct P as [W Hp]. destruct (defineOutput_up a (pe_idx p) (pe_print p) t (pe_follow p) (pe_start p) (pe_end p) W Hp) as [a' [i [-> [H1 [H2 H3]]]]]. cbn [bind].
    eexists. eexists. split; [reflexivity|]. split; [split|]; assumption.
Qed.
Lemma ops_up cs : forall os p a, pos_up a p -> (forall n, In n (flat_map op_names os) -> name_read cs n) -> Forall op_fits os ->
  exists a' p', pe_ops cs os p a = Ret a' p' /\ pos_up a' p'.
Proof.
  induction os as [|o os IH]; intros p a P Hn Hf; cbn [pe_ops flat_map] in *; [eauto|]. inversion Hf; subst.
  destruct (op_up cs o p a P) as [a1 [p1 [-> [P1 _]]]]; [intros n H; apply Hn, in_or_app; left; exact H|assumption|]. cbn [bind].
  apply IH; [exact P1|intros n H; apply Hn, in_or_app; right; exact H|assumption].
Qed.
Lemma add_up cs : forall ps a, atm_up (nrm a) -> (forall n, In n (prog_names ps) -> name_read cs n) -> Forall (Forall op_fits) ps ->
  exists a', add_paths cs ps a = Ret a' tt /\ atm_up (nrm a').
Proof.
  induction ps as [|os ps IH]; intros a W Hn Hf; cbn [add_paths]; [eauto|]. unfold prog_names in *. cbn [flat_map] in Hn. inversion Hf; subst.
  assert (P : pos_up a pe_root) by (split; [exact W|destruct a; cbn; lia]).
  destruct (ops_up cs os pe_root a P) as [a1 [p1 [-> [W1 _]]]]; [intros n H; apply Hn, in_or_app; left; exact H|assumption|]. cbn [bind].
  apply IH; [exact W1|intros n H; apply Hn, in_or_app; right; exact H|assumption].
Qed.
Lemma up_new : atm_up [st_new].
Proof. intros [|i] st H; [injection H as <-; apply st_up_new|destruct i; discriminate]. Qed.
Lemma up_nrm a : atm_up (nrm a) -> atm_up a.
Proof. destruct a; [|auto]. intros _ [|i] st H; discriminate. Qed.

(** ** the selector *)
Section Sel.
Variable a : atm.
Hypothesis W : atm_up a.

Definition tok_in (t : tok) : Prop := exists st, nth_error a (t_state t) = Some st /\ (c_mask (t_core t) = c_mask (st_core st) \/ c_mask (t_core t) = m_zero).
Definition scope_in (s : sel) (sc : scope) : Prop :=
  (sc_fidx sc <= length (s_follows s))%nat /\ (sc_to sc <= length (s_toks s))%nat /\ Forall (fun k => k < sc_to sc)%nat (firstn (sc_fidx sc) (s_follows s)).
(** the scopes of the stack lie in each other *)
Fixpoint nests (sc : scope) (stk : list scope) : Prop :=
  match stk with [] => True | sc1 :: r => (sc_to sc1 <= sc_to sc)%nat /\ (sc_fidx sc1 <= sc_fidx sc)%nat /\ nests sc1 r end.
Definition nested (stk : list scope) : Prop := match stk with [] => True | sc :: r => nests sc r end.
Record Safe (s : sel) : Prop := {
  sf_toks : Forall tok_in (s_toks s);
  sf_fol : Forall (fun k => k < length (s_toks s))%nat (s_follows s);
  sf_scope : scope_in s (s_scope s);
  sf_stk : Forall (scope_in s) (s_stk s);
  sf_nest : nested (s_stk s) }.

(** [s'] after [s]: the token stacks have grown, at most [n] triggers were added *)
Record grows (n : nat) (s s' : sel) : Prop := {
  gr_stk : s_stk s' = s_stk s;
  gr_iter : s_iter s' = s_iter s;
  gr_to : sc_to (s_scope s') = sc_to (s_scope s);
  gr_fidx : sc_fidx (s_scope s') = sc_fidx (s_scope s);
  gr_toks : (length (s_toks s) <= length (s_toks s'))%nat;
  gr_trig : (length (s_trig s') <= length (s_trig s) + n)%nat }.
Lemma grows_refl s : grows 0 s s.
Proof. constructor; auto; lia. Qed.
Lemma grows_trans n m s s' s'' : grows n s s' -> grows m s' s'' -> grows (n + m) s s''.
Proof. intros [A1 A2 A3 A4 A5 A6] [B1 B2 B3 B4 B5 B6]. constructor; try congruence; lia. Qed.
Lemma grows_le n m s s' : grows n s s' -> (n <= m)%nat -> grows m s s'.
Proof. intros [A1 A2 A3 A4 A5 A6] H. constructor; auto; lia. Qed.

Lemma scope_in_ext s s' sc : scope_in s sc -> (length (s_toks s) <= length (s_toks s'))%nat -> (exists r, s_follows s' = s_follows s ++ r) -> scope_in s' sc.
Proof.
  intros [A [B C]] H [r E]. split; [rewrite E, app_length; lia|]. split; [lia|]. rewrite E, firstn_app. replace (sc_fidx sc - length (s_follows s))%nat with O by lia.
  cbn [firstn]. rewrite app_nil_r. exact C.
Qed.

Lemma expand1_safe i st s : nth_error a i = Some st -> Safe s -> Safe (expand1 i st s) /\ grows 1 s (expand1 i st s).
Proof.
  intros E [A B C D Q]. unfold expand1. destruct (m_empty (c_mask (st_core st)) && negb (c_type (st_core st) =? 0)%Z).
  - split; [|constructor; cbn; auto; lia]. constructor; cbn; auto.
  - split; [|constructor; cbn [s_stk s_iter s_scope s_toks s_trig sc_to sc_fidx]; auto; [rewrite app_length|]; lia].
    assert (Ext : exists r, (if c_follow (st_core st) then s_follows s ++ [length (s_toks s)] else s_follows s) = s_follows s ++ r).
    { destruct (c_follow (st_core st)); [eauto|exists []; rewrite app_nil_r; reflexivity]. }
    constructor; cbn [s_stk s_iter s_scope s_toks s_trig s_follows].
    + apply Forall_app. split; [exact A|]. constructor; [|constructor]. exists st. cbn. auto.
    + rewrite app_length. cbn [length]. assert (B' : Forall (fun k => k < length (s_toks s) + 1)%nat (s_follows s)) by (eapply Forall_impl; [|exact B]; cbn; intros; lia).
      destruct (c_follow (st_core st)); [|exact B']. apply Forall_app. split; [exact B'|]. constructor; [lia|constructor].
    + apply (scope_in_ext s); [exact C|cbn [s_toks]; rewrite app_length; lia|exact Ext].
    + eapply Forall_impl; [|exact D]. intros sc H. apply (scope_in_ext s); [exact H|cbn [s_toks]; rewrite app_length; lia|exact Ext].
    + exact Q.
Qed.
Lemma expand_safe : forall f i s, (i < length a)%nat -> (length a - i < f)%nat -> Safe s ->
  exists s', expand f a (Some i) s = Ret s' tt /\ Safe s' /\ grows (length a - i) s s'.
Proof.
  induction f as [|f IH]; intros i s Hi Hf HS; [lia|]. cbn [expand]. destruct (nth_error a i) as [st|] eqn:E; [|apply nth_error_None in E; lia].
  destruct (expand1_safe i st s E HS) as [S1 G1]. destruct (st_link st) as [j|] eqn:L.
  - destruct (W i st E) as [_ [B _]]. specialize (B j L). destruct (IH j _ ltac:(lia) ltac:(lia) S1) as [s' [E' [S' G']]].
    exists s'. split; [exact E'|]. split; [exact S'|]. eapply grows_le; [eapply grows_trans; eassumption|lia].
  - destruct f as [|f]; [lia|]. eexists. split; [reflexivity|]. split; [exact S1|]. eapply grows_le; [exact G1|lia].
Qed.
Lemma sel_expand_safe i s : (forall j, i = Some j -> (j < length a)%nat) -> Safe s -> exists s', sel_expand a i s = Ret s' tt /\ Safe s' /\ grows (length a) s s'.
Proof.
  intros Hi HS. unfold sel_expand. destruct i as [i|].
  - destruct (expand_safe (S (length a)) i s (Hi i eq_refl) ltac:(lia) HS) as [s' [E [S' G]]]. exists s'. split; [exact E|]. split; [exact S'|]. eapply grows_le; [exact G|lia].
  - exists s. split; [reflexivity|]. split; [exact HS|]. eapply grows_le; [apply grows_refl|lia].
Qed.

Lemma count_down_mask c : c_mask (fst (count_down c)) = c_mask c \/ c_mask (fst (count_down c)) = m_zero.
Proof.
  unfold count_down. destruct (c_end c =? -1)%Z; [auto|]. destruct (0 <? c_end c)%Z; [|auto].
  destruct (c_end c - 1 =? 0)%Z, (c_start c <=? 0)%Z; cbn; auto.
Qed.
Lemma set_tok_safe i c t s : Safe s -> nth_error (s_toks s) i = Some t -> (c_mask c = c_mask (t_core t) \/ c_mask c = m_zero) ->
  Safe (sel_set_tok i c s) /\ grows 0 s (sel_set_tok i c s) /\ nth_error (s_toks (sel_set_tok i c s)) i = Some (mkTok c (t_state t)) /\ s_key (sel_set_tok i c s) = s_key s /\ s_type (sel_set_tok i c s) = s_type s.
Proof.
  intros [A B C D Q] E H. unfold sel_set_tok. rewrite E. cbn [sel_set_toks].
  assert (L : length (upd i (mkTok c (t_state t)) (s_toks s)) = length (s_toks s)) by apply upd_length.
  assert (X : forall sc, scope_in s sc -> scope_in (sel_set_toks (upd i (mkTok c (t_state t)) (s_toks s)) s) sc).
  { intros sc H0. apply (scope_in_ext s); [exact H0|cbn [s_toks sel_set_toks]; lia|exists []; rewrite app_nil_r; reflexivity]. }
  split; [constructor; cbn [s_stk s_iter s_scope s_toks s_trig s_follows]|split; [constructor; cbn; auto; lia|split; [|split; reflexivity]]].
  - apply Forall_forall. intros x Hx. apply In_nth_error in Hx. destruct Hx as [k Hk]. cbn in Hk. rewrite nth_upd in Hk.
    rewrite Forall_forall in A. destruct (Nat.eqb i k) eqn:Ek; [|apply A; eapply nth_error_In; exact Hk].
    apply Nat.eqb_eq in Ek. subst k. rewrite E in Hk. injection Hk as <-. destruct (A t (nth_error_In _ _ E)) as [st [E1 E2]]. exists st. cbn [t_state t_core]. split; [exact E1|].
    destruct H as [-> | ->]; auto.
  - cbn. rewrite L. exact B.
  - apply X. exact C.
  - eapply Forall_impl; [|exact D]. exact X.
  - exact Q.
  - cbn [s_toks sel_set_toks]. rewrite nth_upd, Nat.eqb_refl, E. reflexivity.
Qed.
Lemma produce_safe i st t s : Safe s -> nth_error (s_toks s) i = Some t -> nth_error a (t_state t) = Some st ->
  exists s', sel_produce a i st s = Ret s' tt /\ Safe s' /\ grows (length a) s s' /\ exists t', nth_error (s_toks s') i = Some t' /\ True.
Proof.
  intros HS E Est. unfold sel_produce. rewrite E. destruct (count_down (t_core t)) as [c go] eqn:Ec.
  assert (Hc : c_mask c = c_mask (t_core t) \/ c_mask c = m_zero) by (pose proof (count_down_mask (t_core t)) as X; rewrite Ec in X; exact X).
  destruct (set_tok_safe i c t s HS E Hc) as [S1 [G1 [E1 _]]]. destruct go.
  - destruct (sel_expand_safe (st_next st) (sel_set_tok i c s)) as [s' [E2 [S2 G2]]]; [intros j Hj; destruct (W _ _ Est) as [A _]; specialize (A j Hj); lia|exact S1|].
    exists s'. split; [exact E2|]. split; [exact S2|]. split; [eapply grows_le; [eapply grows_trans; eassumption|lia]|].
    destruct (nth_error (s_toks s') i) as [t'|] eqn:E3; [eauto|]. apply nth_error_None in E3. exfalso.
    assert (i < length (s_toks (sel_set_tok i c s)))%nat by (apply nth_error_Some; congruence). pose proof (gr_toks _ _ _ G2). lia.
  - eexists. split; [reflexivity|]. split; [exact S1|]. split; [eapply grows_le; [exact G1|lia]|eauto].
Qed.
Lemma match_safe i s : Safe s -> exists s' r, sel_match a i s = Ret s' r /\ Safe s' /\ grows (length a) s s'.
Proof.
  intros HS. unfold sel_match. assert (G0 : grows (length a) s s) by (eapply grows_le; [apply grows_refl|lia]).
  destruct (s_key s) as [key|]; [|eauto]. destruct (Nat.leb (sc_to (s_scope s)) i) eqn:Hi; [eauto|]. apply Nat.leb_gt in Hi.
  destruct (nth_error (s_toks s) i) as [t|] eqn:E; [|apply nth_error_None in E; destruct (sf_scope s HS) as [_ [H _]]; lia].
  assert (K : exists s1 r, (if m_matches (c_mask (t_core t)) (s_type s)
              then match nth_error a (t_state t) with
                   | None => Undef
                   | Some st =>
                       let! (s, _) := if match st_key st with Some k => key_eqb k key | None => true end
                                      then sel_produce a i st s else Ret s tt in
                       match nth_error (s_toks s) i with
                       | None => Undef
                       | Some tk =>
                           if (c_type (t_core tk) =? 0)%Z then Ret s 0%Z
                           else let (c, go) := count_down (t_core tk) in
                                Ret (sel_set_tok i c s) (if go then c_type (t_core tk) else 0%Z)
                       end
                   end
              else Ret s 0%Z) = Ret s1 r /\ Safe s1 /\ grows (length a) s s1 /\ exists t1, nth_error (s_toks s1) i = Some t1).
  { destruct (m_matches (c_mask (t_core t)) (s_type s)); [|eauto 8].
    assert (T : tok_in t) by (pose proof (sf_toks s HS) as A; rewrite Forall_forall in A; apply A; eapply nth_error_In; exact E).
    destruct T as [st [Est _]]. rewrite Est.
    assert (K1 : exists s1, (if match st_key st with Some k => key_eqb k key | None => true end then sel_produce a i st s else Ret s tt) = Ret s1 tt /\
      Safe s1 /\ grows (length a) s s1 /\ exists t1, nth_error (s_toks s1) i = Some t1).
    { match goal with |- context [if ?b then sel_produce _ _ _ _ else _] => destruct b end; [|eauto 8].
      destruct (produce_safe i st t s HS E Est) as [s1 [E1 [S1 [G1 [t1 [E2 _]]]]]]. eauto 8. }
    destruct K1 as [s1 [-> [S1 [G1 [t1 E1]]]]]. cbn [bind]. rewrite E1. destruct (c_type (t_core t1) =? 0)%Z; [eauto 8|].
    destruct (count_down (t_core t1)) as [c go] eqn:Ec.
    assert (Hc : c_mask c = c_mask (t_core t1) \/ c_mask c = m_zero) by (pose proof (count_down_mask (t_core t1)) as X; rewrite Ec in X; exact X).
    destruct (set_tok_safe i c t1 s1 S1 E1 Hc) as [S2 [G2 [E2 _]]]. eexists. eexists. split; [reflexivity|]. split; [exact S2|]. split; [|eauto].
    replace (length a) with (length a + 0)%nat by lia. eapply grows_trans; eassumption. }
  destruct K as [s1 [r [-> [S1 [G1 [t1 E1]]]]]]. cbn [bind]. rewrite E1. destruct (m_rejects (c_mask (t_core t1)) (s_type s1)); [|eauto 8].
  destruct (set_tok_safe i (mkCore m_zero (c_follow (t_core t1)) (c_type (t_core t1)) (c_start (t_core t1)) (c_end (t_core t1))) t1 s1 S1 E1 ltac:(right; reflexivity)) as [S2 [G2 _]].
  eexists. eexists. split; [reflexivity|]. split; [exact S2|]. replace (length a) with (length a + 0)%nat by lia. eapply grows_trans; eassumption.
Qed.

Lemma safe_iter i s : Safe s -> Safe (sel_set_iter i s). Proof. intros [A B C D Q]. constructor; auto. Qed.
Lemma safe_trig l s : Safe s -> Safe (sel_set_trig l s). Proof. intros [A B C D Q]. constructor; auto. Qed.
Lemma safe_key s : Safe s -> Safe (sel_no_key s). Proof. intros [A B C D Q]. constructor; auto. Qed.

Definition left (s : sel) : nat := ((sc_to (s_scope s) + sc_fidx (s_scope s) - s_iter s) * S (length a) + length (s_trig s))%nat.
Lemma left_step s s' : grows (length a) s s' -> (s_iter s < sc_to (s_scope s) + sc_fidx (s_scope s))%nat -> (left (sel_set_iter (S (s_iter s')) s') < left s)%nat.
Proof. intros [G1 G2 G3 G4 G5 G6] H. unfold left. cbn [sel_set_iter s_scope s_iter s_trig]. rewrite G2, G3, G4. nia. Qed.

Lemma fetch_safe : forall f s, (left s < f)%nat -> Safe s -> exists s' t, fetch_loop f a s = Ret s' t /\ Safe s'.
Proof.
  induction f as [|f IH]; intros s Hf HS; [lia|]. cbn [fetch_loop].
  assert (AG : forall s1 (t : Z), (left s1 < left s)%nat -> Safe s1 -> exists s' t', (if (t =? 0)%Z then fetch_loop f a s1 else Ret s1 t) = Ret s' t' /\ Safe s').
  { intros s1 t H1 S1. destruct (t =? 0)%Z; [apply IH; [lia|exact S1]|eauto]. }
  assert (TR : exists s' t', match s_trig s with
                         | t :: l => if (t =? 0)%Z then fetch_loop f a (sel_set_trig l s) else Ret (sel_set_trig l s) t
                         | [] => Ret (sel_no_key s) 0%Z
                         end = Ret s' t' /\ Safe s').
  { destruct (s_trig s) as [|t l] eqn:Et; [eexists; eexists; split; [reflexivity|apply safe_key, HS]|]. apply AG; [|apply safe_trig, HS].
    unfold left. cbn [sel_set_trig s_scope s_iter s_trig]. rewrite Et. cbn [length]. lia. }
  destruct (Nat.ltb (s_iter s) (sc_to (s_scope s))) eqn:H1.
  - apply Nat.ltb_lt in H1. destruct (match_safe (s_iter s) s HS) as [s1 [t [-> [S1 G1]]]]. cbn [bind]. apply AG; [apply left_step; [exact G1|lia]|apply safe_iter, S1].
  - apply Nat.ltb_ge in H1. destruct (Nat.ltb (s_iter s - sc_to (s_scope s)) (sc_fidx (s_scope s))) eqn:H2; [|exact TR]. apply Nat.ltb_lt in H2.
    destruct (nth_error (s_follows s) (s_iter s - sc_to (s_scope s))) as [j|] eqn:Ej.
    2:{ apply nth_error_None in Ej. destruct (sf_scope s HS) as [H _]. lia. }
    destruct (Nat.ltb j (sc_from (s_scope s))); [|exact TR].
    destruct (match_safe j s HS) as [s1 [t [-> [S1 G1]]]]. cbn [bind]. apply AG; [apply left_step; [exact G1|lia]|apply safe_iter, S1].
Qed.
Lemma sel_fetch_safe f s : (left s < f)%nat -> Safe s -> exists s' t, sel_fetch f a s = Ret s' t /\ Safe s'.
Proof.
  intros Hf HS. unfold sel_fetch. destruct (m_matches _ _); [apply fetch_safe; assumption|]. eexists. eexists. split; [reflexivity|apply safe_key, HS].
Qed.
Lemma sel_init_safe e key s : Safe s -> Safe (sel_init e key s).
Proof.
  intros [A B C D Q]. unfold sel_init.
  assert (K : forall m fm fr, scope_in s (mkScope m fm fr (length (s_toks s)) (length (s_follows s)))).
  { intros m fm fr. split; [cbn; lia|]. split; [cbn; lia|]. cbn [sc_fidx sc_to]. rewrite firstn_all. exact B. }
  destruct e; constructor; cbn [s_toks s_follows s_scope s_stk]; auto; try apply K; [constructor; [apply K|exact D]|].
  cbn [nested]. destruct (s_stk s) as [|sc stk]; [exact I|]. inversion D as [|x y [D1 [D2 _]] _]; subst. cbn [nests sc_to sc_fidx]. auto.
Qed.
Lemma Forall_firstn {A} (P : A -> Prop) l : Forall P l -> forall n, Forall P (firstn n l).
Proof. intros H. induction H; intros [|n]; cbn; constructor; auto. Qed.
Lemma nests_all sc : forall stk sc0, nests sc0 stk -> In sc stk -> (sc_to sc <= sc_to sc0)%nat /\ (sc_fidx sc <= sc_fidx sc0)%nat.
Proof.
  induction stk as [|sc1 stk IH]; intros sc0 H Hin; [contradiction|]. cbn [nests] in H. destruct H as [H1 [H2 H3]]. destruct Hin as [->|Hin]; [auto|].
  destruct (IH sc1 H3 Hin). lia.
Qed.
Lemma nests_nested sc stk : nests sc stk -> nested stk.
Proof. destruct stk; cbn; tauto. Qed.
Lemma sel_close_safe s : Safe s -> exists s', sel_close s = Ret s' tt /\ Safe s'.
Proof.
  intros HS. assert (K : exists s', match s_stk s with
      | [] => Ret s tt
      | sc :: stk =>
          if Nat.leb (sc_fidx sc) (length (s_follows s)) && Nat.leb (sc_to sc) (length (s_toks s))
          then Ret (mkSel stk (firstn (sc_fidx sc) (s_follows s)) (s_trig s) (firstn (sc_to sc) (s_toks s)) (s_type s) (s_key s) sc (s_iter s)) tt
          else Undef
      end = Ret s' tt /\ Safe s').
  { destruct HS as [A B C D Q]. destruct (s_stk s) as [|sc stk] eqn:Es; [exists s; split; [reflexivity|constructor; rewrite ?Es; auto]|].
    inversion D as [|x y D1 D2]; subst. pose proof D1 as [F1 [F2 F3]].
    replace (Nat.leb (sc_fidx sc) (length (s_follows s))) with true by (symmetry; apply Nat.leb_le; exact F1).
    replace (Nat.leb (sc_to sc) (length (s_toks s))) with true by (symmetry; apply Nat.leb_le; exact F2).
    eexists. split; [reflexivity|].
    assert (L1 : length (firstn (sc_fidx sc) (s_follows s)) = sc_fidx sc) by (apply firstn_length_le; exact F1).
    assert (L2 : length (firstn (sc_to sc) (s_toks s)) = sc_to sc) by (apply firstn_length_le; exact F2).
    constructor; cbn [s_toks s_follows s_scope s_stk].
    - apply Forall_firstn. exact A.
    - rewrite L2. exact F3.
    - split; [cbn; lia|]. split; [cbn; lia|]. cbn [s_follows]. rewrite firstn_firstn, Nat.min_id. exact F3.
    - rewrite Forall_forall in D2 |- *. intros sc1 H1. destruct (nests_all sc1 stk sc Q H1) as [N1 N2]. destruct (D2 sc1 H1) as [X1 [X2 X3]].
      split; [cbn; lia|]. split; [cbn; lia|]. cbn [s_follows]. rewrite firstn_firstn. replace (Nat.min (sc_fidx sc1) (sc_fidx sc)) with (sc_fidx sc1) by lia. exact X3.
    - eapply nests_nested. exact Q. }
  unfold sel_close. destruct (s_type s); eauto.
Qed.
Lemma sel_copy_safe s : Safe s -> Safe (sel_copy s).
Proof. intros [A B C D Q]. constructor; auto. cbn [sel_copy s_scope scope_new]. split; [cbn; lia|]. split; [cbn; lia|]. constructor. Qed.
Lemma follow_states_safe e s : Safe s -> forall n ti, (ti + n <= length (s_follows s))%nat ->
  exists l, follow_states n ti e s = Ret s l /\ forall i, In i l -> exists t, In t (s_toks s) /\ m_matches (c_mask (t_core t)) e = true /\ t_state t = i.
Proof.
  intros HS. induction n as [|n IH]; intros ti H; cbn [follow_states]; [exists []; split; [reflexivity|intros i []]|].
  destruct (nth_error (s_follows s) ti) as [k|] eqn:E; [|apply nth_error_None in E; lia].
  assert (k < length (s_toks s))%nat by (pose proof (sf_fol s HS) as B; rewrite Forall_forall in B; apply B; eapply nth_error_In; exact E).
  destruct (nth_error (s_toks s) k) as [t|] eqn:Et; [|apply nth_error_None in Et; lia]. destruct (IH (S ti) ltac:(lia)) as [l [-> Hl]]. cbn [bind].
  eexists. split; [reflexivity|]. intros i Hi. apply in_app_or in Hi. destruct Hi as [Hi|Hi]; [|apply Hl; exact Hi].
  unfold tok_states in Hi. destruct (m_matches _ _) eqn:M; [|contradiction]. destruct Hi as [<-|[]]. exists t. split; [eapply nth_error_In; exact Et|auto].
Qed.
Lemma skipn_In {A} (x : A) : forall n l, In x (skipn n l) -> In x l.
Proof. induction n as [|n IH]; intros l H; [exact H|]. destruct l as [|y l]; [exact H|]. right. apply IH. exact H. Qed.
Lemma sel_states_safe e b s : Safe s ->
  exists l, sel_states e b s = Ret s l /\ forall i, In i l -> exists st, nth_error a i = Some st /\ m_matches (c_mask (st_core st)) e = true.
Proof.
  intros HS. unfold sel_states.
  assert (K : exists l, (if b then follow_states (sc_fidx (s_scope s)) 0 e s else Ret s []) = Ret s l /\
    forall i, In i l -> exists t, In t (s_toks s) /\ m_matches (c_mask (t_core t)) e = true /\ t_state t = i).
  { destruct b; [apply (follow_states_safe e s HS); destruct (sf_scope s HS) as [H _]; lia|exists []; split; [reflexivity|intros i []]]. }
  destruct K as [l [-> Hl]]. cbn [bind]. eexists. split; [reflexivity|].
  assert (T : forall i t, In t (s_toks s) -> m_matches (c_mask (t_core t)) e = true -> t_state t = i -> exists st, nth_error a i = Some st /\ m_matches (c_mask (st_core st)) e = true).
  { intros i t Ht M <-. pose proof (sf_toks s HS) as A. rewrite Forall_forall in A. destruct (A t Ht) as [st [E1 E2]]. exists st. split; [exact E1|].
    destruct E2 as [E2|E2]; rewrite E2 in M; [exact M|]. exfalso. destruct e; discriminate M. }
  intros i Hi. apply in_app_or in Hi. destruct Hi as [Hi|Hi].
  - apply in_flat_map in Hi. destruct Hi as [t [H1 H2]]. unfold tok_states in H2. destruct (m_matches _ _) eqn:M; [|contradiction]. destruct H2 as [H2|[]].
    apply (T i t); auto. eapply skipn_In. exact H1.
  - destruct (Hl i Hi) as [t [H1 [H2 H3]]]. eapply T; eauto.
Qed.

Lemma sel_op_safe o s : Safe s -> exists N s' r, (forall f, (N <= f)%nat -> sel_op f a o s = Ret s' r) /\ Safe s'.
Proof.
  intros HS. destruct o as [e key| | | |e b]; cbn [sel_op].
  - exists O, (sel_init e key s), []. split; [reflexivity|apply sel_init_safe, HS].
  - destruct (sel_fetch_safe (S (left s)) s ltac:(lia) HS) as [s' [t [E S']]]. exists (S (left s)), s', [t]. split; [|exact S'].
    intros f Hf. rewrite (sel_fetch_mono a _ _ _ _ E f Hf). reflexivity.
  - destruct (sel_close_safe s HS) as [s' [E S']]. exists O, s', []. split; [|exact S']. intros f _. rewrite E. reflexivity.
  - exists O, (sel_copy s), []. split; [reflexivity|apply sel_copy_safe, HS].
  - destruct (sel_states_safe e b s HS) as [l [E _]]. exists O, s, (map Z.of_nat l). split; [|exact HS]. intros f _. rewrite E. reflexivity.
Qed.
Lemma sel_ops_safe : forall os s, Safe s -> exists N s' rs, (forall f, (N <= f)%nat -> sel_ops f a os s = Ret s' rs) /\ Safe s' /\ length rs = length os.
Proof.
  induction os as [|o os IH]; intros s HS; cbn [sel_ops].
  - exists O, s, []. auto.
  - destruct (sel_op_safe o s HS) as [N1 [s1 [r [E1 S1]]]]. destruct (IH s1 S1) as [N2 [s2 [rs [E2 [S2 L2]]]]].
    exists (max N1 N2), s2, (r :: rs). split; [|split; [exact S2|cbn; congruence]]. intros f Hf. rewrite E1 by lia. cbn [bind]. rewrite E2 by lia. reflexivity.
Qed.
Lemma sel_new_safe : exists s, sel_new a = Ret s tt /\ Safe s.
Proof.
  unfold sel_new. assert (S0 : Safe (mkSel [] [] [] [] EContent None scope_new 0)).
  { constructor; cbn; try constructor; try constructor; try (cbn; lia). constructor. }
  destruct (Nat.eq_dec (length a) 0) as [H0|H0]; [destruct a; [eauto|discriminate]|].
  destruct (sel_expand_safe (Some O) (mkSel [] [] [] [] EContent None scope_new 0)) as [s [E [S' _]]]; [intros j [= <-]; lia|exact S0|].
  exists s. split; [|exact S']. destruct a; [cbn in H0; lia|exact E].
Qed.
Lemma sel_session_safe os : exists N s rs, (forall f, (N <= f)%nat -> sel_session f a os = Ret s rs) /\ Safe s /\ length rs = length os.
Proof.
  destruct sel_new_safe as [s0 [E0 S0]]. destruct (sel_ops_safe os s0 S0) as [N [s [rs [E [S' L]]]]]. exists N, s, rs. split; [|auto].
  intros f Hf. unfold sel_session. rewrite E0. cbn [bind]. apply E. exact Hf.
Qed.

Lemma sel_session_mono f f' os s rs : (f <= f')%nat -> sel_session f a os = Ret s rs -> sel_session f' a os = Ret s rs.
Proof.
  intros Hf. unfold sel_session. destruct (sel_new a) as [s0 []| | | |]; cbn [bind]; try discriminate. revert s0 s rs.
  induction os as [|o os IH]; intros s0 s rs H; cbn [sel_ops] in *; [exact H|].
  apply bind_Ret in H. destruct H as [s1 [r [E1 H]]]. apply bind_Ret in H. destruct H as [s2 [rs2 [E2 H]]].
  assert (E1' : sel_op f' a o s0 = Ret s1 r).
  { destruct o as [e key| | | |e b]; cbn [sel_op] in *; try exact E1. apply bind_Ret in E1. destruct E1 as [s3 [t [E3 E4]]]. rewrite (sel_fetch_mono a _ _ _ _ E3 f' Hf). exact E4. }
  rewrite E1'. cbn [bind]. rewrite (IH s1 s2 rs2 E2). exact H.
Qed.

(** ** getEmmitedTokens *)
Lemma emit_safe e : forall f i, (i < length a)%nat -> (length a - i < f)%nat -> exists l, emit_loop f a e (Some i) = Ret a l.
Proof.
  induction f as [|f IH]; intros i Hi Hf; [lia|]. cbn [emit_loop]. destruct (nth_error a i) as [st|] eqn:E; [|apply nth_error_None in E; lia].
  destruct (st_link st) as [j|] eqn:L.
  - destruct (W i st E) as [_ [B _]]. specialize (B j L). destruct (IH j ltac:(lia) ltac:(lia)) as [l ->]. cbn [bind]. eauto.
  - destruct f as [|f]; [lia|]. cbn [emit_loop bind]. eauto.
Qed.
Lemma emitted_safe i e : (i < length a)%nat -> exists l, atm_emitted a i e = Ret a l.
Proof.
  intros Hi. unfold atm_emitted. destruct (nth_error a i) as [st|] eqn:E; [|apply nth_error_None in E; lia].
  destruct (st_next st) as [j|] eqn:Nx; [|eexists; reflexivity]. destruct (W i st E) as [A _]. specialize (A j Nx). apply emit_safe; lia.
Qed.
End Sel.
