(** Adding expressions as text (proofs). *)
From Coq Require Import Lia ZifyBool ZifyNat.
From Verif Require Import Base Iter CharMap Charset TextScanner XmlScanner XmlPrinter Ideal CharsetSpec ReadSpec CharReader PathAtm PathSelect PathSpec PathProg PathTrie PathBuild PathBuild2 PathBuild3
  PathRun1 PathRun3 PathRun9 PathParse ParseSpec ParseRead ParseList ParseGram ParseRun.

Lemma find_colons_None : forall l p, find_colons p l = None <-> ~ double_colon l.
Proof.
  induction l as [|x l IH]; intro p; cbn [find_colons].
  - split; [intros _ (u & v & E); destruct u; discriminate E|reflexivity].
  - destruct l as [|y l].
    + split; [intros _ (u & v & E); destruct u as [|a [|b u]]; discriminate E|reflexivity].
    + destruct (N.eqb_spec x 58) as [->|Hx]; [destruct (N.eqb_spec y 58) as [->|Hy]|]; cbn [andb].
      * split; [discriminate|]. intro H. exfalso. apply H. exists [], l. reflexivity.
      * rewrite IH. unfold double_colon. split; intros H (u & v & E); apply H; [destruct u as [|a u]; [injection E as E; congruence|injection E as <- E; exists u, v; exact E]|exists (58 :: u), v; cbn [app] in *; congruence].
      * rewrite IH. unfold double_colon. split; intros H (u & v & E); apply H; [destruct u as [|a u]; [injection E as E; congruence|injection E as <- E; exists u, v; exact E]|exists (x :: u), v; cbn [app] in *; congruence].
Qed.
Lemma find_colons_Some : forall l p z, find_colons p l = Some z -> (p + 1 <= z <= p + Z.of_nat (length l))%Z.
Proof.
  induction l as [|x l IH]; intros p z H; cbn [find_colons] in H; [discriminate|]. destruct l as [|y l]; [discriminate|].
  destruct (_ && _); [injection H as <-; cbn [length]; lia|]. apply IH in H. cbn [length] in *. lia.
Qed.

Section Text.
Context (scs acs : charset).
Hypothesis Hscs : cs_constructible scs = true.
Notation dacs := (default_cs acs).
Definition text_of (l : list N) : list N := flat_map (cs_print (default_cs scs)) l.
(** a text that can be parsed *)
Record is_text (l : list N) : Prop := {
  tx_rep : Forall (representable (default_cs scs)) l;
  tx_nz : ~ In 0 l;
  tx_size : N.of_nat (length (text_of l)) + 8 < 2 ^ 32 }.

Lemma dscs : cs_constructible (default_cs scs) = true.
Proof. destruct scs; try reflexivity; assumption. Qed.
Lemma enc_length cs l : cs_constructible cs = true -> Forall (representable cs) l -> (length l <= length (flat_map (cs_print cs) l))%nat.
Proof.
  intros Hcs H. induction H as [|c l Hc H IH]; cbn [flat_map length]; [lia|]. rewrite app_length. pose proof (CharsetProofs.print_nonempty cs c Hcs Hc).
  destruct (cs_print cs c); [contradiction|]. cbn [length]. lia.
Qed.

Definition parsed (l : list N) : list item * bool := lp_items (S (length l)) AtStart l.
Lemma add_run t l a : is_text l -> ~ double_colon (text_of l) ->
  match text_run dacs t AtStart (fst (parsed l)) (snd (parsed l)) [pe_root] a with
  | Ret a' ok => exists z, addExpression scs acs t (text_of l) a = Ret a' z /\ code_of (N.of_nat (length (text_of l))) ok z
  | Throw a' => addExpression scs acs t (text_of l) a = Throw a'
  | Jump a' => addExpression scs acs t (text_of l) a = Jump a'
  | Undef => addExpression scs acs t (text_of l) a = Undef
  | Fuel => addExpression scs acs t (text_of l) a = Fuel
  end.
Proof.
  intros [H1 H2 H3] Hc. apply (find_colons_None _ 0%Z) in Hc. unfold addExpression. rewrite Hc. pose proof (enc_length _ l dscs H1) as Hl. fold (text_of l) in Hl.
  pose proof (loop_spec _ dacs _ _ _ (text_reader (default_cs scs) (text_of l) dscs H3)) as X.
  specialize (X ltac:(lia) (length (text_of l) + 2)%nat t AtStart [pe_root] (ts_make (cstr_make (text_of l))) l a (text_start _ l dscs H1 H2 H3) ltac:(lia)).
  rewrite (lp_items_mono (S (length l)) (length (text_of l) + 2) AtStart l) in X by lia. fold (parsed l) in X. cbn [place_of] in X.
  destruct (text_run _ _ _ _ _ _ _) as [a' ok|a'|a'| |]; cbn [runs] in X.
  - destruct X as (r' & z & E & Hz). rewrite E. cbn [omap snd]. eauto.
  - destruct X as (r' & E). rewrite E. reflexivity.
  - destruct X as (r' & E). rewrite E. reflexivity.
  - rewrite X. reflexivity.
  - rewrite X. reflexivity.
Qed.
Lemma parsed_writes l its : ~ In 0 l -> writes AtStart its l -> parsed l = (its, true).
Proof. intros Hz H. unfold parsed. apply lp_items_complete; auto. Qed.
Lemma parsed_not l : (forall its, ~ writes AtStart its l) -> snd (parsed l) = false.
Proof.
  intro H. unfold parsed. destruct (lp_items _ _ _) as [its b] eqn:E. destruct b; [|reflexivity]. exfalso. apply (H its). eapply lp_items_sound. exact E.
Qed.
Lemma lp_items_prefix : forall f st l, exists l1 l2, l = l1 ++ l2 /\ writes st (fst (lp_items f st l)) l1.
Proof.
  induction f as [|f IH]; intros st l; [exists [], l; split; [reflexivity|constructor]|]. cbn [lp_items]. destruct l as [|c l]; [exists [], []; split; [reflexivity|constructor]|].
  destruct (lp_next st (c :: l)) as [[[it st'] l']|] eqn:E; [|exists [], (c :: l); split; [reflexivity|constructor]].
  apply lp_next_sound in E. destruct E as (E & w & Ew & Hw). destruct (dropsp_split l') as (s & Hs & El). destruct (IH st' (dropsp l')) as (l1 & l2 & E1 & H1). cbn [fst].
  exists (w ++ s ++ l1), l2. split; [rewrite Ew, El, E1 at 1; rewrite <- !app_assoc; reflexivity|]. econstructor; eauto.
Qed.
Lemma parsed_prefix l : exists l1 l2, l = l1 ++ l2 /\ writes AtStart (fst (parsed l)) l1.
Proof. apply lp_items_prefix. Qed.
End Text.

(** *** one program *)
Lemma len1 {A} (l : list A) : length l = 1%nat -> exists x, l = [x].
Proof. destruct l as [|x [|y l]]; try discriminate. eauto. Qed.
Lemma flat_len {A B} (f : A -> list B) n l : (forall x, In x l -> length (f x) = n) -> length (flat_map f l) = (length l * n)%nat.
Proof. induction l as [|x l IH]; intro H; [reflexivity|]. cbn [flat_map length]. rewrite app_length, IH, (H x) by (auto using in_eq, in_cons). lia. Qed.
Lemma programs_cons acs st it st' its : next_stage st it = Some st' -> length (programs acs st (it :: its)) = (length (item_calls acs st it) * length (programs acs st' its))%nat.
Proof. intro H. cbn [programs]. rewrite H. apply flat_len. intros x _. apply map_length. Qed.
Lemma bind_assoc {S A B C} (m : out S A) (f : S -> A -> out S B) (g : S -> B -> out S C) : bind (bind m f) g = bind m (fun s x => bind (f s x) g).
Proof. destruct m; reflexivity. Qed.
Lemma bind_ext {S A B} (m : out S A) (f g : S -> A -> out S B) : (forall s x, f s x = g s x) -> bind m f = bind m g.
Proof. intro H. destruct m; cbn [bind]; auto. Qed.
Lemma pe_ops_app cs os os' p a : pe_ops cs (os ++ os') p a = let! (a, p) := pe_ops cs os p a in pe_ops cs os' p a.
Proof. revert p a. induction os as [|o os IH]; intros p a; [reflexivity|]. cbn [app pe_ops]. rewrite bind_assoc. apply bind_ext. intros a' p'. apply IH. Qed.

Lemma item_run_one acs st it c p a : item_calls acs st it = [c] -> item_run acs st it [p] a = let! (a, p) := pe_ops acs c p a in Ret a [p].
Proof.
  assert (F : forall o, for_alts acs [o] [p] a = let! (a, p) := pe_ops acs [o] p a in Ret a [p]).
  { intro o. rewrite for_alts_one. cbn [for_each pe_ops]. rewrite !bind_assoc. apply bind_ext. reflexivity. }
  intro H. destruct it; cbn [item_calls item_run item_ops] in *; try (injection H as <-); try apply F; try reflexivity.
  destruct ns as [|n [|m ns]]; try discriminate H. cbn [map] in *. injection H as <-. apply F.
Qed.
Lemma items_run_one acs : forall its st p e a, programs acs st its = [p] -> (exists l, writes st its l) ->
  items_run acs st its [e] a = let! (a, e) := pe_ops acs p e a in Ret a [e].
Proof.
  induction its as [|it its IH]; intros st p e a H (l & Hw); [cbn [programs] in H; injection H as <-; reflexivity|].
  inversion Hw as [|? ? st' w s ? l' Hn Hi Hs Hr]; subst. pose proof (programs_cons acs st it st' its Hn) as L. rewrite H in L. cbn [length] in L. symmetry in L. apply Nat.eq_mul_1 in L. destruct L as [L1 L2].
  destruct (len1 (item_calls acs st it) L1) as [c Ec]. destruct (len1 (programs acs st' its) L2) as [p' Ep].
  cbn [programs] in H. rewrite Hn, Ec, Ep in H. cbn [flat_map map app] in H. injection H as <-. cbn [items_run]. rewrite (item_run_one acs st it c e a Ec), Hn, pe_ops_app, !bind_assoc. apply bind_ext.
  intros a' e'. cbn [bind]. apply IH; eauto.
Qed.

(** *** several programs *)
Definition keeps (a a' : atm) : Prop := forall p q, at_pos a p q -> at_pos a' p q.
Lemma keeps_refl a : keeps a a. Proof. intros p q H. exact H. Qed.
Lemma keeps_trans a b c : keeps a b -> keeps b c -> keeps a c. Proof. intros H1 H2 p q H. apply H2, H1, H. Qed.
Lemma step_keeps a a' E : a' <> [] -> step_to (norm a) a' E -> keeps a a'.
Proof.
  intros Ne [S1 S2 S3 S4] p q [A1 A2 A3 A4 A5 A6]. constructor; rewrite ?(norm_ne a' Ne); auto; [lia|]. rewrite S3 by exact A2. exact A3.
Qed.
Lemma doSelect_keeps cs o n p q a a' p' : at_pos a p q -> (forall m, In m (opt_names n) -> usable cs m) -> pe_doSelect cs (op_of o) n p a = Ret a' p' -> keeps a a'.
Proof.
  intros [A1 A2 A3 A4 A5 A6] Hn H.
  assert (K : n <> Some []) by (destruct n as [m|]; [|discriminate]; destruct (Hn m (or_introl eq_refl)) as [X _]; congruence).
  assert (E : pe_doSelect cs (op_of o) n p a = let! (a, i) := atm_defineNext (pe_idx p) (op_of o) n (pe_follow p) a in Ret a (pe_selected i p)).
  { unfold pe_doSelect. destruct n as [m|]; [|reflexivity]. destruct (Hn m (or_introl eq_refl)) as [_ ->]. reflexivity. }
  rewrite E in H. destruct (defineNext_spec a (pe_idx p) o n (pe_follow p) (pp_edges q) A1 A2 A3 K) as (a2 & i & E' & Ne & S & _).
  rewrite E' in H. cbn [bind] in H. injection H as <- <-. eapply step_keeps; eauto.
Qed.
Lemma op_keeps cs o p q q' E a a' p' : at_pos a p q -> (forall m, In m (op_names o) -> usable cs m) -> pp_op o q = Some (q', E) -> pe_op cs o p a = Ret a' p' -> keeps a a'.
Proof.
  intros A Hn H He. destruct o as [n| |n|n v| | |i|i|i j|i|t]; cbn [pp_op pe_op op_names] in *.
  - exact (doSelect_keeps cs SOpen n p q a a' p' A Hn He).
  - exact (doSelect_keeps cs SClose None p q a a' p' A (fun m F => match F with end) He).
  - unfold pe_selectAttribute in He. destruct (pe_doSelect cs OpAttribute n p a) as [a1 p1| | | |] eqn:E1; try discriminate He. cbn [bind] in He. injection He as <- <-.
    exact (doSelect_keeps cs SAttr n p q a a1 p1 A Hn E1).
  - unfold pe_ifAttribute in He. destruct (doSelect_spec cs SAttr n p q a A) as (a1 & p1 & E1 & E2 & E3 & E4); [intros m Hm; apply Hn; apply in_or_app; left; exact Hm|]. 
    pose proof (doSelect_keeps cs SAttr n p q a a1 p1 A (fun m Hm => Hn m (in_or_app _ _ _ (or_introl Hm))) E1) as K1. cbn [op_of] in E1. rewrite E1 in He. cbn [bind] in He.
    pose proof (doSelect_keeps cs SValue v p1 _ a1 a' p' E2 (fun m Hm => Hn m (in_or_app _ _ _ (or_intror Hm))) He) as K2. exact (keeps_trans _ _ _ K1 K2).
  - injection He as <- <-. apply keeps_refl.
  - injection He as <- <-. apply keeps_refl.
  - destruct (pe_TO i p); [injection He as <- <-; apply keeps_refl|discriminate He].
  - destruct (pe_FROM i p); [injection He as <- <-; apply keeps_refl|discriminate He].
  - destruct (pe_RANGE i j p); [injection He as <- <-; apply keeps_refl|discriminate He].
  - destruct (pe_INDEX i p); [injection He as <- <-; apply keeps_refl|discriminate He].
  - destruct (Z.eqb_spec t 0) as [|Ht]; [discriminate|]. destruct A as [A1 A2 A3 A4 A5 A6]. unfold pe_assignType in He. rewrite A4, A5 in He.
    destruct (defineOutput_spec a (pe_idx p) (pp_rep q) t (pp_follow q) (pe_start p) (pe_end p) (pp_edges q) A1 A2 A3 Ht) as (a1 & i & E1 & Ne & S & _).
    rewrite E1 in He. cbn [bind] in He. injection He as <- <-. eapply step_keeps; eauto.
Qed.

Definition nxt (o : pathop) (q : ppos) : ppos := match pp_op o q with Some (q', _) => q' | None => q end.
Definition gives (o : pathop) (q : ppos) : list expr := match pp_op o q with Some (_, E) => E | None => [] end.
Lemma Forall2_keeps a a' ps qs : keeps a a' -> Forall2 (at_pos a) ps qs -> Forall2 (at_pos a') ps qs.
Proof. intros K H. induction H; constructor; auto. Qed.
Lemma for_each_spec cs o : forall ps qs a, good (norm a) -> Forall2 (at_pos a) ps qs -> (forall m, In m (op_names o) -> usable cs m) -> (forall q, In q qs -> pp_op o q <> None) ->
  exists a' ps', for_each cs o ps a = Ret a' ps' /\ good (norm a') /\ Forall2 (at_pos a') ps' (map (nxt o) qs) /\ sums a a' (flat_map (gives o) qs) /\ keeps a a'.
Proof.
  intros ps qs a G H Hn. revert a G H. revert qs. induction ps as [|p ps IH]; intros qs a G H Hd; inversion H as [|? q ? qs' Hp Hps]; subst; cbn [for_each].
  - exists a, []. split; [reflexivity|]. split; [exact G|]. split; [constructor|]. split; [apply sums_0|apply keeps_refl].
  - destruct (pp_op o q) as [[q1 E]|] eqn:Eq; [|exfalso; exact (Hd q (or_introl eq_refl) Eq)].
    destruct (op_spec cs o p q q1 E a Hp Hn Eq) as (a1 & p1 & E1 & A1 & S1). pose proof (op_keeps cs o p q q1 E a a1 p1 Hp Hn Eq E1) as K1. rewrite E1. cbn [bind].
    destruct (IH qs' a1 (ap_good _ _ _ A1) (Forall2_keeps _ _ _ _ K1 Hps)) as (a2 & ps2 & E2 & G2 & A2 & S2 & K2); [intros q' Hq'; apply Hd; right; exact Hq'|]. rewrite E2. cbn [bind].
    exists a2, (p1 :: ps2). split; [reflexivity|]. split; [exact G2|]. cbn [map flat_map]. unfold nxt at 1, gives at 1. rewrite Eq. split; [constructor; [apply K2; exact A1|exact A2]|].
    split; [exact (sums_trans _ _ _ _ _ S1 S2)|exact (keeps_trans _ _ _ K1 K2)].
Qed.
Lemma for_alts_spec cs : forall os ps qs a, good (norm a) -> Forall2 (at_pos a) ps qs -> (forall m, In m (flat_map op_names os) -> usable cs m) -> (forall o q, In o os -> In q qs -> pp_op o q <> None) ->
  exists a' ps', for_alts cs os ps a = Ret a' ps' /\ good (norm a') /\ Forall2 (at_pos a') ps' (flat_map (fun o => map (nxt o) qs) os) /\ sums a a' (flat_map (fun o => flat_map (gives o) qs) os) /\ keeps a a'.
Proof.
  induction os as [|o os IH]; intros ps qs a G H Hn Hd; cbn [for_alts].
  - exists a, []. split; [reflexivity|]. split; [exact G|]. split; [constructor|]. split; [apply sums_0|apply keeps_refl].
  - destruct (for_each_spec cs o ps qs a G H) as (a1 & ps1 & E1 & G1 & A1 & S1 & K1); [intros m Hm; apply Hn; cbn [flat_map]; apply in_or_app; left; exact Hm|intros q Hq; apply Hd; [left; reflexivity|exact Hq]|].
    rewrite E1. cbn [bind].
    destruct (IH ps qs a1 G1 (Forall2_keeps _ _ _ _ K1 H)) as (a2 & ps2 & E2 & G2 & A2 & S2 & K2); [intros m Hm; apply Hn; cbn [flat_map]; apply in_or_app; right; exact Hm|intros o' q Ho Hq; apply Hd; [right; exact Ho|exact Hq]|].
    rewrite E2. cbn [bind]. exists a2, (ps1 ++ ps2). split; [reflexivity|]. split; [exact G2|]. cbn [flat_map]. split; [apply Forall2_app; [exact (Forall2_keeps _ _ _ _ K2 A1)|exact A2]|].
    split; [exact (sums_trans _ _ _ _ _ S1 S2)|exact (keeps_trans _ _ _ K1 K2)].
Qed.

(** the paths a program adds at a position *)
Definition adds (os : list pathop) (q : ppos) : list expr := match pp_ops os q with Some E => E | None => [] end.
Definition no_out (o : pathop) : Prop := match o with BOut _ => False | _ => True end.
Lemma no_out_gives o q : no_out o -> gives o q = [].
Proof.
  intro H. unfold gives. destruct o; try destruct H; cbn [pp_op]; try reflexivity; destruct (_ <? _)%Z; reflexivity.
Qed.
Lemma adds_cons o os q : no_out o -> pp_op o q <> None -> adds (o :: os) q = adds os (nxt o q).
Proof.
  intros Ho H. pose proof (no_out_gives o q Ho) as G. unfold adds, nxt, gives in *. cbn [pp_ops]. destruct (pp_op o q) as [[q' E]|]; [|contradiction]. subst E. cbn [app]. destruct (pp_ops os q'); reflexivity.
Qed.
Lemma item_ops_calls acs st it : item_calls acs st it = match it with IAt | ISlash => [[]] | _ => map (fun o => [o]) (item_ops acs st it) end.
Proof. destruct it; try reflexivity. cbn [item_calls item_ops]. rewrite map_map. reflexivity. Qed.
Lemma item_ops_no_out acs st it o : In o (item_ops acs st it) -> no_out o.
Proof.
  assert (S : forall st n, no_out (step_call st n)) by (intros [] n; exact I).
  destruct it; cbn [item_ops]; intros H; try (destruct H as [<-|[]]); try exact I; try apply S; try destruct H. apply in_map_iff in H. destruct H as (n & <- & _). apply S.
Qed.
Lemma programs_no_out acs : forall its st p, In p (programs acs st its) -> Forall no_out p.
Proof.
  induction its as [|it its IH]; intros st p H; cbn [programs] in H; [destruct H as [<-|[]]; constructor|]. destruct (next_stage st it) as [st'|]; [|destruct H].
  apply in_flat_map in H. destruct H as (c & Hc & H). apply in_map_iff in H. destruct H as (p' & <- & Hp). apply Forall_app. split; [|exact (IH _ _ Hp)].
  rewrite item_ops_calls in Hc. pose proof (item_ops_no_out acs st it) as X.
  assert (Hcase : In c [[]] \/ In c (map (fun o => [o]) (item_ops acs st it))) by (destruct it; auto). destruct Hcase as [[<-|[]]|Ho]; [constructor|].
  apply in_map_iff in Ho. destruct Ho as (o & <- & Ho). constructor; [exact (X o Ho)|constructor].
Qed.
Lemma sm_flat {A B} (h : B -> nat) (f : A -> list B) l : sm h (flat_map f l) = sm (fun x => sm h (f x)) l.
Proof. induction l as [|x l IH]; [reflexivity|]. cbn [flat_map]. rewrite sm_app, sm_cons, IH. reflexivity. Qed.
Lemma sm_zero {A} (f : A -> nat) l : (forall x, In x l -> f x = O) -> sm f l = O.
Proof. induction l as [|x l IH]; intro H; [reflexivity|]. rewrite sm_cons, IH, (H x) by (auto using in_eq, in_cons). reflexivity. Qed.
Lemma sm_plus {A} (f g : A -> nat) l : sm (fun x => f x + g x)%nat l = (sm f l + sm g l)%nat.
Proof. induction l as [|x l IH]; [reflexivity|]. rewrite !sm_cons, IH. lia. Qed.
Lemma sm_swap {A B} (f : A -> B -> nat) l m : sm (fun x => sm (f x) m) l = sm (fun y => sm (fun x => f x y) l) m.
Proof.
  induction l as [|x l IH].
  - rewrite sm_nil. induction m as [|y m IHm]; [reflexivity|]. rewrite sm_cons, <- IHm. reflexivity.
  - rewrite sm_cons, IH. rewrite <- sm_plus. apply sm_ext. intros y _. reflexivity.
Qed.

Definition item_names (acs : charset) (st : stage) (its : list item) : list (list N) := flat_map (flat_map op_names) (programs acs st its).
Section Items.
Context (acs : charset) (tail : list pathop).
(** [tail] is done behind the parts for all path elements *)
Definition end_run (ps : list pelem) (a : atm) : out atm unit := match tail with [] => Ret a tt | o :: _ => let! (a, _) := for_each acs o ps a in Ret a tt end.
Hypothesis Htail : tail = [] \/ exists t, tail = [BOut t].

Lemma programs_ne st its l : writes st its l -> programs acs st its <> [].
Proof.
  intro H. induction H as [st|st it st' w s its l' Hn Hw Hs Hr IH]; [discriminate|]. cbn [programs]. rewrite Hn.
  destruct (programs acs st' its) as [|p ps]; [contradiction|]. assert (Hc : item_calls acs st it <> []).
  { destruct it; try discriminate. inversion Hw as [| | | | |? ? Hn'| | | | | |]; subst. destruct Hn'; discriminate. }
  destruct (item_calls acs st it) as [|c cs]; [contradiction|]. discriminate.
Qed.
Lemma items_spec : forall its st l ps qs a, writes st its l -> good (norm a) -> Forall2 (at_pos a) ps qs -> (forall m, In m (item_names acs st its) -> usable acs m) ->
  (forall q p, In q qs -> In p (programs acs st its) -> pp_ops (p ++ tail) q <> None) ->
  exists a', (let! (a, ps) := items_run acs st its ps a in end_run ps a) = Ret a' tt /\ good (norm a') /\
    forall h, sm h (lang (norm a') 0) = (sm (fun p => sm (fun q => sm h (adds (p ++ tail) q)) qs) (programs acs st its) + sm h (lang (norm a) 0))%nat.
Proof.
  induction its as [|it its IH]; intros st l ps qs a Hw G H Hn Hd.
  - cbn [items_run bind]. cbn [programs] in *. unfold end_run. destruct Htail as [->|[t ->]].
    + exists a. split; [reflexivity|]. split; [exact G|]. intro h. rewrite sm_cons, sm_nil. cbn [app]. rewrite (sm_zero (fun q => sm h (adds [] q)) qs); reflexivity.
    + destruct (for_each_spec acs (BOut t) ps qs a G H) as (a1 & ps1 & E1 & G1 & A1 & S1 & K1); [intros m []| |].
      { intros q Hq. specialize (Hd q [] Hq (or_introl eq_refl)). cbn [app pp_ops] in Hd. destruct (pp_op (BOut t) q); congruence. }
      rewrite E1. cbn [bind]. exists a1. split; [reflexivity|]. split; [exact G1|]. intro h. rewrite (S1 h), sm_flat, sm_cons, sm_nil. cbn [app]. rewrite Nat.add_0_r. f_equal. apply sm_ext. intros q Hq.
      unfold gives, adds. cbn [pp_ops]. destruct (pp_op (BOut t) q) as [[q' E]|]; [|reflexivity]. rewrite app_nil_r. reflexivity.
  - inversion Hw as [|? ? st' w s ? l' Hs Hi Hsp Hr]; subst. cbn [items_run programs] in *. rewrite Hs in *. rewrite item_ops_calls in *.
    assert (Hcase : (it = IAt \/ it = ISlash) \/ (item_run acs st it ps a = for_alts acs (item_ops acs st it) ps a /\ match it with IAt | ISlash => [[]] | _ => map (fun o => [o]) (item_ops acs st it) end = map (fun o => [o]) (item_ops acs st it))).
    { destruct it; try (right; split; reflexivity); left; auto. }
    destruct Hcase as [Hc|[Ec Ec']].
    + assert (Ei : item_run acs st it ps a = Ret a ps) by (destruct Hc as [->| ->]; reflexivity).
      assert (Ec : match it with IAt | ISlash => [[]] | _ => map (fun o => [o]) (item_ops acs st it) end = [[]]) by (destruct Hc as [->| ->]; reflexivity).
      rewrite Ec in *. cbn [flat_map map] in *. rewrite app_nil_r in *. rewrite (map_ext _ (fun x => x)) in * by reflexivity. rewrite map_id in *.
      rewrite Ei. cbn [bind]. apply (IH st' l' ps qs a Hr G H); [|exact Hd]. intros m Hm. apply Hn. unfold item_names. cbn [programs]. rewrite Hs, item_ops_calls, Ec. cbn [flat_map]. rewrite app_nil_r, map_id. exact Hm.
    + rewrite Ec' in *. rewrite Ec. set (os := item_ops acs st it) in *.
      assert (Eprog : flat_map (fun c => map (app c) (programs acs st' its)) (map (fun o => [o]) os) = flat_map (fun o => map (cons o) (programs acs st' its)) os).
      { rewrite flat_map_concat_map, map_map, <- flat_map_concat_map. reflexivity. }
      assert (EP : programs acs st (it :: its) = flat_map (fun o => map (cons o) (programs acs st' its)) os) by (cbn [programs]; rewrite Hs, item_ops_calls; fold os; rewrite Ec'; exact Eprog).
      rewrite Eprog in *. pose proof (programs_ne st' its l' Hr) as Hne.
      assert (Hd1 : forall o q p, In o os -> In q qs -> In p (programs acs st' its) -> pp_op o q <> None /\ pp_ops (p ++ tail) (nxt o q) <> None).
      { intros o q p Ho Hq Hp. specialize (Hd q (o :: p) Hq). rewrite in_flat_map in Hd. specialize (Hd (ex_intro _ o (conj Ho (in_map _ _ _ Hp)))).
        cbn [app pp_ops] in Hd. unfold nxt. destruct (pp_op o q) as [[q' E]|]; [|contradiction]. split; [discriminate|]. destruct (pp_ops (p ++ tail) q'); congruence. }
      assert (Hn1 : forall o p m, In o os -> In p (programs acs st' its) -> In m (op_names o) \/ In m (flat_map op_names p) -> usable acs m).
      { intros o p m Ho Hp Hm. apply Hn. unfold item_names. rewrite EP. apply in_flat_map. exists (o :: p). split; [apply in_flat_map; exists o; split; [exact Ho|apply in_map; exact Hp]|].
        cbn [flat_map]. apply in_or_app. exact Hm. }
      assert (Hex : exists p0, In p0 (programs acs st' its)) by (destruct (programs acs st' its) as [|p0 pr]; [contradiction|exists p0; left; reflexivity]). destruct Hex as [p0 Hp0].
      destruct (for_alts_spec acs os ps qs a G H) as (a1 & ps1 & E1 & G1 & A1 & S1 & K1).
      { intros m Hm. apply in_flat_map in Hm. destruct Hm as (o & Ho & Hm). exact (Hn1 o p0 m Ho Hp0 (or_introl Hm)). }
      { intros o q Ho Hq. apply (Hd1 o q p0 Ho Hq Hp0). }
      rewrite E1. cbn [bind]. 
      assert (Hos : os <> []).
      { intro Eo. pose proof (programs_ne st (it :: its) _ Hw) as X. rewrite EP, Eo in X. apply X. reflexivity. }
      assert (Hex : exists o0, In o0 os) by (destruct os as [|o0 or]; [contradiction|exists o0; left; reflexivity]). destruct Hex as [o0 Ho0].
      destruct (IH st' l' ps1 _ a1 Hr G1 A1) as (a2 & E2 & G2 & S2).
      { intros m Hm. unfold item_names in Hm. apply in_flat_map in Hm. destruct Hm as (p & Hp & Hm). exact (Hn1 o0 p m Ho0 Hp (or_intror Hm)). }
      { intros q1 p Hq1 Hp. apply in_flat_map in Hq1. destruct Hq1 as (o & Ho & Hq1). apply in_map_iff in Hq1. destruct Hq1 as (q & <- & Hq). apply (Hd1 o q p Ho Hq Hp). }
      exists a2. split; [exact E2|]. split; [exact G2|]. intro h. rewrite (S2 h), (S1 h).
      assert (Z0 : sm h (flat_map (fun o => flat_map (gives o) qs) os) = O).
      { rewrite sm_flat. apply sm_zero. intros o Ho. rewrite sm_flat. apply sm_zero. intros q _. rewrite no_out_gives; [reflexivity|]. eapply item_ops_no_out. exact Ho. }
      rewrite Z0. cbn [Nat.add]. f_equal. rewrite sm_flat.
      rewrite (sm_ext (fun p => sm _ (flat_map _ os)) (fun p => sm (fun o => sm (fun q => sm h (adds (p ++ tail) (nxt o q))) qs) os)) by (intros p Hp; rewrite sm_flat; apply sm_ext; intros o Ho; rewrite sm_map; reflexivity).
      rewrite sm_swap. apply sm_ext. intros o Ho. rewrite sm_map. apply sm_ext. intros p Hp. apply sm_ext. intros q Hq. cbn [app].
      rewrite adds_cons; [reflexivity|eapply item_ops_no_out; exact Ho|apply (Hd1 o q p Ho Hq Hp)].
Qed.
End Items.

Lemma paths_of_adds : forall ps E, paths_of ps = Some E -> E = flat_map (fun p => adds p pp_root) ps /\ forall p, In p ps -> pp_ops p pp_root <> None.
Proof.
  induction ps as [|p ps IH]; intros E H; cbn [paths_of] in H; [injection H as <-; split; [reflexivity|intros p []]|].
  destruct (pp_ops p pp_root) as [E1|] eqn:E2; [|discriminate]. destruct (paths_of ps) as [E3|]; [|discriminate]. injection H as <-. destruct (IH _ eq_refl) as [-> Hd].
  split; [cbn [flat_map]; unfold adds at 2; rewrite E2; reflexivity|]. intros p' [<-|Hp]; [congruence|apply Hd; exact Hp].
Qed.
Section Add.
Context (scs acs : charset).
Hypothesis Hscs : cs_constructible scs = true.
Notation dacs := (default_cs acs).

(** an expression that is accepted *)
Lemma add_accepted t l its E a : is_text scs l -> ~ double_colon (text_of scs l) -> writes AtStart its l -> (forall m, In m (prog_names (programs_for dacs t its)) -> usable dacs m) ->
  paths_of (programs_for dacs t its) = Some E -> good (norm a) ->
  exists a', addExpression scs acs t (text_of scs l) a = Ret a' 0%Z /\ good (norm a') /\ sums a a' E.
Proof.
  intros Ht Hc Hw Hn HE G. pose proof (add_run scs acs Hscs t l a Ht Hc) as X. rewrite (parsed_writes l its (tx_nz _ _ Ht) Hw) in X. cbn [fst snd] in X.
  destruct (paths_of_adds _ _ HE) as [EE Hd].
  destruct (items_spec dacs [BOut t] (or_intror (ex_intro _ t eq_refl)) its AtStart l [pe_root] [pp_root] a Hw G) as (a' & E1 & G1 & S1).
  - constructor; [apply root_pos; exact G|constructor].
  - intros m Hm. apply Hn. unfold prog_names, programs_for. rewrite flat_map_concat_map, map_map, <- flat_map_concat_map. unfold item_names in Hm. apply in_flat_map in Hm. destruct Hm as (p & Hp & Hm).
    apply in_flat_map. exists p. split; [exact Hp|]. rewrite flat_map_app. apply in_or_app. left. exact Hm.
  - intros q p [<-|[]] Hp. apply Hd. unfold programs_for. apply in_map_iff. exists p. auto.
  - assert (ET : text_run dacs t AtStart its true [pe_root] a = Ret a' true).
    { unfold text_run, end_run in *. destruct (items_run dacs AtStart its [pe_root] a) as [a1 ps1| | | |]; cbn [bind] in *; try discriminate E1.
      destruct (for_each dacs (BOut t) ps1 a1) as [a2 ps2| | | |]; cbn [bind] in *; try discriminate E1. injection E1 as <-. reflexivity. }
    rewrite ET in X. destruct X as (z & X & Hz). cbn [code_of] in Hz. subst z. exists a'. split; [exact X|]. split; [exact G1|]. intro h. rewrite (S1 h). f_equal.
    rewrite EE. unfold programs_for. rewrite sm_flat, sm_map. apply sm_ext. intros p _. rewrite sm_cons, sm_nil. lia.
Qed.
(** an expression that is not accepted *)
Lemma add_rejected t l a : is_text scs l -> (double_colon (text_of scs l) \/ (forall its, ~ writes AtStart its l) /\
    forall its l1 l2, l = l1 ++ l2 -> writes AtStart its l1 -> (forall m, In m (prog_names (programs dacs AtStart its)) -> usable dacs m) /\ paths_of (programs dacs AtStart its) <> None) -> good (norm a) ->
  exists a' z, addExpression scs acs t (text_of scs l) a = Ret a' z /\ (1 <= z <= Z.of_nat (length (text_of scs l)) + 1)%Z /\ good (norm a') /\ sums a a' [].
Proof.
  intros Ht Hc G. destruct (find_colons 0 (text_of scs l)) as [z|] eqn:Ef.
  - exists a, z. unfold addExpression. rewrite Ef. split; [reflexivity|]. apply find_colons_Some in Ef. split; [lia|]. split; [exact G|apply sums_0].
  - apply find_colons_None in Ef. destruct Hc as [Hc|[Hc Hm]]; [contradiction|]. pose proof (add_run scs acs Hscs t l a Ht Ef) as X. rewrite (parsed_not l Hc) in X.
    destruct (parsed_prefix l) as (l1 & l2 & El & Hw). destruct (Hm _ _ _ El Hw) as [Hn HE]. destruct (paths_of (programs dacs AtStart (fst (parsed l)))) as [E|] eqn:EE; [|contradiction].
    destruct (paths_of_adds _ _ EE) as [_ Hd].
    destruct (items_spec dacs [] (or_introl eq_refl) (fst (parsed l)) AtStart l1 [pe_root] [pp_root] a Hw G) as (a' & E1 & G1 & S1).
    + constructor; [apply root_pos; exact G|constructor].
    + exact Hn.
    + intros q p [<-|[]] Hp. rewrite app_nil_r. apply Hd. exact Hp.
    + assert (ET : text_run dacs t AtStart (fst (parsed l)) false [pe_root] a = Ret a' false).
      { unfold text_run, end_run in *. destruct (items_run dacs AtStart (fst (parsed l)) [pe_root] a) as [a1 ps1| | | |]; cbn [bind] in *; try discriminate E1. injection E1 as <-. reflexivity. }
      rewrite ET in X. destruct X as (z & X & Hz). cbn [code_of] in Hz. exists a', z. split; [exact X|]. split; [lia|]. split; [exact G1|]. intro h. rewrite (S1 h). f_equal. rewrite sm_nil.
      apply sm_zero. intros p Hp. rewrite sm_cons, sm_nil, app_nil_r, Nat.add_0_r.
      assert (Ea : adds p pp_root = []); [|rewrite Ea; reflexivity].
      assert (Hno : Forall no_out p) by (clear -Hp; eapply programs_no_out; exact Hp).
      specialize (Hd p Hp). clear -Hno Hd. revert Hd. generalize pp_root. induction Hno as [|o p Ho Hno IH]; intros q Hd; [reflexivity|]. cbn [pp_ops] in Hd.
      assert (pp_op o q <> None) by (destruct (pp_op o q) as [[? ?]|]; congruence). rewrite adds_cons by assumption. apply IH. unfold nxt. destruct (pp_op o q) as [[q' E]|]; [|contradiction].
      destruct (pp_ops p q'); congruence.
Qed.
End Add.

Lemma lang_select a E evs : good (norm a) -> (forall h : expr -> nat, sm h (lang (norm a) 0) = sm h E) -> Forall (fun x => wf_expr x = true) E -> ordered PStart 0 evs = true ->
  exists N s rs, (forall f ff, (N <= f)%nat -> (N <= ff)%nat -> select f ff a evs = Ret s rs) /\ length rs = length evs /\
    forall t i, (i < length evs)%nat -> cnt t (nth i rs []) = hits_of t E 0 evs i.
Proof.
  intros A2 L0 Hw Ho. destruct a as [|st a0].
  - assert (L1 : forall h : expr -> nat, sm h E = O) by (intro h; rewrite <- (L0 h); reflexivity).
    destruct (select_nil evs Ho) as (N & s & rs & H1 & H2 & H3). exists N, s, rs. split; [exact H1|]. split; [exact H2|]. intros t i Hi. rewrite H3 by exact Hi. symmetry. apply (L1 (fun x => if (x_type x =? t)%Z then hits x 0 evs i else 0%nat)).
  - set (a := st :: a0) in *. change (norm a) with a in *.
    destruct (select_spec a evs (gd_wf _ A2) (gd_pos _ A2)) as (N & s & rs & H1 & H2 & H3); [|exact Ho|].
    + intros x Hx. destruct (wf_expr x) eqn:Wx; [reflexivity|exfalso].
      set (h := fun x => if wf_expr x then O else 1%nat).
      assert (Z0 : sm h E = O) by (apply sm_zero; intros y Hy; unfold h; rewrite Forall_forall in Hw; rewrite (Hw y Hy); reflexivity).
      rewrite <- (L0 h) in Z0. pose proof (sm_In h (lang a 0) x Z0 Hx) as Hq. unfold h in Hq. rewrite Wx in Hq. discriminate.
    + exists N, s, rs. split; [exact H1|]. split; [exact H2|]. intros t i Hi. rewrite H3 by exact Hi. apply (L0 (fun x => if (x_type x =? t)%Z then hits x 0 evs i else 0%nat)).
Qed.
