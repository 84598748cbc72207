(** Properties of the path expressions given as text: C41, C42. *)
From Coq Require Import Lia ZifyBool ZifyNat.
From Verif Require Import Base Charset CharsetSpec ReadSpec XmlScanner XmlPrinter DocSpec DocCheck PathAtm PathSelect PathSpec PathProg PathTrie PathRun1 PathRun3 PathBuild3 PathNames
  PathBuild PathBuild2 PathTags PathParse ParseSpec ParseGram ParseRun ParseTop PropsPath.

(** ** C41: an expression given as text has the effect of the method calls.
    [writes]: the grammar of expressions, [programs_for]: the method calls, see ParseSpec.v. The texts are the characters [l] in the character set [scs] of the
    source ([text_of], [is_text]); names are translated to the character set of the automaton. Both are objects constructed with their default constructors
    ([default_cs]). The text is accepted exactly if it is written in the grammar and two colons do not occur; the value returned is 0 exactly then and else a
    position in the text or the one behind plus 1. *)
Theorem C41_accepts : forall scs acs t l a a' z, cs_constructible scs = true -> is_text scs l -> addExpression scs acs t (text_of scs l) a = Ret a' z ->
  (z = 0%Z <-> (exists its, writes AtStart its l) /\ ~ double_colon (text_of scs l)) /\ (0 <= z <= Z.of_nat (length (text_of scs l)) + 1)%Z.
Proof.
  intros scs acs t l a a' z Hs Ht H. destruct (find_colons 0 (text_of scs l)) as [z'|] eqn:Ef.
  - unfold addExpression in H. rewrite Ef in H. injection H as <- <-. pose proof (find_colons_Some _ _ _ Ef) as B. split; [|lia]. split; [lia|].
    intros [_ Hc]. apply (find_colons_None _ 0%Z) in Hc. congruence.
  - apply find_colons_None in Ef. pose proof (add_run scs acs Hs t l a Ht Ef) as X.
    destruct (text_run _ _ _ _ _ _ _) as [a1 ok|a1|a1| |] eqn:ET; try congruence. destruct X as (z1 & X & Hz). rewrite X in H. injection H as -> ->.
    assert (Eok : ok = snd (parsed l)).
    { unfold text_run in ET. destruct (items_run _ _ _ _ _) as [a2 ps2| | | |]; cbn [bind] in ET; try discriminate ET. destruct (snd (parsed l)); [|congruence].
      destruct (for_each _ _ _ _) as [a3 ps3| | | |]; cbn [bind] in ET; try discriminate ET. congruence. }
    destruct (snd (parsed l)) eqn:Ep; subst ok; cbn [code_of] in Hz.
    + split; [|lia]. split; [intros _; split; [|exact Ef]|intros _; exact Hz]. exists (fst (parsed l)). apply (lp_items_sound (S (length l))). fold (parsed l). rewrite <- Ep. apply surjective_pairing.
    + split; [|lia]. split; [lia|]. intros [[its Hw] _]. rewrite (parsed_writes l its (tx_nz _ _ Ht) Hw) in Ep. discriminate Ep.
Qed.
Print Assumptions C41_accepts.

(** An expression without alternatives makes the method calls one after the other, for every automaton, with the same outcome. *)
Theorem C41_calls : forall scs acs t l its p a, cs_constructible scs = true -> is_text scs l -> ~ double_colon (text_of scs l) -> writes AtStart its l ->
  programs_for (default_cs acs) t its = [p] ->
  addExpression scs acs t (text_of scs l) a = let! (a', _) := pe_ops (default_cs acs) p pe_root a in Ret a' 0%Z.
Proof.
  intros scs acs t l its p a Hs Ht Hc Hw Hp. pose proof (add_run scs acs Hs t l a Ht Hc) as X. rewrite (parsed_writes l its (tx_nz _ _ Ht) Hw) in X. cbn [fst snd] in X.
  unfold programs_for in Hp. destruct (programs (default_cs acs) AtStart its) as [|p0 [|? ?]] eqn:EP; cbn [map] in Hp; try discriminate Hp. injection Hp as <-.
  assert (ET : text_run (default_cs acs) t AtStart its true [pe_root] a = let! (a', _) := pe_ops (default_cs acs) (p0 ++ [BOut t]) pe_root a in Ret a' true).
  { unfold text_run. rewrite (items_run_one (default_cs acs) its AtStart p0 pe_root a EP (ex_intro _ l Hw)). rewrite pe_ops_app, !bind_assoc. apply bind_ext. intros a1 p1.
    cbn [for_each pe_ops bind]. destruct (pe_op _ _ _ _); reflexivity. }
  rewrite ET in X. destruct (pe_ops (default_cs acs) (p0 ++ [BOut t]) pe_root a) as [a1 p1|a1|a1| |]; cbn [bind] in *; try exact X.
  destruct X as (z & X & Hz). cbn [code_of] in Hz. subst z. exact X.
Qed.
Print Assumptions C41_calls.

(** Adding one expression after the other, with the values returned. *)
Fixpoint add_texts (scs acs : charset) (xs : list (Z * list N)) (a : atm) : out atm (list Z) :=
  match xs with
  | [] => Ret a []
  | (t, l) :: xs => let! (a, z) := addExpression scs acs t (text_of scs l) a in let! (a, zs) := add_texts scs acs xs a in Ret a (z :: zs)
  end.
(** The method calls of expressions of which some are accepted. In the ones that are not, the calls that are made before the error have a meaning. *)
Inductive meant (scs acs : charset) : list (Z * list N) -> list (list pathop) -> list bool -> Prop :=
| mt_nil : meant scs acs [] [] []
| mt_yes : forall t l its xs ps bs, is_text scs l -> ~ double_colon (text_of scs l) -> writes AtStart its l -> meant scs acs xs ps bs ->
    meant scs acs ((t, l) :: xs) (programs_for (default_cs acs) t its ++ ps) (true :: bs)
| mt_no : forall t l xs ps bs, is_text scs l -> (double_colon (text_of scs l) \/ (forall its, ~ writes AtStart its l) /\
      forall its l1 l2, l = l1 ++ l2 -> writes AtStart its l1 ->
        (forall m, In m (prog_names (programs (default_cs acs) AtStart its)) -> usable (default_cs acs) m) /\ paths_of (programs (default_cs acs) AtStart its) <> None) ->
    meant scs acs xs ps bs -> meant scs acs ((t, l) :: xs) ps (false :: bs).

Lemma paths_of_app : forall ps ps' E, paths_of (ps ++ ps') = Some E -> exists E1 E2, paths_of ps = Some E1 /\ paths_of ps' = Some E2 /\ E = E1 ++ E2.
Proof.
  induction ps as [|os ps IH]; intros ps' E H; cbn [paths_of app] in *; [exists [], E; auto|]. destruct (pp_ops os pp_root) as [E0|]; [|discriminate].
  destruct (paths_of (ps ++ ps')) as [E'|] eqn:E1; [|discriminate]. destruct (IH _ _ E1) as (E2 & E3 & -> & -> & ->). injection H as <-. exists (E0 ++ E2), E3. rewrite app_assoc. auto.
Qed.
Lemma texts_spec scs acs : cs_constructible scs = true -> forall xs ps bs, meant scs acs xs ps bs -> forall E a, (forall m, In m (prog_names ps) -> usable (default_cs acs) m) -> paths_of ps = Some E -> good (norm a) ->
  exists a' zs, add_texts scs acs xs a = Ret a' zs /\ map (Z.eqb 0) zs = bs /\ good (norm a') /\ sums a a' E.
Proof.
  intros Hs xs ps bs H. induction H as [|t l its xs ps bs Ht Hc Hw H IH|t l xs ps bs Ht Hc H IH]; intros E a Hn HE G; cbn [add_texts].
  - injection HE as <-. exists a, []. split; [reflexivity|]. split; [reflexivity|]. split; [exact G|apply sums_0].
  - destruct (paths_of_app _ _ _ HE) as (E1 & E2 & H1 & H2 & ->).
    assert (Hn1 : forall m, In m (prog_names (programs_for (default_cs acs) t its)) -> usable (default_cs acs) m) by (intros m Hm; apply Hn; unfold prog_names; rewrite flat_map_app, in_app_iff; left; exact Hm).
    assert (Hn2 : forall m, In m (prog_names ps) -> usable (default_cs acs) m) by (intros m Hm; apply Hn; unfold prog_names; rewrite flat_map_app, in_app_iff; right; exact Hm).
    destruct (add_accepted scs acs Hs t l its E1 a Ht Hc Hw Hn1 H1 G) as (a1 & X & G1 & S1). rewrite X. cbn [bind].
    destruct (IH E2 a1 Hn2 H2 G1) as (a2 & zs & Y & Z & G2 & S2). rewrite Y. cbn [bind]. exists a2, (0%Z :: zs). split; [reflexivity|]. split; [cbn [map]; rewrite Z; reflexivity|].
    split; [exact G2|]. eapply sums_trans; eassumption.
  - destruct (add_rejected scs acs Hs t l a Ht Hc G) as (a1 & z & X & Hz & G1 & S1). rewrite X. cbn [bind].
    destruct (IH E a1 Hn HE G1) as (a2 & zs & Y & Z & G2 & S2). rewrite Y. cbn [bind]. exists a2, (z :: zs). split; [reflexivity|].
    split; [cbn [map]; rewrite Z; replace (0 =? z)%Z with false by lia; reflexivity|]. split; [exact G2|]. change E with ([] ++ E). eapply sums_trans; eassumption.
Qed.

(** Expressions with alternatives too: the selection is the one of the method calls, one path for each choice of alternatives. Expressions that are not accepted
    do not change the selection. *)
Theorem C41_selects : forall scs acs xs ps bs E evs, cs_constructible scs = true -> meant scs acs xs ps bs -> (forall m, In m (prog_names ps) -> usable (default_cs acs) m) ->
  paths_of ps = Some E -> Forall (fun x => wf_expr x = true) E -> ordered PStart 0 evs = true ->
  exists a zs rs a' rs', add_texts scs acs xs [] = Ret a zs /\ map (Z.eqb 0) zs = bs /\ selects a evs rs /\ length rs = length evs /\
    add_paths (default_cs acs) ps [] = Ret a' tt /\ selects a' evs rs' /\
    forall t i, (i < length evs)%nat -> reported t rs i = hits_of t E 0 evs i /\ reported t rs i = reported t rs' i.
Proof.
  intros scs acs xs ps bs E evs Hs Hm Hn HE Hw Ho. destruct (texts_spec scs acs Hs xs ps bs Hm E [] Hn HE good_new) as (a & zs & H1 & H2 & G & S).
  assert (L0 : forall h : expr -> nat, sm h (lang (norm a) 0) = sm h E) by (intro h; rewrite (S h); change (lang (norm []) 0) with (@nil expr); rewrite PathBuild.sm_nil; lia).
  destruct (lang_select a E evs G L0 Hw Ho) as (n & s & rs & X1 & X2 & X3). destruct (C36_programs _ ps E evs Hn HE Hw Ho) as (a' & rs' & Y1 & Y2 & _ & Y4).
  exists a, zs, rs, a', rs'. split; [exact H1|]. split; [exact H2|]. split; [exists n, s; exact X1|]. split; [exact X2|]. split; [exact Y1|]. split; [exact Y2|].
  intros t i Hi. assert (R : reported t rs i = hits_of t E 0 evs i) by (apply X3; exact Hi). split; [exact R|]. rewrite R. symmetry. apply Y4. exact Hi.
Qed.
Print Assumptions C41_selects.

(** Examples are decided with the parser on lists of ParseList.v, which is proved to be the grammar. *)
Lemma written its l : negb (existsb (N.eqb 0) l) = true -> parsed l = (its, true) -> writes AtStart its l.
Proof. intros _ H. eapply lp_items_sound. exact H. Qed.
Lemma not_written l : negb (existsb (N.eqb 0) l) = true -> snd (parsed l) = false -> forall its, ~ writes AtStart its l.
Proof.
  intros Hz H its Hw. assert (Hn : ~ In 0 l) by (intro Hi; apply Bool.negb_true_iff in Hz; assert (X : existsb (N.eqb 0) l = true) by (apply existsb_exists; exists 0; auto); congruence).
  rewrite (parsed_writes l its Hn Hw) in H. discriminate H.
Qed.
Definition prefix_ok (l : list N) (k : nat) : bool :=
  let ps := programs UTF8 AtStart (fst (parsed (firstn k l))) in forallb good_nameb (prog_names ps) && match paths_of ps with Some _ => true | None => false end.
Lemma prefixes_ok l : negb (existsb (N.eqb 0) l) = true -> forallb (prefix_ok l) (seq 0 (S (length l))) = true -> forall its l1 l2, l = l1 ++ l2 -> writes AtStart its l1 ->
  (forall m, In m (prog_names (programs UTF8 AtStart its)) -> usable UTF8 m) /\ paths_of (programs UTF8 AtStart its) <> None.
Proof.
  intros Hz H its l1 l2 El Hw. assert (Hn : ~ In 0 l1).
  { intro Hi; apply Bool.negb_true_iff in Hz; assert (X : existsb (N.eqb 0) l = true) by (apply existsb_exists; exists 0; split; [rewrite El, in_app_iff; auto|reflexivity]); congruence. }
  rewrite forallb_forall in H. specialize (H (length l1)). assert (Hin : In (length l1) (seq 0 (S (length l)))) by (apply in_seq; rewrite El, app_length; lia). specialize (H Hin). unfold prefix_ok in H.
  rewrite El in H. rewrite firstn_app, firstn_all, Nat.sub_diag, firstn_O, app_nil_r in H. rewrite (parsed_writes l1 its Hn Hw) in H. cbn [fst] in H. apply andb_prop in H. destruct H as [H1 H2]. split.
  - intros m Hm. rewrite forallb_forall in H1. apply good_usable; [reflexivity|]. apply good_nameb_ok, H1, Hm.
  - destruct (paths_of _); congruence.
Qed.
Definition asciib (l : list N) : bool := forallb (fun c => (0 <? c) && (c <? 128)) l && (N.of_nat (length l) <? 1000).
Lemma ascii_text l : asciib l = true -> is_text UTF8 l /\ text_of UTF8 l = l.
Proof.
  unfold asciib. intro H. apply andb_prop in H. destruct H as [H Hl]. rewrite forallb_forall in H.
  assert (E : text_of UTF8 l = l).
  { unfold text_of. cbn [default_cs]. assert (G : forall c, In c l -> c < 128) by (intros c Hc; specialize (H c Hc); lia). clear H Hl. induction l as [|c l IH]; [reflexivity|]. cbn [flat_map].
    rewrite IH by (intros x Hx; apply G; right; exact Hx). assert (Hc : c < 128) by (apply G; left; reflexivity). unfold cs_print, utf8_print. destruct (c <=? 127) eqn:E; [reflexivity|lia]. }
  split; [|exact E]. constructor.
  - apply Forall_forall. intros c Hc. specialize (H c Hc). cbn [default_cs representable]. lia.
  - intro Hc. specialize (H 0 Hc). discriminate H.
  - rewrite E. change (2 ^ 32) with 4294967296. lia.
Qed.
Lemma no_colons l : find_colons 0 l = None -> ~ double_colon l. Proof. apply find_colons_None. Qed.
(** three expressions that are accepted, one with a missing name and one with two colons *)
Definition sample_texts : list (Z * list N) := [(1%Z, str "/a//{b, c}[@x='1']()"); (2%Z, str "//b/{c,"); (3%Z, str "// b [1,2] "); (4%Z, str "a::b"); (5%Z, str "/a/*@x")].
Definition sample_meaning : list (list pathop) :=
  [[BTag (nm "a"); BFollow; BTag (nm "b"); BCond (nm "x") (nm "1"); BContent; BOut 1]; [BTag (nm "a"); BFollow; BTag (nm "c"); BCond (nm "x") (nm "1"); BContent; BOut 1];
   [BFollow; BTag (nm "b"); BRange 1 2; BOut 3]; [BTag (nm "a"); BTag None; BAttr (nm "x"); BOut 5]].
Example C41_case : meant UTF8 UTF8 sample_texts sample_meaning [true; false; true; false; true] /\ (forall m, In m (prog_names sample_meaning) -> usable UTF8 m) /\
  (exists E, paths_of sample_meaning = Some E /\ Forall (fun x => wf_expr x = true) E) /\ ordered PStart 0 sample_doc = true /\
  (exists a, add_texts UTF8 UTF8 sample_texts [] = Ret a [0; 8; 0; 2; 0]%Z).
Proof.
  split; [|split; [|split; [|split; [vm_compute; reflexivity|eexists; vm_compute; reflexivity]]]].
  - assert (T : forall l, In l (map snd sample_texts) -> is_text UTF8 l /\ text_of UTF8 l = l) by (intros l Hl; apply ascii_text; revert l Hl; apply forallb_forall; vm_compute; reflexivity).
    cbn [sample_texts map snd] in T. unfold sample_texts.
    change sample_meaning with (programs_for (default_cs UTF8) 1 (fst (parsed (str "/a//{b, c}[@x='1']()"))) ++ programs_for (default_cs UTF8) 3 (fst (parsed (str "// b [1,2] "))) ++
      programs_for (default_cs UTF8) 5 (fst (parsed (str "/a/*@x"))) ++ []).
    apply mt_yes; [apply T; cbn; tauto|apply no_colons; vm_compute; reflexivity|apply written; vm_compute; reflexivity|].
    apply mt_no; [apply T; cbn; tauto|right; split; [apply not_written; vm_compute; reflexivity|apply prefixes_ok; vm_compute; reflexivity]|].
    apply mt_yes; [apply T; cbn; tauto|apply no_colons; vm_compute; reflexivity|apply written; vm_compute; reflexivity|].
    apply mt_no; [apply T; cbn; tauto|left; exists (str "a"), (str "b"); vm_compute; reflexivity|].
    apply mt_yes; [apply T; cbn; tauto|apply no_colons; vm_compute; reflexivity|apply written; vm_compute; reflexivity|apply mt_nil].
  - intros m Hm. apply good_usable; [reflexivity|]. apply good_nameb_ok. revert m Hm. apply forallb_forall. vm_compute. reflexivity.
  - eexists. split; [vm_compute; reflexivity|]. repeat constructor.
Qed.
Example C41_calls_case : exists its p, is_text UTF8 (str "a [@b = 'c'] // * @d") /\ ~ double_colon (text_of UTF8 (str "a [@b = 'c'] // * @d")) /\ writes AtStart its (str "a [@b = 'c'] // * @d") /\
  programs_for UTF8 7 its = [p] /\ p = [BTag (nm "a"); BCond (nm "b") (nm "c"); BFollow; BTag None; BAttr (nm "d"); BOut 7].
Proof.
  exists (fst (parsed (str "a [@b = 'c'] // * @d"))). eexists. split; [apply ascii_text; vm_compute; reflexivity|]. split; [apply no_colons; vm_compute; reflexivity|]. split; [apply written; vm_compute; reflexivity|].
  split; [vm_compute; reflexivity|reflexivity].
Qed.

(** ** C42: every tag name can be used in an expression. It is wrong for names with a dash, with two colons and with characters whose last byte is an operator or zero. *)
Definition plain_name (l : list N) : Prop := l <> [] /\ Forall (fun c => name_char c /\ ~ op_char c) l.
Theorem C42_refuted : exists l a z, plain_name l /\ is_text UTF8 l /\ addExpression UTF8 UTF8 1 (text_of UTF8 l) [] = Ret a z /\ z <> 0%Z.
Proof.
  exists (str "a-b"). eexists. eexists. split; [split; [discriminate|]|].
  - apply Forall_forall. intros c Hc. split; [apply name_charb_ok; revert c Hc; apply forallb_forall; vm_compute; reflexivity|].
    cbn in Hc. unfold op_char. cbn. lia.
  - split; [apply ascii_text; vm_compute; reflexivity|]. split; [vm_compute; reflexivity|discriminate].
Qed.
Print Assumptions C42_refuted.
(** U+0100, U+012A and "a::b" *)
Example C42_refuted_more : Forall (fun l => plain_name l /\ is_text UTF8 l /\ exists a z, addExpression UTF8 UTF8 1 (text_of UTF8 l) [] = Ret a z /\ z <> 0%Z) [[256]; [298]; str "a::b"].
Proof.
  assert (P : forall l, l <> [] -> forallb name_charb l = true -> existsb (fun c => existsb (N.eqb c) [42; 126; 47; 40; 41; 123; 125; 91; 93; 64; 44; 59]) l = false -> plain_name l).
  { intros l Hne H1 H2. split; [exact Hne|]. apply Forall_forall. intros c Hc. rewrite forallb_forall in H1. split; [apply name_charb_ok, H1, Hc|]. intro Ho.
    assert (X : existsb (fun c => existsb (N.eqb c) [42; 126; 47; 40; 41; 123; 125; 91; 93; 64; 44; 59]) l = true); [|congruence]. apply existsb_exists. exists c. split; [exact Hc|]. apply existsb_exists. exists c. split; [exact Ho|apply N.eqb_refl]. }
  constructor; [|constructor; [|constructor; [|constructor]]]; (split; [apply P; [discriminate|vm_compute; reflexivity|vm_compute; reflexivity]|]).
  1, 2: (split; [constructor; [constructor; [cbn [default_cs representable]; lia|constructor]|cbn; lia|vm_compute; reflexivity]|]).
  3: (split; [apply ascii_text; vm_compute; reflexivity|]).
  all: eexists; eexists; split; [vm_compute; reflexivity|discriminate].
Qed.
(** Exactly these names are not accepted. *)
Lemma plain_writes l its : plain_name l -> writes AtStart its l -> its = [IName l] /\ ident l.
Proof.
  intros [Hne H] Hw. assert (Hop : forall c, In c l -> ~ op_char c) by (rewrite Forall_forall in H; intros c Hc; apply (H c Hc)).
  assert (Hsp : forall c, In c l -> ~ space_char c) by (rewrite Forall_forall in H; intros c Hc; destruct (H c Hc) as [Hn _]; unfold name_char, space_char in *; lia). clear H.
  assert (Hs : forall s, spaces s -> (forall c, In c s -> In c l) -> s = []) by (intros [|c s] X Y; [reflexivity|inversion X; exfalso; apply (Hsp c); [apply Y; left; reflexivity|assumption]]).
  assert (Hi : forall it w, writes_item it w -> (forall c, In c w -> In c l) -> it = IName w /\ ident w).
  { intros it w X Y. destruct X; try (split; [reflexivity|assumption]); exfalso; match goal with Y : forall c, In c (?x :: _) -> _ |- _ => apply (Hop x); [apply Y; left; reflexivity|unfold op_char; cbn; tauto] end. }
  inversion Hw as [|st it st' w s its' l' Hst Hit Hss Hw' E1 E2 E3]; subst; [contradiction|].
  destruct (Hi it w Hit) as [-> Hid]; [intros c Hc; rewrite in_app_iff; auto|]. assert (s = []) by (apply Hs; [exact Hss|intros c Hc; rewrite !in_app_iff; auto]). subst s. cbn [app next_stage] in *. injection Hst as <-.
  inversion Hw' as [|st2 it2 st2' w2 s2 its2 l2 Hst2 Hit2 Hss2 Hw2 F1 F2 F3]; subst; [rewrite app_nil_r; auto|]. exfalso.
  destruct (Hi it2 w2 Hit2) as [-> _]; [intros c Hc; rewrite !in_app_iff; auto|]. discriminate Hst2.
Qed.
Theorem C42_exact : forall scs acs t l a a' z, cs_constructible scs = true -> plain_name l -> is_text scs l -> addExpression scs acs t (text_of scs l) a = Ret a' z ->
  (z = 0%Z <-> Forall (fun c => c <> 45 /\ c mod 256 <> 0 /\ ~ op_char (c mod 256)) l /\ ~ double_colon (text_of scs l)).
Proof.
  intros scs acs t l a a' z Hs Hp Ht H. rewrite (proj1 (C41_accepts scs acs t l a a' z Hs Ht H)).
  assert (Hi : (exists its, writes AtStart its l) <-> Forall (fun c => c <> 45 /\ c mod 256 <> 0 /\ ~ op_char (c mod 256)) l); [|rewrite Hi; tauto].
  split.
  - intros [its Hw]. destruct (plain_writes l its Hp Hw) as [_ [_ Hid]]. eapply Forall_impl; [|exact Hid]. intros c (_ & Hx & Hz & Ho). split; [intros ->; apply Hx; unfold xml_char; cbn; tauto|auto].
  - intro Hc. exists [IName l]. rewrite <- (app_nil_r l) at 2. change (writes AtStart [IName l] (l ++ [] ++ [])). eapply ws_item; [reflexivity| |constructor|constructor]. apply wi_name. split; [apply Hp|].
    apply Forall_forall. intros c Hin. destruct Hp as [_ Hp]. rewrite Forall_forall in Hp, Hc. destruct (Hp c Hin) as [Hn _]. destruct (Hc c Hin) as (H45 & Hz & Ho). unfold ident_char.
    assert (Hr : 33 <= c) by (unfold name_char in Hn; lia). split; [right; exact Hr|]. split; [|auto]. intro Hx. destruct Hn as [Hn|[_ Hn]].
    + unfold xml_char in Hx. cbn in Hx. lia.
    + unfold xml_char in Hx. unfold markup_chars in Hn. cbn in Hx, Hn. lia.
Qed.
Print Assumptions C42_exact.
(** The others select the tags with the name. *)
Theorem C42_partial : forall scs acs t l a, cs_constructible scs = true -> plain_name l -> is_text scs l -> Forall (fun c => c <> 45 /\ c mod 256 <> 0 /\ ~ op_char (c mod 256)) l ->
  ~ double_colon (text_of scs l) ->
  addExpression scs acs t (text_of scs l) a = let! (a', _) := pe_ops (default_cs acs) [BTag (Some (encoded (default_cs acs) l)); BOut t] pe_root a in Ret a' 0%Z.
Proof.
  intros scs acs t l a Hs Hp Ht Hc Hd. apply (C41_calls scs acs t l [IName l]); try assumption; [|reflexivity].
  rewrite <- (app_nil_r l) at 2. change (writes AtStart [IName l] (l ++ [] ++ [])). eapply ws_item; [reflexivity| |constructor|constructor]. apply wi_name. split; [apply Hp|].
  apply Forall_forall. intros c Hin. destruct Hp as [_ Hp]. rewrite Forall_forall in Hp, Hc. destruct (Hp c Hin) as [Hn _]. destruct (Hc c Hin) as (H45 & Hz & Ho). unfold ident_char.
  assert (Hr : 33 <= c) by (unfold name_char in Hn; lia). split; [right; exact Hr|]. split; [|auto]. intro Hx. destruct Hn as [Hn|[_ Hn]].
  - unfold xml_char in Hx. cbn in Hx. lia.
  - unfold xml_char in Hx. unfold markup_chars in Hn. cbn in Hx, Hn. lia.
Qed.
Print Assumptions C42_partial.
(** a name with characters of two and three bytes and a colon, in a source with UTF-16 and an automaton with UTF-8 *)
Example C42_case : let l := [233; 58; 8364; 95; 49] in plain_name l /\ is_text (UTF16 false) l /\ Forall (fun c => c <> 45 /\ c mod 256 <> 0 /\ ~ op_char (c mod 256)) l /\
  ~ double_colon (text_of (UTF16 false) l) /\ exists a, addExpression (UTF16 false) UTF8 1 (text_of (UTF16 false) l) [] = Ret a 0%Z.
Proof.
  cbv zeta. split; [split; [discriminate|repeat apply Forall_cons; try apply Forall_nil; (split; [apply name_charb_ok; vm_compute; reflexivity|unfold op_char; cbn; lia])]|].
  split; [constructor; [repeat constructor; cbn [default_cs representable]; lia|cbn; lia|vm_compute; reflexivity]|].
  split; [repeat apply Forall_cons; try apply Forall_nil; unfold op_char; vm_compute; (split; [|split]); try discriminate; intuition discriminate|].
  split; [apply no_colons; vm_compute; reflexivity|]. eexists. vm_compute. reflexivity.
Qed.
