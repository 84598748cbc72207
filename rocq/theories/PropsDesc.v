(** Properties of paths with attributes in all descendants: C89, C38. *)
From Coq Require Import Lia ZifyBool ZifyNat.
From Verif Require Import Base Charset CharsetSpec ReadSpec XmlScanner XmlPrinter DocSpec DocCheck PathAtm PathSelect PathSpec PathProg PathDesc PathTrie PathRun1 PathRun2 PathRun3 PathRun9 PathBuild PathBuild2 PathBuild3 PathBuild4
  PathNames PathTags PathDescSep PathParse ParseSpec ParseGram ParseRun ParseTop PropsPath PropsParse.

(** ** C89: attributes in all descendants.
    [hits_d]: as [hits], but a path that waits for an attribute of any descendant is lost with a content that is looked at; [visible]: the elements without the contents
    that are not looked at, because no path has arrived where it reports them; [wf_expr_d]: as [wf_expr] with attributes in all descendants. See PathDesc.v. *)
Theorem C89_exact : forall cs ps E evs, (forall m, In m (prog_names ps) -> usable cs m) -> paths_of ps = Some E -> Forall (fun x => wf_expr_d x = true) E ->
  ordered PStart 0 evs = true ->
  exists a rs, add_paths cs ps [] = Ret a tt /\ selects a evs rs /\ length rs = length evs /\
    forall t i, (i < length evs)%nat -> reported t rs i = hits_d_of t E 0 (visible E evs) i.
Proof.
  intros cs ps E evs Hn HE Hw Ho. destruct (paths_select_d cs ps E evs Hn HE Hw Ho) as (a & EA & n & s & rs & H1 & H2 & H3). exists a, rs.
  split; [exact EA|]. split; [exists n, s; exact H1|]. split; [exact H2|]. exact H3.
Qed.
Print Assumptions C89_exact.

(** The other paths of the automaton report what they report without them, and so do the former if contents are not reported at all. *)
Theorem C89_others : forall cs ps E evs t, (forall m, In m (prog_names ps) -> usable cs m) -> paths_of ps = Some E -> Forall (fun x => wf_expr_d x = true) E ->
  ordered PStart 0 evs = true -> (forall x, In x E -> x_type x = t -> own_attrs x = true) \/ Forall (fun x => no_content x = true) E ->
  exists a rs, add_paths cs ps [] = Ret a tt /\ selects a evs rs /\ length rs = length evs /\
    forall i, (i < length evs)%nat -> reported t rs i = hits_of t E 0 evs i.
Proof.
  intros cs ps E evs t Hn HE Hw Ho Hc. destruct (C89_exact cs ps E evs Hn HE Hw Ho) as (a & rs & H1 & H2 & H3 & H4). exists a, rs. split; [exact H1|]. split; [exact H2|]. split; [exact H3|].
  intros i Hi. rewrite H4 by exact Hi. unfold hits_d_of, hits_of. apply list_sum_ext. intros x Hx. destruct (x_type x =? t)%Z eqn:Et; [|reflexivity].
  destruct Hc as [Hc|Hc]; [apply visible_own; [exact Hx|apply Hc; [exact Hx|lia]]|apply visible_no_content; assumption].
Qed.
Print Assumptions C89_others.

(** The same for expressions given as text. *)
Theorem C89_texts : forall scs acs xs ps bs E evs, cs_constructible scs = true -> meant scs acs xs ps bs -> (forall m, In m (prog_names ps) -> usable (default_cs acs) m) ->
  paths_of ps = Some E -> Forall (fun x => wf_expr_d x = true) E -> ordered PStart 0 evs = true ->
  exists a zs rs a' rs', add_texts scs acs xs [] = Ret a zs /\ map (Z.eqb 0) zs = bs /\ selects a evs rs /\ length rs = length evs /\
    add_paths (default_cs acs) ps [] = Ret a' tt /\ selects a' evs rs' /\
    forall t i, (i < length evs)%nat -> reported t rs i = hits_d_of t E 0 (visible E evs) i /\ reported t rs i = reported t rs' i.
Proof.
  intros scs acs xs ps bs E evs Hs Hm Hn HE Hw Ho. destruct (texts_spec scs acs Hs xs ps bs Hm E [] Hn HE good_new) as (a & zs & H1 & H2 & G & S).
  assert (L0 : forall h : expr -> nat, sm h (lang (norm a) 0) = sm h E) by (intro h; rewrite (S h); change (lang (norm []) 0) with (@nil expr); rewrite PathBuild.sm_nil; lia).
  destruct (lang_select_d a E evs G L0 Hw Ho) as (n & s & rs & X1 & X2 & X3). destruct (C89_exact _ ps E evs Hn HE Hw Ho) as (a' & rs' & Y1 & Y2 & _ & Y4).
  exists a, zs, rs, a', rs'. split; [exact H1|]. split; [exact H2|]. split; [exists n, s; exact X1|]. split; [exact X2|]. split; [exact Y1|]. split; [exact Y2|].
  intros t i Hi. assert (R : reported t rs i = hits_d_of t E 0 (visible E evs) i) by (apply X3; exact Hi). split; [exact R|]. rewrite R. symmetry. apply Y4. exact Hi.
Qed.
Print Assumptions C89_texts.

(** ** C38: paths that do not influence each other, also with attributes in all descendants *)
Theorem C38_separate : forall cs ps1 ps2 E1 E2 evs t, (forall m, In m (prog_names (ps1 ++ ps2)) -> usable cs m) -> paths_of ps1 = Some E1 -> paths_of ps2 = Some E2 ->
  Forall (fun x => wf_expr_d x = true) (E1 ++ E2) -> ordered PStart 0 evs = true -> ~ In t (map x_type E2) ->
  (forall x, In x E1 -> x_type x = t -> own_attrs x = true) \/ Forall (fun x => no_content x = true) E2 ->
  exists a1 a12 rs1 rs12, add_paths cs ps1 [] = Ret a1 tt /\ add_paths cs (ps1 ++ ps2) [] = Ret a12 tt /\ selects a1 evs rs1 /\ selects a12 evs rs12 /\
    forall i, (i < length evs)%nat -> reported t rs12 i = reported t rs1 i.
Proof.
  intros cs ps1 ps2 E1 E2 evs t Hn H1 H2 Hw Ho Ht Hc.
  assert (Hpo : paths_of (ps1 ++ ps2) = Some (E1 ++ E2)).
  { clear -H1 H2. revert E1 H1. induction ps1 as [|os ps IH]; intros E1 H1; cbn [paths_of app] in *; [injection H1 as <-; exact H2|].
    destruct (pp_ops os pp_root) as [E|]; [|discriminate]. destruct (paths_of ps) as [E'|]; [|discriminate]. injection H1 as <-. rewrite (IH _ eq_refl), app_assoc. reflexivity. }
  assert (Hn1 : forall m, In m (prog_names ps1) -> usable cs m) by (intros m Hm; apply Hn; unfold prog_names; rewrite flat_map_app, in_app_iff; left; exact Hm).
  pose proof Hw as Hw'. rewrite Forall_app in Hw'. destruct Hw' as [Hw1 Hw2].
  destruct (C89_exact cs ps1 E1 evs Hn1 H1 Hw1 Ho) as (a1 & rs1 & A1 & S1 & L1 & R1). destruct (C89_exact cs _ _ evs Hn Hpo Hw Ho) as (a12 & rs12 & A12 & S12 & L12 & R12).
  exists a1, a12, rs1, rs12. split; [exact A1|]. split; [exact A12|]. split; [exact S1|]. split; [exact S12|]. intros i Hi. rewrite R1, R12 by exact Hi.
  unfold hits_d_of. rewrite map_app, list_sum_app. rewrite (list_sum_0 _ E2), Nat.add_0_r.
  2:{ intros x Hx. destruct (x_type x =? t)%Z eqn:E; [|reflexivity]. exfalso. apply Ht. apply in_map_iff. exists x. split; [lia|exact Hx]. }
  destruct Hc as [Hc|Hc]; [|rewrite (visible_more E1 E2 evs Hc); reflexivity]. apply list_sum_ext. intros x Hx. destruct (x_type x =? t)%Z eqn:E; [|reflexivity].
  assert (Hx' : own_attrs x = true) by (apply Hc; [exact Hx|lia]). rewrite !visible_own; auto. apply in_or_app. left. exact Hx.
Qed.
Print Assumptions C38_separate.

(** [Y--("u")], [Y("mm")--()] and [Y--("mm")("u")] with [<Y><k u="7"></k>text<mm u="8">t<q u="9"></q></mm><k u="1"></k></Y>]: the content of [mm] is looked at,
    so the attributes behind are reported for the third path only; the content of [Y] is not. *)
Definition desc_paths : list (list pathop) :=
  [[BTag (nm "Y"); BFollow; BAttr (nm "u"); BOut 1]; [BTag (nm "Y"); BTag (nm "mm"); BFollow; BContent; BOut 2]; [BTag (nm "Y"); BFollow; BTag (nm "mm"); BAttr (nm "u"); BOut 3]].
Definition el (n : string) (u : string) (l : list event) : list event :=
  [(EOpenTag, str n); (ETagAttribName, str "u"); (ETagAttribValue, str u)] ++ l ++ [(ECloseTag, str n)].
Definition desc_doc : list event :=
  [(EOpenTag, str "Y")] ++ el "k" "7" [] ++ [(EContent, str "text")] ++ el "mm" "8" ([(EContent, str "t")] ++ el "q" "9" []) ++ el "k" "1" [] ++ [(ECloseTag, str "Y")].
Example C89_case : exists E, paths_of desc_paths = Some E /\ Forall (fun x => wf_expr_d x = true) E /\ (forall m, In m (prog_names desc_paths) -> usable UTF8 m) /\
  ordered PStart 0 desc_doc = true /\
  map (hits_d_of 1 E 0 (visible E desc_doc)) (seq 0 (length desc_doc)) = [0;0;0;1;0;0;0;0;1;0;0;0;0;0;0;0;0;0;0;0]%nat /\
  map (hits_of 1 E 0 desc_doc) (seq 0 (length desc_doc)) = [0;0;0;1;0;0;0;0;1;0;0;0;1;0;0;0;0;1;0;0]%nat /\
  map (hits_d_of 3 E 0 (visible E desc_doc)) (seq 0 (length desc_doc)) = [0;0;0;0;0;0;0;0;1;0;0;0;0;0;0;0;0;0;0;0]%nat /\
  (forall x, In x E -> x_type x = 3%Z -> own_attrs x = true).
Proof.
  eexists. split; [vm_compute; reflexivity|]. split; [repeat constructor|]. split.
  { intros m Hm. apply good_usable; [reflexivity|]. apply good_nameb_ok. revert m Hm. apply forallb_forall. vm_compute. reflexivity. }
  split; [vm_compute; reflexivity|]. split; [vm_compute; reflexivity|]. split; [vm_compute; reflexivity|]. split; [vm_compute; reflexivity|].
  intros x Hx Ht. cbn in Hx. repeat (destruct Hx as [<-|Hx]; [vm_compute in Ht |- *; congruence|]). destruct Hx.
Qed.
Example C38_separate_case : exists E1 E2, paths_of (firstn 1 desc_paths) = Some E1 /\ paths_of (skipn 2 desc_paths) = Some E2 /\ Forall (fun x => wf_expr_d x = true) (E1 ++ E2) /\
  ~ In 1%Z (map x_type E2) /\ Forall (fun x => no_content x = true) E2 /\ existsb (fun x => negb (own_attrs x)) E1 = true.
Proof. eexists. eexists. split; [vm_compute; reflexivity|]. split; [vm_compute; reflexivity|]. split; [repeat constructor|]. split; [vm_compute; intuition discriminate|]. split; [repeat constructor|reflexivity]. Qed.
(** [//@u] and [/a()] *)
Definition desc_texts : list (Z * list N) := [(1%Z, str "//@u"); (2%Z, str "/a()")].
Definition desc_meaning : list (list pathop) := [[BFollow; BAttr (nm "u"); BOut 1]; [BTag (nm "a"); BContent; BOut 2]].
Example C89_texts_case : meant UTF8 UTF8 desc_texts desc_meaning [true; true] /\ (forall m, In m (prog_names desc_meaning) -> usable UTF8 m) /\
  exists E, paths_of desc_meaning = Some E /\ Forall (fun x => wf_expr_d x = true) E /\ existsb (fun x => negb (own_attrs x)) E = true.
Proof.
  split; [|split].
  - assert (T : forall l, In l (map snd desc_texts) -> is_text UTF8 l /\ text_of UTF8 l = l) by (intros l Hl; apply ascii_text; revert l Hl; apply forallb_forall; vm_compute; reflexivity).
    cbn [desc_texts map snd] in T. unfold desc_texts.
    change desc_meaning with (programs_for (default_cs UTF8) 1 (fst (parsed (str "//@u"))) ++ programs_for (default_cs UTF8) 2 (fst (parsed (str "/a()"))) ++ []).
    apply mt_yes; [apply T; cbn; tauto|apply no_colons; vm_compute; reflexivity|apply written; vm_compute; reflexivity|].
    apply mt_yes; [apply T; cbn; tauto|apply no_colons; vm_compute; reflexivity|apply written; vm_compute; reflexivity|apply mt_nil].
  - intros m Hm. apply good_usable; [reflexivity|]. apply good_nameb_ok. revert m Hm. apply forallb_forall. vm_compute. reflexivity.
  - eexists. split; [vm_compute; reflexivity|]. split; [repeat constructor|reflexivity].
Qed.
