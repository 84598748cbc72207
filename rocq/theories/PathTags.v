(** Tag paths as method calls. *)
From Coq Require Import Lia ZifyBool ZifyNat.
From Verif Require Import Base Charset CharsetSpec ReadSpec XmlScanner DocSpec PathAtm PathSelect PathSpec PathProg PathRun1 PathRun3 PathRun9 PathBuild3 PathNames PathMatch.

(** the steps, the report and the type of a tag path *)
Record tagpath := mkTagpath { tp_steps : list tstep; tp_rep : treport; tp_type : Z }.
(** the method calls that define a tag path *)
Definition follow_call (f : bool) : list pathop := if f then [BFollow] else [].
Definition tag_calls (p : tagpath) : list pathop :=
  flat_map (fun s => follow_call (fst s) ++ [BTag (snd s)]) (tp_steps p)
  ++ match tp_rep p with
     | TOpen => []
     | TContent deep => follow_call deep ++ [BContent]
     | TClose deep => follow_call deep ++ [BClose]
     | TAttr n => [BAttr n]
     end ++ [BOut (tp_type p)].
(** how often the type [t] is to be reported for a list of tag paths *)
Definition matches_of (t : Z) (P : list tagpath) (evs : list event) (i : nat) : nat :=
  list_sum (map (fun p => if (tp_type p =? t)%Z then matching (tp_steps p) (tp_rep p) evs i else 0%nat) P).

(** A name of a tag or an attribute in the character set of the automaton: up to 1024 bytes *)
Definition good_name (cs : charset) (n : list N) : Prop :=
  exists cl, n = flat_map (cs_print cs) cl /\ cl <> [] /\ Forall (representable cs) cl /\ Forall name_char cl /\ (length n <= 1024)%nat.
Definition opt_good (cs : charset) (n : option (list N)) : Prop := match n with None => True | Some n => good_name cs n end.
Record good_path (cs : charset) (p : tagpath) : Prop := {
  gp_type : tp_type p <> 0%Z;
  gp_steps : Forall (fun s => opt_good cs (snd s)) (tp_steps p);
  gp_attr : match tp_rep p with TAttr n => opt_good cs n | _ => True end;
  gp_open : tp_rep p = TOpen -> tp_steps p <> [] }.

Definition tp_expr (p : tagpath) : expr := tag_expr (tp_steps p) (tp_rep p) (tp_type p).

Lemma pp_steps : forall steps rest es,
  pp_ops (flat_map (fun s : tstep => follow_call (fst s) ++ [BTag (snd s)]) steps ++ rest) (mkPp es RNow false None) = pp_ops rest (mkPp (es ++ tag_edges steps) RNow false None).
Proof.
  induction steps as [|[f m] steps IH]; intros rest es; cbn [flat_map app tag_edges map fst snd]; [rewrite app_nil_r; reflexivity|].
  rewrite <- !app_assoc. destruct f; cbn [follow_call app pp_ops pp_op pp_edges pp_rep pp_follow pp_range].
  - unfold pp_step. cbn [pp_edges pp_rep pp_follow pp_range]. rewrite IH. unfold tag_edges. rewrite <- app_assoc. cbn [app].
    destruct (pp_ops rest _); reflexivity.
  - unfold pp_step. cbn [pp_edges pp_rep pp_follow pp_range]. rewrite IH. unfold tag_edges. rewrite <- app_assoc. cbn [app]. destruct (pp_ops rest _); reflexivity.
Qed.
Lemma tag_calls_expr p : tp_type p <> 0%Z -> pp_ops (tag_calls p) pp_root = Some [tp_expr p].
Proof.
  intro Ht. unfold tag_calls, pp_root. rewrite pp_steps. cbn [app]. apply Z.eqb_neq in Ht. unfold tp_expr.
  destruct (tp_rep p) as [|deep|deep|n]; [|destruct deep|destruct deep|]; cbn [follow_call app pp_ops pp_op pp_edges pp_rep pp_follow pp_range pp_step]; rewrite Ht; reflexivity.
Qed.
Lemma paths_tags P : Forall (fun p => tp_type p <> 0%Z) P -> paths_of (map tag_calls P) = Some (map tp_expr P).
Proof. induction 1 as [|p P Hp HP IH]; [reflexivity|]. cbn [map paths_of]. rewrite tag_calls_expr, IH by exact Hp. reflexivity. Qed.

Lemma good_usable cs n : bytewise cs = true -> good_name cs n -> usable cs n.
Proof. intros Hb (cl & -> & Hne & Hr & Hn & Hl). apply name_usable; assumption. Qed.
Lemma usable_ne cs n : usable cs n -> n <> [].
Proof. intros [H _]. exact H. Qed.

Lemma tags_names cs p : good_path cs p -> forall m, In m (flat_map op_names (tag_calls p)) -> good_name cs m.
Proof.
  intros [_ Hs Ha _] m Hin. unfold tag_calls in Hin. rewrite !flat_map_app, !in_app_iff in Hin. destruct Hin as [Hin|[Hin|Hin]].
  - clear Ha. induction Hs as [|[f n] steps Hn Hs IH]; [destruct Hin|]. cbn [flat_map] in Hin. rewrite flat_map_app, in_app_iff in Hin. destruct Hin as [Hin|Hin]; [|exact (IH Hin)].
    cbn [fst snd] in *. rewrite flat_map_app, in_app_iff in Hin. destruct Hin as [Hin|Hin]; [destruct f; cbn in Hin; destruct Hin|].
    cbn [flat_map op_names] in Hin. destruct n as [n|]; [|destruct Hin]. cbn [app In] in Hin. destruct Hin as [<-|[]]. exact Hn.
  - destruct (tp_rep p) as [|deep|deep|n]; [destruct Hin|destruct deep; destruct Hin|destruct deep; destruct Hin|].
    cbn [flat_map op_names] in Hin. destruct n as [n|]; [|destruct Hin]. cbn [app In] in Hin. destruct Hin as [<-|[]]. exact Ha.
  - destruct Hin.
Qed.
Lemma tags_wf cs p : bytewise cs = true -> good_path cs p -> wf_expr (tp_expr p) = true.
Proof.
  intros Hb [Ht Hs Ha Ho]. unfold wf_expr, tp_expr.
  assert (Et : x_type (tag_expr (tp_steps p) (tp_rep p) (tp_type p)) = tp_type p) by (destruct (tp_rep p); reflexivity). rewrite Et. apply Z.eqb_neq in Ht. rewrite Ht, andb_true_r.
  assert (Hne : forall n, opt_good cs n -> match n with Some [] => false | _ => true end = true).
  { intros [n|] Hn; [|reflexivity]. destruct n; [|reflexivity]. exfalso. exact (usable_ne _ _ (good_usable cs [] Hb Hn) eq_refl). }
  assert (Hw : forall es r f, wf_edges false es r f = true -> wf_edges false (tag_edges (tp_steps p) ++ es) r f = true).
  { clear Ho Et. intros es r f He. induction Hs as [|[g n] steps Hn Hs IH]; [exact He|]. cbn [tag_edges map app wf_edges e_op e_name snd fst] in *. rewrite (Hne n Hn). cbn [andb]. exact IH. }
  apply andb_true_intro. split.
  - destruct (tp_rep p) as [|deep|deep|n]; cbn [tag_expr x_edges x_rep x_follow].
    + rewrite <- (app_nil_r (tag_edges _)). apply Hw. reflexivity.
    + rewrite <- (app_nil_r (tag_edges _)). apply Hw. reflexivity.
    + apply Hw. reflexivity.
    + apply Hw. cbn [wf_edges e_op e_follow e_name negb andb]. rewrite (Hne n Ha). reflexivity.
  - destruct (tp_rep p) as [|deep|deep|n]; destruct (tp_steps p); try reflexivity. exfalso. apply Ho; reflexivity.
Qed.

Theorem tags_select cs P evs : bytewise cs = true -> Forall (good_path cs) P -> no_header evs = true -> ordered PStart 0 evs = true ->
  exists a, add_paths cs (map tag_calls P) [] = Ret a tt /\
  exists n s rs, (forall f ff, (n <= f)%nat -> (n <= ff)%nat -> select f ff a evs = Ret s rs) /\ length rs = length evs /\
    forall t i, (i < length evs)%nat -> cnt t (nth i rs []) = matches_of t P evs i.
Proof.
  intros Hb HP Hh Ho. 
  destruct (paths_select cs (map tag_calls P) (map tp_expr P) evs) as (a & E & n & s & rs & H1 & H2 & H3).
  - intros m Hm. unfold prog_names in Hm. apply in_flat_map in Hm. destruct Hm as (os & Hos & Hm). apply in_map_iff in Hos. destruct Hos as (p & <- & Hp).
    apply good_usable; [exact Hb|]. rewrite Forall_forall in HP. eapply tags_names; [apply HP; exact Hp|exact Hm].
  - apply paths_tags. eapply Forall_impl; [|exact HP]. intros p Hp. apply Hp.
  - apply Forall_forall. intros x Hx. apply in_map_iff in Hx. destruct Hx as (p & <- & Hp). apply (tags_wf cs); [exact Hb|]. rewrite Forall_forall in HP. apply HP, Hp.
  - exact Ho.
  - exists a. split; [exact E|]. exists n, s, rs. split; [exact H1|]. split; [exact H2|]. intros t i Hi. rewrite H3 by exact Hi. unfold hits_of, matches_of. rewrite map_map. f_equal.
    apply map_ext. intro p. assert (Et : x_type (tp_expr p) = tp_type p) by (unfold tp_expr; destruct (tp_rep p); reflexivity). rewrite Et. destruct (_ =? _)%Z; [|reflexivity].
    unfold tp_expr. eapply tag_hits; eauto.
Qed.
