(** How often a tag path matches the open tags of a document (specification), and that this is how often it is reported (proof). *)
From Coq Require Import Lia ZifyBool ZifyNat.
From Verif Require Import Base XmlScanner PathSpec.

(** A tag path: for each step whether it is meant for all descendants and the name, if it is not for every name. *)
Definition tstep : Type := bool * option (list N).
(** What is reported: the open tag, its content, its close tag, with the flag that of all descendants also; the value of an attribute. *)
Inductive treport := TOpen | TContent (deep : bool) | TClose (deep : bool) | TAttr (name : option (list N)).

(** The names of the open elements at the [i]-th element, the outermost first. The open tag and the close tag are in their element. *)
Fixpoint trail (open : list (list N)) (evs : list event) (i : nat) : list (list N) :=
  match evs with
  | [] => open
  | ev :: l =>
      let opened := match kind_of (fst ev) with KOpen => open ++ [snd ev] | _ => open end in
      match i with
      | O => opened
      | S i => trail match kind_of (fst ev) with KClose => removelast opened | _ => opened end l i
      end
  end.

(** In how many ways the steps lead through the names to the last name, or [deep], to any of the names. *)
Fixpoint ways (steps : list tstep) (deep : bool) (tr : list (list N)) : nat :=
  match tr with
  | [] => match steps with [] => 1 | _ => 0 end
  | n :: tr' =>
      match steps with
      | [] => if deep then 1 else 0
      | (follow, m) :: steps' => (if names m n then ways steps' deep tr' else 0) + (if follow then ways steps deep tr' else 0)
      end
  end%nat.

(** How often a path is reported with the [i]-th element *)
Definition kind_at (evs : list event) (i : nat) : kind := match nth_error evs i with Some ev => kind_of (fst ev) | None => KOther end.
Definition key_at (evs : list event) (i : nat) : list N := match nth_error evs i with Some ev => snd ev | None => [] end.
Definition matching (steps : list tstep) (r : treport) (evs : list event) (i : nat) : nat :=
  match r, kind_at evs i with
  | TOpen, KOpen => ways steps false (trail [] evs i)
  | TContent deep, KContent => ways steps deep (trail [] evs i)
  | TClose deep, KClose => ways steps deep (trail [] evs i)
  | TAttr n, KValue =>
      match i with
      | S j => match kind_at evs j with KName => if names n (key_at evs j) then ways steps false (trail [] evs i) else 0 | _ => 0 end
      | O => 0
      end
  | _, _ => 0
  end%nat.

(** The path as an expression *)
Definition tag_edges (steps : list tstep) : list edge := map (fun s => mkEdge SOpen (fst s) (snd s)) steps.
Definition tag_expr (steps : list tstep) (r : treport) (t : Z) : expr :=
  match r with
  | TOpen => mkExpr (tag_edges steps) RNow false None t
  | TContent deep => mkExpr (tag_edges steps) RContent deep None t
  | TClose deep => mkExpr (tag_edges steps ++ [mkEdge SClose deep None]) RNow false None t
  | TAttr n => mkExpr (tag_edges steps ++ [mkEdge SAttr false n]) RAttr false None t
  end.
(** A document has no header *)
Definition no_header (evs : list event) : bool :=
  forallb (fun ev => match kind_of (fst ev) with KHeader | KHdrEnd => false | _ => true end) evs.

(** ** Proof. Names that are opened before the path has arrived are [None]; none: the element where the path has arrived is closed. *)
Fixpoint otrail (open : list (option (list N))) (evs : list event) (i : nat) : option (list (option (list N))) :=
  match evs with
  | [] => Some open
  | ev :: l =>
      let opened := match kind_of (fst ev) with KOpen => open ++ [Some (snd ev)] | _ => open end in
      match i with
      | O => Some opened
      | S i => match kind_of (fst ev) with
               | KClose => match open with [] => None | _ => otrail (removelast open) l i end
               | _ => otrail opened l i
               end
      end
  end.
Definition onames (m : option (list N)) (n : option (list N)) : bool := match n with None => false | Some n => names m n end.
Fixpoint oways (steps : list tstep) (deep : bool) (tr : list (option (list N))) : nat :=
  match tr with
  | [] => match steps with [] => 1 | _ => 0 end
  | n :: tr' =>
      match steps with
      | [] => if deep then 1 else 0
      | (follow, m) :: steps' => (if onames m n then oways steps' deep tr' else 0) + (if follow then oways steps deep tr' else 0)
      end
  end%nat.

Lemma oways_some steps deep : forall tr, oways steps deep (map Some tr) = ways steps deep tr.
Proof.
  intro tr. revert steps. induction tr as [|n tr IH]; intro steps; [reflexivity|]. cbn [map oways ways onames]. destruct steps as [|[f m] steps]; [reflexivity|].
  rewrite !IH. reflexivity.
Qed.
Lemma map_removelast {A B} (f : A -> B) : forall l, map f (removelast l) = removelast (map f l).
Proof. induction l as [|x l IH]; [reflexivity|]. cbn [removelast map]. destruct l as [|y l]; [reflexivity|]. cbn [map] in *. rewrite <- IH. reflexivity. Qed.

Lemma otrail_some : forall evs i p open, ordered p (length open) evs = true ->
  otrail (map Some open) evs i = Some (map Some (trail open evs i)).
Proof.
  induction evs as [|ev l IH]; intros i p open Ho; [reflexivity|]. cbn [otrail trail ordered] in *.
  destruct (phase_after p (kind_of (fst ev))) as [p'|]; [|discriminate].
  destruct i as [|i]; [destruct (kind_of (fst ev)); rewrite ?map_app; reflexivity|].
  destruct (kind_of (fst ev)); cbn [level_after] in Ho; try (apply (IH i p'); exact Ho).
  - change [Some (snd ev)] with (map Some [snd ev]). rewrite <- map_app. apply (IH i p'). rewrite app_length. cbn [length]. rewrite Nat.add_1_r. exact Ho.
  - destruct open as [|o open]; [discriminate|]. cbn [map]. rewrite <- (map_cons Some o open), <- map_removelast. apply (IH i p').
    assert (E : length (removelast (o :: open)) = length open); [|rewrite E; exact Ho].
    rewrite (app_removelast_last o (l := o :: open)) by discriminate. clear. 
    pose proof (app_removelast_last o (l := o :: open) ltac:(discriminate)) as H. apply (f_equal (@length _)) in H. rewrite app_length in H. cbn [length] in H.
    rewrite <- (app_removelast_last o (l := o :: open)) by discriminate. lia.
Qed.

Lemma removelast_app2 {A} (l : list A) x s : removelast (l ++ x :: s) = l ++ removelast (x :: s).
Proof. apply removelast_app. discriminate. Qed.
Lemma otrail_app : forall l i base s tr, otrail s l i = Some tr -> otrail (base ++ s) l i = Some (base ++ tr).
Proof.
  induction l as [|ev l IH]; intros i base s tr H; cbn [otrail] in *; [congruence|]. destruct i as [|i].
  - destruct (kind_of (fst ev)); injection H as <-; rewrite ?app_assoc; reflexivity.
  - destruct (kind_of (fst ev)); try (apply IH; exact H).
    + rewrite <- app_assoc. apply IH. exact H.
    + destruct s as [|o s]; [discriminate|]. rewrite removelast_app2. destruct (base ++ o :: s) eqn:E; [destruct base; discriminate|]. apply IH. exact H.
Qed.
Lemma otrail_none : forall l i base s k k', otrail s l i = None -> otrail (base ++ k :: s) l i = otrail (base ++ k' :: s) l i.
Proof.
  induction l as [|ev l IH]; intros i base s k k' H; cbn [otrail] in *; [discriminate|]. destruct i as [|i].
  - destruct (kind_of (fst ev)); discriminate.
  - destruct (kind_of (fst ev)); try (apply IH; exact H).
    + rewrite <- !app_assoc. cbn [app]. apply IH. exact H.
    + destruct s as [|o s].
      * rewrite !removelast_last. destruct base; reflexivity.
      * rewrite !removelast_app2. destruct (base ++ k :: o :: s) eqn:E; [destruct base; discriminate|]. destruct (base ++ k' :: o :: s) eqn:E'; [destruct base; discriminate|].
        cbn [removelast]. apply (IH i base (removelast (o :: s)) k k'). exact H.
Qed.
Lemma oways_open follow m steps deep key tr : forall d,
  (oways ((follow, m) :: steps) deep (repeat None d ++ Some key :: tr)
   = oways ((follow, m) :: steps) deep (repeat None d ++ None :: tr) + (if near d follow && names m key then oways steps deep tr else 0))%nat.
Proof.
  induction d as [|d IH]; cbn [repeat app oways onames].
  - unfold near. rewrite orb_true_r. cbn [andb]. lia.
  - rewrite !Nat.add_0_l. destruct follow; [|reflexivity]. rewrite IH. reflexivity.
Qed.
Lemma oways_nil deep key tr d : oways [] deep (repeat None d ++ Some key :: tr) = oways [] deep (repeat None d ++ None :: tr).
Proof. destruct d; reflexivity. Qed.

Definition oopen (open : list (option (list N))) (ev : event) := match kind_of (fst ev) with KOpen => open ++ [Some (snd ev)] | _ => open end.
Lemma repeat_snoc {A} (x : A) d : repeat x d ++ [x] = repeat x (S d).
Proof. induction d as [|d IH]; [reflexivity|]. cbn [repeat app] in *. rewrite IH. reflexivity. Qed.
Lemma removelast_repeat {A} (x : A) d : removelast (repeat x (S d)) = repeat x d.
Proof. rewrite <- repeat_snoc. apply removelast_last. Qed.

Section Hits.
Context (X : list tstep -> expr) (deep : bool) (fac : list event -> nat -> bool).
Context (ok : list event -> Prop).
(** what is reported after an element that is neither an open tag nor a header, besides of what is reported without it *)
Context (extra : list tstep -> nat -> event -> list event -> nat -> nat).
Hypothesis ok_tl : forall ev l, ok (ev :: l) -> ok l /\ match kind_of (fst ev) with KHeader | KHdrEnd => False | _ => True end.
Hypothesis H0 : forall steps d ev l, ok (ev :: l) -> now (X steps) d ev = if fac (ev :: l) 0 then oways steps deep (oopen (repeat None d) ev) else 0%nat.
Hypothesis Hopen : forall steps d ev l i, kind_of (fst ev) = KOpen ->
  hits (X steps) d (ev :: l) (S i) = (hits (X steps) (S d) l i
   + match steps with (f, m) :: steps' => if near d f && names m (snd ev) then hits (X steps') 0 l i else 0 | [] => 0 end)%nat.
Hypothesis Hother : forall steps d ev l i, kind_of (fst ev) <> KOpen -> ok (ev :: l) ->
  hits (X steps) d (ev :: l) (S i) = (match depth_after d ev with Some d' => hits (X steps) d' l i | None => 0 end + extra steps d ev l i)%nat.
Hypothesis Hfac : forall ev l i, kind_of (fst ev) = KOpen -> fac (ev :: l) (S i) = fac l i.
Hypothesis Hextra : forall steps d ev l i, kind_of (fst ev) <> KOpen -> ok (ev :: l) ->
  match otrail (repeat None d) (ev :: l) (S i) with
  | Some tr => ((if fac l i then oways steps deep tr else 0) + extra steps d ev l i = if fac (ev :: l) (S i) then oways steps deep tr else 0)%nat
  | None => extra steps d ev l i = 0%nat
  end.

Lemma hits_ways : forall evs i steps d, ok evs -> (i < length evs)%nat ->
  hits (X steps) d evs i = match otrail (repeat None d) evs i with Some tr => if fac evs i then oways steps deep tr else 0%nat | None => 0%nat end.
Proof.
  induction evs as [|ev l IH]; intros i steps d Hok Hi; [cbn in Hi; lia|]. destruct (ok_tl ev l Hok) as [Hl Hk]. destruct i as [|i].
  - cbn [hits otrail]. rewrite (H0 steps d ev l Hok). unfold oopen. reflexivity.
  - cbn [length] in Hi. apply Nat.succ_lt_mono in Hi. destruct (kind_of (fst ev)) eqn:K; try contradiction.
    1:{ rewrite Hopen by exact K. rewrite Hfac by exact K. cbn [otrail]. rewrite K.
        rewrite (IH i steps (S d) Hl Hi). rewrite <- repeat_snoc. 
        destruct (otrail [] l i) as [tr|] eqn:E.
        - pose proof (otrail_app l i (repeat None d ++ [None]) [] tr E) as E1. rewrite app_nil_r in E1. rewrite E1.
          pose proof (otrail_app l i (repeat None d ++ [Some (snd ev)]) [] tr E) as E2. rewrite app_nil_r in E2. rewrite E2. rewrite <- !app_assoc. cbn [app].
          destruct steps as [|[f m] steps].
          + rewrite Nat.add_0_r, oways_nil. reflexivity.
          + rewrite (IH i steps O Hl Hi). cbn [repeat]. rewrite E, oways_open. destruct (fac l i); [|destruct (_ && _); reflexivity]. destruct (_ && _); reflexivity.
        - rewrite (otrail_none l i (repeat None d) [] (Some (snd ev)) None E).
          destruct steps as [|[f m] steps]; [apply Nat.add_0_r|]. rewrite (IH i steps O Hl Hi). cbn [repeat]. rewrite E. destruct (_ && _); apply Nat.add_0_r. }
    all: assert (K' : kind_of (fst ev) <> KOpen) by (rewrite K; discriminate); etransitivity; [exact (Hother steps d ev l i K' Hok)|]; pose proof (Hextra steps d ev l i K' Hok) as HX;
      cbn [otrail] in HX |- *; unfold depth_after; rewrite K in HX |- *.
    4: destruct d as [|d]; [cbn [repeat] in HX |- *; exact HX|]; rewrite removelast_repeat in HX |- *; cbn [repeat] in HX |- *.
    all: rewrite (IH i steps d Hl Hi); destruct (otrail (repeat None d) l i) as [tr|] eqn:E; [exact HX|exact HX].
Qed.
End Hits.

Definition tfac (r : treport) (evs : list event) (i : nat) : bool :=
  match r, kind_at evs i with
  | TOpen, KOpen | TContent _, KContent | TClose _, KClose => true
  | TAttr n, KValue => match i with S j => match kind_at evs j with KName => names n (key_at evs j) | _ => false end | O => false end
  | _, _ => false
  end.
Definition tdeep (r : treport) : bool := match r with TContent d | TClose d => d | _ => false end.
Lemma matching_tfac steps r evs i : matching steps r evs i = if tfac r evs i then ways steps (tdeep r) (trail [] evs i) else 0%nat.
Proof.
  unfold matching, tfac, tdeep. destruct r; destruct (kind_at evs i); try reflexivity. destruct i as [|j]; [reflexivity|]. destruct (kind_at evs j); reflexivity.
Qed.
Definition textra (r : treport) (steps : list tstep) (d : nat) (ev : event) (l : list event) (i : nat) : nat :=
  match r, steps, d, i, kind_of (fst ev), l with
  | TAttr n, [], O, O, KName, ev2 :: _ => if names n (snd ev) then match kind_of (fst ev2) with KValue => 1 | _ => 0 end else 0
  | _, _, _, _, _, _ => 0
  end%nat.

Lemma oways_repeat steps deep d : oways steps deep (repeat None d) = match steps with [] => if near d deep then 1 else 0 | _ => 0 end%nat.
Proof.
  induction d as [|d IH]; cbn [repeat oways].
  - destruct steps; [destruct deep; reflexivity|reflexivity].
  - destruct steps as [|[f m] steps]; [unfold near; rewrite orb_false_r; reflexivity|]. cbn [onames]. destruct f; [rewrite IH; reflexivity|reflexivity].
Qed.
Lemma oways_last steps deep key d : deep = false -> oways steps deep (repeat None d ++ [Some key])
  = match steps with [(f, m)] => if near d f && names m key then 1 else 0 | _ => 0 end%nat.
Proof.
  intros ->. destruct steps as [|[f m] steps].
  - destruct d; reflexivity.
  - rewrite oways_open. rewrite (repeat_snoc None d), oways_repeat. cbn [Nat.add]. destruct steps as [|s steps]; [reflexivity|]. destruct (_ && _); reflexivity.
Qed.
Lemma hits_now0 : forall l i t d, hits (mkExpr [] RNow false None t) d l i = 0%nat.
Proof.
  induction l as [|ev l IH]; intros i t d; [reflexivity|]. cbn [hits]. destruct i as [|i].
  - unfold now, report_at. cbn [x_edges x_rep reports x_follow]. rewrite andb_false_r. reflexivity.
  - unfold wait_on, report_at. cbn [x_edges x_rep reports x_follow transient]. rewrite andb_false_r. cbn [andb]. rewrite Nat.add_0_r. destruct (depth_after d ev); [apply IH|reflexivity].
Qed.

Lemma no_header_tl ev l : no_header (ev :: l) = true -> no_header l = true /\ match kind_of (fst ev) with KHeader | KHdrEnd => False | _ => True end.
Proof. unfold no_header. cbn [forallb]. intro H. apply andb_prop in H. destruct H as [H1 H2]. split; [exact H2|]. destruct (kind_of (fst ev)); try discriminate; exact Logic.I. Qed.

Lemma tag_wait steps r t d ev : wait_on (tag_expr steps r t) d ev = tag_expr steps r t.
Proof. destruct r, steps; try reflexivity; unfold wait_on, tag_expr; cbn [tag_edges map x_edges]; destruct (report_at _ _ _); reflexivity. Qed.
Lemma tag_transient steps r t : transient (tag_expr steps r t) = false.
Proof. destruct r, steps; reflexivity. Qed.
Lemma tag_rest s steps r t : rest_of (tag_expr (s :: steps) r t) (tl (x_edges (tag_expr (s :: steps) r t))) = tag_expr steps r t.
Proof. destruct r; reflexivity. Qed.

Lemma tag_now r t steps d ev l : no_header (ev :: l) = true ->
  now (tag_expr steps r t) d ev = if tfac r (ev :: l) 0 then oways steps (tdeep r) (oopen (repeat None d) ev) else 0%nat.
Proof.
  intro Hh. apply no_header_tl in Hh. destruct Hh as [_ Hh]. unfold tfac. cbn [kind_at nth_error]. change (kind_at (ev :: l) 0) with (kind_of (fst ev)). unfold oopen, now, report_at, step_at.
  destruct r as [|deep|deep|n]; cbn [tag_expr x_edges x_rep x_follow x_range tdeep].
  - destruct steps as [|[f m] [|s steps]]; cbn [tag_edges map fst snd e_op e_follow e_name reports].
    + rewrite andb_false_r. cbn [andb]. destruct (kind_of (fst ev)); try reflexivity. rewrite oways_last by reflexivity. reflexivity.
    + destruct (kind_of (fst ev)) eqn:K; try contradiction; cbn [sees]; rewrite ?andb_false_r, ?andb_true_r; cbn [andb]; try reflexivity. rewrite oways_last by reflexivity. reflexivity.
    + destruct (kind_of (fst ev)); try reflexivity. rewrite oways_last by reflexivity. reflexivity.
  - destruct steps as [|[f m] [|s steps]]; cbn [tag_edges map fst snd e_op e_follow e_name].
    + destruct (kind_of (fst ev)); cbn [reports]; rewrite ?andb_false_r, ?andb_true_r; cbn [andb range_now]; try reflexivity. rewrite oways_repeat. reflexivity.
    + destruct (kind_of (fst ev)); try reflexivity. rewrite oways_repeat. reflexivity.
    + destruct (kind_of (fst ev)); try reflexivity. rewrite oways_repeat. reflexivity.
  - destruct steps as [|[f m] [|s steps]]; cbn [tag_edges map fst snd e_op e_follow e_name app].
    + destruct (kind_of (fst ev)); try contradiction; cbn [sees names]; rewrite ?andb_false_r, ?andb_true_r; cbn [andb]; try reflexivity. rewrite oways_repeat. reflexivity.
    + destruct (kind_of (fst ev)); try reflexivity. rewrite oways_repeat. reflexivity.
    + destruct (kind_of (fst ev)); try reflexivity. rewrite oways_repeat. reflexivity.
  - destruct steps as [|[f m] [|s steps]]; cbn [tag_edges map fst snd e_op e_follow e_name app]; destruct (kind_of (fst ev)); reflexivity.
Qed.

Lemma tag_open r t steps d ev l i : kind_of (fst ev) = KOpen ->
  hits (tag_expr steps r t) d (ev :: l) (S i) = (hits (tag_expr steps r t) (S d) l i
   + match steps with (f, m) :: steps' => if near d f && names m (snd ev) then hits (tag_expr steps' r t) 0 l i else 0 | [] => 0 end)%nat.
Proof.
  intro K. cbn [hits]. unfold depth_after. rewrite K, tag_wait, tag_transient. f_equal. destruct steps as [|[f m] steps].
  - destruct r; cbn [tag_expr tag_edges map app x_edges]; try reflexivity; unfold step_at; cbn [e_follow e_op e_name]; rewrite K; cbn [sees]; rewrite andb_false_r; reflexivity.
  - pose proof (tag_rest (f, m) steps r t) as Hr. 
    destruct r; cbn [tag_expr tag_edges map app x_edges tl fst snd] in Hr |- *; rewrite Hr; unfold step_at; cbn [e_follow e_op e_name]; rewrite K; cbn [sees]; rewrite andb_true_r; reflexivity.
Qed.

Lemma hits_attr t d l i : hits (mkExpr [] RAttr false None t) d l i
  = match i, d, l with O, O, ev :: _ => match kind_of (fst ev) with KValue => 1 | _ => 0 end | _, _, _ => 0 end%nat.
Proof.
  destruct l as [|ev l]; [destruct i, d; reflexivity|]. cbn [hits]. destruct i as [|i].
  - unfold now, report_at. cbn [x_edges x_rep x_follow x_range range_now]. rewrite andb_true_r. destruct d as [|d]; unfold near; cbn [orb andb]; destruct (kind_of (fst ev)); reflexivity.
  - unfold transient; cbn [x_edges x_rep]. destruct (depth_after d ev); reflexivity.
Qed.

Lemma tag_other r t steps d ev l i : kind_of (fst ev) <> KOpen -> no_header (ev :: l) = true ->
  hits (tag_expr steps r t) d (ev :: l) (S i) = (match depth_after d ev with Some d' => hits (tag_expr steps r t) d' l i | None => 0 end + textra r steps d ev l i)%nat.
Proof.
  intros K Hh. apply no_header_tl in Hh. destruct Hh as [_ Hh]. cbn [hits]. rewrite tag_wait, tag_transient. f_equal. destruct steps as [|[f m] steps].
  - destruct r as [|deep|deep|n]; cbn [tag_expr tag_edges map app x_edges textra]; try reflexivity; unfold step_at; cbn [e_follow e_op e_name names].
    + destruct (kind_of (fst ev)) eqn:K1; try contradiction; cbn [sees]; rewrite ?andb_false_r; try reflexivity. destruct (_ && _); reflexivity.
    + unfold rest_of; cbn [x_rep x_follow x_range x_type]. unfold near; cbn [orb]. destruct (kind_of (fst ev)) eqn:K1; try contradiction; cbn [sees]; rewrite ?andb_false_r; cbn [andb];
        try (destruct d; [|reflexivity]; destruct i; reflexivity).
      destruct d as [|d]; [|reflexivity]. cbn [andb]. rewrite hits_attr. destruct (names n (snd ev)); [|destruct i; [destruct l|]; reflexivity]. destruct i; [|reflexivity]. reflexivity.
  - assert (E : step_at (mkEdge SOpen f m) d ev = false).
    { unfold step_at. cbn [e_follow e_op e_name]. destruct (kind_of (fst ev)) eqn:K1; try contradiction; cbn [sees]; rewrite andb_false_r; reflexivity. }
    destruct r; cbn [tag_expr tag_edges map app x_edges fst snd textra]; rewrite E; reflexivity.
Qed.

Lemma tag_extra r steps d ev l i : kind_of (fst ev) <> KOpen -> no_header (ev :: l) = true ->
  match otrail (repeat None d) (ev :: l) (S i) with
  | Some tr => ((if tfac r l i then oways steps (tdeep r) tr else 0) + textra r steps d ev l i = if tfac r (ev :: l) (S i) then oways steps (tdeep r) tr else 0)%nat
  | None => textra r steps d ev l i = 0%nat
  end.
Proof.
  intros K Hh. destruct r as [|deep|deep|n].
  1-3: unfold textra, tfac; change (kind_at (ev :: l) (S i)) with (kind_at l i); destruct (otrail _ _ _); [apply Nat.add_0_r|reflexivity].
  destruct i as [|i].
  2:{ assert (Ex : textra (TAttr n) steps d ev l (S i) = O) by (unfold textra; destruct steps, d; reflexivity). rewrite Ex. destruct (otrail _ _ _); [|reflexivity]. rewrite Nat.add_0_r. reflexivity. }
  assert (Ef : tfac (TAttr n) l 0 = false) by (unfold tfac; destruct (kind_at l 0); reflexivity). rewrite Ef, Nat.add_0_l.
  assert (Eg : tfac (TAttr n) (ev :: l) 1 = match kind_at l 0 with KValue => match kind_of (fst ev) with KName => names n (snd ev) | _ => false end | _ => false end) by reflexivity.
  rewrite Eg. cbn [otrail]. destruct (kind_of (fst ev)) eqn:K1; try contradiction; cbn [textra];
    try (destruct (otrail (repeat None d) l 0); [unfold textra; destruct (kind_at l 0); destruct steps, d; rewrite ?K1; reflexivity|unfold textra; destruct steps, d; rewrite ?K1; reflexivity]).
  - destruct l as [|ev2 l]; cbn [otrail kind_at nth_error]; [unfold textra; destruct steps, d; rewrite ?K1; reflexivity|]. unfold textra. rewrite K1. change (kind_at (ev2 :: l) 0) with (kind_of (fst ev2)).
    destruct (kind_of (fst ev2)) eqn:K2; try (destruct steps, d; destruct (names n (snd ev)); reflexivity).
    rewrite oways_repeat. unfold tdeep, near. cbn [orb]. destruct steps; [|destruct (names n (snd ev)); reflexivity]. destruct d; destruct (names n (snd ev)); reflexivity.
  - destruct (repeat None d); [unfold textra; destruct steps, d; rewrite ?K1; reflexivity|]. destruct (otrail _ l 0); unfold textra; destruct (kind_at l 0); destruct steps, d; rewrite ?K1; reflexivity.
Qed.

Theorem tag_hits steps r t evs i p : no_header evs = true -> ordered p 0 evs = true -> (i < length evs)%nat ->
  hits (tag_expr steps r t) 0 evs i = matching steps r evs i.
Proof.
  intros Hh Ho Hi.
  rewrite (hits_ways (fun steps => tag_expr steps r t) (tdeep r) (tfac r) (fun evs => no_header evs = true) (textra r)).
  - cbn [repeat]. pose proof (otrail_some evs i p [] Ho) as E. cbn [map] in E. rewrite E, matching_tfac, oways_some. reflexivity.
  - apply no_header_tl.
  - intros. apply tag_now. assumption.
  - intros. apply tag_open. assumption.
  - intros. apply tag_other; assumption.
  - intros ev l j K. unfold tfac. change (kind_at (ev :: l) (S j)) with (kind_at l j). destruct r; try reflexivity. destruct (kind_at l j) eqn:E; try reflexivity.
    destruct j; [|reflexivity]. change (kind_at (ev :: l) 0) with (kind_of (fst ev)). rewrite K. reflexivity.
  - intros. apply tag_extra; assumption.
  - exact Hh.
  - exact Hi.
Qed.
