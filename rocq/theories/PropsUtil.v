(** Properties of the static buffer, the tag stack and the exceptions: C33-C35. *)
From Verif Require Import Base StaticBuffer TagStack Except BufProofs.
Ltac Zify.zify_post_hook ::= Z.div_mod_to_equations.

(** ** C33: static buffer *)
Inductive sbop := OpPush (c : N) | OpAppend (l : list N) | OpResize (n c : N) | OpClear.
Definition sb_do (op : sbop) (b : sbuf) : out sbuf unit :=
  match op with
  | OpPush c => sb_push c b
  | OpAppend l => sb_append l b
  | OpResize n c => sb_resize n c b
  | OpClear => Ret (sb_clear b) tt
  end.
Fixpoint sb_run (ops : list sbop) (b : sbuf) : out sbuf unit :=
  match ops with
  | [] => Ret b tt
  | op :: ops' => let! (b1, u) := sb_do op b in sb_run ops' b1
  end.

(** specification: a list of bytes that is cut to the capacity, and whether something was dropped by push_back or append *)
Definition spec_do (cap : N) (op : sbop) (st : list N * bool) : list N * bool :=
  let (l, dropped) := st in
  match op with
  | OpPush c => (firstn (N.to_nat cap) (l ++ [c]), dropped || (cap <? N.of_nat (length l + 1)))
  | OpAppend cc => (firstn (N.to_nat cap) (l ++ cc), dropped || (cap <? N.of_nat (length l + length cc)))
  | OpResize n c => (firstn (N.to_nat cap) (firstn (N.to_nat n) (l ++ repeat c (N.to_nat n - length l))), dropped)
  | OpClear => ([], false)
  end.
Definition spec_run (cap : N) (ops : list sbop) (st : list N * bool) : list N * bool := fold_left (fun st op => spec_do cap op st) ops st.
(** strings are shorter than half of the address space *)
Definition op_ok (op : sbop) : Prop := match op with OpAppend l => N.of_nat (length l) < 2 ^ 63 | _ => True end.

Lemma sb_do_is : forall cap op l o b, cap < 2 ^ 63 -> op_ok op -> sb_is cap l o b ->
  exists b', sb_do op b = Ret b' tt /\ sb_is cap (fst (spec_do cap op (l, o))) (snd (spec_do cap op (l, o))) b'.
Proof.
  intros cap op l o b Hc Ho Hb. assert (Hl : (length l <= N.to_nat cap)%nat) by (destruct Hb as (H1 & H2 & H3 & H4 & _); lia).
  destruct op as [c|cc|n c|]; cbn [sb_do spec_do fst snd op_ok] in *.
  - assert (Hc' : cap < 2 ^ 64) by lia. destruct (sb_push_is cap l o b c Hc' Hb) as [b' [E [H _]]]. exists b'. split; [exact E|].
    destruct (_ <? _) eqn:E2.
    + replace (_ <? _) with false by lia. rewrite orb_false_r. rewrite firstn_all2 by (rewrite app_length; cbn [length]; lia). exact H.
    + replace (cap <? _) with true by lia. rewrite orb_true_r. rewrite firstn_app, (firstn_all2 l) by lia.
      replace (N.to_nat cap - length l)%nat with 0%nat by lia. cbn [firstn]. rewrite app_nil_r. exact H.
  - destruct (sb_append_is cap l o b cc Hc Ho Hb) as [b' [E H]]. exists b'. split; [exact E|]. rewrite firstn_app, (firstn_all2 l) by lia. exact H.
  - assert (Hc' : cap < 2 ^ 64) by lia. destruct (sb_resize_is cap l o b n c Hc' Hb) as [b' [E H]]. exists b'. split; [exact E|].
    replace (firstn (N.to_nat cap) (firstn (N.to_nat n) (l ++ repeat c (N.to_nat n - length l))))
      with (firstn (N.to_nat n) l ++ repeat c (Nat.min (N.to_nat n) (N.to_nat cap) - length l)); [exact H|].
    rewrite firstn_firstn, firstn_app. destruct (Nat.le_gt_cases (N.to_nat n) (N.to_nat cap)).
    + replace (Nat.min (N.to_nat cap) (N.to_nat n)) with (N.to_nat n) by lia. replace (Nat.min (N.to_nat n) (N.to_nat cap)) with (N.to_nat n) by lia. f_equal. symmetry. apply firstn_all2. rewrite repeat_length. lia.
    + replace (Nat.min (N.to_nat cap) (N.to_nat n)) with (N.to_nat cap) by lia. replace (Nat.min (N.to_nat n) (N.to_nat cap)) with (N.to_nat cap) by lia. rewrite !(firstn_all2 l) by lia. f_equal.
      replace (N.to_nat n - length l)%nat with ((N.to_nat cap - length l) + (N.to_nat n - N.to_nat cap))%nat by lia.
      rewrite repeat_app, firstn_app, repeat_length, Nat.sub_diag, firstn_all2 by (rewrite repeat_length; lia). cbn [firstn]. rewrite app_nil_r. reflexivity.
  - exists (sb_clear b). split; [reflexivity|]. destruct Hb as (H1 & H2 & H3 & H4 & H5 & H6). unfold sb_is, sb_clear, sb_content.
    cbn [sb_size sb_mem sb_pos sb_over length N.to_nat firstn]. repeat split; auto; lia.
Qed.
Lemma sb_run_is : forall cap ops l o b, cap < 2 ^ 63 -> Forall op_ok ops -> sb_is cap l o b ->
  exists b', sb_run ops b = Ret b' tt /\ sb_is cap (fst (spec_run cap ops (l, o))) (snd (spec_run cap ops (l, o))) b'.
Proof.
  intros cap ops. induction ops as [|op ops IH]; intros l o b Hc Ho Hb; [exists b; auto|]. inversion Ho as [|? ? H1 H2]; subst.
  destruct (sb_do_is cap op l o b Hc H1 Hb) as [b1 [E1 Hb1]]. cbn [sb_run]. rewrite E1. cbn [bind].
  unfold spec_run. cbn [fold_left]. destruct (spec_do cap op (l, o)) as [l1 o1]. apply IH; auto.
Qed.

(** any history of operations, on a buffer allocated or on memory supplied with a content already there *)
Theorem C33_history : forall cap ops, cap < 2 ^ 63 -> Forall op_ok ops ->
  exists b, sb_run ops (sb_new cap) = Ret b tt /\
    sb_content b = fst (spec_run cap ops ([], false)) /\ sb_getSize b = N.of_nat (length (sb_content b)) /\ sb_overflow b = snd (spec_run cap ops ([], false)).
Proof.
  intros cap ops Hc Ho. destruct (sb_run_is cap ops [] false (sb_new cap) Hc Ho (sb_new_is cap)) as [b [E (H1 & H2 & H3 & H4 & H5 & H6)]].
  exists b. rewrite H5. auto.
Qed.
Print Assumptions C33_history.
Theorem C33_history_supplied : forall mem n i ops, n < 2 ^ 63 -> i <= n -> n <= N.of_nat (length mem) -> Forall op_ok ops ->
  exists b, sb_run ops (sb_of mem n i) = Ret b tt /\ let st := spec_run n ops (firstn (N.to_nat i) mem, false) in
    sb_content b = fst st /\ sb_getSize b = N.of_nat (length (sb_content b)) /\ sb_overflow b = snd st.
Proof.
  intros mem n i ops Hc Hi Hn Ho.
  assert (Hb : sb_is n (firstn (N.to_nat i) mem) false (sb_of mem n i)).
  { unfold sb_is, sb_of, sb_content. cbn [sb_size sb_mem sb_pos sb_over]. rewrite firstn_length. repeat split; lia. }
  destruct (sb_run_is n ops _ false _ Hc Ho Hb) as [b [E (H1 & H2 & H3 & H4 & H5 & H6)]].
  exists b. cbv zeta. rewrite H5. auto.
Qed.
Print Assumptions C33_history_supplied.

(** the bytes passed to push_back and append *)
Definition op_bytes (op : sbop) : list N := match op with OpPush c => [c] | OpAppend l => l | _ => [] end.
Definition op_writes (op : sbop) : Prop := match op with OpPush _ | OpAppend _ => True | _ => False end.

Theorem C33_first_bytes : forall cap ops, cap < 2 ^ 63 -> Forall op_ok ops -> Forall op_writes ops ->
  let bytes := flat_map op_bytes ops in
  exists b, sb_run ops (sb_new cap) = Ret b tt /\ sb_content b = firstn (N.to_nat cap) bytes /\
    (sb_overflow b = true <-> cap < N.of_nat (length bytes)).
Proof.
  intros cap ops Hc Ho Hw. cbv zeta. destruct (C33_history cap ops Hc Ho) as [b [E [H1 [_ H2]]]]. exists b. split; [exact E|].
  assert (G : forall ops l, Forall op_writes ops -> forall o, (o = true <-> cap < N.of_nat (length l)) ->
     let st := spec_run cap ops (firstn (N.to_nat cap) l, o) in
     fst st = firstn (N.to_nat cap) (l ++ flat_map op_bytes ops) /\ (snd st = true <-> cap < N.of_nat (length (l ++ flat_map op_bytes ops)))).
  { clear. induction ops as [|op ops IH]; intros l Hw o Ho; cbv zeta.
    - cbn [spec_run fold_left flat_map fst snd]. rewrite app_nil_r. auto.
    - inversion Hw as [|? ? W1 W2]; subst. unfold spec_run. cbn [fold_left flat_map].
      assert (Es : exists o', spec_do cap op (firstn (N.to_nat cap) l, o) = (firstn (N.to_nat cap) (l ++ op_bytes op), o') /\ (o' = true <-> cap < N.of_nat (length (l ++ op_bytes op)))).
      { assert (F : forall x, firstn (N.to_nat cap) (firstn (N.to_nat cap) l ++ x) = firstn (N.to_nat cap) (l ++ x)).
        { intros x. destruct (Nat.le_ge_cases (length l) (N.to_nat cap)); [rewrite (firstn_all2 l) by lia; reflexivity|].
          rewrite !firstn_app, firstn_firstn, firstn_length, Nat.min_id. replace (N.to_nat cap - length l)%nat with 0%nat by lia.
          replace (N.to_nat cap - Nat.min (N.to_nat cap) (length l))%nat with 0%nat by lia. reflexivity. }
        destruct op as [c|cc|n c|]; cbn [op_writes] in W1; try contradiction; cbn [spec_do op_bytes]; rewrite F; eexists; (split; [reflexivity|]);
          rewrite orb_true_iff, Ho, firstn_length, app_length; cbn [length]; lia. }
      destruct Es as [o' [-> Ho']]. rewrite app_assoc. exact (IH (l ++ op_bytes op) W2 o' Ho'). }
  specialize (G ops [] Hw false). rewrite firstn_nil in G. destruct G as [G1 G2]; [cbn; split; [discriminate|lia]|].
  rewrite H1, G1. split; [reflexivity|]. unfold sb_overflow in *. rewrite H2. exact G2.
Qed.
Print Assumptions C33_first_bytes.

Example C33_case : let ops := [OpPush 7; OpAppend [1; 2; 3]; OpPush 8] in
  Forall op_ok ops /\ Forall op_writes ops /\ spec_run 4 (ops ++ [OpResize 2 0; OpResize 9 5]) ([], false) = ([7; 1; 5; 5], true) /\
  spec_run 4 [OpResize 9 5] ([], false) = ([5; 5; 5; 5], false) /\ spec_run 4 [OpPush 7; OpAppend [1; 2; 3]] ([], false) = ([7; 1; 2; 3], false).
Proof. repeat split; try (repeat constructor; fail); vm_compute; reflexivity. Qed.

(** reading: elements of the content are delivered, an index behind size() throws; the index size() is not checked *)
Theorem C33_at_partial : forall cap ops, cap < 2 ^ 63 -> Forall op_ok ops -> exists b, sb_run ops (sb_new cap) = Ret b tt /\
  forall i, (i < sb_getSize b -> sb_at i b = Ret b (nth (N.to_nat i) (sb_content b) 0)) /\ (sb_getSize b < i -> sb_at i b = Throw b) /\
    (sb_getSize b < cap -> sb_at i b <> Undef).
Proof.
  intros cap ops Hc Ho. destruct (sb_run_is cap ops [] false (sb_new cap) Hc Ho (sb_new_is cap)) as [b [E (H1 & H2 & H3 & H4 & H5 & H6)]].
  exists b. split; [exact E|]. intros i. unfold sb_at, sb_getSize, sb_content in *. repeat split.
  - intros Hi. replace (sb_pos b <? i) with false by lia. destruct (nth_error (sb_mem b) (N.to_nat i)) as [c|] eqn:En; [|apply nth_error_None in En; lia].
    f_equal. rewrite <- (firstn_skipn (N.to_nat (sb_pos b)) (sb_mem b)) in En. rewrite nth_error_app1 in En by (rewrite firstn_length; lia).
    symmetry. apply nth_error_nth. exact En.
  - intros Hi. replace (sb_pos b <? i) with true by lia. reflexivity.
  - intros Hs. destruct (sb_pos b <? i) eqn:Ei; [discriminate|]. destruct (nth_error (sb_mem b) (N.to_nat i)) as [c|] eqn:En; [discriminate|]. apply nth_error_None in En. lia.
Qed.
Print Assumptions C33_at_partial.
(** a full buffer is read and written behind its end; resize behind the capacity is not reported *)
Theorem C33_refuted :
  (exists b, sb_run [OpPush 7; OpPush 8] (sb_new 2) = Ret b tt /\ sb_at 2 b = Undef /\ sb_put 2 0 b = Undef) /\
  (exists b, sb_run [OpResize 3 1] (sb_new 2) = Ret b tt /\ sb_content b = [1; 1] /\ sb_overflow b = false).
Proof. split; eexists; (split; [vm_compute; reflexivity|]); split; vm_compute; reflexivity. Qed.
Print Assumptions C33_refuted.

(** ** C34: tag stack *)
Inductive tgop := TPush (s : list N) | TPop | TTop | TEmpty | TClear | TCopy.
Inductive tgres := RUnit | RTop (s : option (list N)) | REmpty (b : bool).
(** TCopy goes on with a copy of the stack *)
Definition tg_do (op : tgop) (t : tagstack) : out tagstack tgres :=
  match op with
  | TPush s => let! (t1, u) := tg_push s t in Ret t1 RUnit
  | TPop => let! (t1, u) := tg_pop t in Ret t1 RUnit
  | TTop => let! (t1, r) := tg_top t in Ret t1 (RTop r)
  | TEmpty => Ret t (REmpty (tg_empty t))
  | TClear => Ret (tg_clear t) RUnit
  | TCopy => let! (t1, c) := tg_copy t in Ret c RUnit
  end.
Fixpoint tg_run (ops : list tgop) (t : tagstack) : out tagstack (list tgres) :=
  match ops with
  | [] => Ret t []
  | op :: ops' => let! (t1, r) := tg_do op t in let! (t2, rs) := tg_run ops' t1 in Ret t2 (r :: rs)
  end.
(** specification: a list of strings *)
Definition stack_do (op : tgop) (st : list (list N)) : list (list N) * tgres :=
  match op with
  | TPush s => (s :: st, RUnit)
  | TPop => (tl st, RUnit)
  | TTop => (st, RTop (hd_error st))
  | TEmpty => (st, REmpty (match st with [] => true | _ => false end))
  | TClear => ([], RUnit)
  | TCopy => (st, RUnit)
  end.
Fixpoint stack_run (ops : list tgop) (st : list (list N)) : list tgres :=
  match ops with
  | [] => []
  | op :: ops' => snd (stack_do op st) :: stack_run ops' (fst (stack_do op st))
  end.
(** bytes needed at most *)
Definition bytes_pushed (ops : list tgop) : nat := list_sum (map (fun op => match op with TPush s => length s + 16 | _ => 0 end)%nat ops).

Theorem C34_stack_of_strings : forall ops, N.of_nat (bytes_pushed ops) <= 2 ^ 62 ->
  exists t, tg_run ops tg_new = Ret t (stack_run ops []).
Proof.
  assert (G : forall ops st t, tg_is st t -> N.of_nat (list_sum (map entry_size st)) + N.of_nat (bytes_pushed ops) <= 2 ^ 62 ->
    exists t', tg_run ops t = Ret t' (stack_run ops st)).
  { induction ops as [|op ops IH]; intros st t Ht Hb; [exists t; reflexivity|]. cbn [tg_run stack_run].
    assert (Hbo : bytes_pushed (op :: ops) = (match op with TPush s => length s + 16 | _ => 0 end + bytes_pushed ops)%nat) by reflexivity.
    rewrite Hbo in Hb.
    assert (D : exists t1, tg_do op t = Ret t1 (snd (stack_do op st)) /\ tg_is (fst (stack_do op st)) t1 /\
        N.of_nat (list_sum (map entry_size (fst (stack_do op st)))) + N.of_nat (bytes_pushed ops) <= 2 ^ 62).
    { destruct op as [s| | | | |]; cbn [tg_do stack_do fst snd].
      - pose proof (entry_size_bounds s) as He. destruct (tg_push_is st t s Ht) as [t1 [E H]].
        + cbn [map list_sum fold_right]. fold (list_sum (map entry_size st)). lia.
        + exists t1. rewrite E. cbn [bind]. split; [reflexivity|]. split; [exact H|]. cbn [map list_sum fold_right]. fold (list_sum (map entry_size st)). lia.
      - destruct (tg_pop_is st t Ht) as [t1 [E H]]; [lia|]. exists t1. rewrite E. cbn [bind]. split; [reflexivity|]. split; [exact H|].
        destruct st as [|s st]; cbn [tl map list_sum fold_right] in *; lia.
      - rewrite (tg_top_is st t Ht) by lia. exists t. cbn [bind]. repeat split; try apply Ht; try lia.
      - exists t. rewrite (tg_empty_is st t Ht). repeat split; try apply Ht; try lia.
      - exists (tg_clear t). split; [reflexivity|]. split; [eapply tg_clear_is; exact Ht|]. cbn [map list_sum fold_right]. lia.
      - destruct (tg_copy_is st t Ht) as [t1 [E H]]. exists t1. rewrite E. cbn [bind]. split; [reflexivity|]. split; [exact H|]. lia. }
    destruct D as [t1 [E [H1 H2]]]. rewrite E. cbn [bind]. destruct (IH _ t1 H1 H2) as [t2 E2]. rewrite E2. cbn [bind]. exists t2. reflexivity. }
  intros ops H. apply (G ops [] tg_new tg_new_is). cbn [map list_sum fold_right]. lia.
Qed.
Print Assumptions C34_stack_of_strings.

Example C34_case : let ops := [TEmpty; TPush (str "aaaaaaaab"); TPush []; TPush (repeat 7 300); TTop; TCopy; TTop; TPop; TTop; TPop; TTop; TPop; TTop; TPop; TEmpty] in
  N.of_nat (bytes_pushed ops) <= 2 ^ 62 /\
  stack_run ops [] = [REmpty true; RUnit; RUnit; RUnit; RTop (Some (repeat 7 300)); RUnit; RTop (Some (repeat 7 300)); RUnit; RTop (Some []); RUnit;
    RTop (Some (str "aaaaaaaab")); RUnit; RTop None; RUnit; REmpty true].
Proof. split; [vm_compute; discriminate|reflexivity]. Qed.

(** ** C35: names of exceptions *)
Definition cause_name (c : cause) : list N :=
  match c with
  | Unknown => str "Unknown" | DimOutOfRange => str "DimOutOfRange" | StateNumbersNotAscending => str "StateNumbersNotAscending"
  | InvalidParamState => str "InvalidParamState" | InvalidParamChar => str "InvalidParamChar"
  | DuplicateStateTransition => str "DuplicateStateTransition" | InvalidState => str "InvalidState" | IllegalParam => str "IllegalParam"
  | IllegalAttributeName => str "IllegalAttributeName" | OutOfMem => str "OutOfMem" | ArrayBoundsReadWrite => str "ArrayBoundsReadWrite"
  | NotAllowedOperation => str "NotAllowedOperation" | FileReadError => str "FileReadError" | IllegalXmlHeader => str "IllegalXmlHeader"
  | InvalidTagOffset => str "InvalidTagOffset" | CorruptTagStack => str "CorruptTagStack" | CodePageIndexNotSupported => str "CodePageIndexNotSupported"
  end.

(** no cause leaves the table; the name is right exactly for the causes before NotAllowedOperation; only the last cause has none *)
Theorem C35_names_partial : forall c, exists r, what c = Some r /\
  (r = Some (cause_name c) <-> (cause_idx c < cause_idx NotAllowedOperation)%nat) /\ (r = None <-> c = CodePageIndexNotSupported).
Proof.
  intros c. destruct c; eexists; (split; [vm_compute; reflexivity|]); split; split; intros H; try discriminate H; try reflexivity; try (vm_compute in H; discriminate H);
    try (exfalso; cbn in H; lia); cbn; lia.
Qed.
Print Assumptions C35_names_partial.
Theorem C35_refuted : what NotAllowedOperation = Some (Some (str "NotAllowedOperationFileReadError")) /\ what FileReadError = Some (Some (cause_name IllegalXmlHeader)) /\
  what IllegalXmlHeader = Some (Some (cause_name InvalidTagOffset)) /\ what InvalidTagOffset = Some (Some (cause_name CorruptTagStack)) /\
  what CorruptTagStack = Some (Some (cause_name CodePageIndexNotSupported)) /\ what CodePageIndexNotSupported = Some None.
Proof. repeat split; vm_compute; reflexivity. Qed.
Print Assumptions C35_refuted.
