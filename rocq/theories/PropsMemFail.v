(** * C99: the memory of buffers, tag stacks and stream iterators when allocations fail *)
From Coq Require Import Lia.
From Verif Require Import Base Iter StaticBuffer TagStack TagAlloc Memory MemSpec MemProofs PropsMemory MemFail MemFailSpec MemFailProof.

(** ** Every history without assignment and without a push on a stack on which a push has failed is defined. A call that does not get its memory throws; the objects are as before, and no block is lost *)
Theorem C99_history_partial : forall l, allowed [] [] l ->
  exists h V B r n, mf_calls l h_new = Ret h r /\ steps [] [] l V B r n /\ allocated h = (owners V + n)%nat /\ lent h = length (filter lends (map snd l)).
Proof.
  intros l A. assert (W : Wide [] h_new h_new) by (split; [reflexivity|reflexivity|intro k; left; reflexivity]).
  destruct (mf_run l [] h_new h_new [] 0 0 rel_new W A) as (h & h0 & V & B & r & n & H1 & H2 & H3 & H4). exists h, V, B, r, n. split; [exact H1|]. split; [exact H2|].
  unfold allocated, lent. rewrite (wd_blks _ _ _ H3). split; [exact (rl_heap _ _ _ _ H4)|exact (rl_lent _ _ _ _ H4)].
Qed.
Print Assumptions C99_history_partial.
(** ** All memory is freed when all objects are destroyed, no buffer is on memory of the caller and no first read fails, whatever allocations fail *)
Lemma create_spec c V V' a n : call_spec c V = Some (V', a, n) -> (forall k v, value V k = Some v -> owns v = true) -> forall k v, value (V ++ [None]) k = Some v -> owns v = true.
Proof.
  intros _ H k v Hv. apply value_some in Hv. destruct (Nat.lt_ge_cases k (length V)) as [K|K]; [rewrite nth_error_app1 in Hv by exact K; apply (H k); unfold value; rewrite Hv; reflexivity|].
  rewrite nth_error_app2 in Hv by exact K. destruct (k - length V)%nat as [|[|?]]; cbn in Hv; congruence.
Qed.
Lemma steps_lose V B l V' B' r n : steps V B l V' B' r n -> forallb (fun x => negb (may_lose (snd x))) l = true -> (forall k v, value V k = Some v -> owns v = true) -> n = 0%nat.
Proof.
  induction 1 as [V B|V B g c l V1 B1 a n V2 B2 r m S SS IH]; intros F O; [reflexivity|]. cbn [forallb snd] in F. apply andb_true_iff in F. destruct F as [F1 F2]. apply negb_true_iff in F1.
  destruct S as [g c V' a n E HG NP|c V' a n E HC|k s st V' a n E EV SP HB].
  - destruct (own_kept c V V' a n O F1 E) as [-> O1]. rewrite (IH F2 O1). reflexivity.
  - rewrite (IH F2 (create_spec _ _ _ _ _ E O)). reflexivity.
  - rewrite (IH F2 O). reflexivity.
Qed.
Theorem C99_all_freed : forall l, allowed [] [] l -> forallb (fun x => negb (may_lose (snd x))) l = true -> (forall V B r n, steps [] [] l V B r n -> forall k, value V k = None) ->
  exists h r, mf_calls l h_new = Ret h r /\ allocated h = 0%nat.
Proof.
  intros l A F D. destruct (C99_history_partial l A) as (h & V & B & r & n & H1 & H2 & H3 & _). exists h, r. split; [exact H1|].
  rewrite (steps_lose _ _ _ _ _ _ _ H2 F) in H3 by (intros [|k] v X; discriminate X). specialize (D _ _ _ _ H2). assert (W : owners V = 0%nat); [|lia].
  rewrite owners_filter. clear -D. induction V as [|v V IH]; [reflexivity|]. pose proof (D 0%nat) as D0. cbn in D0. subst v. cbn. apply IH. intro k. apply (D (S k)).
Qed.
Print Assumptions C99_all_freed.
(** ** If no allocation fails, it is the model of C66 *)
Theorem C99_enough : forall l h, forallb fst l = true -> mf_calls l h = mem_calls (map snd l) h.
Proof.
  induction l as [|[g c] l IH]; intros h F; [reflexivity|]. cbn [forallb fst] in F. apply andb_true_iff in F. destruct F as [F1 F2]. cbn [mf_calls map snd mem_calls]. rewrite F1. cbn [mf_call].
  destruct (mem_call c h) as [h1 a| | | |]; cbn [bind]; try reflexivity. rewrite (IH _ F2). reflexivity.
Qed.
Print Assumptions C99_enough.
(** ** Refuted with a push behind a failed one: it writes behind the memory of the stack *)
Theorem C99_push_refuted : exists l, (forall k, In k l -> snd k = MNewStack \/ exists s, snd k = MStack 0 (KPush s)) /\ mf_calls l h_new = Undef.
Proof.
  exists [(true, MNewStack); (false, MStack 0 (KPush (repeat 7 300))); (true, MStack 0 (KPush (repeat 7 300)))]. split; [|vm_compute; reflexivity].
  intros k [<-|[<-|[<-|[]]]]; [left; reflexivity|right; eexists; reflexivity..].
Qed.
Print Assumptions C99_push_refuted.

(** ** Cases *)
Ltac step_one := first
  [ eapply st_call; [vm_compute; reflexivity|first [left; reflexivity|right; reflexivity]|intros ? ? X; first [discriminate X|injection X as <- _; cbn; intuition discriminate]]
  | eapply st_create; [vm_compute; reflexivity|reflexivity] ].
Ltac all_steps := intros ? ? ? ? S; inversion S as [g0 c0 V0 a0 n0 X1 X2 X3|c0 V0 a0 n0 X1 X2|k0 s0 st0 V0 a0 n0 X1 X4 X5 X2]; subst; clear S; vm_compute in X1; try discriminate X1; try discriminate X2; try (destruct X2 as [X2|X2]; discriminate X2); try (injection X1 as <- <- <-); try clear X3; try clear X2; try clear X4; try clear X5; try clear st0.
Definition ex_fail : list (bool * mcall) :=
  [(true, MNewBuf 2); (false, MNewStack); (true, MNewStack); (false, MStack 2 (KPush (repeat 7 300))); (true, MCopy 2); (true, MStack 3 (KPush (str "ab"))); (false, MCopy 0); (false, MNewIter 2 (mkRd [1] false));
   (true, MStack 2 KTop); (true, MDestroy 0); (true, MDestroy 2); (true, MDestroy 3)].
Example C99_case : allowed [] [] ex_fail /\ forallb (fun x => negb (may_lose (snd x))) ex_fail = true /\ exists h r, mf_calls ex_fail h_new = Ret h r /\ allocated h = 0%nat /\
  r = [ADone; AThrown; ADone; AThrown; ADone; ADone; AThrown; AThrown; ABytes None; ADone; ADone; ADone].
Proof.
  split; [|split; [reflexivity|do 2 eexists; split; [vm_compute; reflexivity|split; reflexivity]]]. unfold ex_fail.
  repeat (apply al_cons; [do 4 eexists; step_one|all_steps]); apply al_nil.
Qed.
Definition ex_freed : list (bool * mcall) := [(false, MNewStack); (true, MNewStack); (false, MCopy 1); (false, MStack 1 (KPush (repeat 7 300))); (true, MDestroy 1)].
Example C99_all_freed_case : allowed [] [] ex_freed /\ forallb (fun x => negb (may_lose (snd x))) ex_freed = true /\ (forall V B r n, steps [] [] ex_freed V B r n -> forall k, value V k = None).
Proof.
  split; [unfold ex_freed; repeat (apply al_cons; [do 4 eexists; step_one|all_steps]); apply al_nil|]. split; [reflexivity|]. unfold ex_freed. intros V B r n SS i.
  repeat (match goal with H : steps _ _ (_ :: _) _ _ _ _ |- _ => inversion H; subst; clear H end;
    match goal with H : step _ _ _ _ _ _ _ _ |- _ => inversion H; subst; clear H end;
    try match goal with X : _ = true \/ _ |- _ => destruct X; discriminate end; try discriminate;
    match goal with X : call_spec _ _ = Some _ |- _ => vm_compute in X; first [discriminate X|injection X; clear X; intros; subst] end).
  all: match goal with H : steps _ _ [] _ _ _ _ |- _ => inversion H; subst; clear H end; destruct i as [|[|[|kk]]]; [reflexivity..|destruct kk; reflexivity].
Qed.
