(** The end of comments and CDATA sections (lemmas on the specification). *)
From Verif Require Import Base Iter CharMap CodePages Charset DocSpec.

(** the section is open after [n] times [d] and ends with [l] *)
Fixpoint sectb (d : N) (good : nat -> bool) (n : nat) (l : list N) : bool :=
  match l with
  | [] => false
  | x :: r =>
      if x =? d then sectb d good (S n) r
      else if (x =? 62) && good n then match r with [] => true | _ => false end
      else sectb d good 0 r
  end.
(** the section is open after [l] *)
Fixpoint openb (d : N) (good : nat -> bool) (n : nat) (l : list N) : bool :=
  match l with
  | [] => true
  | x :: r => if x =? d then openb d good (S n) r else if (x =? 62) && good n then false else openb d good 0 r
  end.

Lemma run_unique : forall d p p' n n', not_last d p -> not_last d p' -> p ++ repeat d n = p' ++ repeat d n' -> n = n'.
Proof.
  intros d p p' n. induction n as [|n IH]; intros n' H H' E.
  - destruct n' as [|n']; [reflexivity|]. exfalso. cbn [repeat] in E. rewrite app_nil_r in E. rewrite repeat_cons in E. rewrite app_assoc in E. apply (H _ E).
  - destruct n' as [|n'].
    + exfalso. cbn [repeat] in E. rewrite app_nil_r in E. rewrite repeat_cons in E. rewrite app_assoc in E. apply (H' _ (eq_sym E)).
    + cbn [repeat] in E. rewrite !repeat_cons, !app_assoc in E. apply app_inj_tail in E. f_equal. apply IH; [exact H|exact H'|apply E].
Qed.

Section Sect.
Variable d : N.
Variable good : nat -> bool.
Hypothesis Hd : d <> 62.

Lemma closes_gt : forall p n, not_last d p -> closes d good (p ++ repeat d n ++ [62]) <-> good n = true.
Proof.
  intros p n H. split.
  - intros [p' [n' [E [H' G]]]]. rewrite !app_assoc in E. apply app_inj_tail in E. destruct E as [E _]. rewrite (run_unique _ _ _ _ _ H H' E). exact G.
  - intros G. exists p, n. auto.
Qed.
Lemma closes_other : forall p x, x <> 62 -> ~ closes d good (p ++ [x]).
Proof. intros p x H [p' [n [E _]]]. rewrite app_assoc in E. apply app_inj_tail in E. destruct E as [_ E]. congruence. Qed.
Lemma not_last_app : forall p x, x <> d -> not_last d (p ++ [x]).
Proof. intros p x H l' E. apply app_inj_tail in E. destruct E as [_ E]. congruence. Qed.

Lemma step_eq : forall p n x r, p ++ repeat d n ++ x :: r = (p ++ repeat d n ++ [x]) ++ r.
Proof. intros. rewrite <- !app_assoc. reflexivity. Qed.
Lemma step_d : forall p n r, p ++ repeat d n ++ d :: r = p ++ repeat d (S n) ++ r.
Proof. intros. rewrite step_eq. cbn [repeat]. rewrite repeat_cons. rewrite <- !app_assoc. reflexivity. Qed.

Lemma openb_ok : forall l p n, not_last d p ->
  (openb d good n l = true <-> forall x q r, l = (x :: q) ++ r -> ~ closes d good (p ++ repeat d n ++ x :: q)).
Proof.
  induction l as [|y l IH]; intros p n Hp; cbn [openb].
  - split; [|reflexivity]. intros _ x q r E. discriminate.
  - destruct (N.eqb_spec y d) as [->|Hy].
    + rewrite (IH p (S n) Hp). split; intros H.
      * intros x q r E. injection E as <- E. destruct q as [|x q]; [|rewrite step_d; apply (H x q r); exact E].
        rewrite app_assoc. apply closes_other. exact Hd.
      * intros x q r E. rewrite <- step_d. apply (H d (x :: q) r). cbn [app] in *. rewrite E. reflexivity.
    + destruct (N.eqb_spec y 62) as [->|Hy2]; cbn [andb].
      * destruct (good n) eqn:G.
        -- split; [discriminate|]. intros H. exfalso. apply (H 62 [] l eq_refl). apply closes_gt; assumption.
        -- rewrite (IH (p ++ repeat d n ++ [62]) 0%nat) by (rewrite app_assoc; apply not_last_app; exact Hy). cbn [repeat app]. split; intros H.
           ++ intros x q r E. injection E as <- E. destruct q as [|x q]; [intros C; apply closes_gt in C; [congruence|exact Hp]|].
              rewrite step_eq. apply (H x q r). exact E.
           ++ intros x q r E. rewrite <- step_eq. apply (H 62 (x :: q) r). cbn [app] in *. rewrite E. reflexivity.
      * rewrite (IH (p ++ repeat d n ++ [y]) 0%nat) by (rewrite app_assoc; apply not_last_app; exact Hy). cbn [repeat app]. split; intros H.
        -- intros x q r E. injection E as <- E. destruct q as [|x q]; [rewrite app_assoc; apply closes_other; exact Hy2|].
           rewrite step_eq. apply (H x q r). exact E.
        -- intros x q r E. rewrite <- step_eq. apply (H y (x :: q) r). cbn [app] in *. rewrite E. reflexivity.
Qed.

Lemma not_last_nil : not_last d [].
Proof. intros l' E. destruct l'; discriminate. Qed.
Lemma closes_nil : ~ closes d good [].
Proof. intros [p [n [E _]]]. destruct p; [|discriminate]. destruct n; discriminate. Qed.

Lemma never_closes_ok : forall l, openb d good 0 l = true <-> never_closes d good l.
Proof.
  intros l. rewrite (openb_ok l [] 0%nat not_last_nil). cbn [repeat app]. split; intros H.
  - intros [|x p] q E; [apply closes_nil|]. apply (H x p q). exact E.
  - intros x q r E. apply (H (x :: q) r). exact E.
Qed.

(** [sectb] is [openb] for all but the last character, which then closes *)
Lemma sectb_split : forall l n x, sectb d good n (l ++ [x]) = openb d good n l && negb (openb d good n (l ++ [x])).
Proof.
  induction l as [|y l IH]; intros n x; cbn [app sectb openb].
  - destruct (x =? d); [reflexivity|]. destruct ((x =? 62) && good n); reflexivity.
  - destruct (y =? d); [apply IH|]. destruct ((y =? 62) && good n); [destruct l; reflexivity|apply IH].
Qed.

Lemma openb_false : forall l p n, not_last d p -> openb d good n l = false -> exists q r, l = q ++ r /\ closes d good (p ++ repeat d n ++ q).
Proof.
  induction l as [|y l IH]; intros p n Hp H; cbn [openb] in H; [discriminate|].
  destruct (N.eqb_spec y d) as [->|Hy].
  - destruct (IH p (S n) Hp H) as [q [r [-> C]]]. exists (d :: q), r. split; [reflexivity|]. rewrite step_d. exact C.
  - assert (Hp' : not_last d (p ++ repeat d n ++ [y])) by (rewrite app_assoc; apply not_last_app; exact Hy).
    destruct ((y =? 62) && good n) eqn:G.
    + apply andb_prop in G. destruct G as [G1 G2]. apply N.eqb_eq in G1. subst y. exists [62], l. split; [reflexivity|]. apply closes_gt; assumption.
    + destruct (IH _ 0%nat Hp' H) as [q [r [-> C]]]. exists (y :: q), r. split; [reflexivity|]. rewrite step_eq. exact C.
Qed.

Lemma closes_first_ok : forall l, sectb d good 0 l = true <-> closes_first d good l.
Proof.
  intros l. destruct l as [|x l _] using rev_ind.
  { split; [discriminate|]. intros [H _]. destruct (closes_nil H). }
  rewrite sectb_split. rewrite Bool.andb_true_iff, Bool.negb_true_iff, never_closes_ok. unfold closes_first.
  assert (A : forall q r, l ++ [x] = q ++ r -> r <> [] -> exists r', l = q ++ r').
  { intros q r E Hr. destruct r as [|z r _] using rev_ind; [congruence|]. rewrite app_assoc in E. apply app_inj_tail in E. exists r. apply E. }
  split.
  - intros [H1 H2]. destruct (openb_false _ [] 0%nat not_last_nil H2) as [q [r [E C]]]. cbn [repeat app] in C. destruct r as [|z r].
    + rewrite app_nil_r in E. rewrite E. split; [exact C|]. rewrite <- E. intros p q' E' Hq'. destruct (A _ _ E' Hq') as [r' Er]. apply (H1 _ _ Er).
    + destruct (A _ _ E ltac:(discriminate)) as [r' Er]. destruct (H1 _ _ Er C).
  - intros [C H]. split.
    + intros p q E. apply (H p (q ++ [x])); [rewrite E, app_assoc; reflexivity|]. destruct q; discriminate.
    + destruct (openb d good 0 (l ++ [x])) eqn:O; [|reflexivity]. apply never_closes_ok in O. destruct (O (l ++ [x]) [] (eq_sym (app_nil_r _)) C).
Qed.
Lemma sectb_alternative : forall l n, openb d good n l = false -> exists p q, l = p ++ q /\ sectb d good n p = true.
Proof.
  induction l as [|x l IH]; intros n H; cbn [openb] in H; [discriminate|].
  destruct (x =? d) eqn:E1; [|destruct ((x =? 62) && good n) eqn:E2].
  - destruct (IH _ H) as [p [q [-> Hp]]]. exists (x :: p), q. split; [reflexivity|]. cbn [sectb]. rewrite E1. exact Hp.
  - exists [x], l. split; [reflexivity|]. cbn [sectb]. rewrite E1, E2. reflexivity.
  - destruct (IH _ H) as [p [q [-> Hp]]]. exists (x :: p), q. split; [reflexivity|]. cbn [sectb]. rewrite E1, E2. exact Hp.
Qed.
Lemma section_alternative : forall l, (exists p q, l = p ++ q /\ closes_first d good p) \/ never_closes d good l.
Proof.
  intros l. destruct (openb d good 0 l) eqn:E; [right; apply never_closes_ok; exact E|]. left.
  destruct (sectb_alternative l 0%nat E) as [p [q [-> H]]]. exists p, q. split; [reflexivity|]. apply closes_first_ok. exact H.
Qed.
End Sect.

Lemma comment_ok : forall l, sectb 45 comment_run 0 l = true <-> closes_first 45 comment_run l.
Proof. intros l. apply closes_first_ok. discriminate. Qed.
Lemma cdata_ok : forall l, sectb 93 cdata_run 0 l = true <-> closes_first 93 cdata_run l.
Proof. intros l. apply closes_first_ok. discriminate. Qed.
