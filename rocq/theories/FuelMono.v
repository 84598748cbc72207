(** More fuel does not change the result of the scanner (proofs). *)
From Verif Require Import Base Iter CharMap Charset TextScanner XmlScanner.

(** [y] is [x] unless [x] is out of fuel *)
Definition fle {S A} (x y : out S A) : Prop := x = Fuel \/ x = y.

Lemma fle_refl : forall {S A} (x : out S A), fle x x.
Proof. intros. right. reflexivity. Qed.
Lemma fle_trans : forall {S A} (x y z : out S A), fle x y -> fle y z -> fle x z.
Proof. intros S A x y z [->| ->] H; [left; reflexivity|exact H]. Qed.
Lemma fle_bind : forall {S A B} (x y : out S A) (f g : S -> A -> out S B),
  fle x y -> (forall s a, fle (f s a) (g s a)) -> fle (bind x f) (bind y g).
Proof.
  intros S A B x y f g [->| ->] H; [left; reflexivity|]. destruct y; cbn [bind]; try apply fle_refl. apply H.
Qed.
Lemma fle_eq : forall {S A} (x y z : out S A), fle x y -> x = z -> z <> Fuel -> y = z.
Proof. intros S A x y z [->| ->] H Hz; congruence. Qed.
Lemma fle_ret : forall {S A} (x y : out S A) s a, fle x y -> x = Ret s a -> y = Ret s a.
Proof. intros S A x y s a H E. eapply fle_eq; eauto. discriminate. Qed.

Section Mono.
Context {R : Type} (rops : readerops R) (cfg : config).
Hint Resolve fle_refl : fle.

Lemma mono_parseTokenLoop : forall f f' isTok s, (f <= f')%nat ->
  fle (parseTokenLoop rops cfg f isTok s) (parseTokenLoop rops cfg f' isTok s).
Proof.
  induction f as [|f IH]; intros f' isTok s H; [left; reflexivity|].
  destruct f' as [|f']; [lia|]. assert (Hf : (f <= f')%nat) by lia. cbn [parseTokenLoop].
  apply fle_bind; auto with fle. intros s1 c. destruct (isTokAt isTok c) as [[|]|]; auto with fle.
  - apply fle_bind; auto with fle. intros s2 u. apply fle_bind; auto with fle.
  - destruct (ctl_eqb c CAmp); auto with fle.
    apply fle_bind; auto with fle. intros s2 u. apply fle_bind; auto with fle.
    intros s3 ok. destruct ok; auto with fle.
Qed.

Lemma mono_parseToken : forall f f' isTok s, (f <= f')%nat ->
  fle (parseToken rops cfg f isTok s) (parseToken rops cfg f' isTok s).
Proof.
  intros f f' isTok s H. unfold parseToken.
  destruct (tk_id (sc_tok s)); try (apply mono_parseTokenLoop; exact H);
   (apply fle_bind; [apply fle_refl|]; intros s1 ok; destruct ok; [apply mono_parseTokenLoop; exact H|apply fle_refl]).
Qed.

Lemma mono_skipTokenLoop : forall f f' isTok s, (f <= f')%nat ->
  fle (skipTokenLoop rops f isTok s) (skipTokenLoop rops f' isTok s).
Proof.
  induction f as [|f IH]; intros f' isTok s H; [left; reflexivity|].
  destruct f' as [|f']; [lia|]. assert (Hf : (f <= f')%nat) by lia. cbn [skipTokenLoop].
  apply fle_bind; auto with fle. intros s1 c. destruct (isTokAt isTok c) as [b|]; auto with fle.
  destruct (b || ctl_eqb c CAmp).
  - apply fle_bind; auto with fle.
  - apply fle_bind; auto with fle. intros s2 c2. destruct (ctl_eqb c2 CAny); auto with fle.
Qed.

Lemma mono_doAction : forall f f' mask a arg s, (f <= f')%nat ->
  fle (doAction rops cfg f mask a arg s) (doAction rops cfg f' mask a arg s).
Proof.
  intros f f' mask a arg s H. unfold doAction. destruct (tokenDef a) as [isTok|]; auto with fle.
  assert (Hp : fle
     (let! (s1, ok) := (if N.testbit mask (etype_idx arg) then parseToken rops cfg f isTok s
                            else skipTokenLoop rops f isTok s) in
          if ok then Ret s1 (inl arg) else Ret s1 (inr tt))
     (let! (s1, ok) := (if N.testbit mask (etype_idx arg) then parseToken rops cfg f' isTok s
                            else skipTokenLoop rops f' isTok s) in
          if ok then Ret s1 (inl arg) else Ret s1 (inr tt : etype + unit))).
  { apply fle_bind; auto with fle.
    destruct (N.testbit mask (etype_idx arg)); [apply mono_parseToken|apply mono_skipTokenLoop]; exact H. }
  destruct (tk_id (sc_tok s)); auto with fle.
Qed.

Theorem mono_nextItem : forall f f' mask s, (f <= f')%nat ->
  fle (nextItem rops cfg f mask s) (nextItem rops cfg f' mask s).
Proof.
  induction f as [|f IH]; intros f' mask s H; [left; reflexivity|].
  destruct f' as [|f']; [lia|]. assert (Hf : (f <= f')%nat) by lia. cbn [nextItem].
  destruct (stm_get (sc_state s)) as [e|]; auto with fle.
  apply fle_bind.
  - destruct (el_action e) as [[a arg]|]; auto with fle.
    apply fle_bind; [apply mono_doAction; exact Hf|]. intros s1 res. apply fle_refl.
  - intros s1 [rt b]. cbn [fst snd]. destruct b; auto with fle.
    apply fle_bind; auto with fle. intros s2 c. apply fle_bind; auto with fle. intros s3 ok.
    destruct ok; auto with fle. destruct (isNone rt); auto with fle.
Qed.
End Mono.
