(** The results of an element are collected in finitely many steps, for any elements in any order. *)
From Coq Require Import Lia.
From Verif Require Import Base Charset XmlScanner PathAtm PathSelect PathSpec PathExtra PathProg PathInspect InspectSpec PathRun1 PathRun8 InspectSafe.

Section Sel.
Variable a : atm.
Hypothesis W : atm_up a.
Record Calm (s s' : sel) : Prop := {
  cm_safe : Safe a s';
  cm_left : (left a s' <= left a s)%nat;
  cm_stk : s_stk s' = s_stk s;
  cm_to : sc_to (s_scope s') = sc_to (s_scope s);
  cm_fidx : sc_fidx (s_scope s') = sc_fidx (s_scope s) }.
Lemma calm_trans s s1 s2 : (left a s1 <= left a s)%nat -> s_stk s1 = s_stk s -> sc_to (s_scope s1) = sc_to (s_scope s) -> sc_fidx (s_scope s1) = sc_fidx (s_scope s) -> Calm s1 s2 -> Calm s s2.
Proof. intros A B C D [E F G H I]. constructor; try congruence; auto; lia. Qed.
Lemma fetch_calm : forall f s, (left a s < f)%nat -> Safe a s -> exists s' t, fetch_loop f a s = Ret s' t /\ Calm s s' /\ (t <> 0%Z -> (left a s' < left a s)%nat).
Proof.
  induction f as [|f IH]; intros s Hf HS; [lia|]. cbn [fetch_loop].
  assert (AG : forall s1 (t : Z), (left a s1 < left a s)%nat -> Safe a s1 -> s_stk s1 = s_stk s -> sc_to (s_scope s1) = sc_to (s_scope s) -> sc_fidx (s_scope s1) = sc_fidx (s_scope s) ->
    exists s' t', (if (t =? 0)%Z then fetch_loop f a s1 else Ret s1 t) = Ret s' t' /\ Calm s s' /\ (t' <> 0%Z -> (left a s' < left a s)%nat)).
  { intros s1 t H1 S1 K1 K2 K3. destruct (t =? 0)%Z.
    - destruct (IH s1 ltac:(lia) S1) as [s' [t' [E [C L]]]]. exists s', t'. split; [exact E|]. pose proof (cm_left _ _ C). split; [apply (calm_trans s s1 s'); auto; lia|lia].
    - exists s1, t. split; [reflexivity|]. split; [constructor; auto; lia|auto]. }
  assert (TR : exists s' t', match s_trig s with
                         | t :: l => if (t =? 0)%Z then fetch_loop f a (sel_set_trig l s) else Ret (sel_set_trig l s) t
                         | [] => Ret (sel_no_key s) 0%Z
                         end = Ret s' t' /\ Calm s s' /\ (t' <> 0%Z -> (left a s' < left a s)%nat)).
  { destruct (s_trig s) as [|t l] eqn:Et; [eexists; eexists; split; [reflexivity|split; [|contradiction]]; constructor; auto; apply safe_key, HS|].
    apply AG; auto; [|apply safe_trig, HS].
    unfold left. cbn [sel_set_trig s_scope s_iter s_trig]. rewrite Et. cbn [length]. lia. }
  destruct (Nat.ltb (s_iter s) (sc_to (s_scope s))) eqn:H1.
  - apply Nat.ltb_lt in H1. destruct (match_safe a W (s_iter s) s HS) as [s1 [t [-> [S1 G1]]]]. cbn [bind]. pose proof G1 as [G2 G3 G4 G5 _ _].
    apply AG; [apply left_step; [exact G1|lia]|apply safe_iter, S1|exact G2|exact G4|exact G5].
  - apply Nat.ltb_ge in H1. destruct (Nat.ltb (s_iter s - sc_to (s_scope s)) (sc_fidx (s_scope s))) eqn:H2; [|exact TR]. apply Nat.ltb_lt in H2.
    destruct (nth_error (s_follows s) (s_iter s - sc_to (s_scope s))) as [j|] eqn:Ej.
    2:{ apply nth_error_None in Ej. destruct (sf_scope a s HS) as [H _]. lia. }
    destruct (Nat.ltb j (sc_from (s_scope s))); [|exact TR].
    destruct (match_safe a W j s HS) as [s1 [t [-> [S1 G1]]]]. cbn [bind]. pose proof G1 as [G2 G3 G4 G5 _ _].
    apply AG; [apply left_step; [exact G1|lia]|apply safe_iter, S1|exact G2|exact G4|exact G5].
Qed.
Lemma sel_fetch_calm f s : (left a s < f)%nat -> Safe a s -> exists s' t, sel_fetch f a s = Ret s' t /\ Calm s s' /\ (t <> 0%Z -> (left a s' < left a s)%nat).
Proof.
  intros Hf HS. unfold sel_fetch. destruct (m_matches _ _); [apply fetch_calm; assumption|]. eexists. eexists. split; [reflexivity|]. split; [|contradiction]. constructor; auto. apply safe_key, HS.
Qed.
Lemma close_calm s : Safe a s -> nests (s_scope s) (s_stk s) -> exists s', sel_close s = Ret s' tt /\ Safe a s' /\ nests (s_scope s') (s_stk s') /\ (left a s' <= left a s)%nat.
Proof.
  intros HS Hn. destruct (sel_close_safe a s HS) as [s' [E S']]. exists s'. split; [exact E|]. split; [exact S'|]. clear S' HS.
  assert (K : s' = s \/ exists sc stk, s_stk s = sc :: stk /\ s' = mkSel stk (firstn (sc_fidx sc) (s_follows s)) (s_trig s) (firstn (sc_to sc) (s_toks s)) (s_type s) (s_key s) sc (s_iter s)).
  { unfold sel_close in E. destruct (s_type s); try (injection E as <-; left; reflexivity); (destruct (s_stk s) as [|sc stk]; [injection E as <-; left; reflexivity|]);
      (destruct (Nat.leb (sc_fidx sc) (length (s_follows s)) && Nat.leb (sc_to sc) (length (s_toks s))); [injection E as <-; right; eauto|discriminate]). }
  destruct K as [-> | [sc [stk [K ->]]]]; [auto|]. rewrite K in Hn. cbn [nests] in Hn. destruct Hn as [H1 [H2 H3]]. split; [exact H3|]. unfold left. cbn [s_scope s_iter s_trig]. nia.
Qed.
Lemma fetch_post_calm : forall f ff s, (left a s < f)%nat -> (left a s < ff)%nat -> Safe a s -> nests (s_scope s) (s_stk s) -> exists s' l, fetch_post f ff a s = Ret s' l /\ Safe a s' /\ nests (s_scope s') (s_stk s').
Proof.
  induction f as [|f IH]; intros ff s Hf Hff HS Hn; [lia|]. cbn [fetch_post]. destruct (sel_fetch_calm ff s Hff HS) as [s1 [t [-> [C L]]]]. cbn [bind].
  assert (Hn1 : nests (s_scope s1) (s_stk s1)). { rewrite (cm_stk _ _ C). destruct (s_stk s); [exact I|]. cbn [nests] in *. rewrite (cm_to _ _ C), (cm_fidx _ _ C). exact Hn. }
  destruct (close_calm s1 (cm_safe _ _ C) Hn1) as [s2 [-> [S2 [N2 L2]]]]. cbn [bind]. destruct (Z.eqb_spec t 0) as [->|Ht]; [eauto|].
  specialize (L Ht). destruct (IH ff s2) as [s3 [l [-> [S3 N3]]]]; [lia|lia|exact S2|exact N2|]. cbn [bind]. eauto.
Qed.
Lemma fetch_all_calm : forall f ff s, (left a s < f)%nat -> (left a s < ff)%nat -> Safe a s -> exists s' l, fetch_all f ff a s = Ret s' l /\ Safe a s'.
Proof.
  induction f as [|f IH]; intros ff s Hf Hff HS; [lia|]. cbn [fetch_all]. destruct (sel_fetch_calm ff s Hff HS) as [s1 [t [-> [C L]]]]. cbn [bind].
  destruct (Z.eqb_spec t 0) as [->|Ht]; [exists s1, []; split; [reflexivity|apply C]|]. specialize (L Ht). destruct (IH ff s1) as [s3 [l [-> S3]]]; [lia|lia|apply C|]. cbn [bind]. eauto.
Qed.
Lemma init_nests e key s : Safe a s -> nests (s_scope (sel_init e key s)) (s_stk (sel_init e key s)).
Proof.
  intros [A B C D Q].
  assert (K : forall m fm fr, nests (mkScope m fm fr (length (s_toks s)) (length (s_follows s))) (s_stk s)).
  { intros m fm fr. destruct (s_stk s) as [|sc stk]; [exact I|]. inversion D as [|x y [D1 [D2 _]] _]; subst. cbn [nests nested sc_to sc_fidx] in *. auto. }
  unfold sel_init. destruct e; cbn [s_scope s_stk]; try apply K. cbn [nests sc_to sc_fidx]. split; [lia|]. split; [lia|]. apply K.
Qed.
Lemma fetch_post_mono : forall f ff s s' t, fetch_post f ff a s = Ret s' t -> forall f' ff', (f <= f')%nat -> (ff <= ff')%nat -> fetch_post f' ff' a s = Ret s' t.
Proof.
  induction f as [|f IH]; intros ff s s' t H f' ff' Hf Hff; [discriminate|]. destruct f' as [|f']; [lia|]. cbn [fetch_post] in *.
  apply bind_Ret in H. destruct H as (s1 & t1 & E1 & H). rewrite (sel_fetch_mono _ _ _ _ _ E1 ff' Hff). cbn [bind].
  apply bind_Ret in H. destruct H as (s2 & t2 & E2 & H). rewrite E2. cbn [bind]. destruct (t1 =? 0)%Z; [exact H|].
  apply bind_Ret in H. destruct H as (s3 & t3 & E3 & H). rewrite (IH _ _ _ _ E3 f' ff'); [exact H|lia|exact Hff].
Qed.
Lemma element_post_total e k s : Safe a s -> exists N s' l, Safe a s' /\ forall f ff, (N <= f)%nat -> (N <= ff)%nat -> sel_element_post f ff a e k s = Ret s' l.
Proof.
  intros HS. pose proof (sel_init_safe a e k s HS) as S0. pose proof (init_nests e k s HS) as N0. set (s0 := sel_init e k s) in *.
  destruct (sel_fetch_calm (S (left a s0)) s0 ltac:(lia) S0) as [s1 [t [E1 [C L]]]].
  assert (Hn1 : nests (s_scope s1) (s_stk s1)). { rewrite (cm_stk _ _ C). destruct (s_stk s0); [exact I|]. cbn [nests] in *. rewrite (cm_to _ _ C), (cm_fidx _ _ C). exact N0. }
  destruct (Z.eqb_spec t 0) as [Ht|Ht].
  - destruct (sel_close_safe a s1 (cm_safe _ _ C)) as [s2 [E2 S2]]. exists (S (left a s0)), s2, []. split; [exact S2|]. intros f ff Hf Hff. unfold sel_element_post, fetch_all_post. fold s0.
    rewrite (sel_fetch_mono _ _ _ _ _ E1 ff Hff). cbn [bind]. rewrite Ht. cbn [Z.eqb bind]. rewrite E2. reflexivity.
  - specialize (L Ht). destruct (fetch_post_calm (S (left a s0)) (S (left a s0)) s1 ltac:(lia) ltac:(lia) (cm_safe _ _ C) Hn1) as [s2 [l [E2 [S2 _]]]].
    destruct (sel_close_safe a s2 S2) as [s3 [E3 S3]]. exists (S (left a s0)), s3, (t :: l). split; [exact S3|]. intros f ff Hf Hff. unfold sel_element_post, fetch_all_post. fold s0.
    rewrite (sel_fetch_mono _ _ _ _ _ E1 ff Hff). cbn [bind]. apply Z.eqb_neq in Ht. rewrite Ht, (fetch_post_mono _ _ _ _ _ E2 f ff Hf Hff). cbn [bind]. rewrite E3. reflexivity.
Qed.
Lemma element_total e k s : Safe a s -> exists N s' l, Safe a s' /\ forall f ff, (N <= f)%nat -> (N <= ff)%nat -> sel_element f ff a e k s = Ret s' l.
Proof.
  intros HS. pose proof (sel_init_safe a e k s HS) as S0. set (s0 := sel_init e k s) in *.
  destruct (fetch_all_calm (S (left a s0)) (S (left a s0)) s0 ltac:(lia) ltac:(lia) S0) as [s1 [l [E1 S1]]]. destruct (sel_close_safe a s1 S1) as [s2 [E2 S2]].
  exists (S (left a s0)), s2, l. split; [exact S2|]. intros f ff Hf Hff. unfold sel_element. fold s0. rewrite (fetch_all_mono _ _ _ _ _ _ E1 f ff Hf Hff). cbn [bind]. rewrite E2. reflexivity.
Qed.
Lemma run_total : forall evs s, Safe a s -> exists N s' rs, Safe a s' /\ length rs = length evs /\ forall f ff, (N <= f)%nat -> (N <= ff)%nat -> sel_run f ff a evs s = Ret s' rs.
Proof.
  induction evs as [|[e k] evs IH]; intros s HS; [exists O, s, []; auto|]. destruct (element_total e (Some k) s HS) as [N1 [s1 [l [S1 E1]]]]. destruct (IH s1 S1) as [N2 [s2 [rs [S2 [L2 E2]]]]].
  exists (N1 + N2)%nat, s2, (l :: rs). split; [exact S2|]. split; [cbn; congruence|]. intros f ff Hf Hff. cbn [sel_run]. rewrite E1 by lia. cbn [bind]. rewrite E2 by lia. reflexivity.
Qed.
Lemma run_post_total : forall evs s, Safe a s -> exists N s' rs, Safe a s' /\ length rs = length evs /\ forall f ff, (N <= f)%nat -> (N <= ff)%nat -> sel_run_post f ff a evs s = Ret s' rs.
Proof.
  induction evs as [|[e k] evs IH]; intros s HS; [exists O, s, []; auto|]. destruct (element_post_total e (Some k) s HS) as [N1 [s1 [l [S1 E1]]]]. destruct (IH s1 S1) as [N2 [s2 [rs [S2 [L2 E2]]]]].
  exists (N1 + N2)%nat, s2, (l :: rs). split; [exact S2|]. split; [cbn; congruence|]. intros f ff Hf Hff. cbn [sel_run_post]. rewrite E1 by lia. cbn [bind]. rewrite E2 by lia. reflexivity.
Qed.
End Sel.
