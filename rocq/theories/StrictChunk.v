(** A chunk that is not the last one: the pointer does not leave it (proofs). *)
From Coq Require Import Lia.
From Verif Require Import Base DocProofs Iter CharMap CodePages Charset TextScanner Ideal ReaderSim ReadSpec XmlScanner ScannerSim ScanSpec StrictIter RetrySpec RetryRead.

Section Okb.
Context (okb : N -> Prop).
Record inside (t : rd srcit) : Prop := mkInside {
  in_len : length (rbuf t) = 8%nat;
  in_max : (rpos t <= 8)%nat;
  in_buf : forall k, (k < rpos t)%nat -> okb (nth k (rbuf t) 0);
  in_itr : si_itr (rit t) <= N.of_nat (length (si_buf (rit t)));
  in_rest : Forall okb (si_buf (rit t));
  in_eom : si_eom (rit t) = true }.
Definition Eq (P : rd srcit -> Prop) (r t : rd srcit) : Prop := r = t /\ P t.
Lemma fetch_same r t : Eq inside r t -> orel (Eq (fun t' => inside t' /\ rpos t' = S (rpos t))) (Eq inside) (fetch1 srcs_ops r) (fetch1 src_ops t).
Proof.
  intros [-> [L M B I R E]]. destruct t as [tb tp ti]. unfold fetch1. cbn [deref incr srcs_ops src_ops rpos rbuf rit] in *. unfold src_deref. destruct (nth_error (si_buf ti) (N.to_nat (si_itr ti))) as [x|] eqn:En.
  - assert (H : (N.to_nat (si_itr ti) < length (si_buf ti))%nat) by (apply nth_error_Some; congruence). assert (Ox : okb x) by (rewrite Forall_forall in R; apply R; eapply nth_error_In; exact En).
    destruct (Nat.ltb_spec tp 8) as [H8|H8]; [|constructor]. unfold srcs_incr. replace (si_itr ti <? N.of_nat (length (si_buf ti))) with true by lia. unfold src_incr. cbn [omap bind]. constructor. split; [reflexivity|].
    split; [|reflexivity]. split; unfold rd_it; cbn [rpos rbuf rit si_itr si_buf si_eom]; [rewrite upd_length; exact L|lia| |lia|exact R|exact E].
    intros k Hk. destruct (Nat.eq_dec k tp) as [->|N]; [rewrite nth_upd_same by lia; exact Ox|]. rewrite nth_upd_other by congruence. apply B. lia.
  - rewrite E. constructor. split; [reflexivity|]. split; assumption.
Qed.
Lemma fill_same n r t : Eq inside r t -> (n <= 8)%nat -> orel (Eq (fun t' => inside t' /\ (n <= rpos t')%nat)) (Eq inside) (fill srcs_ops n r) (fill src_ops n t).
Proof.
  intros H Hn. unfold fill. destruct H as [-> H]. remember (n - rpos t)%nat as d eqn:Ed. revert t H Ed. induction d as [|d IH]; intros t H Ed; cbn [repeatM]; [constructor; split; [reflexivity|]; split; [exact H|lia]|].
  eapply orel_bind; [apply fetch_same; split; [reflexivity|exact H]|]. intros r' t' u [-> [H' P]]. apply IH; [exact H'|lia].
Qed.
Lemma first_same r t : Eq inside r t -> orel (Eq (fun t' => inside t' /\ (1 <= rpos t')%nat)) (Eq inside) (utf8_first srcs_ops r) (utf8_first src_ops t).
Proof.
  intros [-> H]. unfold utf8_first. destruct (Nat.eqb_spec (rpos t) 0) as [E|E].
  - eapply orel_weaken; [apply fetch_same; split; [reflexivity|exact H]| |auto]. intros ? ? [-> [H' P]]. split; [reflexivity|]. split; [exact H'|lia].
  - constructor. split; [reflexivity|]. split; [exact H|lia].
Qed.
Lemma utf8_fetch_same r t : (forall b, okb b -> b < 128) -> Eq inside r t -> orel (Eq (fun t' => inside t' /\ (1 <= rpos t')%nat)) (Eq inside) (utf8_fetch srcs_ops r) (utf8_fetch src_ops t).
Proof.
  intros K H. unfold utf8_fetch. eapply orel_bind; [apply first_same; exact H|]. intros r' t' u [-> [H' P']]. pose proof (K _ (in_buf _ H' 0%nat ltac:(lia))) as B.
  rewrite !utf8_size_none by assumption. cbn [bind]. apply fill_same; [split; [reflexivity|exact H']|lia].
Qed.
Context (cs : charset).
Hypothesis ok8 : cs = UTF8 -> forall b, okb b -> b < 128.
Definition inP (t : rd srcit) := inside t /\ full cs t.
Lemma value_same r t : Eq inside r t -> orel (Eq inP) (Eq inside) (cs_value srcs_ops cs r) (cs_value src_ops cs t).
Proof.
  intro H. unfold inP. destruct cs as [|be|be|be|p] eqn:Ecs; cbn [cs_value].
  - unfold utf8_value. eapply orel_bind; [apply utf8_fetch_same; [exact (ok8 eq_refl)|exact H]|]. intros r' t' u [-> [H' P']]. constructor. split; [reflexivity|]. split; [exact H'|exact P'].
  - unfold utf16_value, utf16_size, utf16_fetch. rewrite !bind_assoc'. eapply orel_bind; [apply fill_same; [exact H|lia]|]. intros r' t' u [-> [H' P']]. cbn [bind].
    remember (utf16_size_of (bufat t' (msb be))) as n eqn:En. destruct (Nat.eqb_spec n 4) as [E4|E4].
    + eapply orel_bind; [apply fill_same; [split; [reflexivity|exact H']|lia]|]. intros r2 t2 u2 [-> [H2 P2]]. constructor. split; [reflexivity|]. split; [exact H2|]. cbn [full]. pose proof (size_of_max (bufat t2 (msb be))). split; lia.
    + assert (n = 2%nat) by (subst n; unfold utf16_size_of in *; destruct (_ <? _); [reflexivity|congruence]). cbn [bind]. constructor. split; [reflexivity|]. split; [exact H'|]. cbn [full]. rewrite <- En. lia.
  - unfold ucs2_value, ucs2_fetch. eapply orel_bind; [apply fill_same; [exact H|lia]|]. intros r' t' u [-> [H' P']]. constructor. split; [reflexivity|]. split; [exact H'|exact P'].
  - unfold ucs4_value, ucs4_fetch. eapply orel_bind; [apply fill_same; [exact H|lia]|]. intros r' t' u [-> [H' P']]. constructor. split; [reflexivity|]. split; [exact H'|exact P'].
  - unfold iso_value, iso_fetch. eapply orel_bind; [apply fill_same; [exact H|lia]|]. intros r' t' u [-> [H' P']]. destruct (ucharcode p (bufat t' 0)); constructor. split; [reflexivity|]. split; [exact H'|exact P'].
Qed.
Lemma ascii_same r t : Eq inside r t -> orel (Eq inP) (Eq inside) (cs_ascii srcs_ops cs r) (cs_ascii src_ops cs t).
Proof.
  intro H. pose proof (value_same _ _ H) as V. unfold inP in *. destruct cs as [|be|be|be|p] eqn:Ecs; cbn [cs_ascii cs_value] in *;
    try (eapply orel_bind; [exact V|]; intros r' t' v H'; constructor; exact H').
  - unfold utf8_ascii. eapply orel_bind; [apply first_same; exact H|]. intros r' t' u [-> [H' P']]. constructor. split; [reflexivity|]. split; [exact H'|exact P'].
  - unfold iso_ascii, iso_fetch. eapply orel_bind; [apply fill_same; [exact H|lia]|]. intros r' t' u [-> [H' P']]. constructor. split; [reflexivity|]. split; [exact H'|exact P'].
Qed.
Lemma fetch_all_same r t : Eq inP r t -> orel (Eq inP) (Eq inside) (cs_fetch srcs_ops cs r) (cs_fetch src_ops cs t).
Proof.
  intros [-> [H F]]. unfold inP. destruct cs as [|be|be|be|p] eqn:Ecs; cbn [cs_fetch full] in *.
  - eapply orel_weaken; [apply utf8_fetch_same; [exact (ok8 eq_refl)|split; [reflexivity|exact H]]|intros ? ? X; exact X|auto].
  - unfold utf16_fetch. rewrite !fill_none by lia. constructor. split; [reflexivity|]. split; [exact H|exact F].
  - unfold ucs2_fetch. rewrite !fill_none by lia. constructor. split; [reflexivity|]. split; [exact H|exact F].
  - unfold ucs4_fetch. rewrite !fill_none by lia. constructor. split; [reflexivity|]. split; [exact H|exact F].
  - unfold iso_fetch. rewrite !fill_none by lia. constructor. split; [reflexivity|]. split; [exact H|exact F].
Qed.
Lemma skip_same t : inP t -> cs_skip srcs_ops cs t = Ret t tt /\ cs_skip src_ops cs t = Ret t tt.
Proof.
  intros [H F]. destruct cs as [|be|be|be|p] eqn:Ecs; cbn [cs_skip full] in *.
  - pose proof (ok8 eq_refl _ (in_buf _ H 0%nat ltac:(lia))) as B. unfold utf8_skip. rewrite !utf8_size_none by assumption. cbn [bind]. rewrite !advance_none by lia. auto.
  - unfold utf16_skip, utf16_size, utf16_fetch. rewrite !fill_none by lia. cbn [bind]. rewrite !advance_none by lia. auto.
  - unfold ucs2_skip. rewrite !advance_none by lia. auto.
  - unfold ucs4_skip. rewrite !advance_none by lia. auto.
  - unfold iso_skip. rewrite !advance_none by lia. auto.
Qed.
Lemma ascii_full t : full cs t -> exists v, cs_ascii srcs_ops cs t = Ret t v /\ cs_ascii src_ops cs t = Ret t v.
Proof.
  intro F. destruct cs as [|be|be|be|p] eqn:Ecs; cbn [cs_ascii full] in *.
  - unfold utf8_ascii, utf8_first. destruct (Nat.eqb_spec (rpos t) 0); [lia|]. eexists. split; reflexivity.
  - unfold utf16_ascii, utf16_value, utf16_size, utf16_fetch. rewrite !fill_none by lia. cbn [bind]. destruct F as [F1 F2]. destruct (Nat.eqb _ 4); rewrite ?fill_none by exact F2; eexists; split; reflexivity.
  - unfold ucs2_ascii, ucs2_value, ucs2_fetch. rewrite !fill_none by lia. eexists. split; reflexivity.
  - unfold ucs4_ascii, ucs4_value, ucs4_fetch. rewrite !fill_none by lia. eexists. split; reflexivity.
  - unfold iso_ascii, iso_fetch. rewrite !fill_none by lia. eexists. split; reflexivity.
Qed.
(** a value that is known has been read *)
Definition Tq (P : rd srcit -> Prop) (x y : tscan srcit) : Prop := x = y /\ P (ts_rd y) /\ (ts_val y = 0 \/ full cs (ts_rd y)).
Lemma getcur_same x y : Tq inside x y -> orel (Tq inP) (Tq inside) (ts_getcur srcs_ops cs x) (ts_getcur src_ops cs y).
Proof.
  intros [-> [H V]]. unfold ts_getcur. destruct V as [V|V].
  - pose proof (ascii_same (ts_rd y) (ts_rd y) (conj eq_refl H)) as W. unfold ts_lift. destruct W as [r t a [-> W]|r t [-> W]|r t [-> W]| |]; cbn [omap bind]; constructor; (split; [reflexivity|]); cbn; (split; [exact W|left; exact V]).
  - destruct (ascii_full _ V) as (v & -> & ->). cbn [ts_lift omap bind]. constructor. split; [reflexivity|]. cbn. split; [split; [exact H|exact V]|right; exact V].
Qed.
Lemma ts_same : rsim (@eq N) (ts_ops srcs_ops cs) (ts_ops src_ops cs) (Tq inside) (Tq inP) (Tq inside).
Proof.
  split; cbn [r_control r_ascii r_chr r_raw r_skip r_pos ts_ops].
  - intros x y [-> [[H _] V]]. split; [reflexivity|]. split; [exact H|exact V].
  - intros x y H. unfold ts_control. eapply orel_bind; [apply getcur_same; exact H|]. intros x' y' u [-> H']. destruct (cm_get controlCharMap (ts_cur y')); constructor. split; [reflexivity|exact H'].
  - intros x y H. unfold ts_ascii. eapply orel_bind; [apply getcur_same; exact H|]. intros x' y' u [-> H']. constructor. split; [reflexivity|exact H'].
  - intros x y [-> [H V]]. unfold ts_chr. destruct (N.eqb_spec (ts_val y) 0) as [E|E].
    + pose proof (value_same (ts_rd y) (ts_rd y) (conj eq_refl H)) as W. unfold ts_lift. destruct W as [r t a [-> W]|r t [-> W]|r t [-> W]| |]; cbn [omap bind]; constructor; (split; [reflexivity|]); cbn; (split; [exact W|]); [right; exact (proj2 W)|left; exact E|left; exact E].
    + destruct V as [V|V]; [contradiction|]. constructor. split; [reflexivity|]. split; [split; [exact H|exact V]|right; exact V].
  - intros x y [-> [H V]]. unfold ts_raw. pose proof (fetch_all_same (ts_rd y) (ts_rd y) (conj eq_refl H)) as W. unfold ts_lift. pose proof (proj2 H) as F.
    assert (NF : forall t, cs_fetch src_ops cs (ts_rd y) = Jump t \/ cs_fetch src_ops cs (ts_rd y) = Throw t -> full cs t).
    { intros t Q. exfalso. destruct cs as [|be|be|be|p] eqn:Ecs; cbn [cs_fetch full] in *.
      - unfold utf8_fetch, utf8_first in Q. destruct (Nat.eqb_spec (rpos (ts_rd y)) 0); [lia|]. cbn [bind] in Q. rewrite utf8_size_none in Q by (exact F || (apply (ok8 eq_refl); apply (in_buf _ (proj1 H)); lia)). cbn [bind] in Q. rewrite fill_none in Q by exact F. destruct Q; discriminate.
      - unfold utf16_fetch in Q. rewrite fill_none in Q by lia. destruct Q; discriminate.
      - unfold ucs2_fetch in Q. rewrite fill_none in Q by lia. destruct Q; discriminate.
      - unfold ucs4_fetch in Q. rewrite fill_none in Q by lia. destruct Q; discriminate.
      - unfold iso_fetch in Q. rewrite fill_none in Q by lia. destruct Q; discriminate. }
    destruct W as [r t a [-> W]|r t [-> W]|r t [-> W]| |]; cbn [omap bind]; constructor; (split; [reflexivity|]); cbn; (split; [exact W|]); right; [exact (proj2 W)|apply NF; left; reflexivity|apply NF; right; reflexivity].
  - intros x y [-> [H V]]. unfold ts_skip. destruct (skip_same _ H) as [-> ->]. cbn [ts_lift omap bind ts_rd]. constructor. split; [reflexivity|]. cbn. split; [|left; reflexivity]. destruct H as [[L M B I R E] _].
    split; cbn; [exact L|lia|intros; lia|exact I|exact R|exact E].
  - intros x y [-> H]. reflexivity.
Qed.

Notation sq := (srel (@eq N) (Tq inside)).
Lemma sq_eq s t : sq s t -> s = t.
Proof. intros [? ? x y ? ? ? ? [-> _] <-]. reflexivity. Qed.
(** supplying a chunk that is not the last one *)
Lemma feed_same s c : sq s s -> Forall okb c -> sq (sc_feed feed_new s c true) (sc_feed feed_new s c true).
Proof.
  intros H C. inversion H as [st er x y ob tp tp' tk [_ [[L M B I R E] V]] _ E1 E2]. subst. constructor; [|reflexivity]. split; [reflexivity|]. split; [|exact V].
  split; cbn; [exact L|exact M|exact B|lia|exact C|reflexivity].
Qed.
Lemma resume_same cfg f mask : forall chunks s st t, Forall (Forall okb) chunks -> sq s s -> resume (sc_feed feed_new) (nextItem (ts_ops src_ops cs) cfg f mask) chunks s = Ret st t -> snd st <> [] ->
  resume (sc_feed feed_new) (nextItem (ts_ops srcs_ops cs) cfg f mask) chunks s = Ret st t /\ sq (fst st) (fst st) /\ Forall (Forall okb) (snd st).
Proof.
  induction chunks as [|c chunks IH]; intros s st t C H E N; cbn [resume] in *.
  - exfalso. apply N. destruct (nextItem _ _ _ _ _); try discriminate E. injection E as <- _. reflexivity.
  - pose proof (sim_nextItem _ _ cfg _ _ _ _ ts_same f mask s s H) as W.
    destruct W as [s1 s2 a W|s1 s2 W|s1 s2 W| |]; try discriminate E.
    + pose proof (sq_eq _ _ W). subst s2. injection E as <- <-. cbn [fst snd] in *. split; [reflexivity|]. split; [exact W|exact C].
    + pose proof (sq_eq _ _ W). subst s2. destruct chunks as [|c2 chunks].
      * exfalso. apply N. cbn [resume] in E. destruct (nextItem _ _ _ _ _); try discriminate E. injection E as <- _. reflexivity.
      * apply IH; [exact (Forall_inv_tail C)|apply feed_same; [exact W|exact (Forall_inv C)]|exact E|exact N].
Qed.
End Okb.
