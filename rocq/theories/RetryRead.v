(** A text scanner on a stream that fails for a time reads as one on chunks (proofs). *)
From Coq Require Import Lia.
From Verif Require Import Base DocProofs Iter CharMap CodePages Charset TextScanner Ideal ReaderSim ReadSpec XmlScanner ScannerSim ScanSpec Retry RetrySpec RetryScan.

(** the chunks: what is read before, between and behind failures *)
Fixpoint seen (last : list N) (reads : list rdres) : list (list N) :=
  match reads with
  | [] => [last]
  | r :: reads => if rd_err r then removelast last :: seen (given r) reads else match seen (given r) reads with c :: cs => (last ++ c) :: cs | [] => [] end
  end.
Lemma seen_cons last reads : exists c cs, seen last reads = c :: cs.
Proof.
  revert last. induction reads as [|r reads IH]; intro last; cbn [seen]; [eauto|]. destruct (rd_err r); [eauto|]. destruct (IH (given r)) as (c & cs & ->). eauto.
Qed.
Lemma seen_holes last reads : concat (seen last reads) = holes last reads.
Proof.
  revert last. induction reads as [|r reads IH]; intro last; cbn [seen holes]; [apply app_nil_r|]. destruct (rd_err r); [cbn [concat]; rewrite IH; reflexivity|].
  destruct (seen_cons (given r) reads) as (c & cs & E). rewrite <- IH, E. cbn [concat]. rewrite app_assoc. reflexivity.
Qed.
Lemma seen_failures last reads : length (seen last reads) = S (failures reads).
Proof.
  revert last. induction reads as [|r reads IH]; intro last; [reflexivity|]. unfold failures in *. cbn [seen filter]. destruct (rd_err r); [cbn [length]; rewrite IH; reflexivity|].
  specialize (IH (given r)). destruct (seen_cons (given r) reads) as (c & cs & E). rewrite E in *. exact IH.
Qed.
Lemma seen_step x l reads : l <> [] -> exists c cs, seen l reads = c :: cs /\ seen (x :: l) reads = (x :: c) :: cs.
Proof.
  intro N. destruct reads as [|r reads]; cbn [seen]; [eauto|]. destruct (rd_err r); [|destruct (seen_cons (given r) reads) as (c & cs & ->); eauto].
  exists (removelast l), (seen (given r) reads). split; [reflexivity|]. destruct l; [congruence|reflexivity].
Qed.

(** ** iterators *)
Definition left (i : istrm) : list N := match is_buf i with [] => [0] | b => skipn (N.to_nat (is_readpos i)) b end.
Definition rem (j : srcit) : list N := skipn (N.to_nat (si_itr j)) (si_buf j).
Record istate (i : istrm) : Prop := mkIst {
  ist_reads : Forall (fits (is_bufsize i)) (is_input i);
  ist_pos : (is_buf i = [] /\ is_readpos i = 0) \/ is_readpos i < N.of_nat (length (is_buf i)) }.
Definition ended (i : istrm) : Prop := is_buf i = [] /\ is_input i = [].
Section Okb.
Context (okb : N -> Prop) (ok0 : okb 0).
Record itrel (chunks : list (list N)) (i : istrm) (j : srcit) : Prop := mkItrel {
  it_ok : istate i;
  it_eom : si_eom j = more chunks;
  it_bytes : Forall okb (rem j);
  it_chunks : Forall (Forall okb) chunks;
  it_rem : seen (left i) (is_input i) = rem j :: chunks \/ (ended i /\ rem j = [] /\ chunks = []) }.
Lemma left_ne i : istate i -> exists x l, left i = x :: l /\ istrm_deref i = Ret i x.
Proof.
  intros [_ [[E P]|P]]; unfold left, istrm_deref.
  - rewrite E. exists 0, []. split; [reflexivity|]. destruct (N.to_nat (is_readpos i)); reflexivity.
  - destruct (is_buf i) as [|b buf] eqn:E; [cbn in P; lia|]. destruct (nth_error (b :: buf) (N.to_nat (is_readpos i))) as [x|] eqn:En; [|apply nth_error_None in En; lia].
    apply nth_error_split in En. destruct En as (l1 & l2 & E1 & E2). rewrite E1, <- E2, skipn_app, skipn_all, Nat.sub_diag. exists x, l2. auto.
Qed.
(** what an increment does *)
Lemma incr_cases i x l : istate i -> left i = x :: l ->
  (l <> [] /\ exists i', istrm_incr i = Ret i' tt /\ istate i' /\ left i' = l /\ is_input i' = is_input i) \/
  (l = [] /\ is_input i = [] /\ exists i', istrm_incr i = Ret i' tt /\ istate i' /\ ended i') \/
  (l = [] /\ exists r reads, is_input i = r :: reads /\ rd_err r = true /\ exists i', istrm_incr i = Throw i' /\ istate i' /\ left i' = given r /\ is_input i' = reads) \/
  (l = [] /\ exists r reads, is_input i = r :: reads /\ rd_err r = false /\ exists i', istrm_incr i = Ret i' tt /\ istate i' /\ left i' = given r /\ is_input i' = reads).
Proof.
  intros [R P] E. unfold istrm_incr.
  assert (Fill : (N.of_nat (length (is_buf i)) <=? is_readpos i + 1) = true -> l = []).
  { intro H. apply N.leb_le in H. unfold left in E. destruct (is_buf i) as [|b buf]; [congruence|]. destruct P as [[P _]|P]; [discriminate|].
    assert (Q : length (skipn (N.to_nat (is_readpos i)) (b :: buf)) = 1%nat) by (rewrite skipn_length; lia). rewrite E in Q. destruct l; [reflexivity|discriminate Q]. }
  assert (Next : (N.of_nat (length (is_buf i)) <=? is_readpos i + 1) = false -> l <> [] /\ skipn (N.to_nat (is_readpos i + 1)) (is_buf i) = l).
  { intro H. apply N.leb_gt in H. unfold left in E. destruct (is_buf i) as [|b buf] eqn:Eb; [cbn in H; lia|].
    assert (Q : (2 <= length (skipn (N.to_nat (is_readpos i)) (b :: buf)))%nat) by (rewrite skipn_length; lia). split; [rewrite E in Q; destruct l; [cbn in Q; lia|discriminate]|].
    replace (N.to_nat (is_readpos i + 1)) with (S (N.to_nat (is_readpos i))) by lia. rewrite skipn_S_tl, E. reflexivity. }
  destruct (_ <=? _) eqn:EL.
  - specialize (Fill eq_refl). right. unfold istrm_fillbuf. destruct (is_input i) as [|r reads] eqn:EI.
    + left. split; [exact Fill|]. split; [reflexivity|]. eexists. split; [reflexivity|]. split; [split; [constructor|left; split; reflexivity]|split; reflexivity].
    + right. pose proof (Forall_inv R) as F. pose proof (Forall_inv_tail R) as R'. unfold fits in F. replace (is_bufsize i <? N.of_nat (length (rd_data r))) with false by lia.
      assert (O : istate (mkIs reads (rd_data r) (is_bufsize i) 0 (u64 (is_abs i + N.of_nat (length (is_buf i))))) /\ left (mkIs reads (rd_data r) (is_bufsize i) 0 (u64 (is_abs i + N.of_nat (length (is_buf i))))) = given r).
      { unfold left, given. cbn [is_buf is_readpos]. destruct (rd_data r) as [|d ds]; (split; [split; [exact R'|]|reflexivity]); [left; split; reflexivity|right; cbn; lia]. }
      destruct O as [O1 O2]. destruct (rd_err r) eqn:ER; [left|right]; (split; [exact Fill|]); exists r, reads; (split; [reflexivity|]); (split; [exact ER|]); eexists; (split; [reflexivity|]); (split; [exact O1|]); (split; [exact O2|reflexivity]).
  - destruct (Next eq_refl) as [N1 N2]. left. split; [exact N1|]. eexists. split; [reflexivity|]. apply N.leb_gt in EL. split; [split; [exact R|right; cbn; lia]|]. unfold left. cbn [is_buf is_readpos is_input].
    split; [|reflexivity]. destruct (is_buf i); [cbn in EL; lia|exact N2].
Qed.
Lemma rem_nil j : rem j = [] -> nth_error (si_buf j) (N.to_nat (si_itr j)) = None.
Proof.
  intro H. apply nth_error_None. destruct (Nat.le_gt_cases (length (si_buf j)) (N.to_nat (si_itr j))) as [L|L]; [exact L|]. assert (Q : length (rem j) = 0%nat) by (rewrite H; reflexivity).
  unfold rem in Q. rewrite skipn_length in Q. lia.
Qed.
Lemma rem_cons j x l : rem j = x :: l -> nth_error (si_buf j) (N.to_nat (si_itr j)) = Some x.
Proof.
  unfold rem. generalize (N.to_nat (si_itr j)). intros n. generalize (si_buf j). induction n as [|n IH]; intros b H; destruct b as [|y b]; try discriminate H; cbn in *; [congruence|]. apply IH. exact H.
Qed.
Lemma rem_next j : rem (mkSrc (si_buf j) (si_itr j + 1) (si_eom j) (si_abs j)) = tl (rem j).
Proof. unfold rem. cbn [si_buf si_itr]. replace (N.to_nat (si_itr j + 1)) with (S (N.to_nat (si_itr j))) by lia. apply skipn_S_tl. Qed.

(** ** the buffer of a text scanner *)
Record Rd (chunks : list (list N)) (r : rd istrm) (t : rd srcit) : Prop := mkRdRel {
  rd_pos : rpos r = rpos t;
  rd_max : (rpos t <= 8)%nat;
  rd_len1 : length (rbuf r) = 8%nat;
  rd_len2 : length (rbuf t) = 8%nat;
  rd_same : forall k, (k < rpos t)%nat -> nth k (rbuf r) 0 = nth k (rbuf t) 0 /\ okb (nth k (rbuf t) 0);
  rd_iter : itrel chunks (rit r) (rit t) }.
Record RdJ (chunks : list (list N)) (r : rd istrm) (t : rd srcit) : Prop := mkRdJ {
  rj_pos : rpos r = rpos t;
  rj_max : (rpos t <= 8)%nat;
  rj_len1 : length (rbuf r) = 8%nat;
  rj_len2 : length (rbuf t) = 8%nat;
  rj_same : forall k, (k < rpos t)%nat -> nth k (rbuf r) 0 = nth k (rbuf t) 0 /\ okb (nth k (rbuf t) 0);
  rj_ok : istate (rit r);
  rj_chunks : Forall (Forall okb) chunks;
  rj_next : seen (left (rit r)) (is_input (rit r)) = chunks }.
Lemma fetch_rel chunks r t : Rd chunks r t -> (rpos t < 8)%nat -> wrel (fun r' t' => Rd chunks r' t' /\ rpos t' = S (rpos t)) (RdJ chunks) (fetch1 istrm_ops r) (fetch1 src_ops t).
Proof.
  destruct r as [rb rp ri], t as [tb tp ti]. intros [P M L1 L2 Q [O E B C R]] H8. cbn [rpos rbuf rit] in *. subst rp. unfold fetch1. cbn [deref incr istrm_ops src_ops rpos rbuf rit]. destruct (left_ne _ O) as (x & l & EL & ED). rewrite ED. unfold src_deref.
  replace (Nat.ltb tp 8) with true by (symmetry; apply Nat.ltb_lt; exact H8).
  assert (Step : forall b i', okb b -> itrel chunks i' (mkSrc (si_buf ti) (si_itr ti + 1) (si_eom ti) (si_abs ti)) ->
     Rd chunks (mkRdr (upd tp b rb) (S tp) i') (mkRdr (upd tp b tb) (S tp) (mkSrc (si_buf ti) (si_itr ti + 1) (si_eom ti) (si_abs ti)))).
  { intros b i' Ob HI. split; cbn [rpos rbuf rit]; [reflexivity|lia|rewrite upd_length; exact L1|rewrite upd_length; exact L2| |exact HI].
    intros k Hk. destruct (Nat.eq_dec k tp) as [->|N]; [rewrite !nth_upd_same by lia; auto|]. rewrite !nth_upd_other by congruence. apply Q. lia. }
  destruct (incr_cases _ x l O EL) as [(N & i' & EI & O' & EL' & IN)|[(-> & IN & i' & EI & O' & EN)|[(-> & rr & reads & IN & ER & i' & EI & O' & EL' & IN')|(-> & rr & reads & IN & ER & i' & EI & O' & EL' & IN')]]].
  - destruct R as [R|(EN & _)]; [|exfalso; destruct EN as [E1 _]; unfold left in EL; rewrite E1 in EL; congruence]. rewrite EL in R. destruct (seen_step x l (is_input ri) N) as (c & cs & S1 & S2). rewrite S2 in R. injection R as R1 R2.
    symmetry in R1. rewrite (rem_cons _ _ _ R1). rewrite R1 in B. pose proof (Forall_inv B) as B1. pose proof (Forall_inv_tail B) as B2. rewrite EI. constructor. split; [|reflexivity]. apply (Step x i' B1).
    split; [exact O'|exact E|rewrite rem_next, R1; exact B2|exact C|]. left. rewrite rem_next, R1, EL', IN. cbn [tl]. congruence.
  - destruct R as [R|(EN0 & RN & CN)].
    + rewrite EL, IN in R. cbn [seen] in R. injection R as R1 R2. symmetry in R1. rewrite (rem_cons _ _ _ R1). rewrite R1 in B. pose proof (Forall_inv B) as B1. pose proof (Forall_inv_tail B) as B2. rewrite EI. constructor. split; [|reflexivity].
      apply (Step x i' B1). split; [exact O'|exact E|rewrite rem_next, R1; constructor|exact C|]. right. split; [exact EN|]. rewrite rem_next, R1. split; [reflexivity|congruence].
    + rewrite (rem_nil _ RN). replace (si_eom ti) with false at 1 by (rewrite E, CN; reflexivity). destruct EN0 as [EB _]. unfold left in EL. rewrite EB in EL. injection EL as <-.
      rewrite EI. constructor. split; [|reflexivity]. apply (Step 0 i' ok0). split; [exact O'|exact E|rewrite rem_next, RN; constructor|exact C|]. right. split; [exact EN|]. rewrite rem_next, RN. split; [reflexivity|exact CN].
  - destruct R as [R|((_ & EN) & _)]; [|congruence]. rewrite EL, IN in R. cbn [seen removelast] in R. rewrite ER in R. injection R as R1 R2. symmetry in R1. rewrite (rem_nil _ R1), E.
    destruct (seen_cons (given rr) reads) as (c & cs & SC). rewrite EI. cbn [omap bind]. replace (more chunks) with true by (rewrite <- R2, SC; reflexivity). constructor. split; unfold rd_it; cbn [rpos rbuf rit].
    + reflexivity.
    + exact M.
    + rewrite upd_length. exact L1.
    + exact L2.
    + intros k Hk. rewrite nth_upd_other by lia. apply Q. exact Hk.
    + exact O'.
    + exact C.
    + rewrite EL', IN'. exact R2.
  - destruct R as [R|((_ & EN) & _)]; [|congruence]. rewrite EL, IN in R. cbn [seen] in R. rewrite ER in R. destruct (seen_cons (given rr) reads) as (c & cs & SC). rewrite SC in R. injection R as R1 R2. symmetry in R1. cbn [app] in R1.
    rewrite (rem_cons _ _ _ R1). rewrite R1 in B. pose proof (Forall_inv B) as B1. pose proof (Forall_inv_tail B) as B2. rewrite EI. constructor. split; [|reflexivity]. apply (Step x i' B1).
    split; [exact O'|exact E|rewrite rem_next, R1; exact B2|exact C|]. left. rewrite rem_next, R1, EL', IN'. cbn [tl]. congruence.
Qed.
Lemma fill_rel chunks n r t : Rd chunks r t -> (n <= 8)%nat -> wrel (fun r' t' => Rd chunks r' t' /\ (n <= rpos t')%nat) (RdJ chunks) (fill istrm_ops n r) (fill src_ops n t).
Proof.
  intros H Hn. unfold fill. rewrite (rd_pos _ _ _ H). remember (n - rpos t)%nat as d eqn:Ed. revert r t H Ed. induction d as [|d IH]; intros r t H Ed; cbn [repeatM]; [constructor; split; [exact H|lia]|].
  eapply wrel_bind; [apply fetch_rel; [exact H|lia]|]. intros r' t' u [H' P]. apply IH; [exact H'|lia].
Qed.
Lemma fill_none {I} (o : iterops I) n r : (n <= rpos r)%nat -> fill o n r = Ret r tt.
Proof. intro H. unfold fill. replace (n - rpos r)%nat with 0%nat by lia. reflexivity. Qed.
Lemma advance_none {I} (o : iterops I) n r : (n <= rpos r)%nat -> advance o n r = Ret r tt.
Proof. intro H. unfold advance. replace (n - rpos r)%nat with 0%nat by lia. reflexivity. Qed.
Lemma bufat_rel chunks r t k : Rd chunks r t -> (k < rpos t)%nat -> bufat r k = bufat t k.
Proof. intros H Hk. apply (rd_same _ _ _ H k Hk). Qed.

(** the current character has been read *)
Definition full (cs : charset) (t : rd srcit) : Prop :=
  match cs with
  | UTF8 | IsoLatin _ => (1 <= rpos t)%nat
  | UTF16 be => (2 <= rpos t)%nat /\ (utf16_size_of (bufat t (msb be)) <= rpos t)%nat
  | UCS2 _ => (2 <= rpos t)%nat
  | UCS4 _ => (4 <= rpos t)%nat
  end.
Definition RdP (cs : charset) chunks r t := Rd chunks r t /\ full cs t.

Lemma first_rel chunks r t : Rd chunks r t -> wrel (fun r' t' => Rd chunks r' t' /\ (1 <= rpos t')%nat) (RdJ chunks) (utf8_first istrm_ops r) (utf8_first src_ops t).
Proof.
  intro H. unfold utf8_first. rewrite (rd_pos _ _ _ H). destruct (Nat.eqb_spec (rpos t) 0) as [E|E].
  - eapply wrel_weaken; [apply fetch_rel; [exact H|lia]| |auto]. cbv beta. intros ? ? [? ?]. split; [assumption|lia].
  - constructor. split; [exact H|lia].
Qed.
Lemma size_one : forall b, b < 128 -> cm_get utf8LengthTab b = Some 1.
Proof.
  assert (F : forallb (fun k => match cm_get utf8LengthTab (N.of_nat k) with Some 1 => true | _ => false end) (seq 0 128) = true) by (vm_compute; reflexivity).
  intros b Hb. rewrite forallb_forall in F. specialize (F (N.to_nat b)). rewrite N2Nat.id in F. assert (I : In (N.to_nat b) (seq 0 128)) by (apply in_seq; lia). specialize (F I).
  destruct (cm_get utf8LengthTab b) as [[|[p|p|]]|]; try discriminate F. reflexivity.
Qed.
Context (cs : charset).
Lemma bind_assoc' {S A B C} (m : out S A) (f : S -> A -> out S B) (g : S -> B -> out S C) : bind (bind m f) g = bind m (fun s a => bind (f s a) g).
Proof. destruct m; reflexivity. Qed.
Lemma size_of_max b : (utf16_size_of b <= 4)%nat.
Proof. unfold utf16_size_of. destruct (_ <? _); lia. Qed.
Lemma utf8_size_none {I} (o : iterops I) r : (1 <= rpos r)%nat -> bufat r 0 < 128 -> utf8_size o r = Ret r 1%nat.
Proof. intros H B. unfold utf8_size, utf8_first. destruct (Nat.eqb_spec (rpos r) 0); [lia|]. cbn [bind]. rewrite size_one by exact B. reflexivity. Qed.
Lemma utf8_fetch_rel chunks r t : (forall b, okb b -> b < 128) -> Rd chunks r t -> wrel (fun r' t' => Rd chunks r' t' /\ (1 <= rpos t')%nat) (RdJ chunks) (utf8_fetch istrm_ops r) (utf8_fetch src_ops t).
Proof.
  intros K H. unfold utf8_fetch. eapply wrel_bind; [apply first_rel; exact H|]. intros r' t' u [H' P']. pose proof (rd_same _ _ _ H' 0%nat ltac:(lia)) as [S1 S2]. specialize (K _ S2).
  rewrite (utf8_size_none src_ops t') by assumption. rewrite (utf8_size_none istrm_ops r') by (rewrite ?(rd_pos _ _ _ H'); unfold bufat; rewrite ?S1; assumption). cbn [bind]. apply fill_rel; [exact H'|lia].
Qed.
Hypothesis ok8 : cs = UTF8 -> forall b, okb b -> b < 128.

Lemma value_rel chunks r t : Rd chunks r t -> wrel (RdP cs chunks) (RdJ chunks) (cs_value istrm_ops cs r) (cs_value src_ops cs t).
Proof.
  intro H. destruct cs as [|be|be|be|p] eqn:Ecs; cbn [cs_value].
  - unfold utf8_value. eapply wrel_bind; [apply utf8_fetch_rel; [exact (ok8 eq_refl)|exact H]|]. cbv beta. intros r' t' u [H' P']. pose proof (rd_same _ _ _ H' 0%nat ltac:(lia)) as [S1 S2]. specialize (ok8 eq_refl _ S2).
    replace (utf8_value_of (rbuf r') (rpos r')) with (utf8_value_of (rbuf t') (rpos t')); [constructor; split; [exact H'|exact P']|]. unfold utf8_value_of. rewrite S1. replace (127 <? nth 0 (rbuf t') 0) with false by lia. reflexivity.
  - unfold utf16_value, utf16_size, utf16_fetch. rewrite !bind_assoc'. eapply wrel_bind; [apply fill_rel; [exact H|lia]|]. cbv beta. intros r' t' u [H' P']. cbn [bind].
    rewrite (bufat_rel _ _ _ _ H') by (destruct be; cbn; lia). remember (utf16_size_of (bufat t' (msb be))) as n eqn:En. destruct (Nat.eqb_spec n 4) as [E4|E4].
    + eapply wrel_bind; [apply fill_rel; [exact H'|lia]|]. cbv beta. intros r2 t2 u2 [H2 P2]. rewrite (utf16_value_of_ext be (rbuf r2) (rbuf t2) n); [|auto|intros k Hk; eapply rd_same; [exact H2|lia]].
      constructor. split; [exact H2|]. cbn [full]. pose proof (size_of_max (bufat t2 (msb be))). split; lia.
    + assert (n = 2%nat) by (subst n; unfold utf16_size_of in *; destruct (_ <? _); [reflexivity|congruence]). cbn [bind].
      rewrite (utf16_value_of_ext be (rbuf r') (rbuf t') n); [|auto|intros k Hk; apply (rd_same _ _ _ H'); lia]. constructor. split; [exact H'|]. cbn [full]. rewrite <- En. lia.
  - unfold ucs2_value, ucs2_fetch. eapply wrel_bind; [apply fill_rel; [exact H|lia]|]. cbv beta. intros r' t' u [H' P']. replace (ucs2_value_of be (rbuf r')) with (ucs2_value_of be (rbuf t')); [constructor; split; [exact H'|exact P']|].
    unfold ucs2_value_of. destruct (rd_same _ _ _ H' (msb be)) as [-> _]; [destruct be; cbn; lia|]. destruct (rd_same _ _ _ H' (lsb be)) as [-> _]; [destruct be; cbn; lia|]. reflexivity.
  - unfold ucs4_value, ucs4_fetch. eapply wrel_bind; [apply fill_rel; [exact H|lia]|]. cbv beta. intros r' t' u [H' P']. replace (ucs4_value_of be (rbuf r')) with (ucs4_value_of be (rbuf t')); [constructor; split; [exact H'|exact P']|].
    unfold ucs4_value_of. cbv zeta. assert (Q : forall k, (k <= 3)%nat -> nth (ucs4_b be k) (rbuf t') 0 = nth (ucs4_b be k) (rbuf r') 0) by (intros k Hk; symmetry; apply (rd_same _ _ _ H'); unfold ucs4_b; destruct be; lia).
    rewrite !Q by lia. reflexivity.
  - unfold iso_value, iso_fetch. eapply wrel_bind; [apply fill_rel; [exact H|lia]|]. cbv beta. intros r' t' u [H' P']. rewrite (bufat_rel _ _ _ _ H') by lia. destruct (ucharcode p (bufat t' 0)); constructor. split; [exact H'|exact P'].
Qed.
Lemma ascii_rel chunks r t : Rd chunks r t -> wrel (RdP cs chunks) (RdJ chunks) (cs_ascii istrm_ops cs r) (cs_ascii src_ops cs t).
Proof.
  intro H. pose proof (value_rel _ _ _ H) as V. destruct cs as [|be|be|be|p] eqn:Ecs; cbn [cs_ascii cs_value] in *;
    try (eapply wrel_bind; [exact V|]; intros r' t' v H'; constructor; exact H').
  - unfold utf8_ascii. eapply wrel_bind; [apply first_rel; exact H|]. cbv beta. intros r' t' u [H' P']. rewrite (bufat_rel _ _ _ _ H') by lia. constructor. split; [exact H'|exact P'].
  - unfold iso_ascii, iso_fetch. eapply wrel_bind; [apply fill_rel; [exact H|lia]|]. cbv beta. intros r' t' u [H' P']. rewrite (bufat_rel _ _ _ _ H') by lia. constructor. split; [exact H'|exact P'].
Qed.
Lemma fetch_all_rel chunks r t : RdP cs chunks r t -> wrel (RdP cs chunks) (RdJ chunks) (cs_fetch istrm_ops cs r) (cs_fetch src_ops cs t).
Proof.
  intros [H F]. pose proof (rd_pos _ _ _ H) as P. destruct cs as [|be|be|be|p] eqn:Ecs; cbn [cs_fetch full] in *.
  - eapply wrel_weaken; [apply utf8_fetch_rel; [exact (ok8 eq_refl)|exact H]|intros ? ? X; exact X|auto].
  - unfold utf16_fetch. rewrite !fill_none by lia. constructor. split; [exact H|exact F].
  - unfold ucs2_fetch. rewrite !fill_none by lia. constructor. split; [exact H|exact F].
  - unfold ucs4_fetch. rewrite !fill_none by lia. constructor. split; [exact H|exact F].
  - unfold iso_fetch. rewrite !fill_none by lia. constructor. split; [exact H|exact F].
Qed.
Lemma skip_rel chunks r t : RdP cs chunks r t -> cs_skip istrm_ops cs r = Ret r tt /\ cs_skip src_ops cs t = Ret t tt.
Proof.
  intros [H F]. pose proof (rd_pos _ _ _ H) as P. destruct cs as [|be|be|be|p] eqn:Ecs; cbn [cs_skip full] in *.
  - pose proof (rd_same _ _ _ H 0%nat ltac:(lia)) as [S1 S2]. specialize (ok8 eq_refl _ S2). unfold utf8_skip. rewrite !utf8_size_none by (rewrite ?P; unfold bufat; rewrite ?S1; assumption). cbn [bind]. rewrite !advance_none by lia. auto.
  - unfold utf16_skip, utf16_size, utf16_fetch. rewrite !fill_none by lia. cbn [bind]. rewrite (bufat_rel _ _ _ _ H) by (destruct be; cbn; lia). rewrite !advance_none by lia. auto.
  - unfold ucs2_skip. rewrite !advance_none by lia. auto.
  - unfold ucs4_skip. rewrite !advance_none by lia. auto.
  - unfold iso_skip. rewrite !advance_none by lia. auto.
Qed.

(** ** text scanners *)
Record Ts (RR : rd istrm -> rd srcit -> Prop) (x : tscan istrm) (y : tscan srcit) : Prop := mkTsRel {
  tr_rd : RR (ts_rd x) (ts_rd y);
  tr_val : ts_val x = ts_val y;
  tr_cur : ts_cur x = ts_cur y }.
Lemma lift_rel {A} RR RR2 RJ x y (p : out (rd istrm) A) (q : out (rd srcit) A) : Ts RR2 x y -> wrel RR RJ p q -> wrel (Ts RR) (Ts RJ) (ts_lift x p) (ts_lift y q).
Proof. intros [_ V C] W. unfold ts_lift. eapply wrel_omap; [exact W| |]; intros ? ? ?; split; cbn; assumption. Qed.
Lemma getcur_rel chunks x y : Ts (Rd chunks) x y -> wrel (Ts (RdP cs chunks)) (Ts (RdJ chunks)) (ts_getcur istrm_ops cs x) (ts_getcur src_ops cs y).
Proof.
  intro H. unfold ts_getcur. eapply wrel_bind; [eapply lift_rel; [exact H|]; apply ascii_rel; apply (tr_rd _ _ _ H)|]. intros x' y' c [R V C]. constructor. split; cbn; [exact R|exact V|reflexivity].
Qed.
Lemma ts_sim chunks : wsim (fun _ _ => True) (ts_ops istrm_ops cs) (ts_ops src_ops cs) (Ts (Rd chunks)) (Ts (RdP cs chunks)) (Ts (RdJ chunks)).
Proof.
  split; cbn [r_control r_ascii r_chr r_raw r_skip r_pos ts_ops].
  - intros x y [[R _] V C]. split; assumption.
  - intros x y H. unfold ts_control. eapply wrel_bind; [apply getcur_rel; exact H|]. intros x' y' u H'. rewrite (tr_cur _ _ _ H'). destruct (cm_get controlCharMap (ts_cur y')); constructor. exact H'.
  - intros x y H. unfold ts_ascii. eapply wrel_bind; [apply getcur_rel; exact H|]. intros x' y' u H'. rewrite (tr_cur _ _ _ H'). constructor. exact H'.
  - intros x y H. unfold ts_chr. rewrite (tr_val _ _ _ H). destruct (ts_val y =? 0); [|constructor; exact H].
    eapply wrel_bind; [eapply lift_rel; [exact H|]; apply value_rel; apply (tr_rd _ _ _ H)|]. intros x' y' v [R V C]. constructor. split; cbn; [exact R|reflexivity|exact C].
  - intros x y H. unfold ts_raw. eapply wrel_bind; [eapply lift_rel; [exact H|]; apply fetch_all_rel; apply (tr_rd _ _ _ H)|]. intros x' y' u H'.
    replace (firstn (rpos (ts_rd x')) (rbuf (ts_rd x'))) with (firstn (rpos (ts_rd y')) (rbuf (ts_rd y'))); [constructor; exact H'|]. destruct (tr_rd _ _ _ H') as [Q _]. destruct Q as [P M L1 L2 S _]. rewrite P.
    apply (firstn_ext _ _ _ 0); [lia|lia|]. intros k Hk. symmetry. apply S. exact Hk.
  - intros x y H. unfold ts_skip. destruct (skip_rel _ _ _ (tr_rd _ _ _ H)) as [-> ->]. cbn [ts_lift omap bind ts_rd]. constructor. destruct (tr_rd _ _ _ H) as [[P M L1 L2 S I] _]. split; cbn; [|reflexivity|reflexivity].
    split; cbn [rpos rbuf rit]; [reflexivity|lia|exact L1|exact L2|intros; lia|exact I].
  - auto.
Qed.

(** the next chunk *)
Lemma feed_rel x y c chunks : Ts (RdJ (c :: chunks)) x y -> Ts (Rd chunks) x (ts_setSource y (feed_new (rit (ts_rd y)) c (more chunks))).
Proof.
  intros [[P M L1 L2 S O C E] V Cu]. split; cbn; [|exact V|exact Cu]. split; cbn [rpos rbuf rit rd_it]; [exact P|exact M|exact L1|exact L2|exact S|].
  split; [exact O|reflexivity|exact (Forall_inv C)|exact (Forall_inv_tail C)|]. left. exact E.
Qed.
Notation sr chunks := (srel (fun _ _ => True) (Ts (Rd chunks))).
Inductive finish (P : scanner (tscan istrm) -> scanner (tscan srcit) * list (list N) -> Prop) {A} : out (scanner (tscan istrm)) A -> out (scanner (tscan srcit) * list (list N)) A -> Prop :=
| fin_ret : forall s st a, P s st -> finish P (Ret s a) (Ret st a)
| fin_undef : finish P Undef Undef
| fin_fuel : finish P Fuel Fuel.
Lemma retry_rel cfg f mask : forall chunks n s t, (length chunks <= n)%nat -> sr chunks s t ->
  finish (fun s' st => (length (snd st) <= length chunks)%nat /\ sr (snd st) s' (fst st)) (retry n (nextItem (ts_ops istrm_ops cs) cfg f mask) s) (resume (sc_feed feed_new) (nextItem (ts_ops src_ops cs) cfg f mask) chunks t).
Proof.
  induction chunks as [|c chunks IH]; intros n s t Hn H.
  - pose proof (sim_nextItem _ _ cfg _ _ _ _ (ts_sim []) f mask s t H) as W.
    assert (X : retry n (nextItem (ts_ops istrm_ops cs) cfg f mask) s = match nextItem (ts_ops istrm_ops cs) cfg f mask s with Throw s1 => match n with O => Throw s1 | S n1 => retry n1 (nextItem (ts_ops istrm_ops cs) cfg f mask) s1 end | x => x end) by (destruct n; reflexivity).
    rewrite X. cbn [resume]. destruct W as [s' t' a W|s' t' W| |]; try constructor; cbn; [split; [lia|exact W]|].
    exfalso. destruct W as [? ? r y ? ? ? ? W _]. destruct W as [[_ _ _ _ _ _ _ E] _ _]. destruct (seen_cons (left (rit (ts_rd r))) (is_input (rit (ts_rd r)))) as (c & cs0 & E'). congruence.
  - destruct n as [|n]; [cbn in Hn; lia|]. cbn [length] in Hn. pose proof (sim_nextItem _ _ cfg _ _ _ _ (ts_sim (c :: chunks)) f mask s t H) as W. cbn [retry resume].
    destruct W as [s' t' a W|s' t' W| |]; try constructor; cbn [fst snd]; [split; [lia|exact W]|].
    destruct W as [st er x y ob tp tp' tk W _]. apply feed_rel in W. 
    assert (Z : sr chunks (mkSc st er x ob tp tk) (sc_feed feed_new (mkSc st er y ob tp' tk) c (more chunks))) by (constructor; [exact W|exact I]).
    destruct (IH n _ _ ltac:(lia) Z) as [s2 st2 a [L2 W2]| |]; constructor. split; [cbn [length]; lia|exact W2].
Qed.
Lemma retry_scan cfg n f : forall masks chunks s t, (length chunks <= n)%nat -> sr chunks s t ->
  match scanChunked cs cfg feed_new f masks (t, chunks) with
  | Ret _ evs => exists s' evs', scan_retry cs cfg n f masks s = Ret s' evs' /\ map element evs' = map element evs
  | Undef => scan_retry cs cfg n f masks s = Undef
  | Fuel => scan_retry cs cfg n f masks s = Fuel
  | _ => False
  end.
Proof.
  induction masks as [|m masks IH]; intros chunks s t Hn H; cbn [scanChunked scan_retry fst snd]; [eauto|].
  destruct (retry_rel cfg f m chunks n s t Hn H) as [s1 [t1 chunks1] a [L1 R1]| |]; cbn [bind fst snd] in *; try reflexivity.
  specialize (IH chunks1 s1 t1 ltac:(lia) R1). destruct (scanChunked cs cfg feed_new f masks (t1, chunks1)) as [st2 evs| | | |]; cbn [bind]; try contradiction; try (rewrite IH; reflexivity).
  destruct IH as (s2 & evs' & -> & E). cbn [bind]. do 2 eexists. split; [reflexivity|]. cbn [map]. rewrite E. f_equal. destruct R1. reflexivity.
Qed.
End Okb.
