(** Scanning from char pointers, string iterators and input streams (proofs). *)
From Verif Require Import Base Iter CharMap CodePages Charset TextScanner Ideal ReaderSim ScannerSim IterSim
  CharsetSpec CharsetProofs ReadSpec ReadProofs ChunkRead ChunkScan CstrSim XmlScanner ScanSpec ScanProofs Safety Term SourceFwd.

Ltac Zify.zify_post_hook ::= Z.div_mod_to_equations.

(** ** A reader in front of a reader *)
Lemma rsim_psim : forall {R S T} (o0 : readerops R) (o1 : readerops S) (o2 : readerops T) prel ra rap raj rb rbp P Z,
  rsim prel o0 o1 ra rap raj -> psim o1 o2 rb rbp P Z ->
  psim o0 o2 (fun r t => exists s, ra r s /\ rb s t) (fun r t => exists s, rap r s /\ rbp s t) P Z.
Proof.
  intros R S T o0 o1 o2 prel ra rap raj rb rbp P Z H1 H2.
  assert (Hx : forall A (Q : S -> T -> A -> Prop) (Q2 : R -> T -> A -> Prop) RR (x0 : out R A) (x1 : out S A) (x2 : out T A), orel RR raj x0 x1 -> fw Q x1 x2 ->
     (forall r s t a, RR r s -> Q s t a -> Q2 r t a) -> fw Q2 x0 x2).
  { intros A Q Q2 RR x0 x1 x2 Ho Hf Hq. destruct x2 as [t a| | | |]; cbn [fw] in *; try exact I. destruct Hf as [s [-> Hf]].
    inversion Ho; subst. eexists. split; [reflexivity|]. eapply Hq; eauto. }
  constructor.
  - intros r t [s [Ha Hb]]. exists s. split; [apply (rs_weak _ _ _ _ _ _ H1)|apply (ps_weak _ _ _ _ _ _ H2)]; auto.
  - intros r t [s [Ha Hb]]. eapply Hx; [apply (rs_control _ _ _ _ _ _ H1); exact Ha|apply (ps_control _ _ _ _ _ _ H2); exact Hb|].
    cbn. intros r' s' t' c Ho [F1 F2]. split; [eauto|exact F2].
  - intros r t [s [Ha Hb]]. eapply Hx; [apply (rs_ascii _ _ _ _ _ _ H1); exact Ha|apply (ps_ascii _ _ _ _ _ _ H2); exact Hb|].
    cbn. intros r' s' t' c Ho [F1 F2]. split; [eauto|exact F2].
  - intros r t [s [Ha Hb]] Hp. eapply Hx; [apply (rs_chr _ _ _ _ _ _ H1), (rs_weak _ _ _ _ _ _ H1); exact Ha|apply (ps_chr _ _ _ _ _ _ H2); eauto|].
    cbn. intros r' s' t' c Ho [F1 F2]. split; [eauto|exact F2].
  - intros r t [s [Ha Hb]] Hp. eapply Hx; [apply (rs_raw _ _ _ _ _ _ H1); exact Ha|apply (ps_raw _ _ _ _ _ _ H2); eauto|].
    cbn. intros r' s' t' c Ho [F1 F2]. split; [eauto|exact F2].
  - intros r t [s [Ha Hb]] Hp. eapply Hx; [apply (rs_skip _ _ _ _ _ _ H1); exact Ha|apply (ps_skip _ _ _ _ _ _ H2); eauto|].
    cbn. intros r' s' t' c Ho F1. eauto.
  - intros r t [s [Ha Hb]]. eapply Hx; [apply (rs_skip _ _ _ _ _ _ H1); exact Ha|apply (ps_skip_end _ _ _ _ _ _ H2); eauto|].
    cbn. intros r' s' t' c Ho [F1|F1]; eauto.
  - apply (ps_cc _ _ _ _ _ _ H2).
  - apply (ps_Z _ _ _ _ _ _ H2).
Qed.

(** ** Null terminated memory *)
(** all characters are complete *)
Inductive whole (cs : charset) : list N -> Prop :=
| whole_nil : whole cs []
| whole_char : forall l, (clen cs l <= length l)%nat -> whole cs (skipn (clen cs l) l) -> whole cs l.

(** the terminator *)
Definition term (cs : charset) : list N := repeat 0 (clen cs []).

Definition zrel (cs : charset) (r t : ird) : Prop :=
  ir_m r <> EndZero /\ ir_m t = EndZero /\ ir_l r = ir_l t ++ term cs /\ whole cs (ir_l t).
Definition alive (t : ird) : Prop := ir_l t <> [] /\ ir_m t = EndZero.

Section Zero.
Context (cs : charset).
Hypothesis Hcs : cs_constructible cs = true.

Lemma dec_term : clen cs (term cs) = clen cs [] /\ casc cs (term cs) = 0 /\ alen cs (term cs) = alen cs [].
Proof. destruct cs as [|[]|[]|[]|p]; vm_compute; auto. Qed.

Lemma whole_inv : forall l, whole cs l -> l = [] \/ ((clen cs l <= length l)%nat /\ whole cs (skipn (clen cs l) l)).
Proof. intros l H. destruct H; auto. Qed.

Lemma zrel_facts : forall r t, zrel cs r t ->
  (alen cs (ir_l r) <= length (ir_l r))%nat /\ casc cs (ir_l r) = casc cs (ir_l t) /\ 
  (ir_l t <> [] -> clen cs (ir_l r) = clen cs (ir_l t) /\ (clen cs (ir_l r) <= length (ir_l r))%nat /\ (clen cs (ir_l t) <= length (ir_l t))%nat /\
     cval cs (ir_l r) = cval cs (ir_l t) /\ pad (clen cs (ir_l r)) (ir_l r) = pad (clen cs (ir_l t)) (ir_l t)).
Proof.
  intros r t [H1 [H2 [H3 H4]]]. pose proof dec_term as [D1 [D2 D3]]. rewrite H3. destruct (whole_inv _ H4) as [E|[E _]].
  - rewrite E. cbn [app]. rewrite D2, D3. unfold term at 1. rewrite repeat_length. split; [apply alen_le_clen|]. split; [symmetry; apply casc_nil; exact Hcs|]. intros H. congruence.
  - pose proof (dec_app cs (ir_l t) (term cs) E) as D. pose proof (clen_app cs (ir_l t) (term cs) E) as Dc. unfold dec in D. injection D as E1 E2 E3 E4.
    pose proof (alen_le_clen cs (ir_l t ++ term cs)) as Ha. rewrite app_length. split; [lia|]. split; [exact E1|]. intros _. split; [lia|]. split; [lia|]. split; [lia|]. split; [exact E2|exact E3].
Qed.

Lemma need_ok : forall {A} n r (a : A), (n <= length (ir_l r))%nat -> need n r a = Ret r a.
Proof. intros A n r a H. unfold need. destruct (Nat.leb_spec n (length (ir_l r))); [reflexivity|lia]. Qed.

Theorem zero_psim : psim (ir_ops cs) (ir_ops cs) (zrel cs) (zrel cs) alive irEnd.
Proof.
  assert (Hend : forall r t, zrel cs r t -> ir_l t = [] -> casc cs (ir_l t) = 0) by (intros r t _ ->; apply casc_nil; exact Hcs).
  constructor; cbn [ir_ops r_control r_ascii r_chr r_raw r_skip].
  - auto.
  - intros r t H. destruct (zrel_facts r t H) as [F1 [F2 F3]]. assert (H2 := H). destruct H2 as [_ [H2 _]]. rewrite need_ok, (need_zero _ t) by auto. rewrite F2. apply fw_ret.
    split; [exact H|]. split; [|auto]. intros Hc. split; auto. intros E. apply Hc. rewrite (Hend _ _ H E). reflexivity.
  - intros r t H. destruct (zrel_facts r t H) as [F1 [F2 F3]]. assert (H2 := H). destruct H2 as [_ [H2 _]]. rewrite need_ok, (need_zero _ t) by auto. rewrite F2. apply fw_ret.
    split; [exact H|]. split; [|auto]. intros Hc. split; auto. intros E. apply Hc. rewrite (Hend _ _ H E). reflexivity.
  - intros r t H [P1 P2]. destruct (zrel_facts r t H) as [F1 [F2 F3]]. destruct (F3 P1) as [G1 [G2 [G3 [G4 G5]]]].
    rewrite need_ok, (need_zero _ t) by auto. rewrite G4. apply fw_ret. split; [exact H|split; auto].
  - intros r t H [P1 P2]. destruct (zrel_facts r t H) as [F1 [F2 F3]]. destruct (F3 P1) as [G1 [G2 [G3 [G4 G5]]]].
    rewrite need_ok, (need_zero _ t) by auto. rewrite G5. apply fw_ret. split; [exact H|split; auto].
  - intros r t H [P1 P2]. destruct (zrel_facts r t H) as [F1 [F2 F3]]. destruct (F3 P1) as [G1 [G2 [G3 [G4 G5]]]].
    rewrite need_ok, (need_zero _ t) by auto. cbn [bind]. apply fw_ret. destruct H as [H1 [H2 [H3 H4]]].
    split; [exact H1|]. split; [exact H2|]. unfold ir_skipto. cbn [ir_l]. rewrite G1, H3. split.
    + rewrite skipn_app. replace (clen cs (ir_l t) - length (ir_l t))%nat with 0%nat by lia. reflexivity.
    + destruct (whole_inv _ H4) as [E|[_ E]]; [congruence|exact E].
  - intros r t H. destruct (zrel_facts r t H) as [F1 [F2 F3]]. assert (H0 := H). destruct H as [H1 [H2 [H3 H4]]].
    rewrite need_ok, (need_zero _ t) by auto. cbn [bind]. apply fw_ret. destruct (ir_l t) as [|b l] eqn:El.
    + right. split; cbn [ir_skipto ir_l ir_m]; [rewrite El; apply skipn_nil|exact H2].
    + left. destruct (F3 ltac:(discriminate)) as [G1 [G2 [G3 _]]].
      split; [exact H1|]. split; [exact H2|]. unfold ir_skipto. cbn [ir_l]. rewrite G1, H3, El. split.
      * rewrite skipn_app. replace (clen cs (b :: l) - length (b :: l))%nat with 0%nat by lia. reflexivity.
      * destruct (whole_inv _ H4) as [E|[_ E]]; [congruence|exact E].
  - apply (it_cc cs).
  - apply (it_end cs Hcs).
Qed.
End Zero.

(** ** A scan of the text in memory *)
Section Sources.
Context (incs outcs : charset) (m : option (list (N * N))) (addr : N).
Hypothesis Hcs : cs_constructible incs = true.
Notation cfg := (xml_config incs outcs m addr).

Lemma src_ir_scan : forall f masks text s evs, Forall isByte text ->
  scan (ts_ops src_ops incs) cfg f masks (sc_make (ts_make (src_make text false))) = Ret s evs ->
  exists t, scan (ir_ops incs) cfg f masks (sc_make (mkIr text EndZero 0)) = Ret t evs.
Proof.
  intros f masks text s evs Hb E.
  assert (H : srel eq (srcr incs) (sc_make (ts_make (src_make text false))) (sc_make (mkIr text EndZero 0))).
  { constructor; auto. apply (src_make_rel incs _ false Hb). }
  pose proof (sim_scan _ _ _ _ eq _ _ (sim_nextItem _ _ cfg _ _ _ _ (src_rsim incs Hcs)) (rs_pos _ _ _ _ _ _ (src_rsim incs Hcs)) f masks _ _ H) as G.
  rewrite E in G. inversion G as [? ? ? ? Hr He| | | |]; subst. apply evrel_eq in He. subst. eauto.
Qed.

Lemma psim_scan : forall {R} (o : readerops R) rel relp P Z r f masks text s evs, psim o (ir_ops incs) rel relp P Z -> rel r (mkIr text EndZero 0) -> Forall isByte text ->
  scan (ts_ops src_ops incs) cfg f masks (sc_make (ts_make (src_make text false))) = Ret s evs ->
  exists s' evs', scan o cfg f masks (sc_make r) = Ret s' evs' /\ map element evs' = map element evs.
Proof.
  intros R o rel relp P Z r f masks text s evs Hp Hr Hb E. destruct (src_ir_scan f masks text s evs Hb E) as [t Et].
  destruct (f_scan _ _ cfg _ _ _ _ (psim_fsim _ _ _ _ _ _ Hp) masks f (sc_make r) (sc_make (mkIr text EndZero 0)) t evs) as [s' [evs' [H1 [_ H2]]]].
  - left. constructor; [exact Hr|cbn; lia].
  - exact Et.
  - eauto.
Qed.

(** *** char* *)
Lemma term_bytes : Forall isByte (term incs).
Proof. unfold term. apply Forall_forall. intros x Hx. apply repeat_spec in Hx. subst. unfold isByte. lia. Qed.

Theorem cptr_scan : forall f masks text s evs, Forall isByte text -> whole incs text ->
  scan (ts_ops src_ops incs) cfg f masks (sc_make (ts_make (src_make text false))) = Ret s evs ->
  exists s' evs', scan (ts_ops cptr_ops incs) cfg f masks (sc_make (ts_make (mkCptr (text ++ term incs) 0))) = Ret s' evs' /\ map element evs' = map element evs.
Proof.
  intros f masks text s evs Hb Hw E. eapply psim_scan; [| |exact Hb|exact E].
  - eapply rsim_psim; [apply (isim_rsim _ _ _ _ cptr_isim incs)|]. eapply rsim_psim; [apply (ts_rsim incs Hcs)|]. apply (zero_psim incs Hcs).
  - exists (ts_make (mkStream (text ++ term incs) EndUndef 0)). split.
    + apply tsrel_make. split; [reflexivity|]. split; reflexivity.
    + exists (mkIr (text ++ term incs) EndUndef 0). split.
      * apply ts_make_rel. apply Forall_app. split; [exact Hb|apply term_bytes].
      * split; [discriminate|]. repeat split; auto.
Qed.

(** *** std::istream *)
Theorem istream_scan : forall f masks reads bufsize i, Forall (goodread bufsize) reads -> Forall isByte (flat_map rd_data reads) -> istrm_make reads bufsize = Ret i tt ->
  match scan (ts_ops istrm_ops incs) cfg f masks (sc_make (ts_make i)), scan (ts_ops src_ops incs) cfg f masks (sc_make (ts_make (src_make (flat_map rd_data reads) false))) with
  | Ret _ evs1, Ret _ evs2 => map element evs1 = map element evs2
  | Fuel, Fuel => True
  | Undef, Undef => True
  | Jump _, Jump _ => True
  | Throw _, Throw _ => True
  | _, _ => False
  end.
Proof.
  intros f masks reads bufsize i Hg Hb Hi.
  assert (H : srel eq (srcr incs) (sc_make (ts_make (src_make (flat_map rd_data reads) false))) (sc_make (mkIr (flat_map rd_data reads) EndZero 0))).
  { constructor; auto. apply (src_make_rel incs _ false Hb). }
  pose proof (sim_scan _ _ _ _ eq _ _ (sim_nextItem _ _ cfg _ _ _ _ (src_rsim incs Hcs)) (rs_pos _ _ _ _ _ _ (src_rsim incs Hcs)) f masks _ _ H) as G.
  destruct (istrm_make_rel incs reads bufsize Hg Hb) as [i2 [Ei Hr]]. rewrite Hi in Ei. injection Ei as <-.
  assert (H2 : srel (fun _ _ => True) (isr incs) (sc_make (ts_make i)) (sc_make (mkIr (flat_map rd_data reads) EndZero 0))) by (constructor; auto).
  pose proof (sim_scan _ _ _ _ (fun _ _ => True) _ _ (sim_nextItem _ _ cfg _ _ _ _ (istrm_rsim incs Hcs)) (rs_pos _ _ _ _ _ _ (istrm_rsim incs Hcs)) f masks _ _ H2) as G2.
  inversion G as [? ? ? ? G1 G1e E1 E2|? ? G1 E1 E2|? ? G1 E1 E2|E1 E2|E1 E2]; inversion G2 as [? ? ? ? G3 G3e E3 E4|? ? G3 E3 E4|? ? G3 E3 E4|E3 E4|E3 E4];
    try congruence; auto.
  apply evrel_eq in G1e. apply evrel_elements in G3e. congruence.
Qed.
End Sources.
