(** Reading characters with a text scanner (proofs). *)
From Verif Require Import Base Iter CharMap CodePages Charset TextScanner Ideal ReaderSim ScannerSim IterSim
  CharsetSpec CharsetProofs ReadSpec.

Ltac Zify.zify_post_hook ::= Z.div_mod_to_equations.

(** ** composition of simulations *)
Definition rcomp {A B C : Type} (r1 : A -> B -> Prop) (r2 : B -> C -> Prop) (a : A) (c : C) : Prop :=
  exists b, r1 a b /\ r2 b c.

Lemma orel_comp : forall {A B C V} (R1 J1 : A -> B -> Prop) (R2 J2 : B -> C -> Prop)
    (x : out A V) (y : out B V) (z : out C V),
  orel R1 J1 x y -> orel R2 J2 y z -> orel (rcomp R1 R2) (rcomp J1 J2) x z.
Proof.
  intros A B C V R1 J1 R2 J2 x y z H1 H2.
  destruct H1; inversion H2; subst; constructor; eexists; eauto.
Qed.

Lemma rsim_comp : forall {A B C} p1 p2 (o1 : readerops A) (o2 : readerops B) (o3 : readerops C)
    (r1 r1p r1j : A -> B -> Prop) (r2 r2p r2j : B -> C -> Prop),
  rsim p1 o1 o2 r1 r1p r1j -> rsim p2 o2 o3 r2 r2p r2j ->
  rsim (rcomp p1 p2) o1 o3 (rcomp r1 r2) (rcomp r1p r2p) (rcomp r1j r2j).
Proof.
  intros A B C p1 p2 o1 o2 o3 r1 r1p r1j r2 r2p r2j H1 H2. constructor.
  - intros a c [b [Ha Hb]]. exists b. split; [apply (rs_weak _ _ _ _ _ _ H1)|apply (rs_weak _ _ _ _ _ _ H2)]; auto.
  - intros a c [b [Ha Hb]]. eapply orel_comp; [apply (rs_control _ _ _ _ _ _ H1); eauto|apply (rs_control _ _ _ _ _ _ H2); auto].
  - intros a c [b [Ha Hb]]. eapply orel_comp; [apply (rs_ascii _ _ _ _ _ _ H1); eauto|apply (rs_ascii _ _ _ _ _ _ H2); auto].
  - intros a c [b [Ha Hb]]. eapply orel_comp; [apply (rs_chr _ _ _ _ _ _ H1); eauto|apply (rs_chr _ _ _ _ _ _ H2); auto].
  - intros a c [b [Ha Hb]]. eapply orel_comp; [apply (rs_raw _ _ _ _ _ _ H1); eauto|apply (rs_raw _ _ _ _ _ _ H2); auto].
  - intros a c [b [Ha Hb]]. eapply orel_comp; [apply (rs_skip _ _ _ _ _ _ H1); eauto|apply (rs_skip _ _ _ _ _ _ H2); auto].
  - intros a c [b [Ha Hb]]. eexists. split; [apply (rs_pos _ _ _ _ _ _ H1); eauto|apply (rs_pos _ _ _ _ _ _ H2); auto].
Qed.

Lemma rsim_prel : forall {A B} (p p' : N -> N -> Prop) (o1 : readerops A) (o2 : readerops B) r rp rj,
  (forall a b, p a b -> p' a b) -> rsim p o1 o2 r rp rj -> rsim p' o1 o2 r rp rj.
Proof. intros A B p p' o1 o2 r rp rj Hp [H1 H2 H3 H4 H5 H6 H7]. constructor; auto. Qed.

(** the concrete iterators *)
Definition srcr cs := rcomp (tsrel src_rel) (trel cs).
Definition srcrp cs := rcomp (tsrel src_rel) (trelp cs).
Definition srcrj cs := rcomp (tsrel src_rel) (trelj cs).

Lemma src_rsim : forall cs, cs_constructible cs = true ->
  rsim eq (ts_ops src_ops cs) (ir_ops cs) (srcr cs) (srcrp cs) (srcrj cs).
Proof.
  intros cs Hcs. eapply rsim_prel; [|eapply rsim_comp; [apply (isim_rsim _ _ _ _ src_isim)|apply ts_rsim; auto]].
  intros a b [c [-> ->]]. reflexivity.
Qed.

Definition cptrr cs := rcomp (tsrel cptr_rel) (trel cs).
Definition cptrrp cs := rcomp (tsrel cptr_rel) (trelp cs).
Definition cptrrj cs := rcomp (tsrel cptr_rel) (trelj cs).

Lemma cptr_rsim : forall cs, cs_constructible cs = true ->
  rsim eq (ts_ops cptr_ops cs) (ir_ops cs) (cptrr cs) (cptrrp cs) (cptrrj cs).
Proof.
  intros cs Hcs. eapply rsim_prel; [|eapply rsim_comp; [apply (isim_rsim _ _ _ _ cptr_isim)|apply ts_rsim; auto]].
  intros a b [c [-> ->]]. reflexivity.
Qed.

Definition isr cs := rcomp (tsrel istrm_rel) (trel cs).
Definition isrp cs := rcomp (tsrel istrm_rel) (trelp cs).
Definition isrj cs := rcomp (tsrel istrm_rel) (trelj cs).

Lemma istrm_rsim : forall cs, cs_constructible cs = true ->
  rsim (fun _ _ => True) (ts_ops istrm_ops cs) (ir_ops cs) (isr cs) (isrp cs) (isrj cs).
Proof.
  intros cs Hcs. eapply rsim_prel; [|eapply rsim_comp; [apply (isim_rsim _ _ _ _ istrm_isim)|apply ts_rsim; auto]].
  auto.
Qed.

Lemma src_make_rel : forall cs l eom, Forall isByte l ->
  srcr cs (ts_make (src_make l eom)) (mkIr l (if eom then EndJump else EndZero) 0).
Proof.
  intros cs l eom Hl. exists (ts_make (mkStream l (if eom then EndJump else EndZero) 0)).
  split; [|apply ts_make_rel; auto]. apply tsrel_make. split; [reflexivity|]. split; [reflexivity|].
  cbn [spos]. unfold src_position, src_make. cbn [si_abs si_buf si_itr]. unfold u64, sub64, u64. lia.
Qed.

Lemma cptr_make_rel : forall cs l, Forall isByte l ->
  cptrr cs (ts_make (mkCptr l 0)) (mkIr l EndUndef 0).
Proof.
  intros cs l Hl. exists (ts_make (mkStream l EndUndef 0)).
  split; [|apply ts_make_rel; auto]. apply tsrel_make. split; [reflexivity|]. split; reflexivity.
Qed.

Lemma istrm_make_rel : forall cs reads bufsize, Forall (goodread bufsize) reads ->
  Forall isByte (flat_map rd_data reads) ->
  exists i, istrm_make reads bufsize = Ret i tt /\
    isr cs (ts_make i) (mkIr (flat_map rd_data reads) EndZero 0).
Proof.
  intros cs reads bufsize Hg Hb. unfold istrm_make, istrm_fillbuf. cbn [is_input is_bufsize is_abs is_buf].
  assert (K : forall i, istrm_rel i (mkStream (flat_map rd_data reads) EndZero 0) ->
     isr cs (ts_make i) (mkIr (flat_map rd_data reads) EndZero 0)).
  { intros i Hi. exists (ts_make (mkStream (flat_map rd_data reads) EndZero 0)).
    split; [apply tsrel_make; auto|apply ts_make_rel; auto]. }
  destruct reads as [|r rs].
  - eexists. split; [reflexivity|]. apply K. split; [reflexivity|]. split; [reflexivity|]. split; [constructor|]. right. auto.
  - inversion Hg as [|r' rs' H1 H2]; subst. destruct H1 as [H1 [H3 H4]].
    destruct (N.ltb_spec bufsize (N.of_nat (length (rd_data r)))); [lia|]. rewrite H1.
    eexists. split; [reflexivity|]. apply K. split; [reflexivity|]. split; [reflexivity|]. split; [auto|].
    left. cbn [is_readpos is_buf]. destruct (rd_data r); [congruence|]. cbn [length]. lia.
Qed.

(** ** bytes *)
Lemma spec_encode_bytes : forall cs c, representable cs c -> Forall isByte (spec_encode cs c).
Proof.
  intros cs c Hr. unfold isByte. destruct cs as [|be|be|be|p]; cbn [representable spec_encode] in *.
  - change (2 ^ 31) with 2147483648 in Hr. unfold spec_utf8.
    change (2 ^ 7) with 128. change (2 ^ 11) with 2048. change (2 ^ 16) with 65536.
    change (2 ^ 21) with 2097152. change (2 ^ 26) with 67108864.
    change (64 ^ 0) with 1. change (64 ^ 1) with 64. change (64 ^ 2) with 4096.
    change (64 ^ 3) with 262144. change (64 ^ 4) with 16777216. change (64 ^ 5) with 1073741824.
    destruct (N.ltb_spec c 128); [repeat constructor; lia|].
    destruct (N.ltb_spec c 2048); [repeat constructor; lia|].
    destruct (N.ltb_spec c 65536); [repeat constructor; lia|].
    destruct (N.ltb_spec c 2097152); [repeat constructor; lia|].
    destruct (N.ltb_spec c 67108864); repeat constructor; lia.
  - unfold spec_utf16, spec_unit16. destruct (N.ltb_spec c 0x10000); destruct be; cbn [app]; repeat constructor; lia.
  - change (2 ^ 16) with 65536 in Hr. unfold spec_ucs2, spec_unit16. destruct be; repeat constructor; lia.
  - change (2 ^ 32) with 4294967296 in Hr. unfold spec_ucs4. change (256 ^ 3) with 16777216. change (256 ^ 2) with 65536.
    destruct be; cbn [rev app]; repeat constructor; lia.
  - destruct (N.ltb_spec c 128); [constructor; [lia|constructor]|].
    destruct (iso8859_byte p c) as [b|] eqn:E; [|constructor].
    apply find_some in E. destruct E as [E _]. apply in_map_iff in E. destruct E as [n [<- E]]. apply in_seq in E.
    constructor; [lia|constructor].
Qed.

Lemma print_bytes : forall cs cl, cs_constructible cs = true -> Forall (representable cs) cl ->
  Forall isByte (flat_map (cs_print cs) cl).
Proof.
  intros cs cl Hcs H. induction H as [|c cl Hc H IH]; cbn [flat_map]; [constructor|].
  apply Forall_app. split; [|exact IH]. rewrite print_spec by auto. apply spec_encode_bytes. auto.
Qed.

(** ** reading what was printed *)
Section Read.
Context {I : Type} (ops : iterops I) (cs : charset).
Context (prel : N -> N -> Prop) (rel relp relj : tscan I -> ird -> Prop).
Hypothesis Hsim : rsim prel (ts_ops ops cs) (ir_ops cs) rel relp relj.

Lemma chr_ir : forall t r, rel t r -> ready (ir_m r) (clen cs (ir_l r)) (ir_l r) = true ->
  exists t', ts_chr ops cs t = Ret t' (cval cs (ir_l r)) /\ relp t' r.
Proof.
  intros t r Hr Hn. pose proof (rs_chr _ _ _ _ _ _ Hsim t r Hr) as H.
  cbn [ts_ops ir_ops r_chr] in H. unfold need in H. unfold ready in Hn.
  destruct (Nat.leb _ _).
  - inversion H; subst. eauto.
  - cbn [orb] in Hn. destruct (ir_m r); try discriminate. inversion H; subst. eauto.
Qed.

Lemma skip_ir : forall t r, relp t r -> ready (ir_m r) (clen cs (ir_l r)) (ir_l r) = true ->
  exists t', ts_skip ops cs t = Ret t' tt /\ rel t' (ir_skipto (clen cs (ir_l r)) r).
Proof.
  intros t r Hr Hn. pose proof (rs_skip _ _ _ _ _ _ Hsim t r Hr) as H.
  cbn [ts_ops ir_ops r_skip] in H. unfold need in H.
  pose proof (alen_le_clen cs (ir_l r)) as Hl. unfold ready in Hn.
  destruct (Nat.leb_spec (clen cs (ir_l r)) (length (ir_l r))).
  - destruct (Nat.leb_spec (alen cs (ir_l r)) (length (ir_l r))); [|lia]. cbn [bind] in H.
    inversion H; subst. eauto.
  - cbn [orb] in Hn. destruct (ir_m r) eqn:Em; try discriminate.
    destruct (Nat.leb _ _); cbn [bind] in H; inversion H; subst; eauto.
Qed.

Lemma readChars_print : forall cl rest m p t, cs_constructible cs = true -> Forall (representable cs) cl ->
  rel t (mkIr (flat_map (cs_print cs) cl ++ rest) m p) ->
  exists t', readChars ops cs (length cl) t = Ret t' cl /\
    rel t' (mkIr rest m (p + N.of_nat (length (flat_map (cs_print cs) cl)))).
Proof.
  intros cl rest m p t Hcs Hr. revert p t. induction Hr as [|c cl Hc Hr IH]; intros p t Ht; cbn [flat_map length readChars] in *.
  - exists t. split; [reflexivity|]. cbn [length app] in *. replace (p + N.of_nat 0) with p by lia. exact Ht.
  - rewrite <- app_assoc in Ht.
    set (l := cs_print cs c ++ flat_map (cs_print cs) cl ++ rest) in *.
    assert (Hlen : clen cs l = length (cs_print cs c)) by (apply clen_print; auto).
    assert (Hready : ready m (clen cs l) l = true).
    { apply ready_spec. right. rewrite Hlen. unfold l. rewrite app_length. lia. }
    destruct (chr_ir t _ Ht Hready) as [t1 [E1 H1]]. rewrite E1. cbn [bind].
    destruct (skip_ir t1 _ H1 Hready) as [t2 [E2 H2]]. rewrite E2. cbn [bind].
    unfold ir_skipto in H2; cbn [ir_l ir_m ir_p] in *.
    assert (Hsk : skipn (clen cs l) l = flat_map (cs_print cs) cl ++ rest).
    { rewrite Hlen. unfold l. apply skipn_app_exact. reflexivity. }
    unfold ir_skipto in H2. cbn [ir_l ir_m ir_p] in H2. rewrite Hsk in H2.
    destruct (IH _ _ H2) as [t3 [E3 H3]]. rewrite E3. cbn [bind].
    assert (Hv : cval cs l = c).
    { pose proof (f_equal u_val (dec_print cs c (flat_map (cs_print cs) cl ++ rest) Hcs Hc)) as H. exact H. }
    rewrite Hv. exists t3. split; [reflexivity|].
    rewrite app_length, Nat2N.inj_add, <- Hlen, N.add_assoc. exact H3.
Qed.

(** reading any input with null characters behind the end *)
Fixpoint after (n : nat) (l : list N) : list N :=
  match n with O => l | S n' => after n' (skipn (clen cs l) l) end.
Fixpoint lens (n : nat) (l : list N) : nat :=
  match n with O => O | S n' => (clen cs l + lens n' (skipn (clen cs l) l))%nat end.
Fixpoint vals (n : nat) (l : list N) : list N :=
  match n with O => [] | S n' => cval cs l :: vals n' (skipn (clen cs l) l) end.

Lemma readChars_any : forall n l p t, rel t (mkIr l EndZero p) ->
  exists t', readChars ops cs n t = Ret t' (vals n l) /\ rel t' (mkIr (after n l) EndZero (p + N.of_nat (lens n l))).
Proof.
  induction n as [|n IH]; intros l p t Ht; cbn [readChars vals after lens].
  - exists t. split; [reflexivity|]. replace (p + N.of_nat 0) with p by lia. exact Ht.
  - assert (Hready : ready EndZero (clen cs l) l = true) by (apply ready_spec; auto).
    destruct (chr_ir t _ Ht Hready) as [t1 [E1 H1]]. rewrite E1. cbn [bind].
    destruct (skip_ir t1 _ H1 Hready) as [t2 [E2 H2]]. rewrite E2. cbn [bind].
    unfold ir_skipto in H2; cbn [ir_l ir_m ir_p] in *.
    destruct (IH _ _ _ H2) as [t3 [E3 H3]]. rewrite E3. cbn [bind].
    exists t3. split; [reflexivity|]. rewrite Nat2N.inj_add, N.add_assoc. exact H3.
Qed.

(** observers *)
Definition answer_of (o : observer) (l : list N) : answer :=
  match o with
  | ObsControl => AnsControl (ctl_of (casc cs l))
  | ObsAscii => AnsCode (asc_of (casc cs l))
  | ObsChr => AnsCode (cval cs l)
  end.

Lemma ask_ir : forall o t l p, rel t (mkIr l EndZero p) ->
  exists t', ask ops cs o t = Ret t' (answer_of o l) /\ relp t' (mkIr l EndZero p).
Proof.
  intros o t l p Ht.
  pose proof (rs_control _ _ _ _ _ _ Hsim t _ Ht) as Hc.
  pose proof (rs_ascii _ _ _ _ _ _ Hsim t _ Ht) as Ha.
  pose proof (rs_chr _ _ _ _ _ _ Hsim t _ Ht) as Hv.
  cbn [ts_ops ir_ops r_control r_ascii r_chr ir_l] in Hc, Ha, Hv.
  rewrite need_zero in Hc by reflexivity. rewrite need_zero in Ha by reflexivity.
  rewrite need_zero in Hv by reflexivity.
  destruct o; cbn [ask answer_of].
  - inversion Hc; subst. cbn [bind]. eauto.
  - inversion Ha; subst. cbn [bind]. eauto.
  - inversion Hv; subst. cbn [bind]. eauto.
Qed.

Lemma askAll_ir : forall os t l p, rel t (mkIr l EndZero p) ->
  exists t', askAll ops cs os t = Ret t' (map (fun o => answer_of o l) os) /\ rel t' (mkIr l EndZero p).
Proof.
  induction os as [|o os IH]; intros t l p Ht; cbn [askAll map].
  - eauto.
  - destruct (ask_ir o t l p Ht) as [t1 [E1 H1]]. rewrite E1. cbn [bind].
    destruct (IH t1 l p) as [t2 [E2 H2]]; [apply (rs_weak _ _ _ _ _ _ Hsim); auto|].
    rewrite E2. cbn [bind]. eauto.
Qed.

(** skip() without a look at the character before *)
Hypothesis Hskip0 : forall t l p, rel t (mkIr l EndZero p) ->
  exists t', ts_skip ops cs t = Ret t' tt /\ rel t' (ir_skipto (clen cs l) (mkIr l EndZero p)).

Fixpoint answers (oss : list (list observer)) (l : list N) : list (list answer) :=
  match oss with
  | [] => []
  | os :: oss' => map (fun o => answer_of o l) os :: answers oss' (skipn (clen cs l) l)
  end.

Lemma session_ir : forall oss t l p, rel t (mkIr l EndZero p) ->
  exists t', session ops cs oss t = Ret t' (answers oss l) /\
    rel t' (mkIr (after (length oss) l) EndZero (p + N.of_nat (lens (length oss) l))).
Proof.
  induction oss as [|os oss IH]; intros t l p Ht; cbn [session answers after lens length].
  - exists t. split; [reflexivity|]. replace (p + N.of_nat 0) with p by lia. exact Ht.
  - destruct (askAll_ir os t l p Ht) as [t1 [E1 H1]]. rewrite E1. cbn [bind].
    destruct (Hskip0 t1 l p H1) as [t2 [E2 H2]]. rewrite E2. cbn [bind].
    unfold ir_skipto in H2; cbn [ir_l ir_m ir_p] in H2.
    destruct (IH _ _ _ H2) as [t3 [E3 H3]]. rewrite E3. cbn [bind].
    exists t3. split; [reflexivity|]. rewrite Nat2N.inj_add, N.add_assoc. exact H3.
Qed.
End Read.

Lemma ts_skip0 : forall cs t l p, cs_constructible cs = true -> trel cs t (mkIr l EndZero p) ->
  exists t', ts_skip stream_ops cs t = Ret t' tt /\ trel cs t' (ir_skipto (clen cs l) (mkIr l EndZero p)).
Proof.
  intros cs t l p Hcs [Hb [k [Hr [Hk Hv]]]]. cbn [ir_l ir_m ir_p] in *.
  destruct (cs_skip_spec0 cs Hcs l p k _ Hr Hk Hb) as [v [E Hrv]].
  unfold ts_skip, ts_lift. rewrite E. cbn [omap bind ts_rd].
  eexists. split; [reflexivity|]. split.
  - cbn [ir_skipto ir_l]. rewrite Forall_forall in *. intros x Hx. apply Hb.
    rewrite <- (firstn_skipn (clen cs l) l). apply in_or_app. auto.
  - exists 0%nat. cbn [ts_rd ts_val ir_skipto ir_l ir_m ir_p]. split; [apply Hrv|]. split; [lia|auto].
Qed.

Lemma src_skip0 : forall cs t l p, cs_constructible cs = true -> srcr cs t (mkIr l EndZero p) ->
  exists t', ts_skip src_ops cs t = Ret t' tt /\ srcr cs t' (ir_skipto (clen cs l) (mkIr l EndZero p)).
Proof.
  intros cs t l p Hcs [ts [H1 H2]].
  destruct (ts_skip0 cs ts l p Hcs H2) as [t' [E H]].
  pose proof (rs_skip _ _ _ _ _ _ (isim_rsim _ _ _ _ src_isim cs) t ts H1) as Hs.
  cbn [ts_ops r_skip] in Hs. rewrite E in Hs. inversion Hs; subst. eexists. split; [reflexivity|].
  exists t'. auto.
Qed.
