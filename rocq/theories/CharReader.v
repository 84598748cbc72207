(** A reader over a list of characters; texts in any encoding are scanned like their list of characters (proofs). *)
From Verif Require Import Base Iter CharMap CodePages Charset TextScanner Ideal ReaderSim ScannerSim IterSim
  CharsetSpec CharsetProofs ReadSpec ReadProofs XmlScanner ScanSpec ScanProofs.

Definition kasc (c : N) : N := if c <? 128 then c else 255.
(** How characters are written: those below 2^32 in a character set, other ones as bytes of their own. Such characters stand for the
    sequences of bytes of a text that do not encode a character. *)
Record kout := mkKo { ko_cs : charset; ko_ext : N -> list N }.
Definition kpr (o : kout) (c : N) : list N := if c <? 2 ^ 32 then cs_print (ko_cs o) c else ko_ext o (c - 2 ^ 32).
Definition kplain (cs : charset) : kout := mkKo cs (fun c => cs_print cs (c + 2 ^ 32)).
Lemma kpr_low : forall o c, c < 2 ^ 32 -> kpr o c = cs_print (ko_cs o) c.
Proof. intros o c H. unfold kpr. apply N.ltb_lt in H. rewrite H. reflexivity. Qed.
Lemma kpr_plain : forall cs c, kpr (kplain cs) c = cs_print cs c.
Proof. intros cs c. unfold kpr, kplain. cbn [ko_cs ko_ext]. destruct (N.ltb_spec c (2 ^ 32)); [reflexivity|]. f_equal. lia. Qed.

Definition kr_ops (o : kout) : readerops (list N) :=
  mkReaderops
    (fun l => Ret l (ctl_of (kasc (hd 0 l))))
    (fun l => Ret l (asc_of (kasc (hd 0 l))))
    (fun l => Ret l (hd 0 l))
    (fun l => Ret l (kpr o (hd 0 l)))
    (fun l => Ret (tl l) tt)
    (fun l => 0).

(** what is written for a character copied from the source *)
Definition copied (incs outcs : charset) (u : uchr) : list N :=
  if cs_same_class incs outcs && cs_is_equal incs outcs then u_raw u else cs_print outcs (u_val u).
Definition ucode (incs : charset) (o : kout) (u : uchr) (c : N) : Prop := u_asc u = kasc c /\ (c <> 0 -> copied incs (ko_cs o) u = kpr o c).
Definition krel (incs : charset) (o : kout) (u : urd) (l : list N) : Prop := Forall2 (ucode incs o) (ur_l u) l.

Lemma casc_end : forall cs, cs_constructible cs = true -> casc cs [] = 0.
Proof. intros [|[]|[]|[]|p] H; vm_compute; reflexivity. Qed.

Lemma krel_asc : forall cs o u l, cs_constructible cs = true -> krel cs o u l ->
  u_asc (ucur (dec cs []) u) = kasc (hd 0 l).
Proof.
  intros cs o u l Hcs H. unfold ucur. destruct H as [|x c us l [Hx _] _]; cbn [hd]; [|exact Hx].
  cbn [dec u_asc]. rewrite casc_end by auto. reflexivity.
Qed.

Lemma kr_rsimc : forall cs o, cs_constructible cs = true ->
  rsimc (fun _ _ => True) (ur_ops (dec cs [])) (kr_ops o) (krel cs o) (krel cs o) (krel cs o).
Proof.
  intros cs o Hcs. constructor; cbn [ur_ops kr_ops r_control r_ascii r_skip r_pos]; auto.
  - intros u l H. rewrite (krel_asc cs o u l Hcs H). constructor. exact H.
  - intros u l H. rewrite (krel_asc cs o u l Hcs H). constructor. exact H.
  - intros u l H. constructor. unfold krel in *. cbn [ur_l]. destruct H; [constructor|assumption].
Qed.

Lemma same_config : forall a b, cs_same_class a b && cs_is_equal a b = true -> a = b.
Proof.
  intros [|x|x|x|x] [|y|y|y|y]; cbn [cs_same_class cs_is_equal andb]; intros H; try discriminate; try reflexivity; f_equal;
   try (apply andb_prop in H; apply Bool.eqb_prop; apply H). apply N.eqb_eq. exact H.
Qed.

(** the configuration for characters *)
Definition kcfg (o : kout) (m : option (list (N * N))) (addr : N) : config := mkCfg (ko_cs o) true m addr.

Section KScan.
Context (incs : charset) (o : kout) (m : option (list (N * N))) (addr : N).
Hypothesis Hcs : cs_constructible incs = true.
Let cfg := xml_config incs (ko_cs o) m addr.

Lemma kr_nextItem : forall f mask s t, srel (fun _ _ => True) (krel incs o) s t ->
  orel (srel (fun _ _ => True) (krel incs o)) (srel (fun _ _ => True) (krel incs o))
    (nextItem (ur_ops (dec incs [])) cfg f mask s) (nextItem (kr_ops o) (kcfg o m addr) f mask t).
Proof.
  intros f mask s t H. change (kcfg o m addr) with (with_raw true cfg).
  apply (sim_nextItem_raw _ _ cfg true _ _ _ _ (kr_rsimc incs o Hcs) (fun u => u_asc (ucur (dec incs []) u) <> 0)); auto.
  - intros r r' c E Hc. cbn [ur_ops r_control] in E. injection E as <- <-. intros E. apply Hc. rewrite E. reflexivity.
  - intros r r' c Hr E. cbn [ur_ops r_ascii] in E. injection E as <- <-. exact Hr.
  - intros s1 t1 Hne H1. destruct H1 as [st er r l ob tp tp' tk Hr Hp]. cbn [sc_src] in Hne. assert (Hr0 := Hr).
    rewrite (krel_asc incs o r l Hcs Hr) in Hne.
    unfold krel in Hr. destruct r as [ul up]. cbn [ur_l] in *. destruct Hr as [|x c us l [_ Hx] _]; [exfalso; apply Hne; reflexivity|].
    cbn [hd] in Hne. assert (Hc0 : c <> 0) by (intros ->; apply Hne; reflexivity). specialize (Hx Hc0).
    unfold copychar, sc_raw, sc_chr, on_src. cbn [sc_src with_raw cf_raw kr_ops ur_ops r_raw r_chr omap bind hd].
    unfold ucur. cbn [ur_l hd]. rewrite <- Hx. unfold copied.
    unfold cfg, xml_config. cbn [cf_raw]. destruct (cs_same_class incs (ko_cs o) && cs_is_equal incs (ko_cs o)) eqn:E; cbn [omap bind].
    + constructor. constructor; auto.
    + constructor. constructor; auto.
Qed.

Lemma kr_scan : forall f masks s t, srel (fun _ _ => True) (krel incs o) s t ->
  orelv (srel (fun _ _ => True) (krel incs o)) (srel (fun _ _ => True) (krel incs o)) (Forall2 (evrel (fun _ _ => True)))
    (scan (ur_ops (dec incs [])) cfg f masks s) (scan (kr_ops o) (kcfg o m addr) f masks t).
Proof. intros f masks s t H. apply sim_scan with (relj := krel incs o); auto. apply kr_nextItem. Qed.
End KScan.

(** scanning a list of characters *)
Definition k_scan (o : kout) (f : nat) (masks : list N) (cl : list N) : out (scanner (list N)) (list event) :=
  scan (kr_ops o) (kcfg o None 0) f masks (sc_make cl).

(** every text of bytes is scanned like the characters it is coded by *)
Theorem xml_scan_codes : forall incs o f masks text cl, cs_constructible incs = true -> Forall isByte text ->
  Forall2 (ucode incs o) (units incs text) cl ->
  orelv (fun _ _ => True) (fun _ _ => True) (fun e1 e2 => map element e1 = map element e2)
    (xml_scan incs (ko_cs o) f masks text) (k_scan o f masks cl).
Proof.
  intros incs o f masks text cl Hcs Hb Hr.
  pose proof (xml_scan_ur incs (ko_cs o) f masks _ Hcs Hb) as H1. unfold ur_scan in H1.
  assert (H0 : srel (fun _ _ => True) (krel incs o) (sc_make (mkUr (units incs text) 0)) (sc_make cl)).
  { unfold sc_make. constructor; auto. }
  pose proof (kr_scan incs o None 0 Hcs f masks _ _ H0) as H2. unfold k_scan.
  destruct H1 as [s t a b _ <-|s t _|s t _| |]; inversion H2; subst; constructor; auto.
  eapply evrel_elements; eauto.
Qed.

(** a text of characters that can be represented is coded by them *)
Lemma plain_codes : forall incs outcs cl, cs_constructible incs = true -> Forall (representable incs) cl ->
  Forall2 (ucode incs (kplain outcs)) (units incs (flat_map (cs_print incs) cl)) cl.
Proof.
  intros incs outcs cl Hcs Hr. rewrite units_print by auto. clear Hr. induction cl as [|c cl IH]; constructor; [|exact IH].
  split; [reflexivity|]. intros _. rewrite kpr_plain. unfold copied, uchr_of. cbn [u_raw u_val ko_cs kplain].
  destruct (cs_same_class incs outcs && cs_is_equal incs outcs) eqn:E; [|reflexivity]. apply same_config in E. rewrite <- E. reflexivity.
Qed.
Theorem xml_scan_chars : forall incs outcs f masks cl, cs_constructible incs = true -> Forall (representable incs) cl ->
  orelv (fun _ _ => True) (fun _ _ => True) (fun e1 e2 => map element e1 = map element e2)
    (xml_scan incs outcs f masks (flat_map (cs_print incs) cl)) (k_scan (kplain outcs) f masks cl).
Proof.
  intros incs outcs f masks cl Hcs Hr. apply (xml_scan_codes incs (kplain outcs)); auto; [apply print_bytes; auto|apply plain_codes; auto].
Qed.
