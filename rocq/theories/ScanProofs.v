(** Sequences of calls of nextItem and simulation; encoding independence (proofs). *)
From Verif Require Import Base Iter CharMap CodePages Charset TextScanner Ideal ReaderSim ScannerSim IterSim
  CharsetSpec CharsetProofs ReadSpec ReadProofs XmlScanner ScanSpec.

(** outcomes with related values *)
Inductive orelv {S T A B : Type} (RR RJ : S -> T -> Prop) (RA : A -> B -> Prop) : out S A -> out T B -> Prop :=
| orelv_ret : forall s t a b, RR s t -> RA a b -> orelv RR RJ RA (Ret s a) (Ret t b)
| orelv_jump : forall s t, RJ s t -> orelv RR RJ RA (Jump s) (Jump t)
| orelv_throw : forall s t, RJ s t -> orelv RR RJ RA (Throw s) (Throw t)
| orelv_undef : orelv RR RJ RA Undef Undef
| orelv_fuel : orelv RR RJ RA Fuel Fuel.

Definition evrel (prel : N -> N -> Prop) (e1 e2 : event) : Prop :=
  element e1 = element e2 /\ prel (ev_tokpos e1) (ev_tokpos e2) /\ prel (ev_pos e1) (ev_pos e2).

Section ScanSim.
Context {R T : Type} (o1 : readerops R) (o2 : readerops T) (cfg1 cfg2 : config).
Context (prel : N -> N -> Prop) (rel relj : R -> T -> Prop).
Hypothesis Hnext : forall f mask s t, srel prel rel s t ->
  orel (srel prel rel) (srel prel relj) (nextItem o1 cfg1 f mask s) (nextItem o2 cfg2 f mask t).
Hypothesis Hpos : forall r t, rel r t -> prel (r_pos o1 r) (r_pos o2 t).

Lemma sim_scan : forall f masks s t, srel prel rel s t ->
  orelv (srel prel rel) (srel prel relj) (Forall2 (evrel prel)) (scan o1 cfg1 f masks s) (scan o2 cfg2 f masks t).
Proof.
  induction masks as [|m masks IH]; intros s t H; cbn [scan].
  - constructor; auto.
  - destruct (Hnext f m s t H) as [s1 t1 ty H1|s1 t1 H1|s1 t1 H1| |]; cbn [bind]; try (constructor; assumption).
    destruct (IH s1 t1 H1) as [s2 t2 e1 e2 H2 He|s2 t2 H2|s2 t2 H2| |]; cbn [bind]; try (constructor; assumption).
    constructor; auto. constructor; auto.
    destruct H1. unfold observe, evrel, sc_getPosition. cbn. auto.
Qed.
End ScanSim.

Lemma evrel_eq : forall l1 l2, Forall2 (evrel eq) l1 l2 -> l1 = l2.
Proof.
  intros l1 l2 H. induction H as [|[t1 i1 e1 p1 q1] [t2 i2 e2 p2 q2] l1 l2 [He [Hp Hq]] H IH]; [reflexivity|].
  cbn in *. unfold element in He. cbn in He. congruence.
Qed.
Lemma evrel_elements : forall prel l1 l2, Forall2 (evrel prel) l1 l2 -> map element l1 = map element l2.
Proof.
  intros prel l1 l2 H. induction H as [|e1 e2 l1 l2 [He [Hp Hq]] H IH]; cbn [map]; congruence.
Qed.

(** ** A whole text in memory is scanned like its list of characters *)
Definition ur_scan (cs : charset) (cfg : config) (f : nat) (masks : list N) (text : list N) :=
  scan (ur_ops (dec cs [])) cfg f masks (sc_make (mkUr (units cs text) 0)).

Definition src_urel (cs : charset) : tscan srcit -> urd -> Prop := rcomp (srcr cs) (urel cs).
Definition src_urelp (cs : charset) : tscan srcit -> urd -> Prop := rcomp (srcrp cs) (urel cs).
Definition src_urelj (cs : charset) : tscan srcit -> urd -> Prop := rcomp (srcrj cs) (urel cs).

Lemma src_ur_rsim : forall cs, cs_constructible cs = true ->
  rsim eq (ts_ops src_ops cs) (ur_ops (dec cs [])) (src_urel cs) (src_urelp cs) (src_urelj cs).
Proof.
  intros cs Hcs. eapply rsim_prel; [|eapply rsim_comp; [apply src_rsim; exact Hcs|apply ur_rsim]].
  intros a b [c [-> ->]]. reflexivity.
Qed.

Lemma src_ur_make : forall cs text, Forall isByte text ->
  src_urel cs (ts_make (src_make text false)) (mkUr (units cs text) 0).
Proof.
  intros cs text H. eexists. split; [apply (src_make_rel cs text false H)|].
  unfold urel. cbn. auto.
Qed.

Theorem xml_scan_ur : forall incs outcs f masks text, cs_constructible incs = true -> Forall isByte text ->
  orelv (srel eq (src_urel incs)) (srel eq (src_urelj incs)) eq
    (xml_scan incs outcs f masks text) (ur_scan incs (xml_config incs outcs None 0) f masks text).
Proof.
  intros incs outcs f masks text Hcs Hb. unfold xml_scan, ur_scan.
  assert (H : srel eq (src_urel incs) (sc_make (ts_make (src_make text false))) (sc_make (mkUr (units incs text) 0))).
  { unfold sc_make. constructor; auto. apply src_ur_make. exact Hb. }
  pose proof (sim_scan _ _ _ _ eq _ _ (sim_nextItem _ _ (xml_config incs outcs None 0) _ _ _ _ (src_ur_rsim incs Hcs))
     (rs_pos _ _ _ _ _ _ (src_ur_rsim incs Hcs)) f masks _ _ H) as G.
  destruct G; constructor; auto. apply evrel_eq. assumption.
Qed.
