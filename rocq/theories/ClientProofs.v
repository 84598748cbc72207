(** Iterators of clients (proofs). *)
From Verif Require Import Base Iter CharMap CodePages Charset TextScanner Ideal ReaderSim ScannerSim IterSim
  CharsetSpec CharsetProofs ReadSpec ReadProofs XmlScanner ScanSpec ScanProofs Safety SourceSim ClientSpec.

Section Client.
Context {I : Type} (o : iterops I) (R : I -> list N -> Prop).
Hypothesis Hr : reads_null o R.

Definition crel (i : I) (s : stream) : Prop := R i (rest s) /\ emode s = EndZero.
Lemma client_isim : isim (fun _ _ => True) o stream_ops crel.
Proof.
  constructor; auto; intros i s [H Hm]; destruct (Hr i _ H) as [[i1 [E1 H1]] [i2 [E2 H2]]]; cbn [stream_ops deref incr].
  - rewrite E1. unfold stream_deref. destruct (rest s) as [|b l] eqn:El; [rewrite Hm|]; cbn [hd]; constructor; split; auto; rewrite El; exact H1.
  - rewrite E2. constructor. split; auto.
Qed.

Definition clr cs := rcomp (tsrel crel) (trel cs).
Definition clrp cs := rcomp (tsrel crel) (trelp cs).
Definition clrj cs := rcomp (tsrel crel) (trelj cs).
Lemma client_rsim : forall cs, cs_constructible cs = true -> rsim (fun _ _ => True) (ts_ops o cs) (ir_ops cs) (clr cs) (clrp cs) (clrj cs).
Proof. intros cs Hcs. eapply rsim_prel; [|eapply rsim_comp; [apply (isim_rsim _ _ _ _ client_isim)|apply ts_rsim; auto]]. auto. Qed.
Lemma client_make : forall cs i text, R i text -> Forall isByte text -> clr cs (ts_make i) (mkIr text EndZero 0).
Proof.
  intros cs i text H Hb. exists (ts_make (mkStream text EndZero 0)). split; [apply tsrel_make; split; auto|apply ts_make_rel; exact Hb].
Qed.
Lemma client_skip0 : forall cs t l p, cs_constructible cs = true -> clr cs t (mkIr l EndZero p) ->
  exists t', ts_skip o cs t = Ret t' tt /\ clr cs t' (ir_skipto (clen cs l) (mkIr l EndZero p)).
Proof.
  intros cs t l p Hcs [ts [H1 H2]].
  destruct (ts_skip0 cs ts l p Hcs H2) as [t' [E H]].
  pose proof (rs_skip _ _ _ _ _ _ (isim_rsim _ _ _ _ client_isim cs) t ts H1) as Hs.
  cbn [ts_ops r_skip] in Hs. rewrite E in Hs. inversion Hs; subst. eexists. split; [reflexivity|].
  exists t'. auto.
Qed.

Lemma client_scan : forall incs cfg f masks text i, cs_constructible incs = true -> Forall isByte text -> R i text ->
  match scan (ts_ops o incs) cfg f masks (sc_make (ts_make i)), scan (ts_ops src_ops incs) cfg f masks (sc_make (ts_make (src_make text false))) with
  | Ret _ evs1, Ret _ evs2 => map element evs1 = map element evs2
  | Fuel, Fuel | Undef, Undef => True
  | Jump _, Jump _ | Throw _, Throw _ => True
  | _, _ => False
  end.
Proof.
  intros incs cfg f masks text i Hcs Hb Hi.
  assert (H : srel eq (srcr incs) (sc_make (ts_make (src_make text false))) (sc_make (mkIr text EndZero 0))).
  { constructor; auto. apply (src_make_rel incs _ false Hb). }
  pose proof (sim_scan _ _ _ _ eq _ _ (sim_nextItem _ _ cfg _ _ _ _ (src_rsim incs Hcs)) (rs_pos _ _ _ _ _ _ (src_rsim incs Hcs)) f masks _ _ H) as G.
  assert (H2 : srel (fun _ _ => True) (clr incs) (sc_make (ts_make i)) (sc_make (mkIr text EndZero 0))) by (constructor; auto; apply client_make; auto).
  pose proof (sim_scan _ _ _ _ (fun _ _ => True) _ _ (sim_nextItem _ _ cfg _ _ _ _ (client_rsim incs Hcs)) (rs_pos _ _ _ _ _ _ (client_rsim incs Hcs)) f masks _ _ H2) as G2.
  inversion G as [? ? ? ? G1 G1e E1 E2|? ? G1 E1 E2|? ? G1 E1 E2|E1 E2|E1 E2]; inversion G2 as [? ? ? ? G3 G3e E3 E4|? ? G3 E3 E4|? ? G3 E3 E4|E3 E4|E3 E4];
    try congruence; auto.
  apply evrel_eq in G1e. apply evrel_elements in G3e. congruence.
Qed.

Lemma client_session : forall cs text i oss, cs_constructible cs = true -> Forall isByte text -> R i text ->
  exists t u r, session o cs oss (ts_make i) = Ret t r /\ session src_ops cs oss (ts_make (src_make text false)) = Ret u r.
Proof.
  intros cs text i oss Hcs Hb Hi.
  destruct (session_ir o cs _ _ _ _ (client_rsim cs Hcs) (fun t l p => client_skip0 cs t l p Hcs) oss _ text 0 (client_make cs i text Hi Hb)) as [t [E _]].
  destruct (session_ir src_ops cs _ _ _ _ (src_rsim cs Hcs) (fun t l p => src_skip0 cs t l p Hcs) oss _ text 0 (src_make_rel cs text false Hb)) as [u [E2 _]]. eauto.
Qed.
End Client.
