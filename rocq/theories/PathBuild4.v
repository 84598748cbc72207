(** Paths with attributes in all descendants: the results of a selector for method calls. *)
From Coq Require Import Lia ZifyBool ZifyNat.
From Verif Require Import Base XmlScanner PathAtm PathSelect PathSpec PathProg PathDesc PathTrie PathKill PathRun1 PathRun2 PathRun3 PathRun8 PathRun9 PathRun10 PathBuild PathBuild2 PathBuild3.

Definition looked_ind (evs : list event) (i : nat) (x : expr) : nat := match hits_d (unrange x) 0 evs i with O => O | _ => 1%nat end.
Lemma looked_sm E evs i : looked E evs i = negb (sm (looked_ind evs i) E =? 0)%nat.
Proof.
  unfold looked. induction E as [|x E IH]; [reflexivity|]. cbn [existsb]. rewrite sm_cons, IH. unfold looked_ind at 2.
  destruct (hits_d (unrange x) 0 evs i); reflexivity.
Qed.
Lemma looks_sm E E' evs n : (forall h : expr -> nat, sm h E = sm h E') -> looks E evs n = looks E' evs n.
Proof. intro H. induction n as [|n IH]; [reflexivity|]. cbn [looks]. rewrite IH, !looked_sm, H. reflexivity. Qed.
Lemma visible_sm E E' evs : (forall h : expr -> nat, sm h E = sm h E') -> visible E evs = visible E' evs.
Proof. intro H. unfold visible. rewrite (looks_sm E E' evs _ H). reflexivity. Qed.

Lemma lang_select_d a E evs : good (norm a) -> (forall h : expr -> nat, sm h (lang (norm a) 0) = sm h E) -> Forall (fun x => wf_expr_d x = true) E -> ordered PStart 0 evs = true ->
  exists N s rs, (forall f ff, (N <= f)%nat -> (N <= ff)%nat -> select f ff a evs = Ret s rs) /\ length rs = length evs /\
    forall t i, (i < length evs)%nat -> cnt t (nth i rs []) = hits_d_of t E 0 (visible E evs) i.
Proof.
  intros A2 L0 Hw Ho. destruct a as [|st a0].
  - assert (L1 : forall h : expr -> nat, sm h E = O) by (intro h; rewrite <- (L0 h); reflexivity).
    destruct (select_nil evs Ho) as (N & s & rs & H1 & H2 & H3). exists N, s, rs. split; [exact H1|]. split; [exact H2|]. intros t i Hi. rewrite H3 by exact Hi. symmetry. apply (L1 (fun x => if (x_type x =? t)%Z then hits_d x 0 (visible E evs) i else 0%nat)).
  - set (a := st :: a0) in *. change (norm a) with a in *.
    destruct (select_spec_d a evs (gd_wf _ A2) (gd_pos _ A2)) as (N & s & rs & H1 & H2 & H3); [|exact Ho|].
    + intros x Hx. destruct (wf_expr_d x) eqn:Wx; [reflexivity|exfalso].
      set (h := fun x => if wf_expr_d x then O else 1%nat).
      assert (Z0 : sm h E = O) by (apply (list_sum_0 h E); intros y Hy; unfold h; rewrite Forall_forall in Hw; rewrite (Hw y Hy); reflexivity).
      rewrite <- (L0 h) in Z0. pose proof (sm_In h (lang a 0) x Z0 Hx) as Hq. unfold h in Hq. rewrite Wx in Hq. discriminate.
    + exists N, s, rs. split; [exact H1|]. split; [exact H2|]. intros t i Hi. rewrite H3, (visible_sm _ E evs L0) by exact Hi.
      apply (L0 (fun x => if (x_type x =? t)%Z then hits_d x 0 (visible E evs) i else 0%nat)).
Qed.
Theorem paths_select_d cs ps E evs : (forall m, In m (prog_names ps) -> usable cs m) -> paths_of ps = Some E -> Forall (fun x => wf_expr_d x = true) E ->
  ordered PStart 0 evs = true ->
  exists a, add_paths cs ps [] = Ret a tt /\ exists N s rs, (forall f ff, (N <= f)%nat -> (N <= ff)%nat -> select f ff a evs = Ret s rs) /\ length rs = length evs /\
    forall t i, (i < length evs)%nat -> cnt t (nth i rs []) = hits_d_of t E 0 (visible E evs) i.
Proof.
  intros Hn HE Hw Ho. destruct (add_spec cs ps E [] good_new Hn HE) as (a & A1 & A2 & A3). exists a. split; [exact A1|].
  apply lang_select_d; try assumption. intro h. rewrite (A3 h). change (lang (norm []) 0) with (@nil expr). rewrite sm_nil. lia.
Qed.
