(** Names given as text to the path elements. *)
From Coq Require Import Lia ZifyBool ZifyNat.
From Verif Require Import Base Iter CharMap CodePages Charset TextScanner Ideal ReaderSim ScannerSim IterSim CharsetSpec CharsetProofs ReadSpec ReadProofs XmlScanner
  ScanSpec ScanProofs CharReader DocSpec DocProofs PathAtm PathSelect PathSpec PathProg PathBuild3.

Section Name.
Context (cs : charset).
Hypothesis Hcs : cs_constructible cs = true.

Lemma control_ir t r : cptrr cs t r -> ready (ir_m r) (alen cs (ir_l r)) (ir_l r) = true ->
  exists t', r_control (ts_ops cptr_ops cs) t = Ret t' (ctl_of (casc cs (ir_l r))) /\ cptrr cs t' r.
Proof.
  intros Hr Hn. pose proof (rs_control _ _ _ _ _ _ (cptr_rsim cs Hcs) t r Hr) as H.
  cbn [ir_ops r_control] in H. unfold need in H. unfold ready in Hn.
  assert (Hw : forall x y, cptrrp cs x y -> cptrr cs x y) by (intros x y; apply (rs_weak _ _ _ _ _ _ (cptr_rsim cs Hcs))).
  destruct (Nat.leb _ _); [|cbn [orb] in Hn; destruct (ir_m r); try discriminate]; inversion H; subst; eauto.
Qed.

Lemma static_names rest : Nat.leb (alen cs rest) (length rest) = true -> casc cs rest = 0 ->
  forall cl f buf p t, Forall (representable cs) cl -> Forall name_char cl -> (length cl < f)%nat ->
  cptrr cs t (mkIr (flat_map (cs_print cs) cl ++ rest) EndUndef p) ->
  exists t', parseStaticToken (ts_ops cptr_ops cs) f isTagChar cs buf t = Ret t' (buf ++ flat_map (cs_print cs) cl).
Proof.
  intros Hr0 Hz cl. induction cl as [|c cl IH]; intros f buf p t Hr Hn Hf Ht; (destruct f as [|f]; [cbn in Hf; lia|]); cbn [parseStaticToken flat_map length app] in *.
  - destruct (control_ir t _ Ht) as (t1 & E1 & _); [cbn [ir_m ir_l ready]; unfold ready; rewrite Hr0; reflexivity|]. cbn [ir_l] in E1. rewrite E1, Hz. cbn [bind].
    change (isTokAt isTagChar (ctl_of 0)) with (Some false). change (ctl_eqb (ctl_of 0) CAmp) with false. cbv iota. exists t1. rewrite app_nil_r. reflexivity.
  - inversion Hr as [|? ? Hc Hr']; subst. inversion Hn as [|? ? Hcn Hn']; subst. rewrite <- app_assoc in Ht.
    set (l := cs_print cs c ++ flat_map (cs_print cs) cl ++ rest) in *.
    assert (Hlen : clen cs l = length (cs_print cs c)) by (apply clen_print; auto).
    assert (Hready : ready EndUndef (clen cs l) l = true) by (apply ready_spec; right; rewrite Hlen; unfold l; rewrite app_length; lia).
    assert (Hready' : ready EndUndef (alen cs l) l = true) by (eapply ready_le; [exact Hready|apply alen_le_clen]).
    destruct (control_ir t _ Ht Hready') as (t0 & E0 & H0). cbn [ir_l] in E0. rewrite E0. cbn [bind].
    pose proof (dec_print cs c (flat_map (cs_print cs) cl ++ rest) Hcs Hc) as D. fold l in D.
    assert (Ea : casc cs l = kasc c) by exact (f_equal u_asc D). rewrite Ea.
    change (ctl_of (kasc c)) with (kctl c). rewrite (name_tok c Hcn).
    destruct (chr_ir cptr_ops cs _ _ _ _ (cptr_rsim cs Hcs) t0 _ H0 Hready) as [t1 [E1 H1]]. cbn [ts_ops r_chr r_skip]. rewrite E1. cbn [bind].
    destruct (skip_ir cptr_ops cs _ _ _ _ (cptr_rsim cs Hcs) t1 _ H1 Hready) as [t2 [E2 H2]]. rewrite E2. cbn [bind].
    unfold ir_skipto in H2; cbn [ir_l ir_m ir_p] in H2.
    assert (Hsk : skipn (clen cs l) l = flat_map (cs_print cs) cl ++ rest) by (rewrite Hlen; unfold l; apply skipn_app_exact; reflexivity).
    rewrite Hsk in H2. assert (Hv : cval cs l = c) by exact (f_equal u_val D). cbn [ir_l]. rewrite Hv.
    assert (Hf' : (length cl < f)%nat) by lia.
    destruct (IH f (buf ++ cs_print cs c) _ t2 Hr' Hn' Hf' H2) as [t3 E3]. exists t3. rewrite <- app_assoc in E3. exact E3.
Qed.
End Name.

(** the keys of names in a character set of bytes *)
Definition bytewise (cs : charset) : bool := match cs with UTF8 | IsoLatin _ => cs_constructible cs | _ => false end.
Theorem name_key cs cl : bytewise cs = true -> Forall (representable cs) cl -> Forall name_char cl ->
  static_key cs (flat_map (cs_print cs) cl) = Ret tt (firstn 1024 (flat_map (cs_print cs) cl)).
Proof.
  intros Hb Hr Hn. assert (Hcs : cs_constructible cs = true) by (destruct cs; try discriminate Hb; exact Hb). unfold static_key.
  assert (Hby : Forall isByte (flat_map (cs_print cs) cl ++ [0])).
  { apply Forall_app. split; [apply print_bytes; auto|]. constructor; [unfold isByte; lia|constructor]. }
  assert (Hl : (length cl <= length (flat_map (cs_print cs) cl))%nat).
  { clear -Hr Hcs. induction Hr as [|c cl Hc Hr IH]; cbn [flat_map length]; [lia|]. rewrite app_length.
    pose proof (clen_print cs c [] Hcs Hc) as Hp. pose proof (clen_bounds cs (cs_print cs c ++ [])). lia. }
  destruct (static_names cs Hcs [0]) with (cl := cl) (f := (2 * length (flat_map (cs_print cs) cl) + 3)%nat) (buf := @nil N) (p := 0)
    (t := ts_make (mkCptr (flat_map (cs_print cs) cl ++ [0]) 0)) as [t' E]; auto.
  - destruct cs; try discriminate Hb; reflexivity.
  - destruct cs; try discriminate Hb; reflexivity.
  - lia.
  - apply cptr_make_rel. exact Hby.
  - rewrite E. reflexivity.
Qed.
Corollary name_usable cs cl : bytewise cs = true -> cl <> [] -> Forall (representable cs) cl -> Forall name_char cl ->
  (length (flat_map (cs_print cs) cl) <= 1024)%nat -> usable cs (flat_map (cs_print cs) cl).
Proof.
  intros Hb Hne Hr Hn Hl. assert (Hcs : cs_constructible cs = true) by (destruct cs; try discriminate Hb; exact Hb). split.
  - destruct cl as [|c cl]; [contradiction|]. inversion Hr as [|? ? Hc _]; subst. cbn [flat_map]. intro E. apply app_eq_nil in E. destruct E as [E _].
    pose proof (clen_print cs c [] Hcs Hc) as Hp. pose proof (clen_bounds cs (cs_print cs c ++ [])) as Hq. rewrite E in Hp, Hq. cbn in Hp, Hq. lia.
  - rewrite name_key by assumption. rewrite firstn_all2 by exact Hl. reflexivity.
Qed.
