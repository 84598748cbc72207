(** C77: names and values given to the path elements *)
From Coq Require Import Lia ZifyBool ZifyNat.
From Verif Require Import Base Iter CharMap CodePages Charset TextScanner Ideal ReaderSim ScannerSim IterSim CharsetSpec CharsetProofs ReadSpec ReadProofs XmlScanner
  ScanSpec ScanProofs CharReader DocSpec DocProofs DocCheck PosProofs PathAtm PathSelect PathSpec PathProg PathBuild3 PathNames PrintChars PipeProofs PathRun9 PropsPath.

(** characters of names; the table of the control characters leaves the character 5 undefined, which makes it one *)
Definition key_char (c : N) : bool := name_charb c || (c =? 5).
(** what is compared with the names and values of a document: a null character for each ampersand, the other characters up to the
    first one that cannot be part of a name *)
Fixpoint key_chars (cl : list N) : list N :=
  match cl with
  | [] => []
  | c :: cl => if c =? 38 then 0 :: key_chars cl else if key_char c then c :: key_chars cl else []
  end.

Lemma other_ctl : forall c, c <> 38 -> key_char c = false -> isTokAt isTagChar (kctl c) = Some false /\ ctl_eqb (kctl c) CAmp = false.
Proof.
  intros c. assert (H : (c =? 38) || key_char c || (match isTokAt isTagChar (kctl c) with Some b => negb b | None => false end && negb (ctl_eqb (kctl c) CAmp)) = true).
  { apply (kctl_sweep (fun c k => (c =? 38) || key_char c || (match isTokAt isTagChar k with Some b => negb b | None => false end && negb (ctl_eqb k CAmp)))); [vm_compute; reflexivity|].
    intros d Hd. unfold key_char, name_charb. replace (128 <=? d) with true by lia. rewrite Bool.orb_true_r. reflexivity. }
  intros H1 H2. rewrite H2 in H. replace (c =? 38) with false in H by lia. cbn [orb] in H. apply andb_prop in H. destruct H as [Ha Hb]. split; [|destruct (ctl_eqb (kctl c) CAmp); [discriminate|reflexivity]].
  destruct (isTokAt isTagChar (kctl c)) as [[]|]; try discriminate; reflexivity.
Qed.
Lemma iso_amp : forall p, bytewise (IsoLatin p) = true -> iso_print p 0 = str "&#x;" /\ flat_map (iso_print p) (str "&#x;") = str "&#x;".
Proof.
  intros p H. cbn [bytewise cs_constructible] in H.
  assert (Hp : In p (map N.of_nat (seq 1 9))) by (apply in_map_iff; exists (N.to_nat p); split; [apply N2Nat.id|apply in_seq; lia]).
  assert (S : forallb (fun q => if list_eq_dec N.eq_dec (iso_print q 0) (str "&#x;") then if list_eq_dec N.eq_dec (flat_map (iso_print q) (str "&#x;")) (str "&#x;") then true else false else false) (map N.of_nat (seq 1 9)) = true) by (vm_compute; reflexivity).
  rewrite forallb_forall in S. specialize (S p Hp). destruct (list_eq_dec N.eq_dec (iso_print p 0) _) as [E|E]; [|discriminate].
  destruct (list_eq_dec N.eq_dec (flat_map (iso_print p) (str "&#x;")) (str "&#x;")) as [E2|E2]; [|discriminate]. split; assumption.
Qed.
Lemma key_tok : forall c, key_char c = true -> isTokAt isTagChar (kctl c) = Some true.
Proof. intros c H. unfold key_char in H. apply Bool.orb_prop in H. destruct H as [H|H]; [apply name_tok, name_charb_ok; exact H|]. apply N.eqb_eq in H. subst c. reflexivity. Qed.
Lemma read_key cs rest : cs_constructible cs = true -> Nat.leb (alen cs rest) (length rest) = true -> casc cs rest = 0 ->
  forall cl f buf p t, Forall (representable cs) cl -> (length cl < f)%nat ->
  cptrr cs t (mkIr (flat_map (cs_print cs) cl ++ rest) EndUndef p) ->
  exists t', parseStaticToken (ts_ops cptr_ops cs) f isTagChar cs buf t = Ret t' (buf ++ flat_map (cs_print cs) (key_chars cl)).
Proof.
  intros Hcs Hr0 Hz cl. induction cl as [|c cl IH]; intros f buf p t Hr Hf Ht; (destruct f as [|f]; [cbn in Hf; lia|]); cbn [parseStaticToken flat_map length app key_chars] in *.
  - destruct (control_ir cs Hcs t _ Ht) as (t1 & E1 & _); [cbn [ir_m ir_l ready]; unfold ready; rewrite Hr0; reflexivity|]. cbn [ir_l] in E1. rewrite E1, Hz. cbn [bind].
    change (isTokAt isTagChar (ctl_of 0)) with (Some false). change (ctl_eqb (ctl_of 0) CAmp) with false. cbv iota. exists t1. rewrite app_nil_r. reflexivity.
  - inversion Hr as [|? ? Hc Hr']; subst. rewrite <- app_assoc in Ht.
    set (l := cs_print cs c ++ flat_map (cs_print cs) cl ++ rest) in *.
    assert (Hlen : clen cs l = length (cs_print cs c)) by (apply clen_print; auto).
    assert (Hready : ready EndUndef (clen cs l) l = true) by (apply ready_spec; right; rewrite Hlen; unfold l; rewrite app_length; lia).
    assert (Hready' : ready EndUndef (alen cs l) l = true) by (eapply ready_le; [exact Hready|apply alen_le_clen]).
    destruct (control_ir cs Hcs t _ Ht Hready') as (t0 & E0 & H0). cbn [ir_l] in E0. rewrite E0. cbn [bind].
    pose proof (dec_print cs c (flat_map (cs_print cs) cl ++ rest) Hcs Hc) as D. fold l in D.
    assert (Ea : casc cs l = kasc c) by exact (f_equal u_asc D). rewrite Ea.
    change (ctl_of (kasc c)) with (kctl c).
    assert (Hsk : skipn (clen cs l) l = flat_map (cs_print cs) cl ++ rest) by (rewrite Hlen; unfold l; apply skipn_app_exact; reflexivity).
    assert (Hf' : (length cl < f)%nat) by lia.
    destruct (N.eqb_spec c 38) as [->|Hc38].
    + change (isTokAt isTagChar (kctl 38)) with (Some false). change (ctl_eqb (kctl 38) CAmp) with true. cbv iota.
      pose proof (rs_ascii _ _ _ _ _ _ (cptr_rsim cs Hcs) t0 _ H0) as Hs. cbn [ir_ops r_ascii ir_l] in Hs. unfold need in Hs. pose proof Hready' as Hq. unfold ready in Hq. cbn [ir_l ir_m] in Hs.
      destruct (Nat.leb (alen cs l) (length l)); [|discriminate Hq]. rewrite Ea in Hs. inversion Hs as [t1 ? ? H1 E1| | | |]; subst. clear Hs.
      unfold parseStaticNumericEntityValue. cbn [ts_ops r_ascii r_skip] in E1 |- *. rewrite <- E1. cbn [bind]. change (negb (asc_of (kasc 38) =? 35)) with true. cbv iota. cbn [bind].
      destruct (skip_ir cptr_ops cs _ _ _ _ (cptr_rsim cs Hcs) t1 _ H1 Hready) as [t2 [E2 H2]]. cbn [ts_ops r_skip] in E2. rewrite E2. cbn [bind].
      unfold ir_skipto in H2; cbn [ir_l ir_m ir_p] in H2. rewrite Hsk in H2. destruct (IH f (buf ++ cs_print cs 0) _ t2 Hr' Hf' H2) as [t3 E3]. exists t3. rewrite <- app_assoc in E3. exact E3.
    + destruct (key_char c) eqn:En.
      * rewrite (key_tok c En).
        destruct (chr_ir cptr_ops cs _ _ _ _ (cptr_rsim cs Hcs) t0 _ H0 Hready) as [t1 [E1 H1]]. cbn [ts_ops r_chr r_skip]. rewrite E1. cbn [bind].
        destruct (skip_ir cptr_ops cs _ _ _ _ (cptr_rsim cs Hcs) t1 _ H1 Hready) as [t2 [E2 H2]]. rewrite E2. cbn [bind].
        unfold ir_skipto in H2; cbn [ir_l ir_m ir_p] in H2. rewrite Hsk in H2. assert (Hv : cval cs l = c) by exact (f_equal u_val D). cbn [ir_l]. rewrite Hv.
        destruct (IH f (buf ++ cs_print cs c) _ t2 Hr' Hf' H2) as [t3 E3]. exists t3. rewrite <- app_assoc in E3. exact E3.
      * destruct (other_ctl c Hc38 En) as [K1 K2]. rewrite K1, K2. exists t0. cbn [flat_map]. rewrite app_nil_r. reflexivity.
Qed.

(** The key of every text; at most 1024 bytes of it are kept. *)
Theorem C77_exact : forall cs cl, bytewise cs = true -> Forall (representable cs) cl ->
  static_key cs (flat_map (cs_print cs) cl) = Ret tt (firstn 1024 (flat_map (cs_print cs) (key_chars cl))).
Proof.
  intros cs cl Hb Hr. assert (Hcs : cs_constructible cs = true) by (destruct cs; try discriminate Hb; exact Hb). unfold static_key.
  assert (Hby : Forall isByte (flat_map (cs_print cs) cl ++ [0])).
  { apply Forall_app. split; [apply print_bytes; auto|]. constructor; [unfold isByte; lia|constructor]. }
  assert (Hl : (length cl <= length (flat_map (cs_print cs) cl))%nat).
  { clear -Hr Hcs. induction Hr as [|c cl Hc Hr IH]; cbn [flat_map length]; [lia|]. rewrite app_length.
    pose proof (clen_print cs c [] Hcs Hc) as Hp. pose proof (clen_bounds cs (cs_print cs c ++ [])). lia. }
  destruct (read_key cs [0] Hcs) with (cl := cl) (f := (2 * length (flat_map (cs_print cs) cl) + 3)%nat) (buf := @nil N) (p := 0)
    (t := ts_make (mkCptr (flat_map (cs_print cs) cl ++ [0]) 0)) as [t' E]; auto.
  - destruct cs; try discriminate Hb; reflexivity.
  - destruct cs; try discriminate Hb; reflexivity.
  - lia.
  - apply cptr_make_rel. exact Hby.
  - rewrite E. reflexivity.
Qed.
Print Assumptions C77_exact.
(** The text itself exactly if all of its characters are characters of names. *)
Theorem C77_key_partial : forall cs cl, bytewise cs = true -> Forall (representable cs) cl -> (length (flat_map (cs_print cs) cl) < 1024)%nat ->
  static_key cs (flat_map (cs_print cs) cl) = Ret tt (flat_map (cs_print cs) cl) <-> Forall (fun c => name_char c \/ c = 5) cl.
Proof.
  intros cs cl Hb Hr Hlen. assert (Hcs : cs_constructible cs = true) by (destruct cs; try discriminate Hb; exact Hb). rewrite C77_exact by assumption. split.
  - intros E. apply (f_equal (fun o => match o with Ret _ k => k | _ => [] end)) in E. cbv beta iota in E.
    assert (Hp : forall c, representable cs c -> cs_print cs c <> []).
    { intros c Hc E'. pose proof (clen_print cs c [] Hcs Hc) as Hq. pose proof (clen_bounds cs (cs_print cs c ++ [])). rewrite E' in *. cbn in *. lia. }
    assert (E' : flat_map (cs_print cs) (key_chars cl) = flat_map (cs_print cs) cl).
    { rewrite <- E. symmetry. apply firstn_all2. rewrite <- E, firstn_length in Hlen. lia. }
    clear E Hlen Hp.
    set (z := match cs with UTF8 => [0] | _ => str "&#x;" end).
    assert (Hz : cs_print cs 0 = flat_map (cs_print cs) z /\ Forall (representable cs) z).
    { unfold z. destruct cs as [| | | |q]; try discriminate Hb; [split; [reflexivity|constructor; [reflexivity|constructor]]|]. destruct (iso_amp q Hb) as [Z1 Z2].
      split; [cbn [cs_print]; rewrite Z1; symmetry; exact Z2|]. apply Forall_forall; intros c Hc; apply ascii_repr; destruct Hc as [<-|[<-|[<-|[<-|[]]]]]; split; vm_compute; reflexivity. }
    destruct Hz as [Hz1 Hz2]. set (ex := fun c => if c =? 38 then z else [c]). set (cut := fix cut cl := match cl with [] => [] | c :: cl => if (c =? 38) || key_char c then c :: cut cl else [] end : list N).
    assert (K : flat_map (cs_print cs) (key_chars cl) = flat_map (cs_print cs) (flat_map ex (cut cl))).
    { clear - Hz1. induction cl as [|c cl IH]; [reflexivity|]. cbn [key_chars cut]. destruct (c =? 38) eqn:Ec; cbn [orb].
      - cbn [flat_map]. rewrite flat_map_app, IH, Hz1. change (ex c) with (if c =? 38 then z else [c]). rewrite Ec. reflexivity.
      - destruct (key_char c); [|reflexivity]. cbn [flat_map]. change (ex c) with (if c =? 38 then z else [c]). rewrite Ec. cbn [app flat_map]. rewrite IH. reflexivity. }
    rewrite K in E'. clear K. apply PipeProofs.print_inj in E'; [|exact Hcs| |exact Hr].
    2:{ clear - Hr Hz2. induction Hr as [|c cl Hc Hr IH]; [constructor|]. cbn [cut]. destruct ((c =? 38) || key_char c); [|constructor]. cbn [flat_map]. apply Forall_app. split; [unfold ex; destruct (c =? 38); auto|exact IH]. }
    assert (Hin : forall c, In c cl -> In c z \/ (c <> 38 /\ key_char c = true)).
    { intros c Hc. rewrite <- E' in Hc. clear - Hc. apply in_flat_map in Hc. destruct Hc as [d [Hd Hc]]. assert (Hk : (d =? 38) || key_char d = true).
      { induction cl as [|x cl IH]; [destruct Hd|]. cbn [cut] in Hd. destruct ((x =? 38) || key_char x) eqn:E; [|destruct Hd]. destruct Hd as [->|Hd]; [exact E|auto]. }
      unfold ex in Hc. destruct (N.eqb_spec d 38) as [->|Hn]; [left; exact Hc|]. destruct Hc as [->|[]]. right. split; [exact Hn|exact Hk]. }
    assert (Hno : ~ In 38 cl).
    { intros H38. destruct (Hin 38 H38) as [Hq|[Hq _]]; [|congruence]. unfold z in Hq. destruct cs as [| | | |q]; try discriminate Hb; [destruct Hq as [Hq|[]]; discriminate|].
      assert (Hc : cut cl = cl).
      { assert (Ha : forall c, In c cl -> (c =? 38) || key_char c = true) by (intros c Hc; destruct (Hin c Hc) as [G|[_ G]]; [|rewrite G; apply Bool.orb_true_r]; destruct G as [<-|[<-|[<-|[<-|[]]]]]; reflexivity).
        clear - Ha. induction cl as [|c cl IH]; [reflexivity|]. cbn [cut]. rewrite (Ha c (or_introl eq_refl)). rewrite IH; [reflexivity|]. intros d Hd. apply Ha. right. exact Hd. }
      rewrite Hc in E'. apply (f_equal (@length N)) in E'. clear - E' H38.
      assert (L : forall l, (length l <= length (flat_map ex l))%nat) by (induction l as [|c l IH]; [reflexivity|]; cbn [flat_map length]; rewrite app_length; change (ex c) with (if c =? 38 then z else [c]); destruct (c =? 38); cbn; lia).
      induction cl as [|c cl IH]; [destruct H38|]. cbn [flat_map length] in E'. rewrite app_length in E'. specialize (L cl). destruct H38 as [->|H]; [cbn in E'; lia|]. apply IH; [|exact H]. change (ex c) with (if c =? 38 then z else [c]) in E'. destruct (c =? 38); cbn in E'; lia. }
    assert (Hex : flat_map ex (cut cl) = cut cl).
    { assert (G : ~ In 38 (cut cl)) by (clear - Hno; induction cl as [|x cl IH]; [auto|]; cbn [cut]; destruct ((x =? 38) || key_char x); [|auto]; cbn [In] in *; tauto).
      revert G. generalize (cut cl). clear. induction l as [|x l IH]; intros G; [reflexivity|]. cbn [flat_map]. change (ex x) with (if x =? 38 then z else [x]). replace (x =? 38) with false by (symmetry; apply N.eqb_neq; intros ->; apply G; left; reflexivity). cbn [app]. f_equal. apply IH. intros H. apply G. right. exact H. }
    rewrite Hex in E'. assert (Hk : forall d, In d (cut cl) -> (d =? 38) || key_char d = true).
    { clear. induction cl as [|x cl IH]; intros d Hd; [destruct Hd|]. cbn [cut] in Hd. destruct ((x =? 38) || key_char x) eqn:E; [|destruct Hd]. destruct Hd as [->|Hd]; [exact E|auto]. }
    rewrite E' in Hk. apply Forall_forall. intros c Hc. specialize (Hk c Hc). assert (Hne : (c =? 38) = false) by (apply N.eqb_neq; intros Eq; rewrite Eq in Hc; exact (Hno Hc)). rewrite Hne in Hk. cbn [orb] in Hk.
    unfold key_char in Hk. apply Bool.orb_prop in Hk. destruct Hk as [En|En]; [left; apply name_charb_ok; exact En|right; lia].
  - intros Hn. replace (key_chars cl) with cl; [rewrite firstn_all2 by lia; reflexivity|]. clear - Hn.
    induction Hn as [|c cl Hc Hn IH]; [reflexivity|]. cbn [key_chars]. replace (key_char c) with true; [|symmetry; unfold key_char, name_charb].
    + destruct (N.eqb_spec c 38) as [->|_]; [|rewrite <- IH; reflexivity]. destruct Hc as [[Hc|[_ Hc]]|Hc]; [lia| |lia]. exfalso. apply Hc. vm_compute. tauto.
    + destruct Hc as [[Hc|[Hc Hm]]|Hc]; [replace (128 <=? c) with true by lia; reflexivity| |replace (c =? 5) with true by lia; rewrite Bool.orb_true_r; reflexivity].
      replace (33 <=? c) with true by lia. replace (c <? 128) with true by lia. cbn [andb]. destruct (bin c markup_chars) eqn:Eb; [exfalso; apply Hm; apply bin_in; exact Eb|]. cbn [negb]. rewrite Bool.orb_true_r. reflexivity.
Qed.
Print Assumptions C77_key_partial.
Example C77_case : Forall (representable UTF8) (str "R&D 2") /\ static_key UTF8 (str "R&D 2") = Ret tt (82 :: 0 :: str "D") /\ static_key UTF8 (str "&#65;") = Ret tt (0 :: str "#65;") /\
  static_key UTF8 (str "x-y.1") = Ret tt (str "x-y.1").
Proof. split; [apply Forall_forall; intros c Hc; apply ascii_repr; repeat (destruct Hc as [<-|Hc]; [split; vm_compute; reflexivity|]); destruct Hc|]. split; [vm_compute; reflexivity|]. split; vm_compute; reflexivity. Qed.

(** ** The selection of tags with the condition [@b = "x y"] and of the tag written with a reference *)
Definition C77_paths : list (list pathop) :=
  [[BTag (Some (str "a")); BCond (Some (str "b")) (Some (str "x y")); BContent; BOut 1]; [BTag (Some (str "&#65;")); BContent; BOut 2]].
Theorem C77_refuted : exists a s1 s2 s3, add_paths UTF8 C77_paths [] = Ret a tt /\
  (* <a b="x y">t *)
  select 50 50 a [(EOpenTag, str "a"); (ETagAttribName, str "b"); (ETagAttribValue, str "x y"); (EContent, str "t")] = Ret s1 [[]; []; []; []] /\
  (* <a b="x">t *)
  select 50 50 a [(EOpenTag, str "a"); (ETagAttribName, str "b"); (ETagAttribValue, str "x"); (EContent, str "t")] = Ret s2 [[]; []; []; [1%Z]] /\
  (* <A>t *)
  select 50 50 a [(EOpenTag, str "A"); (EContent, str "t")] = Ret s3 [[]; []].
Proof. do 4 eexists. split; [vm_compute; reflexivity|]. split; [vm_compute; reflexivity|]. split; vm_compute; reflexivity. Qed.
Print Assumptions C77_refuted.
