(** C80, C81: iterators of clients and the test programs. *)
From Verif Require Import Base Iter CharMap CodePages Charset TextScanner XmlScanner CharsetSpec CharsetProofs ReadSpec ReadProofs ScanSpec Ideal ReaderSim MaskProofs PropsScan PropsSource
  StaticBuffer ClientSpec ClientProofs TestText TestTextProofs.

(** ** C80. Any iterator that reads the bytes of a text and then null characters delivers what a SrcIterator delivers. *)
Theorem C80_scan : forall {I} (o : iterops I) R i incs outcs entitymap addr fuel masks text, cs_constructible incs = true -> Forall isByte text ->
  reads_null o R -> R i text ->
  let cfg := xml_config incs outcs entitymap addr in
  same_elements (scan (ts_ops o incs) cfg fuel masks (sc_make (ts_make i)))
    (scan (ts_ops src_ops incs) cfg fuel masks (sc_make (ts_make (src_make text false)))).
Proof. intros I o R i incs outcs m addr fuel masks text Hcs Hb Hr Hi cfg. exact (client_scan o R Hr incs cfg fuel masks text i Hcs Hb Hi). Qed.
Print Assumptions C80_scan.
Theorem C80_text : forall {I} (o : iterops I) R i cs oss text, cs_constructible cs = true -> Forall isByte text ->
  reads_null o R -> R i text ->
  exists t u r, session o cs oss (ts_make i) = Ret t r /\ session src_ops cs oss (ts_make (src_make text false)) = Ret u r.
Proof. intros I o R i cs oss text Hcs Hb Hr Hi. exact (client_session o R Hr cs text i oss Hcs Hb Hi). Qed.
Print Assumptions C80_text.

(** an iterator that counts down: it reads [<xxx>] *)
Definition count_byte (n : nat) : N := nth n (0 :: rev (str "<xxx>")) 0.
Definition count_ops : iterops nat := mkIterops (fun n => Ret n (count_byte n)) (fun n => Ret (pred n) tt) (fun _ => 0).
Example C80_case : reads_null count_ops (fun n l => l = map count_byte (rev (seq 1 n))) /\ map count_byte (rev (seq 1 5)) = str "<xxx>" /\
  exists s evs, scan (ts_ops count_ops UTF8) (xml_config UTF8 UTF8 None 0) 100 (calls 2) (sc_make (ts_make 5%nat)) = Ret s evs /\
    elements evs = [(EOpenTag, str "xxx"); (EExit, [])].
Proof.
  split; [|split; [vm_compute; reflexivity|eexists; eexists; split; vm_compute; reflexivity]].
  intros n l ->. destruct n as [|n]; [cbn; split; eexists; split; reflexivity|]. rewrite seq_S, rev_app_distr. cbn [rev app map hd tl Nat.add].
  split; eexists; (split; [reflexivity|]); [rewrite seq_S, rev_app_distr; reflexivity|reflexivity].
Qed.

(** ** C81. test_TextReader.cpp: whatever representable characters different from the null character are enumerated, the test passes, if it ends. *)
Theorem C81_passes : forall cs character nof fuel start, cs_constructible cs = true -> nof < 2 ^ 31 -> start < nof ->
  (forall k, 0 < k <= nof -> representable cs (character k) /\ character k <> 0) ->
  tt_test cs character nof fuel start = Fuel \/ exists t, tt_test cs character nof fuel start = Ret t (0, true).
Proof.
  intros cs character nof fuel start Hcs Hn Hs Hc.
  pose proof (test_ok cs character nof Hcs Hn (fun k Hk => proj1 (Hc k Hk)) (fun k Hk => proj2 (Hc k Hk)) fuel start Hs) as H.
  destruct (draws_all fuel (N.to_nat (nof - start)) 0); auto.
Qed.
Print Assumptions C81_passes.

Lemma tt_character_range : forall idx m, 1 < m -> m <> 0x10FFFF -> 0 < tt_character idx m < m.
Proof.
  intros idx m Hm H. unfold tt_character. replace (m =? 0x10FFFF) with false by (symmetry; apply N.eqb_neq; exact H).
  match goal with |- context [?x mod (m - 1)] => generalize x end. intros x. pose proof (N.mod_upper_bound x (m - 1)). lia.
Qed.
Lemma following_in : forall n ii k, ii < k <= ii + N.of_nat n -> In k (following n ii).
Proof.
  induction n as [|n IH]; intros ii k H; [lia|]. cbn [following]. destruct (N.eq_dec k (ii + 1)) as [->|E]; [left; reflexivity|right; apply IH; lia].
Qed.
Lemma tt_character_utf16 : forall idx, 0 < idx <= tt_nof -> 0 < tt_character idx 0x10FFFF < 0x10FFFF /\ ~ (0xD800 <= tt_character idx 0x10FFFF < 0xDC00).
Proof.
  intros idx Hi.
  assert (H0 : tt_character idx 0x10FFFF <> 0).
  { assert (Hall : forallb (fun idx => negb (tt_character idx 0x10FFFF =? 0)) (following (N.to_nat tt_nof) 0) = true) by (vm_compute; reflexivity).
    rewrite forallb_forall in Hall. specialize (Hall idx (following_in (N.to_nat tt_nof) 0 idx ltac:(rewrite N2Nat.id; lia))). intros E. rewrite E in Hall. discriminate Hall. }
  revert H0. unfold tt_character. change (0x10FFFF =? 0x10FFFF) with true. cbn match.
  match goal with |- context [?x mod (0x10FFFF - 1)] => generalize x end. intros x. pose proof (N.mod_upper_bound x (0x10FFFF - 1) ltac:(discriminate)) as H.
  destruct (N.leb_spec 0xD800 (x mod (0x10FFFF - 1) + 1)); destruct (N.ltb_spec (x mod (0x10FFFF - 1) + 1) 0xDC00); cbn [andb]; lia.
Qed.
Lemma tt_characters : forall cs idx, In cs tt_charsets -> 0 < idx <= tt_nof ->
  representable cs (tt_character idx (tt_maxchar cs)) /\ tt_character idx (tt_maxchar cs) <> 0.
Proof.
  intros cs idx Hcs Hi.
  assert (Hr : tt_maxchar cs = 0x10FFFF \/ 0 < tt_character idx (tt_maxchar cs) < tt_maxchar cs).
  { cbn in Hcs. repeat (destruct Hcs as [<-|Hcs]; [first [left; reflexivity|right; apply tt_character_range; [reflexivity|discriminate]]|]). destruct Hcs. }
  pose proof (tt_character_utf16 idx Hi) as Hu.
  cbn in Hcs. repeat (destruct Hcs as [<-|Hcs]); try (destruct Hcs; fail); cbn [tt_maxchar representable] in *;
    try (destruct Hr as [Hr|Hr]; [discriminate Hr|]; change (2 ^ 31) with 2147483648; change (2 ^ 16) with 65536; change (2 ^ 32) with 4294967296; lia); [|lia|lia].
  destruct Hr as [Hr|Hr]; [discriminate Hr|]. split; [|lia]. revert Hr. generalize (tt_character idx 255). intros c Hc.
  destruct (N.lt_ge_cases c 128) as [H|H]; [left; lia|right]. split; [lia|].
  assert (Hall : forallb (fun n => match iso8859_byte 1 (N.of_nat n) with Some b => iso8859_right 1 b | None => false end) (seq 128 127) = true) by (vm_compute; reflexivity).
  rewrite forallb_forall in Hall. specialize (Hall (N.to_nat c) ltac:(apply in_seq; lia)). rewrite N2Nat.id in Hall.
  destruct (iso8859_byte 1 c) as [b|]; [exists b; auto|discriminate Hall].
Qed.

(** The numbers drawn, computed with bit operations *)
Fixpoint pmod3 (p : positive) : N :=
  match p with
  | xH => 1
  | xO q => match pmod3 q with 0 => 0 | 1 => 2 | _ => 1 end
  | xI q => match pmod3 q with 0 => 1 | 1 => 0 | _ => 2 end
  end.
Lemma pmod3_is : forall p, pmod3 p = Npos p mod 3.
Proof.
  assert (Hlt : forall p, pmod3 p = 0 \/ pmod3 p = 1 \/ pmod3 p = 2).
  { induction p as [p IH|p IH|]; cbn [pmod3]; [destruct IH as [-> |[-> | ->]]; auto|destruct IH as [-> |[-> | ->]]; auto|auto]. }
  induction p as [p IH|p IH|]; cbn [pmod3]; [| |reflexivity].
  - change (N.pos p~1) with (2 * N.pos p + 1). rewrite N.add_mod, N.mul_mod, <- IH by discriminate. destruct (Hlt p) as [-> |[-> | ->]]; reflexivity.
  - change (N.pos p~0) with (2 * N.pos p). rewrite N.mul_mod, <- IH by discriminate. destruct (Hlt p) as [-> |[-> | ->]]; reflexivity.
Qed.
Definition nmod3 (n : N) : N := match n with 0 => 0 | Npos p => pmod3 p end.
Lemma nmod3_is : forall n, nmod3 n = n mod 3.
Proof. intros [|p]; [reflexivity|apply pmod3_is]. Qed.
Definition rnd_fast (seed : N) : N := N.land (N.land (seed + 1) (N.ones 32) * 2654435761) (N.ones 32).
Lemma rnd_fast_is : forall seed, rnd_fast seed = tt_rnd seed.
Proof. intros seed. unfold rnd_fast, tt_rnd, u32. rewrite !N.land_ones. reflexivity. Qed.
Fixpoint draws_fast (fuel : nat) (seed : N) : option N :=
  match fuel with
  | O => None
  | S f => let seed1 := rnd_fast seed in if 1 <? nmod3 seed1 then draws_fast f seed1 else Some seed1
  end.
Fixpoint draws_all_fast (fuel : nat) (n : nat) (seed : N) : option N :=
  match fuel with
  | O => None
  | S f => match n with
           | O => Some seed
           | S n' => match draws_fast f seed with Some seed' => draws_all_fast f n' seed' | None => None end
           end
  end.
Lemma draws_fast_is : forall fuel seed, draws_fast fuel seed = draws fuel seed.
Proof. induction fuel as [|fuel IH]; intros seed; cbn [draws_fast draws]; [reflexivity|]. rewrite rnd_fast_is, nmod3_is. cbv zeta. rewrite IH. reflexivity. Qed.
Lemma draws_all_fast_is : forall fuel n seed, draws_all_fast fuel n seed = draws_all fuel n seed.
Proof.
  induction fuel as [|fuel IH]; intros [|n] seed; cbn [draws_all_fast draws_all]; try reflexivity. rewrite draws_fast_is. destruct (draws fuel seed); [apply IH|reflexivity].
Qed.
Lemma draws_value : draws_all (N.to_nat 10100) (N.to_nat 10000) 0 = Some 2487061188.
Proof. rewrite <- draws_all_fast_is. vm_compute. reflexivity. Qed.

(** The program passes for its character sets and its characters. *)
Theorem C81_program : forall cs, In cs tt_charsets -> exists t, tt_test cs (fun idx => tt_character idx (tt_maxchar cs)) tt_nof (N.to_nat 10100) 0 = Ret t (0, true).
Proof.
  intros cs H. assert (Hcs : cs_constructible cs = true) by (cbn in H; repeat (destruct H as [<-|H]; [reflexivity|]); destruct H).
  pose proof (test_ok cs (fun idx => tt_character idx (tt_maxchar cs)) tt_nof Hcs eq_refl (fun k Hk => proj1 (tt_characters cs k H Hk)) (fun k Hk => proj2 (tt_characters cs k H Hk))
    (N.to_nat 10100) 0 eq_refl) as T.
  assert (E : tt_nof - 0 = 10000) by reflexivity. rewrite E, draws_value in T. exact T.
Qed.
Print Assumptions C81_program.
Example C81_case : In (UTF16 true) tt_charsets /\ map (fun k => tt_character k (tt_maxchar (UTF16 true))) [1; 2500; 9500] = [2; 11001; 972961].
Proof. split; [cbn; auto 10|vm_compute; reflexivity]. Qed.

(** The value returned tells the position of the character that is not read as expected, so a failure at the first character is returned as 0, as if the test had passed;
    PASSED is not printed then. The character here is one that the character set does not have. *)
Theorem C81_first_refuted : exists cs character fuel t, cs_constructible cs = true /\ (forall k, 1 < k -> representable cs (character k)) /\
  tt_test cs character 10 fuel 0 = Ret t (0, false).
Proof.
  exists (IsoLatin 1), (fun k => if k =? 1 then 0x20AC else 65), 20%nat. eexists. split; [reflexivity|]. split; [|vm_compute; reflexivity].
  intros k Hk. replace (k =? 1) with false by lia. left. lia.
Qed.
Print Assumptions C81_first_refuted.
