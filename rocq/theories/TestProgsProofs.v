(** The test programs (proofs). *)
From Coq Require Import Lia ZifyBool ZifyNat.
From Verif Require Import Base Iter CharMap Charset TextScanner Ideal ReaderSim ScannerSim XmlScanner ScanSpec ScanProofs PropsScan XmlIter Names Examples ExampleSpec ExampleProofs TestProgs TestSpec.
Ltac Zify.zify_post_hook ::= Z.div_mod_to_equations.

(** ** Numbers *)
Lemma dec_digit_ok : forall v, v < 10 -> nth (N.to_nat v) (str "0123456789abcdef") 0 = 48 + v.
Proof.
  assert (H : forallb (fun n => nth n (str "0123456789abcdef") 0 =? 48 + N.of_nat n) (seq 0 10) = true) by (vm_compute; reflexivity).
  intros v Hv. rewrite forallb_forall in H. specialize (H (N.to_nat v)). rewrite in_seq in H. specialize (H ltac:(lia)). apply N.eqb_eq in H. rewrite N2Nat.id in H. exact H.
Qed.
Lemma digits_dec : forall f n, n < 10 ^ N.of_nat f -> (1 <= f)%nat -> decimal (digits f 10 n) n.
Proof.
  induction f as [|f IH]; intros n Hn Hf; [lia|]. cbn [digits]. pose proof (N.mod_lt n 10 ltac:(lia)) as Hm. pose proof (N.div_mod n 10 ltac:(lia)) as Hd. rewrite dec_digit_ok by exact Hm.
  destruct (N.ltb_spec n 10) as [H|H].
  - cbn [app]. rewrite N.mod_small by exact H. constructor. exact H.
  - assert (Hq : n / 10 < 10 ^ N.of_nat f).
    { replace (N.of_nat (S f)) with (N.succ (N.of_nat f)) in Hn by lia. rewrite N.pow_succ_r' in Hn. apply N.div_lt_upper_bound; lia. }
    assert (Hf1 : (1 <= f)%nat) by (destruct f; [cbn in Hn; lia|lia]).
    rewrite Hd at 3. apply dc_more; [apply IH; auto| |exact Hm]. intros E. rewrite E in Hd. lia.
Qed.
Lemma show_dec : forall n, n < 2 ^ 64 -> decimal (show_unsigned 10 n) n.
Proof. intros n Hn. apply digits_dec; [|lia]. eapply N.lt_trans; [exact Hn|]. vm_compute. reflexivity. Qed.

(** ** The dump *)
Lemma skipn_nth : forall {A} (l : list A) i c, nth_error l i = Some c -> skipn i l = c :: skipn (S i) l.
Proof. intros A. induction l as [|b l IH]; intros [|i] c H; try discriminate H; cbn [nth_error skipn] in *; [congruence|]. apply IH. exact H. Qed.
Lemma encode_ok : forall n mem i, (i + n <= length mem)%nat -> encodeString mem i n = Some (map shown (firstn n (skipn i mem))).
Proof.
  induction n as [|n IH]; intros mem i H; cbn [encodeString]; [reflexivity|].
  destruct (nth_error mem i) as [c|] eqn:E; [|apply nth_error_None in E; lia]. rewrite IH by lia. cbn [option_map].
  rewrite (skipn_nth mem i c E). reflexivity.
Qed.
Lemma encode_bad : forall n mem i, (length mem < i + n)%nat -> (0 < n)%nat -> encodeString mem i n = None.
Proof.
  induction n as [|n IH]; intros mem i H Hn; [lia|]. cbn [encodeString]. destruct (nth_error mem i) as [c|] eqn:E; [|reflexivity].
  assert (Hi : (i < length mem)%nat) by (apply nth_error_Some; congruence). rewrite IH by lia. reflexivity.
Qed.
Lemma before_null_no : forall l, Forall (fun c => c <> 0) l -> before_null l = l.
Proof. induction l as [|c l IH]; intros H; [reflexivity|]. inversion H; subst. cbn [before_null]. destruct (N.eqb_spec c 0); [contradiction|]. rewrite IH; auto. Qed.

Definition fits (rest : nat) : bool := Nat.eqb (rest mod 10) 0 || Nat.eqb (rest mod 10) 9.
Lemma dump_loop_ok : forall rest fuel text i put, N.of_nat (length text) < 2 ^ 31 -> length text = (i + rest)%nat -> (rest <= fuel)%nat ->
  if fits rest then exists lines, dump_loop (S fuel) (text ++ [0]) (length text) i put = Ret (put ++ concat lines) tt /\ dump_says text i lines
  else dump_loop (S fuel) (text ++ [0]) (length text) i put = Undef.
Proof.
  induction rest as [rest IH] using lt_wf_ind. intros fuel text i put Hl Ht Hf. change (2 ^ 31) with 2147483648 in Hl. cbn [dump_loop].
  destruct (Nat.ltb_spec i (length text)) as [H|H].
  - assert (Hdec : decimal (show_unsigned 10 (N.of_nat i)) (N.of_nat i)) by (apply show_dec; change (2 ^ 64) with 18446744073709551616; lia).
    destruct (Nat.le_gt_cases 9 rest) as [H9|H9].
    + rewrite encode_ok by (rewrite app_length; cbn [length]; lia). destruct fuel as [|fuel]; [lia|].
      match goal with |- context [dump_loop _ _ _ _ (put ++ ?l)] => set (line := l) end.
      destruct (Nat.eq_dec rest 9) as [->|Hne].
      * cbn [dump_loop]. replace (Nat.ltb (i + 10) (length text)) with false by lia. change (fits 9) with true. cbn match. exists [line]. cbn [concat]. rewrite app_nil_r. split; [reflexivity|].
        apply du_line; [exact H|exact Hdec|]. apply du_end. lia.
      * specialize (IH (rest - 10)%nat ltac:(lia) fuel text (i + 10)%nat (put ++ line) Hl ltac:(lia) ltac:(lia)).
        assert (Em : (rest mod 10 = (rest - 10) mod 10)%nat).
        { replace rest with ((rest - 10) + 1 * 10)%nat at 1 by lia. apply Nat.mod_add. discriminate. }
        unfold fits in *. rewrite Em. destruct (Nat.eqb ((rest - 10) mod 10) 0 || Nat.eqb ((rest - 10) mod 10) 9); [|exact IH].
        destruct IH as [lines [E D]]. exists (line :: lines). rewrite E. cbn [concat]. rewrite <- app_assoc. split; [reflexivity|]. apply du_line; auto.
    + rewrite encode_bad by (rewrite ?app_length; cbn [length]; lia).
      unfold fits. rewrite Nat.mod_small by lia. replace (Nat.eqb rest 0) with false by lia. replace (Nat.eqb rest 9) with false by lia. reflexivity.
  - assert (rest = 0%nat) as -> by lia. change (fits 0) with true. cbn match. exists []. cbn [concat]. rewrite app_nil_r. split; [reflexivity|]. apply du_end. lia.
Qed.
Lemma dump_ok : forall fuel text, Forall (fun c => c <> 0) text -> N.of_nat (length text) < 2 ^ 31 -> (length text < fuel)%nat ->
  if fits (length text) then exists lines, dump fuel text = Ret (concat lines) tt /\ dump_says text 0 lines else dump fuel text = Undef.
Proof.
  intros fuel text Hz Hl Hf. unfold dump. rewrite before_null_no by exact Hz. destruct fuel as [|fuel]; [lia|].
  exact (dump_loop_ok (length text) fuel text 0 [] Hl eq_refl ltac:(lia)).
Qed.

(** ** The elements *)
Lemma diff_ok : forall p q, p < 2 ^ 64 -> q < 2 ^ 64 -> (q + sub64 p q) mod 2 ^ 64 = p.
Proof.
  intros p q Hp Hq. unfold sub64, u64. rewrite N.add_mod_idemp_r by discriminate. rewrite (N.mod_small q) by exact Hq.
  replace (q + (p + (2 ^ 64 - q))) with (p + 1 * 2 ^ 64) by (change (2 ^ 64) with 18446744073709551616 in *; lia).
  rewrite N.mod_add by discriminate. apply N.mod_small. exact Hp.
Qed.
Lemma kind_ok : forall t, has_line t = true -> exists kind, kind_of t kind /\ type_text t = str kind.
Proof.
  destruct t; intros H; try discriminate H; cbn [type_text]; eexists; (split; [|reflexivity]);
    first [apply ki_name; cbn; auto; fail|apply ki_value; cbn; auto; fail|apply ki_close; cbn; auto; fail|constructor].
Qed.
Lemma before_null_says : forall l, up_to_null l (before_null l).
Proof.
  induction l as [|c l [H1 H2]]; [split; [constructor|left; reflexivity]|]. cbn [before_null]. destruct (N.eqb_spec c 0) as [->|H].
  - split; [constructor|right; exists l; reflexivity].
  - split; [constructor; auto|]. destruct H2 as [H2|[rest H2]]; [left; congruence|right; exists rest; cbn [app]; congruence].
Qed.
Section Loop.
Context {R : Type} (rops : readerops R) (cfg : config).

Definition out_line (s : scanner R) (t : etype) : list N :=
  if has_line t then position_line rops (s, 0%nat) t (name_of t) (before_null (sc_getItem s)) else [].
Lemma positions_step : forall fuel n (s : @xsc R) put,
  positions_all rops cfg fuel (S n) s put =
  match nextItem rops cfg fuel 0xFFFF (fst s) with
  | Ret s1 t => 
      match t with
      | EExit => Ret ((s1, S (snd s)), put) EndOfLoop
      | EErrorOccurred => Ret ((s1, S (snd s)), put) (Thrown (before_null (sc_getItem s1)))
      | _ => positions_all rops cfg fuel n (s1, S (snd s)) (put ++ out_line s1 t)
      end
  | Jump s1 => Jump ((s1, S (snd s)), put)
  | Throw s1 => Throw ((s1, S (snd s)), put)
  | Undef => Undef
  | Fuel => Fuel
  end.
Proof.
  intros fuel n [s k] put. unfold positions_all at 1, x_begin, x_next. cbn [fst snd].
  destruct (nextItem rops cfg fuel 65535 s) as [s1 t| | | |]; cbn [omap bind fst snd]; try reflexivity.
  assert (HC : c_string (s1, S k) (x_itemPtr (s1, S k)) = Some (before_null (sc_getItem s1))).
  { unfold c_string, x_itemPtr, sc_getItem. cbn [fst snd]. destruct (sc_obuf s1) as [|b l] eqn:E; [reflexivity|]. rewrite Nat.eqb_refl. reflexivity. }
  cbn [positions_loop].
  destruct t; unfold x_name; cbn [x_eq xi_elem ie_type ie_content x_end ie_end]; try reflexivity; rewrite ?HC, ?name_of_ok; try reflexivity;
    unfold positions_all, out_line, x_postinc, x_skip, x_begin, x_next; cbn [xi_input fst snd xi_elem ie_type has_line]; rewrite ?app_nil_r;
    destruct (nextItem rops cfg fuel 65535 s1); reflexivity.
Qed.

Definition end_at (e : event) : ended := match ev_type e with EErrorOccurred => Thrown (before_null (ev_item e)) | _ => EndOfLoop end.
Lemma positions_scan : forall evs ev n fuel s s' k put, (length evs < n)%nat -> scan rops cfg fuel (calls (S (length evs))) s = Ret s' (evs ++ [ev]) ->
  Forall (fun e => goes_on (ev_type e) = true) evs -> goes_on (ev_type ev) = false -> (forall r, r_pos rops r < 2 ^ 64) -> Forall (fun e => ev_tokpos e < 2 ^ 64) evs ->
  exists st lines, positions_all rops cfg fuel n (s, k) put = Ret (st, put ++ concat lines) (end_at ev) /\ Forall2 line_says (filter (fun e => has_line (ev_type e)) evs) lines.
Proof.
  induction evs as [|e evs IH]; intros ev n fuel s s' k put Hn HS He Hv Hp Ht; (destruct n as [|n]; [cbn [length] in Hn; lia|]); rewrite positions_step; cbn [fst snd].
  - cbn [length calls repeat scan app] in HS. destruct (nextItem rops cfg fuel mask_all s) as [s1 t| | | |] eqn:E1; cbn [bind] in HS; try discriminate.
    change 65535 with mask_all. rewrite E1. injection HS as <- <-. exists (s1, S k), []. cbn [concat]. rewrite app_nil_r. split; [|constructor]. unfold end_at. cbn [observe ev_type ev_item length].
    destruct t; try discriminate Hv; reflexivity.
  - cbn [length] in *. change (calls (S (S (length evs)))) with (mask_all :: calls (S (length evs))) in HS. cbn [scan app] in HS.
    destruct (nextItem rops cfg fuel mask_all s) as [s1 t| | | |] eqn:E1; cbn [bind] in HS; try discriminate.
    destruct (scan rops cfg fuel (calls (S (length evs))) s1) as [s2 evs2| | | |] eqn:E2; cbn [bind] in HS; try discriminate. injection HS as <- <- ->.
    change 65535 with mask_all. rewrite E1. inversion He as [|? ? He1 He2]; subst. inversion Ht as [|? ? Ht1 Ht2]; subst. cbn [observe ev_type ev_tokpos] in He1, Ht1.
    destruct (IH ev n fuel s1 s2 (S k) (put ++ out_line s1 t) ltac:(lia) E2 He2 Hv Hp Ht2) as [st [lines [G L]]].
    assert (G2 : exists st lines, positions_all rops cfg fuel n (s1, S k) (put ++ out_line s1 t) = Ret (st, put ++ concat lines) (end_at ev) /\
       Forall2 line_says (filter (fun e => has_line (ev_type e)) (observe rops t s1 :: evs)) lines).
    { exists st, (if has_line t then out_line s1 t :: lines else lines). rewrite G. cbn [filter observe ev_type]. unfold out_line. destruct (has_line t) eqn:Eh.
      - cbn [concat]. rewrite <- app_assoc. split; [reflexivity|]. constructor; [|exact L]. unfold position_line. cbn [fst].
        destruct (kind_ok t Eh) as [kind [Hk ->]].
        eapply (line_i (observe rops t s1)); cbn [observe ev_pos ev_tokpos ev_type ev_item]; [apply show_dec; exact Ht1|apply show_dec; apply N.mod_lt; discriminate| |exact Hk|apply before_null_says].
        specialize (Hp (sc_src s1)). change (r_pos rops (sc_src s1)) with (sc_getPosition rops s1) in Hp. revert Hp Ht1. generalize (sc_getPosition rops s1) (sc_getTokenPosition s1). clear. intros p q Hp Hq.
        apply diff_ok; assumption.
      - rewrite app_nil_r. split; [reflexivity|exact L]. }
    destruct t; try discriminate He1; exact G2.
Qed.
End Loop.

(** positions are numbers of 64 bits *)
Lemma self_rsim : forall {R} (rops : readerops R), (forall r, r_pos rops r < 2 ^ 64) -> rsim (fun x y => y < 2 ^ 64) rops rops eq eq eq.
Proof.
  intros R rops Hp.
  assert (Ho : forall A (x : out R A), orel eq eq x x) by (intros A [s a|s|s| |]; constructor; reflexivity).
  constructor; try (intros r t ->; apply Ho); auto.
Qed.
Lemma scan_tokpos : forall {R} (rops : readerops R) cfg fuel masks r s evs, (forall r, r_pos rops r < 2 ^ 64) -> scan rops cfg fuel masks (sc_make r) = Ret s evs -> Forall (fun e => ev_tokpos e < 2 ^ 64) evs.
Proof.
  intros R rops cfg fuel masks r s evs Hp E. pose proof (self_rsim rops Hp) as Hs.
  assert (H : srel (fun x y => y < 2 ^ 64) eq (sc_make r) (sc_make r)) by (constructor; reflexivity).
  pose proof (sim_scan _ _ _ _ _ _ _ (sim_nextItem _ _ cfg _ _ _ _ Hs) (rs_pos _ _ _ _ _ _ Hs) fuel masks _ _ H) as G. rewrite E in G. inversion G as [? ? ? ? _ He| | | |]; subst.
  clear - He. induction He as [|a b l1 l2 H1 H2 IH]; constructor; [|exact IH]. destruct H1 as [_ [H1 _]]. exact H1.
Qed.
Lemma ts_pos_bound : forall {I} (o : iterops I) cs t, r_pos (ts_ops o cs) t < 2 ^ 64.
Proof. intros I o cs t. cbn [ts_ops r_pos]. unfold ts_position, sub64. apply N.mod_lt. discriminate. Qed.

(** ** readStdinIterator *)
(** what is left: the bytes in the buffer and in the file *)
Definition in_reads (i : input) (l : list N) : Prop :=
  in_size i <= N.of_nat (length (in_mem i)) /\ in_pos i <= in_size i /\ in_size i <= in_max /\
  l = firstn (N.to_nat (in_size i - in_pos i)) (skipn (N.to_nat (in_pos i)) (in_mem i)) ++ in_file i.
Lemma getchar_next : forall i c l, in_reads i (c :: l) -> exists i1, in_getchar i = Ret i1 c /\ in_reads i1 l /\ 0 < in_pos i1.
Proof.
  assert (Hget : forall i c l, in_size i <= N.of_nat (length (in_mem i)) -> in_pos i < in_size i -> in_size i <= in_max ->
     c :: l = firstn (N.to_nat (in_size i - in_pos i)) (skipn (N.to_nat (in_pos i)) (in_mem i)) ++ in_file i ->
     exists i1, match nth_error (in_mem i) (N.to_nat (in_pos i)) with Some c => Ret (mkIn (in_mem i) (in_size i) (u32 (in_pos i + 1)) (in_file i)) c | None => Undef end = Ret i1 c /\ in_reads i1 l /\ 0 < in_pos i1).
  { intros i c l H1 H2 H3 H4. destruct (nth_error (in_mem i) (N.to_nat (in_pos i))) as [b|] eqn:E; [|apply nth_error_None in E; lia].
    rewrite (skipn_nth _ _ _ E) in H4. replace (N.to_nat (in_size i - in_pos i)) with (S (N.to_nat (in_size i - (in_pos i + 1)))) in H4 by lia.
    cbn [firstn app] in H4. injection H4 as <- ->. unfold in_max in H3.
    assert (Eu : u32 (in_pos i + 1) = in_pos i + 1) by (unfold u32; rewrite N.mod_small; [reflexivity|change (2 ^ 32) with 4294967296; lia]). rewrite Eu.
    eexists. split; [reflexivity|]. split; [|cbn [in_pos]; lia]. unfold in_reads, in_max. cbn [in_mem in_size in_pos in_file]. split; [lia|]. split; [lia|]. split; [lia|].
    replace (N.to_nat (in_pos i + 1)) with (S (N.to_nat (in_pos i))) by lia. reflexivity. }
  intros i c l [H1 [H2 [H3 H4]]]. unfold in_getchar. destruct (N.eqb_spec (in_pos i) (in_size i)) as [E|E].
  - rewrite E, N.sub_diag in H4. cbn [N.to_nat firstn app] in H4. cbv zeta. cbn [in_size in_mem in_file].
    assert (Hlen : (0 < length (firstn (N.to_nat in_max) (in_file i)))%nat).
    { rewrite firstn_length, <- H4. cbn [length]. assert (0 < in_max) by reflexivity. lia. }
    replace (N.of_nat (length (firstn (N.to_nat in_max) (in_file i))) =? 0) with false by lia.
    apply (Hget (mkIn _ _ 0 _)); cbn [in_mem in_size in_pos in_file].
    + rewrite app_length. lia.
    + lia.
    + rewrite firstn_length. lia.
    + rewrite N.sub_0_r, Nat2N.id. cbn [N.to_nat skipn]. rewrite firstn_app, firstn_all, Nat.sub_diag. cbn [firstn]. rewrite app_nil_r, firstn_skipn. exact H4.
  - apply Hget; auto. lia.
Qed.
Lemma getchar_end : forall i, in_reads i [] -> exists i1, in_getchar i = Ret i1 0 /\ in_file i1 = [] /\ in_size i1 = 0 /\ in_pos i1 = in_pos i /\ in_mem i1 = in_mem i.
Proof.
  intros i [H1 [H2 [H3 H4]]]. symmetry in H4. apply app_eq_nil in H4. destruct H4 as [H4 H5].
  assert (E : in_pos i = in_size i).
  { apply (f_equal (@length N)) in H4. rewrite firstn_length, skipn_length in H4. cbn [length] in H4. lia. }
  unfold in_getchar. rewrite E, N.eqb_refl, H5. rewrite firstn_nil, skipn_nil. cbn [skipn app length N.of_nat in_size N.eqb]. eexists. split; [reflexivity|]. cbn. auto.
Qed.
Lemma in_start : forall file, in_reads (in_new file) file.
Proof. intros file. unfold in_reads, in_max. cbn. repeat split; discriminate. Qed.

(** [pre]: what fread has delivered before the last call, [got]: what it has delivered in the last one *)
Definition in_chunk : nat := N.to_nat in_max.
Lemma in_chunk_range : (0 < in_chunk)%nat /\ N.of_nat in_chunk = in_max.
Proof. unfold in_chunk. rewrite N2Nat.id. split; [assert (0 < in_max) by reflexivity; lia|reflexivity]. Qed.
Definition in_state (file : list N) (k : nat) (i : input) : Prop :=
  exists pre got q, file = pre ++ got ++ in_file i /\ in_mem i = got ++ skipn (length got) (skipn (length pre - in_chunk) pre) /\
    in_size i = N.of_nat (length got) /\ k = (length pre + N.to_nat (in_pos i))%nat /\ in_pos i <= in_size i /\ length pre = (q * in_chunk)%nat /\
    (length got <= in_chunk)%nat /\ (in_file i = [] \/ length got = in_chunk \/ (got = [] /\ pre = [])) /\ (got = [] -> pre = []).
Lemma in_get_ok : forall file k i c, in_state file k i -> in_pos i < in_size i -> nth_error file k = Some c ->
  exists i1, match nth_error (in_mem i) (N.to_nat (in_pos i)) with Some c => Ret (mkIn (in_mem i) (in_size i) (u32 (in_pos i + 1)) (in_file i)) c | None => Undef end = Ret i1 c /\ in_state file (S k) i1 /\ in_file i1 = in_file i.
Proof.
  intros file k i c [pre [got [q [H1 [H2 [H3 [H4 [H5 [H6 [H7 [H8 H9]]]]]]]]]]] Hp Hc. destruct in_chunk_range as [C1 C2].
  assert (E : nth_error (in_mem i) (N.to_nat (in_pos i)) = Some c).
  { rewrite H2, nth_error_app1 by lia. rewrite H1, H4, nth_error_app2, nth_error_app1 in Hc by lia. rewrite <- Hc. f_equal. lia. }
  rewrite E. assert (Eu : u32 (in_pos i + 1) = in_pos i + 1).
  { unfold u32. apply N.mod_small. change (2 ^ 32) with 4294967296. unfold in_max in C2. lia. }
  rewrite Eu. eexists. split; [reflexivity|]. split; [|reflexivity]. exists pre, got, q. cbn [in_mem in_size in_pos in_file]. do 3 (split; [assumption|]). split; [lia|]. split; [lia|]. auto.
Qed.
Lemma in_fetch : forall file k i c, in_state file k i -> nth_error file k = Some c -> exists i1, in_getchar i = Ret i1 c /\ in_state file (S k) i1.
Proof.
  intros file k i c Hs Hc. unfold in_getchar. destruct (N.eqb_spec (in_pos i) (in_size i)) as [E|E].
  2: { assert (in_pos i <= in_size i) by (destruct Hs as [? [? [? Hs]]]; tauto). destruct (in_get_ok file k i c Hs ltac:(lia) Hc) as [i1 [G1 [G2 _]]]. eauto. }
  destruct Hs as [pre [got [q [H1 [H2 [H3 [H4 [H5 [H6 [H7 [H8 H9]]]]]]]]]]]. destruct in_chunk_range as [C1 C2]. cbv zeta. cbn [in_size in_mem in_file]. fold in_chunk.
  assert (Hk : k = length (pre ++ got)) by (rewrite app_length; lia).
  assert (Hf : in_file i <> []).
  { intros F. rewrite F, app_nil_r in H1. assert (k < length file)%nat by (apply nth_error_Some; congruence). rewrite H1 in H. lia. }
  set (g := firstn in_chunk (in_file i)).
  assert (Hg : (0 < length g)%nat).
  { unfold g. rewrite firstn_length. destruct (in_file i); [congruence|]. cbn [length]. lia. }
  replace (N.of_nat (length g) =? 0) with false by lia.
  assert (Hst : in_state file k (mkIn (g ++ skipn (length g) (in_mem i)) (N.of_nat (length g)) 0 (skipn in_chunk (in_file i)))).
  { exists (pre ++ got), g. assert (Hq : exists q', length (pre ++ got) = (q' * in_chunk)%nat).
    { destruct H8 as [H8|[H8|[-> ->]]]; [congruence| |exists 0%nat; reflexivity]. exists (S q). rewrite app_length. lia. }
    destruct Hq as [q' Hq]. exists q'. cbn [in_mem in_size in_pos in_file]. split; [rewrite <- app_assoc; unfold g; rewrite firstn_skipn; exact H1|].
    split.
    - f_equal. f_equal. rewrite H2. destruct H8 as [H8|[H8|[-> ->]]]; [congruence| |reflexivity].
      rewrite (skipn_all2 (skipn _ pre)) by (rewrite skipn_length; lia). rewrite app_nil_r, app_length, skipn_app, skipn_all2 by lia. cbn [app].
      replace (length pre + length got - in_chunk - length pre)%nat with 0%nat by lia. reflexivity.
    - split; [reflexivity|]. split; [lia|]. split; [lia|]. split; [exact Hq|]. split; [unfold g; rewrite firstn_length; lia|].
      split; [|intros G; rewrite G in Hg; cbn [length] in Hg; lia]. destruct (Nat.le_gt_cases (length (in_file i)) in_chunk); [left; apply skipn_all2; exact H|right; left; unfold g; rewrite firstn_length; lia]. }
  destruct (in_get_ok file k _ c Hst ltac:(cbn [in_pos in_size]; lia) Hc) as [i1 [G1 [G2 _]]]. cbn [in_mem in_size in_pos in_file] in *. eauto.
Qed.
(** the end of the file: the position is not set back *)
Lemma in_last : forall file i, in_state file (length file) i -> exists i1, in_getchar i = Ret i1 0 /\
  in_getchar i1 = match file with
                  | [] => Ret i1 0
                  | _ => if (Nat.leb (length file) in_chunk || Nat.eqb (length file mod in_chunk) 0)%bool then Undef
                         else Ret (mkIn (in_mem i1) 0 (u32 (in_pos i1 + 1)) []) (nth (length file - in_chunk) file 0)
                  end.
Proof.
  intros file i [pre [got [q [H1 [H2 [H3 [H4 [H5 [H6 [H7 [H8 H9]]]]]]]]]]]. destruct in_chunk_range as [C1 C2].
  assert (Hlen : length file = (length pre + (length got + length (in_file i)))%nat) by (rewrite H1, !app_length; reflexivity).
  assert (F : in_file i = []) by (destruct (in_file i); [reflexivity|cbn [length] in Hlen; lia]). rewrite F, app_nil_r in H1. rewrite F in Hlen. cbn [length] in Hlen.
  assert (Ep : in_pos i = in_size i) by lia. unfold in_getchar at 1. rewrite Ep, N.eqb_refl, F, firstn_nil, skipn_nil. cbn [length app skipn in_size N.of_nat N.eqb].
  eexists. split; [reflexivity|]. unfold in_getchar. cbn [in_pos in_size in_mem in_file]. rewrite H3.
  destruct (Nat.eq_dec (length got) 0) as [G0|G0].
  - assert (file = []) as ->.
    { apply length_zero_iff_nil in G0. subst got. rewrite (H9 eq_refl) in H1. exact H1. }
    rewrite G0. reflexivity.
  - destruct file as [|b file0]; [cbn [length] in Hlen; lia|]. set (file := b :: file0) in *. replace (N.of_nat (length got) =? 0) with false by lia. rewrite Nat2N.id, H2, nth_error_app2, Nat.sub_diag by lia.
    destruct (Nat.leb_spec (length file) in_chunk) as [L|L]; cbn [orb].
    + assert (Ep0 : pre = []); [|rewrite Ep0, !skipn_nil; reflexivity]. destruct q as [|q]; [apply length_zero_iff_nil; exact H6|]. cbn [Nat.mul] in H6. lia.
    + assert (Hmod : (length file mod in_chunk = length got mod in_chunk)%nat) by (rewrite Hlen, H6, Nat.add_0_r, Nat.add_comm; apply Nat.mod_add; lia). rewrite Hmod. destruct (Nat.eq_dec (length got) in_chunk) as [Eg|Eg].
      * rewrite Eg, Nat.mod_same, Nat.eqb_refl by lia. rewrite skipn_all2 by (rewrite skipn_length; lia). reflexivity.
      * rewrite Nat.mod_small by lia. replace (Nat.eqb (length got) 0) with false by lia.
        destruct q as [|q]; [lia|]. assert (Hn : nth_error (skipn (length got) (skipn (length pre - in_chunk) pre)) 0 = Some (nth (length got + (length pre - in_chunk)) file 0)).
        { rewrite skipn_skipn. assert (Hp : (length got + (length pre - in_chunk) < length pre)%nat) by (cbn [Nat.mul] in H6; lia).
          rewrite H1, app_nth1 by exact Hp. revert Hp. generalize (length got + (length pre - in_chunk))%nat. clear.
          intros j. revert pre. induction j as [|j IH]; intros [|x pre] Hp; cbn [length skipn nth nth_error] in *; try lia; [reflexivity|]. apply IH. lia. }
        rewrite Hn. cbn [Nat.mul] in H6. replace (length got + (length pre - in_chunk))%nat with (length file - in_chunk)%nat by lia. reflexivity.
Qed.

Fixpoint in_go (k : nat) (i : init) : out init unit := match k with O => Ret i tt | S k => let! (i, _) := init_incr i in in_go k i end.
Lemma in_new_state : forall file, in_state file 0 (in_new file).
Proof. intros file. exists [], [], 0%nat. cbn. destruct in_chunk_range. repeat split; auto; try lia. Qed.
Lemma in_go_state : forall file k j i c, (j + k < length file)%nat -> in_state file (S j) i -> c = nth j file 0 -> exists i1 c1, in_go k (i, c) = Ret (i1, c1) tt /\ in_state file (S (j + k)) i1 /\ c1 = nth (j + k) file 0.
Proof.
  intros file. induction k as [|k IH]; intros j i c Hk Hi Hc; cbn [in_go].
  - exists i, c. rewrite Nat.add_0_r. auto.
  - destruct (nth_error file (S j)) as [b|] eqn:E; [|apply nth_error_None in E; lia]. destruct (in_fetch file (S j) i b Hi E) as [i1 [G1 G2]]. unfold init_incr. cbn [fst]. rewrite G1. cbn [bind].
    destruct (IH (S j) i1 b ltac:(lia) G2) as [i2 [c2 [F1 [F2 F3]]]]; [symmetry; apply nth_error_nth; exact E|]. exists i2, c2. rewrite <- Nat.add_succ_comm. auto.
Qed.
Lemma in_first : forall c l, exists i, in_begin (c :: l) = Ret (i, c) tt /\ in_state (c :: l) 1 i.
Proof.
  intros c l. destruct (in_fetch (c :: l) 0 (in_new (c :: l)) c (in_new_state _) eq_refl) as [i [G1 G2]]. exists i. unfold in_begin, init_incr. cbn [fst]. rewrite G1. auto.
Qed.
Lemma in_go_app : forall a b i, in_go (a + b) i = let! (i, _) := in_go a i in in_go b i.
Proof. induction a as [|a IH]; intros b i; cbn [Nat.add in_go bind]; [reflexivity|]. destruct (init_incr i); cbn [bind]; auto. Qed.
Lemma in_at : forall file k, (k <= length file)%nat -> exists i0 i, in_begin file = Ret i0 tt /\ in_go k i0 = Ret i tt /\ snd i = nth k file 0.
Proof.
  intros [|c l] k Hk.
  - assert (k = 0%nat) as -> by (cbn [length] in Hk; lia). destruct (in_last [] _ (in_new_state [])) as [i [G _]]. exists (i, 0), (i, 0). unfold in_begin, init_incr. cbn [fst]. rewrite G. auto.
  - destruct (in_first c l) as [i0 [E0 S0]]. exists (i0, c). destruct (Nat.eq_dec k (length (c :: l))) as [->|Hne].
    + cbn [length]. destruct (in_go_state (c :: l) (length l) 0 i0 c ltac:(cbn [length]; lia) S0 eq_refl) as [i1 [c1 [F1 [F2 F3]]]].
      destruct (in_last _ _ F2) as [i2 [F4 _]]. exists (i2, 0). split; [exact E0|]. split; [|cbn [snd]; rewrite nth_overflow; [reflexivity|cbn [length]; lia]].
      rewrite <- Nat.add_1_r, in_go_app, F1. cbn [bind in_go]. unfold init_incr. cbn [fst]. rewrite F4. reflexivity.
    + destruct (in_go_state (c :: l) k 0 i0 c ltac:(lia) S0 eq_refl) as [i1 [c1 [F1 [F2 F3]]]]. exists (i1, c1). auto.
Qed.
Lemma in_behind : forall file i0, in_begin file = Ret i0 tt -> in_go (S (length file)) i0 = Undef <-> file <> [] /\ ((length file <= in_chunk)%nat \/ (length file mod in_chunk = 0)%nat).
Proof.
  intros [|c l] i0 E0.
  - destruct (in_last [] _ (in_new_state [])) as [i [G G1]]. unfold in_begin, init_incr in E0. cbn [fst] in E0. rewrite G in E0. cbn [bind] in E0. injection E0 as <-.
    cbn [length in_go]. unfold init_incr. cbn [fst]. rewrite G1. cbn [bind]. split; [discriminate|]. intros [H _]. congruence.
  - destruct (in_first c l) as [i1 [E1 S0]]. rewrite E1 in E0. injection E0 as <-.
    destruct (in_go_state (c :: l) (length l) 0 i1 c ltac:(cbn [length]; lia) S0 eq_refl) as [i2 [c1 [F1 [F2 F3]]]]. destruct (in_last _ _ F2) as [i3 [F4 F5]].
    replace (S (length (c :: l))) with (length l + 2)%nat by (cbn [length]; lia). rewrite in_go_app, F1. cbn [bind in_go]. unfold init_incr at 1. cbn [fst]. rewrite F4. cbn [bind]. unfold init_incr. cbn [fst]. rewrite F5.
    destruct (Nat.leb_spec (length (c :: l)) in_chunk) as [L|L]; cbn [orb]; [cbn [bind]; split; [intros _; split; [discriminate|auto]|reflexivity]|].
    destruct (Nat.eqb_spec (length (c :: l) mod in_chunk) 0) as [L2|L2]; cbn [bind]; [split; [intros _; split; [discriminate|auto]|reflexivity]|].
    split; [discriminate|]. intros [_ [H|H]]; lia.
Qed.
Lemma in_behind_value : forall file i0, in_begin file = Ret i0 tt -> (in_chunk < length file)%nat -> (length file mod in_chunk <> 0)%nat ->
  exists i, in_go (S (length file)) i0 = Ret i tt /\ snd i = nth (length file - in_chunk) file 0.
Proof.
  intros [|c l] i0 E0 L L2; [cbn [length] in L; lia|].
  destruct (in_first c l) as [i1 [E1 S0]]. rewrite E1 in E0. injection E0 as <-.
  destruct (in_go_state (c :: l) (length l) 0 i1 c ltac:(cbn [length]; lia) S0 eq_refl) as [i2 [c1 [F1 [F2 F3]]]]. destruct (in_last _ _ F2) as [i3 [F4 F5]].
  replace (S (length (c :: l))) with (length l + 2)%nat by (cbn [length]; lia). rewrite in_go_app, F1. cbn [bind in_go]. unfold init_incr at 1. cbn [fst]. rewrite F4. cbn [bind]. unfold init_incr. cbn [fst]. rewrite F5.
  replace (Nat.leb (length (c :: l)) in_chunk) with false by (symmetry; apply Nat.leb_gt; exact L). replace (Nat.eqb (length (c :: l) mod in_chunk) 0) with false by (symmetry; apply Nat.eqb_neq; exact L2).
  cbn [orb bind]. eexists. split; [reflexivity|]. reflexivity.
Qed.
