(** C75: histories of calls of a header parser, C76: what a SrcIterator tells about its chunk, C47: iterators at the end. *)
From Coq Require Import Lia ZifyBool ZifyNat.
From Verif Require Import Base Iter CharMap Charset TextScanner XmlScanner ScanSpec PropsScan XmlIter XmlHdr HdrSpec HdrProofs.

(** ** C75: calls of a header parser in any order *)
Inductive hcall := HPut (bytes : list N) | HParse | HClear.
(** what can be asked after a call: last error, encoding, number of characters and the data *)
Definition hanswers : Type := option (list N) * option (list N) * nat * list N.
Definition answers (h : hdr) : hanswers := (h_lasterror h, h_encoding h, h_chars h, h_data h).
(** the result of a call: nothing, the value returned, an exception *)
Inductive hres := RNothing | RValue (b : bool) | RException.
Fixpoint h_calls (cs : list hcall) (h : hdr) : option (hdr * list (hres * hanswers)) :=
  match cs with
  | [] => Some (h, [])
  | c :: cs =>
      match (match c with
             | HPut b => Some (h_put h b, RNothing)
             | HClear => Some (h_clear h, RNothing)
             | HParse => match h_parse h with Ret h' b => Some (h', RValue b) | Throw h' => Some (h', RException) | _ => None end
             end) with
      | Some (h1, r) => match h_calls cs h1 with Some (h2, l) => Some (h2, (r, answers h1) :: l) | None => None end
      | None => None
      end
  end.
Definition is_clear (c : hcall) : bool := match c with HClear => true | _ => false end.

Lemma calls_app : forall a b h, h_calls (a ++ b) h = match h_calls a h with Some (h1, l1) => match h_calls b h1 with Some (h2, l2) => Some (h2, l1 ++ l2) | None => None end | None => None end.
Proof.
  induction a as [|c a IH]; intros b h; cbn [app h_calls]; [destruct (h_calls b h) as [[? ?]|]; reflexivity|].
  match goal with |- context[match ?x with Some _ => _ | None => None end] => destruct x as [[h1 r]|]; [|reflexivity] end. rewrite IH. destruct (h_calls a h1) as [[h2 l]|]; [|reflexivity]. destruct (h_calls b h2) as [[? ?]|]; reflexivity.
Qed.
Lemma parse_stuck : forall h, (4 <= h_zero h)%nat -> h_parse h = Throw h.
Proof. intros h H. unfold h_parse. cbn [h_loop]. unfold h_nextChar. cbn [h_next]. rewrite (proj2 (Nat.ltb_ge _ _) H). reflexivity. Qed.
Lemma hb_throw : forall l h h', hb l h = (h', VThrow) -> (4 <= h_zero h')%nat.
Proof.
  induction l as [|c l IH]; intros h h' E; cbn [hb] in E; [discriminate|]. destruct (c =? 0).
  - cbn zeta in E. destruct (Nat.ltb_spec (h_zero (h_setZero (S (h_zero h)) (h_skip h))) 4) as [G|G]; [eauto|]. injection E as <-. exact G.
  - destruct (h_char c _) as [h2 [x|]]; [discriminate|eauto].
Qed.
Lemma h_char_err : forall c h, h_err h <> [] -> h_err (fst (h_char c h)) <> [].
Proof.
  intros c h H. unfold h_char, h_fail. destruct (h_state h);
    repeat match goal with |- context[if ?b then _ else _] => destruct b end; cbn; try (destruct (h_attr h)); cbn; try exact H; discriminate.
Qed.
Lemma hb_err : forall l h, h_err h <> [] -> h_err (fst (hb l h)) <> [].
Proof.
  induction l as [|c l IH]; intros h H; cbn [hb]; [exact H|]. destruct (c =? 0).
  - cbn zeta. destruct (Nat.ltb _ 4); [apply IH; exact H|exact H].
  - pose proof (h_char_err c (h_count c (h_skip h)) H) as G. destruct (h_char c (h_count c (h_skip h))) as [h2 [x|]]; [exact G|apply IH; exact G].
Qed.
Lemma parse_returns : forall h, exists h' r, h_parse h = hout (h', r) /\ (r = VThrow -> (4 <= h_zero h')%nat) /\ (h_err h <> [] -> h_err h' <> []).
Proof.
  intros h. destruct (Nat.lt_ge_cases (h_zero h) 4) as [Hz|Hz].
  - rewrite h_parse_hb by exact Hz. pose proof (hb_err (skipn (h_idx h) (h_src h)) h) as K. destruct (hb (skipn (h_idx h) (h_src h)) h) as [h' r] eqn:E. exists h', r. split; [reflexivity|]. split; [intros ->; eapply hb_throw; eauto|exact K].
  - exists h, VThrow. rewrite parse_stuck by exact Hz. auto.
Qed.

(** No order of calls is undefined. What was done before a clear has no influence on what follows, be it an error or an exception. *)
Theorem C75_clear : forall before after, exists h1 h2 l1 l2,
  h_calls before h_new = Some (h1, l1) /\ h_calls after h_new = Some (h2, l2) /\
  h_calls (before ++ HClear :: after) h_new = Some (h2, l1 ++ (RNothing, (None, None, 0%nat, [])) :: l2).
Proof.
  assert (T : forall cs h, h_calls cs h <> None).
  { induction cs as [|c cs IH]; intros h; cbn [h_calls]; [discriminate|]. destruct c as [b| |].
    - specialize (IH (h_put h b)). destruct (h_calls cs (h_put h b)) as [[? ?]|]; [discriminate|exact IH].
    - destruct (parse_returns h) as [h' [r [E _]]]. rewrite E. destruct r; cbn [hout]; specialize (IH h'); destruct (h_calls cs h') as [[? ?]|]; discriminate || exact IH.
    - specialize (IH (h_clear h)). destruct (h_calls cs (h_clear h)) as [[? ?]|]; [discriminate|exact IH]. }
  intros a b. pose proof (T a h_new) as Ta. pose proof (T b h_new) as Tb. destruct (h_calls a h_new) as [[h1 l1]|] eqn:Ea; [|congruence]. destruct (h_calls b h_new) as [[h2 l2]|] eqn:Eb; [|congruence].
  exists h1, h2, l1, l2. split; [reflexivity|]. split; [reflexivity|]. rewrite calls_app, Ea. cbn [h_calls]. change (h_clear h1) with h_new. rewrite Eb. reflexivity.
Qed.
Print Assumptions C75_clear.

(** After an exception each call of parse throws it again and the answers stay the same but for the data, until the parser is cleared. *)
Theorem C75_exception : forall before after h l err enc n data, h_calls (before ++ [HParse]) h_new = Some (h, l ++ [(RException, (err, enc, n, data))]) ->
  Forall (fun c => is_clear c = false) after ->
  exists h' l', h_calls after h = Some (h', l') /\ Forall2 (fun c r => fst r = match c with HParse => RException | _ => RNothing end /\ exists more, snd r = (err, enc, n, data ++ more)) after l'.
Proof.
  intros before after h l err enc n data E Hc. rewrite calls_app in E. destruct (h_calls before h_new) as [[h0 l0]|]; [|discriminate]. cbn [h_calls] in E.
  destruct (parse_returns h0) as [h1 [r [E1 [E2 _]]]]. rewrite E1 in E. destruct r as [|b|]; cbn [hout] in E; injection E as E3 E4; apply app_inj_tail in E4; destruct E4 as [_ E4]; try discriminate E4. subst h1.
  injection E4 as F1 F2 F3 F4. specialize (E2 eq_refl). clear E1.
  assert (G : forall after h, Forall (fun c => is_clear c = false) after -> (4 <= h_zero h)%nat -> h_lasterror h = err -> h_encoding h = enc -> h_chars h = n -> (exists more, h_data h = data ++ more) ->
     exists h' l', h_calls after h = Some (h', l') /\ Forall2 (fun c r => fst r = match c with HParse => RException | _ => RNothing end /\ exists more, snd r = (err, enc, n, data ++ more)) after l').
  { clear. induction after as [|c after IH]; intros h Hc Hz H1 H2 H3 [more H4]; [exists h, []; split; [reflexivity|constructor]|]. pose proof (Forall_inv Hc) as Hc1. pose proof (Forall_inv_tail Hc) as H5. cbn [h_calls]. destruct c as [b| |]; [| |discriminate Hc1].
    - destruct (IH (h_put h b) H5 Hz H1 H2 H3) as [h' [l' [G1 G2]]]; [exists (more ++ b); unfold h_data in *; cbn; rewrite H4, app_assoc; reflexivity|]. rewrite G1. exists h'. eexists. split; [reflexivity|]. constructor; [|exact G2].
      split; [reflexivity|]. exists (more ++ b). cbn [snd]. unfold answers. unfold h_lasterror, h_encoding, h_chars, h_data in *. cbn. rewrite H1, H2, H3, H4, app_assoc. reflexivity.
    - rewrite parse_stuck by exact Hz. destruct (IH h H5 Hz H1 H2 H3 (ex_intro _ more H4)) as [h' [l' [G1 G2]]]. rewrite G1. exists h'. eexists. split; [reflexivity|]. constructor; [|exact G2]. split; [reflexivity|]. exists more. cbn [snd]. unfold answers. rewrite H1, H2, H3, H4. reflexivity. }
  apply G; auto. exists []. rewrite app_nil_r. exact F4.
Qed.
Print Assumptions C75_exception.

(** An error stays as last error as well, *)
Theorem C75_error : forall before after h l a, h_calls before h_new = Some (h, l ++ [a]) -> fst (fst (fst (snd a))) <> None -> Forall (fun c => is_clear c = false) after ->
  exists h' l', h_calls after h = Some (h', l') /\ Forall (fun r => fst (fst (fst (snd r))) <> None) l'.
Proof.
  assert (L : forall h, h_lasterror h <> None <-> h_err h <> []) by (intros h; unfold h_lasterror; destruct (h_err h); split; congruence).
  intros before after h l a E Ha Hc.
  assert (Hh : h_err h <> []).
  { assert (G : forall cs h0 h l a, h_calls cs h0 = Some (h, l ++ [a]) -> snd a = answers h).
    { clear. induction cs as [|c cs IH]; intros h0 h l a E; cbn [h_calls] in E; [destruct l; discriminate|].
      match type of E with context[match ?x with Some _ => _ | None => None end] => destruct x as [[h1 r]|]; [|discriminate] end.
      destruct (h_calls cs h1) as [[h2 l2]|] eqn:E2; [|discriminate]. injection E as <- E. destruct l as [|x l].
      - cbn [app] in E. injection E as <- ->. destruct cs as [|c' cs]; cbn [h_calls] in E2; [injection E2 as <-; reflexivity|].
        match type of E2 with context[match ?x with Some _ => _ | None => None end] => destruct x as [[h3 r3]|]; [|discriminate] end. destruct (h_calls cs h3) as [[? ?]|]; discriminate.
      - cbn [app] in E. injection E as _ ->. eapply IH. exact E2. }
    apply L. rewrite (G _ _ _ _ _ E) in Ha. exact Ha. }
  clear E Ha. revert h Hh. induction Hc as [|c after Hc1 Hc IH]; intros h Hh; [exists h, []; split; [reflexivity|constructor]|]. cbn [h_calls]. destruct c as [b| |]; [| |discriminate].
  - destruct (IH (h_put h b) Hh) as [h' [l' [G1 G2]]]. rewrite G1. do 2 eexists. split; [reflexivity|]. constructor; [cbn [snd fst answers]; apply L; exact Hh|exact G2].
  - destruct (parse_returns h) as [h1 [r [E1 [_ E2]]]]. specialize (E2 Hh). rewrite E1. destruct (IH h1 E2) as [h' [l' [G1 G2]]].
    destruct r; cbn [hout]; rewrite G1; do 2 eexists; (split; [reflexivity|]); (constructor; [cbn [snd fst answers]; apply L; exact E2|exact G2]).
Qed.
Print Assumptions C75_error.
(** also if parse returns true in the meantime. *)
Theorem C75_refuted : exists h l a, h_calls [HPut (str "x<a>"); HParse; HParse] h_new = Some (h, l ++ [a]) /\
  fst a = RValue true /\ fst (fst (fst (snd a))) = Some (str "expected open tag angle bracket '>'").
Proof. eexists _, [_; _], _. split; [vm_compute; reflexivity|]. split; reflexivity. Qed.
Print Assumptions C75_refuted.
Example C75_case : exists h l, h_calls [HPut [60; 0; 0; 0; 0]; HParse; HPut (str "?xml?>"); HParse; HClear; HPut (str "<?xml enc"); HParse; HPut (str "oding='x'?>"); HParse] h_new = Some (h, l) /\
  map fst l = [RNothing; RException; RNothing; RException; RNothing; RNothing; RValue false; RNothing; RValue true] /\
  nth_error l 8 = Some (RValue true, (None, Some (str "x"), 18%nat, str "<?xml encoding='x'?>")).
Proof. do 2 eexists. split; [vm_compute; reflexivity|]. split; reflexivity. Qed.

(** ** C76: a SrcIterator fed with chunks and incremented in any order *)
Inductive icall := IFeed (chunk : list N) (eom : bool) | INext.
Definition i_call (i : srcit) (c : icall) : srcit :=
  match c with
  | IFeed b e => src_putInput i b e
  | INext => match src_incr i with Ret i' _ => i' | _ => i end
  end.
(** the bytes fed *)
Fixpoint fed (cs : list icall) : N := match cs with [] => 0 | IFeed b _ :: cs => N.of_nat (length b) + fed cs | INext :: cs => fed cs end.

(** After [k] increments in a chunk: the next access delivers byte [k] of the chunk, a null character at the end of the last chunk or
    the interrupt; position in the chunk and in all input, and if the end is reached. *)
Theorem C76_chunk : forall before chunk eom k, let i := fold_left i_call (before ++ IFeed chunk eom :: repeat INext k) src_empty in
  src_deref i = match nth_error chunk k with Some b => Ret i b | None => if eom then Jump i else Ret i 0 end /\
  src_position i = u64 (fed before + N.of_nat k) /\
  src_getPosition i = (if Nat.leb k (length chunk) then N.of_nat k else 0) /\
  (src_endOfChunk i = true <-> nth_error chunk k = None).
Proof.
  intros before chunk eom k i. subst i.
  assert (F : forall cs i, si_abs i < 2 ^ 64 -> si_abs (fold_left i_call cs i) = u64 (si_abs i + fed cs)).
  { clear. induction cs as [|c cs IH]; intros i Hi; cbn [fold_left fed]; [unfold u64; rewrite N.add_0_r, N.mod_small by exact Hi; reflexivity|]. destruct c as [b e|]; cbn [i_call].
    - rewrite IH; [|cbn; apply N.mod_lt; discriminate]. cbn [src_putInput si_abs]. unfold u64. rewrite N.add_mod_idemp_l by discriminate. f_equal. lia.
    - cbn [src_incr]. rewrite IH by exact Hi. reflexivity. }
  rewrite fold_left_app. cbn [fold_left]. specialize (F before src_empty ltac:(reflexivity)). set (i0 := fold_left i_call before src_empty) in *. cbn [src_empty si_abs] in F. rewrite N.add_0_l in F.
  assert (G : forall k j, fold_left i_call (repeat INext k) j = mkSrc (si_buf j) (si_itr j + N.of_nat k) (si_eom j) (si_abs j)).
  { clear. induction k as [|k IH]; intros j; cbn [repeat fold_left]; [destruct j; cbn; rewrite N.add_0_r; reflexivity|]. cbn [i_call src_incr]. rewrite IH. cbn [si_buf si_itr si_eom si_abs]. f_equal. lia. }
  rewrite G. cbn [i_call src_putInput si_buf si_itr si_eom si_abs]. unfold src_deref, src_position, src_getPosition, src_endOfChunk. cbn [si_buf si_itr si_eom si_abs]. rewrite N.add_0_l, Nat2N.id. rewrite F.
  split; [reflexivity|]. split.
  - unfold sub64, u64. change (2 ^ 64) with 18446744073709551616. generalize (fed before) (N.of_nat (length chunk)) (N.of_nat k). clear. intros f n k.
    rewrite N.add_mod_idemp_l by discriminate. rewrite <- N.add_assoc, N.add_mod_idemp_l by discriminate.
    pose proof (N.div_mod n 18446744073709551616 ltac:(discriminate)) as D. pose proof (N.mod_lt n 18446744073709551616 ltac:(discriminate)) as L.
    replace (f mod 18446744073709551616 + n + (18446744073709551616 - n mod 18446744073709551616 + k)) with (f mod 18446744073709551616 + k + (n / 18446744073709551616 + 1) * 18446744073709551616) by lia.
    rewrite N.mod_add by discriminate. rewrite N.add_mod_idemp_l by discriminate. reflexivity.
  - split; [destruct (Nat.leb_spec k (length chunk)), (N.leb_spec (N.of_nat k) (N.of_nat (length chunk))); lia|]. rewrite nth_error_None. lia.
Qed.
Print Assumptions C76_chunk.
Example C76_case : let i := fold_left i_call [IFeed (str "ab") true; INext; INext; IFeed (str "xyz") true; INext; INext] src_empty in
  src_deref i = Ret i 122 /\ src_position i = 4 /\ src_getPosition i = 2 /\ src_endOfChunk i = false.
Proof. vm_compute. repeat split. Qed.

(** before the first chunk null characters are read *)
Theorem C76_unfed : forall k, let i := fold_left i_call (repeat INext k) src_empty in
  src_deref i = Ret i 0 /\ src_position i = u64 (N.of_nat k) /\ src_endOfChunk i = true.
Proof.
  intros k i. subst i. assert (G : forall k j, fold_left i_call (repeat INext k) j = mkSrc (si_buf j) (si_itr j + N.of_nat k) (si_eom j) (si_abs j)).
  { clear. induction k as [|k IH]; intros j; cbn [repeat fold_left]; [destruct j; cbn; rewrite N.add_0_r; reflexivity|]. cbn [i_call src_incr]. rewrite IH. cbn [si_buf si_itr si_eom si_abs]. f_equal. lia. }
  rewrite G. cbn [src_empty si_buf si_itr si_eom si_abs]. rewrite N.add_0_l. unfold src_deref, src_position, src_endOfChunk. cbn [si_buf si_itr si_eom si_abs length N.of_nat].
  split; [destruct (N.to_nat (N.of_nat k)); reflexivity|]. split; [|apply N.leb_le; lia].
  unfold sub64. cbn. reflexivity.
Qed.
Print Assumptions C76_unfed.
Example C76_unfed_case : let i := fold_left i_call [INext; INext] src_empty in src_deref i = Ret i 0 /\ src_position i = 2.
Proof. vm_compute. split; reflexivity. Qed.

(** the loop [for (; !itr.endOfChunk(); ++itr) f( *itr)] reads the rest of the chunk and is never interrupted *)
Fixpoint chunk_loop (n : nat) (i : srcit) : out srcit (list N) :=
  if src_endOfChunk i then Ret i []
  else match n with
       | O => Fuel
       | S n => let! (i, b) := src_deref i in let! (i, _) := src_incr i in let! (i, l) := chunk_loop n i in Ret i (b :: l)
       end.
Theorem C76_loop : forall before chunk eom k n, (length chunk <= k + n)%nat ->
  exists i, chunk_loop n (fold_left i_call (before ++ IFeed chunk eom :: repeat INext k) src_empty) = Ret i (skipn k chunk) /\
    i = fold_left i_call (before ++ IFeed chunk eom :: repeat INext (Nat.max k (length chunk))) src_empty.
Proof.
  intros before chunk eom k n. revert k. induction n as [|n IH]; intros k Hk; pose proof (C76_chunk before chunk eom k) as C; cbv zeta in C; destruct C as [C1 [_ [_ C2]]]; cbn [chunk_loop].
  - rewrite (proj2 C2) by (apply nth_error_None; lia). eexists. split; [rewrite skipn_all2 by lia; reflexivity|]. rewrite Nat.max_l by lia. reflexivity.
  - destruct (src_endOfChunk _) eqn:E.
    + pose proof (proj1 C2 eq_refl) as K. apply nth_error_None in K. eexists. split; [rewrite skipn_all2 by lia; reflexivity|]. rewrite Nat.max_l by lia. reflexivity.
    + destruct (nth_error chunk k) as [b|] eqn:Eb; [|specialize (proj2 C2 eq_refl); congruence]. rewrite C1. cbn [bind].
      assert (Es : src_incr (fold_left i_call (before ++ IFeed chunk eom :: repeat INext k) src_empty) = Ret (fold_left i_call (before ++ IFeed chunk eom :: repeat INext (S k)) src_empty) tt).
      { replace (S k) with (k + 1)%nat by lia. rewrite repeat_app. change (IFeed chunk eom :: repeat INext k ++ repeat INext 1) with ((IFeed chunk eom :: repeat INext k) ++ [INext]). rewrite app_assoc, (fold_left_app _ (before ++ _)). reflexivity. }
      rewrite Es. cbn [bind]. destruct (IH (S k) ltac:(lia)) as [i [G1 G2]]. rewrite G1. cbn [bind]. exists i. assert (k < length chunk)%nat by (apply nth_error_Some; congruence). split.
      * assert (Hs : skipn k chunk = b :: skipn (S k) chunk). { clear - Eb. revert k Eb. induction chunk as [|x l IH]; intros [|k] E; try discriminate; cbn in *; [congruence|apply IH; exact E]. }
        rewrite Hs. reflexivity.
      * rewrite G2. replace (Nat.max (S k) (length chunk)) with (Nat.max k (length chunk)) by lia. reflexivity.
Qed.
Print Assumptions C76_loop.
Example C76_loop_case : exists i, chunk_loop 10 (fold_left i_call [IFeed (str "ab") true; IFeed (str "xyz") true; INext] src_empty) = Ret i (str "yz") /\ src_endOfChunk i = true /\ src_position i = 5.
Proof. eexists. split; [vm_compute; reflexivity|]. split; vm_compute; reflexivity. Qed.

(** ** C47: an iterator at the end stays there, increments change nothing and read nothing *)
Section End.
Context {R : Type} (rops : readerops R) (cfg : config).
Fixpoint x_steps (fuel : nat) (post : list bool) (it : xiter) (s : @xsc R) : out xsc (list xiter) :=
  match post with
  | [] => Ret s []
  | b :: post =>
      let! (s, it) := (if b then let! (s, p) := x_postinc rops cfg fuel it s in Ret s (snd p) else x_preinc rops cfg fuel it s) in
      let! (s, l) := x_steps fuel post it s in Ret s (it :: l)
  end.
End End.
Theorem C47_end : forall {R} (rops : readerops R) cfg fuel post,
  (forall s, x_steps rops cfg fuel post x_end s = Ret s (repeat x_end (length post))) /\
  (forall it s0 s1 e, (x_begin rops cfg fuel true s0 = Ret s1 e \/ x_preinc rops cfg fuel it s0 = Ret s1 e) -> xi_input it = true -> x_eq e x_end = true ->
     exists n, x_steps rops cfg fuel post e s1 = Ret (fst s1, n) (repeat e (length post))) /\
  (* an iterator made without reading an element stands before the first one; it has no item, as the iterator of the end *)
  (forall s, exists it, x_begin rops cfg fuel false s = Ret s it /\ x_preinc rops cfg fuel it s = x_begin rops cfg fuel true s /\
     Forall (fun i => ie_content (xi_elem i) = PNull /\ ie_size (xi_elem i) = 0%nat) [it; x_end]).
Proof.
  intros R rops cfg fuel post. split.
  - induction post as [|b post IH]; intros s; [reflexivity|]. cbn [x_steps length repeat]. unfold x_postinc, x_preinc, x_skip. cbn [x_end xi_input]. destruct b; cbn [bind snd]; rewrite IH; reflexivity.
  - split; [|intros s; eexists; split; [reflexivity|]; split; [reflexivity|]; repeat constructor]. intros it s0 s1 e H Hi He.
    assert (N : exists f, nextItem rops cfg fuel 0xFFFF (fst s0) = Ret (fst s1) EExit /\ f = fuel /\ e = mkXi (mkItel EExit PEmpty 0) true /\ (fuel <> 0)%nat).
    { unfold x_begin, x_preinc, x_skip, x_next in H. rewrite Hi in H.
      assert (H' : (let! (s1, e) := (let! (s1, t) := omap (fun s' => (s', S (snd s0))) (nextItem rops cfg fuel 65535 (fst s0)) in Ret s1 (mkItel t (x_itemPtr s1) (x_itemSize s1))) in Ret s1 (mkXi e true)) = Ret s1 e) by (destruct H; assumption). clear H.
      destruct (nextItem rops cfg fuel 65535 (fst s0)) as [s2 t| | | |] eqn:E; cbn [omap bind] in H'; try discriminate. injection H' as <- <-. cbn [fst].
      destruct t; try discriminate He. exists fuel. split; [reflexivity|]. split; [reflexivity|]. destruct (C17_exit_final rops cfg fuel 65535 (fst s0) s2 E) as [K _]. unfold sc_getItem in K. unfold x_itemPtr, x_itemSize. cbn [fst snd]. rewrite K. split; [reflexivity|].
      intros ->. cbn in E. discriminate. }
    destruct N as [f [N [-> [-> Hf]]]]. destruct fuel as [|fuel]; [congruence|]. destruct (C17_exit_final rops cfg _ _ _ _ N) as [K1 K2]. specialize (K2 fuel 65535). unfold sc_getItem in K1. clear N H He s0.
    destruct s1 as [s k]. cbn [fst] in *. revert k. induction post as [|b post IH]; intros k; [exists k; reflexivity|]. cbn [x_steps length repeat].
    assert (St : x_skip rops cfg (S fuel) 65535 (mkXi (mkItel EExit PEmpty 0) true) (s, k) = Ret (s, S k) (mkXi (mkItel EExit PEmpty 0) true)).
    { unfold x_skip, x_next. cbn [xi_input fst snd]. rewrite K2. cbn [omap bind]. unfold x_itemPtr, x_itemSize. cbn [fst]. rewrite K1. reflexivity. }
    destruct (IH (S k)) as [n E]. exists n. unfold x_postinc, x_preinc. rewrite St. destruct b; cbn [bind snd]; rewrite E; reflexivity.
Qed.
Print Assumptions C47_end.
