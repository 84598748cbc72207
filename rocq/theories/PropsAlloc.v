(** The tag stack if memory gets short: C72. *)
From Coq Require Import Lia ZifyBool ZifyNat ZifyN.
From Verif Require Import Base Charset StaticBuffer TagStack BufProofs PropsUtil XmlPrinter TagAlloc.

(** ** C72: a tag stack that could not get memory can be used further.
    Specification: a list of tags, the bytes of memory and the bytes it believes to have *)
Definition room (s : list N) : N := 8 * ((N.of_nat (length s) + 7) / 8) + 8.
Definition used (st : list (list N)) : N := fold_right N.add 0 (map room st).
(** [cap] doubled until it is enough *)
Definition grown (cap need : N) : N := cap * 2 ^ N.log2_up ((need + cap - 1) / cap).
(** [None]: undefined behaviour *)
Definition short_do (g : bool) (op : tgop) (x : list (list N) * N * N) : option (list (list N) * N * N * option tgres) :=
  let '(st, mem, cap) := x in
  match op with
  | TPush s =>
      let need := used (s :: st) in
      if need <=? mem then Some (s :: st, mem, cap, Some RUnit)
      else if need <=? cap then None
      else if g then Some (s :: st, grown cap need, grown cap need, Some RUnit)
      else Some (st, mem, grown cap need, None)
  | TCopy => if g then Some (st, cap, cap, Some RUnit) else Some (st, mem, cap, None)
  | _ => Some (fst (stack_do op st), mem, cap, Some (snd (stack_do op st)))
  end.
Fixpoint short_run (ops : list (bool * tgop)) (x : list (list N) * N * N) : option (list (option tgres)) :=
  match ops with
  | [] => Some []
  | (g, op) :: ops => match short_do g op x with None => None | Some (x, r) => match short_run ops x with None => None | Some rs => Some (r :: rs) end end
  end.

Lemma room_entry s : room s = N.of_nat (entry_size s).
Proof. unfold room. pose proof (entry_size_mod s). pose proof (entry_size_bounds s). zify. Z.div_mod_to_equations. lia. Qed.
Lemma used_entries st : used st = N.of_nat (list_sum (map entry_size st)).
Proof. induction st as [|s st IH]; [reflexivity|]. unfold used in *. cbn [map fold_right list_sum]. rewrite IH, room_entry. fold (list_sum (map entry_size st)). lia. Qed.

Lemma grow_exact : forall f need size, 0 < size -> size < need -> need <= 2 ^ 62 -> need <= size * 2 ^ N.of_nat f -> tg_grow f need size = Some (grown size need).
Proof.
  induction f as [|f IH]; intros need size Hs Hn Hb Hf.
  - change (2 ^ N.of_nat 0) with 1 in Hf. lia.
  - cbn [tg_grow]. replace (need <=? size) with false by lia. rewrite u64_small by lia.
    assert (Q : 2 <= (need + size - 1) / size) by (apply N.div_le_lower_bound; lia).
    destruct (need <=? size * 2) eqn:E.
    + assert (Q2 : (need + size - 1) / size < 3) by (apply N.div_lt_upper_bound; lia). unfold grown. replace ((need + size - 1) / size) with 2 by lia. change (2 ^ N.log2_up 2) with 2.
      destruct f; cbn [tg_grow]; rewrite E; reflexivity.
    + rewrite IH; [|lia|lia|exact Hb|rewrite Nat2N.inj_succ, N.pow_succ_r' in Hf; lia]. f_equal. unfold grown.
      assert (Hq : (need + size * 2 - 1) / (size * 2) = ((need + size - 1) / size + 1) / 2).
      { rewrite <- N.div_div by lia. f_equal. replace (need + size * 2 - 1) with (need + size - 1 + 1 * size) by lia. apply N.div_add. lia. }
      rewrite Hq. set (q := (need + size - 1) / size) in *.
      assert (H3 : 3 <= q) by (unfold q; apply N.div_le_lower_bound; lia).
      assert (Hl : N.log2_up q = N.succ (N.log2_up ((q + 1) / 2))).
      { rewrite !N.log2_up_eqn by (zify; Z.div_mod_to_equations; lia). f_equal. 
        assert (Eq : N.pred ((q + 1) / 2) = N.pred q / 2) by (zify; Z.div_mod_to_equations; lia).
        rewrite Eq. change 2 with (2 ^ 1) at 1. rewrite <- N.shiftr_div_pow2, N.log2_shiftr.
        assert (1 <= N.log2 (N.pred q)) by (change 1 with (N.log2 2); apply N.log2_le_mono; lia). lia. }
      rewrite Hl, N.pow_succ_r'. lia.
Qed.
Lemma grown_bounds size need : 0 < size -> size < need -> need <= grown size need < 2 * need.
Proof.
  intros Hs Hn. unfold grown. set (q := (need + size - 1) / size).
  assert (H2 : 1 < q) by (assert (2 <= q) by (unfold q; apply N.div_le_lower_bound; lia); lia).
  destruct (N.log2_up_spec q H2) as [L1 L2]. set (k := N.log2_up q) in *.
  assert (Hk : k = N.succ (N.pred k)) by (assert (0 < k) by (apply N.log2_up_pos; exact H2); lia).
  assert (Hp : 2 ^ k = 2 * 2 ^ N.pred k) by (rewrite Hk at 1; apply N.pow_succ_r').
  pose proof (N.div_mod (need + size - 1) size ltac:(lia)) as D. fold q in D. pose proof (N.mod_lt (need + size - 1) size ltac:(lia)) as M. split.
  - assert (need <= size * q) by nia. nia.
  - rewrite Hp. assert (2 ^ N.pred k <= q - 1) by lia. assert (size * 2 ^ N.pred k <= size * (q - 1)) by (apply N.mul_le_mono_l; assumption). 
    assert (size * (q - 1) < need) by nia. nia.
Qed.

(** a stack with less memory than it believes to have *)
Definition short_is (st : list (list N)) (mem cap : N) (t : tagstack) : Prop :=
  tg_is st (mkTs (tg_mem t) (tg_pos t) mem) /\ tg_size t = cap /\ mem <= cap < 2 ^ 63.

Lemma write_none l p s : N.of_nat (length l) < p + N.of_nat (length s) -> mem_write l p s = None.
Proof. intro H. unfold mem_write. destruct (_ <=? _) eqn:E; [lia|reflexivity]. Qed.

Lemma push_short st mem cap t s : short_is st mem cap t -> used (s :: st) <= 2 ^ 62 ->
  (used (s :: st) <= mem -> exists t', tg_push s t = Ret t' tt /\ short_is (s :: st) mem cap t') /\
  (mem < used (s :: st) -> used (s :: st) <= cap -> tg_push s t = Undef) /\
  (cap < used (s :: st) -> exists t', tg_push s t = Ret t' tt /\ short_is (s :: st) (grown cap (used (s :: st))) (grown cap (used (s :: st))) t').
Proof.
  destruct t as [m pos size]. unfold short_is. cbn [tg_mem tg_pos tg_size]. intros (Ht & -> & Hc) Hb.
  pose proof (tg_pos_eq _ _ Ht) as Hpos. cbn [tg_pos] in Hpos. pose proof Ht as (H1 & H2 & H3 & H4). cbn [tg_mem tg_pos tg_size] in *.
  assert (Hu : used (s :: st) = pos + N.of_nat (entry_size s)).
  { rewrite used_entries, Hpos. cbn [map list_sum fold_right]. fold (list_sum (map entry_size st)). lia. }
  rewrite Hu in *. set (nn := N.of_nat (length s)).
  pose proof (entry_size_bounds s) as Hes. assert (Hofs : u64 (nn + getAlign nn + 8) = N.of_nat (entry_size s)).
  { assert (Hpd : N.of_nat (padding s) = getAlign nn) by (unfold padding, nn; lia). unfold entry_size in *. rewrite u64_small; unfold nn in *; lia. }
  assert (Hun : u64 (pos + N.of_nat (entry_size s)) = pos + N.of_nat (entry_size s)) by (apply u64_small; lia).
  split; [|split].
  - intro Hm. destruct (tg_push_is st (mkTs m pos mem) s Ht) as (t' & E & Ht').
    { rewrite <- used_entries, Hu. exact Hb. }
    unfold tg_push in E |- *. cbn [tg_mem tg_pos tg_size] in *. fold nn in E |- *. rewrite Hofs, Hun in E |- *. replace (mem <? _) with false in E by lia. replace (cap <? _) with false by lia.
    cbn [tg_mem tg_pos tg_size] in *. destruct (mem_write m pos s) as [m1|]; [|discriminate E]. destruct (write_size m1 _ nn) as [m2|]; [|discriminate E]. injection E as <-.
    eexists. split; [reflexivity|]. cbn [tg_mem tg_pos tg_size]. split; [exact Ht'|]. split; [reflexivity|exact Hc].
  - intros Hm Hk. unfold tg_push. cbn [tg_mem tg_pos tg_size]. fold nn. rewrite Hofs, Hun. replace (cap <? _) with false by lia. cbn [tg_mem tg_pos tg_size].
    destruct (mem_write m pos s) as [m1|] eqn:E; [|reflexivity]. unfold write_size. rewrite sub64_small by lia. destruct (_ =? 0); [|reflexivity].
    rewrite write_none; [reflexivity|]. unfold mem_write in E. destruct (_ <=? _) eqn:E1; [|discriminate E]. injection E as <-.
    rewrite written_length by lia. rewrite le_bytes_length. lia.
  - intro Hk. assert (Eg : tg_grow 64 (pos + N.of_nat (entry_size s)) cap = Some (grown cap (pos + N.of_nat (entry_size s)))).
    { apply grow_exact; [lia|lia|exact Hb|]. change (2 ^ N.of_nat 64) with 18446744073709551616. change (2 ^ 62) with 4611686018427387904 in Hb. lia. }
    pose proof (grown_bounds cap (pos + N.of_nat (entry_size s)) ltac:(lia) Hk) as G. set (c2 := grown cap _) in *.
    assert (Ht2 : tg_is st (mkTs (m ++ repeat 0 (N.to_nat c2 - length m)) pos c2)).
    { unfold tg_is. cbn [tg_mem tg_pos tg_size]. rewrite app_length, repeat_length. split; [lia|]. split; [lia|]. split; [lia|].
      rewrite firstn_app. replace (N.to_nat pos - length m)%nat with 0%nat by lia. cbn [firstn]. rewrite app_nil_r. exact H4. }
    destruct (tg_push_is _ _ s Ht2) as (t' & E & Ht').
    { rewrite <- used_entries, Hu. exact Hb. }
    unfold tg_push in E |- *. cbn [tg_mem tg_pos tg_size] in *. fold nn in E |- *. rewrite Hofs, Hun in E |- *. replace (c2 <? _) with false in E by lia. replace (cap <? _) with true by lia.
    rewrite Eg. replace (N.of_nat (entry_size s) <? nn) with false by (unfold nn; lia). cbn [tg_mem tg_pos tg_size] in *.
    exists t'. split; [exact E|]. destruct (mem_write _ pos s) as [m1|]; [|discriminate E]. destruct (write_size m1 _ nn) as [m2|]; [|discriminate E]. injection E as <-. cbn [tg_mem tg_pos tg_size] in *.
    split; [exact Ht'|]. split; [reflexivity|lia].
Qed.

Lemma tga_step st mem cap t g op : short_is st mem cap t -> used st + (match op with TPush s => N.of_nat (length s + 16) | _ => 0 end) <= 2 ^ 62 ->
  match short_do g op (st, mem, cap) with
  | None => tga_do g op t = Undef
  | Some (st', mem', cap', r) => (exists t', tga_do g op t = Ret t' r /\ short_is st' mem' cap' t') /\
      used st' <= used st + (match op with TPush s => N.of_nat (length s + 16) | _ => 0 end)
  end.
Proof.
  intros Ht Hb. pose proof Ht as (H1 & H2 & H3). pose proof (tg_pos_eq _ _ H1) as Hpos. cbn [tg_pos] in Hpos.
  assert (Hl : N.of_nat (list_sum (map entry_size st)) <= 2 ^ 62) by (rewrite <- used_entries; lia).
  destruct op as [s| | | | |]; cbn [short_do tga_do tg_do stack_do fst snd].
  - assert (Hu : used (s :: st) = room s + used st) by reflexivity. pose proof (entry_size_bounds s) as He. pose proof (room_entry s) as Hr.
    destruct (push_short st mem cap t s Ht) as (P1 & P2 & P3); [lia|].
    assert (Hneed : u64 (tg_pos t + u64 (N.of_nat (length s) + getAlign (N.of_nat (length s)) + 8)) = used (s :: st)).
    { assert (Hpd : N.of_nat (padding s) = getAlign (N.of_nat (length s))) by (unfold padding; lia). rewrite Hu, Hr, used_entries, Hpos. unfold entry_size in *. rewrite (u64_small (_ + 8)) by lia. rewrite u64_small by lia. lia. }
    unfold tg_push_alloc. rewrite Hneed, H2.
    destruct (used (s :: st) <=? mem) eqn:E1; [|destruct (used (s :: st) <=? cap) eqn:E2].
    + destruct P1 as (t' & E & Ht'); [lia|]. replace (cap <? used (s :: st)) with false by lia. replace (if g then tg_push s t else tg_push s t) with (tg_push s t) by (destruct g; reflexivity).
      rewrite E. split; [exists t'; split; [reflexivity|exact Ht']|lia].
    + replace (cap <? used (s :: st)) with false by lia. replace (if g then tg_push s t else tg_push s t) with (tg_push s t) by (destruct g; reflexivity). rewrite P2 by lia. reflexivity.
    + replace (cap <? used (s :: st)) with true by lia. destruct g.
      * destruct P3 as (t' & E & Ht'); [lia|]. rewrite E. split; [exists t'; split; [reflexivity|exact Ht']|lia].
      * assert (Hc0 : 256 <= mem) by (destruct H1 as (_ & H1 & _); cbn [tg_size] in H1; lia).
        rewrite grow_exact; [|lia|lia|lia|change (2 ^ N.of_nat 64) with 18446744073709551616; change (2 ^ 62) with 4611686018427387904 in Hb; lia].
        split; [|lia]. eexists. split; [reflexivity|]. unfold short_is. cbn [tg_mem tg_pos tg_size]. split; [exact H1|]. split; [reflexivity|].
        pose proof (grown_bounds cap (used (s :: st)) ltac:(lia) ltac:(lia)). lia.
  - destruct (tg_pop_is st _ H1 Hl) as (t' & E & Ht'). split.
    + unfold tg_pop in E |- *. change (tg_topofs t) with (tg_topofs (mkTs (tg_mem t) (tg_pos t) mem)). destruct (tg_topofs (mkTs (tg_mem t) (tg_pos t) mem)) as [[ofs nn]|]; [|discriminate E].
      cbn [tg_pos] in E. destruct (tg_pos t <? ofs); [discriminate E|]. injection E as <-. cbn [bind]. eexists. split; [reflexivity|]. split; [exact Ht'|]. split; [exact H2|exact H3].
    + destruct st as [|s st]; cbn [tl]; [lia|]. unfold used. cbn [map fold_right]. fold (used st). lia.
  - pose proof (tg_top_is st _ H1 Hl) as E. split; [|lia]. unfold tg_top in E |- *. change (tg_topofs t) with (tg_topofs (mkTs (tg_mem t) (tg_pos t) mem)).
    destruct (tg_topofs (mkTs (tg_mem t) (tg_pos t) mem)) as [[ofs nn]|]; [|discriminate E]. cbn [tg_pos tg_mem] in E.
    destruct (ofs =? 0); [injection E as E; rewrite <- E; exists t; split; [reflexivity|exact Ht]|]. destruct (_ <=? _); [|discriminate E]. injection E as E. rewrite <- E. exists t. split; [reflexivity|exact Ht].
  - split; [|lia]. exists t. split; [|exact Ht]. pose proof (tg_empty_is st _ H1) as E. unfold tg_empty in E |- *. cbn [tg_pos] in E. rewrite E. reflexivity.
  - split; [|unfold used at 1; cbn [map fold_right]; lia]. eexists. split; [reflexivity|]. split; [exact (tg_clear_is _ _ H1)|]. split; [exact H2|exact H3].
  - destruct g; [|split; [exists t; split; [reflexivity|exact Ht]|lia]]. split; [|lia]. destruct H1 as (A1 & A2 & A3 & A4). cbn [tg_mem tg_pos tg_size] in *.
    unfold tg_copy. replace (_ && _) with true by lia. cbn [bind]. eexists. split; [reflexivity|]. unfold short_is, tg_is. cbn [tg_mem tg_pos tg_size]. rewrite H2.
    rewrite app_length, repeat_length, firstn_length. split; [|lia]. split; [lia|]. split; [lia|]. split; [lia|].
    rewrite firstn_app, firstn_length. replace (N.to_nat (tg_pos t) - _)%nat with 0%nat by lia. cbn [firstn]. rewrite app_nil_r, firstn_firstn, Nat.min_id. exact A4.
Qed.

(** What happens with every history of calls and answers of malloc and realloc *)
Theorem C72_exact : forall ops, N.of_nat (bytes_pushed (map snd ops)) <= 2 ^ 62 ->
  match short_run ops ([], 256, 256) with
  | None => tga_run ops tg_new = Undef
  | Some rs => exists t, tga_run ops tg_new = Ret t rs
  end.
Proof.
  assert (G : forall ops st mem cap t, short_is st mem cap t -> used st + N.of_nat (bytes_pushed (map snd ops)) <= 2 ^ 62 ->
    match short_run ops (st, mem, cap) with None => tga_run ops t = Undef | Some rs => exists t', tga_run ops t = Ret t' rs end).
  { induction ops as [|[g op] ops IH]; intros st mem cap t Ht Hb; [exists t; reflexivity|]. cbn [short_run tga_run].
    assert (Hbo : bytes_pushed (map snd ((g, op) :: ops)) = (match op with TPush s => length s + 16 | _ => 0 end + bytes_pushed (map snd ops))%nat) by reflexivity. rewrite Hbo in Hb.
    assert (Hm : N.of_nat (match op with TPush s => length s + 16 | _ => 0 end)%nat = match op with TPush s => N.of_nat (length s + 16) | _ => 0 end) by (destruct op; reflexivity).
    pose proof (tga_step st mem cap t g op Ht ltac:(lia)) as S1. destruct (short_do g op (st, mem, cap)) as [[[[st1 mem1] cap1] r]|]; [|rewrite S1; reflexivity].
    destruct S1 as ((t1 & E1 & Ht1) & B1). rewrite E1. cbn [bind]. specialize (IH st1 mem1 cap1 t1 Ht1 ltac:(lia)).
    destruct (short_run ops (st1, mem1, cap1)) as [rs|]; [|rewrite IH; reflexivity]. destruct IH as (t2 & ->). exists t2. reflexivity. }
  intros ops H. apply G; [|cbn; exact H]. split; [exact tg_new_is|]. split; [reflexivity|]. cbn. lia.
Qed.
Print Assumptions C72_exact.

(** A call that failed has changed no tag: the results are those of a list of tags without the calls that failed. *)
Fixpoint replay (ops : list (bool * tgop)) (rs : list (option tgres)) (st : list (list N)) : Prop :=
  match ops, rs with
  | [], [] => True
  | (_, op) :: ops, None :: rs => replay ops rs st
  | (_, op) :: ops, Some r :: rs => r = snd (stack_do op st) /\ replay ops rs (fst (stack_do op st))
  | _, _ => False
  end.
Theorem C72_kept : forall ops t rs, N.of_nat (bytes_pushed (map snd ops)) <= 2 ^ 62 -> tga_run ops tg_new = Ret t rs -> replay ops rs [].
Proof.
  intros ops t rs Hb E. pose proof (C72_exact ops Hb) as X. destruct (short_run ops ([], 256, 256)) as [rs'|] eqn:R; [|rewrite X in E; discriminate E].
  destruct X as (t' & X). rewrite X in E. injection E as _ <-.
  assert (G : forall ops rs st m c, short_run ops (st, m, c) = Some rs -> replay ops rs st); [|exact (G _ _ _ _ _ R)]. clear.
  induction ops as [|[g op] ops IH]; intros rs st m c R; cbn [short_run] in R; [injection R as <-; exact I|].
  destruct (short_do g op (st, m, c)) as [[[[st1 m1] c1] r]|] eqn:D; [|discriminate R]. destruct (short_run ops (st1, m1, c1)) as [rs1|] eqn:R1; [|discriminate R]. injection R as <-.
  specialize (IH rs1 st1 m1 c1 R1). cbn [replay]. destruct op as [s| | | | |]; cbn [short_do] in D.
  1: { destruct (_ <=? m); [injection D as <- _ _ <-; split; [reflexivity|exact IH]|]. destruct (_ <=? c); [discriminate D|]. destruct g; injection D as <- _ _ <-; [split; [reflexivity|exact IH]|exact IH]. }
  5: { destruct g; injection D as <- _ _ <-; [split; [reflexivity|exact IH]|exact IH]. }
  all: injection D as <- _ _ <-; split; [reflexivity|exact IH].
Qed.
Print Assumptions C72_kept.

(** It is safe not to push anything after a push that may fail, until a copy of the stack is made; missing: pushes behind a failed one, which are undefined in general. *)
Fixpoint careful (short : bool) (ops : list (bool * tgop)) : bool :=
  match ops with
  | [] => true
  | (g, TPush _) :: ops => negb short && careful (negb g) ops
  | (true, TCopy) :: ops => careful false ops
  | _ :: ops => careful short ops
  end.
Theorem C72_safe_partial : forall ops, N.of_nat (bytes_pushed (map snd ops)) <= 2 ^ 62 -> careful false ops = true ->
  exists t rs, tga_run ops tg_new = Ret t rs /\ replay ops rs [].
Proof.
  intros ops Hb Hc. pose proof (C72_exact ops Hb) as X.
  assert (G : forall ops st m c b, careful b ops = true -> (b = false -> m = c) -> short_run ops (st, m, c) <> None).
  { clear. induction ops as [|[g op] ops IH]; intros st m c b Hc He; cbn [short_run]; [discriminate|].
    assert (K : forall st1 m1 c1 r b1, careful b1 ops = true -> (b1 = false -> m1 = c1) -> short_do g op (st, m, c) = Some (st1, m1, c1, r) ->
      match short_do g op (st, m, c) with None => None | Some (x, r) => match short_run ops x with None => None | Some rs => Some (r :: rs) end end <> None).
    { intros st1 m1 c1 r b1 H1 H2 ->. specialize (IH st1 m1 c1 b1 H1 H2). destruct (short_run ops (st1, m1, c1)); [discriminate|contradiction]. }
    cbn [careful] in Hc. destruct op as [s| | | | |].
    - assert (Hc' : negb b && careful (negb g) ops = true) by (destruct g; exact Hc). clear Hc. apply andb_prop in Hc'. destruct Hc' as [Hb Hc]. destruct b; [discriminate Hb|]. specialize (He eq_refl). subst m. cbn [short_do] in *.
      destruct (_ <=? c) eqn:E; [eapply K; [exact Hc| |reflexivity]; reflexivity|]. destruct g; (eapply K; [exact Hc| |reflexivity]); [reflexivity|discriminate].
    - eapply K; [destruct g; exact Hc|exact He|reflexivity].
    - eapply K; [destruct g; exact Hc|exact He|reflexivity].
    - eapply K; [destruct g; exact Hc|exact He|reflexivity].
    - eapply K; [destruct g; exact Hc|exact He|reflexivity].
    - destruct g; cbn [short_do] in *; (eapply K; [exact Hc| |reflexivity]); [reflexivity|exact He]. }
  specialize (G ops [] 256 256 false Hc (fun _ => eq_refl)). destruct (short_run ops ([], 256, 256)) as [rs|] eqn:R; [|contradiction].
  destruct X as (t & X). exists t, rs. split; [exact X|]. exact (C72_kept ops t rs Hb X).
Qed.
Print Assumptions C72_safe_partial.

Example C72_case : let ops := [(true, TPush (str "a")); (false, TPush (repeat 7 300)); (true, TTop); (true, TCopy); (true, TPush (repeat 7 300)); (false, TCopy); (true, TPop); (true, TTop)] in
  N.of_nat (bytes_pushed (map snd ops)) <= 2 ^ 62 /\ careful false ops = true /\
  short_run ops ([], 256, 256) = Some [Some RUnit; None; Some (RTop (Some (str "a"))); Some RUnit; Some RUnit; None; Some RUnit; Some (RTop (Some (str "a")))].
Proof. split; [vm_compute; discriminate|]. split; vm_compute; reflexivity. Qed.

(** Refuted: a tag that is pushed behind a failed push is written behind the memory, although it would need less than the stack believes to have. And a printer that
    could not open a tag has printed the start of it and goes on without it. *)
Theorem C72_refuted :
  tga_run [(false, TPush (repeat 7 300))] tg_new = Ret (mkTs (repeat 0 256) 0 512) [None] /\
  tga_run [(false, TPush (repeat 7 300)); (true, TPush (repeat 7 250))] tg_new = Undef /\
  (exists p1 p2 m r, printOpenTag_alloc UTF8 UTF8 false (str "a" ++ repeat 98 300) (pr_new true) = Ret p1 (None, m) /\ m = str "<a" ++ repeat 98 300 /\
     printOpenTag UTF8 UTF8 (str "c") p1 = Ret p2 r /\ r = (true, str "<c")).
Proof.
  split; [vm_compute; reflexivity|]. split; [vm_compute; reflexivity|]. eexists _, _, _, _. split; [vm_compute; reflexivity|]. split; [reflexivity|]. split; [vm_compute; reflexivity|reflexivity].
Qed.
Print Assumptions C72_refuted.
