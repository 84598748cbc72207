(** The memory of buffers, tag stacks and stream iterators: C66. *)
From Verif Require Import Base Iter StaticBuffer TagStack Memory MemSpec MemProofs.

(** ** C66: objects have memory of their own, and it is freed once.
    *** Without assignment and without default constructed iterators every history of calls behaves as if objects were values: the memory of an object is changed
    by no other, no memory is freed twice or accessed after that, and memory of the caller is never freed. The blocks allocated at the end are those of the
    objects not destroyed and the ones lost: one for each copy of a buffer on memory of the caller and one for each iterator the first read of fails. *)
Theorem C66_history_partial : forall cs V l n, calls_spec cs [] = Some (V, l, n) ->
  exists h, mem_calls cs h_new = Ret h l /\ allocated h = (owners V + n)%nat /\ lent h = length (filter lends cs).
Proof.
  intros cs V l n E. destruct (calls_sim cs 0 0 h_new [] V l n rel_new E) as [h [H R]]. exists h. split; [exact H|]. split; [apply (rl_heap _ _ _ _ R)|apply (rl_lent _ _ _ _ R)].
Qed.
Print Assumptions C66_history_partial.
Example C66_case :
  let cs := [MNewBuf 3; MNewBufOn (str "abc") 3 1; MNewStack; MNewIter 4 (mkRd (str "xy") false); MCopy 0; MBuf 0 (MAppend (str "1234")); MBuf 4 (MPush 65); MBuf 1 (MPush 66); MCopy 1;
             MStack 2 (KPush (repeat 7 300)); MCopy 2; MStack 6 KPop; MStack 2 KTop; MStack 6 KEmpty; MNext 3 (mkRd [] false); MCopy 3; MNext 3 (mkRd (str "z") true); MGet 3; MGet 7;
             MBuf 0 MContent; MBuf 0 MOverflow; MBuf 4 MContent; MBuf 1 MContent; MBuf 5 MContent; MBuf 5 (MAt 7); MNewIter 2 (mkRd [] true);
             MDestroy 0; MDestroy 1; MDestroy 2; MDestroy 3; MDestroy 4; MDestroy 5; MDestroy 6] in
  exists V l, calls_spec cs [] = Some (V, l, 2%nat) /\ owners V = 1%nat /\ nth 12 l ADone = ABytes (Some (repeat 7 300)) /\ nth 13 l ADone = AFlag true /\
    firstn 9 (skipn 17 l) = [ABytes (Some (str "z")); ABytes (Some (str "y")); ABytes (Some (str "123")); AFlag true; ABytes (Some (str "A")); ABytes (Some (str "aB")); ABytes (Some (str "aB")); AThrown; AThrown].
Proof. eexists. eexists. split; [vm_compute; reflexivity|]. repeat split. Qed.

(** *** All memory is freed, if all objects are destroyed, no buffer is on memory of the caller and no first read fails. *)
Definition may_lose (c : mcall) : bool := match c with MNewBufOn _ _ _ => true | MNewIter _ r => rd_err r | _ => false end.
Lemma own_kept : forall c V V' a n, (forall k v, value V k = Some v -> owns v = true) -> may_lose c = false -> call_spec c V = Some (V', a, n) ->
  n = 0%nat /\ forall k v, value V' k = Some v -> owns v = true.
Proof.
  intros c V V' a n H L E.
  assert (A : forall w, owns w = true -> forall k v, value (V ++ [Some w]) k = Some v -> owns v = true).
  { intros w Hw k v Hv. apply value_some in Hv. destruct (Nat.lt_ge_cases k (length V)) as [K|K].
    - rewrite nth_error_app1 in Hv by exact K. apply (H k). unfold value. rewrite Hv. reflexivity.
    - rewrite nth_error_app2 in Hv by exact K. destruct (k - length V)%nat as [|[|?]]; cbn in Hv; congruence. }
  assert (B : forall i w, (forall u, w = Some u -> owns u = true) -> forall k v, value (upd i w V) k = Some v -> owns v = true).
  { intros i w Hw k v Hv. apply value_some in Hv. destruct (Nat.eq_dec i k) as [<-|N].
    - assert (K : (i < length V)%nat) by (rewrite <- (upd_length i w V); apply nth_error_Some; congruence). rewrite upd_same in Hv by exact K. injection Hv as Hv. auto.
    - rewrite upd_other in Hv by exact N. apply (H k). unfold value. rewrite Hv. reflexivity. }
  destruct c as [m|mem m i| |bs r| |k|k j|k|k o|k o|k|k r]; cbn [call_spec may_lose] in *; try discriminate.
  - destruct (_ <? _); [|discriminate]. injection E as <- <- <-. split; [reflexivity|]. apply A. reflexivity.
  - injection E as <- <- <-. split; [reflexivity|]. apply A. reflexivity.
  - rewrite L in E. destruct (_ <=? _); [|discriminate]. injection E as <- <- <-. split; [reflexivity|]. apply A. reflexivity.
  - destruct (value V k) as [v|] eqn:EV; [|discriminate]. injection E as <- <- <-. pose proof (H k v EV) as O. split; [destruct v as [? ? ? []| |]; cbn in O; congruence|]. apply A. exact O.
  - destruct (value V k) as [v|] eqn:EV; [|discriminate]. injection E as <- <- <-. split; [reflexivity|]. apply B. discriminate.
  - destruct (value V k) as [[cap l d own|st|bs data q]|] eqn:EV; try discriminate. destruct (buf_spec _ _ _ _) as [[[l' d'] a']|]; [|discriminate]. injection E as <- <- <-.
    split; [reflexivity|]. apply B. intros u Eu. injection Eu as <-. apply (H k _ EV).
  - destruct (value V k) as [[cap l d own|st|bs data q]|] eqn:EV; try discriminate. destruct (stack_spec _ _) as [[st' a']|]; [|discriminate]. injection E as <- <- <-.
    split; [reflexivity|]. apply B. intros u Eu. injection Eu as <-. reflexivity.
  - destruct (value V k) as [[cap l d own|st|bs data q]|] eqn:EV; try discriminate. injection E as <- <- <-. split; [reflexivity|]. exact H.
  - destruct (value V k) as [[cap l d own|st|bs data q]|] eqn:EV; try discriminate. destruct (Nat.ltb _ _); [|destruct (_ <=? _); [|discriminate]];
      injection E as <- <- <-; (split; [reflexivity|]); apply B; intros u Eu; injection Eu as <-; reflexivity.
Qed.
Theorem C66_all_freed : forall cs V l n, calls_spec cs [] = Some (V, l, n) -> forallb (fun c => negb (may_lose c)) cs = true -> (forall k, value V k = None) ->
  exists h, mem_calls cs h_new = Ret h l /\ allocated h = 0%nat.
Proof.
  intros cs V l n E F D. destruct (C66_history_partial cs V l n E) as [h [H1 [H2 _]]]. exists h. split; [exact H1|]. rewrite H2.
  assert (N : n = 0%nat).
  { clear H1 H2 D h. assert (O : forall k v, value [] k = Some v -> owns v = true) by (intros [|k] v X; discriminate X). revert E O. generalize (@nil (option val)). revert V l n.
    induction cs as [|c cs IH]; intros V l n W E O; cbn [calls_spec] in E; [congruence|]. cbn [forallb] in F. apply andb_true_iff in F. destruct F as [F1 F2]. apply negb_true_iff in F1.
    destruct (call_spec c W) as [[[V1 a] n1]|] eqn:E1; [|discriminate]. destruct (calls_spec cs V1) as [[[V2 l2] n2]|] eqn:E2; [|discriminate]. injection E as <- <- <-.
    destruct (own_kept c W V1 a n1 O F1 E1) as [-> O1]. rewrite (IH F2 _ _ _ _ E2 O1). reflexivity. }
  assert (W : owners V = 0%nat); [|lia]. rewrite owners_filter. clear -D. induction V as [|v V IH]; [reflexivity|]. pose proof (D 0%nat) as D0. cbn in D0. subst v. cbn. apply IH. intro k. apply (D (S k)).
Qed.
Print Assumptions C66_all_freed.
Example C66_all_freed_case : let cs := [MNewBuf 2; MNewStack; MStack 1 (KPush (repeat 7 300)); MCopy 1; MCopy 0; MNewIter 2 (mkRd [1; 2] false); MNext 4 (mkRd [] false); MNext 4 (mkRd [] true);
    MDestroy 1; MDestroy 3; MDestroy 4; MDestroy 0; MDestroy 2] in
  exists V l, calls_spec cs [] = Some (V, l, 0%nat) /\ forallb (fun c => negb (may_lose c)) cs = true /\ (forall k, value V k = None).
Proof. eexists. eexists. split; [vm_compute; reflexivity|]. split; [reflexivity|]. intros k. do 6 (destruct k as [|k]; [reflexivity|]). reflexivity. Qed.

(** *** The assignment operators share the memory: after an assignment from an object that has allocated memory it is freed twice. *)
Definition same_kind (x y : val) : bool := match x, y with VBuf _ _ _ _, VBuf _ _ _ _ | VStack _, VStack _ | VIter _ _ _, VIter _ _ _ => true | _, _ => false end.
Lemma calls_app cs ds h : mem_calls (cs ++ ds) h = let! (h, l) := mem_calls cs h in let! (h, m) := mem_calls ds h in Ret h (l ++ m).
Proof.
  revert h. induction cs as [|c cs IH]; intro h; cbn [mem_calls app bind]; [destruct (mem_calls ds h); reflexivity|]. destruct (mem_call c h) as [h1 a| | | |]; cbn [bind]; try reflexivity.
  rewrite IH. destruct (mem_calls cs h1) as [h2 l| | | |]; cbn [bind]; try reflexivity. destruct (mem_calls ds h2); reflexivity.
Qed.
Theorem C66_assigned : forall cs V l n k j x y, calls_spec cs [] = Some (V, l, n) -> value V k = Some x -> value V j = Some y -> k <> j -> same_kind x y = true -> owns y = true ->
  mem_calls (cs ++ [MAssign k j; MDestroy k; MDestroy j]) h_new = Undef /\ mem_calls (cs ++ [MAssign k j; MDestroy j; MDestroy k]) h_new = Undef.
Proof.
  intros cs V l n k j x y E Hx Hy Hkj Hs Ho. destruct (calls_sim cs 0 0 h_new [] V l n rel_new E) as [h [H R]]. rewrite !calls_app, H. cbn [bind].
  destruct (rel_get _ _ _ _ _ _ R Hx) as (o1 & b1 & G1 & O1 & B1 & S1 & _). destruct (rel_get _ _ _ _ _ _ R Hy) as (o2 & b2 & G2 & O2 & B2 & S2 & _).
  assert (Lk : (k < length (h_objs h))%nat) by (apply nth_error_Some; congruence). assert (Lj : (j < length (h_objs h))%nat) by (apply nth_error_Some; congruence).
  assert (SC : same_class o1 o2 = true) by (destruct o1, x; cbn [has] in S1; try contradiction; destruct o2, y; cbn [has] in S2; try contradiction; try discriminate Hs; reflexivity).
  assert (HH : isHeap b2 = true) by (destruct o2, y; cbn [has owns] in *; try contradiction; intuition). destruct b2 as [m| |]; try discriminate HH.
  assert (EA : mem_call (MAssign k j) h = Ret (set_obj k (Some o2) h) ADone) by (cbn [mem_call]; rewrite G1, G2, SC; reflexivity).
  assert (GG : forall i, i = k \/ i = j -> get_obj (set_obj k (Some o2) h) i = Some o2).
  { intros i [-> | ->]; unfold get_obj, set_obj; cbn [h_objs]; [rewrite upd_same by exact Lk; reflexivity|]. rewrite upd_other by exact Hkj. rewrite O2. reflexivity. }
  assert (D1 : forall g i, get_obj g i = Some o2 -> nth_error (h_blks g) (ptr_of o2) = Some (Heap m) -> mem_call (MDestroy i) g = Ret (mkHp (upd (ptr_of o2) Gone (h_blks g)) (upd i None (h_objs g))) ADone).
  { intros g i Gi Bi. cbn [mem_call]. rewrite Gi. destruct o2 as [p pos size al ov|p pos size|p bs rs rp ap|], y as [cap c d own|st|bs' data q]; cbn [has owns ptr_of] in *; try contradiction.
    - destruct S2 as (_ & _ & -> & _). rewrite Ho. unfold free. rewrite Bi. reflexivity.
    - unfold free. rewrite Bi. reflexivity.
    - unfold free. rewrite Bi. reflexivity. }
  assert (D2 : forall g i, get_obj g i = Some o2 -> nth_error (h_blks g) (ptr_of o2) = Some Gone -> mem_call (MDestroy i) g = Undef).
  { intros g i Gi Bi. cbn [mem_call]. rewrite Gi. destruct o2 as [p pos size al ov|p pos size|p bs rs rp ap|], y as [cap c d own|st|bs' data q]; cbn [has owns ptr_of] in *; try contradiction.
    - destruct S2 as (_ & _ & -> & _). rewrite Ho. unfold free. rewrite Bi. reflexivity.
    - unfold free. rewrite Bi. reflexivity.
    - unfold free. rewrite Bi. reflexivity. }
  assert (Lp : (ptr_of o2 < length (h_blks h))%nat) by (apply nth_error_Some; congruence).
  assert (Two : forall i1 i2, (i1 = k /\ i2 = j) \/ (i1 = j /\ i2 = k) -> mem_calls [MAssign k j; MDestroy i1; MDestroy i2] h = Undef).
  { intros i1 i2 Hi. cbn [mem_calls]. rewrite EA. cbn [bind]. rewrite (D1 _ i1) by (first [apply GG; tauto|exact B2]). cbn [bind]. rewrite (D2 _ i2); [reflexivity| |].
    - unfold get_obj. cbn [h_objs]. rewrite upd_other by (destruct Hi as [[-> ->]|[-> ->]]; congruence). apply (GG i2). tauto.
    - cbn [h_blks]. apply upd_same. exact Lp. }
  rewrite !Two by tauto. split; reflexivity.
Qed.
Print Assumptions C66_assigned.
Example C66_assigned_case : exists V l, calls_spec [MNewStack; MStack 0 (KPush (str "a")); MCopy 0; MNewBuf 1; MNewBufOn [0] 1 0] [] = Some (V, l, 0%nat) /\
  value V 0 = Some (VStack [str "a"]) /\ value V 1 = Some (VStack [str "a"]) /\ value V 2 = Some (VBuf 1 [] false true) /\ value V 3 = Some (VBuf 1 [] false false).
Proof. eexists. eexists. split; [vm_compute; reflexivity|]. repeat split. Qed.

(** *** Refuted: the copy of a buffer on memory of the caller is never freed; an iterator with the first read failing does not free its buffer; an assignment loses the
    memory of the object assigned to and lets the other see its changes; a default constructed iterator frees a pointer not initialised. *)
Theorem C66_refuted :
  (exists h l, mem_calls [MNewBufOn [0] 1 0; MCopy 0; MDestroy 0; MDestroy 1] h_new = Ret h l /\ allocated h = 1%nat) /\
  (exists h, mem_calls [MNewIter 8 (mkRd [] true)] h_new = Ret h [AThrown] /\ allocated h = 1%nat) /\
  (exists h l, mem_calls [MNewBuf 1; MNewBufOn [0] 1 0; MAssign 0 1; MBuf 0 (MPush 65); MDestroy 0; MBuf 1 (MResize 1 66); MBuf 1 MContent; MDestroy 1] h_new = Ret h l /\ allocated h = 1%nat) /\
  (exists h, mem_calls [MNewBuf 1; MNewBuf 1; MAssign 0 1; MBuf 0 (MPush 65); MBuf 1 (MPush 66); MBuf 0 MContent] h_new = Ret h [ADone; ADone; ADone; ADone; ADone; ABytes (Some [66])]) /\
  mem_calls [MNewStack; MNewStack; MAssign 0 1; MDestroy 0; MDestroy 1] h_new = Undef /\
  mem_calls [MNewStack; MNewStack; MAssign 0 1; MStack 0 (KPush (repeat 7 300)); MStack 1 (KPush (str "a"))] h_new = Undef /\
  mem_calls [MNewWild; MDestroy 0] h_new = Undef.
Proof.
  split; [eexists; eexists; vm_compute; split; reflexivity|]. split; [eexists; vm_compute; split; reflexivity|]. split; [eexists; eexists; vm_compute; split; reflexivity|].
  split; [eexists; vm_compute; reflexivity|]. repeat split; vm_compute; reflexivity.
Qed.
Print Assumptions C66_refuted.
