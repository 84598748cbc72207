(** The printer as a machine over characters (proofs). *)
From Verif Require Import Base Iter CharMap CodePages Charset TextScanner Ideal ReaderSim ScannerSim IterSim
  CharsetSpec CharsetProofs ReadSpec ReadProofs CharsetMore CstrSim StaticBuffer TagStack BufProofs XmlPrinter XmlScanner DocSpec PrintSpec.
Ltac Zify.zify_post_hook ::= Z.div_mod_to_equations.

Lemma default_constructible : forall cs, cs_constructible cs = true -> cs_constructible (default_cs cs) = true.
Proof. intros [|be|be|be|p] H; reflexivity. Qed.

Lemma c_str_small : forall l, small l -> small (c_str l).
Proof.
  intros l [H1 H2]. assert (G : Forall isByte (c_str l) /\ (length (c_str l) <= length l)%nat).
  { clear H2. induction H1 as [|b l Hb H1 IH]; cbn [c_str length]; [split; [constructor|lia]|]. destruct (b =? 0); cbn [length]; [split; [constructor|lia]|].
    split; [constructor; [exact Hb|tauto]|lia]. }
  split; [tauto|lia].
Qed.
Lemma lit_small : forall l, forallb (fun b => b <? 256) l && (N.of_nat (length l) <? 1000) = true -> small l.
Proof.
  intros l H. apply andb_prop in H. destruct H as [H1 H2]. split; [|change (2 ^ 32) with 4294967296; lia].
  apply Forall_forall. intros x Hx. rewrite forallb_forall in H1. specialize (H1 x Hx). unfold isByte. lia.
Qed.
Section Loop.
Context (ocs acs : charset).
Hypothesis Hacs : cs_constructible acs = true.
Let dcs := default_cs acs.
Definition dec_text (src : list N) : list N := text_chars (default_cs acs) src.

Lemma printLoop_is : forall (f : N -> option (list N)) g src, (forall c, c <> 0 -> f c = Some (g c)) ->
  N.of_nat (length src) + 16 < 2 ^ 32 ->
  forall n l p t, (length l < n)%nat -> creads dcs src p t l ->
    (l = [] /\ p <= N.of_nat (length src) + 8 \/ p + N.of_nat (length l) = N.of_nat (length src)) ->
    exists t', printLoop acs n f t = Ret t' (flat_map g (dec_text l)).
Proof.
  intros f g src Hf Hl. change (2 ^ 32) with 4294967296 in Hl.
  assert (Hd : cs_constructible dcs = true) by (apply default_constructible; exact Hacs).
  induction n as [|n IH]; intros l p t Hn Ht Hp; [lia|]. cbn [printLoop]. fold dcs.
  destruct (creads_chr dcs src p t l Hd) as [t1 [E1 H1]]; [change (2 ^ 32) with 4294967296; lia|change (2 ^ 32) with 4294967296; lia|exact Ht|].
  rewrite E1. cbn [bind]. unfold dec_text, text_chars. fold dcs. destruct l as [|b l].
  - rewrite cval_nil. cbn [N.eqb units]. eexists. reflexivity.
  - rewrite units_cons. cbn [map until_null]. change (u_val (dec dcs (b :: l))) with (cval dcs (b :: l)).
    destruct (N.eqb_spec (cval dcs (b :: l)) 0) as [|Hz]; [eexists; reflexivity|]. rewrite (Hf _ Hz).
    destruct (creads_skip dcs src p t1 (b :: l) Hd) as [t2 [E2 H2]]; [change (2 ^ 32) with 4294967296; lia|change (2 ^ 32) with 4294967296; lia|exact H1|].
    rewrite E2. cbn [bind]. pose proof (clen_bounds dcs (b :: l)) as Hc. cbn [length] in Hc, Hn.
    edestruct (fun A => IH _ _ _ A H2) as [t3 E3].
    + rewrite skipn_length. cbn [length]. lia.
    + rewrite skipn_length. cbn [length] in *. destruct Hp as [[Hp _]|Hp]; [discriminate|].
      destruct (Nat.le_gt_cases (clen dcs (b :: l)) (S (length l))) as [Hle|Hgt].
      * right. lia.
      * left. split; [|lia]. apply skipn_all2. cbn [length]. lia.
    + rewrite E3. cbn [bind flat_map]. eexists. reflexivity.
Qed.

Lemma printText_is : forall (f : N -> option (list N)) g src p, (forall c, c <> 0 -> f c = Some (g c)) -> small src ->
  printText acs f src p = Ret p (flat_map g (dec_text src)).
Proof.
  intros f g src p Hf [Hb Hl]. unfold printText.
  destruct (printLoop_is f g src Hf Hl (S (length src)) src 0 (ts_make (cstr_make src))) as [t E]; [lia| |lia|rewrite E; reflexivity].
  apply creads_make; [exact Hb|]. change (2 ^ 32) with 4294967296 in *. lia.
Qed.

Lemma dec_text_nonzero : forall src, Forall (fun c => c <> 0) (dec_text src).
Proof. intros src. apply until_null_nonzero. Qed.

(** escapes *)
Definition esc_of (l : list (N * list N)) (c : N) : list N :=
  match find (fun p => fst p =? c) l with Some p => snd p | None => [c] end.
Definition attr_escapes : list (N * list N) :=
  [(60, str "&lt;"); (62, str "&gt;"); (39, str "&apos;"); (34, str "&quot;"); (38, str "&amp;"); (8, str "&#8;"); (9, str "&#9;"); (10, str "&#10;"); (13, str "&#13;")].
Definition content_escapes : list (N * list N) := [(60, str "&lt;"); (62, str "&gt;"); (38, str "&amp;"); (8, str "&#8;")].

Lemma subst_attr : forall c, c <> 0 -> printSubst ocs attr_echr attr_estr c = Some (flat_map (cs_print ocs) (esc_of attr_escapes c)).
Proof.
  intros c Hc. unfold printSubst, p_print, printEsc, esc_of, attr_escapes, attr_echr, attr_estr. cbn [memchr find fst snd nth_error].
  rewrite !(N.eqb_sym _ c). cbv [attr_echr attr_estr].
  destruct (N.ltb_spec c 128).
  - repeat (match goal with |- context [N.eqb c ?k] => destruct (N.eqb_spec c k) as [->|]; [first [congruence|reflexivity]|] end).
    cbn [flat_map nth_error]. rewrite app_nil_r. reflexivity.
  - repeat (match goal with |- context [N.eqb c ?k] => destruct (N.eqb_spec c k) as [->|]; [lia|] end). cbn [flat_map]. rewrite app_nil_r. reflexivity.
Qed.
Lemma subst_content : forall c, c <> 0 -> printSubst ocs content_echr content_estr c = Some (flat_map (cs_print ocs) (esc_of content_escapes c)).
Proof.
  intros c Hc. unfold printSubst, p_print, printEsc, esc_of, content_escapes, content_echr, content_estr. cbn [memchr find fst snd nth_error].
  rewrite !(N.eqb_sym _ c).
  destruct (N.ltb_spec c 128).
  - repeat (match goal with |- context [N.eqb c ?k] => destruct (N.eqb_spec c k) as [->|]; [first [congruence|reflexivity]|] end).
    cbn [flat_map nth_error]. rewrite app_nil_r. reflexivity.
  - repeat (match goal with |- context [N.eqb c ?k] => destruct (N.eqb_spec c k) as [->|]; [lia|] end). cbn [flat_map]. rewrite app_nil_r. reflexivity.
Qed.

Definition enc (l : list N) : list N := flat_map (cs_print ocs) l.
Lemma enc_app : forall a b, enc (a ++ b) = enc a ++ enc b.
Proof. intros a b. apply flat_map_app. Qed.
Lemma enc_flat : forall (f : N -> list N) l, enc (flat_map f l) = flat_map (fun c => enc (f c)) l.
Proof. intros f l. induction l as [|c l IH]; [reflexivity|]. cbn [flat_map]. rewrite enc_app, IH. reflexivity. Qed.
Lemma enc1 : forall c, cs_print ocs c = enc [c].
Proof. intros c. unfold enc. cbn [flat_map]. rewrite app_nil_r. reflexivity. Qed.

Lemma printToBuffer_is : forall src p, small src -> printToBuffer ocs acs src p = Ret p (enc (dec_text src)).
Proof. intros src p H. unfold printToBuffer. apply (printText_is _ (cs_print ocs) src p); [reflexivity|exact H]. Qed.
Lemma printAll_is : forall l p, Forall small l -> printAll ocs acs l p = Ret p (enc (flat_map dec_text l)).
Proof.
  intros l p H. induction H as [|s l Hs H IH]; [reflexivity|]. cbn [printAll flat_map]. rewrite (printToBuffer_is s p Hs). cbn [bind].
  rewrite IH. cbn [bind]. rewrite enc_app. reflexivity.
Qed.

(** ** the printer as a machine over characters *)
Record amach := mkA { a_state : pstate; a_stack : list (list N) }.
Definition header_texts (e s : option (list N)) : list (list N) :=
  let en := match e with Some e => c_str e | None => str "UTF-8" end in
  match s with
  | Some s => [str "<?xml version=""1.0"" encoding="""; en; str """ standalone="""; c_str s; str """?>" ++ [10]]
  | None => [str "<?xml version=""1.0"" encoding="""; en; str """?>" ++ [10]]
  end.
Definition doctype_texts (r : list N) (pu sy : option (list N)) : list (list N) :=
  match pu, sy with
  | Some pu, Some sy => [str "<!DOCTYPE "; c_str r; str " PUBLIC """; c_str pu; str """ """; c_str sy; str """>"]
  | _, Some sy => [str "<!DOCTYPE "; c_str r; str " SYSTEM """; c_str sy; str """>"]
  | _, None => [str "<!DOCTYPE " ++ [0]; c_str r; str ">" ++ [0]]
  end.
Definition aexit (a : amach) : amach * (bool * list N) :=
  match a_state a with
  | PContent => (a, (true, []))
  | PInit => (a, (false, []))
  | _ => (mkA PContent (a_stack a), (true, [62]))
  end.
Definition a_do (c : pcall) (a : amach) : amach * (bool * list N) :=
  match c with
  | PHeader e s => match a_state a with
                   | PInit => (mkA PContent (a_stack a), (true, flat_map dec_text (header_texts e s)))
                   | _ => (a, (false, []))
                   end
  | PDoctype None _ _ => (a, (true, []))
  | PDoctype (Some r) pu sy =>
      match pu, sy with
      | Some _, None => (a, (false, []))
      | _, _ => (a, (true, flat_map dec_text (doctype_texts r pu sy)))
      end
  | PExit => aexit a
  | POpen n => match aexit a with
               | (a1, (true, b)) => (mkA PTagElement (n :: a_stack a1), (true, b ++ [60] ++ dec_text n))
               | r => r
               end
  | PAttr n => match a_state a with
               | PTagElement => (mkA PTagAttribute (a_stack a), (true, [32] ++ dec_text n ++ [61]))
               | _ => (a, (false, []))
               end
  | PValue v => match a_state a with
                | PTagAttribute => (mkA PTagElement (a_stack a), (true, [34] ++ flat_map (esc_of attr_escapes) (dec_text v) ++ [34]))
                | _ => match aexit a with
                       | (a1, (true, b)) => (a1, (true, b ++ flat_map (esc_of content_escapes) (dec_text v)))
                       | r => r
                       end
                end
  | PClose =>
      match a_stack a with
      | [] => (a, (false, []))
      | n :: st =>
          let nl := match st with [] => [10] | _ => [] end in
          match n, a_state a with
          | [], _ => (a, (false, []))
          | _, PTagElement => (mkA PContent st, (true, [47; 62] ++ nl))
          | _, PContent => (mkA PContent st, (true, [60; 47] ++ dec_text n ++ [62] ++ nl))
          | _, _ => (a, (false, []))
          end
      end
  | PReset s => (mkA (if s then PContent else PInit) [], (true, []))
  | PCopy => (a, (true, []))
  end.

Definition pr_is (a : amach) (p : printer) : Prop :=
  p_state p = a_state a /\ tg_is (a_stack a) (p_tags p) /\ Forall small (a_stack a).
Definition stack_size (st : list (list N)) : N := N.of_nat (list_sum (map entry_size st)).

Lemma header_small : forall e s, osmall e -> osmall s -> Forall small (header_texts e s).
Proof.
  intros e s He Hs. unfold header_texts.
  assert (Hen : small (match e with Some e => c_str e | None => str "UTF-8" end)) by (destruct e; [apply c_str_small; exact He|apply lit_small; reflexivity]).
  destruct s as [s|]; repeat (apply Forall_cons; [first [exact Hen|apply lit_small; reflexivity|apply c_str_small; exact Hs]|]); constructor.
Qed.
Lemma doctype_small : forall r pu sy, small r -> osmall pu -> osmall sy -> Forall small (doctype_texts r pu sy).
Proof.
  intros r pu sy Hr Hpu Hsy. unfold doctype_texts. destruct pu, sy; cbn [osmall] in *;
  repeat (apply Forall_cons; [first [apply lit_small; reflexivity|apply c_str_small; assumption]|]); constructor.
Qed.

Lemma a_do_is : forall c a p, pr_is a p -> call_ok c -> stack_size (a_stack a) + N.of_nat (opened [c]) <= 2 ^ 62 ->
  exists p', p_do ocs acs c p = Ret p' (fst (snd (a_do c a)), enc (snd (snd (a_do c a)))) /\ pr_is (fst (a_do c a)) p'.
Proof.
  intros c [st stk] [pst tags err] [H1 [H2 H3]] Hc Hs. cbn [p_state p_tags a_state a_stack] in *. subst pst.
  assert (Hex : exists p1, exitTagContext ocs (mkPrinter st tags err) = Ret p1 (fst (snd (aexit (mkA st stk))), enc (snd (snd (aexit (mkA st stk))))) /\
     pr_is (fst (aexit (mkA st stk))) p1 /\ p_tags p1 = tags).
  { unfold exitTagContext, aexit, printChar, p_print. cbn [p_state a_state]. rewrite enc1.
    destruct st; cbn [fst snd]; eexists; (split; [reflexivity|]); (split; [|reflexivity]); split; cbn [p_state p_tags p_fail p_set a_state a_stack]; auto. }
  destruct c as [e s|r pu sy| |n|n|v| |s|]; cbn [p_do a_do call_ok] in *.
  - unfold printHeader. cbn [p_state a_state].
    destruct Hc as [He Hsa]. pose proof (printAll_is _ (mkPrinter st tags err) (header_small e s He Hsa)) as Ha.
    destruct st; cbn [fst snd]; try (eexists; split; [reflexivity|split; cbn [p_state p_tags p_fail a_state a_stack]; auto]).
    unfold header_texts in *. destruct s as [s|]; cbn zeta in *; rewrite Ha; cbn [bind]; eexists; (split; [reflexivity|]); split; cbn [p_state p_tags p_set a_state a_stack]; auto.
  - unfold printDoctype. destruct Hc as [Hr [Hpu Hsy]]. destruct r as [r|]; cbn [osmall] in Hr.
    + pose proof (printAll_is _ (mkPrinter st tags err) (doctype_small r pu sy Hr Hpu Hsy)) as Ha. unfold doctype_texts in Ha.
      destruct pu as [pu|], sy as [sy|]; cbn [fst snd]; try (rewrite Ha; cbn [bind]); eexists; (split; [reflexivity|]); split; cbn [p_state p_tags p_fail a_state a_stack]; auto.
    + eexists. split; [reflexivity|]. split; cbn [p_state p_tags a_state a_stack]; auto.
  - destruct Hex as [p1 [E [H _]]]. exists p1. auto.
  - destruct Hex as [p1 [E [[G1 [G2 G3]] Ht]]]. unfold printOpenTag. rewrite E. cbn [bind fst snd].
    destruct (aexit (mkA st stk)) as [a1 [ok b]] eqn:Ea. cbn [fst snd] in *. destruct ok; [|exists p1; split; [reflexivity|]; split; auto].
    rewrite (printToBuffer_is n p1 Hc). cbn [bind].
    assert (Hst : a_stack a1 = stk) by (unfold aexit in Ea; cbn [a_state a_stack] in Ea; destruct st; inversion Ea; reflexivity).
    destruct (tg_push_is (a_stack a1) (p_tags p1) n G2) as [t' [E2 H']].
    { cbn [map list_sum fold_right]. fold (list_sum (map entry_size (a_stack a1))). rewrite Hst. unfold stack_size, opened in Hs.
      cbn [map list_sum fold_right] in Hs. pose proof (entry_size_bounds n). lia. }
    unfold p_tag. rewrite E2. cbn [omap bind]. eexists. split.
    { cbn [fst snd]. unfold printChar, p_print. rewrite !enc_app, enc1. reflexivity. }
    split; cbn [p_state p_tags p_set p_withtags a_state a_stack]; [reflexivity|split; [exact H'|constructor; auto]].
  - unfold printAttribute. cbn [p_state a_state]. destruct st; cbn [fst snd]; try (eexists; split; [reflexivity|split; cbn [p_state p_tags a_state a_stack]; auto]).
    rewrite (printToBuffer_is n _ Hc). cbn [bind]. eexists. split.
    { unfold printChar, p_print. rewrite !enc1, <- !enc_app. reflexivity. }
    split; cbn [p_state p_tags p_set a_state a_stack]; auto.
  - unfold printValue. cbn [p_state a_state].
    assert (Hcont : forall p1, printContent ocs acs v p1 = Ret p1 (enc (flat_map (esc_of content_escapes) (dec_text v)))).
    { intros p1. unfold printContent. rewrite (printText_is _ _ v p1 subst_content Hc). rewrite enc_flat. reflexivity. }
    destruct Hex as [p1 [E [[G1 [G2 G3]] Ht]]]. rewrite E. cbn [bind fst snd].
    destruct st; cbn [fst snd aexit a_state] in *; try rewrite Hcont; cbn [bind].
    + exists p1. split; [reflexivity|split; auto].
    + exists p1. split; [reflexivity|split; auto].
    + unfold printAttributeValue. rewrite (printText_is _ _ v _ subst_attr Hc). cbn [bind]. eexists. split.
      { unfold p_print. rewrite !enc1, !enc_app, enc_flat. reflexivity. }
      split; cbn [p_state p_tags p_set a_state a_stack]; auto.
    + exists p1. rewrite enc_app. split; [reflexivity|split; auto].
  - unfold printCloseTag, p_tag. cbn [p_tags]. unfold stack_size in Hs. rewrite (tg_top_is stk tags H2) by lia. cbn [omap bind].
    destruct stk as [|n stk]; cbn [hd_error a_stack a_state]; [eexists; split; [reflexivity|]; split; auto|].
    destruct n as [|c0 n0]; [eexists; split; [reflexivity|]; split; auto|].
    cbn [p_withtags p_state p_tags p_error]. inversion H3 as [|? ? Hn H3']; subst.
    destruct (tg_pop_is ((c0 :: n0) :: stk) tags H2) as [t' [Ep Ht']]; [lia|]. cbn [tl] in Ht'. pose proof (tg_empty_is stk t' Ht') as Hemp.
    destruct st; cbn [fst snd].
    + eexists. split; [reflexivity|]. split; auto.
    + rewrite (printToBuffer_is (c0 :: n0) _ Hn). cbn [bind]. unfold p_withtags. cbn [p_tags p_state p_error]. rewrite Ep. cbn [omap bind p_tags p_withtags p_state p_error]. rewrite Hemp. eexists. split.
      { unfold printChar, p_print. rewrite !enc1. cbn [fst snd].
        change [60; 47] with ([60] ++ [47]). rewrite ?enc_app, <- ?app_assoc. destruct stk; reflexivity. }
      split; cbn [p_state p_tags a_state a_stack]; auto.
    + eexists. split; [reflexivity|]. split; auto.
    + unfold p_set, p_withtags. cbn [p_tags p_error p_state]. rewrite Ep. cbn [omap bind p_tags p_withtags]. rewrite Hemp. eexists. split.
      { unfold printChar, p_print. rewrite !enc1. cbn [fst snd].
        change [47; 62] with ([47] ++ [62]). rewrite ?enc_app, <- ?app_assoc. destruct stk; reflexivity. }
      split; cbn [p_state p_tags a_state a_stack]; auto.
  - eexists. split; [reflexivity|]. split; [reflexivity|]. split; [|constructor]. cbn [p_tags pr_reset a_stack]. eapply tg_clear_is. exact H2.
  - unfold pr_copy. cbn [p_tags]. destruct (tg_copy_is stk tags H2) as [t' [E Ht']]. rewrite E. eexists. split; [reflexivity|]. split; auto.
Qed.
End Loop.

(** ** Sequences of calls *)
Lemma opened_cons : forall c l, opened (c :: l) = (opened [c] + opened l)%nat.
Proof. intros c l. unfold opened. cbn [map list_sum fold_right]. fold (list_sum (map (fun c => match c with POpen n => length n + 16 | _ => 0 end)%nat l)). lia. Qed.
Lemma opened_app : forall l1 l2, opened (l1 ++ l2) = (opened l1 + opened l2)%nat.
Proof. intros l1 l2. induction l1 as [|c l1 IH]; [reflexivity|]. cbn [app]. rewrite opened_cons, IH, (opened_cons c l1). lia. Qed.

Section Runs.
Context (ocs acs : charset).
Hypothesis Hacs : cs_constructible acs = true.
Fixpoint a_run (l : list pcall) (a : amach) : amach * list (bool * list N) :=
  match l with
  | [] => (a, [])
  | c :: l' => let (a1, r) := a_do acs c a in let (a2, rs) := a_run l' a1 in (a2, r :: rs)
  end.
Definition a_new (sub : bool) : amach := mkA (if sub then PContent else PInit) [].
Lemma pr_new_is : forall sub, pr_is (a_new sub) (pr_new sub).
Proof. intros sub. split; [reflexivity|]. split; [apply tg_new_is|constructor]. Qed.

Lemma a_do_size : forall c a, stack_size (a_stack (fst (a_do acs c a))) <= stack_size (a_stack a) + N.of_nat (opened [c]).
Proof.
  intros c [st stk]. unfold stack_size, opened, list_sum.
  destruct c as [e s|[r|] pu sy| |n|n|v| |s|]; cbn [a_do]; unfold aexit; cbn [a_state a_stack map fold_right].
  all: try match goal with n : list N |- _ => pose proof (entry_size_bounds n) end.
  all: destruct st; cbn [fst a_stack map fold_right].
  all: repeat (match goal with |- context [match ?x with _ => _ end] => destruct x end; cbn [fst a_stack map fold_right]).
  all: cbn [fst a_stack map fold_right]; try lia.
Qed.

Lemma a_run_is : forall l a p, pr_is a p -> Forall call_ok l -> stack_size (a_stack a) + N.of_nat (opened l) <= 2 ^ 62 ->
  exists p', p_run ocs acs l p = Ret p' (map (fun r => (fst r, enc ocs (snd r))) (snd (a_run l a))) /\ pr_is (fst (a_run l a)) p' /\
    stack_size (a_stack (fst (a_run l a))) <= stack_size (a_stack a) + N.of_nat (opened l).
Proof.
  induction l as [|c l IH]; intros a p Ha Hl Hs.
  - exists p. split; [reflexivity|]. split; [exact Ha|]. cbn [a_run fst]. lia.
  - inversion Hl as [|? ? Hc Hl']; subst. cbn [p_run a_run]. rewrite opened_cons in *. pose proof (a_do_size c a) as Hsz.
    destruct (a_do_is ocs acs Hacs c a p Ha Hc) as [p1 [E1 H1]]; [lia|]. destruct (a_do acs c a) as [a1 r]. cbn [fst snd] in *. rewrite E1. cbn [bind].
    destruct (IH a1 p1 H1 Hl') as [p2 [E2 [H2 H3]]]; [lia|]. destruct (a_run l a1) as [a2 rs]. cbn [fst snd] in *. rewrite E2. cbn [bind map fst snd].
    exists p2. split; [reflexivity|]. split; [exact H2|lia].
Qed.

(** the place and the open tags *)
Definition oks (rs : list (bool * list N)) : list bool := map fst rs.
Definition a_place (a : amach) : place := match a_state a with PTagElement => InStartTag | PTagAttribute => InAttribute | _ => InContent end.
Lemma a_do_tags : forall c a, a_stack (fst (a_do acs c a)) = open_tags (a_stack a) [(c, fst (snd (a_do acs c a)))].
Proof.
  intros c [st stk]. destruct c as [e s|r pu sy| |n|n|v| |s|]; cbn [a_do]; unfold aexit; cbn [a_state a_stack].
  2: destruct r, pu, sy; reflexivity.
  6: destruct stk as [|[|n0 n] stk]; try reflexivity.
  all: destruct st; reflexivity.
Qed.
Lemma a_do_place : forall c a, a_place (fst (a_do acs c a)) = place_after (a_place a) (c, fst (snd (a_do acs c a))).
Proof.
  intros c [st stk]. unfold a_place. destruct c as [e s|r pu sy| |n|n|v| |s|]; cbn [a_do]; unfold aexit; cbn [a_state a_stack].
  2: destruct r, pu, sy; destruct st; reflexivity.
  6: destruct stk as [|[|n0 n] stk].
  9: destruct s; reflexivity.
  all: destruct st; reflexivity.
Qed.
Lemma open_tags_app : forall h1 h2 st, open_tags st (h1 ++ h2) = open_tags (open_tags st h1) h2.
Proof. induction h1 as [|[c b] h1 IH]; intros h2 st; [reflexivity|]. destruct c, b; cbn [app open_tags]; apply IH. Qed.
Lemma a_run_hist : forall l a, let h := combine l (oks (snd (a_run l a))) in
  a_stack (fst (a_run l a)) = open_tags (a_stack a) h /\ a_place (fst (a_run l a)) = fold_left place_after h (a_place a).
Proof.
  induction l as [|c l IH]; intros a; [split; reflexivity|]. cbn [a_run]. pose proof (a_do_tags c a) as H1. pose proof (a_do_place c a) as H2.
  destruct (a_do acs c a) as [a1 [ok b]]. cbn [fst snd] in *. specialize (IH a1). destruct (a_run l a1) as [a2 rs]. cbn [fst snd] in *.
  cbn [oks map fst combine]. change ((c, ok) :: combine l (map fst rs)) with ([(c, ok)] ++ combine l (map fst rs)).
  rewrite open_tags_app, fold_left_app, <- H1. cbn [fold_left]. rewrite <- H2. exact IH.
Qed.
(** only an initial printer has no place; it has no open tags *)
Definition a_good (a : amach) : Prop := a_state a = PInit -> a_stack a = [].
Lemma a_do_good : forall c a, a_good a -> a_good (fst (a_do acs c a)).
Proof.
  intros c [st stk] H. unfold a_good in *. destruct c as [e s|r pu sy| |n|n|v| |s|]; cbn [a_do]; unfold aexit; cbn [a_state a_stack] in *.
  2: destruct r, pu, sy; exact H.
  6: destruct stk as [|[|n0 n] stk].
  all: destruct st; cbn [fst a_state a_stack]; intros E; first [discriminate|reflexivity|auto].
Qed.
Lemma a_run_good : forall l a, a_good a -> a_good (fst (a_run l a)).
Proof.
  induction l as [|c l IH]; intros a H; [exact H|]. cbn [a_run]. pose proof (a_do_good c a H) as H1.
  destruct (a_do acs c a) as [a1 r]. specialize (IH a1 H1). destruct (a_run l a1) as [a2 rs]. exact IH.
Qed.
End Runs.
