(** Decision procedures for the well-formedness of documents, used in examples. *)
From Verif Require Import Base XmlScanner DocSpec SectSpec DocProofs.

Definition whiteb (c : N) : bool := bin c [32; 9; 10; 13].
Definition name_charb (c : N) : bool := (128 <=? c) || ((33 <=? c) && (c <? 128) && negb (bin c markup_chars)).
Definition text_charb (c : N) : bool := negb (bin c [0; 38; 60]).
Definition value_charb (q c : N) : bool := text_charb c && negb (c =? q).

Lemma whiteb_ok : forall c, whiteb c = true -> white c.
Proof. intros c H. apply bin_in in H. unfold white. cbn in H. intuition. Qed.
Lemma name_charb_ok : forall c, name_charb c = true -> name_char c.
Proof.
  intros c H. unfold name_charb in H. apply Bool.orb_true_iff in H. destruct H as [H|H]; [left; lia|right].
  apply andb_prop in H. destruct H as [H1 H2]. split; [lia|]. intros Hi. apply bin_in in Hi. rewrite Hi in H2. discriminate.
Qed.
Lemma text_charb_ok : forall c, text_charb c = true -> text_char c.
Proof. intros c H. unfold text_charb, bin in H. cbn [existsb] in H. unfold text_char. lia. Qed.
Lemma value_charb_ok : forall q c, value_charb q c = true -> value_char q c.
Proof. intros q c H. apply andb_prop in H. destruct H as [H1 H2]. split; [apply text_charb_ok; exact H1|lia]. Qed.
Lemma forallb_ok : forall {A} (p : A -> bool) (P : A -> Prop) l, (forall c, p c = true -> P c) -> forallb p l = true -> Forall P l.
Proof. intros A p P l H Hl. rewrite forallb_forall in Hl. apply Forall_forall. auto. Qed.

Definition dec_digitb (c : N) := (48 <=? c) && (c <=? 57).
Definition hex_digitb (c : N) := ((48 <=? c) && (c <=? 57)) || ((65 <=? c) && (c <=? 70)) || ((97 <=? c) && (c <=? 102)).
Definition refb (r : ref) : bool :=
  match r with
  | RDec ds => forallb dec_digitb ds && Nat.leb 1 (length ds) && Nat.leb (length ds) 15 && (number 10 ds <? 2 ^ 32)
  | RHex ds => forallb hex_digitb ds && Nat.leb 1 (length ds) && Nat.leb (length ds) 15 && (number 16 ds <? 2 ^ 32)
  | _ => true
  end.
Lemma refb_ok : forall r, refb r = true -> ref_ok r.
Proof.
  intros [ds|ds| | | | |] H; cbn [refb ref_ok] in *; auto;
   apply andb_prop in H; destruct H as [H H4]; apply andb_prop in H; destruct H as [H H3]; apply andb_prop in H; destruct H as [H1 H2];
   apply Nat.leb_le in H2; apply Nat.leb_le in H3; apply N.ltb_lt in H4; (split; [|split; [lia|exact H4]]).
  - eapply forallb_ok; [|exact H1]. unfold dec_digitb, dec_digit. lia.
  - eapply forallb_ok; [|exact H1]. unfold hex_digitb, hex_digit. lia.
Qed.
Definition nonempty {A} (l : list A) : bool := match l with [] => false | _ => true end.
Lemma nonempty_ok : forall {A} (l : list A), nonempty l = true -> l <> [].
Proof. intros A [|x l]; discriminate. Qed.
Definition plainb (c : N) : bool := (33 <=? c) && (c <? 128) && negb (bin c markup_chars) && negb (c =? 45).
Lemma plainb_ok : forall c, plainb c = true <-> plain_char c.
Proof.
  intros c. unfold plainb, plain_char. rewrite bin_in. destruct (bin c markup_chars).
  - rewrite Bool.andb_false_r. split; [discriminate|]. intros [_ [H _]]. congruence.
  - split; [intros H; repeat split; try lia; discriminate|intros [H1 [_ H2]]; lia].
Qed.
Definition ampb (a : amp) (follow : list N) : bool :=
  match a with
  | Ref r => refb r
  | Lit l =>
      (forallb (fun c => plainb c && negb (c =? 59)) l && negb (hd 0 l =? 35) && Nat.leb (length l) 15 &&
       (if Nat.eqb (length l) 15 then negb (hd 0 follow =? 59) else negb (plainb (hd 0 follow)))) ||
      match l with
      | 35 :: ds => forallb dec_digitb ds && Nat.leb (length ds) 16 &&
          (if Nat.eqb (length ds) 16 then true else negb (dec_digitb (hd 0 follow)) && negb (hd 0 follow =? 59) && (nonempty ds || negb (hd 0 follow =? 120)))
      | _ => false
      end
  end.
Lemma ampb_ok : forall a follow, ampb a follow = true -> amp_ok a follow.
Proof.
  intros [r|l] follow H; cbn [ampb amp_ok] in *; [apply refb_ok; exact H|]. apply Bool.orb_true_iff in H. destruct H as [H|H]; [left|right].
  - apply andb_prop in H. destruct H as [H H4]. apply andb_prop in H. destruct H as [H H3]. apply andb_prop in H. destruct H as [H1 H2].
    apply Nat.leb_le in H3. split; [|split; [lia|split; [exact H3|]]].
    + eapply forallb_ok; [|exact H1]. intros c Hc. cbn beta in Hc. apply andb_prop in Hc. destruct Hc as [Hc1 Hc2]. split; [apply plainb_ok; exact Hc1|lia].
    + destruct (Nat.eqb_spec (length l) 15); (split; [intros E|intros E]); try lia.
      rewrite <- plainb_ok. destruct (plainb (hd 0 follow)); [discriminate H4|discriminate].
  - destruct l as [|c ds]; [discriminate|]. destruct (N.eqb_spec c 35) as [->|Hne].
    2:{ destruct c as [|p]; [discriminate|]. repeat (destruct p as [p|p|]; try discriminate; try congruence). }
    apply andb_prop in H. destruct H as [H H4]. apply andb_prop in H. destruct H as [H1 H2]. apply Nat.leb_le in H2.
    exists ds. split; [reflexivity|]. split; [eapply forallb_ok; [|exact H1]; unfold dec_digitb, dec_digit; lia|]. split; [exact H2|]. intros Hl.
    destruct (Nat.eqb_spec (length ds) 16); [lia|]. apply andb_prop in H4. destruct H4 as [H4 H5]. apply andb_prop in H4. destruct H4 as [H3 H4].
    unfold dec_digitb in H3. unfold dec_digit. split; [lia|]. split; [lia|]. intros ->. cbn in H5. lia.
Qed.
Definition tokb (p : N -> bool) (t : token) : bool := forallb p (t_raw t) && forallb (fun x => ampb (fst x) (snd x) && forallb p (snd x)) (t_refs t).
Lemma tokb_ok : forall p (P : N -> Prop) t, (forall c, p c = true -> P c) -> tokb p t = true -> tok_ok P t.
Proof.
  intros p P t H Ht. apply andb_prop in Ht. destruct Ht as [H1 H2]. split; [eapply forallb_ok; eauto|].
  eapply forallb_ok; [|exact H2]. intros x Hx. cbn beta in Hx. apply andb_prop in Hx. destruct Hx as [H3 H4]. split; [apply ampb_ok; exact H3|eapply forallb_ok; eauto].
Qed.
Definition nameb (t : token) : bool := tokb name_charb t && nonempty (tok_src t).
Lemma nameb_ok : forall t, nameb t = true -> name_ok t.
Proof. intros t H. apply andb_prop in H. destruct H as [H1 H2]. split; [eapply tokb_ok; [apply name_charb_ok|exact H1]|apply nonempty_ok; exact H2]. Qed.
Definition quoteb (q : N) : bool := (q =? 34) || (q =? 39).
Definition avalb (v : aval) : bool := match v with Quoted q t => quoteb q && tokb (value_charb q) t | Bare t => nameb t end.
Lemma avalb_ok : forall v, avalb v = true -> aval_ok v.
Proof.
  intros [q t|t] H; cbn [avalb aval_ok] in *; [|apply nameb_ok; exact H]. apply andb_prop in H. destruct H as [H1 H2].
  split; [unfold quoteb in H1; lia|]. eapply tokb_ok; [|exact H2]. apply value_charb_ok.
Qed.
Definition attrb (a : attr) : bool :=
  nonempty (a_ws a) && forallb whiteb (a_ws a) && nameb (a_name a) && forallb whiteb (a_ws1 a) && forallb whiteb (a_ws2 a) && avalb (a_val a).
Ltac bands := repeat match goal with H : _ && _ = true |- _ => apply andb_prop in H; destruct H end.
Ltac whites := eapply forallb_ok; [apply whiteb_ok|assumption].
Lemma attrb_ok : forall a, attrb a = true -> attr_ok a.
Proof. intros a H. unfold attrb in H. bands. repeat split; auto using nonempty_ok; try whites; try (apply nameb_ok; assumption). apply avalb_ok. assumption. Qed.
Definition dpartb (d : dpart) : bool :=
  match d with
  | DId n => nameb n
  | DStr q t => quoteb q && tokb (value_charb q) t
  | DList l => negb (bin 93 l)
  end.
Lemma dpartb_ok : forall d, dpartb d = true -> dpart_ok d.
Proof.
  intros [n|q t|l] H; cbn [dpartb dpart_ok] in *; [apply nameb_ok; exact H| |].
  - bands. split; [unfold quoteb in *; lia|]. eapply tokb_ok; [|eassumption]. apply value_charb_ok.
  - intros Hi. apply bin_in in Hi. rewrite Hi in H. discriminate.
Qed.
Definition itemb (i : item) : bool :=
  match i with
  | IText t => tokb text_charb t && nonempty (tok_src t)
  | IOpen n attrs ws => nameb n && forallb attrb attrs && forallb whiteb ws
  | IEmpty n attrs ws ws2 => nameb n && forallb attrb attrs && forallb whiteb ws && forallb whiteb ws2
  | IClose n ws => nameb n && forallb whiteb ws
  | IComment l => sectb 45 comment_run 0 (l ++ str "-->")
  | IPI l => negb (bin 63 l)
  | ICData l => sectb 93 cdata_run 0 (l ++ str "]]>")
  | IDoctype n parts ws => nameb n && negb (hd 0 (t_raw n) =? 45) &&
      forallb (fun p => nonempty (fst p) && forallb whiteb (fst p) && dpartb (snd p)) parts && forallb whiteb ws
  end.
Lemma itemb_ok : forall i, itemb i = true -> item_ok i.
Proof.
  intros i H. destruct i; cbn [itemb item_ok] in *; bands; try (apply comment_ok; assumption); try (apply cdata_ok; assumption); repeat split; auto using nonempty_ok; try whites; try (apply nameb_ok; assumption).
  1,2: match goal with H : tokb _ _ = true |- _ => apply (tokb_ok _ text_char _ text_charb_ok) in H; apply H end.
  - eapply forallb_ok; [apply attrb_ok|assumption].
  - eapply forallb_ok; [apply attrb_ok|assumption].
  - intros Hi. apply bin_in in Hi. rewrite Hi in H. discriminate.
  - lia.
  - eapply forallb_ok; [|eassumption]. intros p Hp. cbn beta in Hp. bands. split; [apply nonempty_ok; assumption|]. split; [whites|apply dpartb_ok; assumption].
Qed.
Fixpoint no_splitb (l : list item) : bool :=
  match l with
  | i :: (j :: _) as r => negb (is_text i && is_text j) && no_splitb r
  | _ => true
  end.
Lemma no_splitb_ok : forall l, no_splitb l = true -> no_split l.
Proof.
  induction l as [|x [|y l] IH]; intros H; try exact I. change (negb (is_text x && is_text y) && no_splitb (y :: l) = true) in H.
  apply andb_prop in H. destruct H as [H1 H2]. split; [|apply IH; exact H2]. intros [E1 E2]. rewrite E1, E2 in H1. discriminate.
Qed.
Definition first_okb (l : list item) : bool :=
  match l with
  | [] => true
  | (IOpen _ _ _ | IEmpty _ _ _ _ | IComment _ | ICData _ | IDoctype _ _ _) :: _ => true
  | _ => false
  end.
Definition headerb (h : header) : bool := forallb attrb (h_attrs h) && forallb whiteb (h_ws h) && forallb whiteb (h_ws2 h).
Definition docb (d : doc) : bool :=
  forallb whiteb (d_ws d) && forallb itemb (d_items d) && no_splitb (d_items d) &&
  match d_header d with Some h => headerb h | None => first_okb (d_items d) end.
Lemma docb_ok : forall d, docb d = true -> doc_ok d.
Proof.
  intros [ws h items] H. unfold docb, doc_ok in *. cbn [d_ws d_header d_items] in *. bands. split; [whites|]. split.
  - split; [eapply forallb_ok; [apply itemb_ok|assumption]|apply no_splitb_ok; assumption].
  - destruct h as [h|].
    + unfold headerb in *. bands. split; [eapply forallb_ok; [apply attrb_ok|assumption]|]. split; whites.
    + destruct items as [|[] items]; cbn in *; auto; discriminate.
Qed.
