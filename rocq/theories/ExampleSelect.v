(** The example with path selection (proofs). *)
From Coq Require Import Lia ZifyBool ZifyNat.
From Verif Require Import Base Iter CharMap Charset CharsetSpec TextScanner XmlScanner GrammarSpec ReadSpec ScanSpec PropsScan XmlSpec XmlIter Names PropsXml PropsPipe BytesSpec BytesProofs PropsBytes
  PathAtm PathSelect PathContext PathProg PathRun9 PropsPath Examples ExampleSpec ExampleProofs PathSpec.

(** ** What is selected *)
Definition p_root (n : list N) (t : Z) : expr := mkExpr [mkEdge SOpen false (Some (str "address")); mkEdge SAttr false (Some n)] RAttr false None t.
Definition p_tag (n : list N) (t : Z) : expr := mkExpr [mkEdge SAttr false (Some n)] RAttr false None t.
Definition p_attr (t : Z) : expr := mkExpr [] RAttr false None t.
Lemma example_paths : paths_of address_paths = Some [p_root (str "name") 1; p_root (str "street") 2].
Proof. reflexivity. Qed.

Lemma same_name_ok : forall a b, same_name a b = true <-> a = b.
Proof.
  induction a as [|x a IH]; intros [|y b]; cbn [same_name]; try (split; congruence). rewrite andb_true_iff, IH, N.eqb_eq. split; [intros [-> ->]; reflexivity|intros E; injection E; auto].
Qed.
Lemma is_name_same : forall a b, is_name a b = same_name (str b) a.
Proof.
  intros a b. unfold is_name. destruct (list_eq_dec N.eq_dec a (str b)) as [->|H].
  - symmetry. apply same_name_ok. reflexivity.
  - destruct (same_name (str b) a) eqn:E; [apply same_name_ok in E; congruence|reflexivity].
Qed.

(** the root of the open tags *)
Fixpoint bottom (tags : list (list N)) : bool := match tags with [] => false | [t] => same_name (str "address") t | _ :: l => bottom l end.
Definition alone (tags : list (list N)) : bool := match tags with [t] => same_name (str "address") t | _ => false end.
Definition attr_is (n : list N) (attr : option (list N)) : bool := match attr with Some m => same_name n m | None => false end.
Definition total (n : list N) (z : Z) (tags : list (list N)) (attr : option (list N)) (els : list event) (i : nat) : nat :=
  (hits (p_root n z) (length tags) els i + (if bottom tags then hits (p_tag n z) (pred (length tags)) els i else 0)
   + (if alone tags && attr_is n attr then hits (p_attr z) 0 els i else 0))%nat.
(** the same said of the elements *)
Fixpoint picked (n : list N) (tags : list (list N)) (attr : option (list N)) (els : list event) (i : nat) : nat :=
  match els with
  | [] => 0
  | (t, v) :: l =>
      match i with
      | O => match t with ETagAttribValue => if alone tags && attr_is n attr then 1 else 0 | _ => 0 end
      | S i => match t with
               | EOpenTag => picked n (v :: tags) None l i
               | ECloseTag | ECloseTagIm => picked n (tl tags) None l i
               | ETagAttribName => picked n tags (Some v) l i
               | _ => picked n tags None l i
               end
      end
  end.

Definition xml_headers (els : list event) : Prop := Forall (fun e => fst e = EHeaderStart -> snd e = str "?xml") els.
Definition in_phase (g : gstate) (tags : list (list N)) (attr : option (list N)) : Prop :=
  match g with
  | GStart | GHeader => tags = [] /\ attr = None
  | GHeaderValue => tags = []  /\ attr = None
  | GValue => True
  | _ => attr = None
  end.
Lemma hits_attr_end : forall z ev l i, hits (p_attr z) 0 (ev :: l) (S i) = 0%nat.
Proof. intros z ev l i. cbn [hits]. destruct (depth_after 0 ev); reflexivity. Qed.
Lemma bottom_cons : forall v tags, bottom (v :: tags) = match tags with [] => same_name (str "address") v | _ => bottom tags end.
Proof. intros v [|t tags]; reflexivity. Qed.

Lemma total_picked : forall n z els g tags attr, gaccept false g (map fst els) = true -> in_phase g tags attr -> Forall (fun e => fst e <> EErrorOccurred) els -> xml_headers els ->
  closes_open (length tags) els = true -> forall i, total n z tags attr els i = picked n tags attr els i.
Proof.
  intros n z. induction els as [|[t v] l IH]; intros g tags attr Hg Hp He Hx Hc i.
  - unfold total. destruct i; cbn [hits picked]; destruct (bottom tags), (alone tags && attr_is n attr); reflexivity.
  - inversion He as [|? ? He1 He2]; subst. inversion Hx as [|? ? Hx1 Hx2]; subst. cbn [fst snd] in *. cbn [map fst gaccept] in Hg.
    destruct (gstep false g t) as [g'|] eqn:Eg; [|destruct t; try discriminate Hg; congruence].
    assert (Hg' : gaccept false g' (map fst l) = true) by (destruct t; try exact Hg; congruence). clear Hg.
    destruct i as [|i].
    + unfold total. cbn [hits picked]. unfold now. cbn [p_root p_tag p_attr x_edges x_rep x_range report_at near x_follow range_now].
      destruct (bottom tags), (alone tags && attr_is n attr) eqn:Ea; destruct t; unfold report_at; cbn [kind_of reports near x_follow x_rep andb orb fst Nat.add]; try reflexivity.
      all: destruct g; cbn [gstep gbody] in Eg; try discriminate Eg; cbn [in_phase] in Hp; destruct Hp as [-> ->]; discriminate Ea.
    + assert (Hb : forall tags, alone tags = true -> bottom tags = true /\ length tags = 1%nat).
      { intros [|a [|b tags0]] H; try discriminate H. split; [exact H|reflexivity]. }
      assert (HR : total n z tags attr ((t, v) :: l) (S i) =
        (match depth_after (length tags) (t, v) with Some d => hits (p_root n z) d l i | None => 0 end
         + (if near (length tags) false && sees SOpen (kind_of t) && same_name (str "address") v then match kind_of t with KClose => 0 | _ => hits (p_tag n z) 0 l i end else 0)
         + if bottom tags then match depth_after (pred (length tags)) (t, v) with Some d => hits (p_tag n z) d l i | None => 0 end
             + (if near (pred (length tags)) false && sees SAttr (kind_of t) && same_name n v then match kind_of t with KClose => 0 | _ => hits (p_attr z) 0 l i end else 0)
           else 0)%nat).
      { unfold total. rewrite hits_attr_end. replace (if alone tags && attr_is n attr then 0 else 0)%nat with 0%nat by (destruct (alone tags && attr_is n attr); reflexivity). rewrite Nat.add_0_r. reflexivity. }
      rewrite HR. clear HR.
      assert (HT : forall attr', (if alone tags && attr_is n attr' then hits (p_attr z) 0 l i else 0)%nat =
         (if bottom tags then if near (pred (length tags)) false && attr_is n attr' then hits (p_attr z) 0 l i else 0 else 0)%nat).
      { intros attr'. destruct tags as [|a [|b tags0]]; cbn [alone andb length pred near orb]; [reflexivity| |destruct (bottom _); reflexivity].
        cbn [bottom]. destruct (same_name (str "address") a); reflexivity. }
      assert (Same : forall (Hk : match kind_of t with KOpen | KClose | KName | KHeader => False | _ => True end) (Hn : in_phase g' tags None) (Hcl : closes_open (length tags) l = true), 
         (match depth_after (length tags) (t, v) with Some d => hits (p_root n z) d l i | None => 0 end
         + (if near (length tags) false && sees SOpen (kind_of t) && same_name (str "address") v then match kind_of t with KClose => 0 | _ => hits (p_tag n z) 0 l i end else 0)
         + if bottom tags then match depth_after (pred (length tags)) (t, v) with Some d => hits (p_tag n z) d l i | None => 0 end
             + (if near (pred (length tags)) false && sees SAttr (kind_of t) && same_name n v then match kind_of t with KClose => 0 | _ => hits (p_attr z) 0 l i end else 0)
           else 0)%nat = picked n tags None l i).
      { intros Hk Hn Hcl. rewrite <- (IH g' tags None Hg' Hn He2 Hx2 Hcl i). unfold total. rewrite (HT None). cbn [attr_is]. unfold depth_after. cbn [fst].
        destruct (kind_of t); try contradiction; cbn [sees]; rewrite !andb_false_r; cbn [andb]; destruct (bottom tags); rewrite ?Nat.add_0_r; reflexivity. }
      cbn [picked closes_open] in *.
      destruct t; try (apply Same; [exact I| |exact Hc]; destruct g; cbn [gstep gbody] in Eg; try discriminate Eg; injection Eg as <-; cbn [in_phase] in *; tauto).
      * (* header *)
        destruct g; cbn [gstep gbody] in Eg; try discriminate Eg. injection Eg as <-. cbn [in_phase] in Hp. destruct Hp as [-> ->].
        rewrite <- (IH GHeader [] None Hg' (conj eq_refl eq_refl) He2 Hx2 Hc i). rewrite (Hx1 eq_refl). unfold total. cbn. reflexivity.
      * (* header attribute *)
        destruct g; cbn [gstep gbody] in Eg; try discriminate Eg. injection Eg as <-. cbn [in_phase] in Hp. destruct Hp as [-> ->].
        rewrite <- (IH GHeaderValue [] None Hg' (conj eq_refl eq_refl) He2 Hx2 Hc i). unfold total. cbn. reflexivity.
      * (* attribute *)
        rewrite <- (IH g' tags (Some v) Hg'); [|destruct g; cbn [gstep gbody] in Eg; try discriminate Eg; injection Eg as <-; exact I|exact He2|exact Hx2|exact Hc].
        unfold total. rewrite (HT (Some v)). unfold depth_after. cbn [fst kind_of sees attr_is]. rewrite !andb_false_r. cbn [andb].
        destruct (bottom tags); rewrite ?andb_true_r; lia.
      * (* open *)
        rewrite <- (IH g' (v :: tags) None Hg'); [|destruct g; cbn [gstep gbody] in Eg; try discriminate Eg; injection Eg as <-; reflexivity|exact He2|exact Hx2|exact Hc].
        unfold total. cbn [attr_is]. rewrite andb_false_r, bottom_cons. unfold depth_after. cbn [fst kind_of sees length pred]. rewrite !andb_false_r. cbn [andb].
        destruct tags as [|a tags]; [cbn [length pred near orb andb bottom]; destruct (same_name (str "address") v); lia|]. cbn [length pred near orb andb]. destruct (bottom (a :: tags)); lia.
      * (* close *)
        destruct tags as [|a tags]; [discriminate Hc|]. cbn [length tl] in *.
        rewrite <- (IH g' tags None Hg'); [|destruct g; cbn [gstep gbody] in Eg; try discriminate Eg; injection Eg as <-; reflexivity|exact He2|exact Hx2|exact Hc].
        unfold total. cbn [attr_is]. rewrite andb_false_r, bottom_cons. unfold depth_after. cbn [fst kind_of sees length pred]. rewrite !andb_false_r. cbn [andb].
        destruct tags as [|b tags]; [cbn [length pred bottom]; destruct (same_name (str "address") a); lia|]. cbn [length pred]. destruct (bottom (b :: tags)); lia.
      * (* close immediately *)
        destruct tags as [|a tags]; [discriminate Hc|]. cbn [length tl] in *.
        rewrite <- (IH g' tags None Hg'); [|destruct g; cbn [gstep gbody] in Eg; try discriminate Eg; injection Eg as <-; reflexivity|exact He2|exact Hx2|exact Hc].
        unfold total. cbn [attr_is]. rewrite andb_false_r, bottom_cons. unfold depth_after. cbn [fst kind_of sees length pred]. rewrite !andb_false_r. cbn [andb].
        destruct tags as [|b tags]; [cbn [length pred bottom]; destruct (same_name (str "address") a); lia|]. cbn [length pred]. destruct (bottom (b :: tags)); lia.
Qed.

(** ** The numbers for the elements *)
Lemma picked_addresses : forall els tags attr i z,
  count_occ Z.eq_dec (nth i (addresses tags attr els) []) z =
  ((if (1 =? z)%Z then picked (str "name") tags attr els i else 0) + (if (2 =? z)%Z then picked (str "street") tags attr els i else 0))%nat.
Proof.
  induction els as [|[t v] l IH]; intros tags attr i z.
  - destruct i; cbn [addresses nth picked count_occ]; destruct (1 =? z)%Z, (2 =? z)%Z; reflexivity.
  - destruct i as [|i].
    + cbn [addresses nth picked]. destruct t; cbn [count_occ]; try (destruct (1 =? z)%Z, (2 =? z)%Z; reflexivity).
      destruct tags as [|tag [|? ?]]; [destruct (1 =? z)%Z, (2 =? z)%Z; reflexivity| |destruct (1 =? z)%Z, (2 =? z)%Z; reflexivity].
      destruct attr as [m|]; [|cbn [attr_is]; rewrite andb_false_r; destruct (1 =? z)%Z, (2 =? z)%Z; reflexivity]. rewrite !is_name_same. cbn [alone attr_is].
      destruct (same_name (str "address") tag); [|destruct (1 =? z)%Z, (2 =? z)%Z; reflexivity]. cbn [andb].
      destruct (same_name (str "name") m) eqn:E1; destruct (same_name (str "street") m) eqn:E2.
      * apply same_name_ok in E1, E2. subst m. discriminate E2.
      * cbn [count_occ]. destruct (Z.eq_dec 1 z) as [<-|H]; [reflexivity|]. destruct (Z.eqb_spec 1 z); [congruence|]. destruct (2 =? z)%Z; reflexivity.
      * cbn [count_occ]. destruct (Z.eq_dec 2 z) as [<-|H]; [reflexivity|]. destruct (Z.eqb_spec 2 z); [congruence|]. destruct (1 =? z)%Z; reflexivity.
      * cbn [count_occ]. destruct (1 =? z)%Z, (2 =? z)%Z; reflexivity.
    + cbn [addresses picked]. destruct t; cbn [nth]; apply IH.
Qed.
Lemma addresses_length : forall els tags attr, length (addresses tags attr els) = length els.
Proof. induction els as [|[t v] l IH]; intros tags attr; [reflexivity|]. cbn [addresses length]. f_equal. destruct t; apply IH. Qed.
Lemma addresses_small : forall els tags attr, Forall (fun r => (length r <= 1)%nat) (addresses tags attr els).
Proof.
  induction els as [|[t v] l IH]; intros tags attr; cbn [addresses]; constructor; [|destruct t; apply IH].
  destruct t; cbn; try lia. destruct tags as [|tag [|? ?]]; cbn; try lia. destruct attr as [m|]; cbn; try lia. destruct (is_name tag "address"), (is_name m "name"), (is_name m "street"); cbn; lia.
Qed.
Lemma count_small : forall l r : list Z, (length r <= 1)%nat -> (forall z, count_occ Z.eq_dec l z = count_occ Z.eq_dec r z) -> l = r.
Proof.
  assert (H0 : forall l : list Z, (forall z, count_occ Z.eq_dec l z = 0%nat) -> l = []).
  { intros [|x l] H; [reflexivity|]. specialize (H x). cbn [count_occ] in H. destruct (Z.eq_dec x x); [discriminate H|congruence]. }
  intros l [|y [|? ?]] Hr H; cbn [length] in Hr; [apply H0; exact H| |lia]. destruct l as [|x l]; [specialize (H y); cbn [count_occ] in H; destruct (Z.eq_dec y y); [discriminate H|congruence]|].
  assert (x = y) as ->.
  { specialize (H x). cbn [count_occ] in H. destruct (Z.eq_dec x x); [|congruence]. destruct (Z.eq_dec y x); [congruence|discriminate H]. }
  f_equal. apply H0. intros z. specialize (H z). cbn [count_occ] in H. destruct (Z.eq_dec y z); lia.
Qed.
Lemma results_are : forall els rs, length rs = length els ->
  (forall t i, (i < length els)%nat -> reported t rs i = ((if (1 =? t)%Z then picked (str "name") [] None els i else 0) + (if (2 =? t)%Z then picked (str "street") [] None els i else 0))%nat) ->
  rs = addresses [] None els.
Proof.
  intros els rs Hl H. apply (nth_ext _ _ [] []); [rewrite addresses_length; exact Hl|]. intros i Hi. apply count_small.
  - pose proof (addresses_small els [] None) as Hs. rewrite Forall_forall in Hs. apply Hs. apply nth_In. rewrite addresses_length. eapply Nat.lt_le_trans; [exact Hi|]. apply Nat.eq_le_incl. exact Hl.
  - intros z. rewrite picked_addresses. apply H. eapply Nat.lt_le_trans; [exact Hi|]. apply Nat.eq_le_incl. exact Hl.
Qed.

(** ** Headers *)
Lemma xh_app : forall a b, xml_headers a -> xml_headers b -> xml_headers (a ++ b).
Proof. intros. apply Forall_app. split; assumption. Qed.
Lemma xh_one : forall t v, t <> EHeaderStart -> xml_headers [(t, v)].
Proof. intros t v H. constructor; [intros E; contradiction|constructor]. Qed.
Lemma xh_cons : forall t v l, t <> EHeaderStart -> xml_headers l -> xml_headers ((t, v) :: l).
Proof. intros t v l H Hl. constructor; [intros E; contradiction|exact Hl]. Qed.
Lemma xh_nil : xml_headers [].
Proof. constructor. Qed.
Lemma xh_repeat : forall n, xml_headers (repeat (ECloseTagIm, []) n).
Proof. induction n; [constructor|]. apply xh_cons; [discriminate|assumption]. Qed.
Lemma value_xh : forall h l els s, value_reads h l els s -> xml_headers els.
Proof. intros h l els s H. destruct H; try apply xh_nil; apply xh_one; destruct h; discriminate. Qed.
Lemma attr_xh : forall h l els s, attr_reads h l els s -> xml_headers els.
Proof. intros h l els s H. destruct H; try apply xh_nil; apply xh_cons; try (destruct h; discriminate); try apply xh_nil. eapply value_xh; eauto. Qed.
Lemma attrs_xh : forall h l els s, attrs_read h l els s -> xml_headers els.
Proof. intros h l els s H. induction H; [apply xh_nil|apply xh_app; [eapply attr_xh; eauto|assumption]|eapply attr_xh; eauto]. Qed.
Lemma markup_xh : forall first l els s, markup_reads first l els s -> xml_headers els.
Proof.
  assert (T : forall l els s, tag_reads l els s -> xml_headers els).
  { intros l els s H. destruct H as [| |l n r els e H1 H2 H3|l n r els b r2 els2 s H1 H2 H3 H4]; try apply xh_nil; (apply xh_cons; [discriminate|]); [eapply attrs_xh; eauto|].
    apply xh_app; [eapply attrs_xh; eauto|]. destruct H4; [apply xh_nil|apply xh_repeat|apply xh_repeat]. }
  assert (C : forall l els s, close_reads l els s -> xml_headers els) by (intros l els s H; destruct H; try apply xh_nil; apply xh_one; discriminate).
  assert (Hd : forall l els s, header_reads l els s -> xml_headers els).
  { intros l els s H. destruct H as [| |l r els e H1 H2 H3|l r els b ws r2 H1 H2 H3 H4 H5|l r els b ws r2 H1 H2 H3 H4]; try apply xh_nil; (constructor; [intros _; reflexivity|]); [eapply attrs_xh; eauto|eapply attrs_xh; eauto|].
    apply xh_app; [eapply attrs_xh; eauto|]. apply xh_one. discriminate. }
  assert (D : forall l els s, def_reads l els s -> xml_headers els) by (intros l els s H; induction H; repeat (apply xh_cons; [discriminate|]); try apply xh_nil; assumption).
  assert (E : forall l els s, decl_reads l els s -> xml_headers els) by (intros l els s H; destruct H; try apply xh_nil; eauto).
  intros first l els s H. destruct H; try apply xh_nil; eauto.
Qed.
Lemma content_xh : forall seek l els o, content_reads seek l els o -> xml_headers els.
Proof.
  intros seek l els o H. induction H as [c l els o Hb H IH|seek l H0|seek l v r els o H1 H2 H3 Ht H IH|seek l H1 H2 H3 Ht|seek ws l els seek2 r els2 o Hw Hm H IH|seek ws l els e Hw Hm|seek ws l els Hw Hm]; auto.
  - apply xh_one. discriminate.
  - apply xh_cons; [discriminate|exact IH].
  - apply xh_nil.
  - apply xh_app; [eapply markup_xh; eauto|exact IH].
  - eapply markup_xh; eauto.
  - eapply markup_xh; eauto.
Qed.
Lemma text_xh : forall l els o, text_reads l els o -> xml_headers els.
Proof.
  intros l els o H. destruct H as [ws l Hw H0|ws l Hw H0 H1|ws ws0 l els seek r els2 o Hw Hw0 Hm Hc|ws ws0 l els e Hw Hw0 Hm|ws ws0 l els Hw Hw0 Hm].
  - apply xh_one. discriminate.
  - apply xh_nil.
  - apply xh_app; [eapply markup_xh; eauto|eapply content_xh; eauto].
  - eapply markup_xh; eauto.
  - eapply markup_xh; eauto.
Qed.

(** ** The selector for the elements of a text *)
Definition as_bytes (text : list N) (els : list (etype * list N)) : list (etype * list N) := map (fun e => (fst e, flat_map (written UTF8 UTF8 text) (snd e))) els.
Lemma text_selects : forall text l els o, text_reads l els o -> closes_open 0 els = true ->
  exists a, add_paths UTF8 address_paths [] = Ret a tt /\ selects a (as_bytes text els) (addresses [] None (as_bytes text els)).
Proof.
  intros text l els o H Hc. set (D := as_bytes text els).
  assert (HfD : map fst D = map fst els) by (unfold D, as_bytes; rewrite map_map; reflexivity).
  assert (Ho : ordered PStart 0 D = true).
  { rewrite (ordered_types D els); [eapply reading_ordered; eassumption|]. exact HfD. }
  destruct (C36_programs UTF8 address_paths [p_root (str "name") 1; p_root (str "street") 2] D) as (a & rs & X1 & X2 & X3 & X4).
  - intros m Hm. cbn in Hm. destruct Hm as [<-|[<-|[<-|[<-|[]]]]]; (split; [discriminate|vm_compute; reflexivity]).
  - exact example_paths.
  - repeat constructor.
  - exact Ho.
  - exists a. split; [exact X1|]. enough (rs = addresses [] None D) as <- by exact X2.
    apply results_are; [exact X3|]. intros t i Hi. rewrite X4 by exact Hi. unfold hits_of. cbn [map list_sum fold_right p_root x_type]. rewrite Nat.add_0_r.
    assert (G : forall n z, hits (p_root n z) 0 D i = picked n [] None D i).
    { intros n z. pose proof (text_exits _ _ _ H) as X.
      assert (He : Forall (fun e => fst e <> EErrorOccurred) els).
      { assert (N : forall a, noexit a -> Forall (fun e : etype * list N => fst e <> EErrorOccurred) a).
        { intros a0 Ha. eapply Forall_impl; [|exact Ha]. intros [t0 v] Ht E. cbn [fst] in *. rewrite E in Ht. discriminate. }
        destruct o as [|e|]; cbn [exits] in X; [destruct X as [a0 [-> X]]; apply Forall_app; split; [apply N; exact X|repeat constructor; discriminate]|apply N; exact X|apply N; exact X]. }
      destruct (reads_k _ _ _ H) as [[k A] _]. destruct (A k (Nat.le_refl k)) as [s [evs [E1 E2]]].
      pose proof (C18_grammar_any_source_partial _ _ _ _ _ _ _ E1) as Gr.
      assert (T : map ev_type evs = map fst els).
      { transitivity (map (fun x : etype * list N * xerror => fst (fst x)) (map element evs)); [rewrite map_map; reflexivity|]. rewrite E2, map_map. reflexivity. }
      rewrite T, <- HfD in Gr.
      pose proof (total_picked n z D GStart [] None Gr (conj eq_refl eq_refl)) as TP.
      assert (HeD : Forall (fun e => fst e <> EErrorOccurred) D) by (unfold D, as_bytes; apply Forall_map; exact He).
      assert (HxD : xml_headers D).
      { unfold D, as_bytes. apply Forall_map. eapply Forall_impl; [|exact (text_xh _ _ _ H)]. intros [t0 v] Hv Et. cbn [fst snd] in *. rewrite (Hv Et). vm_compute. reflexivity. }
      assert (HcD : closes_open (length (@nil (list N))) D = true).
      { cbn [length]. rewrite <- Hc. unfold D, as_bytes. clear. generalize 0%nat. induction els as [|[t0 v] els IH]; intros n; [reflexivity|].
        cbn [map closes_open fst]. destruct t0; try apply IH; destruct n; try reflexivity; apply IH. }
      specialize (TP HeD HxD HcD i). unfold total in TP. cbn [bottom alone andb length] in TP. rewrite !Nat.add_0_r in TP. exact TP. }
    rewrite !G. reflexivity.
Qed.

(** ** Postfix increments *)
Lemma etype_dec_close : forall t, {t = ECloseTag \/ t = ECloseTagIm} + {~ (t = ECloseTag \/ t = ECloseTagIm)}.
Proof. destruct t; (left; auto; fail) || (right; intros [E|E]; discriminate E). Qed.
Lemma run_post : forall f ff a evs s s' rs, sel_run (S f) ff a evs s = Ret s' rs ->
  Forall2 (fun (e : etype * list N) (r : list Z) => fst e = ECloseTag \/ fst e = ECloseTagIm -> r = []) evs rs -> sel_run_post f ff a evs s = Ret s' rs.
Proof.
  intros f ff a. induction evs as [|[t k] evs IH]; intros s s' rs H HF; cbn [sel_run sel_run_post] in *; [exact H|].
  destruct (sel_element (S f) ff a t (Some k) s) as [s1 r| | | |] eqn:E1; cbn [bind] in H; try discriminate.
  destruct (sel_run (S f) ff a evs s1) as [s2 rs2| | | |] eqn:E2; cbn [bind] in H; try discriminate. injection H as <- <-. inversion HF as [|? ? ? ? H1 H2]; subst. cbn [fst] in H1.
  assert (Ep : sel_element_post f ff a t (Some k) s = Ret s1 r).
  { destruct (etype_dec_close t) as [Ht|Ht]; [rewrite (H1 Ht) in *; apply C40_nothing; exact E1|]. rewrite C40_partial; [exact E1|intros ->; apply Ht; auto|intros ->; apply Ht; auto]. }
  rewrite Ep. cbn [bind]. rewrite (IH s1 s2 rs2 E2 H2). reflexivity.
Qed.
Lemma addresses_close : forall els tags attr, Forall2 (fun (e : etype * list N) (r : list Z) => fst e = ECloseTag \/ fst e = ECloseTagIm -> r = []) els (addresses tags attr els).
Proof.
  induction els as [|[t v] l IH]; intros tags attr; cbn [addresses]; constructor; [|destruct t; apply IH].
  cbn [fst]. intros [-> | ->]; reflexivity.
Qed.
Lemma addresses_numbers : forall els tags attr, Forall (Forall (fun z => z = 1 \/ z = 2)%Z) (addresses tags attr els).
Proof.
  induction els as [|[t v] l IH]; intros tags attr; cbn [addresses]; constructor; [|destruct t; apply IH].
  destruct t; try constructor. destruct tags as [|tag [|? ?]]; try constructor. destruct attr as [m|]; try constructor.
  destruct (is_name tag "address"); [|constructor]. destruct (is_name m "name"); [constructor; [left; reflexivity|constructor]|]. destruct (is_name m "street"); constructor; [right; reflexivity|constructor].
Qed.

(** ** The loop *)
Section Loop.
Context {R : Type} (rops : readerops R) (cfg : config) (a : atm).
Definition select_all (fuel fs n : nat) (s : @xsc R) (sl : sel) (put : list N) : out (@xsc R * sel * list N) ended :=
  let! (st, it) := omap (fun s' => (s', sl, put)) (x_begin rops cfg fuel true s) in select_loop rops cfg a fuel fs n it (fst (fst st)) sl put.
Definition number_line (e : etype * list N) (z : Z) : list N := show_int z ++ str ": " ++ name_of (fst e) ++ snd e ++ [10].
Definition number_lines (els : list (etype * list N)) (rs : list (list Z)) : list N := flat_map (fun p => flat_map (number_line (fst p)) (snd p)) (combine els rs).

Lemma select_all_step : forall fuel fs n (s : @xsc R) sl put,
  select_all fuel fs (S n) s sl put =
  match nextItem rops cfg fuel 0xFFFF (fst s) with
  | Ret s1 t => let s1 := (s1, S (snd s)) in
      match t with
      | EExit => Ret (s1, sl, put) EndOfLoop
      | EErrorOccurred => Ret (s1, sl, put) (Thrown (str "xml error: " ++ before_null (sc_getItem (fst s1))))
      | _ => match sel_element_post fs fs a t (Some (sc_getItem (fst s1))) sl with
             | Ret sl r => select_all fuel fs n s1 sl (put ++ flat_map (number_line (t, sc_getItem (fst s1))) r)
             | Jump sl => Jump (s1, sl, put) | Throw sl => Throw (s1, sl, put) | Undef => Undef | Fuel => Fuel
             end
      end
  | Jump s1 => Jump ((s1, S (snd s)), sl, put)
  | Throw s1 => Throw ((s1, S (snd s)), sl, put)
  | Undef => Undef
  | Fuel => Fuel
  end.
Proof.
  intros fuel fs n [s k] sl put. unfold select_all at 1, x_begin, x_next. cbn [fst snd].
  destruct (nextItem rops cfg fuel 65535 s) as [s1 t| | | |]; cbn [omap bind fst snd]; try reflexivity.
  assert (HR : x_elem (mkXi (mkItel t (x_itemPtr (s1, S k)) (x_itemSize (s1, S k))) true) (s1, S k) = Some (sc_getItem s1)).
  { unfold x_elem, x_read, x_itemPtr, x_itemSize, sc_getItem. cbn [fst snd xi_elem ie_content ie_size]. destruct (sc_obuf s1) as [|b l] eqn:E; [reflexivity|].
    rewrite Nat.eqb_refl. replace (Nat.leb (length (b :: l)) (length (b :: l) + 1)) with true by (symmetry; apply Nat.leb_le; lia). cbn [andb].
    rewrite firstn_app, firstn_all, Nat.sub_diag, app_nil_r. reflexivity. }
  cbn [select_loop].
  assert (HM : x_message (mkXi (mkItel EErrorOccurred (x_itemPtr (s1, S k)) (x_itemSize (s1, S k))) true) (s1, S k) = Some (str "xml error: " ++ before_null (sc_getItem s1)) /\
     x_itemPtr (s1, S k) <> PNull).
  { unfold x_message, ie_error, c_string, x_itemPtr, sc_getItem. cbn [xi_elem ie_type ie_content fst snd]. destruct (sc_obuf s1) as [|b l]; [split; [reflexivity|discriminate]|].
    rewrite Nat.eqb_refl. split; [reflexivity|discriminate]. }
  destruct t; unfold x_name; cbn [x_eq xi_elem ie_type x_end ie_end ie_error]; try reflexivity;
    try (rewrite name_of_ok, HR; cbn [xi_elem ie_type]; destruct (sel_element_post fs fs a _ _ sl) as [sl1 r| | | |]; cbn [omap bind fst snd]; try reflexivity;
         unfold select_all, x_postinc, x_skip, x_begin, x_next; cbn [xi_input fst snd xi_elem ie_type];
         destruct (nextItem rops cfg fuel 65535 s1); reflexivity).
  destruct HM as [HM HN]. rewrite HM. destruct (x_itemPtr (s1, S k)); [congruence| |]; reflexivity.
Qed.

Lemma select_scan : forall evs ev n fuel fs s s' k sl sl' rs put, (length evs < n)%nat -> scan rops cfg fuel (calls (S (length evs))) s = Ret s' (evs ++ [ev]) ->
  Forall (fun e => goes_on (ev_type e) = true) evs -> goes_on (ev_type ev) = false -> sel_run_post fs fs a (map visited evs) sl = Ret sl' rs ->
  select_all fuel fs n (s, k) sl put = Ret ((s', (S (length evs) + k)%nat), sl', put ++ number_lines (map visited evs) rs) (end_with ev).
Proof.
  induction evs as [|e evs IH]; intros ev n fuel fs s s' k sl sl' rs put Hn HS He Hv Hrun; (destruct n as [|n]; [cbn [length] in Hn; lia|]); rewrite select_all_step; cbn [fst snd].
  - cbn [length calls repeat scan app] in HS. destruct (nextItem rops cfg fuel mask_all s) as [s1 t| | | |] eqn:E1; cbn [bind] in HS; try discriminate.
    change 65535 with mask_all. rewrite E1. injection HS as <- <-. cbn [map sel_run_post] in Hrun. injection Hrun as <- <-. unfold number_lines. cbn [map combine flat_map]. rewrite app_nil_r. unfold end_with. cbn [observe ev_type ev_item length].
    destruct t; try discriminate Hv; reflexivity.
  - cbn [length] in *. change (calls (S (S (length evs)))) with (mask_all :: calls (S (length evs))) in HS. cbn [scan app] in HS.
    destruct (nextItem rops cfg fuel mask_all s) as [s1 t| | | |] eqn:E1; cbn [bind] in HS; try discriminate.
    destruct (scan rops cfg fuel (calls (S (length evs))) s1) as [s2 evs2| | | |] eqn:E2; cbn [bind] in HS; try discriminate. injection HS as <- <- ->.
    change 65535 with mask_all. rewrite E1. inversion He as [|? ? He1 He2]; subst. cbn [observe ev_type] in He1.
    cbn [map] in Hrun. unfold visited at 1 in Hrun. cbn [observe ev_type ev_item sel_run_post] in Hrun.
    destruct (sel_element_post fs fs a t (Some (sc_getItem s1)) sl) as [sl1 r| | | |] eqn:E3; cbn [bind] in Hrun; try discriminate.
    destruct (sel_run_post fs fs a (map visited evs) sl1) as [sl2 rs2| | | |] eqn:E4; cbn [bind] in Hrun; try discriminate. injection Hrun as <- <-.
    assert (G : select_all fuel fs n (s1, S k) sl1 (put ++ flat_map (number_line (t, sc_getItem s1)) r) =
       Ret ((s2, (S (S (length evs)) + k)%nat), sl2, put ++ number_lines (map visited (observe rops t s1 :: evs)) (r :: rs2)) (end_with ev)).
    { rewrite (IH ev n fuel fs s1 s2 (S k) sl1 sl2 rs2); [|lia|exact E2|exact He2|exact Hv|exact E4]. unfold number_lines. cbn [map combine flat_map fst snd]. rewrite <- app_assoc. unfold visited at 2. cbn [observe ev_type ev_item].
      replace (S (length evs) + S k)%nat with (S (S (length evs)) + k)%nat by lia. reflexivity. }
    destruct t; try discriminate He1; exact G.
Qed.
End Loop.
Lemma lines_numbers : forall els rs, Forall (Forall (fun z => z = 1 \/ z = 2)%Z) rs -> number_lines els rs = address_lines els rs.
Proof.
  assert (Ln : forall e r, Forall (fun z => z = 1 \/ z = 2)%Z r -> flat_map (number_line e) r = flat_map (address_line e) r).
  { intros e r H. induction H as [|z r Hz H IH]; [reflexivity|]. cbn [flat_map]. rewrite IH. destruct Hz as [-> | ->]; reflexivity. }
  unfold number_lines, address_lines. induction els as [|e els IH]; intros [|r rs] H; try reflexivity. inversion H; subst. cbn [combine flat_map fst snd]. rewrite (IH rs), (Ln e r); auto.
Qed.
