(** The beginnings of documents the header parser accepts. *)
From Verif Require Import Base XmlHdr HdrSpec HdrProofs.

Definition kern (h : hdr) : hdr := mkHdr (h_state h) (h_attr h) 0 0 0 (h_item h) [] (h_enc h) (h_err h).
Definition K (st : hstate) (a : hattr) (item enc : list N) : hdr := mkHdr st a 0 0 0 item [] enc [].
Fixpoint hz (l : list N) (h : hdr) : hdr * verdict :=
  match l with
  | [] => (h, VMore)
  | c :: l' => match h_char c h with (h2, Some b) => (h2, VRet b) | (h2, None) => hz l' h2 end
  end.
Lemma kern_char : forall c h, (kern (fst (h_char c h)), snd (h_char c h)) = (fst (h_char c (kern h)), snd (h_char c (kern h))).
Proof.
  intros c h. unfold h_char, h_fail. cbn [kern h_state h_item h_attr]. destruct (h_state h);
    repeat match goal with |- context[if ?b then _ else _] => destruct b end; cbn; try reflexivity;
    try (destruct (h_attr h)); reflexivity.
Qed.
Lemma hb_hz : forall l h, Forall (fun c => c <> 0) l -> kern (fst (hb l h)) = fst (hz l (kern h)) /\ snd (hb l h) = snd (hz l (kern h)).
Proof.
  induction l as [|c l IH]; intros h H; [cbn; auto|]. inversion H as [|? ? H1 H2]; subst. cbn [hb hz]. rewrite (proj2 (N.eqb_neq _ _) H1).
  pose proof (kern_char c (h_count c (h_skip h))) as E. replace (kern (h_count c (h_skip h))) with (kern h) in E by (destruct h; reflexivity).
  destruct (h_char c (h_count c (h_skip h))) as [h2 r2]. destruct (h_char c (kern h)) as [h3 r3]. cbn [fst snd] in E. injection E as <- <-. destruct r2; [cbn; auto|]. apply IH. exact H2.
Qed.
Lemma hz_app : forall a b h, hz (a ++ b) h = match hz a h with (h1, VMore) => hz b h1 | x => x end.
Proof. induction a as [|c a IH]; intros b h; [reflexivity|]. cbn [app hz]. destruct (h_char c h) as [h2 [x|]]; [reflexivity|apply IH]. Qed.

(** ** What is accepted has the form required *)
Lemma alpha_letter : forall c, h_alpha c = true -> h_letter c.
Proof.
  intros c H. unfold h_alpha in H. destruct (N.ltb_spec c 256) as [Hc|Hc].
  - assert (S : forallb (fun c => implb (h_alpha c) ((65 <=? c) && (c <=? 90) || (97 <=? c) && (c <=? 122) || (c =? 95))) (map N.of_nat (seq 0 256)) = true) by (vm_compute; reflexivity).
    rewrite forallb_forall in S. specialize (S c). assert (I : In c (map N.of_nat (seq 0 256))) by (apply in_map_iff; exists (N.to_nat c); split; [lia|apply in_seq; lia]).
    specialize (S I). unfold h_alpha in S at 1. rewrite H in S. cbn [implb] in S. unfold h_letter. lia.
  - exfalso. assert (c <= N.lor c 32) by (apply N.ldiff_le; apply N.bits_inj; intros n; rewrite N.ldiff_spec, N.lor_spec, N.bits_0; destruct (N.testbit c n); reflexivity). lia.
Qed.
Lemma letter_alpha : forall c, h_letter c -> h_alpha c = true.
Proof.
  intros c H. assert (Hc : c < 256) by (unfold h_letter in H; lia).
  assert (S : forallb (fun c => implb ((65 <=? c) && (c <=? 90) || (97 <=? c) && (c <=? 122) || (c =? 95)) (h_alpha c)) (map N.of_nat (seq 0 256)) = true) by (vm_compute; reflexivity).
  rewrite forallb_forall in S. specialize (S c). assert (I : In c (map N.of_nat (seq 0 256))) by (apply in_map_iff; exists (N.to_nat c); split; [lia|apply in_seq; lia]).
  specialize (S I). replace ((65 <=? c) && (c <=? 90) || (97 <=? c) && (c <=? 122) || (c =? 95)) with true in S by (unfold h_letter in H; lia). exact S.
Qed.
Lemma bytes_eqb_eq : forall a b, bytes_eqb a b = true <-> a = b.
Proof.
  induction a as [|x a IH]; intros [|y b]; cbn; split; intros H; try discriminate; try reflexivity.
  - apply andb_true_iff in H. destruct H as [H1 H2]. apply N.eqb_eq in H1. apply IH in H2. congruence.
  - injection H as -> ->. rewrite N.eqb_refl. cbn. apply IH. reflexivity.
Qed.

(** the text in front of the attributes *)
Definition front (p : list N) : Prop := exists ws1 ws2 c, Forall h_ws ws1 /\ Forall h_ws ws2 /\ h_ws c /\ p = ws1 ++ 60 :: ws2 ++ str "?xml" ++ [c].
(** [between p e]: the text up to a place behind an attribute; [e]: the encoding *)
Definition between (p e : list N) : Prop := exists f attrs, front f /\ Forall ha_ok attrs /\ p = f ++ flat_map ha_src attrs /\ e = enc_of [] attrs.
Definition inv (p : list N) (h : hdr) : Prop :=
  h_err h = [] /\
  match h_state h with
  | HInit => Forall h_ws p /\ h_item h = [] /\ h_enc h = []
  | HXmlOpen => (exists ws1 ws2, Forall h_ws ws1 /\ Forall h_ws ws2 /\ p = ws1 ++ 60 :: ws2) /\ h_item h = [] /\ h_enc h = []
  | HXmlHdr => (exists ws1 ws2, Forall h_ws ws1 /\ Forall h_ws ws2 /\ p = ws1 ++ 60 :: ws2 ++ 63 :: h_item h) /\ h_enc h = []
  | HFindName => (exists q ws, between q (h_enc h) /\ Forall h_ws ws /\ p = q ++ ws) /\ h_item h = []
  | HName => exists q ws, between q (h_enc h) /\ Forall h_ws ws /\ p = q ++ ws ++ h_item h
  | HFindAssign => (exists q ws ws1, between q (h_enc h) /\ Forall h_ws ws /\ Forall h_ws ws1 /\ p = q ++ ws ++ attr_name (h_attr h) ++ ws1) /\ h_item h = []
  | HFindValue => (exists q ws ws1 ws2, between q (h_enc h) /\ Forall h_ws ws /\ Forall h_ws ws1 /\ Forall h_ws ws2 /\
                   p = q ++ ws ++ attr_name (h_attr h) ++ ws1 ++ 61 :: ws2) /\ h_item h = []
  | HValueSq | HValueDq => exists q ws ws1 ws2 qc, between q (h_enc h) /\ Forall h_ws ws /\ Forall h_ws ws1 /\ Forall h_ws ws2 /\
                   qc = match h_state h with HValueSq => 39 | _ => 34 end /\ Forall (fun c => c <> qc) (h_item h) /\
                   p = q ++ ws ++ attr_name (h_attr h) ++ ws1 ++ 61 :: ws2 ++ qc :: h_item h
  end.

Ltac appeq := subst; repeat (first [rewrite <- app_assoc | progress (cbn [app])]); reflexivity.
Lemma ws_snoc : forall ws c, Forall h_ws ws -> h_ws c -> Forall h_ws (ws ++ [c]).
Proof. intros. rewrite Forall_app. auto. Qed.
Lemma enc_app : forall l a e, enc_of e (l ++ [a]) = match ha_kind a with HEncoding => ha_val a | _ => enc_of e l end.
Proof. induction l as [|b l IH]; intros a e; [reflexivity|]. cbn [app enc_of]. rewrite IH. reflexivity. Qed.
Lemma between_snoc : forall q e a, between q e -> ha_ok a -> between (q ++ ha_src a) (match ha_kind a with HEncoding => ha_val a | _ => e end).
Proof.
  intros q e a [f [attrs [H1 [H2 [H3 H4]]]]] Ha. exists f, (attrs ++ [a]). split; [exact H1|]. split; [rewrite Forall_app; auto|]. split.
  - rewrite flat_map_app. cbn [flat_map]. rewrite app_nil_r. subst q. rewrite app_assoc. reflexivity.
  - rewrite enc_app. subst e. reflexivity.
Qed.

Lemma inv_step : forall c p h h' r, c <> 0 -> inv p h -> h_char c h = (h', r) ->
  match r with None => inv (p ++ [c]) h' | Some true => xml_start (p ++ [c]) (nonempty (h_enc h')) /\ h_err h' = [] | Some false => True end.
Proof.
  intros c p [st a idx n z item src enc err] h' r Hc [He H] E. unfold h_char, h_fail in E. cbn [h_state h_item h_attr h_enc h_err] in *. subst err.
  destruct st.
  - (* HInit *) destruct H as [H1 [-> ->]]. destruct (N.eqb_spec c 60); [|destruct (N.leb_spec c 32)]; injection E as <- <-; [| |exact I].
    + split; [reflexivity|]. cbn. split; [|auto]. exists p, []. subst c. auto.
    + split; [reflexivity|]. cbn. split; [|auto]. apply ws_snoc; [exact H1|unfold h_ws; lia].
  - (* HXmlOpen *) destruct H as [[ws1 [ws2 [H1 [H2 ->]]]] [-> ->]]. destruct (N.eqb_spec c 63); [|destruct (N.leb_spec c 32); [|destruct (h_alpha c) eqn:Ea]]; injection E as <- <-; [| | |exact I].
    + split; [reflexivity|]. cbn. split; [|reflexivity]. exists ws1, ws2. subst c. split; [exact H1|]. split; [exact H2|]. appeq.
    + split; [reflexivity|]. cbn. split; [|auto]. exists ws1, (ws2 ++ [c]). split; [exact H1|]. split; [apply ws_snoc; [exact H2|unfold h_ws; lia]|]. appeq.
    + cbn. split; [|reflexivity]. apply alpha_letter in Ea. rewrite <- app_assoc. cbn [app]. apply start_tag; assumption.
  - (* HXmlHdr *) destruct H as [[ws1 [ws2 [H1 [H2 ->]]]] ->].
    destruct ((c <=? 32) || (c =? 63)) eqn:Ew; [destruct (bytes_eqb item (str "xml")) eqn:Ei; cbn [negb] in E|].
    + apply bytes_eqb_eq in Ei. destruct (N.eqb_spec c 63); injection E as <- <-.
      * cbn. split; [|reflexivity]. subst c item. replace ((ws1 ++ 60 :: ws2 ++ 63 :: str "xml") ++ [63]) with (ws1 ++ 60 :: ws2 ++ str "?xml?") by appeq. apply start_empty; assumption.
      * split; [reflexivity|]. cbn. split; [|reflexivity]. exists ((ws1 ++ 60 :: ws2 ++ 63 :: item) ++ [c]), []. split; [|split; [constructor|rewrite app_nil_r; reflexivity]].
        exists ((ws1 ++ 60 :: ws2 ++ 63 :: item) ++ [c]), []. split; [|split; [constructor|split; [cbn; rewrite app_nil_r; reflexivity|reflexivity]]].
        exists ws1, ws2, c. split; [exact H1|]. split; [exact H2|]. split; [unfold h_ws; lia|]. appeq.
    + injection E as <- <-. exact I.
    + destruct (h_alpha c); [|destruct (c =? 62)]; injection E as <- <-; [|exact I|exact I]. split; [reflexivity|]. cbn. split; [|reflexivity]. exists ws1, ws2. split; [exact H1|]. split; [exact H2|]. appeq.
  - (* HFindName *) destruct H as [[q [ws [H1 [H2 ->]]]] ->]. destruct (N.leb_spec c 32); [|destruct ((c =? 62) || (c =? 63)) eqn:E1; [destruct (c =? 62) eqn:E2|destruct (h_alpha c)]]; injection E as <- <-; try exact I.
    + split; [reflexivity|]. cbn. split; [|reflexivity]. exists q, (ws ++ [c]). split; [exact H1|]. split; [apply ws_snoc; [exact H2|unfold h_ws; lia]|]. appeq.
    + cbn. split; [|reflexivity]. destruct H1 as [f [attrs [F1 [F2 [F3 F4]]]]]. destruct F1 as [ws1 [ws2 [cw [G1 [G2 [G3 G4]]]]]]. replace c with 63 by lia. subst enc.
      replace ((q ++ ws) ++ [63]) with (ws1 ++ 60 :: ws2 ++ str "?xml" ++ cw :: flat_map ha_src attrs ++ ws ++ [63]) by appeq. apply start_hdr; assumption.
    + split; [reflexivity|]. cbn. exists q, ws. split; [exact H1|]. split; [exact H2|]. appeq.
  - (* HName *) destruct H as [q [ws [H1 [H2 ->]]]]. destruct ((c <=? 32) || (c =? 61)) eqn:Ew.
    + assert (G : forall k, (let h0 := h_clearItem (h_setAttr k (mkHdr HName a idx n z item src enc [])) in if c =? 61 then (h_to HFindValue h0, None) else (h_to HFindAssign h0, None)) = (h', r) ->
        item = attr_name k -> match r with None => inv ((q ++ ws ++ item) ++ [c]) h' | Some true => xml_start ((q ++ ws ++ item) ++ [c]) (nonempty (h_enc h')) /\ h_err h' = [] | Some false => True end).
      { intros k E' Ek. cbn zeta in E'. destruct (N.eqb_spec c 61); injection E' as <- <-; (split; [reflexivity|]); cbn; (split; [|reflexivity]).
        - exists q, ws, [], []. subst c item. repeat (split; [assumption || constructor|]). appeq.
        - exists q, ws, [c]. repeat (split; [assumption|]). split; [constructor; [unfold h_ws; lia|constructor]|]. subst item. appeq. }
      destruct (bytes_eqb item (str "encoding")) eqn:B1; [apply (G HEncoding E); apply bytes_eqb_eq; exact B1|].
      destruct (bytes_eqb item (str "version")) eqn:B2; [apply (G HVersion E); apply bytes_eqb_eq; exact B2|].
      destruct (bytes_eqb item (str "standalone")) eqn:B3; [apply (G HStandalone E); apply bytes_eqb_eq; exact B3|]. injection E as <- <-. exact I.
    + destruct (h_alpha c); injection E as <- <-; [|exact I]. split; [reflexivity|]. cbn. exists q, ws. split; [exact H1|]. split; [exact H2|]. appeq.
  - (* HFindAssign *) destruct H as [[q [ws [ws1 [H1 [H2 [H3 ->]]]]]] ->]. destruct (N.eqb_spec c 61); [|destruct (N.leb_spec c 32)]; injection E as <- <-; [| |exact I]; (split; [reflexivity|]); cbn; (split; [|reflexivity]).
    + exists q, ws, ws1, []. repeat (split; [assumption || constructor|]). appeq.
    + exists q, ws, (ws1 ++ [c]). repeat (split; [assumption|]). split; [apply ws_snoc; [exact H3|unfold h_ws; lia]|]. appeq.
  - (* HFindValue *) destruct H as [[q [ws [ws1 [ws2 [H1 [H2 [H3 [H4 ->]]]]]]]] ->]. destruct (N.eqb_spec c 34); [|destruct (N.eqb_spec c 39); [|destruct (N.leb_spec c 32)]]; injection E as <- <-; [| | |exact I]; (split; [reflexivity|]); cbn.
    + exists q, ws, ws1, ws2, 34. repeat (split; [assumption || constructor|]). appeq.
    + exists q, ws, ws1, ws2, 39. repeat (split; [assumption || constructor|]). appeq.
    + split; [|reflexivity]. exists q, ws, ws1, (ws2 ++ [c]). repeat (split; [assumption|]). split; [apply ws_snoc; [exact H4|unfold h_ws; lia]|]. appeq.
  - (* HValueSq *) destruct H as [q [ws [ws1 [ws2 [qc [H1 [H2 [H3 [H4 [H5 [H6 ->]]]]]]]]]]]. destruct (N.eqb_spec c 39) as [Eq|Eq]; injection E as <- <-; (split; [destruct a; reflexivity|]).
    + pose proof (between_snoc q enc (mkHa ws a ws1 ws2 39 item) H1) as B. assert (Hok : ha_ok (mkHa ws a ws1 ws2 39 item)) by (subst qc; unfold ha_ok; cbn; auto 10). specialize (B Hok).
      cbn. destruct a; cbn [h_attr h_to h_clearItem h_setEnc h_state h_item h_enc h_err]; (split; [|reflexivity]);
      match type of B with between ?x _ => exists x, [] end; (split; [exact B|]); (split; [apply Forall_nil|]);  unfold ha_src; cbn [ha_pre ha_kind ha_ws1 ha_ws2 ha_q ha_val]; rewrite app_nil_r; appeq.
    + cbn. exists q, ws, ws1, ws2, 39. subst qc. repeat (split; [assumption || reflexivity|]). split; [rewrite Forall_app; auto|]. appeq.
  - (* HValueDq *) destruct H as [q [ws [ws1 [ws2 [qc [H1 [H2 [H3 [H4 [H5 [H6 ->]]]]]]]]]]]. destruct (N.eqb_spec c 34) as [Eq|Eq]; injection E as <- <-; (split; [destruct a; reflexivity|]).
    + pose proof (between_snoc q enc (mkHa ws a ws1 ws2 34 item) H1) as B. assert (Hok : ha_ok (mkHa ws a ws1 ws2 34 item)) by (subst qc; unfold ha_ok; cbn; auto 10). specialize (B Hok).
      cbn. destruct a; cbn [h_attr h_to h_clearItem h_setEnc h_state h_item h_enc h_err]; (split; [|reflexivity]);
      match type of B with between ?x _ => exists x, [] end; (split; [exact B|]); (split; [apply Forall_nil|]);  unfold ha_src; cbn [ha_pre ha_kind ha_ws1 ha_ws2 ha_q ha_val]; rewrite app_nil_r; appeq.
    + cbn. exists q, ws, ws1, ws2, 34. subst qc. repeat (split; [assumption || reflexivity|]). split; [rewrite Forall_app; auto|]. appeq.
Qed.

Lemma inv_run : forall l p h h', Forall (fun c => c <> 0) l -> inv p h -> hz l h = (h', VRet true) ->
  exists s c r h1, l = s ++ c :: r /\ xml_start (p ++ s ++ [c]) (nonempty (h_enc h')) /\ h_err h' = [] /\ hz s h = (h1, VMore) /\ h_char c h1 = (h', Some true).
Proof.
  induction l as [|c l IH]; intros p h h' Hl Hi E; [discriminate E|]. inversion Hl as [|? ? H1 H2]; subst. cbn [hz] in E.
  destruct (h_char c h) as [h2 r2] eqn:Ec. pose proof (inv_step c p h h2 r2 H1 Hi Ec) as S. destruct r2 as [b|].
  - injection E as -> ->. exists [], c, l, h. destruct S as [S1 S2]. repeat (split; [assumption || reflexivity|]). exact Ec.
  - destruct (IH (p ++ [c]) h2 h' H2 S E) as [s [c' [r [h1 [E1 [E2 [E3 [E4 E5]]]]]]]]. exists (c :: s), c', r, h1. rewrite <- app_assoc in E2. cbn [app] in E2. subst l.
    split; [reflexivity|]. split; [exact E2|]. split; [exact E3|]. cbn [hz]. rewrite Ec. split; [exact E4|exact E5].
Qed.

(** ** What has the form required is accepted *)
Definition skips (st : hstate) : Prop := match st with HInit | HXmlOpen | HFindName | HFindAssign | HFindValue => True | _ => False end.
Lemma hz_ws : forall ws l st a item enc, skips st -> Forall h_ws ws -> hz (ws ++ l) (K st a item enc) = hz l (K st a item enc).
Proof.
  induction ws as [|c ws IH]; intros l st a item enc Hs H; [reflexivity|]. inversion H as [|? ? H1 H2]; subst. cbn [app hz].
  replace (h_char c (K st a item enc)) with (K st a item enc, @None bool); [apply IH; assumption|].
  unfold h_char, K. cbn [h_state]. unfold h_ws in H1. assert (B : forall x, 32 < x -> (c =? x) = false) by (intros; apply N.eqb_neq; lia).
  assert (W : (c <=? 32) = true) by lia. destruct st; try contradiction; rewrite ?W, ?B by lia; reflexivity.
Qed.
Lemma hz_name : forall w l a i enc, Forall h_letter w -> hz (w ++ l) (K HName a i enc) = hz l (K HName a (i ++ w) enc).
Proof.
  induction w as [|c w IH]; intros l a i enc H; [rewrite app_nil_r; reflexivity|]. inversion H as [|? ? H1 H2]; subst. cbn [app hz].
  unfold h_char, K. cbn [h_state]. rewrite (letter_alpha _ H1). replace ((c <=? 32) || (c =? 61)) with false by (unfold h_letter in H1; lia).
  unfold h_push. cbn [h_state h_attr h_idx h_consumed h_zero h_item h_src h_enc h_err]. fold (K HName a (i ++ [c]) enc). rewrite IH by exact H2. rewrite <- app_assoc. reflexivity.
Qed.
Lemma hz_value : forall v l st q a i enc, (st = HValueSq /\ q = 39 \/ st = HValueDq /\ q = 34) -> Forall (fun c => c <> q) v ->
  hz (v ++ l) (K st a i enc) = hz l (K st a (i ++ v) enc).
Proof.
  induction v as [|c v IH]; intros l st q a i enc Hq H; [rewrite app_nil_r; reflexivity|]. inversion H as [|? ? H1 H2]; subst. cbn [app hz].
  unfold h_char, K. cbn [h_state].
  assert (E : match st with HValueSq | HValueDq => if c =? (match st with HValueSq => 39 | _ => 34 end) then true else false | _ => true end = false).
  { destruct Hq as [[-> ->]|[-> ->]]; rewrite (proj2 (N.eqb_neq _ _) H1); reflexivity. }
  destruct Hq as [[-> ->]|[-> ->]]; rewrite (proj2 (N.eqb_neq _ _) H1); unfold h_push; cbn [h_state h_attr h_idx h_consumed h_zero h_item h_src h_enc h_err].
  - fold (K HValueSq a (i ++ [c]) enc). rewrite (IH _ _ 39) by auto. rewrite <- app_assoc. reflexivity.
  - fold (K HValueDq a (i ++ [c]) enc). rewrite (IH _ _ 34) by auto. rewrite <- app_assoc. reflexivity.
Qed.
Lemma hz_attr : forall s l a0 enc, ha_ok s ->
  hz (ha_src s ++ l) (K HFindName a0 [] enc) = hz l (K HFindName (ha_kind s) [] (match ha_kind s with HEncoding => ha_val s | _ => enc end)).
Proof.
  intros [pre k ws1 ws2 q v] l a0 enc [H1 [H2 [H3 [H4 H5]]]]. unfold ha_src. cbn [ha_pre ha_kind ha_ws1 ha_ws2 ha_q ha_val] in *.
  repeat rewrite <- app_assoc. rewrite hz_ws by (exact I || exact H1).
  assert (S1 : forall r, hz (attr_name k ++ r) (K HFindName a0 [] enc) = hz r (K HName a0 (attr_name k) enc)) by (intros r; destruct k; vm_compute; reflexivity).
  rewrite S1. clear S1.
  assert (S2 : forall r, hz (ws1 ++ 61 :: r) (K HName a0 (attr_name k) enc) = hz r (K HFindValue k [] enc)).
  { intros r. destruct ws1 as [|c ws1].
    - destruct k; vm_compute; reflexivity.
    - inversion H2 as [|? ? Hc Hw]; subst. cbn [app hz]. unfold h_char, K. cbn [h_state h_item]. unfold h_ws in Hc. replace ((c <=? 32) || (c =? 61)) with true by lia.
      replace (c =? 61) with false by lia. destruct k; cbn [attr_name]; (change (bytes_eqb (str "encoding") (str "encoding")) with true || idtac);
      repeat match goal with |- context[bytes_eqb ?x ?y] => let b := eval vm_compute in (bytes_eqb x y) in change (bytes_eqb x y) with b end; cbn iota; unfold h_to, h_clearItem, h_setAttr; cbn [h_state h_attr h_idx h_consumed h_zero h_item h_src h_enc h_err];
      match goal with |- context[mkHdr HFindAssign ?a _ _ _ _ _ _ _] => change (hz (ws1 ++ 61 :: r) (K HFindAssign a [] enc) = hz r (K HFindValue a [] enc)) end; rewrite hz_ws by (exact I || exact Hw); reflexivity. }
  cbn [app]. rewrite S2. clear S2. rewrite <- app_assoc. rewrite hz_ws by (exact I || exact H3). cbn [app].
  destruct H4 as [-> | ->].
  - cbn [hz]. change (h_char 34 (K HFindValue k [] enc)) with (K HValueDq k [] enc, @None bool). cbn iota. rewrite <- app_assoc. rewrite (hz_value _ _ _ 34) by auto. destruct k; reflexivity.
  - cbn [hz]. change (h_char 39 (K HFindValue k [] enc)) with (K HValueSq k [] enc, @None bool). cbn iota. rewrite <- app_assoc. rewrite (hz_value _ _ _ 39) by auto. destruct k; reflexivity.
Qed.
Lemma hz_attrs : forall attrs l a0 enc, Forall ha_ok attrs -> exists a1, hz (flat_map ha_src attrs ++ l) (K HFindName a0 [] enc) = hz l (K HFindName a1 [] (enc_of enc attrs)).
Proof.
  induction attrs as [|s attrs IH]; intros l a0 enc H; [exists a0; reflexivity|]. inversion H as [|? ? H1 H2]; subst. cbn [flat_map enc_of]. rewrite <- app_assoc. rewrite hz_attr by exact H1. apply IH. exact H2.
Qed.
Lemma hz_start : forall s e, xml_start s e -> exists s' c h1 h, s = s' ++ [c] /\ hz s' (kern h_new) = (h1, VMore) /\ h_char c h1 = (h, Some true) /\ nonempty (h_enc h) = e /\ h_err h = [].
Proof.
  assert (W1 : forall ws1 ws2 l, Forall h_ws ws1 -> Forall h_ws ws2 -> hz (ws1 ++ 60 :: ws2 ++ l) (kern h_new) = hz l (K HXmlOpen HEncoding [] [])).
  { intros ws1 ws2 l H1 H2. change (kern h_new) with (K HInit HEncoding [] []). rewrite hz_ws by (exact I || exact H1). cbn [hz].
    change (h_char 60 (K HInit HEncoding [] [])) with (K HXmlOpen HEncoding [] [], @None bool). cbn iota. rewrite hz_ws by (exact I || exact H2). reflexivity. }
  intros s e [ws1 ws2 c H1 H2 H3|ws1 ws2 H1 H2|ws1 ws2 c attrs ws3 H1 H2 H3 H4 H5].
  - exists (ws1 ++ 60 :: ws2 ++ []), c. do 2 eexists. split; [rewrite app_nil_r, <- app_assoc; reflexivity|]. rewrite W1 by assumption. split; [reflexivity|].
    split; [unfold h_char, K; cbn [h_state]; rewrite (letter_alpha _ H3); replace (c =? 63) with false by (unfold h_letter in H3; lia); replace (c <=? 32) with false by (unfold h_letter in H3; lia); reflexivity|split; reflexivity].
  - exists (ws1 ++ 60 :: ws2 ++ str "?xml"), 63. do 2 eexists. split; [appeq|]. rewrite W1 by assumption. split; [vm_compute; reflexivity|]. split; [vm_compute; reflexivity|]. split; reflexivity.
  - exists (ws1 ++ 60 :: ws2 ++ str "?xml" ++ c :: flat_map ha_src attrs ++ ws3), 63.
    assert (S : forall r, hz (str "?xml" ++ r) (K HXmlOpen HEncoding [] []) = hz r (K HXmlHdr HEncoding (str "xml") [])) by (intros r; vm_compute; reflexivity).
    destruct (hz_attrs attrs (ws3 ++ []) HEncoding [] H4) as [a1 E]. do 2 eexists. split; [appeq|]. split.
    { rewrite W1 by assumption. rewrite S. cbn [hz]. unfold h_char at 1. cbn [K h_state h_item]. unfold h_ws in H3. replace ((c <=? 32) || (c =? 63)) with true by lia. replace (c =? 63) with false by lia.
    change (bytes_eqb (str "xml") (str "xml")) with true. cbn [negb]. cbn iota. change (h_to HFindName (h_clearItem (K HXmlHdr HEncoding (str "xml") []))) with (K HFindName HEncoding [] []).
    rewrite app_nil_r in E. rewrite E. rewrite <- (app_nil_r ws3). rewrite hz_ws by (exact I || exact H5). reflexivity. }
    split; [reflexivity|]. split; reflexivity.
Qed.

(** ** The number of characters *)
Lemma chars_more : forall l h h', Forall (fun c => c <> 0) l -> hb l h = (h', VMore) -> h_consumed h' = (h_consumed h + visible l)%nat.
Proof.
  unfold visible. induction l as [|c l IH]; intros h h' H E; cbn [hb] in E; [injection E as <-; cbn; lia|]. inversion H as [|? ? H1 H2]; subst. rewrite (proj2 (N.eqb_neq _ _) H1) in E.
  pose proof (h_char_keep c (h_count c (h_skip h))) as Kp. destruct (h_char c (h_count c (h_skip h))) as [h2 [x|]]; [discriminate E|]. cbn in Kp. destruct Kp as [_ [_ [_ Kp]]].
  rewrite (IH _ _ H2 E), Kp. cbn [filter]. destruct (32 <? c); cbn [length]; lia.
Qed.

(** ** Exactness *)
Lemma hb_cut : forall s c r h h1 h2, Forall (fun c => c <> 0) s -> c <> 0 -> hz s (kern h) = (h1, VMore) -> h_char c h1 = (h2, Some true) ->
  exists h', hb (s ++ c :: r) h = (h', VRet true) /\ kern h' = h2 /\ h_consumed h' = (h_consumed h + visible (s ++ [c]))%nat.
Proof.
  intros s c r h h1 h2 Hs Hc E1 E2. destruct (hb_hz s h Hs) as [B1 B2]. rewrite E1 in B1, B2. cbn [fst snd] in *. destruct (hb s h) as [h3 v3] eqn:E3. cbn [fst snd] in *. subst v3.
  rewrite hb_app, E3. cbn [hb]. rewrite (proj2 (N.eqb_neq _ _) Hc). pose proof (kern_char c (h_count c (h_skip h3))) as E. replace (kern (h_count c (h_skip h3))) with (kern h3) in E by (destruct h3; reflexivity).
  rewrite B1, E2 in E. pose proof (h_char_keep c (h_count c (h_skip h3))) as Kp. destruct (h_char c (h_count c (h_skip h3))) as [h4 r4]. cbn [fst snd] in *. injection E as E ->. exists h4. split; [reflexivity|]. split; [exact E|].
  destruct Kp as [_ [_ [_ Kp]]]. rewrite Kp. cbn [h_count h_consumed h_skip]. rewrite (chars_more _ _ _ Hs E3). unfold visible. rewrite filter_app, app_length. cbn [filter]. destruct (32 <? c); cbn [length]; lia.
Qed.
Theorem hdr_exact : forall text e n, Forall (fun c => c <> 0) text ->
  (h_view (h_feed [text] h_new) = Some (Some true, e, None, n) <-> exists start rest, text = start ++ rest /\ xml_start start e /\ n = visible start).
Proof.
  intros text e n Hz. rewrite feed_hb by (cbn; lia || reflexivity). cbn [concat]. rewrite app_nil_r. split.
  - intros E. destruct (hb_hz text h_new Hz) as [B1 B2]. destruct (hb text h_new) as [h v] eqn:Eb. destruct v as [|[|]|]; try discriminate E.
    injection E as E1 E2 E3. destruct (hz text (kern h_new)) as [h' v'] eqn:Ez. cbn [fst snd] in *. subst v' h'.
    destruct (inv_run text [] (kern h_new) (kern h) Hz) as [s [c [r [h1 [F1 [F2 [F3 [F4 F5]]]]]]]]; [split; [reflexivity|]; cbn; auto|exact Ez|]. subst text. rewrite Forall_app in Hz. destruct Hz as [Hs Hc]. inversion Hc; subst.
    destruct (hb_cut s c r h_new h1 (kern h) Hs ltac:(assumption) F4 F5) as [h2 [G1 [G2 G3]]]. rewrite Eb in G1. injection G1 as <-.
    exists (s ++ [c]), r. split; [rewrite <- app_assoc; reflexivity|]. cbn [app] in F2. split; [|exact G3]. replace (h_encoding h) with (nonempty (h_enc (kern h))) by (unfold h_encoding; cbn; destruct (h_enc h); reflexivity). exact F2.
  - intros [start [rest [-> [H ->]]]]. destruct (hz_start _ _ H) as [s' [c [h1 [h2 [-> [E1 [E2 [E3 E4]]]]]]]]. rewrite <- app_assoc in *. cbn [app] in *. rewrite Forall_app in Hz. destruct Hz as [Hs Hc]. inversion Hc; subst.
    destruct (hb_cut s' c rest h_new h1 h2 Hs ltac:(assumption) E1 E2) as [h' [G1 [G2 G3]]]. rewrite G1. unfold vview. cbn [hout h_view]. unfold h_chars. rewrite G3. unfold h_lasterror.
    replace (h_err h') with (h_err h2) by (subst h2; reflexivity). rewrite E4. unfold h_encoding. replace (h_enc h') with (h_enc h2) by (subst h2; reflexivity). destruct (h_enc h2); reflexivity.
Qed.
