(** Properties of the header parser: C30-C32, C49-C51. *)
From Verif Require Import Base CharMap Charset CharsetSpec XmlHdr HdrSpec HdrProofs HdrExact.

(** ** C30: chunks. The parser always comes to a result. *)
Theorem C30_chunks : forall chunks, h_view (h_feed chunks h_new) = h_view (h_feed [concat chunks] h_new).
Proof. intros chunks. rewrite !feed_hb by (cbn; lia || reflexivity). cbn [concat]. rewrite app_nil_r. reflexivity. Qed.
Print Assumptions C30_chunks.
Theorem C30_total : forall chunks, h_view (h_feed chunks h_new) <> None.
Proof. intros chunks. rewrite feed_hb by (cbn; lia || reflexivity). unfold vview. destruct (hb (concat chunks) h_new) as [h [|b|]]; discriminate. Qed.
Print Assumptions C30_total.
Example C30_case : h_view (h_feed [str "<?x"; []; str "ml encod"; str "ing='u"; str "tf-8'"; str "?><a>"] h_new) = Some (Some true, Some (str "utf-8"), None, 22%nat).
Proof. vm_compute. reflexivity. Qed.

(** ** C31: null bytes between the characters *)
Theorem C31_width : forall text bytes, padded text bytes -> h_view (h_feed [bytes] h_new) = h_view (h_feed [text] h_new).
Proof.
  intros text bytes H. rewrite !feed_hb by (cbn; lia || reflexivity). cbn [concat]. rewrite !app_nil_r. symmetry. apply vview_eq; apply padded_hb; auto; reflexivity.
Qed.
Print Assumptions C31_width.

Definition zeros_around (cs : charset) : nat * nat :=
  match cs with
  | UTF8 | IsoLatin _ => (0, 0)%nat
  | UTF16 true | UCS2 true => (1, 0)%nat | UTF16 false | UCS2 false => (0, 1)%nat
  | UCS4 true => (3, 0)%nat | UCS4 false => (0, 3)%nat
  end.
Lemma encode_ascii : forall cs c, 0 < c < 128 -> spec_encode cs c = repeat 0 (fst (zeros_around cs)) ++ c :: repeat 0 (snd (zeros_around cs)).
Proof.
  intros cs c Hc. assert (I : In c (map N.of_nat (seq 0 128))) by (apply in_map_iff; exists (N.to_nat c); split; [lia|apply in_seq; lia]).
  assert (S : forall cs', (match cs' with IsoLatin _ => False | _ => True end) ->
    forallb (fun c => bytes_eqb (spec_encode cs' c) (repeat 0 (fst (zeros_around cs')) ++ c :: repeat 0 (snd (zeros_around cs')))) (map N.of_nat (seq 0 128)) = true).
  { intros cs' H. destruct cs' as [|[]|[]|[]|p]; try contradiction; vm_compute; reflexivity. }
  destruct cs as [|be|be|be|p].
  5: { cbn [spec_encode zeros_around fst snd repeat app]. replace (c <? 128) with true by lia. reflexivity. }
  all: match goal with |- spec_encode ?cs _ = _ => specialize (S cs) end; rewrite forallb_forall in S; apply bytes_eqb_eq; apply S; auto.
Qed.
Lemma encode_padded : forall cs text j, Forall (fun c => 0 < c < 128) text -> (j + fst (zeros_around cs) <= 3)%nat -> padded text (repeat 0 j ++ flat_map (spec_encode cs) text).
Proof.
  intros cs. assert (Hz : (fst (zeros_around cs) + snd (zeros_around cs) <= 3)%nat) by (destruct cs as [|[]|[]|[]|p]; cbn; lia).
  induction text as [|c text IH]; intros j H Hj.
  - cbn [flat_map]. rewrite app_nil_r. constructor. lia.
  - inversion H as [|? ? H1 H2]; subst. cbn [flat_map]. rewrite encode_ascii by exact H1. rewrite <- app_assoc. cbn [app]. rewrite app_assoc, <- repeat_app. constructor; [lia|lia|]. apply IH; [exact H2|lia].
Qed.
(** ASCII text in any character set *)
Theorem C31_charsets : forall cs text, Forall (fun c => 0 < c < 128) text ->
  h_view (h_feed [flat_map (spec_encode cs) text] h_new) = h_view (h_feed [text] h_new).
Proof. intros cs text H. apply C31_width. apply (encode_padded cs text 0%nat); [exact H|]. destruct cs as [|[]|[]|[]|p]; cbn; lia. Qed.
Print Assumptions C31_charsets.
Example C31_case : h_view (h_feed [flat_map (spec_encode (UCS4 false)) (str "<?xml encoding='ucs4'?>")] h_new) = Some (Some true, Some (str "ucs4"), None, 21%nat) /\
  h_view (h_feed [str "<?xml" ++ repeat 0 4] h_new) = Some (None, None, None, 5%nat).
Proof. split; vm_compute; reflexivity. Qed.

(** ** C32: exactly the beginnings of documents are accepted, for every width of characters and in chunks, with their encoding *)
Theorem C32_exact : forall text chunks e n, padded text (concat chunks) ->
  (h_view (h_feed chunks h_new) = Some (Some true, e, None, n) <-> exists start rest, text = start ++ rest /\ xml_start start e /\ n = visible start).
Proof.
  intros text chunks e n H. rewrite C30_chunks, (C31_width text) by exact H. apply hdr_exact.
  assert (G : forall a b, padded a b -> Forall (fun c => c <> 0) a) by (induction 1; constructor; assumption). exact (G _ _ H).
Qed.
Print Assumptions C32_exact.
Example C32_case : xml_start (str "<?xml version='1.0' encoding = ""x"" standalone='yes' ?") (Some (str "x")) /\
  h_view (h_feed [flat_map (spec_encode (UTF16 true)) (str "<?xml version='1.0' encoding = ""x"" standalone='yes' ?><a>")] h_new) = Some (Some true, Some (str "x"), None, 47%nat).
Proof.
  split; [|vm_compute; reflexivity].
  pose proof (start_hdr [] [] 32 [mkHa [] HVersion [] [] 39 (str "1.0"); mkHa [32] HEncoding [32] [32] 34 (str "x"); mkHa [32] HStandalone [] [] 39 (str "yes")] [32]) as H.
  assert (W : Forall h_ws [32]) by (constructor; [unfold h_ws; lia|constructor]).
  apply H; [constructor|constructor|unfold h_ws; lia| |exact W].
  constructor; [|constructor; [|constructor; [|constructor]]]; unfold ha_ok; cbn; repeat split; auto; repeat (constructor; [discriminate|]); constructor.
Qed.

(** ** C49: byte order marks. No document with a byte order mark is accepted. *)
Definition bom (cs : charset) : list N := spec_encode cs 0xFEFF.
Theorem C49_bom_refused : forall cs, In cs [UTF8; UTF16 true; UTF16 false; UCS2 true; UCS2 false; UCS4 true; UCS4 false] -> forall rest,
  h_view (h_feed [bom cs ++ rest] h_new) = Some (Some false, None, Some (str "expected open tag angle bracket '>'"), 1%nat).
Proof.
  intros cs H rest. rewrite feed_hb by (cbn; lia || reflexivity). cbn [concat]. rewrite app_nil_r, hb_app.
  repeat (destruct H as [<-|H]; [vm_compute; reflexivity|]). destruct H.
Qed.
Print Assumptions C49_bom_refused.
Example C49_case : map bom [UTF8; UTF16 true; UTF16 false; UCS4 true] = [[0xEF; 0xBB; 0xBF]; [0xFE; 0xFF]; [0xFF; 0xFE]; [0; 0; 0xFE; 0xFF]].
Proof. vm_compute. reflexivity. Qed.

Theorem C49_refuted : exists text e, xml_start text e /\
  h_view (h_feed [flat_map (spec_encode (UTF16 false)) text] h_new) = Some (Some true, e, None, 2%nat) /\
  h_view (h_feed [bom (UTF16 false) ++ flat_map (spec_encode (UTF16 false)) text] h_new) = Some (Some false, None, Some (str "expected open tag angle bracket '>'"), 1%nat).
Proof.
  exists (str "<a"), None. split; [|split; vm_compute; reflexivity].
  apply (start_tag [] [] 97); [constructor|constructor|unfold h_letter; lia].
Qed.
Print Assumptions C49_refuted.

(** ** C50: copies. A copy parses the rest of the input with the same result, *)
Definition h_result (o : out hdr bool) : option (option bool * nat) :=
  match o with Ret h b => Some (Some b, h_chars h) | Throw h => Some (None, h_chars h) | _ => None end.
Theorem C50_copy_partial : forall chunks h, (h_zero h < 4)%nat ->
  h_result (h_parse (h_put (h_copy h) chunks)) = h_result (h_parse (h_put h chunks)).
Proof.
  intros c h Hz. rewrite !h_parse_hb by exact Hz. cbn [h_idx h_src h_put h_copy].
  assert (G : forall l h h', (h_state h, h_attr h, h_consumed h, h_zero h, h_item h) = (h_state h', h_attr h', h_consumed h', h_zero h', h_item h') -> h_result (hout (hb l h)) = h_result (hout (hb l h'))).
  { clear. induction l as [|c l IH]; intros h h' E; injection E as E1 E2 E3 E4 E5.
    - cbn. unfold h_chars. rewrite E3. reflexivity.
    - cbn [hb]. destruct (c =? 0).
      + cbn [h_setZero h_zero]. rewrite E4. cbn zeta. destruct (Nat.ltb _ 4); [apply IH; cbn; congruence|]. cbn. unfold h_chars. cbn. rewrite E3. reflexivity.
      + assert (Hc : forall a a', (h_state a, h_attr a, h_consumed a, h_zero a, h_item a) = (h_state a', h_attr a', h_consumed a', h_zero a', h_item a') ->
          let f x := (h_state x, h_attr x, h_consumed x, h_zero x, h_item x) in f (fst (h_char c a)) = f (fst (h_char c a')) /\ snd (h_char c a) = snd (h_char c a')).
        { clear. intros [s a i n z t r e m] [s' a' i' n' z' t' r' e' m'] E. cbn [h_state h_attr h_consumed h_zero h_item] in E. injection E as -> -> -> -> ->. cbn zeta. unfold h_char, h_fail. cbn [h_state h_attr h_item]. destruct s';
            repeat match goal with |- context[if ?b then _ else _] => destruct b end; try (destruct a'); cbn; split; reflexivity. }
        specialize (Hc (h_count c (h_skip h)) (h_count c (h_skip h'))). cbn zeta in Hc. destruct Hc as [H1 H2]; [cbn; rewrite E1, E2, E3, E5; reflexivity|].
        destruct (h_char c (h_count c (h_skip h))) as [h2 r2]. destruct (h_char c (h_count c (h_skip h'))) as [h3 r3]. cbn [fst snd] in *. subst r3. injection H1 as F1 F2 F3 F4 F5. destruct r2; [cbn; unfold h_chars; rewrite F3; reflexivity|].
        apply IH. congruence. }
  apply G. destruct h; reflexivity.
Qed.
Print Assumptions C50_copy_partial.
Example C50_case : exists h, h_parse (h_put h_new (flat_map (spec_encode (UTF16 true)) (str "<?xml version='1.0") ++ [0])) = Ret h false /\ h_zero h = 1%nat /\
  h_result (h_parse (h_put (h_copy h) (39 :: flat_map (spec_encode (UTF16 true)) (str "?>")))) = Some (Some true, 19%nat).
Proof. eexists. split; [vm_compute; reflexivity|]. split; vm_compute; reflexivity. Qed.
(** and the only difference is that an encoding or an error message found before the copy is null, unless another one is found afterwards. *)
Definition kept (before e e' : option (list N)) : Prop := e' = e \/ e' = None /\ e = before.
Theorem C50_lost : forall chunks h r e m n, (h_zero h < 4)%nat -> h_view (h_parse (h_put h chunks)) = Some (r, e, m, n) ->
  exists e' m', h_view (h_parse (h_put (h_copy h) chunks)) = Some (r, e', m', n) /\ kept (h_encoding h) e e' /\ kept (h_lasterror h) m m'.
Proof.
  intros c h r e m n Hz. rewrite !h_parse_hb by exact Hz. cbn [h_idx h_src h_put h_copy]. generalize (skipn (h_idx h) (h_src h ++ c)). intros l.
  set (ke := fun a b => h_enc b = h_enc a \/ h_enc b = [] /\ h_enc a = h_enc h). set (km := fun a b => h_err b = h_err a \/ h_err b = [] /\ h_err a = h_err h).
  set (core := fun x => (h_state x, h_attr x, h_consumed x, h_zero x, h_item x)).
  assert (V : forall a b, core a = core b -> ke a b -> km a b -> h_chars b = h_chars a /\ kept (h_encoding h) (h_encoding a) (h_encoding b) /\ kept (h_lasterror h) (h_lasterror a) (h_lasterror b)).
  { intros a b E Ke Km. unfold core in E. injection E as _ _ E3 _ _. split; [unfold h_chars; congruence|]. unfold kept, h_encoding, h_lasterror.
    split; [destruct Ke as [->|[-> ->]]|destruct Km as [->|[-> ->]]]; auto. }
  assert (G : forall l a b, core a = core b -> ke a b -> km a b -> h_view (hout (hb l a)) = Some (r, e, m, n) ->
    exists e' m', h_view (hout (hb l b)) = Some (r, e', m', n) /\ kept (h_encoding h) e e' /\ kept (h_lasterror h) m m').
  { clear l. induction l as [|x l IH]; intros a b E Ke Km.
    - destruct (V a b E Ke Km) as [V1 [V2 V3]]. cbn. intros H. injection H as <- <- <- <-. rewrite V1. eauto.
    - cbn [hb]. destruct (x =? 0).
      + cbn zeta. cbn [h_setZero h_zero]. pose proof E as E0. unfold core in E0. injection E0 as E1 E2 E3 E4 E5. rewrite <- E4.
        assert (E6 : core (h_setZero (S (h_zero a)) (h_skip a)) = core (h_setZero (S (h_zero a)) (h_skip b))) by (unfold core; cbn; congruence).
        destruct (Nat.ltb _ 4); [apply IH; [exact E6|exact Ke|exact Km]|].
        destruct (V _ _ E6 Ke Km) as [V1 [V2 V3]]. cbn [hout h_view]. intros H. injection H as <- <- <- <-. rewrite V1. eauto.
      + assert (Hc : forall a b, core a = core b -> ke a b -> km a b -> core (fst (h_char x a)) = core (fst (h_char x b)) /\ snd (h_char x a) = snd (h_char x b) /\
          ke (fst (h_char x a)) (fst (h_char x b)) /\ km (fst (h_char x a)) (fst (h_char x b))).
        { clear. intros [s1 a1 i1 n1 z1 t1 r1 e1 m1] [s2 a2 i2 n2 z2 t2 r2 e2 m2] E Ke Km. unfold core in E. cbn [h_state h_attr h_consumed h_zero h_item] in E. injection E as -> -> -> -> ->.
          unfold ke, km in *. cbn [h_enc h_err] in *. unfold h_char, h_fail. cbn [h_state h_attr h_item]. destruct s2;
            repeat match goal with |- context[if ?b then _ else _] => destruct b end; try (destruct a2); cbn; (split; [reflexivity|]; split; [reflexivity|]; split; auto). }
        specialize (Hc (h_count x (h_skip a)) (h_count x (h_skip b))). destruct Hc as [H1 [H2 [H3 H4]]].
        { unfold core in *. injection E as E1 E2 E3 E4 E5. cbn. rewrite E1, E2, E3, E5. reflexivity. }
        { exact Ke. } { exact Km. }
        destruct (h_char x (h_count x (h_skip a))) as [h2 r2]. destruct (h_char x (h_count x (h_skip b))) as [h3 r3]. cbn [fst snd] in *. subst r3. destruct r2; [|apply IH; assumption].
        destruct (V _ _ H1 H3 H4) as [V1 [V2 V3]]. cbn [hout h_view]. intros H. injection H as <- <- <- <-. rewrite V1. eauto. }
  apply G; [destruct h; reflexivity|right; split; reflexivity|right; split; reflexivity].
Qed.
Print Assumptions C50_lost.
(** An encoding found after the copy is the same; here the copy is made before its last character. *)
Example C50_lost_case : exists h, h_parse (h_put h_new (str "<?xml encoding='utf-")) = Ret h false /\ (h_zero h < 4)%nat /\
  h_view (h_parse (h_put h (str "8'?>"))) = Some (Some true, Some (str "utf-8"), None, 22%nat) /\
  h_view (h_parse (h_put (h_copy h) (str "8'?>"))) = Some (Some true, Some (str "utf-8"), None, 22%nat).
Proof. eexists. split; [vm_compute; reflexivity|]. split; [vm_compute; lia|]. split; vm_compute; reflexivity. Qed.
(** but the encoding is lost. *)
Theorem C50_refuted : exists h h1 h2, h_parse (h_put h_new (str "<?xml encoding='x' ")) = Ret h false /\
  h_parse (h_put h (str "?>")) = Ret h1 true /\ h_encoding h1 = Some (str "x") /\ h_parse (h_put (h_copy h) (str "?>")) = Ret h2 true /\ h_encoding h2 = None.
Proof. do 3 eexists. repeat match goal with |- _ /\ _ => split; [vm_compute; reflexivity|] end. vm_compute. reflexivity. Qed.
Print Assumptions C50_refuted.

(** ** C51: charsConsumed(). White space is not counted; see C32 for the number of characters that are. *)
Theorem C51_refuted : exists text, xml_start text None /\ length text = 20%nat /\
  h_view (h_feed [text] h_new) = Some (Some true, None, None, 19%nat).
Proof.
  exists (str "<?xml version='1.0'?"). split; [|split; vm_compute; reflexivity].
  apply (start_hdr [] [] 32 [mkHa [] HVersion [] [] 39 (str "1.0")] []); [constructor|constructor|unfold h_ws; lia| |constructor].
  constructor; [|constructor]. unfold ha_ok. cbn. repeat split; auto. repeat (constructor; [discriminate|]). constructor.
Qed.
Print Assumptions C51_refuted.
