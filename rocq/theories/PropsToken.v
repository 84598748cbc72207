(** Properties of tokens and of the use of a scanner: C22-C24, C43-C45, C47, C48. *)
From Verif Require Import Base Iter CharMap CodePages Charset TextScanner Ideal
  CharsetSpec CharsetProofs CharsetMore ReadSpec ChunkRead XmlScanner ScanSpec ScanProofs CharReader ChunkScan ChunkTop ScanTop PropsScan
  DocSpec DocProofs DocScan DocTop DocCheck PropsDoc MaskProofs CopyProofs TokenSpec PosProofs XmlIter.

Ltac check := repeat match goal with |- _ /\ _ => split; [vm_compute; reflexivity|] end; vm_compute; reflexivity.

(** ** C22: the entity map. Its keys are pointers and they are compared as pointers with the address of the buffer of the scanner. *)
Definition xml_scan_map (incs outcs : charset) (m : list (N * N)) (addr : N) (fuel : nat) (masks : list N) (text : list N)
  : out (scanner (tscan srcit)) (list event) :=
  scan (ts_ops src_ops incs) (xml_config incs outcs (Some m) addr) fuel masks (sc_make (ts_make (src_make text false))).

(** As no string of the caller has the address of the buffer, the map has no effect. *)
Theorem C22_no_effect : forall incs outcs m addr fuel masks text, (forall key c, In (key, c) m -> key <> addr) ->
  xml_scan_map incs outcs m addr fuel masks text = xml_scan incs outcs fuel masks text.
Proof.
  intros incs outcs m addr fuel masks text H. unfold xml_scan_map, xml_scan, xml_config. apply m_scan. unfold map_find.
  destruct (find (fun p => fst p =? addr) m) as [[k c]|] eqn:E; [|reflexivity]. apply find_some in E. destruct E as [E1 E2]. apply N.eqb_eq in E2. exfalso. exact (H k c E1 E2).
Qed.
Print Assumptions C22_no_effect.
Example C22_case : (forall key c, In (key, c) [(1000, 65); (1004, 66)] -> key <> 2000) /\
  exists s evs, xml_scan_map UTF8 UTF8 [(1000, 65); (1004, 66)] 2000 100 (calls 4) (str "<a>&lt;x</a>") = Ret s evs /\
  map element evs = [(EOpenTag, str "a", Ok); (EContent, str "<x", Ok); (ECloseTag, str "a", Ok); (EExit, [], Ok)].
Proof.
  split; [intros key c [E|[E|[]]]; injection E as <- <-; discriminate|]. do 2 eexists. check.
Qed.

(** The memory [strings] holds the name foo at the address 1000, that is mapped to the character A; the buffer is at 2000. *)
Theorem C22_refuted : exists (strings : N -> list N) m addr s evs,
  Forall (fun p => strings (fst p) = str "foo" /\ snd p = 65 /\ fst p <> addr) m /\ m <> [] /\
  xml_scan_map UTF8 UTF8 m addr 100 (calls 2) (str "<a>&foo;</a>") = Ret s evs /\
  map element evs = [(EOpenTag, str "a", Ok); (EErrorOccurred, [], ErrUndefinedCharacterEntity)].
Proof.
  exists (fun _ => str "foo"), [(1000, 65)], 2000. eexists. eexists. split; [repeat constructor; discriminate|]. split; [discriminate|].
  split; [vm_compute; reflexivity|vm_compute; reflexivity].
Qed.
Print Assumptions C22_refuted.

(** ** C23: text behind an ampersand that is no reference. [open_name]: not ended by a semicolon and no number sign;
    [open_number]: a number sign and decimal digits that are not ended by a semicolon. *)
Theorem C23_literal_partial : forall incs outcs q v1 v2 v3 t1 t2 t3, cs_constructible incs = true -> q = 34 \/ q = 39 ->
  Forall (value_char q) v1 -> open_name v2 v3 \/ open_number v2 v3 -> Forall (value_char q) v3 ->
  Forall text_char t1 -> open_name t2 t3 \/ open_number t2 t3 -> Forall text_char t3 ->
  let cl := sample (str "a") (str "x") q (v1 ++ 38 :: v2 ++ v3) (t1 ++ 38 :: t2 ++ t3) (str "a") in
  Forall (representable incs) cl ->
  scans_to incs outcs cl
    [(EOpenTag, str "a"); (ETagAttribName, str "x"); (ETagAttribValue, eol v1 ++ 38 :: v2 ++ eol v3); (EContent, eol t1 ++ 38 :: t2 ++ eol t3); (ECloseTag, str "a"); (EExit, [])].
Proof.
  intros incs outcs q v1 v2 v3 t1 t2 t3 Hcs Hq Hv1 Hv2 Hv3 Ht1 Ht2 Ht3 cl Hr.
  pose proof (C21_references incs outcs (name (str "a")) (name (str "x")) q (mkToken v1 [(Lit v2, v3)]) (mkToken t1 [(Lit t2, t3)]) (name (str "a")) Hcs) as H.
  assert (Es : forall a b c, tok_src (mkToken a [(Lit b, c)]) = a ++ 38 :: b ++ c) by (intros; unfold tok_src; cbn [t_raw t_refs flat_map amp_src fst snd]; rewrite app_nil_r; reflexivity).
  assert (Ec : forall a b c, tok_chars (mkToken a [(Lit b, c)]) = eol a ++ 38 :: b ++ eol c) by (intros; unfold tok_chars; cbn [t_raw t_refs flat_map amp_chars fst snd]; rewrite app_nil_r; reflexivity).
  rewrite !Es, !Ec in H. apply H; auto; try (apply nameb_ok; vm_compute; reflexivity).
  - split; [exact Hv1|]. constructor; [|constructor]. split; assumption.
  - split; [exact Ht1|]. constructor; [|constructor]. split; assumption.
  - intros E. apply app_eq_nil in E. destruct E as [_ E]. discriminate E.
Qed.
Print Assumptions C23_literal_partial.
Example C23_case :
  (open_name (str "lt") (str " ") \/ open_number (str "lt") (str " ")) /\ (open_name (str "#12") (str "a;") \/ open_number (str "#12") (str "a;")) /\
  (open_name [] [] \/ open_number [] []) /\ Forall (representable UTF8) (sample (str "a") (str "x") 34 (str "&lt ") (str "1 &#12a;") (str "a")).
Proof.
  split; [|split; [|split]].
  - exact (ampb_ok (Lit (str "lt")) (str " ") eq_refl).
  - exact (ampb_ok (Lit (str "#12")) (str "a;") eq_refl).
  - exact (ampb_ok (Lit []) [] eq_refl).
  - apply repr_dec. vm_compute. reflexivity.
Qed.

(** The x of a hexadecimal reference is lost, a reference without digits is a null character, and the semicolon of a number that is too
    large is delivered twice. *)
Theorem C23_refuted : exists s1 evs1 s2 evs2 s3 evs3,
  xml_scan UTF8 UTF8 100 (calls 2) (str "<a>&#xg</a>") = Ret s1 evs1 /\ elements evs1 = [(EOpenTag, str "a"); (EContent, str "&#g")] /\
  xml_scan UTF8 UTF8 100 (calls 2) (str "<a>&#;</a>") = Ret s2 evs2 /\ elements evs2 = [(EOpenTag, str "a"); (EContent, [0])] /\
  xml_scan UTF8 UTF8 100 (calls 2) (str "<a>&#99999999999;</a>") = Ret s3 evs3 /\ elements evs3 = [(EOpenTag, str "a"); (EContent, str "&#99999999999;;")].
Proof. do 6 eexists. check. Qed.
Print Assumptions C23_refuted.

(** ** C24: masks. [structure]: element type, error and position of the source. With other masks the same is delivered, or a name
    that is no entity is met, in a token that was masked out before. *)
Definition undefined_entity (ev : event) : Prop := ev_err ev = ErrUndefinedCharacterEntity.
Theorem C24_masks : forall incs outcs fuel1 fuel2 masks1 masks2 text s1 evs1, cs_constructible incs = true -> Forall isByte text ->
  length masks1 = length masks2 -> xml_scan incs outcs fuel1 masks1 text = Ret s1 evs1 ->
  Forall (fun ev => ~ undefined_entity ev) evs1 -> (3 * length text + 4 <= fuel2)%nat ->
  (exists s2 evs2, xml_scan incs outcs fuel2 masks2 text = Ret s2 evs2 /\ map structure evs2 = map structure evs1) \/
  (exists n s2 evs2, xml_scan incs outcs fuel2 (firstn n masks2) text = Ret s2 evs2 /\ Exists undefined_entity evs2).
Proof. exact masks_top. Qed.
Print Assumptions C24_masks.

Example C24_case : let text := str "<a x='1&#50;'>y &amp; z</a>" in exists s1 evs1 s2 evs2,
  xml_scan UTF8 UTF8 100 (calls 6) text = Ret s1 evs1 /\ xml_scan UTF8 UTF8 100 (repeat 0 6) text = Ret s2 evs2 /\
  elements evs1 = [(EOpenTag, str "a"); (ETagAttribName, str "x"); (ETagAttribValue, str "12"); (EContent, str "y & z"); (ECloseTag, str "a"); (EExit, [])] /\
  map ev_item evs2 = repeat [] 6 /\ map structure evs1 = map structure evs2 /\ map ev_pos evs1 = [3; 5; 13; 24; 27; 28].
Proof. cbv zeta. do 4 eexists. check. Qed.

(** ** C43: token positions, any input *)
Theorem C43_positions : forall cs fuel masks text s evs, cs_constructible cs = true -> Forall isByte text -> N.of_nat (length text) < 2 ^ 64 ->
  xml_scan cs cs fuel masks text = Ret s evs ->
  Forall2 (fun mask ev => is_token (ev_type ev) -> N.testbit mask (etype_idx (ev_type ev)) = true -> token_at cs text (ev_tokpos ev) (ev_item ev)) masks evs.
Proof. exact token_positions. Qed.
Print Assumptions C43_positions.

Example C43_case : let text := flat_map (cs_print (UTF16 false)) (str "<a>x &amp;<b>yz</b></a>") in exists s evs,
  xml_scan (UTF16 false) (UTF16 false) 200 (calls 4) text = Ret s evs /\ map ev_tokpos evs = [2; 6; 22; 26] /\
  Forall2 (fun ev k => source text (ev_tokpos ev) k = ev_item ev /\ Forall ordinary (units (UTF16 false) (source text (ev_tokpos ev) k)))
    [nth 0 evs (mkEv ENone [] Ok 0 0); nth 2 evs (mkEv ENone [] Ok 0 0); nth 3 evs (mkEv ENone [] Ok 0 0)] [2; 2; 4]%nat.
Proof.
  cbv zeta. eexists. eexists. split; [vm_compute; reflexivity|]. split; [vm_compute; reflexivity|].
  repeat (constructor; [split; [vm_compute; reflexivity|vm_compute; repeat constructor; discriminate]|]). constructor.
Qed.

(** ** C44: copies. The copy of a scanner for any kind of input continues like the scanner itself, if it is made between two calls and
    no keyword (xml or CDATA) was misspelled before. *)
Theorem C44_copy_partial : forall {R} (rops : readerops R) cfg r fuel masks s evs, scan rops cfg fuel masks (sc_make r) = Ret s evs ->
  Forall (fun ev => ev_type ev = EErrorOccurred -> ev_err ev <> ErrSyntaxToken /\ ev_err ev <> ErrUnexpectedEndOfText) evs ->
  forall fuel' masks', omap (fun _ => tt) (scan rops cfg fuel' masks' (sc_copy s)) = omap (fun _ => tt) (scan rops cfg fuel' masks' s).
Proof.
  intros R rops cfg r fuel masks s evs E F fuel' masks'. destruct (scan_tok rops cfg fuel masks (sc_make r) s evs) as [H1 H2]; [reflexivity|reflexivity|exact E| |].
  - eapply Forall_impl; [|exact F]. cbn beta. unfold keyword_error. intros ev H Et [G|G]; destruct (H Et); contradiction.
  - apply copy_next; assumption.
Qed.
Print Assumptions C44_copy_partial.
Example C44_case : exists s evs, xml_scan UTF8 UTF8 100 (calls 3) (str "<a x='&lt;'>y</a>") = Ret s evs /\
  elements evs = [(EOpenTag, str "a"); (ETagAttribName, str "x"); (ETagAttribValue, str "<")] /\
  tk_buf (sc_tok s) <> tk_buf (sc_tok (sc_copy s)).
Proof. eexists. eexists. split; [vm_compute; reflexivity|]. split; [vm_compute; reflexivity|]. vm_compute. discriminate. Qed.

(** A copy made when the scanner asks for more input loses the part of the token that has been read, and a copy made after an error
    in a keyword complains again. *)
Theorem C44_refuted :
  (exists s s' t s2 t2, nextItem (ts_ops src_ops UTF8) (xml_config UTF8 UTF8 None 0) 100 mask_all (sc_make (ts_make (src_make (str "<ab") true))) = Jump s /\
     s' = sc_feed feed_new s (str "c>") false /\
     nextItem (ts_ops src_ops UTF8) (xml_config UTF8 UTF8 None 0) 100 mask_all s' = Ret s2 t /\ (t, sc_getItem s2) = (EOpenTag, str "abc") /\
     nextItem (ts_ops src_ops UTF8) (xml_config UTF8 UTF8 None 0) 100 mask_all (sc_copy s') = Ret t2 t /\ sc_getItem t2 = str "c") /\
  (exists s evs s2 evs2 s3 evs3, xml_scan UTF8 UTF8 100 (calls 1) (str "<?xm?>") = Ret s evs /\
     scan (ts_ops src_ops UTF8) (xml_config UTF8 UTF8 None 0) 100 (calls 1) s = Ret s2 evs2 /\ map ev_type evs2 = [EHeaderStart] /\
     scan (ts_ops src_ops UTF8) (xml_config UTF8 UTF8 None 0) 100 (calls 1) (sc_copy s) = Ret s3 evs3 /\ map ev_type evs3 = [EErrorOccurred]).
Proof.
  split; [do 5 eexists; check|].
  do 6 eexists; check.
Qed.
Print Assumptions C44_refuted.

(** ** C45: error() of the elements of an iterator. It is not null exactly for errors, *)
Theorem C45_null_partial : forall {R} (rops : readerops R) cfg fuel mask it s s' it', xi_input it = true -> x_skip rops cfg fuel mask it s = Ret s' it' ->
  (ie_error (xi_elem it') <> PNull <-> ie_type (xi_elem it') = EErrorOccurred).
Proof.
  intros R rops cfg fuel mask it s s' it' Hi E. unfold x_skip, x_next in E. rewrite Hi in E. destruct (nextItem rops cfg fuel mask (fst s)) as [s1 t| | | |]; cbn in E; try discriminate.
  injection E as <- <-. unfold ie_error, x_itemPtr. cbn [xi_elem ie_type ie_content fst snd]. destruct t; split; intros H; try congruence; destruct (sc_obuf s1); discriminate.
Qed.
Print Assumptions C45_null_partial.
(** but it is the last item and not the description of the error. *)
Theorem C45_error_is_item : forall {R} (rops : readerops R) cfg fuel mask it s s' it', xi_input it = true -> x_skip rops cfg fuel mask it s = Ret s' it' ->
  ie_type (xi_elem it') = EErrorOccurred ->
  x_read s' (ie_error (xi_elem it')) (length (sc_obuf (fst s'))) = Some (sc_obuf (fst s')).
Proof.
  intros R rops cfg fuel mask it s s' it' Hi E Ht. unfold x_skip, x_next in E. rewrite Hi in E. destruct (nextItem rops cfg fuel mask (fst s)) as [s1 t| | | |]; cbn in E; try discriminate.
  injection E as <- <-. unfold ie_error, x_itemPtr in *. cbn [xi_elem ie_type ie_content fst snd] in *. subst t. destruct (sc_obuf s1) as [|b l] eqn:Eo; [reflexivity|].
  cbn [x_read fst snd]. rewrite Nat.eqb_refl, Eo. replace (Nat.leb (length (b :: l)) (length (b :: l) + 1)) with true by (symmetry; apply Nat.leb_le; lia). cbn [andb].
  rewrite firstn_app, firstn_all, Nat.sub_diag, app_nil_r. reflexivity.
Qed.
Print Assumptions C45_error_is_item.
(** An iterator that goes from the open tag to the content and then to the close tag; [C45_refuted] has iterators that reach an error. *)
Example C45_case : exists s1 it1 s2 it2 s3 it3, let rops := ts_ops src_ops UTF8 in let cfg := xml_config UTF8 UTF8 None 0 in
  x_begin rops cfg 100 true (sc_make (ts_make (src_make (str "<a>xy</b>") false)), 0%nat) = Ret s1 it1 /\ xi_input it1 = true /\
  x_skip rops cfg 100 0xFFFF it1 s1 = Ret s2 it2 /\ ie_type (xi_elem it2) = EContent /\ ie_error (xi_elem it2) = PNull /\ xi_input it2 = true /\
  x_skip rops cfg 100 0xFFFF it2 s2 = Ret s3 it3 /\ ie_type (xi_elem it3) = ECloseTag /\ ie_error (xi_elem it3) = PNull.
Proof. do 6 eexists. cbv zeta. check. Qed.
Theorem C45_refuted : exists s1 it1 s2 it2 t1 jt1 t2 jt2 t3 jt3,
  let rops := ts_ops src_ops UTF8 in let cfg := xml_config UTF8 UTF8 None 0 in
  (x_begin rops cfg 100 true (sc_make (ts_make (src_make (str "<a>xy&foo;</a>") false)), 0%nat) = Ret s1 it1 /\ x_preinc rops cfg 100 it1 s1 = Ret s2 it2 /\
   ie_type (xi_elem it2) = EErrorOccurred /\ x_read s2 (ie_error (xi_elem it2)) 3 = Some (str "xy" ++ [0]) /\ sc_err (fst s2) = ErrUndefinedCharacterEntity) /\
  (x_begin rops cfg 100 true (sc_make (ts_make (src_make (str "<a b></a>") false)), 0%nat) = Ret t1 jt1 /\
   x_preinc rops cfg 100 jt1 t1 = Ret t2 jt2 /\ x_preinc rops cfg 100 jt2 t2 = Ret t3 jt3 /\
   ie_type (xi_elem jt3) = EErrorOccurred /\ x_read t3 (ie_error (xi_elem jt3)) 1 = Some [0] /\ getErrorString (sc_err (fst t3)) = Some (str "expected equal")).
Proof. do 10 eexists. cbv zeta. split; [check|]. check. Qed.
Print Assumptions C45_refuted.

(** ** C47: the loop [for (it = begin(); it != end(); ++it)] visits exactly what nextItem delivers before Exit, and every content can be
    read when it is visited. *)
Section Loop.
Context {R : Type} (rops : readerops R) (cfg : config) (fuel : nat).

Fixpoint x_loop (n : nat) (it : xiter) (s : xsc) : out xsc (list (etype * option (list N))) :=
  match n with
  | 0%nat => Fuel
  | S n' =>
      if x_eq it x_end then Ret s []
      else let visit := (ie_type (xi_elem it), x_read s (ie_content (xi_elem it)) (ie_size (xi_elem it))) in
           let! (s1, it1) := x_preinc rops cfg fuel it s in
           let! (s2, l) := x_loop n' it1 s1 in Ret s2 (visit :: l)
  end.
Definition x_foreach (n : nat) (s : xsc) : out xsc (list (etype * option (list N))) :=
  let! (s1, it) := x_begin rops cfg fuel true s in x_loop n it s1.

(** the calls of nextItem until Exit is delivered *)
Fixpoint items (n : nat) (s : scanner R) : out (scanner R) (list (etype * list N)) :=
  match n with
  | 0%nat => Fuel
  | S n' =>
      let! (s1, t) := nextItem rops cfg fuel 0xFFFF s in
      match t with
      | EExit => Ret s1 []
      | _ => let! (s2, l) := items n' s1 in Ret s2 ((t, sc_getItem s1) :: l)
      end
  end.
End Loop.

Definition readable (v : etype * list N) : etype * option (list N) := (fst v, Some (snd v)).

Lemma x_read_item : forall {R} (s : @xsc R), x_read s (x_itemPtr s) (x_itemSize s) = Some (sc_getItem (fst s)).
Proof.
  intros R [s k]. unfold x_read, x_itemPtr, x_itemSize, sc_getItem. cbn [fst snd]. destruct (sc_obuf s) as [|b l] eqn:E; [reflexivity|].
  rewrite Nat.eqb_refl. replace (Nat.leb (length (b :: l)) (length (b :: l) + 1)) with true by (symmetry; apply Nat.leb_le; lia). cbn [andb].
  rewrite firstn_app, firstn_all, Nat.sub_diag, app_nil_r. reflexivity.
Qed.

Theorem C47_loop : forall {R} (rops : readerops R) cfg fuel n s k,
  (forall s' l, items rops cfg fuel n s = Ret s' l -> exists k', x_foreach rops cfg fuel n (s, k) = Ret (s', k') (map readable l)) /\
  (forall x v, x_foreach rops cfg fuel n (s, k) = Ret x v -> exists l, items rops cfg fuel n s = Ret (fst x) l /\ v = map readable l).
Proof.
  intros R rops cfg fuel.
  assert (H : forall t, (t = EExit /\ forall c z, x_eq (mkXi (mkItel t c z) true) x_end = true) \/ (t <> EExit /\ forall c z, x_eq (mkXi (mkItel t c z) true) x_end = false)).
  { intros t. destruct t; cbn; try (right; split; [discriminate|reflexivity]). left. split; reflexivity. }
  induction n as [|n IH]; intros s k.
  - split; intros s' l E; [discriminate E|]. unfold x_foreach, x_begin, x_next in E. destruct (nextItem rops cfg fuel 65535 (fst (s, k))); discriminate E.
  - unfold x_foreach, x_begin, x_next in *. cbn [items fst snd]. destruct (nextItem rops cfg fuel 65535 s) as [s1 t| | | |]; cbn [omap bind]; try (split; intros; discriminate).
    cbn [x_loop]. destruct (H t) as [[-> Ht]|[Hn Ht]].
    + rewrite Ht. split; intros s' l E; injection E as <- <-; [exists (S k); reflexivity|exists []; split; reflexivity].
    + rewrite Ht. unfold x_preinc, x_skip, x_next. cbn [xi_input xi_elem ie_type ie_content ie_size fst snd]. specialize (IH s1 (S k)). cbn [fst snd] in IH.
      assert (E0 : match t with EExit => Ret s1 [] | _ => let! (s2, l) := items rops cfg fuel n s1 in Ret s2 ((t, sc_getItem s1) :: l) end
                   = (let! (s2, l) := items rops cfg fuel n s1 in Ret s2 ((t, sc_getItem s1) :: l))) by (destruct t; try reflexivity; congruence).
      rewrite E0. destruct IH as [IH1 IH2].
      destruct (nextItem rops cfg fuel 65535 s1) as [s2 t2| | | |] eqn:En; cbn [omap bind] in *.
      2-5: split; intros s' l E; [destruct (items rops cfg fuel n s1) as [s3 l3| | | |]; try discriminate E; destruct (IH1 _ _ eq_refl) as [k' Hk]; discriminate Hk|discriminate E].
      split; intros s' l E.
      * destruct (items rops cfg fuel n s1) as [s3 l3| | | |]; try discriminate E. injection E as <- <-. destruct (IH1 _ _ eq_refl) as [k' Hk]. rewrite Hk. exists k'.
        rewrite x_read_item. reflexivity.
      * destruct (x_loop rops cfg fuel n _ _) as [s3 l3| | | |]; try discriminate E. injection E as <- <-. destruct (IH2 _ _ eq_refl) as [l4 [Hl1 Hl2]]. rewrite Hl1. eexists. split; [reflexivity|].
        rewrite x_read_item, Hl2. reflexivity.
Qed.
Print Assumptions C47_loop.
Example C47_case : exists s l, items (ts_ops src_ops UTF8) (xml_config UTF8 UTF8 None 0) 100 10 (sc_make (ts_make (src_make (str "<a x='1'>b</a>") false))) = Ret s l /\
  l = [(EOpenTag, str "a"); (ETagAttribName, str "x"); (ETagAttribValue, str "1"); (EContent, str "b"); (ECloseTag, str "a")].
Proof. do 2 eexists. check. Qed.

(** ** C48: postfix increment. The iterator returned has the type and the size of the element before the increment, *)
Theorem C48_postfix_partial : forall {R} (rops : readerops R) cfg fuel it s s' it1 it2, x_postinc rops cfg fuel it s = Ret s' (it1, it2) ->
  it1 = it /\ x_preinc rops cfg fuel it s = Ret s' it2.
Proof.
  intros R rops cfg fuel it s s' it1 it2 E. unfold x_postinc, x_preinc in *. destruct (x_skip rops cfg fuel 65535 it s) as [s1 i1| | | |]; try discriminate E.
  cbn [bind] in E. injection E as <- <- <-. split; reflexivity.
Qed.
Print Assumptions C48_postfix_partial.
(** but its content, unless empty, can not be accessed any more. *)
Theorem C48_content_invalid : forall {R} (rops : readerops R) cfg fuel s s1 it s2 it1 it2, x_begin rops cfg fuel true s = Ret s1 it -> x_postinc rops cfg fuel it s1 = Ret s2 (it1, it2) ->
  sc_getItem (fst s1) <> [] -> x_read s2 (ie_content (xi_elem it1)) (ie_size (xi_elem it1)) = None.
Proof.
  intros R rops cfg fuel s s1 it s2 it1 it2 Eb Ep Hne. destruct (C48_postfix_partial _ _ _ _ _ _ _ _ Ep) as [-> Ei]. unfold x_begin, x_next in Eb.
  destruct (nextItem rops cfg fuel 65535 (fst s)) as [s3 t| | | |]; cbn [omap bind] in Eb; try discriminate Eb. injection Eb as <- <-. unfold x_preinc, x_skip, x_next in Ei.
  cbn [xi_input xi_elem fst snd] in *. destruct (nextItem rops cfg fuel 65535 s3) as [s4 t4| | | |]; cbn [omap bind] in Ei; try discriminate Ei. injection Ei as <- <-.
  cbn [ie_content ie_size]. unfold x_itemPtr, sc_getItem in *. cbn [fst snd] in *. destruct (sc_obuf s3) as [|b l]; [congruence|]. cbn [x_read snd]. replace (Nat.eqb (S (snd s)) (S (S (snd s)))) with false by (symmetry; apply Nat.eqb_neq; lia). reflexivity.
Qed.
Print Assumptions C48_content_invalid.
(** The same holds for every element visited later, and nothing is lost by prefix increments: what is visited can be read. *)
Theorem C48_content_later : forall {R} (rops : readerops R) cfg fuel mask it0 s s1 it s2 it1 it2, xi_input it0 = true -> x_skip rops cfg fuel mask it0 s = Ret s1 it ->
  x_read s1 (ie_content (xi_elem it)) (ie_size (xi_elem it)) = Some (sc_getItem (fst s1)) /\
  (x_postinc rops cfg fuel it s1 = Ret s2 (it1, it2) -> sc_getItem (fst s1) <> [] -> x_read s2 (ie_content (xi_elem it1)) (ie_size (xi_elem it1)) = None).
Proof.
  intros R rops cfg fuel mask it0 s s1 it s2 it1 it2 Hi Eb. unfold x_skip, x_next in Eb. rewrite Hi in Eb.
  destruct (nextItem rops cfg fuel mask (fst s)) as [s3 t| | | |]; cbn [omap bind] in Eb; try discriminate Eb. injection Eb as <- <-. split; [apply x_read_item|].
  intros Ep Hne. destruct (C48_postfix_partial _ _ _ _ _ _ _ _ Ep) as [-> Ei]. unfold x_preinc, x_skip, x_next in Ei.
  cbn [xi_input xi_elem fst snd] in *. destruct (nextItem rops cfg fuel 65535 s3) as [s4 t4| | | |]; cbn [omap bind] in Ei; try discriminate Ei. injection Ei as <- <-.
  cbn [ie_content ie_size]. unfold x_itemPtr, sc_getItem in *. cbn [fst snd] in *. destruct (sc_obuf s3) as [|b l]; [congruence|]. cbn [x_read snd]. replace (Nat.eqb (S (snd s)) (S (S (snd s)))) with false by (symmetry; apply Nat.eqb_neq; lia). reflexivity.
Qed.
Print Assumptions C48_content_later.
Example C48_later_case : exists s1 it s2 it1 s3 it2 it3, let rops := ts_ops src_ops UTF8 in let cfg := xml_config UTF8 UTF8 None 0 in
  x_begin rops cfg 100 true (sc_make (ts_make (src_make (str "<ab x='1'>") false)), 0%nat) = Ret s1 it /\ xi_input it = true /\
  x_skip rops cfg 100 0xFFFF it s1 = Ret s2 it1 /\ sc_getItem (fst s2) = str "x" /\ x_postinc rops cfg 100 it1 s2 = Ret s3 (it2, it3) /\
  x_read s3 (ie_content (xi_elem it3)) (ie_size (xi_elem it3)) = Some (str "1").
Proof. do 7 eexists. cbv zeta. check. Qed.
Example C48_case : exists s1 it s2 it1 it2, let rops := ts_ops src_ops UTF8 in let cfg := xml_config UTF8 UTF8 None 0 in
  x_begin rops cfg 100 true (sc_make (ts_make (src_make (str "<ab x='1'>") false)), 0%nat) = Ret s1 it /\ x_postinc rops cfg 100 it s1 = Ret s2 (it1, it2) /\
  sc_getItem (fst s1) = str "ab" /\ (ie_type (xi_elem it1), ie_size (xi_elem it1)) = (EOpenTag, 2%nat) /\ ie_type (xi_elem it2) = ETagAttribName /\
  x_read s2 (ie_content (xi_elem it2)) (ie_size (xi_elem it2)) = Some (str "x").
Proof. do 5 eexists. cbv zeta. check. Qed.
Theorem C48_refuted : exists s1 it s2 it1 it2,
  x_begin (ts_ops src_ops UTF8) (xml_config UTF8 UTF8 None 0) 100 true (sc_make (ts_make (src_make (str "<a>b</a>") false)), 0%nat) = Ret s1 it /\
  x_read s1 (ie_content (xi_elem it)) (ie_size (xi_elem it)) = Some (str "a") /\
  x_postinc (ts_ops src_ops UTF8) (xml_config UTF8 UTF8 None 0) 100 it s1 = Ret s2 (it1, it2) /\
  x_read s2 (ie_content (xi_elem it1)) (ie_size (xi_elem it1)) = None.
Proof. do 5 eexists. check. Qed.
Print Assumptions C48_refuted.
