(** Equality of iterators (C60) and repeated ranges (C61). *)
From Verif Require Import Base Iter CharMap CodePages Charset TextScanner XmlScanner ScanSpec XmlIter PathAtm.

(** ** C60: an iterator equals its copies. Iterators are equal exactly if both are new ones or both are at the end, *)
Theorem C60_equal_partial : forall a b, x_eq a b = true <->
  ie_type (xi_elem a) = ie_type (xi_elem b) /\ (ie_type (xi_elem a) = EExit \/ ie_type (xi_elem a) = ENone).
Proof.
  intros [[ta ca za] ia] [[tb cb zb] ib]. unfold x_eq. cbn [xi_elem ie_type]. split.
  - destruct ta; try discriminate; destruct tb; try discriminate; auto.
  - intros [<- [->| ->]]; reflexivity.
Qed.
Print Assumptions C60_equal_partial.
(** equality does not depend on the order and is transitive, *)
Theorem C60_order : forall a b c, x_eq a b = x_eq b a /\ (x_eq a b = true -> x_eq b c = true -> x_eq a c = true).
Proof.
  intros a b c. split.
  - apply Bool.eq_true_iff_eq. rewrite !C60_equal_partial. split; intros [E H]; rewrite E in *; auto.
  - rewrite !C60_equal_partial. intros [E H] [E2 _]. rewrite E in *. auto.
Qed.
Print Assumptions C60_order.
(** but an iterator at an element is not even equal to itself. *)
Theorem C60_refuted : exists s it, let text := str "<a>" in
  x_begin (ts_ops src_ops UTF8) (xml_config UTF8 UTF8 None 0) 100 true (sc_make (ts_make (src_make text false)), 0%nat) = Ret s it /\ ie_type (xi_elem it) = EOpenTag /\ x_eq it it = false.
Proof. do 2 eexists. cbv zeta. split; [vm_compute; reflexivity|]. split; reflexivity. Qed.
Print Assumptions C60_refuted.
Example C60_case : exists s it, let text := str " " in
  x_begin (ts_ops src_ops UTF8) (xml_config UTF8 UTF8 None 0) 100 true (sc_make (ts_make (src_make text false)), 0%nat) = Ret s it /\ x_eq it x_end = true /\ x_eq it it = true.
Proof. do 2 eexists. cbv zeta. split; [vm_compute; reflexivity|]. split; reflexivity. Qed.

(** ** C61: a path element with several ranges selects the indices that are in all of them. [selects b e i]: the index [i] is in the range
    from [b] up to but not with [e], -1 stands for no end (comment in lines 616-619) *)
Definition selects (b e i : Z) : Prop := (e = -1 \/ b <= i < e)%Z.
Theorem C61_partial : forall b e p i, (0 <= e)%Z -> (0 <= b)%Z -> (pe_end p = -1 \/ b <= pe_start p \/ pe_end p <= e)%Z ->
  let p' := pe_doRange b e p in
  selects (pe_start p') (pe_end p') i <-> selects (pe_start p) (pe_end p) i /\ selects b e i.
Proof.
  intros b e [idx st en fo pr] i He Hb H. cbn [pe_start pe_end] in *. unfold pe_doRange. cbn [pe_start pe_end pe_idx pe_follow pe_print]. unfold selects.
  destruct (Z.eqb_spec en (-1)); cbn [pe_start pe_end]; [lia|]. destruct (Z.ltb_spec e en); cbn [pe_start pe_end]; [lia|].
  destruct (Z.ltb_spec st b); cbn [pe_start pe_end]; lia.
Qed.
Print Assumptions C61_partial.
(** so it holds for TO and FROM in any order, also repeated *)
Theorem C61_to_from : forall k p p' i, (0 <= k < int_max)%Z -> (0 <= pe_start p)%Z -> (-1 <= pe_end p <= int_max)%Z ->
  (pe_TO k p = Some p' -> selects (pe_start p') (pe_end p') i <-> selects (pe_start p) (pe_end p) i /\ (0 <= i <= k)%Z) /\
  (pe_FROM k p = Some p' -> (i < int_max)%Z -> selects (pe_start p') (pe_end p') i <-> selects (pe_start p) (pe_end p) i /\ (k <= i)%Z).
Proof.
  intros k p p' i Hk Hs He. unfold int_max in *. split; intros E.
  - unfold pe_TO, pe_doCount in E. replace (0 <=? k)%Z with true in E by lia. unfold int_max in E. replace (k =? 2147483647)%Z with false in E by lia. injection E as <-.
    rewrite C61_partial by lia. unfold selects. lia.
  - intros Hi. unfold pe_FROM, pe_doStart in E. injection E as <-. unfold int_max. rewrite C61_partial by lia. unfold selects. lia.
Qed.
Print Assumptions C61_to_from.
(** It is wrong for a second range that lies inside of the first one, its start is ignored, and for a second range without end, the end of
    the first one is lost. *)
Theorem C61_refuted : exists p0 p1 p2 p3,
  pe_end p0 = (-1)%Z /\ pe_RANGE 0 5 p0 = Some p1 /\ pe_RANGE 2 3 p1 = Some p2 /\ pe_RANGE 3 (-1) p1 = Some p3 /\
  selects (pe_start p2) (pe_end p2) 1 /\ ~ (2 <= 1 <= 3)%Z /\
  selects (pe_start p3) (pe_end p3) 9 /\ ~ (0 <= 9 <= 5)%Z.
Proof.
  exists pe_root, (mkPe 0 0 6 false m_zero), (mkPe 0 0 4 false m_zero), (mkPe 0 0 (-1) false m_zero). cbn [pe_start pe_end].
  split; [reflexivity|]. split; [reflexivity|]. split; [reflexivity|]. split; [reflexivity|]. unfold selects. split; [lia|]. split; [lia|]. split; lia.
Qed.
Print Assumptions C61_refuted.
Example C61_case : exists p1 p2, pe_FROM 2 pe_root = Some p1 /\ pe_TO 4 p1 = Some p2 /\ (pe_start p2, pe_end p2) = (2, 5)%Z.
Proof. do 2 eexists. split; [reflexivity|]. split; reflexivity. Qed.
