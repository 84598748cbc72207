(** Programs of a user of the XML scanner (specification): the elements delivered by a sequence of
    calls of nextItem. *)
From Verif Require Import Base Iter CharMap Charset TextScanner XmlScanner ReadSpec.

(** what the user sees after a call of nextItem: element type, getItem(), error set, getTokenPosition() and
    getPosition() *)
Record event := mkEv { ev_type : etype; ev_item : list N; ev_err : xerror; ev_tokpos : N; ev_pos : N }.

(** the part of it that is not a position *)
Definition element (e : event) : etype * list N * xerror := (ev_type e, ev_item e, ev_err e).

Section Scan.
Context {R : Type} (rops : readerops R) (cfg : config).

Definition observe (t : etype) (s : scanner R) : event :=
  mkEv t (sc_getItem s) (sc_err s) (sc_getTokenPosition s) (sc_getPosition rops s).

(** one call of nextItem for each of the masks *)
Fixpoint scan (fuel : nat) (masks : list N) (s : scanner R) : out (scanner R) (list event) :=
  match masks with
  | [] => Ret s []
  | m :: masks' =>
      let! (s1, t) := nextItem rops cfg fuel m s in
      let! (s2, evs) := scan fuel masks' s1 in
      Ret s2 (observe t s1 :: evs)
  end.
End Scan.

(** Scanning a text in memory, XMLScanner<SrcIterator,incs,outcs,std::string> *)
Definition xml_scan (incs outcs : charset) (fuel : nat) (masks : list N) (text : list N)
  : out (scanner (tscan srcit)) (list event) :=
  scan (ts_ops src_ops incs) (xml_config incs outcs None 0) fuel masks (sc_make (ts_make (src_make text false))).

(** ** Scanning a text in chunks: on an interrupt the next chunk is supplied and nextItem is called again
    (examples/XMLScanner_chunkwise.cpp) *)
Section Chunks.
Context (incs : charset) (cfg : config) (feed : srcit -> list N -> bool -> srcit).

(** setSource(..) with an iterator made from the current one *)
Definition sc_feed (s : scanner (tscan srcit)) (c : list N) (eom : bool) : scanner (tscan srcit) :=
  sc_setSource s (fun t => ts_setSource t (feed (rit (ts_rd t)) c eom)).

Fixpoint scanChunked (fuel : nat) (masks : list N) (st : scanner (tscan srcit) * list (list N))
  : out (scanner (tscan srcit) * list (list N)) (list event) :=
  match masks with
  | [] => Ret st []
  | m :: masks' =>
      let! (st1, t) := resume sc_feed (nextItem (ts_ops src_ops incs) cfg fuel m) (snd st) (fst st) in
      let! (st2, evs) := scanChunked fuel masks' st1 in
      Ret st2 (observe (ts_ops src_ops incs) t (fst st1) :: evs)
  end.
End Chunks.

(** a new iterator on the chunk; the same iterator with putInput *)
Definition feed_new (i : srcit) (c : list N) (eom : bool) : srcit := src_make c eom.
Definition feed_put (i : srcit) (c : list N) (eom : bool) : srcit := src_putInput i c eom.
