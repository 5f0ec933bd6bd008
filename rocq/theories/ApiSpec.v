(** * Histories of API calls.  Definitions only.

    [op] lists the editing calls of the public API; [valid] says which argument
    values the theorems about them are restricted to; [reachable] are the DOMs
    a program can have in its hands. *)
From Coq Require Import List NArith Arith Bool.
From Verif Require Import Base TrieModel DomModel ParserModel EditModel ReadModel DomSpec.
Import ListNotations.
Local Open Scope nat_scope.

(** The call ends in a result satisfying [Q], or leaves through the arena's
    longjmp (a 16-bit limit is hit).  It has no undefined behaviour and it
    terminates. *)
Definition ends_in {A} (o : outcome A) (Q : A -> Prop) : Prop :=
  match o with
  | Ok a => Q a
  | Longjmp _ => True
  | Undef _ => False
  | NoFuel => False
  end.

Inductive op : Type :=
| AppendDoc (p : nat) (e : docnode)
| AppendText (p : nat) (s : bytes)
| AppendHtml (p : nat) (h : bytes)
| PrependDoc (p : nat) (e : docnode)
| PrependText (p : nat) (s : bytes)
| PrependHtml (p : nat) (h : bytes)
| ReplaceDoc (n : nat) (e : docnode)
| ReplaceText (n : nat) (s : bytes)
| ReplaceHtml (n : nat) (h : bytes)
| Remove (n : nat)
| RemoveChildren (n : nat)
| SetText (n : nat) (s : bytes)
| AddBool (n : nat) (b : bytes)
| AddProp (n : nat) (k v : bytes)
| RemoveBool (n : nat) (b : bytes)
| RemoveProp (n : nat) (k : bytes)
| SetProp (n : nat) (k v : bytes)
| AddText (n : nat) (s : bytes) (app : bool)
| SetTag (n : nat) (tag : bytes) (paired : bool).

(** [bl] is what the fragment parser finds below its empty stack (see
    [parse_extra]); it is arbitrary. *)
Definition run (bl : bytes) (o : op) (d : dom) : outcome dom :=
  match o with
  | AppendDoc p e => let* '(_, d) := append_document_node p e d in Ok d
  | AppendText p s => let* '(_, d) := append_text_node p s d in Ok d
  | AppendHtml p h => let* '(_, d) := append_html (Some bl) p h d in Ok d
  | PrependDoc p e => let* '(_, d) := prepend_document_node p e d in Ok d
  | PrependText p s => let* '(_, d) := prepend_text_node p s d in Ok d
  | PrependHtml p h => let* '(_, d) := prepend_html (Some bl) p h d in Ok d
  | ReplaceDoc n e => let* '(_, d) := replace_with_document_node n e d in Ok d
  | ReplaceText n s => let* '(_, d) := replace_with_text_node n s d in Ok d
  | ReplaceHtml n h => let* '(_, d) := replace_with_html (Some bl) n h d in Ok d
  | Remove n => remove_node n d
  | RemoveChildren n => remove_children n d
  | SetText n s => set_text_content n s d
  | AddBool n b => add_bool_property n b d
  | AddProp n k v => add_property n k v d
  | RemoveBool n b => remove_bool_property n b d
  | RemoveProp n k => remove_property n k d
  | SetProp n k v => let* '(_, d) := set_property_value n k v d in Ok d
  | AddText n s app => add_text_to_text_node n s app d
  | SetTag n tag paired => set_tag tag n paired d
  end.

(** Node [p] exists and is not the error node. *)
Definition node_id (d : dom) (p : nat) : Prop := 1 <= p < length (nodes d).

(** If fragment [h] parses, it has at least one node. *)
Definition has_nodes (d : dom) (bl h : bytes) : Prop :=
  forall d1, parse_extra (Some bl) h d = Ok (true, d1) -> length (nodes d) < length (nodes d1).

Definition is_text_node (d : dom) (n : nat) : Prop := exists s, text_of d n = Some s.

(** The two situations in which [replaceWithHTMLFromString] goes wrong:
    a lone text node that can be merged with the next sibling only because
    there is no previous one; and exactly two text nodes that are both merged. *)
Definition replace_bad (d d1 : dom) (l1 l2 : list nat) : Prop :=
  let n0 := length (nodes d) in
  (sibs d1 n0 [n0] /\ is_text_node d1 n0 /\ l1 = [] /\
     exists c l, l2 = c :: l /\ is_text_node d1 c) \/
  (exists b, sibs d1 n0 [n0; b] /\ is_text_node d1 n0 /\ is_text_node d1 b /\
     (exists c l, l1 = l ++ [c] /\ is_text_node d1 c) /\
     (exists c l, l2 = c :: l /\ is_text_node d1 c)).

(** Arguments covered by the theorems. *)
Definition valid (d : dom) (bl : bytes) (o : op) : Prop :=
  match o with
  | AppendDoc p _ | AppendText p _ | PrependDoc p _ | PrependText p _ | SetText p _ =>
      node_id d p
  | AppendHtml p h | PrependHtml p h => node_id d p /\ has_nodes d bl h
  | ReplaceDoc n _ | ReplaceText n _ | Remove n => attached d n
  | ReplaceHtml n h =>
      attached d n /\ has_nodes d bl h /\
      forall d1 p l1 l2, parse_extra (Some bl) h d = Ok (true, d1) ->
        children d p (l1 ++ n :: l2) -> ~ replace_bad d d1 l1 l2
  | RemoveChildren n => n <> 0
  | AddBool n _ | AddProp n _ _ | RemoveBool n _ | RemoveProp n _ | SetProp n _ _ => node_id d n
  | AddText n _ _ => kind d n = Some TText
  | SetTag n _ _ => kind d n = Some TDocument
  end.

(** The fragment given to an operation, if any. *)
Definition fragment (o : op) : bytes :=
  match o with
  | AppendHtml _ h | PrependHtml _ h | ReplaceHtml _ h => h
  | _ => []
  end.

(** DOMs obtained by [createDom] followed by any number of valid calls. *)
Inductive reachable : dom -> Prop :=
| reach_create t d : create_dom t = Ok (Some d) -> reachable d
| reach_step d bl o d' : reachable d -> valid d bl o -> run bl o d = Ok d' -> reachable d'.

(** ** The 16-bit limits *)

(** The number of ids (nodes, or strings of one registry) a call may create. *)
Definition op_cost (o : op) : nat :=
  match o with
  | AppendDoc _ e | PrependDoc _ e | ReplaceDoc _ e =>
      2 + length (dn_bools e) + length (dn_props e)
  | AppendText _ _ | PrependText _ _ | ReplaceText _ _ | SetText _ _ => 1
  | AppendHtml _ h | PrependHtml _ h | ReplaceHtml _ h => length h
  | AddBool _ _ | AddProp _ _ _ | SetProp _ _ _ | SetTag _ _ _ => 1
  | Remove _ | RemoveChildren _ | RemoveBool _ _ | RemoveProp _ _ | AddText _ _ _ => 0
  end.

(** [c] more nodes and [c] more strings per registry fit below the limit of
    65535 (entry 0 of each registry is a dummy). *)
Definition room_for (d : dom) (c : nat) : Prop :=
  (N.of_nat (length (nodes d)) + N.of_nat c <= 65535)%N /\
  (N.of_nat (length (tag_reg d)) + N.of_nat c <= 65536)%N /\
  (N.of_nat (length (bool_reg d)) + N.of_nat c <= 65536)%N /\
  (N.of_nat (length (key_reg d)) + N.of_nat c <= 65536)%N /\
  (N.of_nat (length (val_reg d)) + N.of_nat c <= 65536)%N.

(** The call ends in a result satisfying [Q] or leaves through longjmp, and the
    latter only if fewer than [c] ids are free. *)
Definition gives {A} (d : dom) (c : nat) (o : outcome A) (Q : A -> Prop) : Prop :=
  ends_in o Q /\ (room_for d c -> exists a, o = Ok a).

(** ** Merging a parsed fragment (top-level nodes [tops] in [d1]) with the text
    nodes around the place it is put into *)

(** The first top-level node and the last node before the place are both text:
    the text is appended to the latter. *)
Definition first_merge (d d1 : dom) (l1 tops : list nat) (m : option (nat * bytes)) : Prop :=
  match m with
  | Some (t, s') => exists old s a r, tops = a :: r /\ ends_with_text d l1 t old /\
                      text_of d1 a = Some s /\ s' = old ++ [cSP] ++ s
  | None => no_text_end d l1 \/ no_text_start d1 tops
  end.
(** The last top-level node and the first node after the place. *)
Definition last_merge (d d1 : dom) (l2 tops : list nat) (m : option (nat * bytes)) : Prop :=
  match m with
  | Some (t, s') => exists old s a r, tops = r ++ [a] /\ starts_with_text d l2 t old /\
                      text_of d1 a = Some s /\ s' = s ++ [cSP] ++ old
  | None => no_text_start d l2 \/ no_text_end d1 tops
  end.
(** The merge is done: the old text node has the new text, the fragment's text
    node [src] is removed. *)
Definition merge_done (d d' : dom) (m : option (nat * bytes)) (src : nat) : Prop :=
  match m with
  | Some (t, s') => retexted d d' t s' /\ removed d' [src]
  | None => True
  end.
Definition merge_ids (m : option (nat * bytes)) (src : nat) : list nat :=
  match m with Some (t, _) => [t; src] | None => [] end.
(** A text put between [l1] and [l2] goes into text node [t], which gets [s']. *)
Definition merges_into (d : dom) (l1 l2 : list nat) (s : bytes) (t : nat) (s' : bytes) : Prop :=
  (exists old, ends_with_text d l1 t old /\ s' = old ++ [cSP] ++ s) \/
  (no_text_end d l1 /\ exists old, starts_with_text d l2 t old /\ s' = s ++ [cSP] ++ old).

(** ** String tables and histories *)

(** A registry (entry 0 is a dummy) and its lookup function are inverse to each
    other: looking up a string gives 0 if it is not registered and otherwise
    the index under which it is stored; every index from 1 on is found. *)
Definition interns (reg : list bytes) (look : bytes -> outcome nat) : Prop :=
  (forall s, exists id, look s = Ok id /\
     (id <> 0 -> nth_error reg id = Some s) /\
     (id = 0 -> forall i, i <> 0 -> nth_error reg i <> Some s)) /\
  (forall i, i <> 0 -> i < length reg -> exists s, nth_error reg i = Some s /\ look s = Ok i).

(** [d'] comes from [d] by any number of valid calls. *)
Inductive later : dom -> dom -> Prop :=
| later_refl d : later d d
| later_step d bl o d1 d' : valid d bl o -> run bl o d = Ok d1 -> later d1 d' -> later d d'.

(** The attribute operations of a call touch node [n] only. *)
Definition only_attrs_of (d d' : dom) (n : nat) : Prop :=
  kind d' n = kind d n /\ tag_name d' n = tag_name d n /\ text_of d' n = text_of d n /\
  (forall p l, children d' p l <-> children d p l) /\
  (forall m, m <> n -> m <> 0 -> same_content d d' m).
