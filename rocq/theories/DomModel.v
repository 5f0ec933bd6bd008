(** * The DOM data structure and its elementary operations.  Definitions only. *)
From Coq Require Import List NArith Arith Bool.
From Verif Require Import Base TrieModel.
Import ListNotations.
Local Open Scope nat_scope.

(** [flo_html_NodeType]: include/flo/html-parser/node/node.h:14-21 *)
Inductive ntype : Type := TRoot | TDocument | TText | TRemoved | TError.

(** The anonymous union of [flo_html_Node]:
    include/flo/html-parser/node/node.h:39-42.  [PNone]: not written yet. *)
Inductive payload : Type :=
| PTag (tagID : nat)
| PText (text : bytes)
| PNone.

(** [flo_html_Node]: include/flo/html-parser/node/node.h:36-43 *)
Record node : Type := mkNode { n_id : nat; n_type : ntype; n_pay : payload }.

(** [flo_html_TagRegistration]: include/flo/html-parser/node/tag-registration.h *)
Record tagreg : Type := mkTag { t_name : bytes; t_paired : bool }.

(** [flo_html_Property]: include/flo/html-parser/node/property.h *)
Record prop : Type := mkProp { p_node : nat; p_key : nat; p_val : nat }.

(** [flo_html_Dom]: include/flo/html-parser/dom/dom.h:35-57.  The entries of
    [parentFirstChilds]/[parentChilds] are (parentID, childID), those of
    [nextNodes] (currentNodeID, nextNodeID), those of [boolProps]
    (nodeID, propID). *)
Record dom : Type := mkDom {
  nodes : list node;
  firsts : list (nat * nat);      (* parentFirstChilds *)
  pchilds : list (nat * nat);     (* parentChilds *)
  nexts : list (nat * nat);       (* nextNodes *)
  bprops : list (nat * nat);      (* boolProps *)
  props : list prop;
  tag_reg : list tagreg;
  bool_reg : list bytes;
  key_reg : list bytes;
  val_reg : list bytes;
  tag_map : amap;
  bool_map : amap;
  key_map : amap;
  val_map : amap }.

(** Assignments to one field. *)
Definition set_nodes d x := mkDom x (firsts d) (pchilds d) (nexts d) (bprops d)
  (props d) (tag_reg d) (bool_reg d) (key_reg d) (val_reg d) (tag_map d)
  (bool_map d) (key_map d) (val_map d).
Definition set_firsts d x := mkDom (nodes d) x (pchilds d) (nexts d) (bprops d)
  (props d) (tag_reg d) (bool_reg d) (key_reg d) (val_reg d) (tag_map d)
  (bool_map d) (key_map d) (val_map d).
Definition set_pchilds d x := mkDom (nodes d) (firsts d) x (nexts d) (bprops d)
  (props d) (tag_reg d) (bool_reg d) (key_reg d) (val_reg d) (tag_map d)
  (bool_map d) (key_map d) (val_map d).
Definition set_nexts d x := mkDom (nodes d) (firsts d) (pchilds d) x (bprops d)
  (props d) (tag_reg d) (bool_reg d) (key_reg d) (val_reg d) (tag_map d)
  (bool_map d) (key_map d) (val_map d).
Definition set_bprops d x := mkDom (nodes d) (firsts d) (pchilds d) (nexts d) x
  (props d) (tag_reg d) (bool_reg d) (key_reg d) (val_reg d) (tag_map d)
  (bool_map d) (key_map d) (val_map d).
Definition set_props d x := mkDom (nodes d) (firsts d) (pchilds d) (nexts d)
  (bprops d) x (tag_reg d) (bool_reg d) (key_reg d) (val_reg d) (tag_map d)
  (bool_map d) (key_map d) (val_map d).
Definition set_tags d r m := mkDom (nodes d) (firsts d) (pchilds d) (nexts d)
  (bprops d) (props d) r (bool_reg d) (key_reg d) (val_reg d) m
  (bool_map d) (key_map d) (val_map d).
Definition set_bools d r m := mkDom (nodes d) (firsts d) (pchilds d) (nexts d)
  (bprops d) (props d) (tag_reg d) r (key_reg d) (val_reg d) (tag_map d)
  m (key_map d) (val_map d).
Definition set_keys d r m := mkDom (nodes d) (firsts d) (pchilds d) (nexts d)
  (bprops d) (props d) (tag_reg d) (bool_reg d) r (val_reg d) (tag_map d)
  (bool_map d) m (val_map d).
Definition set_vals d r m := mkDom (nodes d) (firsts d) (pchilds d) (nexts d)
  (bprops d) (props d) (tag_reg d) (bool_reg d) (key_reg d) r (tag_map d)
  (bool_map d) (key_map d) m.

(** [FLO_PUSH] on each table: util/include/flo/util/array.h:58-79 (growth is
    modelled separately in MemModel.v). *)
Definition push_node d x := set_nodes d (nodes d ++ [x]).
Definition push_first d x := set_firsts d (firsts d ++ [x]).
Definition push_pchild d x := set_pchilds d (pchilds d ++ [x]).
Definition push_next d x := set_nexts d (nexts d ++ [x]).
Definition push_bprop d x := set_bprops d (bprops d ++ [x]).
Definition push_prop d x := set_props d (props d ++ [x]).

(** The DOM built by [flo_html_createDom] before parsing: src/dom/dom.c:24-40.
    Node 0 is the error node, node 1 the root; the unnamed union member is
    zero-initialised; entry 0 of each registry is a dummy. *)
Definition empty_dom : dom :=
  mkDom [mkNode 0 TError (PTag 0); mkNode 1 TRoot (PTag 0)]
        [] [] [] [] []
        [mkTag [] false] [[]] [[]] [[]]
        empty_map empty_map empty_map empty_map.

(** [flo_html_createNode]: src/dom/dom-util.c:13-26. *)
Definition create_node (ty : ntype) (d : dom) : outcome (nat * dom) :=
  if (N.of_nat (length (nodes d)) <=? 65534)%N then
    let id := length (nodes d) in
    Ok (id, push_node d (mkNode id ty PNone))
  else Longjmp NodeLimit.

(** [dom->nodes.buf[id]] *)
Definition get_node (d : dom) (id : nat) : outcome node :=
  match nth_error (nodes d) id with
  | Some n => Ok n
  | None => Undef OobRead
  end.

(** [dom->nodes.buf[id].text = t] and [.tagID = t] *)
Definition set_pay (d : dom) (id : nat) (p : payload) : outcome dom :=
  let* n := get_node d id in
  Ok (set_nodes d (upd (nodes d) id (mkNode (n_id n) (n_type n) p))).

(** [dom->nodes.buf[id].text] read as a string.  Only used after checking
    that the node is a text node; anything else is reported as [Undef]. *)
Definition node_text (n : node) : outcome bytes :=
  match n_pay n with
  | PText t => Ok t
  | _ => Undef OobRead
  end.

(** [getCreatedPropIDFromString]: src/dom/modification.c:19-43, for the three
    property types. *)
Definition intern_bool (s : bytes) (d : dom) : outcome (nat * dom) :=
  let* '(ins, id, m) := map_insert s (bool_map d) in
  Ok (id, set_bools d (if ins then bool_reg d ++ [s] else bool_reg d) m).
Definition intern_key (s : bytes) (d : dom) : outcome (nat * dom) :=
  let* '(ins, id, m) := map_insert s (key_map d) in
  Ok (id, set_keys d (if ins then key_reg d ++ [s] else key_reg d) m).
Definition intern_val (s : bytes) (d : dom) : outcome (nat * dom) :=
  let* '(ins, id, m) := map_insert s (val_map d) in
  Ok (id, set_vals d (if ins then val_reg d ++ [s] else val_reg d) m).

(** [flo_html_addPropertyToNode]: src/dom/modification.c:45-56 *)
Definition add_property (id : nat) (k v : bytes) (d : dom) : outcome dom :=
  let* '(kid, d) := intern_key k d in
  let* '(vid, d) := intern_val v d in
  Ok (push_prop d (mkProp id kid vid)).

(** [flo_html_addBooleanPropertyToNode]: src/dom/modification.c:58-66 *)
Definition add_bool_property (id : nat) (b : bytes) (d : dom) : outcome dom :=
  let* '(bid, d) := intern_bool b d in
  Ok (push_bprop d (id, bid)).

(** [flo_html_setTagOnDocumentNode]: src/dom/modification.c:127-138 *)
Definition set_tag (tag : bytes) (id : nat) (paired : bool) (d : dom)
  : outcome dom :=
  let* '(ins, tid, m) := map_insert tag (tag_map d) in
  let d := set_tags d (if (ins : bool) then tag_reg d ++ [mkTag tag paired]
                       else tag_reg d) m in
  set_pay d id (PTag tid).

(** ** Lookups: src/dom/traversal.c:5-87.
    The 16-bit loop counters of three of the searches are treated separately
    in CounterModel.v. *)
Definition first_idx (p : nat) (d : dom) : option nat :=       (* :5-13 *)
  find_idx (fun e => fst e =? p) (firsts d).
Definition next_idx (c : nat) (d : dom) : option nat :=        (* :27-35 *)
  find_idx (fun e => fst e =? c) (nexts d).
Definition parent_idx (c : nat) (d : dom) : option nat :=      (* flo_html_getParentNode :48-57 *)
  find_idx (fun e => snd e =? c) (pchilds d).
Definition prev_idx (c : nat) (d : dom) : option nat :=        (* :69-77 *)
  find_idx (fun e => snd e =? c) (nexts d).

(** Reading through the returned pointer (the index is in range). *)
Definition at_idx (l : list (nat * nat)) (i : nat) : nat * nat := nth i l (0, 0).

Definition get_first_child (p : nat) (d : dom) : nat :=        (* :15-24 *)
  match first_idx p d with Some i => snd (at_idx (firsts d) i) | None => 0 end.
Definition get_next (c : nat) (d : dom) : nat :=               (* :37-45 *)
  match next_idx c d with Some i => snd (at_idx (nexts d) i) | None => 0 end.
Definition get_parent (c : nat) (d : dom) : nat :=             (* flo_html_getParent :59-67 *)
  match parent_idx c d with Some i => fst (at_idx (pchilds d) i) | None => 0 end.
Definition get_previous (c : nat) (d : dom) : nat :=           (* :79-87 *)
  match prev_idx c d with Some i => fst (at_idx (nexts d) i) | None => 0 end.

(** [flo_html_getLastNext]: src/dom/traversal.c:141-151.  The C loop runs while
    [getNextNode] is non-NULL. *)
Fixpoint last_next_loop (fuel : nat) (c : nat) (d : dom) : outcome nat :=
  match next_idx c d with
  | None => Ok c
  | Some i =>
      match fuel with
      | O => NoFuel
      | S f => last_next_loop f (snd (at_idx (nexts d) i)) d
      end
  end.
Definition get_last_next (c : nat) (d : dom) : outcome nat :=
  last_next_loop (S (length (nexts d))) c d.

(** [flo_html_getLastNextNode]: src/dom/traversal.c:153-169; the pointer to the
    entry is returned as an index into [nexts]. *)
Fixpoint last_next_node_loop (fuel : nat) (i : nat) (d : dom) : outcome nat :=
  match next_idx (snd (at_idx (nexts d) i)) d with
  | None => Ok i
  | Some j =>
      match fuel with
      | O => NoFuel
      | S f => last_next_node_loop f j d
      end
  end.
Definition get_last_next_node (c : nat) (d : dom) : outcome (option nat) :=
  match next_idx c d with
  | None => Ok None
  | Some i => let* j := last_next_node_loop (S (length (nexts d))) i d in
              Ok (Some j)
  end.

(** Parent-climbing loop shared by [traverseDom] (:129-136, [stop = 0]) and
    [traverseNode] (:103-111). *)
Fixpoint climb (fuel : nat) (p stop : nat) (d : dom) : outcome nat :=
  if (p =? 0) || (p =? stop) then Ok 0
  else
    let n := get_next p d in
    if n =? 0 then
      match fuel with
      | O => NoFuel
      | S f => climb f (get_parent p d) stop d
      end
    else Ok n.

(** [flo_html_traverseNode]: src/dom/traversal.c:89-115 *)
Definition traverse_node (c scope : nat) (d : dom) : outcome nat :=
  let f := get_first_child c d in
  if negb (f =? 0) then Ok f
  else
    let n := get_next c d in
    if (0 <? n) && negb (n =? scope) then Ok n
    else if negb (c =? scope) then
      climb (S (length (pchilds d))) (get_parent c d) scope d
    else Ok 0.

(** [flo_html_traverseDom]: src/dom/traversal.c:117-139 *)
Definition traverse_dom (c : nat) (d : dom) : outcome nat :=
  let f := get_first_child c d in
  if negb (f =? 0) then Ok f
  else
    let n := get_next c d in
    if negb (n =? 0) then Ok n
    else climb (S (length (pchilds d))) (get_parent c d) 0 d.
