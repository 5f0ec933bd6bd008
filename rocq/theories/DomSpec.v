(** * Specification vocabulary: what a user sees of a DOM through the
    navigation functions [getFirstChild], [getNext], [traverseDom], ...
    Definitions only. *)
From Coq Require Import List NArith Arith Bool.
From Verif Require Import Base TrieModel DomModel ParserModel.
Import ListNotations.
Local Open Scope nat_scope.

(** [sibs d c l]: starting at node [c] (0 = none) and following [getNext] until
    it answers 0 visits exactly [l]. *)
Inductive sibs (d : dom) : nat -> list nat -> Prop :=
| sibs_nil : sibs d 0 []
| sibs_cons c l : c <> 0 -> sibs d (get_next c d) l -> sibs d c (c :: l).

(** The children of [p]: [getFirstChild] and then [getNext] until 0. *)
Definition children (d : dom) (p : nat) (l : list nat) : Prop :=
  sibs d (get_first_child p d) l.

(** [n] is in the child list of some node. *)
Definition attached (d : dom) (n : nat) : Prop :=
  exists p l, p <> 0 /\ children d p l /\ In n l.

(** Pre-order listing of the subtree at a node. *)
Inductive preorder (d : dom) : nat -> list nat -> Prop :=
| pre_node p cs l : children d p cs -> preorders d cs l -> preorder d p (p :: l)
with preorders (d : dom) : list nat -> list nat -> Prop :=
| pre_nil : preorders d [] []
| pre_cons c cs l ls : preorder d c l -> preorders d cs ls ->
                       preorders d (c :: cs) (l ++ ls).

(** Calling [traverseDom] again and again from [c] until it answers 0. *)
Inductive dom_walk (d : dom) : nat -> list nat -> Prop :=
| walk_stop c : traverse_dom c d = Ok 0 -> dom_walk d c []
| walk_step c n l : traverse_dom c d = Ok n -> n <> 0 -> dom_walk d n l ->
                    dom_walk d c (n :: l).

(** The same with [traverseNode] and scope [s]. *)
Inductive node_walk (d : dom) (s : nat) : nat -> list nat -> Prop :=
| nwalk_stop c : traverse_node c s d = Ok 0 -> node_walk d s c []
| nwalk_step c n l : traverse_node c s d = Ok n -> n <> 0 -> node_walk d s n l ->
                     node_walk d s c (n :: l).

(** [x] is [n] or below it. *)
Inductive below_eq (d : dom) : nat -> nat -> Prop :=
| below_refl n : below_eq d n n
| below_step n c l x : children d n l -> In c l -> below_eq d c x -> below_eq d n x.

(** ** Contents of a node as read through the registries *)

Definition kind (d : dom) (n : nat) : option ntype :=
  match nth_error (nodes d) n with Some x => Some (n_type x) | None => None end.

(** The tag name of an element: [tagRegistry.buf[node.tagID]]. *)
Definition tag_name (d : dom) (n : nat) : option bytes :=
  match nth_error (nodes d) n with
  | Some (mkNode _ TDocument (PTag t)) =>
      match nth_error (tag_reg d) t with
      | Some r => Some (t_name r)
      | None => None
      end
  | _ => None
  end.

Definition text_of (d : dom) (n : nat) : option bytes :=
  match nth_error (nodes d) n with
  | Some (mkNode _ TText (PText s)) => Some s
  | _ => None
  end.

(** Boolean attributes and key/value attributes of a node, in table order. *)
Definition bool_attrs (d : dom) (n : nat) : list bytes :=
  map (fun e => nth (snd e) (bool_reg d) [])
      (filter (fun e => fst e =? n) (bprops d)).
Definition attrs (d : dom) (n : nat) : list (bytes * bytes) :=
  map (fun e => (nth (p_key e) (key_reg d) [], nth (p_val e) (val_reg d) []))
      (filter (fun e => p_node e =? n) (props d)).

(** Everything the read API tells about one node, apart from its position. *)
Definition content (d : dom) (n : nat) :=
  (kind d n, tag_name d n, text_of d n, bool_attrs d n, attrs d n).

Definition same_content (d d' : dom) (n : nat) : Prop := content d' n = content d n.

(** ** Attribute lists *)

(** Drop the first element satisfying [f]. *)
Fixpoint remove_first {A} (f : A -> bool) (l : list A) : list A :=
  match l with
  | [] => []
  | x :: l' => if f x then l' else x :: remove_first f l'
  end.

(** Give the first attribute with key [k] the value [v]. *)
Fixpoint set_first (k v : bytes) (l : list (bytes * bytes)) : list (bytes * bytes) :=
  match l with
  | [] => []
  | (k', v') :: l' => if beq k k' then (k', v) :: l' else (k', v') :: set_first k v l'
  end.

(** The value of the first attribute with key [k]. *)
Fixpoint first_value (k : bytes) (l : list (bytes * bytes)) : option bytes :=
  match l with
  | [] => None
  | (k', v) :: l' => if beq k k' then Some v else first_value k l'
  end.

(** ** Effects of an edit *)

(** [x] is an element with exactly the tag and attributes of [e]. *)
Definition elem_content (d : dom) (x : nat) (e : docnode) : Prop :=
  content d x = (Some TDocument, Some (dn_tag e), None, dn_bools e, dn_props e).
(** [x] is a text node with text [s] and no attributes. *)
Definition text_content (d : dom) (x : nat) (s : bytes) : Prop :=
  content d x = (Some TText, None, Some s, [], []).
(** The contents of all nodes but those listed are unchanged. *)
Definition keeps_but (d d' : dom) (l : list nat) : Prop :=
  forall i, ~ In i l -> same_content d d' i.
(** The text of text node [c] became [s], its attributes are unchanged. *)
Definition retexted (d d' : dom) (c : nat) (s : bytes) : Prop :=
  kind d' c = Some TText /\ text_of d' c = Some s /\
  bool_attrs d' c = bool_attrs d c /\ attrs d' c = attrs d c.
(** Element [c] got the name [tag]. *)
Definition retagged (d d' : dom) (c : nat) (tag : bytes) : Prop :=
  kind d' c = Some TDocument /\ tag_name d' c = Some tag /\
  bool_attrs d' c = bool_attrs d c /\ attrs d' c = attrs d c.
(** The child lists of all nodes but those listed are unchanged. *)
Definition same_children_but (d d' : dom) (l : list nat) : Prop :=
  forall q m, ~ In q l -> (children d' q m <-> children d q m).
(** The last (first) node of [l] is text node [c] with text [s] / is no text node. *)
Definition ends_with_text (d : dom) (l : list nat) (c : nat) (s : bytes) : Prop :=
  (exists l0, l = l0 ++ [c]) /\ text_of d c = Some s.
Definition starts_with_text (d : dom) (l : list nat) (c : nat) (s : bytes) : Prop :=
  (exists l0, l = c :: l0) /\ text_of d c = Some s.
Definition no_text_end (d : dom) (l : list nat) : Prop :=
  forall l0 c, l = l0 ++ [c] -> text_of d c = None.
Definition no_text_start (d : dom) (l : list nat) : Prop :=
  forall l0 c, l = c :: l0 -> text_of d c = None.
(** The nodes of [l] are removed: childless and in no child list. *)
Definition removed (d : dom) (l : list nat) : Prop :=
  forall x, In x l -> kind d x = Some TRemoved /\ children d x [] /\ ~ attached d x.

(** The texts of the text nodes in [l], in order. *)
Definition texts (d : dom) (l : list nat) : list bytes :=
  flat_map (fun c => match text_of d c with Some s => [s] | None => [] end) l.

(** ** Parser inputs and outputs *)

(** The last byte of the input is a quote character. *)
Definition ends_quote (t : bytes) : Prop :=
  exists a q, t = a ++ [q] /\ (q = cSQ \/ q = cDQ).

(** No tab, newline or carriage return, and every space is followed by
    something that is not a space. *)
Definition normP (s : bytes) : Prop :=
  forall m c, nth_error s m = Some c ->
    is_fmt c = false /\ (c = cSP -> exists c', nth_error s (S m) = Some c' /\ c' <> cSP).

(** A void element or a declaration: the thirteen names of [void_tags], or a
    name that begins with '!'. *)
Definition leaf_tag (tag : bytes) : Prop :=
  is_void tag = true \/ hd_error tag = Some cBANG.
