(** * What a selector means.  Definitions only. *)
From Coq Require Import List NArith Arith Bool.
From Verif Require Import Base TrieModel DomModel ParserModel DomSpec MsiModel QueryModel.
Import ListNotations.
Local Open Scope nat_scope.

(** ** Abstract selectors *)
Inductive simple : Type :=
| Tag (name : bytes)            (* name *)
| Attr (name : bytes)           (* [name] *)
| AttrIs (k v : bytes).         (* [k=v]; .c is [class=c], #i is [id=i] *)
Definition compound := list simple.
Inductive rel : Type := Child | Descendant | NextSib | LaterSib.
(** First compound, then combinators and compounds from left to right. *)
Definition selector := (compound * list (rel * compound))%type.

(** ** Meaning *)
Section Meaning.
  Context (lo : nat -> nat) (d : dom).

  (** The name the query engine sees as the tag of node [n]: for an element its
      tag; for a node that was replaced still its old tag; for a text node the
      registry entry with the number [lo n] (the low bits of its text address). *)
  Definition seen_tag (n : nat) (name : bytes) : Prop :=
    exists x t, nth_error (nodes d) n = Some x /\
      (n_pay x = PTag t \/ (exists s, n_pay x = PText s) /\ t = lo n) /\
      t <> 0 /\ nth_error (map t_name (tag_reg d)) t = Some name.

  Definition matches1 (n : nat) (s : simple) : Prop :=
    match s with
    | Tag name => seen_tag n name
    | Attr b => In b (bool_attrs d n)
    | AttrIs k v => In (k, v) (attrs d n)
    end.
  Definition matches (n : nat) (c : compound) : Prop := forall s, In s c -> matches1 n s.

  Definition is_element (n : nat) : Prop := kind d n = Some TDocument.

  (** [n] is below [m], all nodes from [n] up to the child of [m] being elements. *)
  Inductive under (m : nat) : nat -> Prop :=
  | under_child n : is_element n -> get_parent n d = m -> under m n
  | under_step p n : under m p -> is_element n -> get_parent n d = p -> under m n.
  (** [n] is a later sibling of [m]. *)
  Inductive after (m : nat) : nat -> Prop :=
  | after_next n : get_next m d = n -> n <> 0 -> after m n
  | after_step p n : after m p -> get_next p d = n -> n <> 0 -> after m n.

  Definition related (r : rel) (m n : nat) : Prop :=
    match r with
    | Child => is_element n /\ get_parent n d = m
    | Descendant => under m n
    | NextSib => get_next m d = n /\ n <> 0
    | LaterSib => after m n
    end.

  Fixpoint select (S : nat -> Prop) (l : list (rel * compound)) : nat -> Prop :=
    match l with
    | [] => S
    | (r, c) :: l' =>
        select (fun n => matches n c /\ exists m, S m /\ related r m n) l'
    end.
  Definition selects (s : selector) : nat -> Prop :=
    select (fun n => 1 <= n < length (nodes d) /\ matches n (fst s)) (snd s).

  (** All names of the selector occur in the DOM. *)
  Definition known1 (s : simple) : Prop :=
    match s with
    | Tag name => exists i, i <> 0 /\ nth_error (map t_name (tag_reg d)) i = Some name
    | Attr b => exists i, i <> 0 /\ nth_error (bool_reg d) i = Some b
    | AttrIs k v => (exists i, i <> 0 /\ nth_error (key_reg d) i = Some k) /\
                    (exists i, i <> 0 /\ nth_error (val_reg d) i = Some v)
    end.
  Definition compounds (s : selector) : list compound := fst s :: map snd (snd s).
  Definition known (s : selector) : Prop :=
    forall c x, In c (compounds s) -> In x c -> known1 x.
  (** At most eight conditions per element. *)
  Definition small (s : selector) : Prop :=
    forall c, In c (compounds s) -> length c <= 8.
End Meaning.

(** No text address looks like the id of a registered tag. *)
Definition no_collision (lo : nat -> nat) (d : dom) : Prop :=
  forall n s, text_of d n = Some s -> lo n = 0 \/ length (tag_reg d) <= lo n.

(** ** Meaning in terms of the tree *)
Inductive elem_below (d : dom) : nat -> nat -> Prop :=
| eb_child m n l : children d m l -> In n l -> is_element d n -> elem_below d m n
| eb_step m c n l : children d m l -> In c l -> is_element d c -> elem_below d c n ->
    elem_below d m n.
Definition tree_related (d : dom) (r : rel) (m n : nat) : Prop :=
  match r with
  | Child => exists l, children d m l /\ In n l /\ is_element d n
  | Descendant => elem_below d m n
  | NextSib => exists p l1 l2, children d p (l1 ++ m :: n :: l2)
  | LaterSib => exists p l1 l2, children d p (l1 ++ m :: l2) /\ In n l2
  end.
Definition css_matches1 (d : dom) (n : nat) (s : simple) : Prop :=
  match s with
  | Tag name => tag_name d n = Some name
  | Attr b => In b (bool_attrs d n)
  | AttrIs k v => In (k, v) (attrs d n)
  end.
Definition css_matches (d : dom) (n : nat) (c : compound) : Prop :=
  forall s, In s c -> css_matches1 d n s.
Fixpoint css_select (d : dom) (S : nat -> Prop) (l : list (rel * compound)) : nat -> Prop :=
  match l with
  | [] => S
  | (r, c) :: l' =>
      css_select d (fun n => css_matches d n c /\ exists m, S m /\ tree_related d r m n) l'
  end.
Definition css_selects (d : dom) (s : selector) : nat -> Prop :=
  css_select d (fun n => 1 <= n < length (nodes d) /\ css_matches d n (fst s)) (snd s).

(** ** Concrete syntax *)
Definition tag_token (s : bytes) : Prop :=
  exists c r, s = c :: r /\ is_tag_start c = true /\
    Forall (fun x => end_of_filter x = false /\ x <> cCOMMA) r.
Definition attr_token (s : bytes) : Prop :=
  exists c r, s = c :: r /\ is_tag_start c = true /\
    Forall (fun x => is_blank x = false /\ x <> cEQ /\ x <> cRB /\ x <> cCOMMA) r.
(** Class and id names; unlike CSS the name ends only at a blank, '=' or ']'. *)
Definition class_token (s : bytes) : Prop :=
  attr_token s /\ Forall (fun x => x <> cDOT /\ x <> cHASH /\ x <> cLB) s.
Definition blanks (s : bytes) : Prop := Forall (fun c => is_blank c = true) s.

(** [name] and [k=v] filters. *)
Inductive brackets : compound -> bytes -> Prop :=
| br_nil : brackets [] []
| br_attr n c s : attr_token n -> brackets c s ->
    brackets (Attr n :: c) ([cLB] ++ n ++ [cRB] ++ s)
| br_is k v c s : attr_token k -> attr_token v -> brackets c s ->
    brackets (AttrIs k v :: c) ([cLB] ++ k ++ [cEQ] ++ v ++ [cRB] ++ s).
Inductive compound_str : compound -> bytes -> Prop :=
| cs_tag n c s : tag_token n -> brackets c s -> compound_str (Tag n :: c) (n ++ s)
| cs_attr c s : brackets c s -> c <> [] -> compound_str c s.
(** Only the last compound can have a class or id, as its last filter. *)
Inductive last_str : compound -> bytes -> Prop :=
| ls_plain c s : compound_str c s -> last_str c s
| ls_class c s v : compound_str c s -> class_token v ->
    last_str (c ++ [AttrIs s_class v]) (s ++ [cDOT] ++ v)
| ls_id c s v : compound_str c s -> class_token v ->
    last_str (c ++ [AttrIs s_id v]) (s ++ [cHASH] ++ v)
| ls_class1 v : class_token v -> last_str [AttrIs s_class v] ([cDOT] ++ v)
| ls_id1 v : class_token v -> last_str [AttrIs s_id v] ([cHASH] ++ v).
Definition rel_char (r : rel) : bytes :=
  match r with
  | Child => [cGT] | NextSib => [cPLUS] | LaterSib => [cTILDE] | Descendant => []
  end.
Definition rel_str (r : rel) (s : bytes) : Prop :=
  exists a b, blanks a /\ blanks b /\ s = a ++ rel_char r ++ b /\ s <> [].
Inductive tail_str : compound -> list (rel * compound) -> bytes -> Prop :=
| ts_last c s b : last_str c s -> blanks b -> tail_str c [] (s ++ b)
| ts_more c s r g c' l s' : compound_str c s -> rel_str r g -> tail_str c' l s' ->
    tail_str c ((r, c') :: l) (s ++ g ++ s').
(** One selector, possibly with blanks around it. *)
Definition selector_str (x : selector) (s : bytes) : Prop :=
  exists b r, blanks b /\ tail_str (fst x) (snd x) r /\ s = b ++ r.
(** A comma-separated list. *)
Inductive list_str : list selector -> bytes -> Prop :=
| li_one x s : selector_str x s -> list_str [x] s
| li_more x s l t : selector_str x s -> list_str l t -> list_str (x :: l) (s ++ [cCOMMA] ++ t).
