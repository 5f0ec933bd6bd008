(** * The document as a tree machine (C84, C85).  Definitions only.

    A document is a tree whose nodes carry their id and what can be read from
    them; every editing call is a function on such trees.  Nothing here mentions
    tables, registries, links or sibling pointers. *)
From Coq Require Import List NArith Arith Bool.
From Verif Require Import Base DomModel ParserModel EditModel DomSpec ApiSpec GrammarSpec ReaderSpec.
Import ListNotations.
Local Open Scope nat_scope.

Record label : Type := mkLabel {
  l_kind : ntype; l_tag : option bytes; l_text : option bytes;
  l_bools : list bytes; l_props : list (bytes * bytes) }.
Inductive vtree : Type := V (id : nat) (l : label) (kids : list vtree).
Definition vid (v : vtree) : nat := match v with V i _ _ => i end.
Definition vlabel (v : vtree) : label := match v with V _ l _ => l end.
Definition vkids (v : vtree) : list vtree := match v with V _ _ ks => ks end.
Fixpoint ids (v : vtree) : list nat := match v with V i _ ks => i :: flat_map ids ks end.

Definition elem_label (e : docnode) : label :=
  mkLabel TDocument (Some (dn_tag e)) None (dn_bools e) (dn_props e).
Definition text_label (s : bytes) : label := mkLabel TText None (Some s) [] [].

(** [view d v]: the DOM shows the tree [v]. *)
Inductive view (d : dom) : vtree -> Prop :=
| view_node i l ks : 
    content d i = (Some (l_kind l), l_tag l, l_text l, l_bools l, l_props l) ->
    children d i (map vid ks) -> Forall (view d) ks -> view d (V i l ks).

(** ** Numbering the nodes of a parsed text in document order *)
Fixpoint tsize (t : tree) : nat :=
  match t with
  | Txt _ => 1
  | Elem _ _ _ ks => S (fold_right (fun k m => tsize k + m) 0 ks)
  end.
Fixpoint number (n : nat) (t : tree) : vtree :=
  match t with
  | Txt s => V n (text_label s) []
  | Elem tag bs ps ks =>
      V n (mkLabel TDocument (Some tag) None bs ps)
        ((fix go m ks := match ks with [] => [] | k :: ks' => number m k :: go (m + tsize k) ks' end) (S n) ks)
  end.
Fixpoint numbers (n : nat) (ts : list tree) : list vtree :=
  match ts with [] => [] | t :: ts' => number n t :: numbers (n + tsize t) ts' end.

(** ** Places *)

(** Change the node with id [p]. *)
Fixpoint at_node (p : nat) (f : vtree -> vtree) (v : vtree) : vtree :=
  match v with V i l ks => if i =? p then f (V i l ks) else V i l (map (at_node p f) ks) end.
(** Split a child list at the node with id [c]. *)
Fixpoint split_at (c : nat) (ks : list vtree) : option (list vtree * list vtree) :=
  match ks with
  | [] => None
  | k :: ks' => if vid k =? c then Some ([], ks')
                else match split_at c ks' with Some (a, b) => Some (k :: a, b) | None => None end
  end.
(** Change the child list that contains node [c]: [f] gets what stands before and
    behind [c]. *)
Fixpoint at_child (c : nat) (f : list vtree -> list vtree -> list vtree) (v : vtree) : vtree :=
  match v with V i l ks =>
    match split_at c ks with
    | Some (a, b) => V i l (f a b)
    | None => V i l (map (at_child c f) ks)
    end
  end.
Definition with_kids (f : list vtree -> list vtree) (v : vtree) : vtree :=
  match v with V i l ks => V i l (f ks) end.
Definition with_bools (f : list bytes -> list bytes) (v : vtree) : vtree :=
  match v with V i l ks => V i (mkLabel (l_kind l) (l_tag l) (l_text l) (f (l_bools l)) (l_props l)) ks end.
Definition with_props (f : list (bytes * bytes) -> list (bytes * bytes)) (v : vtree) : vtree :=
  match v with V i l ks => V i (mkLabel (l_kind l) (l_tag l) (l_text l) (l_bools l) (f (l_props l))) ks end.
Definition with_text (s : bytes) (v : vtree) : vtree :=
  match v with V i l ks => V i (mkLabel (l_kind l) (l_tag l) (Some s) (l_bools l) (l_props l)) ks end.

Definition with_tag (tag : bytes) (v : vtree) : vtree :=
  match v with V i l ks => V i (mkLabel (l_kind l) (Some tag) (l_text l) (l_bools l) (l_props l)) ks end.
Definition more_text_at (s : bytes) (app : bool) (v : vtree) : vtree :=
  match l_text (vlabel v) with
  | Some old => with_text (if app then old ++ [cSP] ++ s else s ++ [cSP] ++ old) v
  | None => v
  end.

(** ** Text joins text *)
Definition vtext (v : vtree) : option bytes := l_text (vlabel v).
Fixpoint last_text (ks : list vtree) : option bytes :=
  match ks with [] => None | [k] => vtext k | _ :: ks' => last_text ks' end.
Definition first_text (ks : list vtree) : option bytes := match ks with [] => None | k :: _ => vtext k end.
Fixpoint retext_last (s : bytes) (ks : list vtree) : list vtree :=
  match ks with [] => [] | [k] => [with_text s k] | k :: ks' => k :: retext_last s ks' end.
Definition retext_first (s : bytes) (ks : list vtree) : list vtree :=
  match ks with [] => [] | k :: ks' => with_text s k :: ks' end.
(** [new] behind [ks]: a text at the start of [new] is added to one at the end of [ks]. *)
Definition put_after (ks new : list vtree) : list vtree :=
  match last_text ks, first_text new with
  | Some old, Some s => retext_last (old ++ [cSP] ++ s) ks ++ tl new
  | _, _ => ks ++ new
  end.
(** [new] before [ks]. *)
Definition put_before (new ks : list vtree) : list vtree :=
  match last_text new, first_text ks with
  | Some s, Some old => removelast new ++ retext_first (s ++ [cSP] ++ old) ks
  | _, _ => new ++ ks
  end.
(** [new] between [a] and [b]; a single text joins one neighbour only, preferably
    the one before. *)
Definition put_between (a new b : list vtree) : list vtree :=
  match new with
  | [_] => match last_text a with
           | Some _ => put_after a new ++ b
           | None => a ++ put_before new b
           end
  | _ => put_after a (put_before new b)
  end.

(** ** The machine: the effect of a call on the tree; [n] is the next free id. *)
Definition html (bl : bytes) (n : nat) (h : bytes) : option (list vtree) :=
  match fragment_of bl h with Trees ts _ => Some (numbers n ts) | _ => None end.
Definition step (bl : bytes) (n : nat) (o : op) (v : vtree) : vtree :=
  match o with
  | AppendDoc p e => at_node p (with_kids (fun ks => ks ++ [V n (elem_label e) []])) v
  | AppendText p s => at_node p (with_kids (fun ks => put_after ks [V n (text_label s) []])) v
  | AppendHtml p h =>
      match html bl n h with Some new => at_node p (with_kids (fun ks => put_after ks new)) v | None => v end
  | PrependDoc p e => at_node p (with_kids (fun ks => V n (elem_label e) [] :: ks)) v
  | PrependText p s => at_node p (with_kids (put_before [V n (text_label s) []])) v
  | PrependHtml p h =>
      match html bl n h with Some new => at_node p (with_kids (put_before new)) v | None => v end
  | ReplaceDoc c e => at_child c (fun a b => a ++ V n (elem_label e) [] :: b) v
  | ReplaceText c s => at_child c (fun a b => put_between a [V n (text_label s) []] b) v
  | ReplaceHtml c h =>
      match html bl n h with Some new => at_child c (fun a b => put_between a new b) v | None => v end
  | Remove c => at_child c (fun a b => a ++ b) v
  | RemoveChildren p => at_node p (with_kids (fun _ => [])) v
  | SetText p s => at_node p (with_kids (fun _ => [V n (text_label s) []])) v
  | AddBool p b => at_node p (with_bools (fun bs => bs ++ [b])) v
  | AddProp p k w => at_node p (with_props (fun ps => ps ++ [(k, w)])) v
  | RemoveBool p b => at_node p (with_bools (remove_first (beq b))) v
  | RemoveProp p k => at_node p (with_props (remove_first (fun kv => beq k (fst kv)))) v
  | SetProp p k w => at_node p (with_props (set_first k w)) v
  | AddText p s app => at_node p (more_text_at s app) v
  | SetTag p tag _ => at_node p (with_tag tag) v
  end.

(** Trees a program gets from parsing and then editing, call by call. *)
Definition root_label : label := mkLabel TRoot None None [] [].
Inductive trace : dom -> vtree -> Prop :=
| trace_create t d ts us : create_dom t = Ok (Some d) -> document_of t = Trees ts us ->
    trace d (V 1 root_label (numbers 2 ts))
| trace_step d v bl o d' : trace d v -> valid d bl o -> run bl o d = Ok d' ->
    trace d' (step bl (length (nodes d)) o v).

(** ** Laws of editing *)

(** Two DOMs show the same tree, ids included. *)
Definition looks_same (d d' : dom) : Prop := forall v, vid v = 1 -> (view d v <-> view d' v).
(** The node whose attributes a call edits. *)
Definition attr_of (o : op) : option nat :=
  match o with
  | AddBool n _ | AddProp n _ _ | RemoveBool n _ | RemoveProp n _ | SetProp n _ _ => Some n
  | _ => None
  end.
(** The tree without the ids. *)
Fixpoint strip (v : vtree) : vtree := match v with V _ l ks => V 0 l (map strip ks) end.
