(** * What a user can still rely on after a call was abandoned.
    Definitions only. *)
From Coq Require Import List NArith Arith Bool.
From Verif Require Import Base TrieModel DomModel ParserModel EditModel ReadModel DomSpec ApiSpec.
Import ListNotations.
Local Open Scope nat_scope.

(** [l'] is an initial segment of [l]. *)
Definition prefix {A} (l' l : list A) : Prop := exists r, l = l' ++ r.

(** The attribute questions about node [n] have the same answers. *)
Definition same_answers (d d' : dom) (n : nat) : Prop :=
  (forall b, has_bool_prop n b d' = has_bool_prop n b d) /\
  (forall k, has_prop_key n k d' = has_prop_key n k d) /\
  (forall v, has_prop_value n v d' = has_prop_value n v d) /\
  (forall k v, has_property n k v d' = has_property n k v d) /\
  (forall k, get_value n k d' = get_value n k d).

(** Child lists of all nodes that [d] has, but those listed. *)
Definition old_children_but (d d' : dom) (l : list nat) : Prop :=
  forall q, q < length (nodes d) -> ~ In q l -> forall m, children d' q m <-> children d q m.

(** The node whose child list call [o] changes. *)
Definition edited (d : dom) (o : op) : nat :=
  match o with
  | AppendDoc p _ | AppendText p _ | AppendHtml p _
  | PrependDoc p _ | PrependText p _ | PrependHtml p _ | SetText p _ => p
  | ReplaceDoc n _ | ReplaceText n _ | ReplaceHtml n _ => get_parent n d
  | _ => 0
  end.
Definition html_call (o : op) : Prop :=
  match o with AppendHtml _ _ | PrependHtml _ _ | ReplaceHtml _ _ => True | _ => False end.

(** [setTextContent] first removes the children of its node; [b] is the
    document after this step (the document itself for the other calls). *)
Definition begun (d : dom) (o : op) (b : dom) : Prop :=
  match o with SetText n _ => remove_children n d = Ok b | _ => b = d end.

(** Text node [i] of [d] got more text in front or at the end. *)
Definition more_text (d d' : dom) (i : nat) : Prop :=
  exists old s, text_of d i = Some old /\
    (retexted d d' i (old ++ [cSP] ++ s) \/ retexted d d' i (s ++ [cSP] ++ old)).

(** What an abandoned call can leave as the child list of the edited node
    besides the old list [l] and the list [me] of the completed call: the old
    children from the insertion point on are cut off. *)
Definition cut_off (d : dom) (o : op) (l me m : list nat) : Prop :=
  match o with
  | PrependDoc _ _ | PrependText _ _ | PrependHtml _ _ =>
      m <> [] /\ (forall x, In x m -> length (nodes d) <= x) /\ me = m ++ l
  | ReplaceHtml n _ =>
      exists l1 new l2, new <> [] /\ (forall x, In x new -> length (nodes d) <= x) /\
        l = l1 ++ n :: l2 /\ m = l1 ++ new /\ me = m ++ l2
  | _ => False
  end.
(** The calls that add nothing but single entries, or replace one node by one. *)
Definition one_step (o : op) : Prop :=
  match o with
  | ReplaceDoc _ _ | ReplaceText _ _ | AddBool _ _ | AddProp _ _ _ | SetProp _ _ _
  | Remove _ | RemoveChildren _ | RemoveBool _ _ | RemoveProp _ _ | AddText _ _ _ | SetTag _ _ _ => True
  | _ => False
  end.
