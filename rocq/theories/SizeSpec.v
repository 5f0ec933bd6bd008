(** * How big a document is, and how much a caller handed in.  Specification only. *)
From Coq Require Import List NArith Arith Bool.
From Verif Require Import Base DomModel ParserModel EditModel ApiSpec.
Import ListNotations.
Local Open Scope nat_scope.

(** Bytes of text in the document, summed over all text nodes. *)
Definition text_len (n : node) : nat := match n_pay n with PText s => length s | _ => 0 end.
Definition texts (d : dom) : nat := list_sum (map text_len (nodes d)).

(** What an edit may add: the bytes of its markup, or one node. *)
Definition op_size (o : op) : nat :=
  match o with
  | AppendHtml _ h | PrependHtml _ h | ReplaceHtml _ h => length h
  | AppendDoc _ _ | AppendText _ _ | PrependDoc _ _ | PrependText _ _ | ReplaceDoc _ _ | ReplaceText _ _ | SetText _ _ => 1
  | Remove _ | RemoveChildren _ | AddBool _ _ | AddProp _ _ _ | RemoveBool _ _ | RemoveProp _ _ | SetProp _ _ _
  | AddText _ _ _ | SetTag _ _ _ => 0
  end.

(** [history t ops d]: [d] is what [createDom t] followed by the edits [ops] left. *)
Inductive history (t : bytes) : list op -> dom -> Prop :=
| h_create d : create_dom t = Ok (Some d) -> history t [] d
| h_edit ops bl o d d' : history t ops d -> run bl o d = Ok d' -> history t (ops ++ [o]) d'.
