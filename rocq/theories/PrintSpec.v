(** * The printed form of a document.  Definitions only. *)
From Coq Require Import String List NArith Arith Bool.
From Verif Require Import Base TrieModel DomModel ParserModel DomSpec CompareSpec PrintModel.
Import ListNotations.
Local Open Scope nat_scope.

(** [ key="value"] *)
Definition attr_text (a : bytes * bytes) : bytes :=
  lit " " ++ fst a ++ lit "=""" ++ snd a ++ lit """".
(** [<tag bool ... key="value" ...] *)
Definition open_text (d : dom) (n : nat) (tag : bytes) : bytes :=
  lit "<" ++ tag ++ flat_map (fun b => lit " " ++ b) (bool_attrs d n) ++ flat_map attr_text (attrs d n).

Inductive prints (d : dom) : nat -> bytes -> Prop :=
| prints_text n s : text_of d n = Some s -> prints d n s
| prints_root n l s : kind d n = Some TRoot -> children d n l -> prints_all d l s -> prints d n s
| prints_doctype n : tag_name d n = Some (lit "!DOCTYPE") -> paired d n = Some false ->
    prints d n (open_text d n (lit "!DOCTYPE") ++ lit ">")
| prints_single n tag : tag_name d n = Some tag -> tag <> lit "!DOCTYPE" -> paired d n = Some false ->
    prints d n (open_text d n tag ++ lit "/>")
| prints_paired n tag l s : tag_name d n = Some tag -> paired d n = Some true ->
    children d n l -> prints_all d l s ->
    prints d n (open_text d n tag ++ lit ">" ++ s ++ lit "</" ++ tag ++ lit ">")
with prints_all (d : dom) : list nat -> bytes -> Prop :=
| prints_nil : prints_all d [] []
| prints_cons c cs s ss : prints d c s -> prints_all d cs ss -> prints_all d (c :: cs) (s ++ ss).
