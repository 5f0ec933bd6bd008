(** * What the reports should say.  Definitions only. *)
From Coq Require Import String List NArith ZArith Arith Bool.
From Verif Require Import Base TrieModel DomModel ParserModel DomSpec ApiSpec CompareSpec LogModel LogSpec PrintModel.
Import ListNotations.
Local Open Scope nat_scope.

(** The bytes a list of output calls writes (C54). *)
Definition written (ops : list wop) : bytes := concat (map wop_text ops).

Definition endl : bytes := [10%N].
Definition ln (s : bytes) : bytes := s ++ endl.

Definition kind_word (t : ntype) : bytes :=
  match t with
  | TRoot => lit "Root" | TDocument => lit "Document" | TText => lit "Text"
  | TRemoved => lit "Removed" | TError => lit "Error"
  end.

(** ** The first difference between two nodes *)

(** [e] lists the non-empty strings of [l], each once. *)
Definition listing (l e : list bytes) : Prop :=
  NoDup e /\ forall s, In s e <-> In s l /\ s <> [].

(** Two collections of attributes [a1], [a2] of elements named [t] differ. *)
Definition set_report (what t : bytes) (a1 a2 : list bytes) (s : bytes) : Prop :=
  exists e1 e2, listing a1 e1 /\ listing a2 e2 /\
    s = ln (lit "Collections have different " ++
            if length e1 + empties a1 =? length e2 + empties a2 then lit "content" else lit "sizes") ++
        ln (lit "Nodes contain different " ++ what ++ lit " props") ++
        ln (lit "Printing certain attributes of node 1 with tag " ++ t) ++ flat_map ln e1 ++
        ln (lit "Printing certain attributes of node 2 with tag " ++ t) ++ flat_map ln e2.

Definition nothing_found : bytes :=
  ln (lit "Could not find any differences for the supplied nodes & documents combination.").

(** Both are elements with these names; is the tag registered as paired? *)
Definition elements (d1 : dom) (n : nat) (d2 : dom) (m : nat) (t1 t2 : bytes) (p1 p2 : bool) : Prop :=
  tag_name d1 n = Some t1 /\ tag_name d2 m = Some t2 /\ paired d1 n = Some p1 /\ paired d2 m = Some p2.

Inductive report (d1 : dom) (n : nat) (d2 : dom) (m : nat) : bytes -> Prop :=
| rp_kinds k1 k2 : kind d1 n = Some k1 -> kind d2 m = Some k2 -> k1 <> k2 ->
    report d1 n d2 m (ln (lit "Uncomparable nodes:") ++ ln (lit "node 1 type: " ++ kind_word k1) ++
                      ln (lit "node 2 type: " ++ kind_word k2))
| rp_texts s1 s2 : text_of d1 n = Some s1 -> text_of d2 m = Some s2 -> s1 <> s2 ->
    report d1 n d2 m (ln (lit "Different text nodes:") ++ ln (lit "node 1: " ++ s1) ++ ln (lit "node 2: " ++ s2))
| rp_single t1 t2 p1 p2 : elements d1 n d2 m t1 t2 p1 p2 -> p1 <> p2 ->
    report d1 n d2 m (ln (lit "Uncomparable nodes: single node and paired node.") ++
                      ln (lit "Found single node in node " ++ (if p1 then lit "2" else lit "1") ++ lit ".") ++
                      ln (lit "node 1 tag: " ++ t1) ++ ln (lit "node 2 tag: " ++ t2))
| rp_tags t1 t2 p : elements d1 n d2 m t1 t2 p p -> t1 <> t2 ->
    (* the name of the first node, twice *)
    report d1 n d2 m (ln (lit "Nodes have different tags.") ++
                      ln (lit "node 1 tag: " ++ t1) ++ ln (lit "node 2 tag: " ++ t1))
| rp_bools t p s : elements d1 n d2 m t t p p ->
    ~ same_strings (bool_attrs d1 n) (bool_attrs d2 m) ->
    set_report (lit "bool") t (bool_attrs d1 n) (bool_attrs d2 m) s -> report d1 n d2 m s
| rp_keys t p s : elements d1 n d2 m t t p p ->
    same_strings (bool_attrs d1 n) (bool_attrs d2 m) ->
    ~ same_strings (map fst (attrs d1 n)) (map fst (attrs d2 m)) ->
    set_report (lit "key") t (map fst (attrs d1 n)) (map fst (attrs d2 m)) s -> report d1 n d2 m s
| rp_values t p s : elements d1 n d2 m t t p p ->
    same_strings (bool_attrs d1 n) (bool_attrs d2 m) ->
    same_strings (map fst (attrs d1 n)) (map fst (attrs d2 m)) ->
    ~ same_strings (map snd (attrs d1 n)) (map snd (attrs d2 m)) ->
    set_report (lit "value") t (map snd (attrs d1 n)) (map snd (attrs d2 m)) s -> report d1 n d2 m s
| rp_removed : kind d1 n = Some TRemoved -> kind d2 m = Some TRemoved ->
    report d1 n d2 m (ln (lit "Comparison not implemented for this node type. Node type: Removed"))
| rp_none : kind d1 n <> Some TRemoved -> alike d1 n d2 m -> report d1 n d2 m nothing_found.

(** ** The status report *)
Section Status.
  (** How numbers are written. *)
  Context (dec : nat -> bytes).

  (** At least [w] characters, filled with spaces. *)
  Definition wide (w : nat) (s : bytes) : bytes := s ++ repeat 32%N (w - length s).

  Definition map_part (title : bytes) (reg : list bytes) : bytes :=
    ln title ++
    flat_map (fun e => ln (lit "string = " ++ wide 30 (fst e) ++ lit " with id = " ++ dec (snd e)))
      (combine (tl reg) (seq 1 (length reg - 1))) ++ endl.

  Definition numbered {A} (l : list A) : list (nat * A) := combine (seq 0 (length l)) l.
  Definition registry_part (name : bytes) (reg : list bytes) : bytes :=
    ln (lit "registration nodes inside DOM for registry: " ++ name) ++
    ln (lit "Total number of nodes: " ++ dec (length reg)) ++
    flat_map (fun e => ln (lit "ID: " ++ wide 3 (dec (fst e)) ++ lit " value: " ++ snd e)) (numbered reg) ++ endl.

  Definition table_part {A} (title total : bytes) (row : nat * A -> bytes) (l : list A) : bytes :=
    ln title ++ ln (total ++ dec (length l)) ++ flat_map (fun e => ln (row e)) (numbered l) ++ endl.

  Definition node_line (e : nat * node) : bytes :=
    lit "Node ID: " ++ wide 5 (dec (fst e)) ++ lit " Node type: " ++ wide 10 (kind_word (n_type (snd e))) ++
    match n_type (snd e), n_pay (snd e) with
    | TDocument, PTag t => lit " with tag ID: " ++ dec t
    | _, _ => []
    end.
  Definition tag_line (e : nat * tagreg) : bytes :=
    lit "tag ID: " ++ wide 5 (dec (fst e)) ++ lit " tag: " ++ wide 20 (t_name (snd e)) ++
    lit " isPaired: " ++ if t_paired (snd e) then lit "true" else lit "false".
  Definition link_line (a b : bytes) (e : nat * (nat * nat)) : bytes :=
    a ++ wide 5 (dec (fst (snd e))) ++ b ++ wide 5 (dec (snd (snd e))).

  (** Everything in the document's tables, in order. *)
  Definition status_text (d : dom) : bytes :=
    ln (lit "printing DOM status...") ++ endl ++ ln (lit "printing property status...") ++
    map_part (lit "printing keys...") (key_reg d) ++
    map_part (lit "printing values...") (val_reg d) ++
    map_part (lit "printing bool property status...") (bool_reg d) ++
    map_part (lit "printing tags status...") (map t_name (tag_reg d)) ++
    ln (lit "Printing DOM contents...") ++
    table_part (lit "Nodes inside DOM...") (lit "Total number of nodes: ") node_line (nodes d) ++
    table_part (lit "tag registration nodes inside DOM...") (lit "total number of tag registration nodes: ")
      tag_line (tag_reg d) ++
    registry_part (lit "bool props") (bool_reg d) ++
    registry_part (lit "key props") (key_reg d) ++
    registry_part (lit "value props") (val_reg d) ++
    table_part (lit "boolean property nodes inside DOM...") (lit "total number of boolean properties: ")
      (fun e => lit "node ID: " ++ wide 3 (dec (fst (snd e))) ++ lit " prop ID: " ++ dec (snd (snd e))) (bprops d) ++
    table_part (lit "key-value property nodes inside DOM...") (lit "total number of key-value properties: ")
      (fun e => lit "node ID: " ++ wide 3 (dec (p_node (snd e))) ++ lit " key ID: " ++ wide 3 (dec (p_key (snd e))) ++
                lit " value ID: " ++ dec (p_val (snd e))) (props d) ++
    table_part (lit "parent-first-child inside DOM...") (lit "total number of parent-first-child: ")
      (link_line (lit "parent node ID: ") (lit " first child node ID: ")) (firsts d) ++
    table_part (lit "parent-child inside DOM...") (lit "total number of parent-child: ")
      (link_line (lit "parent: ") (lit " child: ")) (pchilds d) ++
    table_part (lit "next nodes inside DOM...") (lit "total number of next nodes: ")
      (link_line (lit "current node: ") (lit " next node: ")) (nexts d) ++ endl.
End Status.

(** [dec] writes every 64-bit number in decimal. *)
Definition writes_decimal (dec : nat -> bytes) : Prop :=
  forall n, (N.of_nat n < 2 ^ 64)%N -> decimal (dec n) (N.of_nat n).
(** The lengths of the tables are values of type [ptrdiff_t], those of strings of
    type [uint32_t]. *)
Definition addressable (d : dom) : Prop :=
  Forall (fun n => (N.of_nat n < 2 ^ 63)%N)
    [length (nodes d); length (tag_reg d); length (bool_reg d); length (key_reg d); length (val_reg d);
     length (bprops d); length (props d); length (firsts d); length (pchilds d); length (nexts d)] /\
  Forall (fun s => (N.of_nat (length s) < 2 ^ 32)%N)
    (map t_name (tag_reg d) ++ bool_reg d ++ key_reg d ++ val_reg d).
