(** * Reports: iteration macros, [flo_html_printFirstDifference] and
    [flo_html_printDomStatus].  Definitions only.
    A report is the list of calls of the output functions (LogModel.v). *)
From Coq Require Import String List NArith ZArith Arith Bool.
From Verif Require Import Base TrieModel DomModel MsiModel CompareModel LogModel PrintModel UtilTrieModel.
Import ListNotations.
Local Open Scope nat_scope.

(** ** The iteration macros of the tries *)

(** [for (iter = create(set); ;) if ((element = next(iter)).. == 0) break; else]:
    FLO_FOR_EACH_TRIE_STRING (util/include/flo/util/hash/trie/string-set.h:24-30,
    test [.len == 0]), FLO_FOR_EACH_TRIE_UINT16 (uint16-set.h:25-31, test [== 0]),
    FLO_FOR_EACH_TRIE_STRING_UINT16 (string-uint16-map.h:33-40) and
    FLO_FOR_EACH_TRIE_STRING_AUTO_UINT16
    (include/flo/html-parser/util/string-auto-uint16-map.h:42-51), test
    [.value == 0].  [zero] is the test; the result of an exhausted iterator is
    zeroed, hence passes it.  Result: the elements the body is run with. *)
Fixpoint each_loop {K V} (fuel : nat) (zero : K * V -> bool) (it : iter K V) : outcome (list (K * V)) :=
  match fuel with
  | O => NoFuel
  | S f =>
      let* '(x, it) := iter_step it in
      match x with
      | None => Ok []
      | Some e => if zero e then Ok [] else let* r := each_loop f zero it in Ok (e :: r)
      end
  end.
Definition for_each {K V} (zero : K * V -> bool) (t : ptrie K V) : outcome (list (K * V)) :=
  each_loop (S (psize t)) zero (iter_new t).
Definition each_string (t : ptrie bytes unit) : outcome (list bytes) :=
  let* l := for_each (fun e => s_zero (fst e)) t in Ok (map fst l).
Definition each_uint16 (t : ptrie N unit) : outcome (list N) :=
  let* l := for_each (fun e => N.eqb (fst e) 0) t in Ok (map fst l).
Definition each_string_uint16 (t : ptrie bytes N) : outcome (list (bytes * N)) :=
  for_each (fun e => N.eqb (snd e) 0) t.
Definition each_interned (t : trie) : outcome (list (bytes * nat)) :=
  for_each (fun e => snd e =? 0) (of_trie t).

(** ** Output calls *)

(** [FLO_ERROR(s)], [FLO_INFO(s)] and the same with FLO_NEWLINE:
    util/include/flo/util/log.h:85-128.  A string literal goes through [strlen]
    ([flo_appendCStr]) and arrives unchanged. *)
Definition say (s : bytes) : wop := WApp s false false.
Definition sayln (s : bytes) : wop := WApp s true false.
(** The literal's own newline ([\n]). *)
Definition nl : bytes := [10%N].

(** [flo_html_nodeTypeToString]: include/flo/html-parser/node/node.h:23-33 *)
Definition type_text (t : ntype) : bytes :=
  match t with
  | TRoot => lit "Root" | TDocument => lit "Document" | TText => lit "Text"
  | TRemoved => lit "Removed" | TError => lit "Error"
  end.
(** [flo_hashComparisonStatusToString]: util/src/hash/hash-comparison-status.c:3-12 *)
Definition hcmp_text (h : hcmp) : bytes :=
  match h with
  | HSuccess => lit "Success"
  | HSizes => lit "Collections have different sizes"
  | HContent => lit "Collections have different content"
  end.
(** [flo_html_comparisonStatusToString]: src/comparison-status.c:3-14 *)
Definition cstatus_text (c : cstatus) : bytes :=
  match c with
  | CSuccess => lit "Success"
  | CMemory => lit "Memory error"
  | CNodeType => lit "Different type of node"
  | CSizes => lit "Collections have different sizes"
  | CContent => lit "Collections have different content"
  end.

(** ** [flo_html_printFirstDifference] *)

(** [tagRegistry.buf[tagID].tag] in [printAttributes]: only called for elements. *)
Definition tag_text (x : node) (d : dom) : outcome bytes := let* r := reg_of x d in Ok (t_name r).

(** [printAttributes]: src/dom/comparison.c:35-54 *)
Definition print_attributes (x1 : node) (s1 : sset) (d1 : dom) (x2 : node) (s2 : sset) (d2 : dom)
  : outcome (list wop) :=
  let* t1 := tag_text x1 d1 in
  let* t2 := tag_text x2 d2 in
  Ok ([say (lit "Printing certain attributes of node 1 with tag "); sayln t1] ++
      map sayln (s_elems s1) ++
      [say (lit "Printing certain attributes of node 2 with tag "); sayln t2] ++
      map sayln (s_elems s2) ++ [WFlush]).

(** A failed set comparison with [printDifferences]: comparison.c:115-124, 128-139,
    157-166 *)
Definition report_sets (h : hcmp) (what : bytes) (x1 : node) (s1 : sset) (d1 : dom)
  (x2 : node) (s2 : sset) (d2 : dom) : outcome (list wop) :=
  let* l := print_attributes x1 s1 d1 x2 s2 d2 in
  Ok ([sayln (hcmp_text h); say (lit "Nodes contain different " ++ what ++ lit " props" ++ nl); WFlush] ++ l).

(** [compareBoolProps] with [printDifferences = true]: comparison.c:145-171.  None:
    COMPARISON_SUCCESS, nothing printed. *)
Definition report_bools (x1 : node) (d1 : dom) (x2 : node) (d2 : dom) : outcome (option (list wop)) :=
  let* b1 := fill_bools (bprops d1) (n_id x1) d1 (s_new cmp_exp) in
  let* b2 := fill_bools (bprops d2) (n_id x2) d2 (s_new cmp_exp) in
  let* h := s_equals b1 b2 in
  match h with
  | HSuccess => Ok None
  | _ => let* l := report_sets h (lit "bool") x1 b1 d1 x2 b2 d2 in Ok (Some l)
  end.

(** [compareProps] with [printDifferences = true]: comparison.c:98-143 *)
Definition report_props (x1 : node) (d1 : dom) (x2 : node) (d2 : dom) : outcome (option (list wop)) :=
  let* '(k1, v1) := fill_props (props d1) (n_id x1) d1 (s_new cmp_exp) (s_new cmp_exp) in
  let* '(k2, v2) := fill_props (props d2) (n_id x2) d2 (s_new cmp_exp) (s_new cmp_exp) in
  let* h := s_equals k1 k2 in
  match h with
  | HSuccess =>
      let* h := s_equals v1 v2 in
      match h with
      | HSuccess => Ok None
      | _ => let* l := report_sets h (lit "value") x1 v1 d1 x2 v2 d2 in Ok (Some l)
      end
  | _ => let* l := report_sets h (lit "key") x1 k1 d1 x2 k2 d2 in Ok (Some l)
  end.

(** [compareTags] with [printDifferences = true]: comparison.c:173-266.  In the
    message about different tags both lines print [tagRegistration1->tag]
    (:236-240). *)
Definition report_tags (x1 : node) (d1 : dom) (x2 : node) (d2 : dom) : outcome (option (list wop)) :=
  if negb (ntype_eqb (n_type x1) (n_type x2)) then
    Ok (Some [say (lit "Uncomparable nodes:" ++ nl ++ lit "node 1 type: "); say (type_text (n_type x1));
              say (nl ++ lit "node 2 type: "); sayln (type_text (n_type x2)); WFlush])
  else
    match n_type x1 with
    | TText =>
        let* t1 := node_text x1 in
        let* t2 := node_text x2 in
        if beq t1 t2 then Ok None
        else Ok (Some [say (lit "Different text nodes:" ++ nl ++ lit "node 1: "); say t1;
                       say (nl ++ lit "node 2: "); sayln t2; WFlush])
    | TDocument =>
        let* r1 := reg_of x1 d1 in
        let* r2 := reg_of x2 d2 in
        if negb (eqb (t_paired r1) (t_paired r2)) then
          Ok (Some [say (lit "Uncomparable nodes: single node and paired node." ++ nl ++ lit "Found single node in node ");
                    say [if negb (t_paired r2) then 50%N else 49%N];
                    say (lit "." ++ nl ++ lit "node 1 tag: "); say (t_name r1);
                    say (nl ++ lit "node 2 tag: "); sayln (t_name r2); WFlush])
        else if negb (beq (t_name r1) (t_name r2)) then
          Ok (Some [say (lit "Nodes have different tags." ++ nl ++ lit "node 1 tag: "); say (t_name r1);
                    say (nl ++ lit "node 2 tag: "); sayln (t_name r1); WFlush])
        else Ok None
    | TRoot => Ok None
    | _ => Ok (Some [say (lit "Comparison not implemented for this node type. Node type: ");
                     sayln (type_text (n_type x1)); WFlush])
    end.

(** [flo_html_printFirstDifference]: comparison.c:344-369: what is written to
    standard error. *)
Definition first_difference (n1 : nat) (d1 : dom) (n2 : nat) (d2 : dom) : outcome (list wop) :=
  let* x1 := get_node d1 n1 in
  let* x2 := get_node d2 n2 in
  let* r := report_tags x1 d1 x2 d2 in
  match r with
  | Some l => Ok l
  | None =>
      let* r :=
        (match n_type x1 with
         | TDocument =>
             let* r := report_bools x1 d1 x2 d2 in
             match r with
             | Some l => Ok (Some l)
             | None => report_props x1 d1 x2 d2
             end
         | _ => Ok None
         end) in
      match r with
      | Some l => Ok l
      | None =>
          Ok [WApp (lit "Could not find any differences for the supplied nodes & documents combination." ++ nl)
                false true]
      end
  end.

(** ** [flo_html_printDomStatus] *)

(** [FLO_INFO(n, FLO_NEWLINE)] of a [ptrdiff_t], of an unsigned number; the
    functions with a minimal width: log.c:140-152, 250-262 *)
Definition long_ln (n : nat) : outcome wop := let* s := ptrdiff_text (Z.of_nat n) in Ok (sayln s).
Definition num_ln (n : nat) : outcome wop := let* s := uint64_text (N.of_nat n) in Ok (sayln s).
Definition num_min (n : nat) (min : N) (newl : bool) : outcome wop :=
  let* s := uint64_text (N.of_nat n) in Ok (WMin s min newl false).
Definition long_min (n : nat) (min : N) : outcome wop :=
  let* s := ptrdiff_text (Z.of_nat n) in Ok (WMin s min false false).

(** A loop [for (i = 0; i < len; i++)] whose body appends [f i x]. *)
Fixpoint rows_from {A} (f : nat -> A -> outcome (list wop)) (i : nat) (l : list A) : outcome (list wop) :=
  match l with
  | [] => Ok []
  | x :: l' => let* a := f i x in let* b := rows_from f (S i) l' in Ok (a ++ b)
  end.
Definition rows {A} (f : nat -> A -> outcome (list wop)) (l : list A) : outcome (list wop) := rows_from f 0 l.

(** [printStringAutoUint16Map]: src/dom/writing.c:145-157 *)
Definition print_map (m : amap) : outcome (list wop) :=
  let* l := each_interned (mroot m) in
  let* r := rows (fun _ e =>
    let* v := num_ln (snd e) in
    Ok [say (lit "string = "); WMin (fst e) 30 false false; say (lit " with id = "); v]) l in
  Ok (r ++ [say nl]).

(** [printflo_html_BasicRegistry]: writing.c:125-143 *)
Definition print_registry (name : bytes) (l : list bytes) : outcome (list wop) :=
  let* n := long_ln (length l) in
  let* r := rows (fun i s =>
    let* v := long_min i 3 in
    Ok [say (lit "ID: "); v; say (lit " value: "); sayln s]) l in
  Ok ([say (lit "registration nodes inside DOM for registry: "); sayln name;
       say (lit "Total number of nodes: "); n] ++ r ++ [say nl]).

(** The table of nodes: writing.c:180-206 *)
Definition node_row (_ : nat) (x : node) : outcome (list wop) :=
  let* i := num_min (n_id x) 5 false in
  match n_type x with
  | TDocument =>
      match n_pay x with
      | PTag t =>
          let* v := num_ln t in
          Ok [say (lit "Node ID: "); i; say (lit " Node type: ");
              WMin (type_text (n_type x)) 10 false false; say (lit " with tag ID: "); v]
      | _ => Undef OobRead
      end
  | _ => Ok [say (lit "Node ID: "); i; say (lit " Node type: ");
             WMin (type_text (n_type x)) 10 true false]
  end.

(** The tag registry: writing.c:212-224 *)
Definition tag_row (i : nat) (r : tagreg) : outcome (list wop) :=
  let* v := num_min i 5 false in
  Ok [say (lit "tag ID: "); v; say (lit " tag: "); WMin (t_name r) 20 false false;
      say (lit " isPaired: "); sayln (bool_text (t_paired r))].

(** writing.c:237-246 and 251-262 *)
Definition bprop_row (_ : nat) (e : nat * nat) : outcome (list wop) :=
  let* a := long_min (fst e) 3 in
  let* b := num_ln (snd e) in
  Ok [say (lit "node ID: "); a; say (lit " prop ID: "); b].
Definition prop_row (_ : nat) (e : prop) : outcome (list wop) :=
  let* a := long_min (p_node e) 3 in
  let* b := long_min (p_key e) 3 in
  let* c := num_ln (p_val e) in
  Ok [say (lit "node ID: "); a; say (lit " key ID: "); b; say (lit " value ID: "); c].
(** writing.c:268-276, 282-291, 297-306 *)
Definition link_row (a b : bytes) (_ : nat) (e : nat * nat) : outcome (list wop) :=
  let* x := num_min (fst e) 5 false in
  let* y := num_min (snd e) 5 true in
  Ok [say a; x; say b; y].
(** Heading, number of entries, entries and an end. *)
Definition table {A} (title total : bytes) (f : nat -> A -> outcome (list wop)) (l : list A) (fin : bytes)
  : outcome (list wop) :=
  let* n := long_ln (length l) in
  let* r := rows f l in
  Ok ([say (title ++ nl); say total; n] ++ r ++ [say fin]).

(** [flo_html_printDomStatus]: writing.c:159-310: what is written to standard
    output. *)
Definition dom_status (d : dom) : outcome (list wop) :=
  let* keys := print_map (key_map d) in
  let* vals := print_map (val_map d) in
  let* bools := print_map (bool_map d) in
  let* tags := print_map (tag_map d) in
  let* t_nodes := table (lit "Nodes inside DOM...") (lit "Total number of nodes: ") node_row (nodes d) nl in
  let* t_tags := table (lit "tag registration nodes inside DOM...")
                   (lit "total number of tag registration nodes: ") tag_row (tag_reg d) nl in
  let* r_bools := print_registry (lit "bool props") (bool_reg d) in
  let* r_keys := print_registry (lit "key props") (key_reg d) in
  let* r_vals := print_registry (lit "value props") (val_reg d) in
  let* t_bools := table (lit "boolean property nodes inside DOM...")
                    (lit "total number of boolean properties: ") bprop_row (bprops d) nl in
  let* t_props := table (lit "key-value property nodes inside DOM...")
                    (lit "total number of key-value properties: ") prop_row (props d) nl in
  let* t_firsts := table (lit "parent-first-child inside DOM...")
                     (lit "total number of parent-first-child: ")
                     (link_row (lit "parent node ID: ") (lit " first child node ID: ")) (firsts d) nl in
  let* t_childs := table (lit "parent-child inside DOM...") (lit "total number of parent-child: ")
                     (link_row (lit "parent: ") (lit " child: ")) (pchilds d) nl in
  let* t_nexts := table (lit "next nodes inside DOM...") (lit "total number of next nodes: ")
                    (link_row (lit "current node: ") (lit " next node: ")) (nexts d) (nl ++ nl) in
  Ok ([say (lit "printing DOM status..." ++ nl ++ nl); say (lit "printing property status..." ++ nl);
       say (lit "printing keys..." ++ nl)] ++ keys ++
      [say (lit "printing values..." ++ nl)] ++ vals ++
      [say (lit "printing bool property status..." ++ nl)] ++ bools ++
      [say (lit "printing tags status..." ++ nl)] ++ tags ++
      [say (lit "Printing DOM contents..." ++ nl)] ++ t_nodes ++ t_tags ++ r_bools ++ r_keys ++ r_vals ++
      t_bools ++ t_props ++ t_firsts ++ t_childs ++ t_nexts ++ [WFlush]).
