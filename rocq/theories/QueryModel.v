(** * Queries: src/dom/query/query.c and query-util.c.  Definitions only. *)
From Coq Require Import String List NArith Arith Bool.
From Verif Require Import Base TrieModel DomModel ParserModel EditModel MsiModel.
Import ListNotations.
Local Open Scope nat_scope.

(** [flo_html_QueryStatus]: include/flo/html-parser/dom/query/query-status.h.
    [QUERY_MEMORY_ERROR] is never produced. *)
Inductive qstatus : Type := QSuccess | QInvalid | QTooMany | QNotSeen.

(** [flo_html_FilterType]: include/flo/html-parser/dom/query/query-util.h *)
Inductive filt : Type :=
| FTag (tagID : nat)
| FAll
| FBool (propID : nat)
| FProp (keyID valueID : nat).

Inductive comb : Type := CNone | CAdjacent | CChild | CSibling | CDescendant.

(** [FLO_HTML_MAX_FILTERS_PER_ELEMENT] *)
Definition max_filters : nat := 8.

(** ** Matching a node: src/dom/query/query-util.c:10-62 *)

(** [dom->nodes.buf[id].tagID].  For a text node this reads the low 16 bits of
    its text pointer: [lo id], an arbitrary function. *)
Definition tag_view (lo : nat -> nat) (n : node) : nat :=
  match n_pay n with
  | PTag t => t
  | PText _ => lo (n_id n)
  | PNone => 0
  end.

(** [flo_html_filterNode]: query-util.c:10-62 *)
Fixpoint filter_node (lo : nat -> nat) (id : nat) (fs : list filt) (d : dom)
  : outcome bool :=
  match fs with
  | [] => Ok true
  | FAll :: _ => Ok true
  | FTag t :: fs' =>
      let* n := get_node d id in
      if tag_view lo n =? t then filter_node lo id fs' d else Ok false
  | FBool b :: fs' =>
      if existsb (fun e => (fst e =? id) && (snd e =? b)) (bprops d)
      then filter_node lo id fs' d else Ok false
  | FProp k v :: fs' =>
      if existsb (fun e => (p_node e =? id) && (p_key e =? k) && (p_val e =? v))
                 (props d)
      then filter_node lo id fs' d else Ok false
  end.

(** Insert [id] if it passes the filters. *)
Definition insert_if (lo : nat -> nat) (id : nat) (fs : list filt) (d : dom)
           (s : uset) : outcome uset :=
  let* b := filter_node lo id fs d in
  if (b : bool) then let* '(_, s) := u_insert id s in Ok s else Ok s.

(** [flo_html_getNodesWithoutflo_html_Combinator]: query-util.c:64-76 *)
Fixpoint all_nodes_loop (lo : nat -> nat) (l : list node) (fs : list filt)
         (d : dom) (s : uset) : outcome uset :=
  match l with
  | [] => Ok s
  | n :: l' => let* s := insert_if lo (n_id n) fs d s in
               all_nodes_loop lo l' fs d s
  end.
Definition q_all (lo : nat -> nat) (fs : list filt) (d : dom) (s : uset)
  : outcome uset := all_nodes_loop lo (nodes d) fs d s.

(** [flo_html_getFilteredAdjacents]: query-util.c:79-106.  [limit]: at most one
    sibling ([numberOfSiblings = 1]) or all ([PTRDIFF_MAX]). *)
Fixpoint siblings_loop (fuel : nat) (lo : nat -> nat) (limit : bool) (next : nat)
         (fs : list filt) (d : dom) (s : uset) : outcome uset :=
  if 0 <? next then
    match fuel with
    | O => NoFuel
    | S f =>
        let* s := insert_if lo next fs d s in
        if limit then Ok s
        else siblings_loop f lo limit (get_next next d) fs d s
    end
  else Ok s.
Fixpoint adjacents_loop (lo : nat -> nat) (limit : bool) (l : list nat)
         (fs : list filt) (d : dom) (s : uset) : outcome uset :=
  match l with
  | [] => Ok s
  | x :: l' =>
      let* s := siblings_loop (S (length (nodes d))) lo limit (get_next x d) fs d s in
      adjacents_loop lo limit l' fs d s
  end.
Definition q_adjacents (lo : nat -> nat) (limit : bool) (fs : list filt) (d : dom)
           (s : uset) : outcome uset :=
  adjacents_loop lo limit (u_elems s) fs d (u_new start_exp).

(** [flo_html_getFilteredDescendants]: query-util.c:109-158. *)
(** One pass over [parentChilds] (:126-143): [filled] is read, [fill] and the
    result set are extended. *)
Fixpoint descend_pass (lo : nat -> nat) (l : list (nat * nat)) (fs : list filt)
         (d : dom) (filled fill s : uset) : outcome (uset * uset) :=
  match l with
  | [] => Ok (fill, s)
  | (p, c) :: l' =>
      let* n := get_node d c in
      let* go := (match n_type n with
                  | TDocument => u_contains p filled
                  | _ => Ok false
                  end) in
      let* '(fill, s) :=
        (if (go : bool) then
           let* '(_, fill) := u_insert c fill in
           let* s := insert_if lo c fs d s in
           Ok (fill, s)
         else Ok (fill, s)) in
      descend_pass lo l' fs d filled fill s
  end.
(** The level loop (:125-155).  After a pass the two sets change roles and the
    old one is emptied.  [one = true]: depth 1; otherwise [PTRDIFF_MAX]. *)
Fixpoint descend_loop (fuel : nat) (lo : nat -> nat) (one : bool)
         (fs : list filt) (d : dom) (filled fill s : uset) : outcome uset :=
  if 0 <? m_len filled then
    match fuel with
    | O => NoFuel
    | S f =>
        let* '(fill, s) := descend_pass lo (pchilds d) fs d filled fill s in
        if one then Ok s
        else descend_loop f lo one fs d fill (u_reset filled) s
    end
  else Ok s.
Definition q_descendants (lo : nat -> nat) (one : bool) (fs : list filt) (d : dom)
           (s : uset) : outcome uset :=
  let first := u_copy s in
  descend_loop (S (S (length (nodes d)))) lo one fs d first (u_new (m_exp first)) (u_reset s).

(** The switch over the combinator: query.c:212-252 *)
Definition q_step (lo : nat -> nat) (c : comb) (fs : list filt) (d : dom)
           (s : uset) : outcome uset :=
  match c with
  | CNone => q_all lo fs d s
  | CAdjacent => q_adjacents lo true fs d s
  | CChild => q_descendants lo true fs d s
  | CSibling => q_adjacents lo false fs d s
  | CDescendant => q_descendants lo false fs d s
  end.

(** ** Parsing *)

(** [isTagStartChar], [isElementStartChar], [isSpecifiedCombinator],
    [isCombinator] and [endOfCurrentFilter]: query.c:48-67 *)
Definition is_tag_start (c : N) : bool := is_alpha c || (c =? cBANG)%N.
Definition is_elem_start (c : N) : bool :=
  is_tag_start c || (c =? cDOT)%N || (c =? cHASH)%N.
Definition is_spec_comb (c : N) : bool :=
  (c =? cGT)%N || (c =? cPLUS)%N || (c =? cTILDE)%N.
Definition end_of_filter (c : N) : bool :=
  (c =? cSP)%N || is_spec_comb c || is_fmt c || (c =? cLB)%N || (c =? cDOT)%N
  || (c =? cHASH)%N.

(** [parseToken]: query.c:73-86 *)
Definition parse_token (t : bytes) (i : nat) : outcome (bytes * nat) :=
  let* j := scan t (fun c => is_blank c || (c =? cEQ)%N || (c =? cRB)%N) i in
  let* tok := read_slice t i (j - i) in
  let* k := scan t (fun c => (c =? cEQ)%N || (c =? cRB)%N || (c =? cDOT)%N
                             || (c =? cHASH)%N) j in
  Ok (tok, k).

Definition s_class : bytes := Eval compute in bytes_of_string "class".
Definition s_id : bytes := Eval compute in bytes_of_string "id".

(** [filters[filtersLen] = ...; filtersLen++] on the local array of
    [FLO_HTML_MAX_FILTERS_PER_ELEMENT] entries: query.c:94-95. *)
Definition push_filter (fs : list filt) (x : filt) : outcome (list filt) :=
  if length fs <? max_filters then Ok (fs ++ [x]) else Undef OobWrite.

(** The body of the attribute-selector loop: query.c:127-203.  [inl] = early
    return; [None] = "Dropping a token". *)
Definition parse_filter (t : bytes) (d : dom) (i : nat) (ch : N)
  : outcome (qstatus + (option filt * nat)) :=
  let* j := scan t is_tag_start i in
  let* '(tok, j) := parse_token t j in
  let c := current_char t j in
  if (ch =? cDOT)%N || (ch =? cHASH)%N then
    let* k := map_contains (if (ch =? cDOT)%N then s_class else s_id) (key_map d) in
    if k =? 0 then Ok (inl QNotSeen)
    else
      let* v := map_contains tok (val_map d) in
      if v =? 0 then Ok (inl QNotSeen)
      else Ok (inr (Some (FProp k v), if (c =? cRB)%N then S j else j))
  else if (c =? cRB)%N then
    let* b := map_contains tok (bool_map d) in
    if b =? 0 then Ok (inl QNotSeen)
    else Ok (inr (Some (FBool b), S j))
  else if (c =? cEQ)%N then
    let* k := map_contains tok (key_map d) in
    if k =? 0 then Ok (inl QNotSeen)
    else
      let* j := scan t is_tag_start (S j) in
      let* '(val, j) := parse_token t j in
      let* v := map_contains val (val_map d) in
      if v =? 0 then Ok (inl QNotSeen)
      else Ok (inr (Some (FProp k v),
                    if (current_char t j =? cRB)%N then S j else j))
  else Ok (inr (None, j)).

(** [FLO_PARSE_PARSE_CHAR_WHILE(ps, ch == '[' || ch == '.' || ch == '#', ...)]:
    query.c:127-204 *)
Fixpoint filters_loop (fuel : nat) (t : bytes) (d : dom) (i : nat)
         (fs : list filt) : outcome (qstatus + (list filt * nat)) :=
  if i <? length t then
    let* ch := get_char t i in
    if (ch =? cLB)%N || (ch =? cDOT)%N || (ch =? cHASH)%N then
      match fuel with
      | O => NoFuel
      | S f =>
          if max_filters <=? length fs then Ok (inl QTooMany)
          else
            let* r := parse_filter t d i ch in
            match r with
            | inl st => Ok (inl st)
            | inr (None, j) => filters_loop f t d j fs
            | inr (Some x, j) =>
                let* fs := push_filter fs x in filters_loop f t d j fs
            end
      end
    else Ok (inr (fs, i))
  else Ok (inr (fs, i)).

(** Tag or '*' at the start of an element: query.c:103-125. *)
Definition parse_head (t : bytes) (d : dom) (i : nat) (fs : list filt)
  : outcome (qstatus + (list filt * nat)) :=
  let ch := current_char t i in
  if is_tag_start ch then
    if max_filters <=? length fs then Ok (inl QTooMany)
    else
      let* j := scan t end_of_filter i in
      let* tag := read_slice t i (j - i) in
      let* id := map_contains tag (tag_map d) in
      if id =? 0 then Ok (inl QNotSeen)
      else let* fs := push_filter fs (FTag id) in Ok (inr (fs, j))
  else if (ch =? cSTAR)%N then
    if max_filters <=? length fs then Ok (inl QTooMany)
    else
      let* j := scan t end_of_filter i in
      let* fs := push_filter fs FAll in Ok (inr (fs, j))
  else Ok (inr (fs, i)).

(** The scan for the next combinator: query.c:259-264; the last of '>', '+', '~'
    wins. *)
Fixpoint comb_loop (fuel : nat) (t : bytes) (i : nat) (c : comb)
  : outcome (comb * nat) :=
  if i <? length t then
    let* ch := get_char t i in
    if is_elem_start ch || (ch =? cLB)%N then Ok (c, i)
    else
      match fuel with
      | O => NoFuel
      | S f =>
          comb_loop f t (S i)
            (if (ch =? cGT)%N then CChild
             else if (ch =? cPLUS)%N then CAdjacent
             else if (ch =? cTILDE)%N then CSibling
             else c)
      end
  else Ok (c, i).

(** The main loop of [getQueryResults]: query.c:102-284 *)
Fixpoint query_loop (fuel : nat) (lo : nat -> nat) (t : bytes) (d : dom)
         (i : nat) (c : comb) (s : uset) : outcome (qstatus * uset) :=
  if i <? length t then
    match fuel with
    | O => NoFuel
    | S f =>
        let* r := parse_head t d i [] in
        match r with
        | inl st => Ok (st, s)
        | inr (fs, i) =>
            let* r := filters_loop (S (length t)) t d i fs in
            match r with
            | inl st => Ok (st, s)
            | inr ([], _) => Ok (QInvalid, s)
            | inr (fs, i) =>
                let* s := q_step lo c fs d s in
                let* '(c, i) := comb_loop (length t) t i CDescendant in
                query_loop f lo t d i c s
            end
        end
    end
  else Ok (QSuccess, s).

(** [getQueryResults]: query.c:88-287 *)
Definition query_results (lo : nat -> nat) (t : bytes) (d : dom) (s : uset)
  : outcome (qstatus * uset) :=
  let* i := scan t (fun c => is_elem_start c || (c =? cLB)%N || (c =? cSTAR)%N) 0 in
  query_loop (S (length t)) lo t d i CNone s.

Fixpoint insert_each (l : list nat) (s : uset) : outcome uset :=
  match l with
  | [] => Ok s
  | v :: l' => let* '(_, s) := u_insert v s in insert_each l' s
  end.

(** The loop over the comma-separated parts: query.c:302-323 *)
Fixpoint parts_loop (fuel : nat) (lo : nat -> nat) (css : bytes) (d : dom)
         (from : nat) (set res : uset) : outcome (qstatus * uset) :=
  if from <? length css then
    match fuel with
    | O => NoFuel
    | S f =>
        let* j := scan css (fun c => (c =? cCOMMA)%N) from in
        let* iter := read_slice css from (j - from) in
        let* '(st, set) := query_results lo iter d set in
        match st with
        | QSuccess =>
            let* res := insert_each (u_elems set) res in
            parts_loop f lo css d (from + length iter + 1) (u_reset set) res
        | _ => Ok (st, res)
        end
    end
  else Ok (QSuccess, res).

(** [flo_html_querySelectorAll]: query.c:289-336.  On failure [results] is not
    written ([]). *)
Definition query_selector_all (lo : nat -> nat) (css : bytes) (d : dom)
  : outcome (qstatus * list nat) :=
  let* '(st, res) :=
    parts_loop (S (length css)) lo css d 0 (u_new start_exp) (u_new start_exp) in
  match st with
  | QSuccess => let* l := u_to_array res in Ok (QSuccess, l)
  | _ => Ok (st, [])
  end.

(** [flo_html_querySelector]: query.c:338-366.  [None] = [*result] is not
    written. *)
Fixpoint select_loop (fuel : nat) (results : list nat) (c : nat) (d : dom)
  : outcome (option nat) :=
  if c =? 0 then Ok None
  else if existsb (Nat.eqb c) results then Ok (Some c)
  else
    match fuel with
    | O => NoFuel
    | S f => let* c := traverse_dom c d in select_loop f results c d
    end.
Definition query_selector (lo : nat -> nat) (css : bytes) (d : dom)
  : outcome (qstatus * option nat) :=
  let* '(st, l) := query_selector_all lo css d in
  match st with
  | QSuccess =>
      match l with
      | [] => Ok (QSuccess, Some 0)
      | _ => let* r := select_loop (S (length (nodes d))) l 1 d in Ok (QSuccess, r)
      end
  | _ => Ok (st, None)
  end.

(** [APPEND_USING_QUERYSELECTOR] (src/dom/appendix.c:18-32),
    [PREPEND_USING_QUERYSELECTOR] (src/dom/prependix.c:19-33) and
    [REPLACE_USING_QUERYSELECTOR] (src/dom/replacement.c:20-34): the node found
    (initially 0) is passed to the edit [f]: [flo_html_appendDocumentNodeWithQuery],
    [flo_html_appendTextNodeWithQuery], [flo_html_appendHTMLFromStringWithQuery]
    (appendix.c:34-56), [flo_html_prependDocumentNodeWithQuery],
    [flo_html_prependTextNodeWithQuery], [flo_html_prependHTMLFromStringWithQuery]
    (prependix.c:35-57), [flo_html_replaceWithDocumentNodeWithQuery],
    [flo_html_replaceWithTextNodeWithQuery] and
    [flo_html_replaceWithHTMLFromStringWithQuery] (replacement.c:36-58). *)
Definition with_query (lo : nat -> nat) (css : bytes)
           (f : nat -> dom -> outcome (nat * dom)) (d : dom)
  : outcome (nat * dom) :=
  let* '(st, r) := query_selector lo css d in
  match st with
  | QSuccess => f (match r with Some n => n | None => 0 end) d
  | _ => Ok (0, d)
  end.
