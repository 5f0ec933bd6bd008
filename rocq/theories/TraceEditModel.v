(** * What an edit does with the arena and with the tables in it.  Definitions only.

    The functions of EditModel are repeated here with a record, in program order, of
    everything they do with the memory of the document: elements pushed and objects
    allocated (as in TraceModel), and every access through a pointer into one of the
    tables.  Growing an array moves it (util/include/flo/util/array.h:32-79), so a
    pointer taken before a push into the same table may point into the old copy.
    A pointer is therefore recorded with the length its table had when the pointer was
    taken, and [xprog] refuses an access through a pointer that is older than the last
    push into its table.

    [TraceEditProofs.s_run] proves that the ordinary outcome is that of
    [ApiSpec.run]. *)
From Coq Require Import List NArith ZArith Arith Bool.
From Verif Require Import Base TrieModel DomModel ParserModel EditModel ApiSpec MemModel TraceModel.
Import ListNotations.
Local Open Scope nat_scope.

(** Tables are numbered as in [dom_arrays]: 1 nodes, 2 parentFirstChilds,
    3 parentChilds, 4 nextNodes, 5 boolProps, 6 props. *)
Inductive xev : Type :=
| XB (e : ev)                            (* a push or an allocation of TraceModel *)
| XStore (tab k g : nat) (x : bytes)     (* store through a pointer to element [k] *)
| XLoad (tab k g : nat)                  (* load through a pointer to element [k] *)
| XText (s : bytes).                     (* a new buffer filled with [s] *)

Definition xtr (A : Type) : Type := (list xev * outcome A)%type.
Definition x_ret {A} (a : A) : xtr A := ([], Ok a).
Definition xlift {A} (o : outcome A) : xtr A := ([], o).
Definition x_emit (e : xev) : xtr unit := ([e], Ok tt).
Definition emb {A} (x : tr A) : xtr A := (map XB (fst x), snd x).
Definition x_bind {A B} (x : xtr A) (f : A -> xtr B) : xtr B :=
  match snd x with
  | Ok a => let r := f a in (fst x ++ fst r, snd r)
  | Undef u => (fst x, Undef u)
  | Longjmp j => (fst x, Longjmp j)
  | NoFuel => (fst x, NoFuel)
  end.
Notation "'do^' x ':=' a 'in' b" := (x_bind a (fun x => b))
  (at level 200, x name, a at level 100, b at level 200).
Notation "'do^' ''' p ':=' a 'in' b" := (x_bind a (fun p => b))
  (at level 200, p strict pattern, a at level 100, b at level 200).
Notation "'log^' e 'then' b" := (x_bind (x_emit e) (fun _ => b))
  (at level 200, e at level 100, b at level 200).

(** Stores through a pointer to element [k] taken when the table had [g] elements. *)
Definition st_first (k g : nat) (e : nat * nat) (d : dom) : xtr dom :=
  log^ XStore 2 k g (enc_pair e) then x_ret (set_firsts d (upd (firsts d) k e)).
Definition st_pchild (k g : nat) (e : nat * nat) (d : dom) : xtr dom :=
  log^ XStore 3 k g (enc_pair e) then x_ret (set_pchilds d (upd (pchilds d) k e)).
Definition st_next (k g : nat) (e : nat * nat) (d : dom) : xtr dom :=
  log^ XStore 4 k g (enc_pair e) then x_ret (set_nexts d (upd (nexts d) k e)).
Definition st_bprop (k g : nat) (e : nat * nat) (d : dom) : xtr dom :=
  log^ XStore 5 k g (enc_pair e) then x_ret (set_bprops d (upd (bprops d) k e)).
Definition st_prop (k g : nat) (e : prop) (d : dom) : xtr dom :=
  log^ XStore 6 k g (enc_prop e) then x_ret (set_props d (upd (props d) k e)).
Definition st_node (k g : nat) (n : node) (d : dom) : xtr dom :=
  log^ XStore 1 k g (enc_node (n_id n) (n_type n)) then x_ret (set_nodes d (upd (nodes d) k n)).

(** Pushes. *)
Definition p_first (e : nat * nat) (d : dom) : xtr dom :=
  log^ XB (EFirst e) then x_ret (push_first d e).
Definition p_pchild (e : nat * nat) (d : dom) : xtr dom :=
  log^ XB (EPchild e) then x_ret (push_pchild d e).
Definition p_next (e : nat * nat) (d : dom) : xtr dom :=
  log^ XB (ENext e) then x_ret (push_next d e).

(** A new buffer for the text of node [id]: src/parser.c:382-384,
    src/dom/modification.c:112-124.  The node is addressed through the table
    ([dom->nodes.buf[id]]), not through an older pointer. *)
Definition x_set_text (id : nat) (s : bytes) (d : dom) : xtr dom :=
  log^ XText s then xlift (set_pay d id (PText s)).

(** [flo_html_parseTextElement]: src/parser.c:379-387 *)
Definition x_parse_text_element (s : bytes) (d : dom) : xtr (nat * dom) :=
  do^ '(id, d) := emb (t_create_node TText d) in
  do^ d := x_set_text id s d in
  x_ret (id, d).

(** [flo_html_parseDocumentElement]: src/parser.c:356-377 *)
Fixpoint x_add_bools (id : nat) (l : list bytes) (d : dom) : xtr dom :=
  match l with
  | [] => x_ret d
  | b :: l' => do^ d := emb (t_add_bool_property id b d) in x_add_bools id l' d
  end.
Fixpoint x_add_props (id : nat) (l : list (bytes * bytes)) (d : dom) : xtr dom :=
  match l with
  | [] => x_ret d
  | (k, v) :: l' => do^ d := emb (t_add_property id k v d) in x_add_props id l' d
  end.
Definition x_parse_document_element (dn : docnode) (d : dom) : xtr (nat * dom) :=
  do^ '(id, d) := emb (t_create_node TDocument d) in
  do^ d := emb (t_set_tag (dn_tag dn) id (dn_paired dn) d) in
  do^ d := x_add_bools id (dn_bools dn) d in
  do^ d := x_add_props id (dn_props dn) d in
  x_ret (id, d).

(** [flo_html_parseExtra]: src/parser.c:348-354 *)
Definition x_parse_extra (below : option bytes) (t : bytes) (d : dom) : xtr (bool * dom) :=
  do^ i := xlift (skip_space t 0) in
  emb (t_parse_loop (S (length t)) below t 0 i 0 [] d).

(** Body of [flo_html_removeNode]: src/dom/deletion.c:13-54.  The pointers are taken at
    :13-21, and the one to the first child of the parent at :37. *)
Definition x_unlink_node (id : nat) (d : dom) : xtr dom :=
  do^ n := xlift (get_node d id) in                             (* :13 *)
  let gn := length (nodes d) in
  let nx := next_idx (n_id n) d in                              (* :14 *)
  let pc := parent_idx (n_id n) d in                            (* :16-17 *)
  let pv := prev_idx (n_id n) d in                              (* :20-21 *)
  let gx := length (nexts d) in
  let gp := length (pchilds d) in
  do^ d := (match pv with                                       (* :22-29 *)
            | None => x_ret d
            | Some i =>
                match nx with
                | None => st_next i gx (0, 0) d
                | Some j =>
                    log^ XLoad 4 j gx then
                    st_next i gx (fst (at_idx (nexts d) i), snd (at_idx (nexts d) j)) d
                end
            end) in
  do^ d := (match pc with                                       (* :31-47 *)
            | None => x_ret d
            | Some i =>
                log^ XLoad 3 i gp then
                let parent := fst (at_idx (pchilds d) i) in
                do^ d := st_pchild i gp (0, 0) d in
                match first_idx parent d with
                | None => xlift (Undef NullDeref)
                | Some k =>
                    let gf := length (firsts d) in
                    if snd (at_idx (firsts d) k) =? id then
                      match nx with
                      | None => st_first k gf (0, 0) d
                      | Some j =>
                          log^ XLoad 4 j gx then
                          st_first k gf (fst (at_idx (firsts d) k), snd (at_idx (nexts d) j)) d
                      end
                    else x_ret d
                end
            end) in
  do^ d := (match nx with                                       (* :49-52 *)
            | None => x_ret d
            | Some j => st_next j gx (0, 0) d
            end) in
  st_node id gn (mkNode (n_id n) TRemoved (PTag 0)) d.          (* :53-54 *)

(** [flo_html_removeNode] and [flo_html_removeChildren]:
    src/dom/deletion.c:10-55 and :60-66 *)
Fixpoint x_remove_node_f (fuel : nat) (id : nat) (d : dom) : xtr dom :=
  match fuel with
  | O => xlift NoFuel
  | S f =>
      do^ d := x_remove_children_f f id d in
      x_unlink_node id d
  end
with x_remove_children_f (fuel : nat) (id : nat) (d : dom) : xtr dom :=
  match fuel with
  | O => xlift NoFuel
  | S f =>
      let c := get_first_child id d in
      if 0 <? c then
        do^ d := x_remove_node_f f c d in
        x_remove_children_f f id d
      else x_ret d
  end.
Definition x_remove_node (id : nat) (d : dom) : xtr dom := x_remove_node_f (remove_fuel d) id d.
Definition x_remove_children (id : nat) (d : dom) : xtr dom := x_remove_children_f (remove_fuel d) id d.

(** [flo_html_removeBooleanProperty]: src/dom/deletion.c:68-81 *)
Definition x_remove_bool_property (id : nat) (b : bytes) (d : dom) : xtr dom :=
  do^ bid := xlift (map_contains b (bool_map d)) in
  if 0 <? bid then
    match bprop_idx id bid d with
    | Some i => st_bprop i (length (bprops d)) (0, 0) d
    | None => x_ret d
    end
  else x_ret d.

(** [flo_html_removeProperty]: src/dom/deletion.c:83-96 *)
Definition x_remove_property (id : nat) (k : bytes) (d : dom) : xtr dom :=
  do^ kid := xlift (map_contains k (key_map d)) in
  if 0 <? kid then
    match prop_idx id kid d with
    | Some i => st_prop i (length (props d)) (mkProp 0 0 0) d
    | None => x_ret d
    end
  else x_ret d.

(** [flo_html_setPropertyValue]: src/dom/modification.c:68-91.  The pointer to the
    property is taken at :80, before the value is registered. *)
Definition x_set_property_value (id : nat) (k v : bytes) (d : dom) : xtr (bool * dom) :=
  do^ kid := xlift (map_contains k (key_map d)) in
  if kid =? 0 then x_ret (false, d)
  else match prop_idx id kid d with
       | None => x_ret (false, d)
       | Some i =>
           let g := length (props d) in
           do^ '(vid, d) := emb (t_intern_val v d) in
           match nth_error (props d) i with
           | None => xlift (Undef OobWrite)
           | Some p =>
               do^ d := st_prop i g (mkProp (p_node p) (p_key p) vid) d in
               x_ret (true, d)
           end
       end.

(** [flo_html_setTextContent]: src/dom/modification.c:93-103 *)
Definition x_set_text_content (id : nat) (s : bytes) (d : dom) : xtr dom :=
  do^ d := x_remove_children id d in
  do^ '(new, d) := x_parse_text_element s d in
  do^ d := p_first (id, new) d in
  p_pchild (id, new) d.

(** [flo_html_addTextToTextNode]: src/dom/modification.c:105-125 *)
Definition x_add_text (id : nat) (s : bytes) (append : bool) (d : dom) : xtr dom :=
  do^ n := xlift (get_node d id) in
  do^ old := xlift (node_text n) in
  x_set_text id (if append then old ++ [cSP] ++ s else s ++ [cSP] ++ old) d.

(** [flo_html_tryMerge]: src/dom/dom-util.c:28-38 *)
Definition x_try_merge (target src : nat) (append : bool) (d : dom) : xtr (bool * dom) :=
  do^ n := xlift (get_node d target) in
  if is_text n then
    do^ m := xlift (get_node d src) in
    do^ s := xlift (node_text m) in
    do^ d := x_add_text target s append d in
    x_ret (true, d)
  else x_ret (false, d).

(** [flo_html_connectOtherNodesToParent]: src/dom/dom-util.c:40-50 *)
Fixpoint x_connect_loop (fuel : nat) (p c : nat) (d : dom) : xtr dom :=
  if 0 <? c then
    match fuel with
    | O => xlift NoFuel
    | S f => do^ d := p_pchild (p, c) d in x_connect_loop f p (get_next c d) d
    end
  else x_ret d.
Definition x_connect_others (p last : nat) (d : dom) : xtr dom :=
  x_connect_loop (S (length (nexts d))) p (get_next last d) d.

(** [updateReferences]: src/dom/appendix.c:77-101 *)
Definition x_append_refs (p new : nat) (d : dom) : xtr dom :=
  match first_idx p d with
  | None =>
      do^ d := p_first (p, new) d in
      do^ d := p_pchild (p, new) d in
      x_connect_others p new d
  | Some i =>
      let gf := length (firsts d) in
      log^ XLoad 2 i gf then
      do^ l := xlift (get_last_next (snd (at_idx (firsts d) i)) d) in
      do^ d := p_next (l, new) d in
      do^ d := p_pchild (p, new) d in
      x_connect_others p new d
  end.

(** [flo_html_appendDocumentNode]: src/dom/appendix.c:103-114 *)
Definition x_append_document_node (p : nat) (dn : docnode) (d : dom) : xtr (nat * dom) :=
  do^ '(new, d) := x_parse_document_element dn d in
  if new =? 0 then x_ret (0, d)
  else do^ d := x_append_refs p new d in x_ret (new, d).

(** [flo_html_appendTextNode]: src/dom/appendix.c:116-135 *)
Definition x_append_text_node (p : nat) (s : bytes) (d : dom) : xtr (nat * dom) :=
  do^ '(new, d) := x_parse_text_element s d in
  if new =? 0 then x_ret (0, d)
  else
    let c := get_first_child p d in
    if 0 <? c then
      do^ c := xlift (get_last_next c d) in
      do^ '(m, d) := x_try_merge c new true d in
      if (m : bool) then
        do^ d := x_remove_node new d in x_ret (c, d)
      else
        do^ d := x_append_refs p new d in x_ret (new, d)
    else
      do^ d := x_append_refs p new d in x_ret (new, d).

(** [flo_html_appendHTMLFromString]: src/dom/appendix.c:137-183.  [firstAddedNode] is a
    pointer (:152, :166). *)
Definition x_append_html (below : option bytes) (p : nat) (h : bytes) (d : dom) : xtr (nat * dom) :=
  let first_new := length (nodes d) in
  do^ '(ok, d) := x_parse_extra below h d in
  if negb ok then x_ret (0, d)
  else
    let fc := get_first_child p d in
    let finish first_new d :=
      (do^ d := x_append_refs p first_new d in x_ret (first_new, d)) in
    if 0 <? fc then
      do^ last_new := xlift (get_last_next first_new d) in
      do^ n := xlift (get_node d first_new) in
      let gn := length (nodes d) in
      if first_new <? last_new then
        if is_text n then
          do^ ln := xlift (get_last_next fc d) in
          log^ XLoad 1 first_new gn then
          do^ '(m, d) := x_try_merge ln (n_id n) true d in
          if (m : bool) then
            let second := get_next first_new d in
            do^ d := x_remove_node first_new d in
            finish second d
          else finish first_new d
        else finish first_new d
      else
        if is_text n then
          do^ ln := xlift (get_last_next fc d) in
          log^ XLoad 1 first_new gn then
          do^ '(m, d) := x_try_merge ln (n_id n) true d in
          if (m : bool) then
            do^ d := x_remove_node first_new d in x_ret (ln, d)
          else finish first_new d
        else finish first_new d
    else finish first_new d.

(** [updateReferences]: src/dom/prependix.c:78-105; [firstChild] is taken at :81-82. *)
Definition x_prepend_refs (p new : nat) (d : dom) : xtr dom :=
  match first_idx p d with
  | None =>
      do^ d := p_first (p, new) d in
      do^ d := p_pchild (p, new) d in
      x_connect_others p new d
  | Some i =>
      let gf := length (firsts d) in
      log^ XLoad 2 i gf then
      let old := snd (at_idx (firsts d) i) in
      do^ d := st_first i gf (fst (at_idx (firsts d) i), new) d in
      do^ l := xlift (get_last_next new d) in
      do^ d := p_next (l, old) d in
      do^ d := p_pchild (p, new) d in
      x_connect_others p new d
  end.

(** [flo_html_prependDocumentNode]: src/dom/prependix.c:107-118 *)
Definition x_prepend_document_node (p : nat) (dn : docnode) (d : dom) : xtr (nat * dom) :=
  do^ '(new, d) := x_parse_document_element dn d in
  if new =? 0 then x_ret (0, d)
  else do^ d := x_prepend_refs p new d in x_ret (new, d).

(** [flo_html_prependTextNode]: src/dom/prependix.c:120-139 *)
Definition x_prepend_text_node (p : nat) (s : bytes) (d : dom) : xtr (nat * dom) :=
  do^ '(new, d) := x_parse_text_element s d in
  if new =? 0 then x_ret (0, d)
  else
    let c := get_first_child p d in
    if 0 <? c then
      do^ '(m, d) := x_try_merge c new false d in
      if (m : bool) then
        do^ d := x_remove_node new d in x_ret (new, d)
      else
        do^ d := x_prepend_refs p new d in x_ret (new, d)
    else
      do^ d := x_prepend_refs p new d in x_ret (new, d).

(** [flo_html_prependHTMLFromString]: src/dom/prependix.c:141-178 *)
Definition x_prepend_html (below : option bytes) (p : nat) (h : bytes) (d : dom) : xtr (nat * dom) :=
  let first_new := length (nodes d) in
  do^ '(ok, d) := x_parse_extra below h d in
  if negb ok then x_ret (0, d)
  else
    let fc := get_first_child p d in
    let finish d := (do^ d := x_prepend_refs p first_new d in x_ret (first_new, d)) in
    if 0 <? fc then
      do^ last_new := xlift (get_last_next first_new d) in
      let gn := length (nodes d) in
      if first_new <? last_new then
        do^ n := xlift (get_node d last_new) in
        if is_text n then
          log^ XLoad 1 last_new gn then
          do^ '(m, d) := x_try_merge fc (n_id n) false d in
          if (m : bool) then
            do^ d := x_remove_node last_new d in finish d
          else finish d
        else finish d
      else
        do^ n := xlift (get_node d first_new) in
        if is_text n then
          log^ XLoad 1 first_new gn then
          do^ '(m, d) := x_try_merge fc (n_id n) false d in
          if (m : bool) then
            do^ d := x_remove_node first_new d in x_ret (fc, d)
          else finish d
        else finish d
    else finish d.

(** [updateReferences]: src/dom/replacement.c:78-122.  All pointers are taken before the
    first store (:81-94).  [parentChildNode->parentID] is loaded again for every push
    of :108-114, in the later rounds from the copy the pushes left behind; arenas never
    reuse memory, so the old value is still there.  These loads are not recorded. *)
Definition x_replace_refs (old new : nat) (d : dom) : xtr dom :=
  do^ n := xlift (get_node d old) in                            (* :81 *)
  do^ l := xlift (get_last_next new d) in                       (* :82 *)
  let gn := length (nodes d) in
  let gp := length (pchilds d) in
  let gf := length (firsts d) in
  let gx := length (nexts d) in
  let pc := parent_idx old d in                                 (* :84-85 *)
  let pf := match pc with                                       (* :86-90 *)
            | Some i => first_idx (fst (at_idx (pchilds d) i)) d
            | None => None
            end in
  let pv := prev_idx old d in                                   (* :92-93 *)
  let nx := next_idx old d in                                   (* :94 *)
  do^ d := (match pv with                                       (* :98-104 *)
            | Some i => st_next i gx (fst (at_idx (nexts d) i), new) d
            | None =>
                match pf with
                | Some k => st_first k gf (fst (at_idx (firsts d) k), new) d
                | None => x_ret d
                end
            end) in
  do^ d := (match pc with                                       (* :106-115 *)
            | None => x_ret d
            | Some i =>
                log^ XLoad 3 i gp then
                let parent := fst (at_idx (pchilds d) i) in
                do^ d := st_pchild i gp (parent, new) d in
                x_connect_loop (S (length (nexts d))) parent (get_next new d) d
            end) in
  do^ d := (match nx with                                       (* :117-119 *)
            | None => x_ret d
            | Some j => st_next j gx (l, snd (at_idx (nexts d) j)) d
            end) in
  st_node old gn (mkNode (n_id n) TRemoved (n_pay n)) d.        (* :121 *)

(** [flo_html_replaceWithDocumentNode]: src/dom/replacement.c:124-135 *)
Definition x_replace_with_document_node (old : nat) (dn : docnode) (d : dom) : xtr (nat * dom) :=
  do^ '(new, d) := x_parse_document_element dn d in
  if new =? 0 then x_ret (0, d)
  else do^ d := x_replace_refs old new d in x_ret (new, d).

(** [tryMergeBothSides]: src/dom/replacement.c:137-162; [replacingNode] is taken at :140
    and used up to the second merge. *)
Definition x_try_merge_both (old new : nat) (d : dom) : xtr (bool * dom) :=
  do^ n := xlift (get_node d new) in
  let gn := length (nodes d) in
  if is_text n then
    let try_next d :=
      (match next_idx old d with
       | Some j =>
           log^ XLoad 4 j (length (nexts d)) then
           log^ XLoad 1 new gn then
           x_try_merge (snd (at_idx (nexts d) j)) (n_id n) false d
       | None => x_ret (false, d)
       end) in
    match prev_idx old d with
    | Some i =>
        log^ XLoad 4 i (length (nexts d)) then
        log^ XLoad 1 new gn then
        do^ '(m, d) := x_try_merge (fst (at_idx (nexts d) i)) (n_id n) true d in
        if (m : bool) then x_ret (true, d) else try_next d
    | None => try_next d
    end
  else x_ret (false, d).

(** [flo_html_replaceWithTextNode]: src/dom/replacement.c:164-182 *)
Definition x_replace_with_text_node (old : nat) (s : bytes) (d : dom) : xtr (nat * dom) :=
  do^ '(new, d) := x_parse_text_element s d in
  if new =? 0 then x_ret (0, d)
  else
    do^ '(m, d) := x_try_merge_both old new d in
    if (m : bool) then
      do^ d := x_remove_node new d in
      do^ d := x_remove_node old d in
      x_ret (new, d)
    else
      do^ d := x_replace_refs old new d in x_ret (new, d).

(** [flo_html_replaceWithHTMLFromString]: src/dom/replacement.c:184-239.
    [previousNode] is taken at :196-197 and used up to :232. *)
Definition x_replace_with_html (below : option bytes) (old : nat) (h : bytes) (d : dom) : xtr (nat * dom) :=
  let first_new := length (nodes d) in
  do^ '(ok, d) := x_parse_extra below h d in
  if negb ok then x_ret (0, d)
  else
    do^ last_new := xlift (get_last_next first_new d) in
    let pv := prev_idx old d in
    let gx := length (nexts d) in
    let finish fn d := (do^ d := x_replace_refs old fn d in x_ret (fn, d)) in
    if first_new <? last_new then
      do^ n := xlift (get_node d first_new) in
      let gn := length (nodes d) in
      do^ '(fn, d) :=
        (if is_text n then
           match pv with
           | Some i =>
               log^ XLoad 4 i gx then
               log^ XLoad 1 first_new gn then
               do^ '(m, d) :=
                 x_try_merge (fst (at_idx (nexts d) i)) (n_id n) true d in
               if (m : bool) then
                 let second := get_next first_new d in
                 do^ d := x_remove_node first_new d in
                 x_ret (second, d)
               else x_ret (first_new, d)
           | None => x_ret (first_new, d)
           end
         else x_ret (first_new, d)) in
      do^ n := xlift (get_node d last_new) in
      do^ d :=
        (if is_text n then
           match next_idx old d with
           | Some j =>
               log^ XLoad 4 j (length (nexts d)) then
               do^ '(m, d) :=
                 x_try_merge (snd (at_idx (nexts d) j)) last_new false d in
               if (m : bool) then x_remove_node last_new d else x_ret d
           | None => x_ret d
           end
         else x_ret d) in
      finish fn d
    else
      do^ '(m, d) := x_try_merge_both old first_new d in
      if (m : bool) then
        do^ d := x_remove_node first_new d in
        do^ d := x_remove_node old d in
        match pv with
        | Some i => log^ XLoad 4 i gx then x_ret (fst (at_idx (nexts d) i), d)
        | None => xlift (Undef NullDeref)
        end
      else finish first_new d.

(** The calls of [ApiSpec.run]. *)
Definition x_run (bl : bytes) (o : op) (d : dom) : xtr dom :=
  match o with
  | AppendDoc p e => do^ '(_, d) := x_append_document_node p e d in x_ret d
  | AppendText p s => do^ '(_, d) := x_append_text_node p s d in x_ret d
  | AppendHtml p h => do^ '(_, d) := x_append_html (Some bl) p h d in x_ret d
  | PrependDoc p e => do^ '(_, d) := x_prepend_document_node p e d in x_ret d
  | PrependText p s => do^ '(_, d) := x_prepend_text_node p s d in x_ret d
  | PrependHtml p h => do^ '(_, d) := x_prepend_html (Some bl) p h d in x_ret d
  | ReplaceDoc n e => do^ '(_, d) := x_replace_with_document_node n e d in x_ret d
  | ReplaceText n s => do^ '(_, d) := x_replace_with_text_node n s d in x_ret d
  | ReplaceHtml n h => do^ '(_, d) := x_replace_with_html (Some bl) n h d in x_ret d
  | Remove n => x_remove_node n d
  | RemoveChildren n => x_remove_children n d
  | SetText n s => x_set_text_content n s d
  | AddBool n b => emb (t_add_bool_property n b d)
  | AddProp n k v => emb (t_add_property n k v d)
  | RemoveBool n b => x_remove_bool_property n b d
  | RemoveProp n k => x_remove_property n k d
  | SetProp n k v => do^ '(_, d) := x_set_property_value n k v d in x_ret d
  | AddText n s app => x_add_text n s app d
  | SetTag n tag paired => emb (t_set_tag tag n paired d)
  end.

(** ** The record as a program on memory *)

(** Lengths of tables 1 to 6 after an event. *)
Definition bump (i : nat) (lens : list nat) : list nat := upd lens i (S (nth i lens 0)).
Definition ev_lens (e : ev) (lens : list nat) : list nat :=
  match e with
  | ENode _ _ => bump 0 lens
  | EFirst _ => bump 1 lens
  | EPchild _ => bump 2 lens
  | ENext _ => bump 3 lens
  | EBprop _ => bump 4 lens
  | EProp _ => bump 5 lens
  | _ => lens
  end.
Definition ev_new (e : ev) : nat := match e with ETrie | EText => 1 | _ => 0 end.

(** Table [tab] still has the length it had when the pointer was taken. *)
Definition fresh (tab g : nat) (lens : list nat) : bool :=
  match tab with
  | 0 => false
  | S i => match nth_error lens i with Some n => n =? g | None => false end
  end.

(** [n] objects exist; [lens] are the lengths of tables 1 to 6.  None: an access through
    a pointer that an earlier push may have left pointing into an old copy. *)
Fixpoint xprog (lens : list nat) (n : nat) (l : list xev) : option (list mop) :=
  match l with
  | [] => Some []
  | XB e :: l => option_map (app (prog n [e])) (xprog (ev_lens e lens) (n + ev_new e) l)
  | XStore tab k g x :: l =>
      if fresh tab g lens then option_map (cons (Store tab k x)) (xprog lens n l) else None
  | XLoad tab k g :: l =>
      if fresh tab g lens then xprog lens n l else None
  | XText s :: l =>
      (* FLO_NEW of no bytes takes nothing *)
      option_map (cons (match s with [] => NewArr 1 1 | _ => Raw 1 1 (map (fun b => [b]) s) end))
                 (xprog lens (S n) l)
  end.

(** An edit of the document whose DOM is [d] and whose memory is [arrs], [s]. *)
Definition edit_in (bl : bytes) (o : op) (d : dom) (arrs : list darr) (s : mem)
  : outcome (dom * list darr * mem) :=
  let '(evs, r) := x_run bl o d in
  match xprog (map d_len (firstn 6 (skipn 1 arrs))) (length arrs) evs with
  | None => Undef OobWrite
  | Some p =>
      let* '(arrs, s) := mruns p arrs s in
      let* d := r in
      Ok (d, arrs, s)
  end.

(** [createDom] and then edits, all in one arena.  None: [createDom] gave NULL. *)
Fixpoint edits_in (ops : list (bytes * op)) (d : dom) (arrs : list darr) (s : mem)
  : outcome (dom * list darr * mem) :=
  match ops with
  | [] => Ok (d, arrs, s)
  | (bl, o) :: ops => let* '(d, arrs, s) := edit_in bl o d arrs s in edits_in ops d arrs s
  end.
Definition session_in (s : mem) (t : bytes) (ops : list (bytes * op))
  : outcome (option (dom * list darr * mem)) :=
  let* '(r, arrs, s) := create_dom_in s t in
  match r with
  | None => Ok None
  | Some d => let* x := edits_in ops d arrs s in Ok (Some x)
  end.
