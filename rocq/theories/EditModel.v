(** * Editing a DOM: src/dom/{deletion,modification,appendix,prependix,
    replacement,dom-util}.c.  Definitions only.

    Pointers to table entries are indices; a store through a pointer is [upd].
    Line numbers refer to the file named in each comment. *)
From Coq Require Import List NArith Arith Bool.
From Verif Require Import Base TrieModel DomModel ParserModel.
Import ListNotations.
Local Open Scope nat_scope.

Definition is_text (n : node) : bool :=
  match n_type n with TText => true | _ => false end.

(** Body of [flo_html_removeNode] after the children are gone:
    src/dom/deletion.c:13-54. *)
Definition unlink_node (id : nat) (d : dom) : outcome dom :=
  let* n := get_node d id in                                    (* :13 *)
  let nx := next_idx (n_id n) d in                              (* :14 *)
  let pc := parent_idx (n_id n) d in                            (* :16-17 *)
  let pv := prev_idx (n_id n) d in                              (* :20-21 *)
  (* :22-29 *)
  let d := match pv with
           | None => d
           | Some i =>
               match nx with
               | None => set_nexts d (upd (nexts d) i (0, 0))
               | Some j =>
                   set_nexts d (upd (nexts d) i
                     (fst (at_idx (nexts d) i), snd (at_idx (nexts d) j)))
               end
           end in
  (* :31-47 *)
  let* d := match pc with
            | None => Ok d
            | Some i =>
                let parent := fst (at_idx (pchilds d) i) in
                let d := set_pchilds d (upd (pchilds d) i (0, 0)) in
                match first_idx parent d with
                | None => Undef NullDeref                       (* :39 *)
                | Some k =>
                    if snd (at_idx (firsts d) k) =? id then
                      match nx with
                      | None => Ok (set_firsts d (upd (firsts d) k (0, 0)))
                      | Some j =>
                          Ok (set_firsts d (upd (firsts d) k
                               (fst (at_idx (firsts d) k),
                                snd (at_idx (nexts d) j))))
                      end
                    else Ok d
                end
            end in
  (* :49-52 *)
  let d := match nx with
           | None => d
           | Some j => set_nexts d (upd (nexts d) j (0, 0))
           end in
  (* :53-54 *)
  Ok (set_nodes d (upd (nodes d) id (mkNode (n_id n) TRemoved (PTag 0)))).

(** [flo_html_removeNode] and [flo_html_removeChildren]:
    src/dom/deletion.c:10-55 and :60-66, mutually recursive; one fuel bounds
    both. *)
Fixpoint remove_node_f (fuel : nat) (id : nat) (d : dom) : outcome dom :=
  match fuel with
  | O => NoFuel
  | S f =>
      let* d := remove_children_f f id d in
      unlink_node id d
  end
with remove_children_f (fuel : nat) (id : nat) (d : dom) : outcome dom :=
  match fuel with
  | O => NoFuel
  | S f =>
      let c := get_first_child id d in
      if 0 <? c then
        let* d := remove_node_f f c d in
        remove_children_f f id d
      else Ok d
  end.

Definition remove_fuel (d : dom) : nat := 3 + 3 * length (pchilds d).
Definition remove_node (id : nat) (d : dom) : outcome dom :=
  remove_node_f (remove_fuel d) id d.
Definition remove_children (id : nat) (d : dom) : outcome dom :=
  remove_children_f (remove_fuel d) id d.

(** [flo_html_getBooleanProperty] / [flo_html_getProperty]:
    src/dom/reading/reading-util.c:4-30 *)
Definition bprop_idx (id bid : nat) (d : dom) : option nat :=
  find_idx (fun e => (fst e =? id) && (snd e =? bid)) (bprops d).
Definition prop_idx (id kid : nat) (d : dom) : option nat :=
  find_idx (fun e => (p_node e =? id) && (p_key e =? kid)) (props d).

(** [flo_html_removeBooleanProperty]: src/dom/deletion.c:68-81 *)
Definition remove_bool_property (id : nat) (b : bytes) (d : dom) : outcome dom :=
  let* bid := map_contains b (bool_map d) in
  if 0 <? bid then
    match bprop_idx id bid d with
    | Some i => Ok (set_bprops d (upd (bprops d) i (0, 0)))
    | None => Ok d
    end
  else Ok d.

(** [flo_html_removeProperty]: src/dom/deletion.c:83-96 *)
Definition remove_property (id : nat) (k : bytes) (d : dom) : outcome dom :=
  let* kid := map_contains k (key_map d) in
  if 0 <? kid then
    match prop_idx id kid d with
    | Some i => Ok (set_props d (upd (props d) i (mkProp 0 0 0)))
    | None => Ok d
    end
  else Ok d.

(** [flo_html_setPropertyValue]: src/dom/modification.c:68-91 *)
Definition set_property_value (id : nat) (k v : bytes) (d : dom)
  : outcome (bool * dom) :=
  let* kid := map_contains k (key_map d) in
  if kid =? 0 then Ok (false, d)
  else match prop_idx id kid d with
       | None => Ok (false, d)
       | Some i =>
           let* '(vid, d) := intern_val v d in
           match nth_error (props d) i with
           | None => Undef OobWrite
           | Some p => Ok (true, set_props d
                             (upd (props d) i (mkProp (p_node p) (p_key p) vid)))
           end
       end.

(** [flo_html_setTextContent]: src/dom/modification.c:93-103 *)
Definition set_text_content (id : nat) (s : bytes) (d : dom) : outcome dom :=
  let* d := remove_children id d in
  let* '(new, d) := parse_text_element s d in
  let d := push_first d (id, new) in
  Ok (push_pchild d (id, new)).

(** [flo_html_addTextToTextNode]: src/dom/modification.c:105-125 *)
Definition add_text_to_text_node (id : nat) (s : bytes) (append : bool) (d : dom)
  : outcome dom :=
  let* n := get_node d id in
  let* old := node_text n in
  set_pay d id (PText (if append then old ++ [cSP] ++ s else s ++ [cSP] ++ old)).

(** [flo_html_tryMerge]: src/dom/dom-util.c:28-38 *)
Definition try_merge (target src : nat) (append : bool) (d : dom)
  : outcome (bool * dom) :=
  let* n := get_node d target in
  if is_text n then
    let* m := get_node d src in
    let* s := node_text m in
    let* d := add_text_to_text_node target s append d in
    Ok (true, d)
  else Ok (false, d).

(** [flo_html_connectOtherNodesToParent]: src/dom/dom-util.c:40-50 *)
Fixpoint connect_others_loop (fuel : nat) (p c : nat) (d : dom) : outcome dom :=
  if 0 <? c then
    match fuel with
    | O => NoFuel
    | S f => let d := push_pchild d (p, c) in
             connect_others_loop f p (get_next c d) d
    end
  else Ok d.
Definition connect_others (p last : nat) (d : dom) : outcome dom :=
  connect_others_loop (S (length (nexts d))) p (get_next last d) d.

(** ** Append: src/dom/appendix.c *)

(** [updateReferences]: src/dom/appendix.c:77-101 *)
Definition append_refs (p new : nat) (d : dom) : outcome dom :=
  match first_idx p d with
  | None =>
      let d := push_first d (p, new) in
      let d := push_pchild d (p, new) in
      connect_others p new d
  | Some i =>
      let* l := get_last_next (snd (at_idx (firsts d) i)) d in
      let d := push_next d (l, new) in
      let d := push_pchild d (p, new) in
      connect_others p new d
  end.

(** [flo_html_appendDocumentNode]: src/dom/appendix.c:103-114 *)
Definition append_document_node (p : nat) (dn : docnode) (d : dom)
  : outcome (nat * dom) :=
  let* '(new, d) := parse_document_element dn d in
  if new =? 0 then Ok (0, d)
  else let* d := append_refs p new d in Ok (new, d).

(** [flo_html_appendTextNode]: src/dom/appendix.c:116-135 *)
Definition append_text_node (p : nat) (s : bytes) (d : dom)
  : outcome (nat * dom) :=
  let* '(new, d) := parse_text_element s d in
  if new =? 0 then Ok (0, d)
  else
    let c := get_first_child p d in
    if 0 <? c then
      let* c := get_last_next c d in
      let* '(m, d) := try_merge c new true d in
      if (m : bool) then
        let* d := remove_node new d in Ok (c, d)
      else
        let* d := append_refs p new d in Ok (new, d)
    else
      let* d := append_refs p new d in Ok (new, d).

(** [flo_html_appendHTMLFromString]: src/dom/appendix.c:137-183.  The two
    branches of the inner [if] are kept apart as in the source. *)
Definition append_html (below : option bytes) (p : nat) (h : bytes) (d : dom)
  : outcome (nat * dom) :=
  let first_new := length (nodes d) in                          (* :141 *)
  let* '(ok, d) := parse_extra below h d in                     (* :142 *)
  if negb ok then Ok (0, d)
  else
    let fc := get_first_child p d in                            (* :147 *)
    let finish first_new d :=
      (let* d := append_refs p first_new d in Ok (first_new, d)) in
    if 0 <? fc then
      let* last_new := get_last_next first_new d in             (* :149-150 *)
      let* n := get_node d first_new in                         (* :152 / :166 *)
      if first_new <? last_new then
        if is_text n then
          let* ln := get_last_next fc d in
          let* '(m, d) := try_merge ln (n_id n) true d in
          if (m : bool) then
            let second := get_next first_new d in
            let* d := remove_node first_new d in
            finish second d
          else finish first_new d
        else finish first_new d
      else
        if is_text n then
          let* ln := get_last_next fc d in
          let* '(m, d) := try_merge ln (n_id n) true d in
          if (m : bool) then
            let* d := remove_node first_new d in Ok (ln, d)
          else finish first_new d
        else finish first_new d
    else finish first_new d.

(** ** Prepend: src/dom/prependix.c *)

(** [updateReferences]: src/dom/prependix.c:78-105 *)
Definition prepend_refs (p new : nat) (d : dom) : outcome dom :=
  match first_idx p d with
  | None =>
      let d := push_first d (p, new) in
      let d := push_pchild d (p, new) in
      connect_others p new d
  | Some i =>
      let old := snd (at_idx (firsts d) i) in
      let d := set_firsts d (upd (firsts d) i (fst (at_idx (firsts d) i), new)) in
      let* l := get_last_next new d in
      let d := push_next d (l, old) in
      let d := push_pchild d (p, new) in
      connect_others p new d
  end.

(** [flo_html_prependDocumentNode]: src/dom/prependix.c:107-118 *)
Definition prepend_document_node (p : nat) (dn : docnode) (d : dom)
  : outcome (nat * dom) :=
  let* '(new, d) := parse_document_element dn d in
  if new =? 0 then Ok (0, d)
  else let* d := prepend_refs p new d in Ok (new, d).

(** [flo_html_prependTextNode]: src/dom/prependix.c:120-139 *)
Definition prepend_text_node (p : nat) (s : bytes) (d : dom)
  : outcome (nat * dom) :=
  let* '(new, d) := parse_text_element s d in
  if new =? 0 then Ok (0, d)
  else
    let c := get_first_child p d in
    if 0 <? c then
      let* '(m, d) := try_merge c new false d in
      if (m : bool) then
        let* d := remove_node new d in Ok (new, d)
      else
        let* d := prepend_refs p new d in Ok (new, d)
    else
      let* d := prepend_refs p new d in Ok (new, d).

(** [flo_html_prependHTMLFromString]: src/dom/prependix.c:141-178 *)
Definition prepend_html (below : option bytes) (p : nat) (h : bytes) (d : dom)
  : outcome (nat * dom) :=
  let first_new := length (nodes d) in
  let* '(ok, d) := parse_extra below h d in
  if negb ok then Ok (0, d)
  else
    let fc := get_first_child p d in
    let finish d := (let* d := prepend_refs p first_new d in Ok (first_new, d)) in
    if 0 <? fc then
      let* last_new := get_last_next first_new d in
      if first_new <? last_new then
        let* n := get_node d last_new in
        if is_text n then
          let* '(m, d) := try_merge fc (n_id n) false d in
          if (m : bool) then
            let* d := remove_node last_new d in finish d
          else finish d
        else finish d
      else
        let* n := get_node d first_new in
        if is_text n then
          let* '(m, d) := try_merge fc (n_id n) false d in
          if (m : bool) then
            let* d := remove_node first_new d in Ok (fc, d)
          else finish d
        else finish d
    else finish d.

(** ** Replace: src/dom/replacement.c *)

(** [parentChildNode->parentID] pushes of src/dom/replacement.c:108-114.  The
    C code pushes to the array [parentChildNode] points into; the pointer
    stays valid here because an old copy of a grown array keeps its contents
    (arenas never free). *)
Definition replace_others (parent new : nat) (d : dom) : outcome dom :=
  connect_others_loop (S (length (nexts d))) parent (get_next new d) d.

(** [updateReferences]: src/dom/replacement.c:78-122 *)
Definition replace_refs (old new : nat) (d : dom) : outcome dom :=
  let* n := get_node d old in                                   (* :81 *)
  let* l := get_last_next new d in                              (* :82 *)
  let pc := parent_idx old d in                                 (* :84-85 *)
  let pf := match pc with                                       (* :86-90 *)
            | Some i => first_idx (fst (at_idx (pchilds d) i)) d
            | None => None
            end in
  let pv := prev_idx old d in                                   (* :92-93 *)
  let nx := next_idx old d in                                   (* :94 *)
  (* :98-104 *)
  let d := match pv with
           | Some i => set_nexts d (upd (nexts d) i (fst (at_idx (nexts d) i), new))
           | None =>
               match pf with
               | Some k => set_firsts d (upd (firsts d) k
                             (fst (at_idx (firsts d) k), new))
               | None => d
               end
           end in
  (* :106-115 *)
  let* d := match pc with
            | None => Ok d
            | Some i =>
                let parent := fst (at_idx (pchilds d) i) in
                let d := set_pchilds d (upd (pchilds d) i (parent, new)) in
                replace_others parent new d
            end in
  (* :117-119 *)
  let d := match nx with
           | None => d
           | Some j => set_nexts d (upd (nexts d) j (l, snd (at_idx (nexts d) j)))
           end in
  (* :121 *)
  Ok (set_nodes d (upd (nodes d) old (mkNode (n_id n) TRemoved (n_pay n)))).

(** [flo_html_replaceWithDocumentNode]: src/dom/replacement.c:124-135 *)
Definition replace_with_document_node (old : nat) (dn : docnode) (d : dom)
  : outcome (nat * dom) :=
  let* '(new, d) := parse_document_element dn d in
  if new =? 0 then Ok (0, d)
  else let* d := replace_refs old new d in Ok (new, d).

(** [tryMergeBothSides]: src/dom/replacement.c:137-162 *)
Definition try_merge_both (old new : nat) (d : dom) : outcome (bool * dom) :=
  let* n := get_node d new in
  if is_text n then
    let try_next d :=
      (match next_idx old d with
       | Some j => try_merge (snd (at_idx (nexts d) j)) (n_id n) false d
       | None => Ok (false, d)
       end) in
    match prev_idx old d with
    | Some i =>
        let* '(m, d) := try_merge (fst (at_idx (nexts d) i)) (n_id n) true d in
        if (m : bool) then Ok (true, d) else try_next d
    | None => try_next d
    end
  else Ok (false, d).

(** [flo_html_replaceWithTextNode]: src/dom/replacement.c:164-182 *)
Definition replace_with_text_node (old : nat) (s : bytes) (d : dom)
  : outcome (nat * dom) :=
  let* '(new, d) := parse_text_element s d in
  if new =? 0 then Ok (0, d)
  else
    let* '(m, d) := try_merge_both old new d in
    if (m : bool) then
      let* d := remove_node new d in
      let* d := remove_node old d in
      Ok (new, d)
    else
      let* d := replace_refs old new d in Ok (new, d).

(** [flo_html_replaceWithHTMLFromString]: src/dom/replacement.c:184-239.
    [previousNode] is read again after the removals (:232): its current
    contents are used, as in C. *)
Definition replace_with_html (below : option bytes) (old : nat) (h : bytes)
           (d : dom) : outcome (nat * dom) :=
  let first_new := length (nodes d) in
  let* '(ok, d) := parse_extra below h d in
  if negb ok then Ok (0, d)
  else
    let* last_new := get_last_next first_new d in
    let pv := prev_idx old d in
    let finish fn d := (let* d := replace_refs old fn d in Ok (fn, d)) in
    if first_new <? last_new then
      let* n := get_node d first_new in
      let* '(fn, d) :=
        (if is_text n then
           match pv with
           | Some i =>
               let* '(m, d) :=
                 try_merge (fst (at_idx (nexts d) i)) (n_id n) true d in
               if (m : bool) then
                 let second := get_next first_new d in
                 let* d := remove_node first_new d in
                 Ok (second, d)
               else Ok (first_new, d)
           | None => Ok (first_new, d)
           end
         else Ok (first_new, d)) in
      let* n := get_node d last_new in
      let* d :=
        (if is_text n then
           match next_idx old d with
           | Some j =>
               let* '(m, d) :=
                 try_merge (snd (at_idx (nexts d) j)) last_new false d in
               if (m : bool) then remove_node last_new d else Ok d
           | None => Ok d
           end
         else Ok d) in
      finish fn d
    else
      let* '(m, d) := try_merge_both old first_new d in
      if (m : bool) then
        let* d := remove_node first_new d in
        let* d := remove_node old d in
        match pv with
        | Some i => Ok (fst (at_idx (nexts d) i), d)
        | None => Undef NullDeref                               (* :232 *)
        end
      else finish first_new d.
