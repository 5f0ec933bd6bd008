(** * Edits that are abandoned half-way.  Definitions only.

    Every allocation of an edit can leave through [__builtin_longjmp]
    (util/src/memory/arena.c:13-19), and so can the two 16-bit limits
    (src/dom/dom-util.c:15-18, src/dom/util/string-auto-uint16-map.c:16-19).
    The caller then still holds the DOM in whatever state it was at that moment.
    This file repeats the editing functions of DomModel, ParserModel and
    EditModel with that state made visible: the result of an abandonable
    computation is the list of the DOMs it can be left with, one per point at
    which it can jump, in program order, together with its ordinary outcome.

    A [FLO_PUSH] (util/include/flo/util/array.h:32-79) allocates only when the
    array is full.  Every push is listed as a point at which the jump may
    happen, whatever the capacity, so the real jump points are among the listed
    ones.  The reads between two allocations do not change the DOM and are
    taken from the plain model through [pure].

    The capacities of the arrays are not part of this model: a jump out of
    [flo_grow] on an array that was never allocated leaves its capacity at 1
    (util/include/flo/util/array.h:33-51), which the reading functions do not look at.

    [CrashAgree.c_run_agrees] proves that the ordinary outcome is that of
    [ApiSpec.run]. *)
From Coq Require Import List NArith Arith Bool.
From Verif Require Import Base TrieModel DomModel ParserModel EditModel ReadModel DomSpec ApiSpec.
Import ListNotations.
Local Open Scope nat_scope.

Definition ab (A : Type) : Type := (list dom * outcome A)%type.

Definition a_ret {A} (a : A) : ab A := ([], Ok a).
Definition pure {A} (o : outcome A) : ab A := ([], o).
(** An allocation: the call may end here, leaving [d]. *)
Definition may_jump (d : dom) : ab unit := ([d], Ok tt).
(** The call ends here, leaving [d]. *)
Definition a_jump {A} (j : jmp) (d : dom) : ab A := ([d], Longjmp j).
Definition a_bind {A B} (x : ab A) (f : A -> ab B) : ab B :=
  match snd x with
  | Ok a => let r := f a in (fst x ++ fst r, snd r)
  | Undef u => (fst x, Undef u)
  | Longjmp j => (fst x, Longjmp j)
  | NoFuel => (fst x, NoFuel)
  end.

Notation "'do*' x ':=' a 'in' b" := (a_bind a (fun x => b))
  (at level 200, x name, a at level 100, b at level 200).
Notation "'do*' ''' p ':=' a 'in' b" := (a_bind a (fun p => b))
  (at level 200, p strict pattern, a at level 100, b at level 200).
Notation "'try' d 'then' b" := (a_bind (may_jump d) (fun _ => b))
  (at level 200, d at level 100, b at level 200).

(** [flo_html_createNode]: src/dom/dom-util.c:13-26; the push comes last. *)
Definition c_create_node (ty : ntype) (d : dom) : ab (nat * dom) :=
  if (N.of_nat (length (nodes d)) <=? 65534)%N then
    try d then
    let id := length (nodes d) in
    a_ret (id, push_node d (mkNode id ty PNone))
  else a_jump NodeLimit d.

(** [flo_trie_insertStringAutoUint16Map]:
    src/dom/util/string-auto-uint16-map.c:5-26.  The trie node is allocated
    (:20-21) before anything is stored; [d] is the DOM around the map. *)
Definition c_map_insert (s : bytes) (m : amap) (d : dom) : ab (bool * nat * amap) :=
  match map_insert s m with
  | Ok (true, id, m') => try d then a_ret (true, id, m')
  | Ok (false, id, m') => a_ret (false, id, m')
  | Longjmp j => a_jump j d
  | Undef u => pure (Undef u)
  | NoFuel => pure NoFuel
  end.

(** [getCreatedPropIDFromString]: src/dom/modification.c:19-43.  The map already
    has the new id when the registry is pushed to (:26-40). *)
Definition c_intern_bool (s : bytes) (d : dom) : ab (nat * dom) :=
  do* '(ins, id, m) := c_map_insert s (bool_map d) d in
  if (ins : bool) then
    try set_bools d (bool_reg d) m then a_ret (id, set_bools d (bool_reg d ++ [s]) m)
  else a_ret (id, set_bools d (bool_reg d) m).
Definition c_intern_key (s : bytes) (d : dom) : ab (nat * dom) :=
  do* '(ins, id, m) := c_map_insert s (key_map d) d in
  if (ins : bool) then
    try set_keys d (key_reg d) m then a_ret (id, set_keys d (key_reg d ++ [s]) m)
  else a_ret (id, set_keys d (key_reg d) m).
Definition c_intern_val (s : bytes) (d : dom) : ab (nat * dom) :=
  do* '(ins, id, m) := c_map_insert s (val_map d) d in
  if (ins : bool) then
    try set_vals d (val_reg d) m then a_ret (id, set_vals d (val_reg d ++ [s]) m)
  else a_ret (id, set_vals d (val_reg d) m).

(** [flo_html_addPropertyToNode]: src/dom/modification.c:45-56 *)
Definition c_add_property (id : nat) (k v : bytes) (d : dom) : ab dom :=
  do* '(kid, d) := c_intern_key k d in
  do* '(vid, d) := c_intern_val v d in
  try d then a_ret (push_prop d (mkProp id kid vid)).

(** [flo_html_addBooleanPropertyToNode]: src/dom/modification.c:58-66 *)
Definition c_add_bool_property (id : nat) (b : bytes) (d : dom) : ab dom :=
  do* '(bid, d) := c_intern_bool b d in
  try d then a_ret (push_bprop d (id, bid)).

(** [flo_html_setTagOnDocumentNode]: src/dom/modification.c:127-138 *)
Definition c_set_tag (tag : bytes) (id : nat) (paired : bool) (d : dom) : ab dom :=
  do* '(ins, tid, m) := c_map_insert tag (tag_map d) d in
  if (ins : bool) then
    try set_tags d (tag_reg d) m then
    pure (set_pay (set_tags d (tag_reg d ++ [mkTag tag paired]) m) id (PTag tid))
  else pure (set_pay (set_tags d (tag_reg d) m) id (PTag tid)).

(** ** The fragment parser: src/parser.c *)

(** [updateReferences]: src/parser.c:36-59 *)
Definition c_update_refs (new prev : nat) (stack : list frame) (d : dom) : ab dom :=
  if (0 <? new) && (0 <? prev) then
    match stack with
    | [] => try d then a_ret (push_next d (prev, new))
    | (parent, _) :: _ =>
        try d then
        let d := push_pchild d (parent, new) in
        try d then
        a_ret (if parent =? prev then push_first d (parent, new)
               else push_next d (prev, new))
    end
  else a_ret d.

(** [parseTextNode]: src/parser.c:112-161.  The allocations of [flo_addRawData]
    (:145-150) leave the DOM alone, so one jump point stands for all of them. *)
Definition c_parse_text_node (t : bytes) (i : nat) (tag : bytes) (d : dom)
  : ab (nat * nat * dom) :=
  do* '(id, d) := c_create_node TText d in
  let special := beq tag s_script || beq tag s_style in
  try d then
  do* '(raw, j) := pure (text_loop (S (length t)) t special tag None i) in
  do* d := pure (set_pay d id (PText raw)) in
  a_ret (id, j, d).

(** Attribute loop: src/parser.c:219-244 *)
Fixpoint c_attr_loop (fuel : nat) (t : bytes) (id : nat) (can : bool) (i : nat)
         (d : dom) : ab (bool * nat * dom) :=
  if i <? length t then
    do* c := pure (get_char t i) in
    if (c =? cGT)%N then a_ret (can, i, d)
    else
      match fuel with
      | O => pure NoFuel
      | S f =>
          do* '(can, i, d) :=
            (if (c =? cSLASH)%N then a_ret (false, S i, d)
             else if negb (is_blank c) then
               do* '(key, i) := pure (parse_prop t i) in
               if (current_char t i =? cEQ)%N then
                 do* '(v, i) := pure (parse_prop t (S i)) in
                 do* d := c_add_property id key v d in
                 a_ret (can, i, d)
               else
                 do* d := c_add_bool_property id key d in
                 a_ret (can, i, d)
             else a_ret (can, i, d)) in
          do* i := pure (skip_space t i) in
          c_attr_loop f t id can i d
      end
  else a_ret (can, i, d).

(** [parseDocumentNode]: src/parser.c:190-258 *)
Definition c_parse_document_node (t : bytes) (i : nat) (exclam : bool) (d : dom)
  : ab (nat * bool * bytes * nat * dom) :=
  do* '(id, d) := c_create_node TDocument d in
  do* j := pure (scan t (fun c => (c =? cGT)%N || is_blank c) i) in
  let size := j - i in
  let can := negb exclam in
  do* slash := pure
    (if (current_char t j =? cGT)%N then
       match j with
       | O => Undef OobRead
       | S j' => let* p := get_char t j' in Ok (p =? cSLASH)%N
       end
     else Ok false) in
  do* '(can, size) := pure
    (if (slash : bool) then
       match size with O => Undef NegLen | S s => Ok (false, s) end
     else Ok (can, size)) in
  do* tag := pure (read_slice t i size) in
  let can := if is_void tag then false else can in
  do* j := pure (skip_space t j) in
  do* '(can, j, d) := c_attr_loop (S (length t)) t id can j d in
  do* d := c_set_tag tag id can d in
  a_ret (id, can, tag, S j, d).

(** One iteration of the main loop: src/parser.c:268-333 *)
Definition c_parse_step (below : option bytes) (t : bytes) (start : nat)
           (i prev : nat) (stack : list frame) (d : dom)
  : ab (option (nat * nat * list frame) * dom) :=
  do* c := pure (get_char t i) in
  if (c =? cLT)%N then
    do* cm := pure (is_comment t i) in
    if (cm : bool) then
      do* j := pure (skip_comment t i) in a_ret (Some (j, prev, stack), d)
    else
      do* tt := pure (top_tag below stack) in
      do* e := pure (is_end_tag t i tt) in
      if (e : bool) then
        let '(prev, stack) :=
          (if start <? length stack then
             match stack with
             | (id, _) :: stack' => (id, stack')
             | [] => (prev, stack)
             end
           else (prev, stack)) in
        do* j := pure (scan t (fun c => (c =? cGT)%N) i) in
        a_ret (Some (S j, prev, stack), d)
      else
        let i := S i in
        let ch := current_char t i in
        if is_alpha ch || (ch =? cBANG)%N then
          do* '(id, can, tag, j, d) :=
            c_parse_document_node t i (ch =? cBANG)%N d in
          do* d := c_update_refs id prev stack d in
          if (can : bool) then
            if max_depth <=? length stack then a_ret (None, d)
            else a_ret (Some (j, id, (id, tag) :: stack), d)
          else a_ret (Some (j, id, stack), d)
        else
          do* '(id, j, d) := c_parse_text_node t i (containing_tag stack) d in
          do* d := c_update_refs id prev stack d in
          a_ret (Some (j, id, stack), d)
  else
    do* '(id, j, d) := c_parse_text_node t i (containing_tag stack) d in
    do* d := c_update_refs id prev stack d in
    a_ret (Some (j, id, stack), d).

(** The main loop of [flo_html_parse]: src/parser.c:260-336 *)
Fixpoint c_parse_loop (fuel : nat) (below : option bytes) (t : bytes)
         (start : nat) (i prev : nat) (stack : list frame) (d : dom)
  : ab (bool * dom) :=
  if i <? length t then
    match fuel with
    | O => pure NoFuel
    | S f =>
        do* '(r, d) := c_parse_step below t start i prev stack d in
        match r with
        | None => a_ret (false, d)
        | Some (i, prev, stack) =>
            do* i := pure (skip_space t i) in
            c_parse_loop f below t start i prev stack d
        end
    end
  else a_ret (true, d).

(** [flo_html_parseExtra]: src/parser.c:348-354; the stack is a C local. *)
Definition c_parse_extra (below : option bytes) (t : bytes) (d : dom)
  : ab (bool * dom) :=
  do* i := pure (skip_space t 0) in
  c_parse_loop (S (length t)) below t 0 i 0 [] d.

Fixpoint c_add_bools (id : nat) (l : list bytes) (d : dom) : ab dom :=
  match l with
  | [] => a_ret d
  | b :: l' => do* d := c_add_bool_property id b d in c_add_bools id l' d
  end.
Fixpoint c_add_props (id : nat) (l : list (bytes * bytes)) (d : dom) : ab dom :=
  match l with
  | [] => a_ret d
  | (k, v) :: l' => do* d := c_add_property id k v d in c_add_props id l' d
  end.

(** [flo_html_parseDocumentElement]: src/parser.c:356-377 *)
Definition c_parse_document_element (dn : docnode) (d : dom) : ab (nat * dom) :=
  do* '(id, d) := c_create_node TDocument d in
  do* d := c_set_tag (dn_tag dn) id (dn_paired dn) d in
  do* d := c_add_bools id (dn_bools dn) d in
  do* d := c_add_props id (dn_props dn) d in
  a_ret (id, d).

(** [flo_html_parseTextElement]: src/parser.c:379-387; the text is allocated
    (:382) after the node has been pushed. *)
Definition c_parse_text_element (s : bytes) (d : dom) : ab (nat * dom) :=
  do* '(id, d) := c_create_node TText d in
  try d then
  do* d := pure (set_pay d id (PText s)) in
  a_ret (id, d).

(** ** The editing functions *)

(** [flo_html_setPropertyValue]: src/dom/modification.c:68-91 *)
Definition c_set_property_value (id : nat) (k v : bytes) (d : dom) : ab (bool * dom) :=
  do* kid := pure (map_contains k (key_map d)) in
  if kid =? 0 then a_ret (false, d)
  else match prop_idx id kid d with
       | None => a_ret (false, d)
       | Some i =>
           do* '(vid, d) := c_intern_val v d in
           match nth_error (props d) i with
           | None => pure (Undef OobWrite)
           | Some p => a_ret (true, set_props d
                             (upd (props d) i (mkProp (p_node p) (p_key p) vid)))
           end
       end.

(** [flo_html_setTextContent]: src/dom/modification.c:93-103 *)
Definition c_set_text_content (id : nat) (s : bytes) (d : dom) : ab dom :=
  do* d := pure (remove_children id d) in
  do* '(new, d) := c_parse_text_element s d in
  try d then
  let d := push_first d (id, new) in
  try d then
  a_ret (push_pchild d (id, new)).

(** [flo_html_addTextToTextNode]: src/dom/modification.c:105-125 *)
Definition c_add_text_to_text_node (id : nat) (s : bytes) (append : bool) (d : dom)
  : ab dom :=
  do* n := pure (get_node d id) in
  do* old := pure (node_text n) in
  try d then
  pure (set_pay d id (PText (if append then old ++ [cSP] ++ s else s ++ [cSP] ++ old))).

(** [flo_html_tryMerge]: src/dom/dom-util.c:28-38 *)
Definition c_try_merge (target src : nat) (append : bool) (d : dom) : ab (bool * dom) :=
  do* n := pure (get_node d target) in
  if is_text n then
    do* m := pure (get_node d src) in
    do* s := pure (node_text m) in
    do* d := c_add_text_to_text_node target s append d in
    a_ret (true, d)
  else a_ret (false, d).

(** [flo_html_connectOtherNodesToParent]: src/dom/dom-util.c:40-50 *)
Fixpoint c_connect_others_loop (fuel : nat) (p c : nat) (d : dom) : ab dom :=
  if 0 <? c then
    match fuel with
    | O => pure NoFuel
    | S f => try d then
             let d := push_pchild d (p, c) in
             c_connect_others_loop f p (get_next c d) d
    end
  else a_ret d.
Definition c_connect_others (p last : nat) (d : dom) : ab dom :=
  c_connect_others_loop (S (length (nexts d))) p (get_next last d) d.

(** [updateReferences]: src/dom/appendix.c:77-101 *)
Definition c_append_refs (p new : nat) (d : dom) : ab dom :=
  match first_idx p d with
  | None =>
      try d then
      let d := push_first d (p, new) in
      try d then
      let d := push_pchild d (p, new) in
      c_connect_others p new d
  | Some i =>
      do* l := pure (get_last_next (snd (at_idx (firsts d) i)) d) in
      try d then
      let d := push_next d (l, new) in
      try d then
      let d := push_pchild d (p, new) in
      c_connect_others p new d
  end.

(** [flo_html_appendDocumentNode]: src/dom/appendix.c:103-114 *)
Definition c_append_document_node (p : nat) (dn : docnode) (d : dom) : ab (nat * dom) :=
  do* '(new, d) := c_parse_document_element dn d in
  if new =? 0 then a_ret (0, d)
  else do* d := c_append_refs p new d in a_ret (new, d).

(** [flo_html_appendTextNode]: src/dom/appendix.c:116-135 *)
Definition c_append_text_node (p : nat) (s : bytes) (d : dom) : ab (nat * dom) :=
  do* '(new, d) := c_parse_text_element s d in
  if new =? 0 then a_ret (0, d)
  else
    let c := get_first_child p d in
    if 0 <? c then
      do* c := pure (get_last_next c d) in
      do* '(m, d) := c_try_merge c new true d in
      if (m : bool) then
        do* d := pure (remove_node new d) in a_ret (c, d)
      else
        do* d := c_append_refs p new d in a_ret (new, d)
    else
      do* d := c_append_refs p new d in a_ret (new, d).

(** [flo_html_appendHTMLFromString]: src/dom/appendix.c:137-183 *)
Definition c_append_html (below : option bytes) (p : nat) (h : bytes) (d : dom)
  : ab (nat * dom) :=
  let first_new := length (nodes d) in
  do* '(ok, d) := c_parse_extra below h d in
  if negb ok then a_ret (0, d)
  else
    let fc := get_first_child p d in
    let finish first_new d :=
      (do* d := c_append_refs p first_new d in a_ret (first_new, d)) in
    if 0 <? fc then
      do* last_new := pure (get_last_next first_new d) in
      do* n := pure (get_node d first_new) in
      if first_new <? last_new then
        if is_text n then
          do* ln := pure (get_last_next fc d) in
          do* '(m, d) := c_try_merge ln (n_id n) true d in
          if (m : bool) then
            let second := get_next first_new d in
            do* d := pure (remove_node first_new d) in
            finish second d
          else finish first_new d
        else finish first_new d
      else
        if is_text n then
          do* ln := pure (get_last_next fc d) in
          do* '(m, d) := c_try_merge ln (n_id n) true d in
          if (m : bool) then
            do* d := pure (remove_node first_new d) in a_ret (ln, d)
          else finish first_new d
        else finish first_new d
    else finish first_new d.

(** [updateReferences]: src/dom/prependix.c:78-105; the old first child is
    overwritten before the next pointer to it is pushed. *)
Definition c_prepend_refs (p new : nat) (d : dom) : ab dom :=
  match first_idx p d with
  | None =>
      try d then
      let d := push_first d (p, new) in
      try d then
      let d := push_pchild d (p, new) in
      c_connect_others p new d
  | Some i =>
      let old := snd (at_idx (firsts d) i) in
      let d := set_firsts d (upd (firsts d) i (fst (at_idx (firsts d) i), new)) in
      do* l := pure (get_last_next new d) in
      try d then
      let d := push_next d (l, old) in
      try d then
      let d := push_pchild d (p, new) in
      c_connect_others p new d
  end.

(** [flo_html_prependDocumentNode]: src/dom/prependix.c:107-118 *)
Definition c_prepend_document_node (p : nat) (dn : docnode) (d : dom) : ab (nat * dom) :=
  do* '(new, d) := c_parse_document_element dn d in
  if new =? 0 then a_ret (0, d)
  else do* d := c_prepend_refs p new d in a_ret (new, d).

(** [flo_html_prependTextNode]: src/dom/prependix.c:120-139 *)
Definition c_prepend_text_node (p : nat) (s : bytes) (d : dom) : ab (nat * dom) :=
  do* '(new, d) := c_parse_text_element s d in
  if new =? 0 then a_ret (0, d)
  else
    let c := get_first_child p d in
    if 0 <? c then
      do* '(m, d) := c_try_merge c new false d in
      if (m : bool) then
        do* d := pure (remove_node new d) in a_ret (new, d)
      else
        do* d := c_prepend_refs p new d in a_ret (new, d)
    else
      do* d := c_prepend_refs p new d in a_ret (new, d).

(** [flo_html_prependHTMLFromString]: src/dom/prependix.c:141-178 *)
Definition c_prepend_html (below : option bytes) (p : nat) (h : bytes) (d : dom)
  : ab (nat * dom) :=
  let first_new := length (nodes d) in
  do* '(ok, d) := c_parse_extra below h d in
  if negb ok then a_ret (0, d)
  else
    let fc := get_first_child p d in
    let finish d := (do* d := c_prepend_refs p first_new d in a_ret (first_new, d)) in
    if 0 <? fc then
      do* last_new := pure (get_last_next first_new d) in
      if first_new <? last_new then
        do* n := pure (get_node d last_new) in
        if is_text n then
          do* '(m, d) := c_try_merge fc (n_id n) false d in
          if (m : bool) then
            do* d := pure (remove_node last_new d) in finish d
          else finish d
        else finish d
      else
        do* n := pure (get_node d first_new) in
        if is_text n then
          do* '(m, d) := c_try_merge fc (n_id n) false d in
          if (m : bool) then
            do* d := pure (remove_node first_new d) in a_ret (fc, d)
          else finish d
        else finish d
    else finish d.

(** [updateReferences]: src/dom/replacement.c:78-122; the only allocations are
    the pushes of :108-114 for the second and later new nodes. *)
Definition c_replace_others (parent new : nat) (d : dom) : ab dom :=
  c_connect_others_loop (S (length (nexts d))) parent (get_next new d) d.
Definition c_replace_refs (old new : nat) (d : dom) : ab dom :=
  do* n := pure (get_node d old) in
  do* l := pure (get_last_next new d) in
  let pc := parent_idx old d in
  let pf := match pc with
            | Some i => first_idx (fst (at_idx (pchilds d) i)) d
            | None => None
            end in
  let pv := prev_idx old d in
  let nx := next_idx old d in
  let d := match pv with
           | Some i => set_nexts d (upd (nexts d) i (fst (at_idx (nexts d) i), new))
           | None =>
               match pf with
               | Some k => set_firsts d (upd (firsts d) k
                             (fst (at_idx (firsts d) k), new))
               | None => d
               end
           end in
  do* d := match pc with
           | None => a_ret d
           | Some i =>
               let parent := fst (at_idx (pchilds d) i) in
               let d := set_pchilds d (upd (pchilds d) i (parent, new)) in
               c_replace_others parent new d
           end in
  let d := match nx with
           | None => d
           | Some j => set_nexts d (upd (nexts d) j (l, snd (at_idx (nexts d) j)))
           end in
  a_ret (set_nodes d (upd (nodes d) old (mkNode (n_id n) TRemoved (n_pay n)))).

(** [flo_html_replaceWithDocumentNode]: src/dom/replacement.c:124-135 *)
Definition c_replace_with_document_node (old : nat) (dn : docnode) (d : dom)
  : ab (nat * dom) :=
  do* '(new, d) := c_parse_document_element dn d in
  if new =? 0 then a_ret (0, d)
  else do* d := c_replace_refs old new d in a_ret (new, d).

(** [tryMergeBothSides]: src/dom/replacement.c:137-162 *)
Definition c_try_merge_both (old new : nat) (d : dom) : ab (bool * dom) :=
  do* n := pure (get_node d new) in
  if is_text n then
    let try_next d :=
      (match next_idx old d with
       | Some j => c_try_merge (snd (at_idx (nexts d) j)) (n_id n) false d
       | None => a_ret (false, d)
       end) in
    match prev_idx old d with
    | Some i =>
        do* '(m, d) := c_try_merge (fst (at_idx (nexts d) i)) (n_id n) true d in
        if (m : bool) then a_ret (true, d) else try_next d
    | None => try_next d
    end
  else a_ret (false, d).

(** [flo_html_replaceWithTextNode]: src/dom/replacement.c:164-182 *)
Definition c_replace_with_text_node (old : nat) (s : bytes) (d : dom) : ab (nat * dom) :=
  do* '(new, d) := c_parse_text_element s d in
  if new =? 0 then a_ret (0, d)
  else
    do* '(m, d) := c_try_merge_both old new d in
    if (m : bool) then
      do* d := pure (remove_node new d) in
      do* d := pure (remove_node old d) in
      a_ret (new, d)
    else
      do* d := c_replace_refs old new d in a_ret (new, d).

(** [flo_html_replaceWithHTMLFromString]: src/dom/replacement.c:184-239 *)
Definition c_replace_with_html (below : option bytes) (old : nat) (h : bytes)
           (d : dom) : ab (nat * dom) :=
  let first_new := length (nodes d) in
  do* '(ok, d) := c_parse_extra below h d in
  if negb ok then a_ret (0, d)
  else
    do* last_new := pure (get_last_next first_new d) in
    let pv := prev_idx old d in
    let finish fn d := (do* d := c_replace_refs old fn d in a_ret (fn, d)) in
    if first_new <? last_new then
      do* n := pure (get_node d first_new) in
      do* '(fn, d) :=
        (if is_text n then
           match pv with
           | Some i =>
               do* '(m, d) :=
                 c_try_merge (fst (at_idx (nexts d) i)) (n_id n) true d in
               if (m : bool) then
                 let second := get_next first_new d in
                 do* d := pure (remove_node first_new d) in
                 a_ret (second, d)
               else a_ret (first_new, d)
           | None => a_ret (first_new, d)
           end
         else a_ret (first_new, d)) in
      do* n := pure (get_node d last_new) in
      do* d :=
        (if is_text n then
           match next_idx old d with
           | Some j =>
               do* '(m, d) :=
                 c_try_merge (snd (at_idx (nexts d) j)) last_new false d in
               if (m : bool) then pure (remove_node last_new d) else a_ret d
           | None => a_ret d
           end
         else a_ret d) in
      finish fn d
    else
      do* '(m, d) := c_try_merge_both old first_new d in
      if (m : bool) then
        do* d := pure (remove_node first_new d) in
        do* d := pure (remove_node old d) in
        match pv with
        | Some i => a_ret (fst (at_idx (nexts d) i), d)
        | None => pure (Undef NullDeref)
        end
      else finish first_new d.

(** The editing calls of [ApiSpec.op].  [removeNode], [removeChildren],
    [removeBooleanProperty] and [removeProperty] (src/dom/deletion.c) take no
    arena and cannot jump. *)
Definition c_run (bl : bytes) (o : op) (d : dom) : ab dom :=
  match o with
  | AppendDoc p e => do* '(_, d) := c_append_document_node p e d in a_ret d
  | AppendText p s => do* '(_, d) := c_append_text_node p s d in a_ret d
  | AppendHtml p h => do* '(_, d) := c_append_html (Some bl) p h d in a_ret d
  | PrependDoc p e => do* '(_, d) := c_prepend_document_node p e d in a_ret d
  | PrependText p s => do* '(_, d) := c_prepend_text_node p s d in a_ret d
  | PrependHtml p h => do* '(_, d) := c_prepend_html (Some bl) p h d in a_ret d
  | ReplaceDoc n e => do* '(_, d) := c_replace_with_document_node n e d in a_ret d
  | ReplaceText n s => do* '(_, d) := c_replace_with_text_node n s d in a_ret d
  | ReplaceHtml n h => do* '(_, d) := c_replace_with_html (Some bl) n h d in a_ret d
  | Remove n => pure (remove_node n d)
  | RemoveChildren n => pure (remove_children n d)
  | SetText n s => c_set_text_content n s d
  | AddBool n b => c_add_bool_property n b d
  | AddProp n k v => c_add_property n k v d
  | RemoveBool n b => pure (remove_bool_property n b d)
  | RemoveProp n k => pure (remove_property n k d)
  | SetProp n k v => do* '(_, d) := c_set_property_value n k v d in a_ret d
  | AddText n s app => c_add_text_to_text_node n s app d
  | SetTag n tag paired => c_set_tag tag n paired d
  end.

(** The DOM the caller holds when call [o] on [d] leaves through longjmp: [d']
    is one of the states at which it can do so. *)
Definition left_with (bl : bytes) (o : op) (d d' : dom) : Prop :=
  In d' (fst (c_run bl o d)).
