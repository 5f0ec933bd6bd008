(** * What [flo_html_createDom] asks of its arena.  Definitions only.

    The parser functions of DomModel and ParserModel are repeated here with a
    record, in program order, of everything they do with the arena: each element
    pushed to one of the ten arrays of the DOM, each node of a string map, and each
    piece of text appended to the buffer of a text node.  [prog] turns the record
    into a program of MemModel.

    [TraceProofs.s_create] proves that the ordinary outcome is that of
    [ParserModel.create_dom]. *)
From Coq Require Import List NArith ZArith Arith Bool.
From Verif Require Import Base TrieModel DomModel ParserModel MemModel.
Import ListNotations.
Local Open Scope nat_scope.

(** The ten arrays and four maps: include/flo/html-parser/dom/dom.h:35-57. *)
Inductive ev : Type :=
| ENode (id : nat) (ty : ntype)      (* push to [nodes] *)
| EFirst (e : nat * nat)             (* push to [parentFirstChilds] *)
| EPchild (e : nat * nat)            (* push to [parentChilds] *)
| ENext (e : nat * nat)              (* push to [nextNodes] *)
| EBprop (e : nat * nat)             (* push to [boolProps] *)
| EProp (p : prop)                   (* push to [props] *)
| ETag | EBool | EKey | EVal         (* push to one of the four registries *)
| ETrie                              (* a node of one of the four maps *)
| EText                              (* [flo_RawData raw = {0}] *)
| EPiece (data : bytes).             (* [flo_addRawData(&raw, data, perm)] *)

Definition tr (A : Type) : Type := (list ev * outcome A)%type.
Definition t_ret {A} (a : A) : tr A := ([], Ok a).
Definition lift {A} (o : outcome A) : tr A := ([], o).
Definition emit (e : ev) : tr unit := ([e], Ok tt).
Definition t_bind {A B} (x : tr A) (f : A -> tr B) : tr B :=
  match snd x with
  | Ok a => let r := f a in (fst x ++ fst r, snd r)
  | Undef u => (fst x, Undef u)
  | Longjmp j => (fst x, Longjmp j)
  | NoFuel => (fst x, NoFuel)
  end.
Notation "'do+' x ':=' a 'in' b" := (t_bind a (fun x => b))
  (at level 200, x name, a at level 100, b at level 200).
Notation "'do+' ''' p ':=' a 'in' b" := (t_bind a (fun p => b))
  (at level 200, p strict pattern, a at level 100, b at level 200).
Notation "'note' e 'then' b" := (t_bind (emit e) (fun _ => b))
  (at level 200, e at level 100, b at level 200).

(** [flo_html_createNode]: src/dom/dom-util.c:13-26 *)
Definition t_create_node (ty : ntype) (d : dom) : tr (nat * dom) :=
  if (N.of_nat (length (nodes d)) <=? 65534)%N then
    let id := length (nodes d) in
    note ENode id ty then
    t_ret (id, push_node d (mkNode id ty PNone))
  else lift (Longjmp NodeLimit).

(** [flo_trie_insertStringAutoUint16Map]:
    src/dom/util/string-auto-uint16-map.c:5-26; a node is allocated (:20-21) for a
    new string only. *)
Definition t_map_insert (s : bytes) (m : amap) : tr (bool * nat * amap) :=
  do+ '(ins, id, m) := lift (map_insert s m) in
  if (ins : bool) then note ETrie then t_ret (true, id, m) else t_ret (false, id, m).

(** [getCreatedPropIDFromString]: src/dom/modification.c:19-43 *)
Definition t_intern_bool (s : bytes) (d : dom) : tr (nat * dom) :=
  do+ '(ins, id, m) := t_map_insert s (bool_map d) in
  if (ins : bool) then note EBool then t_ret (id, set_bools d (bool_reg d ++ [s]) m)
  else t_ret (id, set_bools d (bool_reg d) m).
Definition t_intern_key (s : bytes) (d : dom) : tr (nat * dom) :=
  do+ '(ins, id, m) := t_map_insert s (key_map d) in
  if (ins : bool) then note EKey then t_ret (id, set_keys d (key_reg d ++ [s]) m)
  else t_ret (id, set_keys d (key_reg d) m).
Definition t_intern_val (s : bytes) (d : dom) : tr (nat * dom) :=
  do+ '(ins, id, m) := t_map_insert s (val_map d) in
  if (ins : bool) then note EVal then t_ret (id, set_vals d (val_reg d ++ [s]) m)
  else t_ret (id, set_vals d (val_reg d) m).

(** [flo_html_addPropertyToNode]: src/dom/modification.c:45-56 *)
Definition t_add_property (id : nat) (k v : bytes) (d : dom) : tr dom :=
  do+ '(kid, d) := t_intern_key k d in
  do+ '(vid, d) := t_intern_val v d in
  let p := mkProp id kid vid in
  note EProp p then t_ret (push_prop d p).

(** [flo_html_addBooleanPropertyToNode]: src/dom/modification.c:58-66 *)
Definition t_add_bool_property (id : nat) (b : bytes) (d : dom) : tr dom :=
  do+ '(bid, d) := t_intern_bool b d in
  note EBprop (id, bid) then t_ret (push_bprop d (id, bid)).

(** [flo_html_setTagOnDocumentNode]: src/dom/modification.c:127-138 *)
Definition t_set_tag (tag : bytes) (id : nat) (paired : bool) (d : dom) : tr dom :=
  do+ '(ins, tid, m) := t_map_insert tag (tag_map d) in
  if (ins : bool) then
    note ETag then
    lift (set_pay (set_tags d (tag_reg d ++ [mkTag tag paired]) m) id (PTag tid))
  else lift (set_pay (set_tags d (tag_reg d) m) id (PTag tid)).

(** [updateReferences]: src/parser.c:36-59 *)
Definition t_update_refs (new prev : nat) (stack : list frame) (d : dom) : tr dom :=
  if (0 <? new) && (0 <? prev) then
    match stack with
    | [] => note ENext (prev, new) then t_ret (push_next d (prev, new))
    | (parent, _) :: _ =>
        note EPchild (parent, new) then
        let d := push_pchild d (parent, new) in
        if parent =? prev then
          note EFirst (parent, new) then t_ret (push_first d (parent, new))
        else
          note ENext (prev, new) then t_ret (push_next d (prev, new))
    end
  else t_ret d.

(** Main loop of [parseTextNode]: src/parser.c:125-155; the pieces are appended at
    :145-153, after a space if something was appended before. *)
Fixpoint t_text_loop (fuel : nat) (t : bytes) (special : bool) (tag : bytes)
         (raw : option bytes) (i : nat) : tr (bytes * nat) :=
  if i <? length t then
    do+ c := lift (get_char t i) in
    do+ stop := lift
      (if (c =? cLT)%N then
         let* cm := is_comment t i in
         if negb cm then Ok true
         else if special then is_close_tag t i tag else Ok false
       else Ok false) in
    if (stop : bool) then
      t_ret (match raw with Some r => r | None => [] end, i)
    else
      match fuel with
      | O => lift NoFuel
      | S f =>
          do+ cm := lift (if (c =? cLT)%N then is_comment t i else Ok false) in
          do+ '(raw, i) :=
            (if (cm : bool) then
               do+ j := lift (skip_comment t i) in t_ret (raw, j)
             else
               do+ '(s, j) := lift (text_chunk t i) in
               match raw with
               | Some r =>
                   note EPiece [cSP] then note EPiece s then
                   t_ret (Some (r ++ [cSP] ++ s), j)
               | None => note EPiece s then t_ret (Some s, j)
               end) in
          do+ i := lift (skip_space t i) in
          t_text_loop f t special tag raw i
      end
  else t_ret (match raw with Some r => r | None => [] end, i).

(** [parseTextNode]: src/parser.c:112-161 *)
Definition t_parse_text_node (t : bytes) (i : nat) (tag : bytes) (d : dom)
  : tr (nat * nat * dom) :=
  do+ '(id, d) := t_create_node TText d in
  note EText then
  let special := beq tag s_script || beq tag s_style in
  do+ '(raw, j) := t_text_loop (S (length t)) t special tag None i in
  do+ d := lift (set_pay d id (PText raw)) in
  t_ret (id, j, d).

(** Attribute loop: src/parser.c:219-244 *)
Fixpoint t_attr_loop (fuel : nat) (t : bytes) (id : nat) (can : bool) (i : nat)
         (d : dom) : tr (bool * nat * dom) :=
  if i <? length t then
    do+ c := lift (get_char t i) in
    if (c =? cGT)%N then t_ret (can, i, d)
    else
      match fuel with
      | O => lift NoFuel
      | S f =>
          do+ '(can, i, d) :=
            (if (c =? cSLASH)%N then t_ret (false, S i, d)
             else if negb (is_blank c) then
               do+ '(key, i) := lift (parse_prop t i) in
               if (current_char t i =? cEQ)%N then
                 do+ '(v, i) := lift (parse_prop t (S i)) in
                 do+ d := t_add_property id key v d in
                 t_ret (can, i, d)
               else
                 do+ d := t_add_bool_property id key d in
                 t_ret (can, i, d)
             else t_ret (can, i, d)) in
          do+ i := lift (skip_space t i) in
          t_attr_loop f t id can i d
      end
  else t_ret (can, i, d).

(** [parseDocumentNode]: src/parser.c:190-258 *)
Definition t_parse_document_node (t : bytes) (i : nat) (exclam : bool) (d : dom)
  : tr (nat * bool * bytes * nat * dom) :=
  do+ '(id, d) := t_create_node TDocument d in
  do+ j := lift (scan t (fun c => (c =? cGT)%N || is_blank c) i) in
  let size := j - i in
  let can := negb exclam in
  do+ slash := lift
    (if (current_char t j =? cGT)%N then
       match j with
       | O => Undef OobRead
       | S j' => let* p := get_char t j' in Ok (p =? cSLASH)%N
       end
     else Ok false) in
  do+ '(can, size) := lift
    (if (slash : bool) then
       match size with O => Undef NegLen | S s => Ok (false, s) end
     else Ok (can, size)) in
  do+ tag := lift (read_slice t i size) in
  let can := if is_void tag then false else can in
  do+ j := lift (skip_space t j) in
  do+ '(can, j, d) := t_attr_loop (S (length t)) t id can j d in
  do+ d := t_set_tag tag id can d in
  t_ret (id, can, tag, S j, d).

(** One iteration of the main loop: src/parser.c:268-333 *)
Definition t_parse_step (below : option bytes) (t : bytes) (start : nat)
           (i prev : nat) (stack : list frame) (d : dom)
  : tr (option (nat * nat * list frame) * dom) :=
  do+ c := lift (get_char t i) in
  if (c =? cLT)%N then
    do+ cm := lift (is_comment t i) in
    if (cm : bool) then
      do+ j := lift (skip_comment t i) in t_ret (Some (j, prev, stack), d)
    else
      do+ tt := lift (top_tag below stack) in
      do+ e := lift (is_end_tag t i tt) in
      if (e : bool) then
        let '(prev, stack) :=
          (if start <? length stack then
             match stack with
             | (id, _) :: stack' => (id, stack')
             | [] => (prev, stack)
             end
           else (prev, stack)) in
        do+ j := lift (scan t (fun c => (c =? cGT)%N) i) in
        t_ret (Some (S j, prev, stack), d)
      else
        let i := S i in
        let ch := current_char t i in
        if is_alpha ch || (ch =? cBANG)%N then
          do+ '(id, can, tag, j, d) :=
            t_parse_document_node t i (ch =? cBANG)%N d in
          do+ d := t_update_refs id prev stack d in
          if (can : bool) then
            if max_depth <=? length stack then t_ret (None, d)
            else t_ret (Some (j, id, (id, tag) :: stack), d)
          else t_ret (Some (j, id, stack), d)
        else
          do+ '(id, j, d) := t_parse_text_node t i (containing_tag stack) d in
          do+ d := t_update_refs id prev stack d in
          t_ret (Some (j, id, stack), d)
  else
    do+ '(id, j, d) := t_parse_text_node t i (containing_tag stack) d in
    do+ d := t_update_refs id prev stack d in
    t_ret (Some (j, id, stack), d).

(** The main loop of [flo_html_parse]: src/parser.c:260-336 *)
Fixpoint t_parse_loop (fuel : nat) (below : option bytes) (t : bytes)
         (start : nat) (i prev : nat) (stack : list frame) (d : dom)
  : tr (bool * dom) :=
  if i <? length t then
    match fuel with
    | O => lift NoFuel
    | S f =>
        do+ '(r, d) := t_parse_step below t start i prev stack d in
        match r with
        | None => t_ret (false, d)
        | Some (i, prev, stack) =>
            do+ i := lift (skip_space t i) in
            t_parse_loop f below t start i prev stack d
        end
    end
  else t_ret (true, d).

(** The pushes of [flo_html_createDom] before it parses: src/dom/dom.c:26-40. *)
Definition first_pushes : list ev :=
  [ENode 0 TError; ENode 1 TRoot; ETag; EBool; EKey; EVal].

(** [flo_html_createDom] and [flo_html_parseRoot]: src/dom/dom.c:23-43,
    src/parser.c:338-346.  [Ok None] = NULL. *)
Definition t_create_dom (t : bytes) : tr (option dom) :=
  do+ _ := (first_pushes, Ok tt) in
  do+ i := lift (skip_space t 0) in
  do+ '(ok, d) := t_parse_loop (S (length t)) None t 1 i 1 [(1, [])] empty_dom in
  t_ret (if (ok : bool) then Some d else None).

(** ** The record as a program on memory *)

(** [uint16_t], little-endian. *)
Definition le16 (x : nat) : bytes := [N.of_nat x mod 256; (N.of_nat x / 256) mod 256]%N.
Definition enc_pair (e : nat * nat) : bytes := le16 (fst e) ++ le16 (snd e).
Definition enc_prop (p : prop) : bytes := le16 (p_node p) ++ le16 (p_key p) ++ le16 (p_val p).
(** [flo_html_NodeType]: include/flo/html-parser/node/node.h:14-21 *)
Definition type_code (ty : ntype) : N :=
  match ty with TRoot => 0 | TDocument => 1 | TText => 2 | TRemoved => 3 | TError => 4 end%N.
(** [flo_html_Node] when it is pushed: id, padding, type, union (24 bytes).  The
    union is written later in place and is left zero in this view. *)
Definition enc_node (id : nat) (ty : ntype) : bytes :=
  le16 id ++ [0; 0]%N ++ [type_code ty; 0; 0; 0]%N ++ repeat 0%N 16.
Definition zeros (n : nat) : bytes := repeat 0%N n.

(** Sizes and alignments, LP64: arrays 1 to 10 are those of the DOM in the order of
    dom.h:35-57.  Registrations are a string (16 bytes) and a flag; their pointers
    are addresses in the caller's markup and are left zero in this view. *)
Definition dom_arrays : list mop :=
  [Raw 304 8 [zeros 304];                           (* FLO_NEW(perm, flo_html_Dom, 1) *)
   NewArr 24 8; NewArr 4 2; NewArr 4 2; NewArr 4 2; NewArr 4 2; NewArr 6 2;
   NewArr 24 8; NewArr 16 8; NewArr 16 8; NewArr 16 8].

(** [n] arrays and objects exist already; a text buffer is the last of them while
    its pieces are appended. *)
Fixpoint prog (n : nat) (l : list ev) : list mop :=
  match l with
  | [] => []
  | e :: l =>
      match e with
      | ENode id ty => Push 1 (enc_node id ty) :: prog n l
      | EFirst e => Push 2 (enc_pair e) :: prog n l
      | EPchild e => Push 3 (enc_pair e) :: prog n l
      | ENext e => Push 4 (enc_pair e) :: prog n l
      | EBprop e => Push 5 (enc_pair e) :: prog n l
      | EProp p => Push 6 (enc_prop p) :: prog n l
      | ETag => Push 7 (zeros 24) :: prog n l
      | EBool => Push 8 (zeros 16) :: prog n l
      | EKey => Push 9 (zeros 16) :: prog n l
      | EVal => Push 10 (zeros 16) :: prog n l
      | ETrie => Raw 56 8 [zeros 56] :: prog (S n) l
      | EText => NewArr 1 1 :: prog (S n) l
      | EPiece data => Append (n - 1) data :: prog n l
      end
  end.

(** [flo_html_createDom] on an arena: everything it asks for is served from [s]; if
    that is not possible the call ends with a jump.  The result is the DOM (or
    NULL) together with the memory: object 0 is the DOM structure, 1 to 10 are its
    arrays, then map nodes and texts in the order of their creation. *)
Definition create_dom_in (s : mem) (t : bytes) : outcome (option dom * list darr * mem) :=
  let '(evs, o) := t_create_dom t in
  let* '(arrs, s) := mruns (dom_arrays ++ prog 11 evs) [] s in
  let* r := o in
  Ok (r, arrs, s).
