(** * The HTML parser: src/parser.c.  Definitions only. *)
From Coq Require Import String List NArith Arith Bool.
From Verif Require Import Base TrieModel DomModel.
Import ListNotations.
Local Open Scope nat_scope.

Definition s_comment : bytes := Eval compute in bytes_of_string "!--".
Definition s_dashes : bytes := Eval compute in bytes_of_string "--".
Definition s_script : bytes := Eval compute in bytes_of_string "script".
Definition s_style : bytes := Eval compute in bytes_of_string "style".

(** [voidElementTags]: src/parser.c:18-23 *)
Definition void_tags : list bytes := Eval compute in
  map bytes_of_string
    ["area"; "base"; "br"; "col"; "embed"; "hr"; "img"; "input"; "link";
     "meta"; "source"; "track"; "wbr"]%string.

(** [isVoidElement]: src/parser.c:25-34 *)
Definition is_void (s : bytes) : bool := existsb (beq s) void_tags.

(** Open-element stack; the head of the list is the innermost element
    ([nodeStack->stack[nodeStack->len - 1]]):
    include/flo/html-parser/parser.h:14-22. *)
Definition frame := (nat * bytes)%type.

(** [FLO_HTML_MAX_NODE_DEPTH] (1U << 8U): include/flo/html-parser/parser.h:11 *)
Definition max_depth : nat := 256.

(** [updateReferences]: src/parser.c:36-59 *)
Definition update_refs (new prev : nat) (stack : list frame) (d : dom) : dom :=
  if (0 <? new) && (0 <? prev) then
    match stack with
    | [] => push_next d (prev, new)
    | (parent, _) :: _ =>
        let d := push_pchild d (parent, new) in
        if parent =? prev then push_first d (parent, new)
        else push_next d (prev, new)
    end
  else d.

(** [isCommentTag]: src/parser.c:74-79.  [idx < len - 4] is written without
    subtraction. *)
Definition is_comment (t : bytes) (i : nat) : outcome bool :=
  if i + 4 <? length t then
    let* s := read_slice t (i + 1) 3 in Ok (beq s_comment s)
  else Ok false.

(** [isCloseTag]: src/parser.c:83-91 *)
Definition is_close_tag (t : bytes) (i : nat) (tag : bytes) : outcome bool :=
  if i + length tag + 2 <? length t then
    let* s := read_slice t (i + 1) 1 in
    if beq [cSLASH] s then
      let* s := read_slice t (i + 2) (length tag) in Ok (beq tag s)
    else Ok false
  else Ok false.

(** [isEndDocumentTag]: src/parser.c:93-105; [i] is the position of '<'. *)
Definition is_end_tag (t : bytes) (i : nat) (tag : bytes) : outcome bool :=
  if (current_char t (S i) =? cSLASH)%N
     && (S i + length tag + 1 <? length t) then
    let* s := read_slice t (S (S i)) (length tag) in Ok (beq s tag)
  else Ok false.

(** [FLO_PARSE_SKIP_COMMENT]: include/flo/html-parser/util/parse.h:99-107 *)
Definition skip_comment (t : bytes) (i : nat) : outcome nat :=
  let* j := scan_until (length t) t
    (fun k c => if (c =? cGT)%N then
                  let* s := (if 2 <=? k then read_slice t (k - 2) 2
                             else Undef OobRead) in
                  Ok (beq s_dashes s)
                else Ok false) (i + 4) in
  Ok (S j).

(** [textNodeContinue(ps, ch) && ch != '<']: src/parser.c:61-65 and :136 *)
Definition text_continue (t : bytes) (i : nat) (c : N) : outcome bool :=
  if negb (is_fmt c) then
    if negb (c =? cSP)%N then Ok (negb (c =? cLT)%N)
    else if 0 <? i then
      let* p := get_char t (i - 1) in
      if negb (p =? cSP)%N then Ok (negb (c =? cLT)%N) else Ok false
    else Ok false
  else Ok false.

(** One chunk of text (src/parser.c:133-152): returns the bytes added and the
    new position. *)
Definition text_chunk (t : bytes) (i : nat) : outcome (bytes * nat) :=
  let* j := scan_until (length t) t
              (fun k c => let* b := text_continue t k c in Ok (negb b)) i in
  let len := j - i in
  let* trim := (if 0 <? j then
                  let* p := get_char t (j - 1) in Ok (p =? cSP)%N
                else Ok false) in
  let* len := (if (trim : bool) then
                 match len with O => Undef NegLen | S l => Ok l end
               else Ok len) in
  let* s := read_slice t i len in
  Ok (s, j).

(** Main loop of [parseTextNode]: src/parser.c:125-155.  [raw = None]: nothing
    appended yet ([isAppend == false]). *)
Fixpoint text_loop (fuel : nat) (t : bytes) (special : bool) (tag : bytes)
         (raw : option bytes) (i : nat) : outcome (bytes * nat) :=
  if i <? length t then
    let* c := get_char t i in
    let* stop :=
      (if (c =? cLT)%N then
         let* cm := is_comment t i in
         if negb cm then Ok true
         else if special then is_close_tag t i tag else Ok false
       else Ok false) in
    if (stop : bool) then
      Ok (match raw with Some r => r | None => [] end, i)
    else
      match fuel with
      | O => NoFuel
      | S f =>
          let* cm := (if (c =? cLT)%N then is_comment t i else Ok false) in
          let* '(raw, i) :=
            (if (cm : bool) then
               let* j := skip_comment t i in Ok (raw, j)
             else
               let* '(s, j) := text_chunk t i in
               Ok (Some (match raw with
                         | Some r => r ++ [cSP] ++ s
                         | None => s
                         end), j)) in
          let* i := skip_space t i in
          text_loop f t special tag raw i
      end
  else Ok (match raw with Some r => r | None => [] end, i).

(** [parseTextNode]: src/parser.c:112-161; returns the node and next index. *)
Definition parse_text_node (t : bytes) (i : nat) (tag : bytes) (d : dom)
  : outcome (nat * nat * dom) :=
  let* '(id, d) := create_node TText d in
  let special := beq tag s_script || beq tag s_style in
  let* '(raw, j) := text_loop (S (length t)) t special tag None i in
  let* d := set_pay d id (PText raw) in
  Ok (id, j, d).

(** [parseProp]: src/parser.c:163-188.  Quoted: the loop counts two quotes;
    [quoted_loop] returns the number of consumed characters. *)
Fixpoint quoted_loop (fuel : nat) (t : bytes) (q : N) (count : nat) (i : nat)
         (used : nat) : outcome (nat * nat) :=
  if i <? length t then
    let* c := get_char t i in
    if count <? 2 then
      match fuel with
      | O => NoFuel
      | S f => quoted_loop f t q (if (c =? q)%N then S count else count)
                           (S i) (S used)
      end
    else Ok (used, i)
  else Ok (used, i).

Definition parse_prop (t : bytes) (i : nat) : outcome (bytes * nat) :=
  let c := current_char t i in
  if (c =? cSQ)%N || (c =? cDQ)%N then
    let* '(used, j) := quoted_loop (S (length t)) t c 0 i 0 in
    (* propLen = used - 2 *)
    match used with
    | S (S len) => let* s := read_slice t (S i) len in Ok (s, j)
    | _ => Undef NegLen
    end
  else
    let* j := scan t (fun c => is_blank c || (c =? cEQ)%N || (c =? cGT)%N) i in
    let* s := read_slice t i (j - i) in
    Ok (s, j).

(** Attribute loop of [parseDocumentNode]: src/parser.c:219-244. *)
Fixpoint attr_loop (fuel : nat) (t : bytes) (id : nat) (can : bool) (i : nat)
         (d : dom) : outcome (bool * nat * dom) :=
  if i <? length t then
    let* c := get_char t i in
    if (c =? cGT)%N then Ok (can, i, d)
    else
      match fuel with
      | O => NoFuel
      | S f =>
          let* '(can, i, d) :=
            (if (c =? cSLASH)%N then Ok (false, S i, d)
             else if negb (is_blank c) then
               let* '(key, i) := parse_prop t i in
               if (current_char t i =? cEQ)%N then
                 let* '(v, i) := parse_prop t (S i) in
                 let* d := add_property id key v d in
                 Ok (can, i, d)
               else
                 let* d := add_bool_property id key d in
                 Ok (can, i, d)
             else Ok (can, i, d)) in
          let* i := skip_space t i in
          attr_loop f t id can i d
      end
  else Ok (can, i, d).

(** [parseDocumentNode]: src/parser.c:190-258; returns
    (nodeID, canHaveChildren, tag, nextPosition) and the DOM. *)
Definition parse_document_node (t : bytes) (i : nat) (exclam : bool) (d : dom)
  : outcome (nat * bool * bytes * nat * dom) :=
  let* '(id, d) := create_node TDocument d in
  let* j := scan t (fun c => (c =? cGT)%N || is_blank c) i in
  let size := j - i in
  let can := negb exclam in
  let* slash :=
    (if (current_char t j =? cGT)%N then
       match j with
       | O => Undef OobRead
       | S j' => let* p := get_char t j' in Ok (p =? cSLASH)%N
       end
     else Ok false) in
  let* '(can, size) :=
    (if (slash : bool) then
       match size with O => Undef NegLen | S s => Ok (false, s) end
     else Ok (can, size)) in
  let* tag := read_slice t i size in
  let can := if is_void tag then false else can in
  let* j := skip_space t j in
  let* '(can, j, d) := attr_loop (S (length t)) t id can j d in
  let* d := set_tag tag id can d in
  Ok (id, can, tag, S j, d).

(** The tag compared by [isEndDocumentTag] in the main loop:
    [nodeStack->stack[nodeStack->len - 1].tag] (src/parser.c:272-273).  With an
    empty stack this reads [stack[-1]]: [below = None] is strict ISO C,
    [below = Some b] means that some string [b] is found there. *)
Definition top_tag (below : option bytes) (stack : list frame) : outcome bytes :=
  match stack with
  | (_, tag) :: _ => Ok tag
  | [] => match below with Some b => Ok b | None => Undef OobRead end
  end.

(** [nodeStack->len > 0 ? top.tag : FLO_EMPTY_STRING]: src/parser.c:308-310 *)
Definition containing_tag (stack : list frame) : bytes :=
  match stack with (_, tag) :: _ => tag | [] => [] end.

(** One iteration of the main loop of [flo_html_parse]: src/parser.c:268-333.
    State: position, previous node, stack.  [None] = [return NULL]. *)
Definition parse_step (below : option bytes) (t : bytes) (start : nat)
           (i prev : nat) (stack : list frame) (d : dom)
  : outcome (option (nat * nat * list frame) * dom) :=
  let* c := get_char t i in
  if (c =? cLT)%N then
    let* cm := is_comment t i in
    if (cm : bool) then
      let* j := skip_comment t i in Ok (Some (j, prev, stack), d)
    else
      let* tt := top_tag below stack in
      let* e := is_end_tag t i tt in
      if (e : bool) then
        let '(prev, stack) :=
          (if start <? length stack then
             match stack with
             | (id, _) :: stack' => (id, stack')
             | [] => (prev, stack)
             end
           else (prev, stack)) in
        let* j := scan t (fun c => (c =? cGT)%N) i in
        Ok (Some (S j, prev, stack), d)
      else
        let i := S i in
        let ch := current_char t i in
        if is_alpha ch || (ch =? cBANG)%N then
          let* '(id, can, tag, j, d) :=
            parse_document_node t i (ch =? cBANG)%N d in
          let d := update_refs id prev stack d in
          if (can : bool) then
            if max_depth <=? length stack then Ok (None, d)
            else Ok (Some (j, id, (id, tag) :: stack), d)
          else Ok (Some (j, id, stack), d)
        else
          let* '(id, j, d) := parse_text_node t i (containing_tag stack) d in
          Ok (Some (j, id, stack), update_refs id prev stack d)
  else
    let* '(id, j, d) := parse_text_node t i (containing_tag stack) d in
    Ok (Some (j, id, stack), update_refs id prev stack d).

(** The main loop; result [false] = NULL returned. *)
Fixpoint parse_loop (fuel : nat) (below : option bytes) (t : bytes)
         (start : nat) (i prev : nat) (stack : list frame) (d : dom)
  : outcome (bool * dom) :=
  if i <? length t then
    match fuel with
    | O => NoFuel
    | S f =>
        let* '(r, d) := parse_step below t start i prev stack d in
        match r with
        | None => Ok (false, d)
        | Some (i, prev, stack) =>
            let* i := skip_space t i in
            parse_loop f below t start i prev stack d
        end
    end
  else Ok (true, d).

(** [flo_html_parse]: src/parser.c:260-336 *)
Definition parse (below : option bytes) (t : bytes) (prev : nat)
           (stack : list frame) (d : dom) : outcome (bool * dom) :=
  let* i := skip_space t 0 in
  parse_loop (S (length t)) below t (length stack) i prev stack d.

(** [flo_html_parseRoot]: src/parser.c:338-346 *)
Definition parse_root (t : bytes) (d : dom) : outcome (bool * dom) :=
  parse None t 1 [(1, [])] d.

(** [flo_html_parseExtra]: src/parser.c:348-354 *)
Definition parse_extra (below : option bytes) (t : bytes) (d : dom)
  : outcome (bool * dom) :=
  parse below t 0 [] d.

(** [flo_html_createDom]: src/dom/dom.c:23-43.  [Ok None] = NULL. *)
Definition create_dom (t : bytes) : outcome (option dom) :=
  let* '(ok, d) := parse_root t empty_dom in
  Ok (if (ok : bool) then Some d else None).

(** [flo_html_DocumentNode]: include/flo/html-parser/node/document-node.h *)
Record docnode : Type := mkDoc {
  dn_tag : bytes;
  dn_paired : bool;
  dn_bools : list bytes;
  dn_props : list (bytes * bytes) }.

Fixpoint add_bools (id : nat) (l : list bytes) (d : dom) : outcome dom :=
  match l with
  | [] => Ok d
  | b :: l' => let* d := add_bool_property id b d in add_bools id l' d
  end.
Fixpoint add_props (id : nat) (l : list (bytes * bytes)) (d : dom)
  : outcome dom :=
  match l with
  | [] => Ok d
  | (k, v) :: l' => let* d := add_property id k v d in add_props id l' d
  end.

(** [flo_html_parseDocumentElement]: src/parser.c:356-377 *)
Definition parse_document_element (dn : docnode) (d : dom)
  : outcome (nat * dom) :=
  let* '(id, d) := create_node TDocument d in
  let* d := set_tag (dn_tag dn) id (dn_paired dn) d in
  let* d := add_bools id (dn_bools dn) d in
  let* d := add_props id (dn_props dn) d in
  Ok (id, d).

(** [flo_html_parseTextElement]: src/parser.c:379-387 *)
Definition parse_text_element (s : bytes) (d : dom) : outcome (nat * dom) :=
  let* '(id, d) := create_node TText d in
  let* d := set_pay d id (PText s) in
  Ok (id, d).
