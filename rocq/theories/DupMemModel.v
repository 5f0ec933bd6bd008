(** * [flo_html_duplicateDom] on an arena: src/dom/dom.c:50-95.  Definitions only.

    As TraceModel does for the parser: the copies of the ten arrays and the nodes of the
    four maps are taken from the memory, in program order.  The arena is that of the
    document that is copied (the caller may also use another one; then the two share
    nothing but the texts). *)
From Coq Require Import List NArith ZArith Arith Bool.
From Verif Require Import Base TrieModel DomModel DuplicateModel EditModel ApiSpec MemModel TraceModel TraceEditModel.
Import ListNotations.
Local Open Scope nat_scope.

(** The loops that fill the maps: dom.c:75-93, with a record of the map nodes they
    allocate. *)
Fixpoint t_insert_strings (l : list bytes) (m : amap) : tr amap :=
  match l with
  | [] => t_ret m
  | s :: l' => do+ '(_, m) := t_map_insert s m in t_insert_strings l' m
  end.
Definition t_duplicate_maps (d : dom) : tr dom :=
  do+ tm := t_insert_strings (tl (map t_name (tag_reg d))) empty_map in
  do+ bm := t_insert_strings (tl (bool_reg d)) empty_map in
  do+ km := t_insert_strings (tl (key_reg d)) empty_map in
  do+ vm := t_insert_strings (tl (val_reg d)) empty_map in
  t_ret (mkDom (nodes d) (firsts d) (pchilds d) (nexts d) (bprops d) (props d)
               (tag_reg d) (bool_reg d) (key_reg d) (val_reg d) tm bm km vm).

(** [FLO_COPY_DYNAMIC_ARRAY] for each of [l]: dom.c:53-72; [out]: the objects made so far. *)
Fixpoint copies (l out : list darr) (s : mem) : outcome (list darr * mem) :=
  match l with
  | [] => Ok (out, s)
  | a :: l => let* '(a', s) := copy_array a s in copies l (out ++ [a']) s
  end.

(** [flo_html_duplicateDom]: dom.c:50-95.  [arrs]: the objects of the document; its
    arrays are 1 to 10.  The objects of the copy are numbered in the same way.  The texts
    are not copied: the nodes of the copy point to those of the original. *)
Definition duplicate_in (d : dom) (arrs : list darr) (s : mem) : outcome (dom * list darr * mem) :=
  let* '(out, s) := mrun (Raw 304 8 [zeros 304]) [] s in        (* :51 *)
  let* '(out, s) := copies (firstn 10 (skipn 1 arrs)) out s in  (* :53-72 *)
  let '(evs, r) := t_duplicate_maps d in
  let* '(out, s) := mruns (prog 11 evs) out s in                (* :75-93 *)
  let* d2 := r in
  Ok (d2, out, s).

(** Edits of two documents in one arena, in any order: [true] marks an edit of the
    second. *)
Fixpoint edits_two (es : list (bool * (bytes * op))) (x y : dom * list darr) (s : mem)
  : outcome ((dom * list darr) * (dom * list darr) * mem) :=
  match es with
  | [] => Ok (x, y, s)
  | (snd_doc, (bl, o)) :: es =>
      if (snd_doc : bool) then
        let* '(d, a, s) := edit_in bl o (fst y) (snd y) s in edits_two es x (d, a) s
      else
        let* '(d, a, s) := edit_in bl o (fst x) (snd x) s in edits_two es (d, a) y s
  end.

(** A session, then a duplicate of its document, then edits of both. *)
Definition dup_session_in (s : mem) (t : bytes) (ops : list (bytes * op)) (es : list (bool * (bytes * op)))
  : outcome (option ((dom * list darr) * (dom * list darr) * mem)) :=
  let* r := session_in s t ops in
  match r with
  | None => Ok None
  | Some (d, arrs, s) =>
      let* '(d2, arrs2, s) := duplicate_in d arrs s in
      let* x := edits_two es (d, arrs) (d2, arrs2) s in
      Ok (Some x)
  end.
