(** * Duplicating a DOM: src/dom/dom.c:50-95.  Definitions only.

    [FLO_COPY_DYNAMIC_ARRAY] (util/include/flo/util/array.h:52-56) copies the
    elements of each table into a fresh block: as a value the copy is the list
    itself.  That the blocks do not overlap, so that later stores to one are not
    seen through the other, is proved in PropsMemory.v (C58) and PropsDup.v (C106). *)
From Coq Require Import List NArith Arith Bool.
From Verif Require Import Base TrieModel DomModel.
Import ListNotations.
Local Open Scope nat_scope.

(** [for (i = 1; i < registry.len; i++) insert(registry.buf[i], &map)]:
    dom.c:75-93 *)
Fixpoint insert_strings (l : list bytes) (m : amap) : outcome amap :=
  match l with
  | [] => Ok m
  | s :: l' => let* '(_, m) := map_insert s m in insert_strings l' m
  end.
Definition rebuild (reg : list bytes) : outcome amap := insert_strings (tl reg) empty_map.

(** [flo_html_duplicateDom]: dom.c:50-95 *)
Definition duplicate_dom (d : dom) : outcome dom :=
  let* tm := rebuild (map t_name (tag_reg d)) in
  let* bm := rebuild (bool_reg d) in
  let* km := rebuild (key_reg d) in
  let* vm := rebuild (val_reg d) in
  Ok (mkDom (nodes d) (firsts d) (pchilds d) (nexts d) (bprops d) (props d)
            (tag_reg d) (bool_reg d) (key_reg d) (val_reg d) tm bm km vm).
