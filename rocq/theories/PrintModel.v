(** * Printing HTML: src/dom/writing.c:11-79, 93-123.  Definitions only.
    [flo_html_printDomStatus] is in ReportModel.v.  The path, [fopen] and the
    scratch arena of [flo_html_writeHTMLToFile] are in SaveModel.v. *)
From Coq Require Import String Ascii List NArith Arith Bool.
From Verif Require Import Base TrieModel DomModel CompareModel LogModel.
Import ListNotations.
Local Open Scope nat_scope.

(** String literals. *)
Fixpoint lit (s : string) : bytes :=
  match s with
  | EmptyString => []
  | String c s' => N_of_ascii c :: lit s'
  end.

(** The loops over the property tables: writing.c:36-56.  The result is the list
    of the data passed to FLO_LOG_DATA. *)
Fixpoint print_bools (l : list (nat * nat)) (id : nat) (d : dom) : outcome (list bytes) :=
  match l with
  | [] => Ok []
  | e :: l' =>
      if fst e =? id then
        let* b := reg_at (bool_reg d) (snd e) in
        let* r := print_bools l' id d in
        Ok (lit " " :: b :: r)
      else print_bools l' id d
  end.
Fixpoint print_props (l : list prop) (id : nat) (d : dom) : outcome (list bytes) :=
  match l with
  | [] => Ok []
  | e :: l' =>
      if p_node e =? id then
        let* k := reg_at (key_reg d) (p_key e) in
        let* v := reg_at (val_reg d) (p_val e) in
        let* r := print_props l' id d in
        Ok (lit " " :: k :: lit "=""" :: v :: lit """" :: r)
      else print_props l' id d
  end.

(** [printNode]: writing.c:11-79, with its loop over the children. *)
Fixpoint print_node (fuel : nat) (n : nat) (d : dom) : outcome (list bytes) :=
  match fuel with
  | O => NoFuel
  | S f =>
      let* x := get_node d n in
      match n_type x with
      | TError => Ok []
      | TRoot => print_children f (get_first_child n d) d
      | TText => let* s := node_text x in Ok [s]
      | _ =>
          let* r := reg_of x d in
          let* bs := print_bools (bprops d) (n_id x) d in
          let* ps := print_props (props d) (n_id x) d in
          let start := [lit "<"; t_name r] ++ bs ++ ps in
          if negb (t_paired r) then
            Ok (start ++ [if beq (t_name r) (lit "!DOCTYPE") then lit ">" else lit "/>"])
          else
            let* cs := print_children f (get_first_child n d) d in
            Ok (start ++ [lit ">"] ++ cs ++ [lit "</"; t_name r; lit ">"])
      end
  end
with print_children (fuel : nat) (c : nat) (d : dom) : outcome (list bytes) :=
  match fuel with
  | O => NoFuel
  | S f =>
      if c =? 0 then Ok []
      else
        let* a := print_node f c d in
        let* b := print_children f (get_next c d) d in
        Ok (a ++ b)
  end.

(** The loop of [flo_html_printHTML] and [flo_html_writeHTMLToFile]:
    writing.c:84-88, 113-117 *)
Fixpoint print_loop (fuel : nat) (c : nat) (d : dom) : outcome (list bytes) :=
  match fuel with
  | O => NoFuel
  | S f =>
      if c =? 0 then Ok []
      else
        let* a := print_node (2 * length (nodes d) + 2) c d in
        let* b := print_loop f (get_next c d) d in
        Ok (a ++ b)
  end.
Definition print_dom (d : dom) : outcome (list bytes) := print_loop (S (S (length (nexts d)))) 1 d.

(** [flo_html_writeHTMLToFile]: writing.c:93-123: the bytes the file receives.  The
    buffer has 8192 bytes; the result of the last flush is ignored. *)
Definition file_buffer : nat := 2 ^ 13.
Definition write_html (fuel : nat) (k : kernel) (d : dom) : outcome wbuf :=
  let* l := print_dom d in
  wruns fuel k (map (fun s => WApp s false false) l ++ [WFlush]) (mkW file_buffer [] [] 0).
