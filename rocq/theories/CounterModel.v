(** * The loops of src/dom/traversal.c with their uint16_t counters.  Definitions only.
    The other models use [find_idx]; theorem C38 shows that this is the same. *)
From Coq Require Import List NArith Arith Bool.
From Verif Require Import Base DomModel.
Import ListNotations.
Local Open Scope nat_scope.

(** [for (flo_html_node_id i = 0; i < table.len; i++) if (...) return &table.buf[i];
    return NULL]: the counter is a uint16_t (include/flo/html-parser/definitions.h),
    the length a ptrdiff_t. *)
Fixpoint search16 {A} (fuel : nat) (p : A -> bool) (l : list A) (i : N) : outcome (option nat) :=
  match fuel with
  | O => NoFuel
  | S f =>
      if N.ltb i (N.of_nat (length l)) then
        match nth_error l (N.to_nat i) with
        | None => Undef OobRead
        | Some e =>
            if p e then Ok (Some (N.to_nat i))
            else search16 f p l (N.modulo (i + 1) 65536)
        end
      else Ok None
  end.

(** [flo_html_getFirstChildNode]: traversal.c:5-13; [flo_html_getNextNode]: :27-35;
    [flo_html_getPreviousNode]: :69-77. *)
Definition first_idx16 (fuel : nat) (c : nat) (d : dom) : outcome (option nat) :=
  search16 fuel (fun e => fst e =? c) (firsts d) 0.
Definition next_idx16 (fuel : nat) (c : nat) (d : dom) : outcome (option nat) :=
  search16 fuel (fun e => fst e =? c) (nexts d) 0.
Definition prev_idx16 (fuel : nat) (c : nat) (d : dom) : outcome (option nat) :=
  search16 fuel (fun e => snd e =? c) (nexts d) 0.
