(** * Base: outcomes, bytes and checked buffer accesses.

    Definitions only.  Conventions used by every model file:
    - a byte is an [N], a [flo_String] is the list of its bytes
      (util/include/flo/util/text/string.h:37-40);
    - node ids, registry ids and buffer indices are [nat];
    - [FLO_ASSERT] is a no-op (release build, util/include/flo/util/assert.h). *)
From Coq Require Import List NArith Arith Bool Lia.
Import ListNotations.
Local Open Scope N_scope.

Definition byte := N.
Definition bytes := list N.

(** Kinds of undefined behaviour that the model makes explicit. *)
Inductive ub : Type :=
| OobRead        (* read outside a buffer *)
| OobWrite       (* write outside a buffer *)
| NegLen         (* a [flo_String] with negative length is built *)
| NullDeref      (* NULL pointer dereferenced *)
| SignedOverflow (* signed integer overflow *)
| FloatRange.    (* conversion of a double to an integer type that cannot hold it *)

(** Reasons for [__builtin_longjmp] through the arena's jump buffer. *)
Inductive jmp : Type :=
| NodeLimit      (* src/dom/dom-util.c:15-18 *)
| IdLimit        (* src/dom/util/string-auto-uint16-map.c:16-19 *)
| SetFull        (* src/dom/comparison.c:58-64 *)
| ArenaFull.     (* util/src/memory/arena.c:13-19 *)

(** The result of running a C function. *)
Inductive outcome (A : Type) : Type :=
| Ok (a : A)
| Undef (u : ub)
| Longjmp (j : jmp)
| NoFuel.
Arguments Ok {A} a.
Arguments Undef {A} u.
Arguments Longjmp {A} j.
Arguments NoFuel {A}.

Definition bind {A B : Type} (x : outcome A) (f : A -> outcome B) : outcome B :=
  match x with
  | Ok a => f a
  | Undef u => Undef u
  | Longjmp j => Longjmp j
  | NoFuel => NoFuel
  end.

Notation "'let*' x ':=' a 'in' b" := (bind a (fun x => b))
  (at level 200, x name, a at level 100, b at level 200).
Notation "'let*' ''' p ':=' a 'in' b" := (bind a (fun p => b))
  (at level 200, p strict pattern, a at level 100, b at level 200).

(** [flo_stringEquals]: util/include/flo/util/text/string.h:42-45.
    Equal lengths and [memcmp] equal to 0. *)
Fixpoint beq (a b : bytes) : bool :=
  match a, b with
  | [], [] => true
  | x :: a', y :: b' => N.eqb x y && beq a' b'
  | _, _ => false
  end.

(** [flo_getChar]: util/include/flo/util/text/string.h:55-60; the assertion is
    off, so an index outside the string is an out-of-bounds read. *)
Definition get_char (t : bytes) (i : nat) : outcome N :=
  match nth_error t i with
  | Some c => Ok c
  | None => Undef OobRead
  end.

(** Reading [n] bytes at offset [i], as [memcmp]/[memcpy] on
    [FLO_STRING_LEN(flo_getCharPtr(t,i),n)] does. *)
Definition read_slice (t : bytes) (i n : nat) : outcome bytes :=
  if (i + n <=? length t)%nat then Ok (firstn n (skipn i t))
  else Undef OobRead.

(** [flo_parse_currentChar]: include/flo/html-parser/util/parse.h:109-115. *)
Definition current_char (t : bytes) (i : nat) : N :=
  match nth_error t i with
  | Some c => c
  | None => 0
  end.

(** Character constants. *)
Definition cTAB : N := 9.
Definition cNL : N := 10.
Definition cCR : N := 13.
Definition cSP : N := 32.
Definition cBANG : N := 33.
Definition cDQ : N := 34.
Definition cHASH : N := 35.
Definition cSQ : N := 39.
Definition cSTAR : N := 42.
Definition cPLUS : N := 43.
Definition cCOMMA : N := 44.
Definition cDASH : N := 45.
Definition cDOT : N := 46.
Definition cSLASH : N := 47.
Definition cLT : N := 60.
Definition cEQ : N := 61.
Definition cGT : N := 62.
Definition cLB : N := 91.
Definition cRB : N := 93.
Definition cTILDE : N := 126.

(** util/include/flo/util/text/char.h:8-11 *)
Definition is_alpha (c : N) : bool :=
  ((97 <=? c) && (c <=? 122)) || ((65 <=? c) && (c <=? 90)).

(** util/include/flo/util/text/char.h:13-16 *)
Definition is_fmt (c : N) : bool :=
  (c =? cTAB) || (c =? cNL) || (c =? cCR).

(** [ch == ' ' || flo_isFormattingCharacter(ch)]:
    include/flo/html-parser/util/parse.h:95-97 *)
Definition is_blank (c : N) : bool := (c =? cSP) || is_fmt c.

(** [FLO_PARSE_NEXT_CHAR_UNTIL] / [..._WHILE] (with negated condition):
    include/flo/html-parser/util/parse.h:15-82.  The condition may itself read
    the buffer.  Returns the new [ps.idx]. *)
Fixpoint scan_until (fuel : nat) (t : bytes) (stop : nat -> N -> outcome bool)
         (i : nat) : outcome nat :=
  if (i <? length t)%nat then
    let* c := get_char t i in
    let* b := stop i c in
    if (b : bool) then Ok i
    else match fuel with
         | O => NoFuel
         | S f => scan_until f t stop (S i)
         end
  else Ok i.

(** Scan with a condition on the current character only. *)
Definition scan (t : bytes) (stop : N -> bool) (i : nat) : outcome nat :=
  scan_until (length t) t (fun _ c => Ok (stop c)) i.

(** [FLO_PARSE_SKIP_EMPTY_SPACE]: include/flo/html-parser/util/parse.h:95-97 *)
Definition skip_space (t : bytes) (i : nat) : outcome nat :=
  scan t (fun c => negb (is_blank c)) i.

(** Index of the first element satisfying [f]: the linear searches that return
    a pointer into a table (src/dom/traversal.c, src/dom/reading/reading-util.c);
    the pointer is modelled as the index. *)
Fixpoint find_idx {A : Type} (f : A -> bool) (l : list A) : option nat :=
  match l with
  | [] => None
  | x :: l' => if f x then Some O
               else match find_idx f l' with
                    | Some i => Some (S i)
                    | None => None
                    end
  end.

(** Store through such a pointer. *)
Fixpoint upd {A : Type} (l : list A) (i : nat) (x : A) : list A :=
  match l, i with
  | [], _ => []
  | _ :: l', O => x :: l'
  | y :: l', S i' => y :: upd l' i' x
  end.

(** ** Writing byte strings in statements and examples *)
From Coq Require Import String Ascii.
Fixpoint bytes_of_string (s : string) : bytes :=
  match s with
  | EmptyString => []
  | String a s' => N_of_ascii a :: bytes_of_string s'
  end.
