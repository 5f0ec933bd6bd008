(** * [flo_createPath]: util/src/file/path.c.  Definitions only.
    [mkdir] is the list of its arguments; its result is ignored by the code. *)
From Coq Require Import List NArith Arith Bool.
From Verif Require Import Base.
Import ListNotations.
Local Open Scope nat_scope.

Definition c_slash : byte := 47%N.

(** [flo_firstOccurenceOfFrom]: util/include/flo/util/text/string.h:92-102.
    [None] = -1.  FLO_ASSERT(from < s.len) is empty in release builds. *)
Fixpoint first_from (fuel : nat) (s : bytes) (ch : byte) (i : nat) : option nat :=
  match fuel with
  | O => None
  | S f =>
      match nth_error s i with
      | None => None
      | Some c => if N.eqb c ch then Some i else first_from f s ch (S i)
      end
  end.
Definition first_occurrence_from (s : bytes) (ch : byte) (from : nat) : option nat :=
  first_from (length s) s ch from.

(** A C string: the bytes before the first NUL. *)
Fixpoint until_nul (s : bytes) : bytes :=
  match s with
  | [] => []
  | c :: s' => if N.eqb c 0 then [] else c :: until_nul s'
  end.

(** The loop of path.c:17-27: [dirPath[slashIndex] = 0; mkdir(dirPath)]; then the
    slash is put back. *)
Fixpoint path_loop (fuel : nat) (path : bytes) (slash : option nat) : outcome (list bytes) :=
  match fuel with
  | O => NoFuel
  | S f =>
      match slash with
      | Some (S i) =>
          let dir := until_nul (firstn (S i) path) in
          let* l := path_loop f path (first_occurrence_from path c_slash (S (S i))) in
          Ok (dir :: l)
      | _ => Ok []
      end
  end.
(** [flo_createPath]: path.c:8-29 *)
Definition create_path (path : bytes) : outcome (list bytes) :=
  path_loop (S (length path)) path (first_occurrence_from path c_slash 0).
