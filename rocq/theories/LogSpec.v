(** * What output functions should write.  Definitions only. *)
From Coq Require Import List NArith ZArith Arith Bool.
From Verif Require Import Base LogModel.
Import ListNotations.
Local Open Scope nat_scope.

(** What one call should add to the output. *)
Definition newline (nl : bool) : bytes := if nl then [10%N] else [].
Definition wop_text (o : wop) : bytes :=
  match o with
  | WApp data nl _ => data ++ newline nl
  | WMin data min nl _ => data ++ repeat 32%N (N.to_nat min - length data) ++ newline nl
  | WRep c n nl _ => repeat c n ++ newline nl
  | WFlush => []
  end.
(** Calls that end with a flush. *)
Definition wop_flushes (o : wop) : Prop :=
  match o with
  | WApp _ _ fl | WMin _ _ _ fl | WRep _ _ _ fl => fl = true
  | WFlush => True
  end.
(** Strings shorter than 4 GiB (the returned length is a uint32_t). *)
Definition wop_small (o : wop) : Prop :=
  match o with WMin data _ _ _ => (N.of_nat (length data) < 2 ^ 32)%N | _ => True end.
(** [write] never fails; it always makes progress. *)
Definition never_fails (k : kernel) : Prop := forall i, k i <> None.
Definition progresses (k : kernel) : Prop := forall i, exists m, k i = Some m /\ 0 < m.

(** The lower-case hexadecimal digit of value [v], and the number written by a row of
    digits ([None] if one of them is no such digit). *)
Definition hex_value (c : byte) : option N :=
  if (48 <=? c)%N && (c <=? 57)%N then Some (c - 48)%N
  else if (97 <=? c)%N && (c <=? 102)%N then Some (c - 87)%N else None.
Definition hex_number (s : bytes) : option N :=
  fold_left (fun acc c => match acc, hex_value c with
                          | Some a, Some v => Some (16 * a + v)%N
                          | _, _ => None
                          end) s (Some 0%N).

(** [s] is the decimal representation of [n]. *)
Definition digit (c : byte) : Prop := (48 <= c <= 57)%N.
Definition value (s : bytes) : N := fold_left (fun a c => 10 * a + (c - 48))%N s 0%N.
Definition decimal (s : bytes) (n : N) : Prop :=
  s <> [] /\ Forall digit s /\ value s = n /\ (hd_error s = Some 48%N -> s = [48%N]).
