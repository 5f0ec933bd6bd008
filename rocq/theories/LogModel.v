(** * Buffered output: util/src/log.c.  Definitions only.
    The floating point arithmetic of [flo_appendDouble] is in DoubleModel.v.
    [flo_getWriteBuffer] (log.c:37-42) selects one of two such buffers;
    [flo_noAppend] (:264-267) asserts and writes nothing. *)
From Coq Require Import List NArith ZArith Arith Bool.
From Verif Require Import Base.
Import ListNotations.
Local Open Scope nat_scope.

(** The operating system: the answer to the [k]-th call of [write].  [None] is a
    negative result; [Some m] accepts [m] bytes, or all if fewer are offered. *)
Definition kernel := nat -> option nat.

(** [flo_WriteBuffer] (util/include/flo/util/log.h:20-25): [w_buf] are the [len]
    bytes in the buffer.  [w_out] is what the file has received and [w_calls] the
    number of calls of [write] so far. *)
Record wbuf : Type := mkW { w_cap : nat; w_buf : bytes; w_out : bytes; w_calls : nat }.

(** Loop of [flo_flushBuffer]: log.c:20-30.  [done] = bytesWritten. *)
Fixpoint flush_loop (fuel : nat) (k : kernel) (done : nat) (w : wbuf) : outcome (bool * wbuf) :=
  match fuel with
  | O => NoFuel
  | S f =>
      if done <? length (w_buf w) then
        match k (w_calls w) with
        | None => Ok (false, mkW (w_cap w) (w_buf w) (w_out w) (S (w_calls w)))
        | Some m =>
            let part := firstn m (skipn done (w_buf w)) in
            flush_loop f k (done + length part)
              (mkW (w_cap w) (w_buf w) (w_out w ++ part) (S (w_calls w)))
        end
      else Ok (true, mkW (w_cap w) [] (w_out w) (w_calls w))
  end.
(** [flo_flushBuffer]: log.c:19-35.  Without a bound on the answers that accept
    0 bytes there is no bound on the number of iterations: it is a parameter. *)
Definition flush (fuel : nat) (k : kernel) (w : wbuf) : outcome (bool * wbuf) := flush_loop fuel k 0 w.

(** Loop of [flo_appendToBuffer]: log.c:76-88; [rest] = the bytes that are still to
    be copied.  [flo_appendRepeatedCharToBuffer] (:47-57) is the same loop with
    [repeat] equal bytes. *)
Fixpoint append_loop (fuel : nat) (k : kernel) (rest : bytes) (w : wbuf) : outcome wbuf :=
  match fuel with
  | O => NoFuel
  | S f =>
      match rest with
      | [] => Ok w
      | _ =>
          let n := Nat.min (w_cap w - length (w_buf w)) (length rest) in
          let w := mkW (w_cap w) (w_buf w ++ firstn n rest) (w_out w) (w_calls w) in
          let rest := skipn n rest in
          match rest with
          | [] => Ok w
          | _ => let* '(_, w) := flush f k w in append_loop f k rest w
          end
      end
  end.

(** The flags: log.c:90-100 and :59-69.  [nl] = FLO_NEWLINE, [fl] = FLO_FLUSH.
    Storing the newline in a full buffer is an out-of-bounds write. *)
Definition finish (fuel : nat) (k : kernel) (nl fl : bool) (w : wbuf) : outcome wbuf :=
  let* w :=
    (if nl then
       let* w := (if w_cap w <=? length (w_buf w)
                  then let* '(_, w) := flush fuel k w in Ok w else Ok w) in
       if length (w_buf w) <? w_cap w
       then Ok (mkW (w_cap w) (w_buf w ++ [10%N]) (w_out w) (w_calls w))
       else Undef OobWrite
     else Ok w) in
  if fl then let* '(_, w) := flush fuel k w in Ok w else Ok w.

(** [flo_appendToBuffer]: log.c:74-103, the returned length (a uint32_t) included. *)
Definition append (fuel : nat) (k : kernel) (data : bytes) (nl fl : bool) (w : wbuf)
  : outcome (N * wbuf) :=
  let* w := append_loop fuel k data w in
  let* w := finish fuel k nl fl w in
  Ok (N.modulo (N.of_nat (length data)) (2 ^ 32), w).

(** [flo_appendRepeatedCharToBuffer]: log.c:44-72.  It returns true. *)
Definition append_repeated (fuel : nat) (k : kernel) (c : byte) (n : nat) (nl fl : bool) (w : wbuf)
  : outcome (N * wbuf) :=
  let* w := append_loop fuel k (repeat c n) w in
  let* w := finish fuel k nl fl w in
  Ok (1%N, w).

(** The common end of [flo_appendToBufferMinSize] (log.c:105-117),
    [flo_appendUint64ToBufferMinSize] (:140-152) and
    [flo_appendPtrDiffToBufferMinSize] (:250-262). *)
Definition append_min (fuel : nat) (k : kernel) (data : bytes) (min : N) (nl fl : bool) (w : wbuf)
  : outcome (N * wbuf) :=
  let* '(written, w) := append fuel k data false false w in
  if N.leb min written then
    let* '(_, w) := append fuel k [] nl fl w in Ok (written, w)
  else append_repeated fuel k 32%N (N.to_nat (min - written)) nl fl w.

(** ** Numbers *)

(** The loop of [flo_appendUint64]: log.c:192-201.  [free] is the number of bytes
    still free at the front of [tmp]. *)
Fixpoint u64_loop (fuel : nat) (free : nat) (data : N) (acc : bytes) : outcome bytes :=
  match fuel with
  | O => NoFuel
  | S f =>
      match free with
      | O => Undef OobWrite
      | S free =>
          let acc := (48 + N.modulo data 10)%N :: acc in
          let data := N.div data 10 in
          if N.eqb data 0 then Ok acc else u64_loop f free data acc
      end
  end.
Definition uint64_text (data : N) : outcome bytes := u64_loop 65 64 data [].

(** [flo_appendPtrdiff]: log.c:203-216.  C division truncates; ['0' - (unsigned
    char)(t % 10)] is stored in an unsigned char. *)
Fixpoint ptrdiff_loop (fuel : nat) (free : nat) (t : Z) (acc : bytes) : outcome (nat * bytes) :=
  match fuel with
  | O => NoFuel
  | S f =>
      match free with
      | O => Undef OobWrite
      | S free =>
          let digit := Z.to_N ((48 - (Z.rem t 10) mod 256) mod 256) in
          let acc := digit :: acc in
          let t := Z.quot t 10 in
          if Z.eqb t 0 then Ok (free, acc) else ptrdiff_loop f free t acc
      end
  end.
Definition ptrdiff_text (data : Z) : outcome bytes :=
  let* '(free, acc) := ptrdiff_loop 65 64 (if (0 <? data)%Z then (- data)%Z else data) [] in
  if (data <? 0)%Z then
    match free with O => Undef OobWrite | S _ => Ok (45%N :: acc) end
  else Ok acc.

(** [flo_appendPtr]: log.c:176-190.  The digits from the highest; the length
    passed on is [counter - 1]. *)
Definition hex_digit (x : N) : byte := nth (N.to_nat x) [48; 49; 50; 51; 52; 53; 54; 55; 56; 57; 97; 98; 99; 100; 101; 102]%N 0%N.
Definition ptr_text (u : N) : bytes :=
  let tmp := [48; 120]%N ++ map (fun i => hex_digit (N.land (N.shiftr u (4 * N.of_nat i)) 15)) (rev (seq 0 16)) in
  firstn (length tmp - 1) tmp.

(** [int] and [short] values are passed to [flo_appendUint64] (log.h:98-99), which
    converts them to uint64_t. *)
Definition int_text (z : Z) : outcome bytes := uint64_text (Z.to_N (z mod 2 ^ 64)).

(** [flo_appendBool] and [flo_appendChar]: log.c:164-174; [flo_appendCStr]: :154-162,
    [data] up to the first NUL ([strlen]). *)
Definition bool_text (b : bool) : bytes :=
  if b then [116; 114; 117; 101]%N else [102; 97; 108; 115; 101]%N.
Fixpoint cstr_text (data : bytes) : outcome bytes :=
  match data with
  | [] => Undef OobRead
  | c :: data' => if N.eqb c 0 then Ok [] else let* s := cstr_text data' in Ok (c :: s)
  end.

(** The end of [flo_appendDouble]: log.c:235-247, with the integral and the
    fractional part (in millionths) given; for the arithmetic before it see
    DoubleModel.v. *)
Fixpoint zero_count (is : list N) (fractional : N) : nat :=
  match is with
  | [] => 0
  | i :: is' => (if N.ltb fractional i then 1 else 0) + zero_count is' fractional
  end.
Definition fixed_text (integral fractional : N) : outcome bytes :=
  let* a := uint64_text integral in
  let* b := uint64_text fractional in
  Ok (a ++ [46%N] ++ repeat 48%N (zero_count [100000; 10000; 1000; 100; 10]%N fractional) ++ b).

(** ** Programs: any sequence of appends, with or without a minimal width. *)
Inductive wop : Type :=
| WApp (data : bytes) (nl fl : bool)
| WMin (data : bytes) (min : N) (nl fl : bool)
| WRep (c : byte) (n : nat) (nl fl : bool)
| WFlush.
Definition wrun (fuel : nat) (k : kernel) (o : wop) (w : wbuf) : outcome wbuf :=
  match o with
  | WApp data nl fl => let* '(_, w) := append fuel k data nl fl w in Ok w
  | WMin data min nl fl => let* '(_, w) := append_min fuel k data min nl fl w in Ok w
  | WRep c n nl fl => let* '(_, w) := append_repeated fuel k c n nl fl w in Ok w
  | WFlush => let* '(_, w) := flush fuel k w in Ok w
  end.
Fixpoint wruns (fuel : nat) (k : kernel) (l : list wop) (w : wbuf) : outcome wbuf :=
  match l with
  | [] => Ok w
  | o :: l' => let* w := wrun fuel k o w in wruns fuel k l' w
  end.

(** [flo_appendColor] and [flo_appendColorReset]: log.c:118-138.  [tty] is the answer
    of [isatty] for the buffer's file. *)
Inductive color : Type := Red | Green | Yellow | Blue | Magenta | Cyan | ColorReset.
Definition color_code (c : color) : bytes :=
  match c with
  | Red => [27; 91; 51; 49; 109] | Green => [27; 91; 51; 50; 109] | Yellow => [27; 91; 51; 51; 109]
  | Blue => [27; 91; 51; 52; 109] | Magenta => [27; 91; 51; 53; 109] | Cyan => [27; 91; 51; 54; 109]
  | ColorReset => [27; 91; 48; 109]
  end%N.
Definition color_op (tty : bool) (c : color) : wop := WApp (if tty then color_code c else []) false false.
