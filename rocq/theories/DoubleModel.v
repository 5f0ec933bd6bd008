(** * Model of [flo_appendDouble]: util/src/log.c:218-248.  Definitions only.

    A [double] is an IEEE 754 binary64 value, as Flocq defines it (all NaNs are one
    value); arithmetic rounds to nearest, ties to even, without excess precision. *)
From Coq Require Import List NArith ZArith Arith Bool.
From Flocq Require Import Core.Core IEEE754.BinarySingleNaN.
From Verif Require Import Base LogModel.
Import ListNotations.
Local Open Scope nat_scope.

Definition prec_ok : FLX.Prec_gt_0 53 := eq_refl.
Definition emax_ok : Prec_lt_emax 53 1024 := eq_refl.
Definition double : Set := binary_float 53 1024.

(** Conversion of an integer to [double]: rounded to nearest. *)
Definition double_of (z : Z) : double := binary_normalize 53 1024 prec_ok emax_ok mode_NE z 0 false.
Definition dplus (x y : double) : double := @Bplus 53 1024 prec_ok emax_ok mode_NE x y.
Definition dminus (x y : double) : double := @Bminus 53 1024 prec_ok emax_ok mode_NE x y.
Definition dmult (x y : double) : double := @Bmult 53 1024 prec_ok emax_ok mode_NE x y.
Definition ddiv (x y : double) : double := @Bdiv 53 1024 prec_ok emax_ok mode_NE x y.
(** The literal 0.5. *)
Definition dhalf : double := binary_normalize 53 1024 prec_ok emax_ok mode_NE 1 (-1) false.

(** Conversion of a [double] to [uint64_t]: C truncates, and a value whose integral
    part does not fit (or a NaN or an infinity) is undefined behaviour. *)
Definition to_uint64 (x : double) : outcome N :=
  if is_finite x && (0 <=? Btrunc x)%Z && (Btrunc x <? 2 ^ 64)%Z then Ok (Z.to_N (Btrunc x)) else Undef FloatRange.

(** [data] after log.c:223-228: the sign is dropped and half a millionth added. *)
Definition double_abs (x : double) : double := if Bltb x (double_of 0) then Bopp x else x.
Definition double_up (x : double) : double := dplus (double_abs x) (ddiv dhalf (double_of 1000000)).

(** [flo_appendDouble]: log.c:218-248, as the list of appends it makes.  The comparison
    with [(double)(-1UL >> 1)] is :229. *)
Definition double_ops (x : double) (nl fl : bool) : outcome (list wop) :=
  let sign := if Bltb x (double_of 0) then [WApp [45%N] false false] else [] in
  let data := double_up x in
  if Bleb (double_of (2 ^ 63 - 1)) data then Ok (sign ++ [WApp [105; 110; 102]%N nl fl])
  else
    let* integral := to_uint64 data in
    let* fractional := to_uint64 (dmult (dminus data (double_of (Z.of_N integral))) (double_of 1000000)) in
    let* a := uint64_text integral in
    let* b := uint64_text fractional in
    Ok (sign ++ [WApp a false false; WApp [46%N] false false;
                 WRep 48%N (zero_count [100000; 10000; 1000; 100; 10]%N fractional) false false;
                 WApp b nl fl]).
Definition append_double (fuel : nat) (k : kernel) (x : double) (nl fl : bool) (w : wbuf) : outcome wbuf :=
  let* l := double_ops x nl fl in wruns fuel k l w.
