(** * What printing a double should write.  Definitions only. *)
From Coq Require Import List NArith ZArith Reals Bool.
From Flocq Require Import Core.Core IEEE754.BinarySingleNaN.
From Verif Require Import Base LogModel LogSpec DoubleModel.
Import ListNotations.

(** The real number a finite double stands for. *)
Definition real (x : double) : R := B2R x.

(** [t] is a number with six decimals, and [v] is its value. *)
Definition six_decimals (t : bytes) (v : R) : Prop :=
  exists i s f, t = s ++ [46%N] ++ f /\ decimal s i /\ length f = 6%nat /\ Forall digit f /\
    v = (IZR (Z.of_N i) + IZR (Z.of_N (value f)) / 1000000)%R.

(** The sign that is written: of strictly negative numbers. *)
Definition minus_if (b : bool) : bytes := if b then [45%N] else [].
