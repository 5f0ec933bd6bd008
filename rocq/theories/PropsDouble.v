(** * Printing doubles. *)
From Coq Require Import List NArith ZArith Reals Bool Lia Lra.
From Flocq Require Import Core.Core IEEE754.BinarySingleNaN.
From Verif Require Import Base LogModel LogSpec LogProofs DoubleModel DoubleSpec DoubleProofs PropsLog.
Import ListNotations.

(** C98: for every double below [2^63] in absolute value, the call adds a minus sign if the
    number is negative, then a number with exactly six decimals that is at most 1.000000001
    millionths away from the absolute value, then the newline if asked for - to any buffer,
    for any answers of [write] that are not errors. *)
Theorem C98_double_text : forall k fuel x nl fl w, never_fails k ->
  is_finite x = true -> (Rabs (real x) < IZR (2 ^ 63))%R ->
  length (w_buf w) <= w_cap w -> 0 < w_cap w ->
  append_double fuel k x nl fl w = NoFuel \/
  exists w' t v, append_double fuel k x nl fl w = Ok w' /\ length (w_buf w') <= w_cap w' /\
    w_out w' ++ w_buf w' = w_out w ++ w_buf w ++ minus_if (Rlt_bool (real x) 0) ++ t ++ newline nl /\
    six_decimals t v /\ (Rabs (v - Rabs (real x)) * 1000000 <= 1 + / IZR (2 ^ 30))%R.
Proof.
  intros k fuel x nl fl w K F L B C.
  destruct (double_text x nl fl F L) as (l & t & v & E & T & D & V).
  unfold append_double. rewrite E. cbn [bind].
  assert (Sm : Forall wop_small l) by (eapply double_small; exact E).
  destruct (C54_output_exact k fuel l w K Sm B C) as [X|(w' & X & Y & Z)]; [now left|right].
  exists w', t, v. rewrite X, Z, T. repeat split; auto. now apply double_close.
Qed.
Print Assumptions C98_double_text.

(** Up to 2^20 the number is rounded to the nearest millionth, up to a thousandth of the last digit. *)
Theorem C98_double_nearest : forall x nl fl,
  is_finite x = true -> (Rabs (real x) <= IZR (2 ^ 20))%R ->
  exists l t v, double_ops x nl fl = Ok l /\
    concat (map wop_text l) = minus_if (Rlt_bool (real x) 0) ++ t ++ newline nl /\
    six_decimals t v /\ (Rabs (v - Rabs (real x)) * 1000000 <= / 2 + / IZR (2 ^ 10))%R.
Proof.
  intros x nl fl F L.
  assert (L2 : (Rabs (real x) < IZR (2 ^ 63))%R) by (eapply Rle_lt_trans; [exact L|apply IZR_lt; reflexivity]).
  destruct (double_text x nl fl F L2) as (l & t & v & E & T & D & V).
  exists l, t, v. repeat split; auto. now apply (double_close x v F L2 V).
Qed.
Print Assumptions C98_double_nearest.

(** C98 (false): every finite double is printed as a number.  From [2^63] on, exactly like
    an infinity, "inf" is printed ... *)
Theorem C98_double_inf_refuted : forall x nl fl,
  (is_finite x = true /\ (IZR (2 ^ 63) <= Rabs (real x))%R) \/ (exists s, x = B754_infinity s) ->
  exists l, double_ops x nl fl = Ok l /\
    concat (map wop_text l) = minus_if (Bltb x (double_of 0)) ++ [105; 110; 102]%N ++ newline nl.
Proof. exact double_inf. Qed.
Print Assumptions C98_double_inf_refuted.
(** ... and a NaN is converted to an integer, which is undefined behaviour. *)
Theorem C98_double_nan_refuted : forall k fuel nl fl w, append_double fuel k B754_nan nl fl w = Undef FloatRange.
Proof. intros. unfold append_double. now rewrite double_nan. Qed.
Print Assumptions C98_double_nan_refuted.

(** Every double is of one of these kinds, and the undefined behaviour is only for NaN. *)
Theorem C98_double_defined : forall x nl fl, x <> B754_nan -> exists l, double_ops x nl fl = Ok l.
Proof.
  intros x nl fl H. destruct (is_finite x) eqn:F.
  - destruct (Rle_or_lt (IZR (2 ^ 63)) (Rabs (real x))) as [L|L].
    + destruct (double_inf x nl fl) as (l & E & _); [now left|now exists l].
    + destruct (double_text x nl fl F L) as (l & _ & _ & E & _). now exists l.
  - destruct x as [s|s| |s m e b]; try discriminate F; [|now elim H].
    destruct (double_inf (B754_infinity s) nl fl) as (l & E & _); [right; now exists s|now exists l].
Qed.
Print Assumptions C98_double_defined.

(** With a file that accepts bytes the call returns. *)
Theorem C98_double_returns : forall k x nl fl w, progresses k -> x <> B754_nan ->
  length (w_buf w) <= w_cap w -> 0 < w_cap w ->
  exists fuel, forall fuel', fuel <= fuel' -> exists w', append_double fuel' k x nl fl w = Ok w'.
Proof.
  intros k x nl fl w K H B C. destruct (C98_double_defined x nl fl H) as [l E].
  destruct (C54_output_returns k l w K (double_small x nl fl l E) B C) as [f Hf].
  exists f. intros f' L. unfold append_double. rewrite E. exact (Hf f' L).
Qed.
Print Assumptions C98_double_returns.

(** -3.75 is a finite double in the range and its text is "-3.750000"; 0.1 gives
    "0.100000"; 1e300 gives "inf"; -1e-9, a negative number, gives "-0.000000". *)
Definition dm375 : double := ddiv (Bopp (double_of 15)) (double_of 4).
Definition dtenth : double := ddiv (double_of 1) (double_of 10).
Definition dmnano : double := ddiv (Bopp (double_of 1)) (double_of 1000000000).
Definition dtext (x : double) : outcome bytes := let* l := double_ops x false false in Ok (concat (map wop_text l)).
Example C98_ex : dtext dm375 = Ok [45; 51; 46; 55; 53; 48; 48; 48; 48]%N /\
  dtext dtenth = Ok [48; 46; 49; 48; 48; 48; 48; 48]%N /\
  dtext (double_of (10 ^ 300)) = Ok [105; 110; 102]%N /\
  dtext dmnano = Ok [45; 48; 46; 48; 48; 48; 48; 48; 48]%N /\ is_finite dm375 = true.
Proof. vm_compute. auto. Qed.
Example C98_range : is_finite dm375 = true /\ (real dm375 = -15/4)%R /\ (Rabs (real dm375) <= IZR (2 ^ 20))%R.
Proof.
  assert (R : (real dm375 = -15/4)%R).
  { unfold real. rewrite <- SF2R_B2SF.
    replace (B2SF dm375) with (SpecFloat.S754_finite true 8444249301319680 (-51)) by (vm_compute; reflexivity).
    unfold SF2R, F2R. cbn [Fnum Fexp cond_Zopp]. change (bpow radix2 (-51)) with (/ IZR (2 ^ 51))%R.
    change (2 ^ 51)%Z with 2251799813685248%Z.
    rewrite opp_IZR. lra. }
  split; [vm_compute; reflexivity|]. split; [exact R|]. rewrite R.
  change (2 ^ 20)%Z with 1048576%Z. rewrite Rabs_left; lra.
Qed.
