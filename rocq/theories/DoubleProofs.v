(** * Proofs about [flo_appendDouble]. *)
From Coq Require Import List NArith ZArith Reals Bool Lia Lra Psatz.
From Flocq Require Import Core.Core IEEE754.BinarySingleNaN.
From Verif Require Import Base LogModel LogSpec LogProofs DoubleModel DoubleSpec.
Import ListNotations.
Local Open Scope R_scope.

Local Notation fexp := (SpecFloat.fexp 53 1024).
Local Notation RN := (round radix2 fexp ZnearestE).
Local Notation fmt := (generic_format radix2 fexp).
Local Instance fv : Valid_exp fexp := @fexp_correct 53 1024 prec_ok.
Local Instance fm : Monotone_exp fexp := @fexp_monotone 53 1024.

Lemma fexpE e : fexp e = Z.max (e - 53) (-1074).
Proof. reflexivity. Qed.

Lemma real_fmt x : fmt (real x).
Proof. apply generic_format_B2R. Qed.

(** Numbers [m * 2^e] with a small [m]. *)
Lemma fmt_F2R m e : (Z.abs m < 2 ^ 53)%Z -> (-1074 <= e)%Z -> fmt (IZR m * bpow radix2 e).
Proof.
  intros M Ee. apply generic_format_FLT. exists (Float radix2 m e); [reflexivity|exact M|exact Ee].
Qed.
Lemma fmt_int m : (Z.abs m < 2 ^ 53)%Z -> fmt (IZR m).
Proof. intros M. rewrite <- (Rmult_1_r (IZR m)). apply (fmt_F2R m 0); [exact M|lia]. Qed.

(** Rounding stays at most as far away as any double. *)
Lemma RN_near y g : fmt g -> Rabs (RN y - y) <= Rabs (g - y).
Proof. intros G. destruct (round_N_pt radix2 fexp (fun z => negb (Z.even z)) y) as [_ H]. now apply H. Qed.
Lemma RN_id y : fmt y -> RN y = y.
Proof. intros G. apply round_generic; [apply valid_rnd_N|exact G]. Qed.
Lemma RN_le x y : x <= y -> RN x <= RN y.
Proof. apply round_le; [apply fv|apply valid_rnd_N]. Qed.
Lemma RN_fmt y : fmt (RN y).
Proof. apply generic_format_round; [apply fv|apply valid_rnd_N]. Qed.

(** Error of rounding below [2^k]. *)
Lemma RN_err y k : (-1000 <= k)%Z -> 0 <= y <= bpow radix2 k -> Rabs (RN y - y) <= bpow radix2 (k - 53).
Proof.
  intros K [Y0 Y1].
  eapply Rle_trans; [apply error_le_half_ulp; apply fv|].
  assert (U : ulp radix2 fexp y <= ulp radix2 fexp (bpow radix2 k)).
  { apply ulp_le; [apply fv|apply fm|]. rewrite !Rabs_pos_eq; [exact Y1|apply bpow_ge_0|exact Y0]. }
  rewrite ulp_bpow, fexpE in U. replace (Z.max (k + 1 - 53) (-1074)) with (k - 53 + 1)%Z in U by lia.
  rewrite bpow_plus in U. change (bpow radix2 1) with 2 in U. lra.
Qed.

Lemma double_of_real z : (0 <= z <= 2 ^ 63)%Z -> real (double_of z) = RN (IZR z) /\ is_finite (double_of z) = true.
Proof.
  intros Z0. pose proof (binary_normalize_correct 53 1024 prec_ok emax_ok mode_NE z 0 false) as H.
  cbn zeta in H. unfold F2R in H. cbn [Fnum Fexp] in H. change (bpow radix2 0) with 1 in H. rewrite Rmult_1_r in H.
  rewrite Rlt_bool_true in H.
  - destruct H as (A & B & _). split; [exact A|exact B].
  - apply Rle_lt_trans with (bpow radix2 63); [|apply bpow_lt; lia].
    apply abs_round_le_generic; [apply fv|apply valid_rnd_N|apply generic_format_bpow; [apply fv]|].
    + rewrite fexpE. lia.
    + rewrite <- IZR_Zpower by lia. rewrite <- abs_IZR. apply IZR_le. change (radix2 ^ 63)%Z with (2 ^ 63)%Z. lia.
Qed.
Lemma double_of_small z : (0 <= z < 2 ^ 53)%Z -> real (double_of z) = IZR z.
Proof.
  intros Z0. rewrite (proj1 (double_of_real z ltac:(lia))). apply RN_id, fmt_int. lia.
Qed.

(** The constant that is added. *)
Definition cst : double := ddiv dhalf (double_of 1000000).
Lemma cst_fin : is_finite cst = true.
Proof. vm_compute. reflexivity. Qed.
Lemma cst_sf : B2SF cst = SpecFloat.S754_finite false 4722366482869645 (-73).
Proof. vm_compute. reflexivity. Qed.
Lemma cst_real : real cst = IZR 4722366482869645 * bpow radix2 (-73).
Proof. unfold real. rewrite <- SF2R_B2SF, cst_sf. reflexivity. Qed.

Lemma cst_bounds : 0 < real cst /\ 2 * real cst <= /1000000 * (1 + / IZR (2 ^ 40)) /\ real cst <= / 2000000 * (1 + / IZR (2 ^ 40)) /\ / 2000000 * (1 - / IZR (2 ^ 40)) <= real cst.
Proof.
  rewrite cst_real. change (bpow radix2 (-73)) with (/ IZR (2 ^ 73)).
  change (2 ^ 73)%Z with 9444732965739290427392%Z. change (2 ^ 40)%Z with 1099511627776%Z.
  repeat split; lra.
Qed.
Lemma million : real (double_of 1000000) = 1000000 /\ is_finite (double_of 1000000) = true.
Proof. split; [apply double_of_small; lia|now vm_compute]. Qed.
Lemma limit : real (double_of (2 ^ 63 - 1)) = IZR (2 ^ 63) /\ is_finite (double_of (2 ^ 63 - 1)) = true.
Proof.
  split; [|now vm_compute].
  unfold real. rewrite <- SF2R_B2SF.
  replace (B2SF (double_of (2 ^ 63 - 1))) with (SpecFloat.S754_finite false 4503599627370496 11) by (vm_compute; reflexivity).
  unfold SF2R, F2R. cbn [Fnum Fexp cond_Zopp]. rewrite <- IZR_Zpower by lia. rewrite <- mult_IZR. reflexivity.
Qed.
Lemma zero_real : real (double_of 0) = 0 /\ is_finite (double_of 0) = true.
Proof. split; [apply double_of_small; lia|now vm_compute]. Qed.

(** The absolute value. *)
Lemma abs_real x : is_finite x = true ->
  real (double_abs x) = Rabs (real x) /\ is_finite (double_abs x) = true /\
  Bltb x (double_of 0) = Rlt_bool (real x) 0.
Proof.
  intros F. destruct zero_real as [Z1 Z2].
  assert (B : Bltb x (double_of 0) = Rlt_bool (real x) 0).
  { rewrite <- Z1. apply Bltb_correct; assumption. }
  unfold double_abs. rewrite B. unfold real in *. destruct (Rlt_bool_spec (B2R x) 0) as [L|L].
  - rewrite B2R_Bopp, is_finite_Bopp, Rabs_left by exact L. auto.
  - rewrite Rabs_pos_eq by exact L. auto.
Qed.

Lemma half_real : bpow radix2 (-1) = / 2.
Proof. reflexivity. Qed.

(** Below [2^63] the addition does not overflow. *)
Lemma up_real x : is_finite x = true -> Rabs (real x) <= bpow radix2 1000 ->
  real (double_up x) = RN (Rabs (real x) + real cst) /\ is_finite (double_up x) = true.
Proof.
  intros F L. destruct (abs_real x F) as (A & A2 & _). destruct cst_bounds as (C1 & _ & C2 & _).
  pose proof (@Bplus_correct 53 1024 prec_ok emax_ok mode_NE (double_abs x) cst A2 cst_fin) as H.
  fold (real (double_abs x)) (real cst) in H. rewrite A in H.
  rewrite Rlt_bool_true in H.
  - destruct H as (H1 & H2 & _). split; [exact H1|exact H2].
  - apply Rle_lt_trans with (bpow radix2 1001); [|apply bpow_lt; lia].
    apply abs_round_le_generic; [apply fv|apply valid_rnd_N|apply generic_format_bpow; [apply fv]|].
    + rewrite fexpE. lia.
    + rewrite Rabs_pos_eq by (pose proof (Rabs_pos (real x)); lra).
      replace 1001%Z with (1000 + 1)%Z by reflexivity. rewrite bpow_plus. change (bpow radix2 1) with 2.
      assert (1 <= bpow radix2 1000) by (change 1 with (bpow radix2 0); apply bpow_le; lia).
      change (2 ^ 40)%Z with 1099511627776%Z in C2. lra.
Qed.

Lemma up_between x : is_finite x = true -> Rabs (real x) <= bpow radix2 1000 ->
  Rabs (real x) <= real (double_up x) <= Rabs (real x) + 2 * real cst.
Proof.
  intros F L. rewrite (proj1 (up_real x F L)). destruct cst_bounds as (C1 & _).
  assert (G : fmt (Rabs (real x))) by (apply generic_format_abs, real_fmt).
  split.
  - rewrite <- (RN_id _ G) at 1. apply RN_le. lra.
  - pose proof (RN_near (Rabs (real x) + real cst) _ G) as H.
    replace (Rabs (real x) - (Rabs (real x) + real cst)) with (- real cst) in H by ring.
    rewrite Rabs_Ropp, (Rabs_pos_eq (real cst)) in H by lra.
    apply Rabs_le_inv in H. lra.
Qed.

(** The largest double below a power of two. *)
Lemma below_bpow g k : (-1000 <= k)%Z -> fmt g -> g < bpow radix2 k -> g <= bpow radix2 k - bpow radix2 (k - 53).
Proof.
  intros K G L.
  assert (Gb : fmt (bpow radix2 k)) by (apply generic_format_bpow; rewrite fexpE; lia).
  pose proof (pred_ge_gt radix2 fexp g (bpow radix2 k) G Gb L) as P.
  rewrite pred_bpow, fexpE in P. replace (Z.max (k - 53) (-1074)) with (k - 53)%Z in P by lia. exact P.
Qed.
Lemma up_limit x : is_finite x = true -> Rabs (real x) <= bpow radix2 1000 ->
  (Rabs (real x) < IZR (2 ^ 63) <-> real (double_up x) < IZR (2 ^ 63)).
Proof.
  intros F L. destruct (up_between x F L) as [U1 U2]. destruct cst_bounds as (C1 & C2 & _).
  split; intros H; [|lra].
  pose proof (below_bpow (Rabs (real x)) 63 ltac:(lia) (generic_format_abs _ _ _ (real_fmt x))) as P.
  rewrite <- (IZR_Zpower radix2 63) in P by lia. change (radix2 ^ 63)%Z with (2 ^ 63)%Z in P. specialize (P H).
  rewrite <- (IZR_Zpower radix2 (63 - 53)) in P by lia. change (radix2 ^ (63 - 53))%Z with 1024%Z in P.
  change (2 ^ 40)%Z with 1099511627776%Z in C2. lra.
Qed.

(** Integral and fractional part of a double. *)
Lemma parts (d : double) : 0 <= real d ->
  let i := Btrunc d in
  (0 <= i)%Z /\ IZR i <= real d < IZR i + 1 /\ fmt (IZR i) /\ fmt (real d - IZR i).
Proof.
  intros D i.
  assert (T : IZR i = round radix2 (FIX_exp 0) Ztrunc (real d)) by (apply Btrunc_correct; exact emax_ok).
  assert (Fi : fmt (IZR i)).
  { rewrite T. apply generic_round_generic; [apply fv|apply FIX_exp_valid|apply valid_rnd_ZR|apply real_fmt]. }
  assert (Ei : i = Zfloor (real d)).
  { apply eq_IZR. rewrite T. unfold round, F2R, scaled_mantissa, cexp, FIX_exp. cbn [Fnum Fexp].
    change (bpow radix2 (- (0))) with 1. change (bpow radix2 0) with 1. rewrite !Rmult_1_r.
    now rewrite Ztrunc_floor. }
  pose proof (Zfloor_lb (real d)) as B1. pose proof (Zfloor_ub (real d)) as B2. rewrite <- Ei in B1, B2.
  assert (I0 : (0 <= i)%Z) by (rewrite Ei; apply Zfloor_lub; exact D).
  repeat split; [exact I0|exact B1|exact B2|exact Fi|].
  pose proof (@FLT_format_B2R 53 1024 prec_ok d) as Fd. fold (real d) in Fd.
  destruct Fd as [[m e] Dm Mm Me]. cbn [Fnum Fexp] in *. unfold F2R in Dm. cbn [Fnum Fexp] in Dm.
  destruct (Z_le_gt_dec 0 e) as [Ep|En].
  - assert (X : real d - IZR i = 0).
    { rewrite <- IZR_Zpower in Dm by exact Ep. rewrite <- mult_IZR in Dm. rewrite Ei, Dm, Zfloor_IZR. ring. }
    rewrite X. apply generic_format_0.
  - assert (P : bpow radix2 (- e) = IZR (2 ^ (- e))) by (rewrite <- IZR_Zpower by lia; reflexivity).
    assert (Q : bpow radix2 e * bpow radix2 (- e) = 1) by (rewrite <- bpow_plus, Z.add_opp_diag_r; reflexivity).
    assert (X : real d - IZR i = IZR (m - i * 2 ^ (- e)) * bpow radix2 e).
    { rewrite minus_IZR, mult_IZR, <- P, Rmult_minus_distr_r, Rmult_assoc, (Rmult_comm (bpow radix2 (- e))), Q, <- Dm. ring. }
    rewrite X. apply fmt_F2R; [|exact Me].
    assert (Pos : 0 < bpow radix2 e) by apply bpow_gt_0.
    assert (N0 : (0 <= m - i * 2 ^ (- e))%Z).
    { apply le_IZR. apply Rmult_le_reg_r with (1 := Pos). rewrite <- X. lra. }
    assert (0 <= i * 2 ^ (- e))%Z by (apply Z.mul_nonneg_nonneg; [exact I0|apply Z.pow_nonneg; lia]).
    change (radix2 ^ 53)%Z with (2 ^ 53)%Z in Mm. lia.
Qed.

(** A fraction below one million stays below after the multiplication. *)
Lemma millionths g : fmt g -> 0 <= g < 1 -> 0 <= RN (g * 1000000) < 1000000 /\
  Rabs (RN (g * 1000000) - g * 1000000) <= / IZR (2 ^ 33).
Proof.
  intros G [G0 G1].
  assert (M : g <= 1 - / IZR (2 ^ 53)).
  { apply (below_bpow g 0) in G; [|lia|exact G1]. exact G. }
  assert (E1 : Rabs (RN (g * 1000000) - g * 1000000) <= / IZR (2 ^ 33)).
  { apply (RN_err _ 20); [lia|]. change (bpow radix2 20) with 1048576. lra. }
  split; [|exact E1]. split.
  - rewrite <- (RN_id 0) by apply generic_format_0. apply RN_le. lra.
  - set (p := 1000000 - / IZR (2 ^ 33)).
    assert (Fp : fmt p).
    { replace p with (IZR (1000000 * 2 ^ 33 - 1) * bpow radix2 (-33)).
      - apply fmt_F2R; lia.
      - unfold p. change (bpow radix2 (-33)) with (/ IZR (2 ^ 33)). rewrite minus_IZR, mult_IZR. field.
        apply IZR_neq. lia. }
    assert (Fm : fmt 1000000) by (apply fmt_int; lia).
    destruct (Rle_or_lt (g * 1000000) p) as [L|L].
    + apply Rle_lt_trans with p; [rewrite <- (RN_id p Fp); now apply RN_le|].
      unfold p. change (2 ^ 33)%Z with 8589934592%Z. lra.
    + pose proof (RN_near (g * 1000000) p Fp) as H. unfold p in L, H.
      change (2 ^ 33)%Z with 8589934592%Z in *. change (2 ^ 53)%Z with 9007199254740992%Z in M.
      rewrite (Rabs_left (1000000 - / 8589934592 - g * 1000000)) in H by lra. apply Rabs_le_inv in H. lra.
Qed.

Lemma to_uint64_ok (d : double) : is_finite d = true -> 0 <= real d < IZR (2 ^ 63) -> to_uint64 d = Ok (Z.to_N (Btrunc d)).
Proof.
  intros F [D0 D1]. destruct (parts d D0) as (I0 & [I1 _] & _). unfold to_uint64. rewrite F. cbn [andb].
  assert (Btrunc d < 2 ^ 63)%Z by (apply lt_IZR; lra).
  rewrite (proj2 (Z.leb_le _ _) I0), (proj2 (Z.ltb_lt _ _)) by lia. reflexivity.
Qed.

(** The fractional part as the code computes it. *)
Definition frac (d : double) : double := dmult (dminus d (double_of (Z.of_N (Z.to_N (Btrunc d))))) (double_of 1000000).
Lemma frac_real d : is_finite d = true -> 0 <= real d < IZR (2 ^ 63) ->
  real (frac d) = RN ((real d - IZR (Btrunc d)) * 1000000) /\ is_finite (frac d) = true.
Proof.
  intros F [D0 D1]. destruct (parts d D0) as (I0 & [I1 I2] & Fi & Ff). unfold frac. rewrite Z2N.id by exact I0.
  assert (Iu : (Btrunc d < 2 ^ 63)%Z) by (apply lt_IZR; lra).
  destruct (double_of_real (Btrunc d) ltac:(lia)) as [R1 R2]. rewrite (RN_id _ Fi) in R1.
  set (b := double_of (Btrunc d)) in *.
  assert (S : real (dminus d b) = real d - IZR (Btrunc d) /\ is_finite (dminus d b) = true).
  { pose proof (@Bminus_correct 53 1024 prec_ok emax_ok mode_NE d b F R2) as H.
    fold (real d) (real b) in H. rewrite R1 in H. cbn [round_mode] in H. rewrite (RN_id _ Ff) in H.
    rewrite Rlt_bool_true in H.
    - destruct H as (H1 & H2 & _). split; [exact H1|exact H2].
    - rewrite Rabs_pos_eq by lra. apply Rlt_le_trans with (bpow radix2 0); [change (bpow radix2 0) with 1; lra|apply bpow_le; lia]. }
  destruct S as [S1 S2]. destruct million as [M1 M2].
  pose proof (@Bmult_correct 53 1024 prec_ok emax_ok mode_NE (dminus d b) (double_of 1000000)) as H.
  fold (real (dminus d b)) (real (double_of 1000000)) in H. rewrite S1, M1 in H. cbn [round_mode] in H.
  destruct (millionths _ Ff ltac:(lra)) as ([Q1 Q2] & _).
  rewrite Rlt_bool_true in H.
  - destruct H as (H1 & H2 & _). split; [exact H1|]. unfold dmult. rewrite H2, S2, M2. reflexivity.
  - rewrite Rabs_pos_eq by exact Q1.
    apply Rlt_le_trans with (bpow radix2 20); [change (bpow radix2 20) with 1048576; lra|apply bpow_le; lia].
Qed.

(** What is printed for a number below [2^63]. *)
Lemma double_text x nl fl : is_finite x = true -> Rabs (real x) < IZR (2 ^ 63) ->
  exists l t v, double_ops x nl fl = Ok l /\
    concat (map wop_text l) = minus_if (Rlt_bool (real x) 0) ++ t ++ newline nl /\ six_decimals t v /\
    real (double_up x) * 1000000 - 1 - / IZR (2 ^ 33) < v * 1000000 <= real (double_up x) * 1000000 + / IZR (2 ^ 33).
Proof.
  intros F L.
  assert (L2 : Rabs (real x) <= bpow radix2 1000).
  { apply Rle_trans with (bpow radix2 63); [|apply bpow_le; lia]. rewrite <- IZR_Zpower by lia.
    change (radix2 ^ 63)%Z with (2 ^ 63)%Z. lra. }
  destruct (abs_real x F) as (_ & _ & Sg). destruct (up_real x F L2) as (_ & Fu).
  pose proof (proj1 (up_limit x F L2) L) as Ul. destruct (up_between x F L2) as [U1 _].
  pose proof (Rabs_pos (real x)) as A0.
  set (d := double_up x) in *.
  assert (D : 0 <= real d < IZR (2 ^ 63)) by lra.
  unfold double_ops. fold d. rewrite Sg. destruct limit as [Lm1 Lm2].
  rewrite (Bleb_correct _ _ _ _ Lm2 Fu).
  fold (real (double_of (2 ^ 63 - 1))) (real d). rewrite Lm1, Rle_bool_false by exact Ul.
  rewrite (to_uint64_ok d Fu D). cbn [bind]. fold (frac d).
  destruct (frac_real d Fu D) as [R1 R2]. destruct (parts d (proj1 D)) as (I0 & [I1 I2] & Fi & Ff).
  destruct (millionths _ Ff ltac:(lra)) as ([Q1 Q2] & Q3). rewrite <- R1 in Q1, Q2, Q3.
  assert (M63 : 1000000 < IZR (2 ^ 63)) by (apply IZR_lt; reflexivity).
  rewrite (to_uint64_ok (frac d) R2) by lra. cbn [bind].
  destruct (parts (frac d) Q1) as (J0 & [J1 J2] & _).
  assert (Iu : (Btrunc d < 2 ^ 63)%Z) by (apply lt_IZR; lra).
  assert (Ju : (Btrunc (frac d) < 1000000)%Z) by (apply lt_IZR; lra).
  set (i := Z.to_N (Btrunc d)). set (f := Z.to_N (Btrunc (frac d))).
  assert (Ei : (i < 2 ^ 64)%N) by (unfold i; apply N2Z.inj_lt; rewrite Z2N.id by exact I0; change (Z.of_N (2 ^ 64)) with (2 ^ 64)%Z; lia).
  assert (Ef : (f < 10 ^ 6)%N) by (unfold f; apply N2Z.inj_lt; rewrite Z2N.id by exact J0; exact Ju).
  destruct (fixed_ok i f Ei Ef) as (s & t & X & Ds & Lt & Dt & Vt). unfold fixed_text in X.
  destruct (uint64_text i) as [a| | |]; try discriminate X. cbn [bind] in X.
  destruct (uint64_text f) as [b| | |]; try discriminate X. cbn [bind] in X.
  injection X as X. cbn [bind].
  eexists. exists (s ++ [46%N] ++ t), (IZR (Z.of_N i) + IZR (Z.of_N (value t)) / 1000000).
  split; [reflexivity|]. split; [|split].
  - change (s ++ [46%N] ++ t) with (s ++ 46%N :: t). rewrite <- X. rewrite map_app, concat_app. f_equal.
    + destruct (Rlt_bool (real x) 0); reflexivity.
    + cbn [map concat wop_text newline]. cbn [zero_count]. rewrite !app_nil_r, <- !app_assoc. cbn [app]. rewrite <- !app_assoc. reflexivity.
  - exists i, s, t. repeat split; auto; apply Ds.
  - rewrite Vt. unfold i, f. rewrite !Z2N.id by assumption.
    apply Rabs_le_inv in Q3.
    replace ((IZR (Btrunc d) + IZR (Btrunc (frac d)) / 1000000) * 1000000) with (IZR (Btrunc d) * 1000000 + IZR (Btrunc (frac d))) by field.
    lra.
Qed.

Lemma finite_bound x : Rabs (real x) < bpow radix2 1024.
Proof. apply abs_B2R_lt_emax. Qed.

(** From [2^63] on, and for the infinities, "inf" is printed. *)
Lemma ge_huge x : is_finite x = true -> IZR (2 ^ 63) <= Rabs (real x) ->
  Bleb (double_of (2 ^ 63 - 1)) (double_up x) = true.
Proof.
  intros F L. destruct limit as [Lm1 Lm2].
  destruct (abs_real x F) as (A & A2 & _). destruct cst_bounds as (C1 & _ & C2 & _).
  pose proof (@Bplus_correct 53 1024 prec_ok emax_ok mode_NE (double_abs x) cst A2 cst_fin) as H.
  fold (real (double_abs x)) (real cst) in H. rewrite A in H.
  destruct (Rlt_bool_spec (Rabs (round radix2 fexp (round_mode mode_NE) (Rabs (real x) + real cst))) (bpow radix2 1024)) as [W|W].
  - destruct H as (H1 & H2 & _). change (Bplus mode_NE (double_abs x) cst) with (double_up x) in *.
    rewrite (Bleb_correct _ _ _ _ Lm2 H2). fold (real (double_of (2 ^ 63 - 1))) (real (double_up x)).
    fold (real (double_up x)) in H1. rewrite Lm1, H1. apply Rle_bool_true.
    assert (G : fmt (Rabs (real x))) by (apply generic_format_abs, real_fmt).
    eapply Rle_trans; [exact L|]. rewrite <- (RN_id _ G) at 1. apply RN_le. lra.
  - destruct H as [H1 H2]. change (Bplus mode_NE (double_abs x) cst) with (double_up x) in *.
    assert (Sx : Bsign (double_abs x) = false).
    { rewrite H2. vm_compute. reflexivity. }
    rewrite Sx in H1. cbn in H1. unfold Bleb. rewrite H1.
    vm_compute. reflexivity.
Qed.
Lemma double_inf x nl fl : (is_finite x = true /\ IZR (2 ^ 63) <= Rabs (real x)) \/ (exists s, x = B754_infinity s) ->
  exists l, double_ops x nl fl = Ok l /\
    concat (map wop_text l) = minus_if (Bltb x (double_of 0)) ++ [105; 110; 102]%N ++ newline nl.
Proof.
  intros H.
  assert (E : Bleb (double_of (2 ^ 63 - 1)) (double_up x) = true).
  { destruct H as [[F L]|[s ->]]; [now apply ge_huge|]. destruct s; vm_compute; reflexivity. }
  unfold double_ops. rewrite E. eexists. split; [reflexivity|].
  rewrite map_app, concat_app. f_equal; [destruct (Bltb x (double_of 0)); reflexivity|].
  cbn [map concat wop_text]. now rewrite app_nil_r.
Qed.
Lemma double_nan nl fl : double_ops B754_nan nl fl = Undef FloatRange.
Proof. vm_compute. reflexivity. Qed.

(** How close the printed number is. *)
Lemma double_close x v : is_finite x = true -> Rabs (real x) < IZR (2 ^ 63) ->
  real (double_up x) * 1000000 - 1 - / IZR (2 ^ 33) < v * 1000000 <= real (double_up x) * 1000000 + / IZR (2 ^ 33) ->
  Rabs (v - Rabs (real x)) * 1000000 <= 1 + / IZR (2 ^ 30) /\
  (Rabs (real x) <= IZR (2 ^ 20) -> Rabs (v - Rabs (real x)) * 1000000 <= / 2 + / IZR (2 ^ 10)).
Proof.
  intros F L [V1 V2].
  assert (L2 : Rabs (real x) <= bpow radix2 1000).
  { apply Rle_trans with (bpow radix2 63); [|apply bpow_le; lia]. rewrite <- IZR_Zpower by lia.
    change (radix2 ^ 63)%Z with (2 ^ 63)%Z. lra. }
  destruct (up_between x F L2) as [U1 U2]. destruct cst_bounds as (C1 & C2 & C3 & C4).
  pose proof (Rabs_pos (real x)) as A0.
  assert (T : forall y, Rabs y * 1000000 = Rabs (y * 1000000)) by (intros y; rewrite Rabs_mult, (Rabs_pos_eq 1000000); lra). rewrite T.
  change (2 ^ 40)%Z with 1099511627776%Z in *. change (2 ^ 33)%Z with 8589934592%Z in *. change (2 ^ 30)%Z with 1073741824%Z in *.
  change (2 ^ 10)%Z with 1024%Z in *. split.
  - apply Rabs_le. lra.
  - intros Sm. rewrite (proj1 (up_real x F L2)) in *.
    assert (Er : Rabs (RN (Rabs (real x) + real cst) - (Rabs (real x) + real cst)) <= bpow radix2 (21 - 53)).
    { apply RN_err; [lia|]. change (bpow radix2 21) with 2097152. change (2 ^ 20)%Z with 1048576%Z in Sm. lra. }
    change (bpow radix2 (21 - 53)) with (/ 4294967296) in Er. apply Rabs_le_inv in Er. apply Rabs_le. lra.
Qed.

(** No append has a minimal width. *)
Lemma double_small x nl fl l : double_ops x nl fl = Ok l -> Forall wop_small l.
Proof.
  unfold double_ops. intros H.
  assert (S1 : Forall wop_small (if Bltb x (double_of 0) then [WApp [45%N] false false] else []))
    by (destruct (Bltb x (double_of 0)); repeat constructor).
  destruct (Bleb (double_of (2 ^ 63 - 1)) (double_up x)).
  - injection H as <-. apply Forall_app. split; [exact S1|repeat constructor].
  - destruct (to_uint64 (double_up x)) as [i| | |]; try discriminate H. cbn [bind] in H.
    destruct (to_uint64 _) as [f| | |]; try discriminate H. cbn [bind] in H.
    destruct (uint64_text i) as [a| | |]; try discriminate H. cbn [bind] in H.
    destruct (uint64_text f) as [b| | |]; try discriminate H. cbn [bind] in H.
    injection H as <-. apply Forall_app. split; [exact S1|repeat constructor].
Qed.
