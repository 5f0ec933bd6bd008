(** * Output (C54, C55, C65). *)
From Coq Require Import List NArith ZArith Arith Bool Lia.
From Verif Require Import Base Lemmas LogModel LogSpec LogProofs.
Import ListNotations.
Local Open Scope nat_scope.

(** C54: for any buffer, any calls and any kernel that does not report an error: if
    the calls return, what the file received followed by what is in the buffer is
    exactly the concatenation; the buffer never holds more than its capacity. *)
Theorem C54_output_exact : forall k fuel ops w, never_fails k -> Forall wop_small ops ->
  length (w_buf w) <= w_cap w -> 0 < w_cap w ->
  wruns fuel k ops w = NoFuel \/
  exists w', wruns fuel k ops w = Ok w' /\ length (w_buf w') <= w_cap w' /\
    w_out w' ++ w_buf w' = w_out w ++ w_buf w ++ concat (map wop_text ops).
Proof.
  intros k fuel ops w N S L C. destruct (wruns_exact k fuel N ops w S L C) as [H|(w' & H & _ & H2 & H3)]; [now left|].
  right. eauto.
Qed.
Print Assumptions C54_output_exact.

(** ... and they do return if every [write] accepts at least one byte. *)
Theorem C54_output_returns : forall k ops w, progresses k -> Forall wop_small ops ->
  length (w_buf w) <= w_cap w -> 0 < w_cap w ->
  exists fuel, forall fuel', fuel <= fuel' -> exists w', wruns fuel' k ops w = Ok w'.
Proof.
  intros k ops w P S L C. exists (w_cap w + list_sum (map wop_len ops) + 2). intros fuel' F.
  destruct (wruns_exact k fuel' (progresses_never k P) ops w S L C) as [H|(w' & H & _)]; [|eauto].
  exfalso. apply (wruns_ends k P ops w S L C fuel'); [lia|exact H].
Qed.
Print Assumptions C54_output_returns.

(** After a call that flushes, everything has reached the file. *)
Theorem C54_flush_empties : forall k fuel ops o w w', never_fails k -> Forall wop_small (ops ++ [o]) ->
  length (w_buf w) <= w_cap w -> 0 < w_cap w -> wop_flushes o ->
  wruns fuel k (ops ++ [o]) w = Ok w' ->
  w_buf w' = [] /\ w_out w' = w_out w ++ w_buf w ++ concat (map wop_text (ops ++ [o])).
Proof.
  intros k fuel ops o w w' N S L C Fl E.
  assert (B : w_buf w' = []).
  { revert w L C E S. induction ops as [|a ops IH]; intros w L C E S; cbn [app wruns] in *.
    - destruct (wrun_exact k fuel o w N (Forall_inv S) L C) as [_ H].
      destruct (wrun fuel k o w); cbn [bind wruns] in E; try discriminate. injection E as ->. now apply H.
    - destruct (wrun_exact k fuel a w N (Forall_inv S) L C) as [[H|(w1 & H & H1 & H2 & _)] _]; rewrite H in E; cbn [bind] in E; [discriminate|].
      apply (IH w1); auto; [lia|apply (Forall_inv_tail S)]. }
  split; [exact B|]. destruct (wruns_exact k fuel N (ops ++ [o]) w S L C) as [H|(w1 & H & _ & _ & H3)]; rewrite H in E; [discriminate|].
  injection E as ->. now rewrite B, app_nil_r in H3.
Qed.
Print Assumptions C54_flush_empties.

(** A buffer of 4 bytes, a kernel that takes one byte at a time. *)
Example C54_ex : progresses (fun _ => Some 1) /\
  wruns 30 (fun _ => Some 1) [WApp [1; 2; 3; 4; 5; 6]%N true false; WMin [7]%N 3 false true] (mkW 4 [] [] 0) =
  Ok (mkW 4 [] [1; 2; 3; 4; 5; 6; 10; 7; 32; 32]%N 10).
Proof. split; [intros i; exists 1; split; [reflexivity|lia]|reflexivity]. Qed.

(** If [write] always fails, an append that does not fit never returns. *)
Theorem C54_failing_write_loops : forall k fuel data nl fl w, (forall i, k i = None) ->
  0 < w_cap w -> length (w_buf w) <= w_cap w -> w_cap w < length (w_buf w) + length data ->
  append fuel k data nl fl w = NoFuel.
Proof. intros k fuel data nl fl w K C L H. unfold append. now rewrite append_diverges. Qed.
Print Assumptions C54_failing_write_loops.

(** C65 (false): an error of [write] only loses output.  In fact a flush that fails
    after a part was accepted keeps the whole buffer, so that part is written twice... *)
Theorem C65_failed_write_repeats_refuted : exists k w w',
  wruns 20 k [WApp [1; 2; 3]%N false true; WApp [4]%N false true] w = Ok w' /\
  w_out w = [] /\ w_buf w = [] /\ w_out w' = [1; 2; 1; 2; 3; 4]%N.
Proof.
  exists (fun i => match i with 0 => Some 2 | 1 => None | _ => Some 9 end), (mkW 8 [] [] 0).
  eexists. split; [reflexivity|]. auto.
Qed.
Print Assumptions C65_failed_write_repeats_refuted.

(** ... and a newline for a full buffer that cannot be flushed is stored behind its end. *)
Theorem C65_newline_overflow_refuted : forall k fuel fl w, k (w_calls w) = None -> 0 < fuel ->
  0 < w_cap w -> length (w_buf w) = w_cap w -> append fuel k [] true fl w = Undef OobWrite.
Proof.
  intros k fuel fl w K F C L. unfold append. destruct fuel as [|f]; [lia|]. cbn [append_loop bind]. unfold finish.
  rewrite L, Nat.leb_refl, flush_fail; [|exact K|destruct (w_buf w); [cbn in L; lia|discriminate]|lia].
  cbn [bind w_cap w_buf w_out w_calls]. now rewrite L, Nat.ltb_irrefl.
Qed.
Print Assumptions C65_newline_overflow_refuted.
Example C65_ex : let w := mkW 2 [1; 2]%N [] 5 in
  (fun _ : nat => @None nat) (w_calls w) = None /\ 0 < w_cap w /\ length (w_buf w) = w_cap w.
Proof. cbn. repeat split. lia. Qed.

(** C55: numbers are written in decimal, and the 64 bytes of scratch space suffice. *)
Theorem C55_uint64 : forall n, (n < 2 ^ 64)%N -> exists s, uint64_text n = Ok s /\ decimal s n.
Proof. exact uint64_ok. Qed.
Print Assumptions C55_uint64.
Theorem C55_ptrdiff : forall z, (- 2 ^ 63 <= z < 2 ^ 63)%Z ->
  exists s, ptrdiff_text z = Ok ((if (z <? 0)%Z then [45%N] else []) ++ s) /\ decimal s (Z.to_N (Z.abs z)).
Proof. exact ptrdiff_text_ok. Qed.
Print Assumptions C55_ptrdiff.
(** The fractional part of a double always has six digits. *)
Theorem C55_fraction : forall a b, (a < 2 ^ 64)%N -> (b < 10 ^ 6)%N ->
  exists s t, fixed_text a b = Ok (s ++ [46%N] ++ t) /\ decimal s a /\
    length t = 6 /\ Forall digit t /\ value t = b.
Proof. exact fixed_ok. Qed.
Print Assumptions C55_fraction.
(** Decimal representations are unique, so these say exactly which bytes are written. *)
(** A C string is written up to its first NUL; without one the read leaves it. *)
Theorem C55_cstr : forall s rest, ~ In 0%N s -> cstr_text (s ++ 0%N :: rest) = Ok s.
Proof.
  induction s as [|c s IH]; intros rest H; cbn [cstr_text app]; [reflexivity|].
  destruct (N.eqb_spec c 0) as [->|_]; [exfalso; apply H; now left|].
  rewrite IH by (intros X; apply H; now right). reflexivity.
Qed.
Print Assumptions C55_cstr.
Theorem C55_cstr_unterminated : forall s, ~ In 0%N s -> cstr_text s = Undef OobRead.
Proof.
  induction s as [|c s IH]; intros H; cbn [cstr_text]; [reflexivity|].
  destruct (N.eqb_spec c 0) as [->|_]; [exfalso; apply H; now left|].
  now rewrite IH by (intros X; apply H; now right).
Qed.
Print Assumptions C55_cstr_unterminated.
(** Colours: nothing unless the file is a terminal, else the escape sequence
    ESC [ 3x m (ESC [ 0 m for the reset). *)
Theorem C55_colours : forall tty c, wop_text (color_op tty c) =
  if tty then [27; 91]%N ++ (match c with
      | Red => [51; 49] | Green => [51; 50] | Yellow => [51; 51] | Blue => [51; 52] | Magenta => [51; 53] | Cyan => [51; 54]
      | ColorReset => [48] end)%N ++ [109]%N
  else [].
Proof. intros [] []; reflexivity. Qed.
Print Assumptions C55_colours.
Theorem C55_decimal_unique : forall s t n, decimal s n -> decimal t n -> s = t.
Proof.
  assert (G : forall s t, Forall digit s -> Forall digit t -> length s = length t -> value s = value t -> s = t).
  { induction s as [|c s IH] using rev_ind; intros t Fs Ft L V.
    - destruct t; [reflexivity|discriminate].
    - destruct t as [|b t _] using rev_ind; [rewrite app_length in L; cbn in L; lia|].
      rewrite !app_length in L. cbn in L. rewrite !value_snoc in V.
      apply Forall_app in Fs. apply Forall_app in Ft. destruct Fs as [F1 F2], Ft as [F3 F4].
      apply Forall_inv in F2. apply Forall_inv in F4. unfold digit, byte in *.
      assert (W : forall x y p q : N, (10 * x + (p - 48) = 10 * y + (q - 48) -> 48 <= p <= 57 -> 48 <= q <= 57 -> x = y /\ p = q)%N) by (clear; intros; lia).
      destruct (W _ _ _ _ V F2 F4) as [E ->]. f_equal. apply IH; auto.
      exact (proj1 (Nat.add_cancel_r _ _ 1) L). }
  assert (Len : forall s t n, decimal s n -> decimal t n -> length s <= length t).
  { intros s t n Hs (A & B & C & D). apply (decimal_length s n (length t) Hs).
    - rewrite <- C. now apply value_lt.
    - destruct t; [congruence|cbn; lia]. }
  intros s t n Hs Ht. pose proof (Len s t n Hs Ht). pose proof (Len t s n Ht Hs).
  destruct Hs as (_ & F1 & V1 & _), Ht as (_ & F2 & V2 & _). apply G; auto; [now apply Nat.le_antisymm|congruence].
Qed.
Print Assumptions C55_decimal_unique.
Example C55_ex : ptrdiff_text (- 2 ^ 63) = Ok [45; 57; 50; 50; 51; 51; 55; 50; 48; 51; 54; 56; 53; 52; 55; 55; 53; 56; 48; 56]%N /\
  uint64_text (2 ^ 64 - 1) = Ok [49; 56; 52; 52; 54; 55; 52; 52; 48; 55; 51; 55; 48; 57; 53; 53; 49; 54; 49; 53]%N /\
  fixed_text 3 141 = Ok [51; 46; 48; 48; 48; 49; 52; 49]%N /\ cstr_text [72; 105; 0; 7]%N = Ok [72; 105]%N.
Proof. repeat split; vm_compute; reflexivity. Qed.

(** C55 is false for pointers: the last of the 16 digits is never written. *)
Theorem C55_pointer_refuted : forall u, length (ptr_text u) = 2 + 15 /\
  forall u', N.div u 16 = N.div u' 16 -> ptr_text u = ptr_text u'.
Proof. exact ptr_short. Qed.
Print Assumptions C55_pointer_refuted.
(** What is written: 0x and the first 15 of the 16 digits, in lower case. *)
Theorem C55_pointer_digits : forall u, (u < 2 ^ 64)%N ->
  exists ds, ptr_text u = [48; 120]%N ++ ds /\ length ds = 15 /\ hex_number ds = Some (u / 16)%N.
Proof.
  intros u H. destruct (ptr_digits u) as (ds & E & L & V). exists ds. split; [exact E|]. split; [exact L|].
  rewrite V. f_equal. apply N.mod_small. apply N.div_lt_upper_bound; [discriminate|]. replace (16 * 16 ^ 15)%N with (2 ^ 64)%N by (vm_compute; reflexivity). exact H.
Qed.
Print Assumptions C55_pointer_digits.
Example C55_pointer_ex : ptr_text 140737488355327 = [48; 120; 48; 48; 48; 48; 55; 102; 102; 102; 102; 102; 102; 102; 102; 102; 102]%N.
Proof. vm_compute. reflexivity. Qed.
(** C55 is false for negative [int] and [short] values: 2^64 is added. *)
Theorem C55_negative_int_refuted : forall z, (- 2 ^ 31 <= z < 0)%Z ->
  exists s, int_text z = Ok s /\ decimal s (Z.to_N (2 ^ 64 + z)).
Proof.
  intros z H. unfold int_text. replace (z mod 2 ^ 64)%Z with (2 ^ 64 + z)%Z.
  - apply uint64_ok. apply N2Z.inj_lt. rewrite Z2N.id by lia. change (Z.of_N (2 ^ 64)) with (2 ^ 64)%Z. lia.
  - rewrite <- (Z.mod_add z 1 (2 ^ 64)) by discriminate. rewrite Z.mod_small; lia.
Qed.
Print Assumptions C55_negative_int_refuted.
