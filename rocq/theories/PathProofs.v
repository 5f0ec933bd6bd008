(** * Proofs about [flo_createPath] and the 16-bit counters. *)
From Coq Require Import List NArith Arith Bool Lia.
From Verif Require Import Base Lemmas PathModel CounterModel.
Import ListNotations.
Local Open Scope nat_scope.

Lemma first_from_spec s ch : forall fuel i, length s <= fuel + i ->
  match first_from fuel s ch i with
  | Some j => i <= j < length s /\ nth_error s j = Some ch /\ forall k, i <= k < j -> nth_error s k <> Some ch
  | None => forall k, i <= k -> nth_error s k <> Some ch
  end.
Proof.
  induction fuel as [|f IH]; intros i L; cbn [first_from].
  - intros k Hk E. assert (nth_error s k <> None) by congruence. apply nth_error_Some in H. lia.
  - destruct (nth_error s i) as [c|] eqn:E.
    + assert (Li : i < length s) by (apply nth_error_Some; congruence).
      destruct (N.eqb_spec c ch) as [->|Ne].
      * split; [lia|]. split; [exact E|]. intros k Hk. lia.
      * specialize (IH (S i) ltac:(lia)). destruct (first_from f s ch (S i)) as [j|].
        -- destruct IH as (A & B & C). split; [lia|]. split; [exact B|]. intros k Hk.
           destruct (Nat.eq_dec k i) as [->|]; [congruence|]. apply C. lia.
        -- intros k Hk. destruct (Nat.eq_dec k i) as [->|]; [congruence|]. apply IH. lia.
    + intros k Hk E'. apply nth_error_None in E. assert (nth_error s k <> None) by congruence.
      apply nth_error_Some in H. lia.
Qed.

Lemma first_from_fuel s ch f g i : length s <= f + i -> length s <= g + i -> first_from f s ch i = first_from g s ch i.
Proof.
  intros F G. pose proof (first_from_spec s ch f i F) as A. pose proof (first_from_spec s ch g i G) as B.
  destruct (first_from f s ch i) as [j|], (first_from g s ch i) as [j'|].
  - f_equal. destruct A as (A1 & A2 & A3), B as (B1 & B2 & B3). destruct (Nat.lt_trichotomy j j') as [L|[L|L]]; [|exact L|].
    + exfalso. apply (B3 j); [lia|exact A2].
    + exfalso. apply (A3 j'); [lia|exact B2].
  - exfalso. destruct A as (A1 & A2 & _). apply (B j); [lia|exact A2].
  - exfalso. destruct B as (A1 & A2 & _). apply (A j'); [lia|exact A2].
  - reflexivity.
Qed.

Definition is_slash (path : bytes) (i : nat) : bool :=
  match nth_error path i with Some c => N.eqb c c_slash | None => false end.
Lemma is_slash_spec path i : is_slash path i = true <-> nth_error path i = Some c_slash.
Proof.
  unfold is_slash. destruct (nth_error path i) as [c|]; [|split; discriminate].
  rewrite N.eqb_eq. split; [intros ->; reflexivity|intros [= ->]; reflexivity].
Qed.
Lemma filter_none {A} (f : A -> bool) l : (forall x, In x l -> f x = false) -> filter f l = [].
Proof. induction l as [|x l IH]; intros H; [reflexivity|]. cbn. rewrite (H x (or_introl eq_refl)). apply IH. intros y Hy. apply H. now right. Qed.

Lemma path_loop_ok path : forall fuel from, 0 < from -> length path - from < fuel ->
  path_loop fuel path (first_occurrence_from path c_slash from) =
  Ok (map (fun i => until_nul (firstn i path)) (filter (is_slash path) (seq from (length path - from)))).
Proof.
  induction fuel as [|f IH]; intros from P L.
  - lia.
  - cbn [path_loop]. unfold first_occurrence_from at 1.
    pose proof (first_from_spec path c_slash (length path) from ltac:(lia)) as S.
    destruct (first_from (length path) path c_slash from) as [j|].
    + destruct S as (R & E & N). destruct j as [|j]; [lia|].
      replace (length path - from) with ((S j - from) + S (length path - S (S j))) by lia.
      rewrite seq_app, filter_app. rewrite (filter_none _ (seq from (S j - from))).
      2:{ intros x Hx. apply in_seq in Hx. destruct (is_slash path x) eqn:X; [|reflexivity].
          apply is_slash_spec in X. exfalso. apply (N x); [lia|exact X]. }
      cbn [app seq]. replace (from + (S j - from)) with (S j) by lia. cbn [filter].
      rewrite (proj2 (is_slash_spec path (S j)) E). cbn [map]. rewrite IH by lia. reflexivity.
    + rewrite filter_none; [reflexivity|]. intros x Hx. apply in_seq in Hx. destruct (is_slash path x) eqn:X; [|reflexivity].
      apply is_slash_spec in X. exfalso. apply (S x); [lia|exact X].
Qed.

Lemma until_nul_id s : ~ In 0%N s -> until_nul s = s.
Proof.
  induction s as [|c s IH]; intros H; [reflexivity|]. cbn [until_nul]. destruct (N.eqb_spec c 0) as [->|_].
  - exfalso. apply H. now left.
  - f_equal. apply IH. intros I. apply H. now right.
Qed.

Lemma create_path_rel path : hd_error path <> Some c_slash -> ~ In 0%N path ->
  create_path path = Ok (map (fun i => firstn i path) (filter (is_slash path) (seq 0 (length path)))).
Proof.
  intros H Z. destruct path as [|c path]; [reflexivity|].
  assert (F0 : first_occurrence_from (c :: path) c_slash 0 = first_occurrence_from (c :: path) c_slash 1).
  { unfold first_occurrence_from. change (first_from (length (c :: path)) (c :: path) c_slash 0) with (if N.eqb c c_slash then Some 0 else first_from (length path) (c :: path) c_slash 1). cbn [hd_error] in H.
    destruct (N.eqb_spec c c_slash) as [->|_]; [congruence|].
    apply (first_from_fuel (c :: path) c_slash (length path) (S (length path)) 1);
      [rewrite Nat.add_1_r; apply le_n|apply Nat.le_add_r]. }
  unfold create_path. rewrite F0, path_loop_ok by (cbn [length]; lia).
  cbn [length]. rewrite Nat.sub_succ, Nat.sub_0_r. cbn [seq filter].
  assert (X : is_slash (c :: path) 0 = false).
  { destruct (is_slash (c :: path) 0) eqn:Y; [|reflexivity]. apply is_slash_spec in Y. cbn in *. congruence. }
  rewrite X. f_equal. apply map_ext_in. intros i _. apply until_nul_id. intros I. apply Z.
  rewrite <- (firstn_skipn i (c :: path)). apply in_or_app. now left.
Qed.
Lemma create_path_abs path : hd_error path = Some c_slash -> create_path path = Ok [].
Proof. destruct path as [|c path]; [discriminate|]. intros [= ->]. reflexivity. Qed.

(** ** Counters *)
Lemma search16_ok {A} (p : A -> bool) l : (N.of_nat (length l) <= 65535)%N ->
  forall r fuel i, skipn i l = r -> i <= length l -> length r < fuel ->
  search16 fuel p l (N.of_nat i) = Ok (match find_idx p r with Some j => Some (i + j) | None => None end).
Proof.
  intros Ll. induction r as [|x r IH]; intros fuel i E Li F; (destruct fuel as [|f]; [cbn in F; lia|]); cbn [search16].
  - assert (length (skipn i l) = 0) by now rewrite E. rewrite skipn_length in H.
    destruct (N.ltb_spec (N.of_nat i) (N.of_nat (length l))); [lia|reflexivity].
  - assert (length (skipn i l) = S (length r)) by now rewrite E. rewrite skipn_length in H.
    destruct (N.ltb_spec (N.of_nat i) (N.of_nat (length l))); [|lia].
    rewrite Nat2N.id.
    assert (Nx : nth_error l i = Some x).
    { rewrite <- (firstn_skipn i l), nth_error_app2; rewrite firstn_length_le by lia; [|lia].
      rewrite E, Nat.sub_diag. reflexivity. }
    rewrite Nx. cbn [find_idx]. destruct (p x); [f_equal; f_equal; lia|].
    assert (M : N.modulo (N.of_nat i + 1) 65536 = N.of_nat (S i)).
    { rewrite N.mod_small by lia. lia. }
    rewrite M, (IH f (S i)).
    + f_equal. destruct (find_idx p r); [f_equal; lia|reflexivity].
    + change (skipn (S i) l) with (skipn (1 + i) l).
      clear - E. revert i E. induction l as [|y l IHl]; intros [|i] E; try discriminate; cbn in *.
      * injection E as -> ->. reflexivity.
      * apply IHl. exact E.
    + lia.
    + cbn [length] in F. lia.
Qed.
Lemma search16_diverges {A} (p : A -> bool) l : (65536 <= N.of_nat (length l))%N ->
  (forall i x, (N.of_nat i < 65536)%N -> nth_error l i = Some x -> p x = false) ->
  forall fuel i, (i < 65536)%N -> search16 fuel p l i = NoFuel.
Proof.
  intros L H. induction fuel as [|f IH]; intros i Hi; [reflexivity|]. cbn [search16].
  destruct (N.ltb_spec i (N.of_nat (length l))); [|lia].
  destruct (nth_error l (N.to_nat i)) as [x|] eqn:E.
  - rewrite (H (N.to_nat i) x) by (rewrite ?N2Nat.id; auto). apply IH. apply N.mod_lt. discriminate.
  - apply nth_error_None in E. lia.
Qed.
