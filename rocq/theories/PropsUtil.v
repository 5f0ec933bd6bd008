(** * Paths (C56) and 16-bit counters (C38). *)
From Coq Require Import String List NArith Arith Bool Lia.
From Verif Require Import Base Lemmas TrieModel DomModel ParserModel DomSpec ApiSpec Grow Links PathModel CounterModel PathProofs Examples.
Import ListNotations.
Local Open Scope nat_scope.

(** C38: in every DOM that valid calls can produce, the loops with 16-bit counters end
    and find what an unbounded search finds. *)
Theorem C38_counters_suffice : forall d, reachable d -> forall c fuel, length (nodes d) <= fuel ->
  first_idx16 fuel c d = Ok (find_idx (fun e => fst e =? c) (firsts d)) /\
  next_idx16 fuel c d = Ok (find_idx (fun e => fst e =? c) (nexts d)) /\
  prev_idx16 fuel c d = Ok (find_idx (fun e => snd e =? c) (nexts d)).
Proof.
  intros d R c fuel F. pose proof (reachable_slack d R) as S. destruct (reachable_small d R) as [Sm _].
  unfold slack, links in S.
  assert (G : forall p (l : list (nat * nat)), length l + 2 <= length (nodes d) -> search16 fuel p l 0 = Ok (find_idx p l)).
  { intros p l Ll. change 0%N with (N.of_nat 0). rewrite (search16_ok p l ltac:(lia) l fuel 0 eq_refl ltac:(lia) ltac:(lia)). destruct (find_idx p l); reflexivity. }
  unfold first_idx16, next_idx16, prev_idx16. rewrite !G by lia. auto.
Qed.
Print Assumptions C38_counters_suffice.
Example C38_ex : reachable ex1 /\ length (nodes ex1) <= 12 /\ next_idx16 12 5 ex1 = Ok (find_idx (fun e => fst e =? 5) (nexts ex1)) /\
  find_idx (fun e => fst e =? 5) (nexts ex1) <> None.
Proof. split; [exact ex1_reachable|]. vm_compute. repeat split; try discriminate. auto 20. Qed.
(** The reason: such a table never has more entries than there are nodes. *)
Theorem C38_tables_small : forall d, reachable d ->
  length (firsts d) + length (nexts d) + 2 <= length (nodes d) /\ (N.of_nat (length (nodes d)) <= 65535)%N.
Proof.
  intros d R. pose proof (reachable_slack d R) as S. destruct (reachable_small d R) as [Sm _]. split; [exact S|exact Sm].
Qed.
Print Assumptions C38_tables_small.
(** In a table of 65536 entries or more the loop would never end unless it finds
    something. *)
Theorem C38_larger_tables_diverge : forall (p : nat * nat -> bool) l, (65536 <= N.of_nat (length l))%N ->
  (forall i x, (N.of_nat i < 65536)%N -> nth_error l i = Some x -> p x = false) ->
  forall fuel, search16 fuel p l 0 = NoFuel.
Proof. intros p l L H fuel. apply search16_diverges; auto. reflexivity. Qed.
Print Assumptions C38_larger_tables_diverge.
Example C38_ex2 : exists l : list (nat * nat), (65536 <= N.of_nat (length l))%N /\
  forall i x, (N.of_nat i < 65536)%N -> nth_error l i = Some x -> (fst x =? 1) = false.
Proof.
  exists (repeat (0, 0) (N.to_nat 65536)). split; [rewrite repeat_length; lia|].
  intros i x _ H. apply nth_error_In, repeat_spec in H. now subst.
Qed.

(** C56: a relative path: one [mkdir] for the part before each slash, from left to right. *)
Theorem C56_relative : forall path, hd_error path <> Some c_slash -> ~ In 0%N path ->
  create_path path =
  Ok (map (fun i => firstn i path)
       (filter (fun i => match nth_error path i with Some c => N.eqb c c_slash | None => false end)
          (seq 0 (length path)))).
Proof. exact create_path_rel. Qed.
Print Assumptions C56_relative.
Example C56_ex : hd_error (B "a/b//c") <> Some c_slash /\ ~ In 0%N (B "a/b//c") /\
  create_path (B "a/b//c") = Ok [B "a"; B "a/b"; B "a/b/"].
Proof. vm_compute. split; [discriminate|]. split; [|reflexivity]. intuition discriminate. Qed.
(** C56 is false for absolute paths: nothing is created. *)
Theorem C56_absolute_refuted : forall path, hd_error path = Some c_slash -> create_path path = Ok [].
Proof. exact create_path_abs. Qed.
Print Assumptions C56_absolute_refuted.
Example C56_ex2 : hd_error (B "/tmp/a/b") = Some c_slash.
Proof. reflexivity. Qed.
