(** * Printing (C52). *)
From Coq Require Import String List NArith Arith Bool Lia.
From Verif Require Import Base TrieModel DomModel ParserModel EditModel ReadModel DomSpec ApiSpec
  CompareSpec LogModel LogSpec LogProofs PrintModel PrintSpec PrintProofs Examples.
Import ListNotations.
Local Open Scope nat_scope.

(** C52: printing a document never goes wrong, and what it hands to the output is
    the printed form of the tree, which is unique. *)
Theorem C52_print : forall d, reachable d ->
  exists ps, print_dom d = Ok ps /\ prints d 1 (concat ps) /\ forall s, prints d 1 s -> s = concat ps.
Proof.
  intros d R. destruct (print_dom_ok d R) as (ps & E & P). exists ps. split; [exact E|]. split; [exact P|].
  intros s H. exact (prints_unique d R 1 s H _ P).
Qed.
Print Assumptions C52_print.

(** C52: [writeHTMLToFile] leaves exactly that in the file, for any kernel that
    accepts at least one byte per [write]. *)
Theorem C52_write_file : forall d k, reachable d -> progresses k ->
  exists s, prints d 1 s /\
    exists fuel, forall fuel', fuel <= fuel' -> exists w, write_html fuel' k d = Ok w /\ w_out w = s /\ w_buf w = [].
Proof.
  intros d k R K. destruct (print_dom_ok d R) as (ps & E & P). exists (concat ps). split; [exact P|].
  set (ops := map (fun s => WApp s false false) ps ++ [WFlush]).
  assert (S : Forall wop_small ops).
  { apply Forall_app. split; [|repeat constructor]. apply Forall_forall. intros o Ho. apply in_map_iff in Ho.
    destruct Ho as (s & <- & _). exact I. }
  assert (C : 0 < file_buffer) by (apply Nat.neq_0_lt_0, Nat.pow_nonzero; discriminate).
  set (w0 := mkW file_buffer [] [] 0).
  exists (file_buffer + list_sum (map wop_len ops) + 2). intros fuel' F.
  unfold write_html. rewrite E. cbn [bind]. fold ops w0.
  pose proof (wruns_ends k K ops w0 S ltac:(cbn [w0 w_buf length]; lia) C fuel' ltac:(cbn [w0 w_cap]; lia)) as T.
  destruct (wruns_exact k fuel' (progresses_never k K) ops w0 S ltac:(cbn [w0 w_buf length]; lia) C) as [H|(w & H & _ & _ & Q)]; [congruence|].
  rewrite H. exists w. split; [reflexivity|].
  assert (B : w_buf w = []).
  { revert H. unfold ops. generalize w0 C. clear - K. induction ps as [|s ps IH]; intros w0 C; cbn [map app wruns].
    - cbn [wrun wruns]. destruct (flush_adds k fuel' w0 (progresses_never k K)) as [_ B]. intros H.
      destruct (let* '(_, w) := flush fuel' k w0 in Ok w) as [w1| | |] eqn:Q; cbn [bind] in H; try discriminate.
      injection H as <-. now apply B.
    - intros H. destruct (wrun fuel' k (WApp s false false) w0) as [w1| | |]; cbn [bind] in H; try discriminate.
      now apply (IH w1). }
  split; [|exact B]. rewrite B, app_nil_r in Q. rewrite Q. cbn [w0 w_out w_buf app]. unfold ops.
  rewrite map_app, concat_app, concat_wapp. cbn. now rewrite !app_nil_r.
Qed.
Print Assumptions C52_write_file.

(** The example document: written through an 8192-byte buffer by a kernel that takes
    five bytes at a time. *)
Definition ex1_printed : bytes :=
  B "<!DOCTYPE html><html><body hidden class=""a b""><p id=""x"">one<b>two</b>three</p><br/>tail</body></html>".
Example C52_ex : reachable ex1 /\ (exists ps, print_dom ex1 = Ok ps /\ concat ps = ex1_printed) /\
  progresses (fun _ => Some 5) /\
  exists c, write_html (file_buffer + 300) (fun _ => Some 5) ex1 = Ok (mkW file_buffer [] ex1_printed c).
Proof.
  split; [exact ex1_reachable|]. split; [eexists; split; vm_compute; reflexivity|].
  split; [intros i; exists 5; split; [reflexivity|lia]|]. eexists. vm_compute. reflexivity.
Qed.
