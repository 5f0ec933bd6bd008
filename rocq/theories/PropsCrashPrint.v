(** * Printing and searching a DOM after an abandoned edit (C102). *)
From Coq Require Import String List NArith Arith Bool Lia.
From Verif Require Import Base TrieModel DomModel ParserModel EditModel ReadModel DomSpec ApiSpec CrashSpec CrashModel
  CompareSpec LogModel PrintModel PrintSpec QueryModel Walk CrashAgree CrashThms CrashPrint Examples PropsCrash.
Import ListNotations.
Local Open Scope nat_scope.

(** ** C102: whatever editing call was abandoned at whatever point, printing the
    DOM that is left terminates, reads nothing outside the tables, and gives the
    one text that the tree reached from its root stands for. *)
Theorem C102_print_after_abandon : forall d bl o d',
  reachable d -> valid d bl o -> left_with bl o d d' ->
  exists ps, print_dom d' = Ok ps /\ prints d' 1 (concat ps) /\ forall s, prints d' 1 s -> s = concat ps.
Proof. exact abandoned_prints. Qed.
Print Assumptions C102_print_after_abandon.
(** After the calls that C79 lists as all-or-nothing, it is the old text. *)
Theorem C102_same_print : forall d bl o d' ps,
  reachable d -> valid d bl o -> left_with bl o d d' -> one_step o ->
  print_dom d = Ok ps -> exists ps', print_dom d' = Ok ps' /\ concat ps' = concat ps.
Proof. exact one_step_prints. Qed.
Print Assumptions C102_same_print.

(** Queries see more than printing: a node the abandoned call had made is found,
    although it is in no child list and has no parent. *)
Definition ex_p : dom := Eval vm_compute in the_dom "<p></p>".
Lemma ex_p_reachable : reachable ex_p.
Proof. apply (reach_create (B "<p></p>")). vm_compute. reflexivity. Qed.
Definition lost_elem : docnode := mkDoc (B "p") true [] [].
Theorem C102_query_refuted :
  exists d o d' x, reachable d /\ valid d [] o /\ left_with [] o d d' /\
    (forall lo, exists l, query_selector_all lo (B "p") d' = Ok (QSuccess, l) /\ In x l) /\
    get_parent x d' = 0 /\ x <> 1 /\ (forall w, preorder d' 1 w -> ~ In x w).
Proof.
  set (o := AppendDoc 2 lost_elem).
  set (d' := nth 1 (fst (c_run [] o ex_p)) ex_p).
  exists ex_p, o, d', 3.
  split; [exact ex_p_reachable|]. split; [unfold valid, node_id; simpl; lia|].
  split; [apply nth_In; vm_compute; lia|].
  split; [intros lo; eexists; split; [vm_compute; reflexivity|simpl; auto]|].
  split; [vm_compute; reflexivity|]. split; [discriminate|].
  intros w P. assert (Q : preorder d' 1 [1; 2]).
  { eapply pre_conv; [pre_go|reflexivity]. }
  rewrite (preorder_fun d' 1 w [1; 2] P Q). simpl. intuition discriminate.
Qed.
Print Assumptions C102_query_refuted.

(** ** Cases that meet the hypotheses *)
(** One state of a prepend to node 5, whose children are cut off: the printed form. *)
Example C102_ex : reachable ex1 /\ valid ex1 [] (PrependDoc 5 lost_elem) /\
  exists d', left_with [] (PrependDoc 5 lost_elem) ex1 d' /\ children ex1 5 [6; 7; 9] /\
    option_map (@concat N) (match print_dom d' with Ok ps => Some ps | _ => None end) =
      Some (B "<!DOCTYPE html><html><body hidden class=""a b""><p id=""x""><p></p></p><br/>tail</body></html>").
Proof.
  split; [exact ex1_reachable|]. split; [unfold valid, node_id; simpl; lia|].
  eexists. split; [apply (nth_state [] (PrependDoc 5 lost_elem) ex1 1); vm_compute; reflexivity|].
  split; [kids|]. vm_compute. reflexivity.
Qed.
Example C102_same_ex : reachable ex1 /\ valid ex1 [] (AddProp 4 (B "k9") (B "v9")) /\ one_step (AddProp 4 (B "k9") (B "v9")) /\
  exists d' ps, left_with [] (AddProp 4 (B "k9") (B "v9")) ex1 d' /\ d' <> ex1 /\ print_dom ex1 = Ok ps.
Proof.
  split; [exact ex1_reachable|]. split; [unfold valid, node_id; simpl; lia|]. split; [exact I|].
  eexists _, _. split; [apply (nth_state [] _ ex1 3); vm_compute; reflexivity|].
  split; [intros E; apply (f_equal (fun d => length (key_reg d))) in E; vm_compute in E; discriminate|vm_compute; reflexivity].
Qed.
