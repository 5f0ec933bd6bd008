(** * Properties of edits that are abandoned half-way (C76-C80). *)
From Coq Require Import String List NArith Arith Bool Lia.
From Verif Require Import Base TrieModel DomModel ParserModel EditModel ReadModel DomSpec ApiSpec CrashSpec CrashModel
  CrashAgree CrashThms CrashRetry Examples.
Import ListNotations.
Local Open Scope nat_scope.

(** ** C76: the nodes survive.  Whenever an editing call is abandoned, at
    whatever point, no node disappears from the node array, every attribute
    question about an old node has its old answer, and every old node keeps its
    kind, tag, text and attributes.  The exceptions: a call that inserts parsed
    HTML may already have joined text to a text child of the edited node, and
    [setTextContent] may already have marked the nodes below its node removed. *)
Theorem C76_data_kept : forall d bl o d',
  reachable d -> valid d bl o -> left_with bl o d d' ->
  length (nodes d) <= length (nodes d') /\
  forall i, node_id d i -> same_answers d d' i /\
    (same_content d d' i \/
     (html_call o /\ get_parent i d = edited d o /\ more_text d d' i) \/
     (exists n s l c, o = SetText n s /\ children d n l /\ In c l /\ below_eq d c i /\
        kind d' i = Some TRemoved)).
Proof. exact t_data. Qed.
Print Assumptions C76_data_kept.
(** The states are those of the real calls: running to the end is [run]. *)
Theorem C76_completes_as_run : forall bl o d, snd (c_run bl o d) = run bl o d.
Proof. exact c_run_agrees. Qed.
Print Assumptions C76_completes_as_run.

(** ** C77: traversal.  After an abandoned call [traverseDom] still terminates,
    and visits either exactly what it visited when the call had begun, or an
    initial part of what it visits in the completed document. *)
Theorem C77_traversal : forall d bl o d',
  reachable d -> valid d bl o -> left_with bl o d d' ->
  exists u', dom_walk d' 1 u' /\
  ((exists b, begun d o b /\ dom_walk b 1 u') \/
   (exists e u, run bl o d = Ok e /\ dom_walk e 1 u /\ prefix u' u)).
Proof. exact t_walk. Qed.
Print Assumptions C77_traversal.

(** ** C78: child lists.  Only the edited node's child list can differ; it is
    the old one, the completed one, or the completed one cut off behind the new
    nodes. *)
Theorem C78_other_nodes : forall d bl o d',
  reachable d -> valid d bl o -> left_with bl o d d' ->
  forall b, begun d o b -> forall q, node_id d q -> q <> edited d o ->
  forall m, children d' q m <-> children b q m.
Proof. exact t_others. Qed.
Print Assumptions C78_other_nodes.
Theorem C78_edited_node : forall d bl o d',
  reachable d -> valid d bl o -> left_with bl o d d' ->
  forall b l, begun d o b -> node_id d (edited d o) -> children b (edited d o) l ->
  exists m, children d' (edited d o) m /\
   (m = l \/ exists e me, run bl o d = Ok e /\ children e (edited d o) me /\ (m = me \/ cut_off d o l me m)).
Proof. exact t_edited. Qed.
Print Assumptions C78_edited_node.

(** ** C79: all or nothing.  Replacing by one element or text, and adding or
    setting an attribute, change nothing visible unless they complete. *)
Theorem C79_all_or_nothing : forall d bl o d',
  reachable d -> valid d bl o -> left_with bl o d d' -> one_step o ->
  (forall i, node_id d i -> same_content d d' i /\ same_answers d d' i) /\
  (forall q m, node_id d q -> (children d' q m <-> children d q m)) /\
  (forall u, dom_walk d' 1 u <-> dom_walk d 1 u).
Proof. exact t_one_step. Qed.
Print Assumptions C79_all_or_nothing.
(** It is false of the other calls: every prepend to a node with children has a
    point at which abandoning it leaves the new node as only child, ... *)
Theorem C79_prepend_refuted : forall d, reachable d -> forall bl p dn c l e,
  node_id d p -> children d p (c :: l) -> run bl (PrependDoc p dn) d = Ok e ->
  exists d', left_with bl (PrependDoc p dn) d d' /\ children d' p [length (nodes d)].
Proof. exact prepend_loses. Qed.
Print Assumptions C79_prepend_refuted.
(** ... and every [setTextContent] has one at which all children are gone and
    no text is there. *)
Theorem C79_set_text_refuted : forall d, reachable d -> forall bl n s, node_id d n ->
  exists d', left_with bl (SetText n s) d d' /\ children d' n [].
Proof. exact set_text_loses. Qed.
Print Assumptions C79_set_text_refuted.


(** ** C80: the DOM can still be edited after an abandoned edit.  False: the
    value may be in the trie but not in the registry; the same call, made again
    on the DOM that was left, succeeds, but reading the value back then reads
    outside the registry. *)
Theorem C80_edit_after_abandon_refuted :
  exists d n k v d' e, reachable d /\ valid d [] (AddProp n k v) /\ room_for d 1 /\
    left_with [] (AddProp n k v) d d' /\ run [] (AddProp n k v) d' = Ok e /\
    get_value n k e = Undef OobRead.
Proof.
  set (o := AddProp 4 (B "k9") (B "v9")).
  set (d' := nth 3 (fst (c_run [] o ex1)) ex1).
  exists ex1, 4, (B "k9"), (B "v9"), d'.
  destruct (run [] o d') as [e| | |] eqn:E; try (vm_compute in E; discriminate).
  exists e. split; [exact ex1_reachable|]. split; [unfold valid, node_id; simpl; lia|].
  split; [vm_compute; repeat split; discriminate|].
  split; [apply nth_In; vm_compute; lia|]. split; [exact E|].
  vm_compute in E. injection E as <-. vm_compute. reflexivity.
Qed.
Print Assumptions C80_edit_after_abandon_refuted.
(** In fact every [addPropertyToNode] with a value that no attribute ever had, on a
    node without that key, has such a point. *)
Theorem C80_retry_reads_outside : forall d n k v bl e0,
  reachable d -> node_id d n -> has_prop_key n k d = Ok false -> ~ In v (tl (val_reg d)) ->
  run bl (AddProp n k v) d = Ok e0 ->
  exists d' e, left_with bl (AddProp n k v) d d' /\ run bl (AddProp n k v) d' = Ok e /\ get_value n k e = Undef OobRead.
Proof. exact retry_bad. Qed.
Print Assumptions C80_retry_reads_outside.
(** Attribute calls that bring no new string leave the DOM untouched when they are
    abandoned (and so can be made again). *)
Theorem C80_known_strings_untouched : forall d bl o d',
  reachable d -> left_with bl o d d' ->
  match o with
  | AddBool _ b => In b (tl (bool_reg d))
  | AddProp _ k v => In k (tl (key_reg d)) /\ In v (tl (val_reg d))
  | SetProp _ _ v => In v (tl (val_reg d))
  | _ => False
  end -> d' = d.
Proof. exact known_untouched. Qed.
Print Assumptions C80_known_strings_untouched.
Example C80_retry_ex : reachable ex1 /\ node_id ex1 4 /\ has_prop_key 4 (B "k9") ex1 = Ok false /\
  ~ In (B "v9") (tl (val_reg ex1)) /\ exists e0, run [] (AddProp 4 (B "k9") (B "v9")) ex1 = Ok e0.
Proof.
  split; [exact ex1_reachable|]. split; [unfold node_id; simpl; lia|]. split; [vm_compute; reflexivity|].
  split; [|eexists; vm_compute; reflexivity]. vm_compute. intros H. repeat (destruct H as [H|H]; [discriminate|]). exact H.
Qed.
Example C80_known_ex : reachable ex1 /\ In (B "class") (tl (key_reg ex1)) /\ In (B "a b") (tl (val_reg ex1)) /\
  left_with [] (AddProp 5 (B "class") (B "a b")) ex1 ex1.
Proof.
  split; [exact ex1_reachable|]. split; [vm_compute; auto|]. split; [vm_compute; auto|].
  unfold left_with. vm_compute. auto.
Qed.
(** What holds instead: whatever was abandoned, all reading functions of C76 to
    C78 may still be used. *)

(** ** Cases that meet the hypotheses *)
Lemma nth_state bl o d i d' : nth_error (fst (c_run bl o d)) i = Some d' -> left_with bl o d d'.
Proof. unfold left_with. apply nth_error_In. Qed.
Definition crash_elem : docnode := mkDoc (B "i") true [B "b1"] [(B "k9", B "v9")].
(** Node 5 has children 6, 7, 9.  One state of a prepend to it: the walk stops
    at the new node. *)
Example C77_ex : reachable ex1 /\ valid ex1 [] (PrependDoc 5 crash_elem) /\
  exists d', left_with [] (PrependDoc 5 crash_elem) ex1 d' /\
    children ex1 5 [6; 7; 9] /\ children d' 5 [12] /\ dom_walk d' 1 [2; 3; 4; 5; 12].
Proof.
  split; [exact ex1_reachable|]. split; [unfold valid, node_id; simpl; lia|].
  eexists. split; [apply (nth_state _ _ _ 11); vm_compute; reflexivity|]. split; [kids|].
  split; [kids|]. repeat (eapply walk_step; [vm_compute; reflexivity|discriminate|]).
  apply walk_stop. vm_compute. reflexivity.
Qed.
(** An HTML append whose first text has been joined to node 9, and whose next
    node is linked but has no parent yet. *)
Example C76_ex : reachable ex1 /\ valid ex1 [] (AppendHtml 5 (B "four<i>five</i><u></u>")) /\
  exists d', left_with [] (AppendHtml 5 (B "four<i>five</i><u></u>")) ex1 d' /\
    text_of ex1 9 = Some (B "three") /\ text_of d' 9 = Some (B "three four") /\
    children d' 5 [6; 7; 9; 13; 15].
Proof.
  split; [exact ex1_reachable|]. split.
  { split; [unfold node_id; simpl; lia|]. intros d1 E. vm_compute in E. injection E as <-. vm_compute. lia. }
  eexists. split; [apply (nth_state _ _ _ 17); vm_compute; reflexivity|].
  split; [reflexivity|]. split; [reflexivity|]. kids.
Qed.
(** Replacing node 7 by two nodes: cut off behind the new nodes. *)
Example C78_ex : reachable ex1 /\ valid ex1 [] (ReplaceHtml 7 (B "<i></i><u></u>")) /\
  exists d' e, left_with [] (ReplaceHtml 7 (B "<i></i><u></u>")) ex1 d' /\
    edited ex1 (ReplaceHtml 7 (B "<i></i><u></u>")) = 5 /\
    run [] (ReplaceHtml 7 (B "<i></i><u></u>")) ex1 = Ok e /\
    children e 5 [6; 12; 13; 9] /\ children d' 5 [6; 12; 13].
Proof.
  split; [exact ex1_reachable|].
  assert (C5 : children ex1 5 [6; 7; 9]) by kids.
  split.
  { split; [exists 5, [6; 7; 9]; split; [lia|]; split; [auto|simpl; auto]|].
    assert (E0 : exists r, parse_extra (Some []) (B "<i></i><u></u>") ex1 = Ok (true, r)
       /\ length (nodes r) = 14 /\ text_of r 12 = None).
    { eexists. split; [vm_compute; reflexivity|]. split; vm_compute; reflexivity. }
    destruct E0 as (r & E0 & Ln & Tx). split.
    - intros d1 E. apply (eq_trans (eq_sym E0)) in E. injection E as <-. rewrite Ln. vm_compute. lia.
    - intros d1 p l1 l2 E _. apply (eq_trans (eq_sym E0)) in E. injection E as <-. unfold replace_bad, is_text_node.
      change (length (nodes ex1)) with 12. rewrite Tx.
      intros [(_ & (? & ?) & _)|(? & _ & (? & ?) & _)]; discriminate. }
  set (o := ReplaceHtml 7 _).
  eexists _, _. split; [apply (nth_state _ _ _ 7); vm_compute; reflexivity|].
  split; [reflexivity|]. split; [vm_compute; reflexivity|].
  split; kids.
Qed.
Example C79_ex : reachable ex1 /\ valid ex1 [] (ReplaceDoc 7 crash_elem) /\ one_step (ReplaceDoc 7 crash_elem) /\
  length (fst (c_run [] (ReplaceDoc 7 crash_elem) ex1)) = 11.
Proof.
  split; [exact ex1_reachable|]. split; [|split; [exact I|vm_compute; reflexivity]].
  exists 5, [6; 7; 9]. split; [lia|]. split; [kids|simpl; auto].
Qed.
Example C79_loses_ex : reachable ex1 /\ node_id ex1 5 /\ children ex1 5 (6 :: [7; 9]) /\
  exists e, run [] (PrependDoc 5 crash_elem) ex1 = Ok e.
Proof.
  split; [exact ex1_reachable|]. split; [unfold node_id; simpl; lia|]. split; [kids|].
  eexists. vm_compute. reflexivity.
Qed.
