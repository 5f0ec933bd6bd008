(** * The size of a document (C75). *)
From Coq Require Import String List NArith Arith Bool Lia.
From Verif Require Import Base DomModel ParserModel EditModel ApiSpec SizeSpec Lemmas Grow Size SizeEdit Examples.
Import ListNotations.
Local Open Scope nat_scope.

(** ** C75: nothing is stored that the source does not pay for: at most one node, one
    attribute, one byte of text and one entry of each kind per byte of markup (beside the
    error node, the root and the reserved entry 0 of each string table). *)
Theorem C75_document_size : forall t d, create_dom t = Ok (Some d) ->
  length (nodes d) <= 2 + length t /\
  texts d <= length t /\
  length (bprops d) + length (props d) <= length t /\
  length (firsts d) <= length t /\ length (pchilds d) <= length t /\ length (nexts d) <= length t /\
  length (tag_reg d) <= 1 + length t /\
  length (bool_reg d) + length (key_reg d) <= 2 + length t /\
  length (val_reg d) <= 1 + length t.
Proof.
  intros t d E. destruct (u_create t d E). cbn in *. repeat (split; [lia|]). lia.
Qed.
Print Assumptions C75_document_size.
(** The bound on the nodes and on the text cannot be improved. *)
Example C75_tight :
  (exists d, create_dom (B "<") = Ok (Some d) /\ length (nodes d) = 2 + 1) /\
  (exists d, create_dom (B "some text") = Ok (Some d) /\ texts d = 9).
Proof. split; eexists; (split; [vm_compute; reflexivity|reflexivity]). Qed.

(** Fragments: an edit adds at most one node per byte of markup. *)
Theorem C75_edit_size : forall bl o d d', run bl o d = Ok d' -> length (nodes d') <= length (nodes d) + op_size o.
Proof. intros bl o d d' E. pose proof (u_run bl o d) as H. rewrite E in H. exact H. Qed.
Print Assumptions C75_edit_size.

(** A whole history: the number of nodes is bounded by the markup handed in so far, so
    the limit of 65535 nodes cannot be reached with less markup than that. *)
Theorem C75_history_size : forall t ops d, history t ops d ->
  length (nodes d) <= 2 + length t + list_sum (map op_size ops).
Proof.
  intros t ops d H. induction H as [d E|ops bl o d d' H IH E].
  - destruct (C75_document_size t d E) as [L _]. cbn. lia.
  - pose proof (C75_edit_size bl o d d' E). rewrite map_app, list_sum_app. cbn. lia.
Qed.
Print Assumptions C75_history_size.
Example C75_history_ex : exists d, history (B "<p>a</p>") [AppendHtml 2 (B "<b>c</b>"); SetText 2 (B "d")] d /\
  length (nodes d) = 7.
Proof.
  eexists. split.
  - eapply (h_edit _ [_] []); [eapply (h_edit _ [] []); [apply h_create; vm_compute; reflexivity|vm_compute; reflexivity]|vm_compute; reflexivity].
  - reflexivity.
Qed.
