(** * The parent table over a history: removed nodes without a parent when nothing was
    prepended (C62), and the number of entries (C97). *)
From Coq Require Import String List NArith Arith Bool Lia.
From Verif Require Import Base TrieModel DomModel ParserModel EditModel ReadModel DomSpec ApiSpec CompareSpec
  LifeSpec EditUser ApiProofs ParentOps Examples PropsLife.
Import ListNotations.
Local Open Scope nat_scope.

(** ** C62, the part that holds: in a history without prepends getParent answers 0 for
    every removed node ... *)
Theorem C62_removed_parent : forall t d0 os d, create_dom t = Ok (Some d0) -> history d0 os d ->
  (forall o, In o os -> ~ is_prepend o) ->
  forall n, kind d n = Some TRemoved -> get_parent n d = 0.
Proof. exact u_parent. Qed.
Print Assumptions C62_removed_parent.
(** ... and removing it again removes what is still below it (a replaced node keeps its
    children) and nothing else. *)
Theorem C62_double_remove : forall t d0 os d, create_dom t = Ok (Some d0) -> history d0 os d ->
  (forall o, In o os -> ~ is_prepend o) ->
  forall n l D, kind d n = Some TRemoved -> children d n l -> preorders d l D ->
  exists d', remove_node n d = Ok d' /\ removed d' D /\ children d' n [] /\ ~ attached d' n /\
    same_children_but d d' (n :: D) /\ keeps_but d d' D /\ length (nodes d') = length (nodes d).
Proof. exact u_again. Qed.
Print Assumptions C62_double_remove.
Definition h2 : list op :=
  [Remove 6; ReplaceDoc 7 (mkDoc (B "u") true [] []); AppendHtml 4 (B "<u>v</u>"); ReplaceText 10 (B "-"); SetText 5 (B "new")].
Definition k1 : dom := Eval vm_compute in after [] (Remove 6) ex1.
Definition k2 : dom := Eval vm_compute in after [] (ReplaceDoc 7 (mkDoc (B "u") true [] [])) k1.
Definition k3 : dom := Eval vm_compute in after [] (AppendHtml 4 (B "<u>v</u>")) k2.
Definition k4 : dom := Eval vm_compute in after [] (ReplaceText 10 (B "-")) k3.
Definition k5 : dom := Eval vm_compute in after [] (SetText 5 (B "new")) k4.
Lemma h2_ok : history ex1 h2 k5.
Proof.
  apply (hist_cons ex1 [] (Remove 6) k1); [exists 5, [6; 7; 9]; split; [discriminate|split; [kids|cbn; tauto]]|vm_compute; reflexivity|].
  apply (hist_cons k1 [] (ReplaceDoc 7 (mkDoc (B "u") true [] [])) k2);
    [exists 5, [7; 9]; split; [discriminate|split; [kids|cbn; tauto]]|vm_compute; reflexivity|].
  apply (hist_cons k2 [] (AppendHtml 4 (B "<u>v</u>")) k3); [|vm_compute; reflexivity|].
  { split; [vm_compute; lia|]. intros d1 E.
    match type of E with ?x = _ => let y := eval vm_compute in x in change (y = Ok (true, d1)) in E end.
    injection E as <-. cbn. lia. }
  apply (hist_cons k3 [] (ReplaceText 10 (B "-")) k4); [|vm_compute; reflexivity|].
  { exists 4. eexists. split; [discriminate|]. split; [kids|cbn; tauto]. }
  apply (hist_cons k4 [] (SetText 5 (B "new")) k5); [vm_compute; lia|vm_compute; reflexivity|].
  apply hist_nil.
Qed.
Lemma h2_np : forall o, In o h2 -> ~ is_prepend o.
Proof. intros o H. cbn in H. decompose [or] H; subst; cbn; tauto. Qed.
Example C62_ex : create_dom (B src1) = Ok (Some ex1) /\ history ex1 h2 k5 /\ (forall o, In o h2 -> ~ is_prepend o) /\
  kind k5 7 = Some TRemoved /\ children k5 7 [8] /\ preorders k5 [8] [8].
Proof.
  split; [vm_compute; reflexivity|]. split; [exact h2_ok|]. split; [exact h2_np|]. split; [reflexivity|].
  split; [kids|]. pres_ord.
Qed.

(** ** C97: one entry in the parent table per node.
    In a history without prepends there are never more entries than nodes in the document ... *)
Theorem C97_parent_entries : forall t d0 os d, create_dom t = Ok (Some d0) -> history d0 os d ->
  (forall o, In o os -> ~ is_prepend o) -> 2 + length (pchilds d) <= length (nodes d).
Proof. exact u_pl_len. Qed.
Print Assumptions C97_parent_entries.
Example C97_ex : history ex1 h2 k5 /\ length (pchilds k5) = 13 /\ length (nodes k5) = 17.
Proof. split; [exact h2_ok|]. vm_compute. auto. Qed.
(** ... and appending an element makes one entry. *)
Theorem C97_append_one_entry : forall d p e x d', reachable d -> node_id d p ->
  append_document_node p e d = Ok (x, d') -> length (pchilds d') = length (pchilds d) + 1.
Proof. exact u_append_len. Qed.
Print Assumptions C97_append_one_entry.
(** Prepending makes one for every child that is there already as well, so the general
    statement is false: *)
Theorem C97_prepend_entries : forall d p e l x d', reachable d -> node_id d p -> children d p l ->
  prepend_document_node p e d = Ok (x, d') -> length (pchilds d') = length (pchilds d) + 1 + length l.
Proof. exact u_prepend_len. Qed.
Print Assumptions C97_prepend_entries.
(** [m] prepends to the same node make quadratically many entries for [m] nodes. *)
Theorem C97_prepends_quadratic : forall p es d l d', reachable d -> node_id d p -> children d p l ->
  history d (map (PrependDoc p) es) d' ->
  2 * length (pchilds d') = 2 * length (pchilds d) + length es * (2 * length l + length es + 1) /\
  length (nodes d') = length (nodes d) + length es.
Proof. exact u_quadratic. Qed.
Print Assumptions C97_prepends_quadratic.
Definition br : docnode := mkDoc (B "br") false [] [].
Definition q1 : dom := Eval vm_compute in after [] (PrependDoc 5 br) ex1.
Definition q2 : dom := Eval vm_compute in after [] (PrependDoc 5 br) q1.
Definition q3 : dom := Eval vm_compute in after [] (PrependDoc 5 br) q2.
Definition q4 : dom := Eval vm_compute in after [] (PrependDoc 5 br) q3.
Lemma q_hist : history ex1 (map (PrependDoc 5) [br; br; br; br]) q4.
Proof.
  apply (hist_cons ex1 [] (PrependDoc 5 br) q1); [vm_compute; lia|vm_compute; reflexivity|].
  apply (hist_cons q1 [] (PrependDoc 5 br) q2); [vm_compute; lia|vm_compute; reflexivity|].
  apply (hist_cons q2 [] (PrependDoc 5 br) q3); [vm_compute; lia|vm_compute; reflexivity|].
  apply (hist_cons q3 [] (PrependDoc 5 br) q4); [vm_compute; lia|vm_compute; reflexivity|].
  apply hist_nil.
Qed.
Theorem C97_one_entry_per_node_refuted : ~ (forall d, reachable d -> length (pchilds d) <= length (nodes d)).
Proof.
  intros H. assert (R : reachable q4) by (apply (reachable_hist _ _ _ ex1_reachable q_hist)).
  apply H in R. vm_compute in R. lia.
Qed.
Print Assumptions C97_one_entry_per_node_refuted.
Example C97_quadratic_ex : reachable ex1 /\ node_id ex1 5 /\ children ex1 5 [6; 7; 9] /\
  history ex1 (map (PrependDoc 5) [br; br; br; br]) q4.
Proof. split; [exact ex1_reachable|]. split; [vm_compute; lia|]. split; [kids|exact q_hist]. Qed.
