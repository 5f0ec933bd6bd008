(** * Text and names set in place (C89), the life of a node (C90), and that no
    call moves a node (C91).  Statements with one-line proofs and examples. *)
From Coq Require Import String List NArith Arith Bool Lia.
From Verif Require Import Base TrieModel DomModel ParserModel EditModel ReadModel DomSpec ApiSpec CompareSpec
  LifeSpec Lemmas ApiProofs ParseTree NodeUser Moves LifeUser Examples.
Import ListNotations.
Local Open Scope nat_scope.

Definition after (bl : bytes) (o : op) (d : dom) : dom := match run bl o d with Ok d' => d' | _ => d end.

(** ** C89: [addTextToTextNode] and [setTagOnDocumentNode] *)
(** The text is put behind (or before) the old one, with a blank between them;
    nothing else changes, and no id or memory limit can stop it in the model. *)
Theorem C89_add_text : forall d, reachable d -> forall n s app, kind d n = Some TText ->
  exists old d', text_of d n = Some old /\ add_text_to_text_node n s app d = Ok d' /\
    retexted d d' n (if app then old ++ [cSP] ++ s else s ++ [cSP] ++ old) /\
    (forall m, m <> n -> same_content d d' m) /\
    (forall q l, children d' q l <-> children d q l) /\ length (nodes d') = length (nodes d) /\
    (forall m, paired d' m = paired d m).
Proof. exact u_add_text. Qed.
Print Assumptions C89_add_text.
(** The element gets the name; its attributes and children, and all other nodes, stay. *)
Theorem C89_set_tag : forall d, reachable d -> forall n tag p, kind d n = Some TDocument ->
  gives d 1 (set_tag tag n p d) (fun d' => retagged d d' n tag /\
    (forall m, m <> n -> same_content d d' m) /\
    (forall q l, children d' q l <-> children d q l) /\ length (nodes d') = length (nodes d)).
Proof. exact u_set_tag. Qed.
Print Assumptions C89_set_tag.
(** Whether it is a paired element is decided by the first use of the name, not by
    the argument, if the name has been used before. *)
Theorem C89_set_tag_paired : forall d, reachable d -> forall n tag p d', kind d n = Some TDocument ->
  set_tag tag n p d = Ok d' ->
  (forall m, m <> n -> paired d' m = paired d m) /\
  (tag <> [] -> forall m b, tag_name d m = Some tag -> paired d m = Some b -> paired d' n = Some b) /\
  (~ In tag (map t_name (tl (tag_reg d))) -> paired d' n = Some p).
Proof.
  intros d R n tag p d' K E. destruct (reachable_good d R) as [k G]. apply set_tag_paired; auto. apply G.
Qed.
Print Assumptions C89_set_tag_paired.

(** [br] is known as unpaired, [i] is new. *)
Definition ex1_br : dom := Eval vm_compute in after [] (SetTag 7 (B "br") true) ex1.
Definition ex1_i : dom := Eval vm_compute in after [] (SetTag 7 (B "i") true) ex1.
Example C89_ex :
  kind ex1 7 = Some TDocument /\ set_tag (B "br") 7 true ex1 = Ok ex1_br /\ set_tag (B "i") 7 true ex1 = Ok ex1_i /\
  tag_name ex1_br 7 = Some (B "br") /\ paired ex1_br 7 = Some false /\ paired ex1_i 7 = Some true /\
  children ex1_br 7 [8] /\ ~ In (B "i") (map t_name (tl (tag_reg ex1))) /\
  kind ex1 9 = Some TText /\
  match add_text_to_text_node 9 (B "x") false ex1 with Ok d => text_of d 9 = Some (B "x three") | _ => False end.
Proof.
  repeat match goal with |- _ /\ _ => split end; try (vm_compute; reflexivity); try (kids; fail).
  vm_compute. intuition discriminate.
Qed.

(** ** C90: the life of a node *)
(** An id stays that of the same node: it never becomes invalid, and the node keeps
    its kind until it is removed. *)
Theorem C90_life : forall d os d' n, history d os d' -> node_id d n ->
  node_id d' n /\ (kind d' n = kind d n \/ kind d' n = Some TRemoved).
Proof. exact hist_node. Qed.
Print Assumptions C90_life.
(** Removed is removed: no later call revives the node or puts it anywhere. *)
Theorem C90_removed_forever : forall d os d' n, reachable d -> history d os d' -> kind d n = Some TRemoved ->
  kind d' n = Some TRemoved /\ ~ attached d' n.
Proof. exact hist_removed. Qed.
Print Assumptions C90_removed_forever.
(** Only [setTagOnDocumentNode] on this very node changes its name. *)
Theorem C90_name : forall d os d' n tag, reachable d -> history d os d' -> tag_name d n = Some tag ->
  kind d' n = Some TDocument -> (forall t p, ~ In (SetTag n t p) os) -> tag_name d' n = Some tag.
Proof. exact hist_name. Qed.
Print Assumptions C90_name.
(** The id given to a new element is that of no node before. *)
Theorem C90_fresh : forall d, reachable d -> forall p e x d',
  (node_id d p /\ append_document_node p e d = Ok (x, d')) \/
  (node_id d p /\ prepend_document_node p e d = Ok (x, d')) \/
  (attached d p /\ replace_with_document_node p e d = Ok (x, d')) ->
  length (nodes d) <= x /\ node_id d' x.
Proof. exact fresh_id. Qed.
Print Assumptions C90_fresh.

(** ** C91: no call moves a node *)
(** At the end of every history, the children of a node that existed at its start
    are some of the children it had then, in the same order. *)
Theorem C91_no_moves : forall d os d', reachable d -> history d os d' -> forall p l l',
  children d p l -> children d' p l' -> subseq (old (length (nodes d)) l') l.
Proof. exact hist_moves. Qed.
Print Assumptions C91_no_moves.
(** A node that is somewhere at the end was there at the start. *)
Theorem C91_same_parent : forall d os d' p l' c, reachable d -> history d os d' -> children d' p l' -> In c l' ->
  node_id d c -> exists l, children d p l /\ In c l.
Proof. exact hist_parent. Qed.
Print Assumptions C91_same_parent.
(** What is outside never comes in. *)
Theorem C91_detached_forever : forall d os d' c, reachable d -> history d os d' -> node_id d c ->
  ~ attached d c -> ~ attached d' c.
Proof. exact hist_detached. Qed.
Print Assumptions C91_detached_forever.

(** A history: rename [b], prepend a text to the paragraph (it goes into "one"),
    replace [br] by a text (it goes into "tail"), append HTML to the body, remove the paragraph's last text. *)
Definition h1 : list op :=
  [SetTag 7 (B "i") true; PrependText 5 (B "zero"); ReplaceText 10 (B "-"); AppendHtml 4 (B "<u>v</u>"); Remove 9].
Definition e1 : dom := Eval vm_compute in after [] (SetTag 7 (B "i") true) ex1.
Definition e2 : dom := Eval vm_compute in after [] (PrependText 5 (B "zero")) e1.
Definition e3 : dom := Eval vm_compute in after [] (ReplaceText 10 (B "-")) e2.
Definition e4 : dom := Eval vm_compute in after [] (AppendHtml 4 (B "<u>v</u>")) e3.
Definition e5 : dom := Eval vm_compute in after [] (Remove 9) e4.
Ltac att p l := exists p, l; split; [discriminate|]; split; [kids|simpl; auto 10].
Lemma h1_history : history ex1 h1 e5.
Proof.
  apply (hist_cons _ [] _ e1); [vm_compute; reflexivity|vm_compute; reflexivity|].
  apply (hist_cons _ [] _ e2); [vm_compute; lia|vm_compute; reflexivity|].
  apply (hist_cons _ [] _ e3); [att 4 [5; 10; 11]|vm_compute; reflexivity|].
  apply (hist_cons _ [] _ e4); [|vm_compute; reflexivity|].
  { split; [vm_compute; lia|]. intros d1 E. vm_compute in E. injection E as <-. vm_compute. lia. }
  apply (hist_cons _ [] _ e5); [att 5 [6; 7; 9]|vm_compute; reflexivity|]. constructor.
Qed.
Example C90_ex :
  reachable ex1 /\ history ex1 h1 e5 /\ kind ex1 9 = Some TText /\ kind e5 9 = Some TRemoved /\
  tag_name ex1 7 = Some (B "b") /\ tag_name e5 7 = Some (B "i") /\ tag_name e5 5 = Some (B "p") /\
  kind e5 5 = Some TDocument /\ (forall t p, ~ In (SetTag 5 t p) h1) /\ length (nodes ex1) < length (nodes e5).
Proof.
  split; [exact ex1_reachable|]. split; [exact h1_history|].
  repeat match goal with |- _ /\ _ => split end; try (vm_compute; reflexivity); try (vm_compute; lia).
  unfold h1. simpl. intuition discriminate.
Qed.
Example C91_ex :
  children ex1 4 [5; 10; 11] /\ children e5 4 [5; 11; 14] /\ old (length (nodes ex1)) [5; 11; 14] = [5; 11] /\
  children ex1 5 [6; 7; 9] /\ children e5 5 [6; 7] /\ ~ attached e5 9 /\ node_id e5 9.
Proof.
  repeat match goal with |- _ /\ _ => split end; try (kids; fail); try (vm_compute; reflexivity); try (vm_compute; lia).
  apply (C90_removed_forever e5 [] e5 9); [eapply hist_reachable; [exact h1_history|exact ex1_reachable]|constructor|reflexivity].
Qed.
