(** * The document as a tree machine (C84) and the laws of editing (C85).
    Statements with one-line proofs and examples.  The machine - trees with ids and
    contents, and the effect of each call on them - is in [TreeSpec]. *)
From Coq Require Import String List NArith Arith Bool Lia.
From Verif Require Import Base TrieModel DomModel ParserModel EditModel ReadModel DomSpec ApiSpec
  GrammarSpec ReaderSpec TreeSpec Lemmas TreeUser TreeNumber TreeLawsUser Examples.
Import ListNotations.
Local Open Scope nat_scope.

(** ** C84: after every history of calls the DOM shows exactly the tree that the
    machine computes: the parsed trees, numbered in document order, changed by one
    tree function per call. *)
Theorem C84_create : forall t d ts us, create_dom t = Ok (Some d) -> document_of t = Trees ts us ->
  view d (V 1 root_label (numbers 2 ts)).
Proof. exact created_view. Qed.
Print Assumptions C84_create.
(** One call: [length (nodes d)] is the next free id. *)
Theorem C84_step : forall d, reachable d -> forall v, view d v -> vid v = 1 ->
  forall bl o d', valid d bl o -> run bl o d = Ok d' -> view d' (step bl (length (nodes d)) o v).
Proof. exact step_view. Qed.
Print Assumptions C84_step.
(** All histories: [trace d v] says that some history leads to [d] in the program
    and to [v] in the machine.  Then [d] shows [v] ... *)
Theorem C84_history : forall d v, trace d v -> reachable d /\ view d v /\ vid v = 1.
Proof. exact trace_ok. Qed.
Print Assumptions C84_history.
(** ... every reachable DOM has such a tree ... *)
Theorem C84_total : forall d, reachable d -> exists v, trace d v.
Proof. exact trace_ex. Qed.
Print Assumptions C84_total.
(** ... and a DOM shows only one: whatever history led to it. *)
Theorem C84_unique : forall d, reachable d -> forall v w, view d v -> view d w -> vid v = vid w -> v = w.
Proof. exact view_unique. Qed.
Print Assumptions C84_unique.
Theorem C84_iff : forall d v, reachable d -> (trace d v <-> view d v /\ vid v = 1).
Proof. exact trace_view. Qed.
Print Assumptions C84_iff.

Definition tree1 : vtree :=
  V 1 root_label
    [V 2 (mkLabel TDocument (Some (B "!DOCTYPE")) None [B "html"] []) [];
     V 3 (mkLabel TDocument (Some (B "html")) None [] [])
       [V 4 (mkLabel TDocument (Some (B "body")) None [B "hidden"] [(B "class", B "a b")])
         [V 5 (mkLabel TDocument (Some (B "p")) None [] [(B "id", B "x")])
           [V 6 (text_label (B "one")) [];
            V 7 (mkLabel TDocument (Some (B "b")) None [] []) [V 8 (text_label (B "two")) []];
            V 9 (text_label (B "three")) []];
          V 10 (mkLabel TDocument (Some (B "br")) None [] []) [];
          V 11 (text_label (B "tail")) []]]].
Lemma ex1_trace : trace ex1 tree1.
Proof.
  refine (eq_rect _ (trace ex1) (trace_create (B src1) ex1 _ _ ex1_created _) _ _);
  vm_compute; reflexivity.
Qed.
Ltac att p l := exists p, l; split; [discriminate|]; split; [kids|simpl; auto 10].
(** The result of a call, for the examples. *)
Definition after (bl : bytes) (o : op) (d : dom) : dom := match run bl o d with Ok d' => d' | _ => d end.
Definition ex1_frag : dom := Eval vm_compute in after [] (AppendHtml 4 (B "end<i a=b>x</i>")) ex1.
Definition ex1_repl : dom := Eval vm_compute in after [] (ReplaceText 7 (B "2")) ex1_frag.
(** [tail] takes up the new text; the element gets ids behind it; then a text put
    in place of [b] joins the text before it. *)
Example C84_ex : exists v w,
  trace ex1 tree1 /\
  valid ex1 [] (AppendHtml 4 (B "end<i a=b>x</i>")) /\
  run [] (AppendHtml 4 (B "end<i a=b>x</i>")) ex1 = Ok ex1_frag /\ trace ex1_frag v /\
  valid ex1_frag [] (ReplaceText 7 (B "2")) /\
  run [] (ReplaceText 7 (B "2")) ex1_frag = Ok ex1_repl /\ trace ex1_repl w /\
  w = V 1 root_label
    [V 2 (mkLabel TDocument (Some (B "!DOCTYPE")) None [B "html"] []) [];
     V 3 (mkLabel TDocument (Some (B "html")) None [] [])
       [V 4 (mkLabel TDocument (Some (B "body")) None [B "hidden"] [(B "class", B "a b")])
         [V 5 (mkLabel TDocument (Some (B "p")) None [] [(B "id", B "x")])
           [V 6 (text_label (B "one 2")) []; V 9 (text_label (B "three")) []];
          V 10 (mkLabel TDocument (Some (B "br")) None [] []) [];
          V 11 (text_label (B "tail end")) [];
          V 13 (mkLabel TDocument (Some (B "i")) None [] [(B "a", B "b")])
            [V 14 (text_label (B "x")) []]]]].
Proof.
  assert (V1 : valid ex1 [] (AppendHtml 4 (B "end<i a=b>x</i>"))).
  { split; [vm_compute; auto 20|]. intros d1 E. vm_compute in E. injection E as <-. vm_compute. lia. }
  assert (R1 : run [] (AppendHtml 4 (B "end<i a=b>x</i>")) ex1 = Ok ex1_frag) by (vm_compute; reflexivity).
  assert (V2 : valid ex1_frag [] (ReplaceText 7 (B "2"))).
  { att 5 [6; 7; 9]. }
  assert (R2 : run [] (ReplaceText 7 (B "2")) ex1_frag = Ok ex1_repl) by (vm_compute; reflexivity).
  eexists; eexists. split; [exact ex1_trace|]. split; [exact V1|]. split; [exact R1|].
  split; [exact (trace_step _ _ _ _ _ ex1_trace V1 R1)|]. split; [exact V2|]. split; [exact R2|].
  split; [exact (trace_step _ _ _ _ _ (trace_step _ _ _ _ _ ex1_trace V1 R1) V2 R2)|].
  vm_compute. reflexivity.
Qed.

(** ** C85: laws of editing.  [looks_same]: both DOMs show the same tree, with the
    same ids, names, texts and attributes. *)

(** What [looks_same] gives to a reader: the same traversal from the root, and at
    every node of it the same contents and children. *)
Theorem C85_reads : forall d, reachable d -> forall d', reachable d' -> looks_same d d' ->
  exists l, preorder d 1 l /\ preorder d' 1 l /\
    (exists m, dom_walk d 1 m /\ dom_walk d' 1 m /\ l = 1 :: m) /\
    forall x, In x l -> same_content d d' x /\ (forall cs, children d x cs <-> children d' x cs).
Proof. exact looks_reads. Qed.
Print Assumptions C85_reads.
(** Calls do the same to documents that look the same (and have the same next free
    id), however those documents came about. *)
Theorem C85_congruence : forall d, reachable d -> forall d' bl o d1 d1', reachable d' -> looks_same d d' ->
  length (nodes d') = length (nodes d) ->
  valid d bl o -> valid d' bl o -> run bl o d = Ok d1 -> run bl o d' = Ok d1' -> looks_same d1 d1'.
Proof. exact law_congruence. Qed.
Print Assumptions C85_congruence.
(** An attribute edit of one node may be exchanged with any call that does not edit
    the attributes of that node: structure, text, fragments, other nodes. *)
Theorem C85_attributes_commute : forall d, reachable d -> forall bl bl' a o q d1 d2 d3 d4,
  attr_of a = Some q -> attr_of o <> Some q ->
  valid d bl a -> run bl a d = Ok d1 -> valid d1 bl' o -> run bl' o d1 = Ok d2 ->
  valid d bl' o -> run bl' o d = Ok d3 -> valid d3 bl a -> run bl a d3 = Ok d4 -> looks_same d2 d4.
Proof. exact law_commute. Qed.
Print Assumptions C85_attributes_commute.
(** Two removals may be exchanged. *)
Theorem C85_remove_commute : forall d, reachable d -> forall bl c c' d1 d2 d3 d4,
  attached d c -> attached d c' ->
  run bl (Remove c) d = Ok d1 -> attached d1 c' -> run bl (Remove c') d1 = Ok d2 ->
  run bl (Remove c') d = Ok d3 -> attached d3 c -> run bl (Remove c) d3 = Ok d4 -> looks_same d2 d4.
Proof. exact law_remove_commute. Qed.
Print Assumptions C85_remove_commute.
(** Removing the element just appended or prepended restores the document. *)
Theorem C85_undo : forall d, reachable d -> forall bl bl' o p d1,
  (exists e, o = AppendDoc p e \/ o = PrependDoc p e) -> node_id d p -> run bl o d = Ok d1 ->
  exists d2, run bl' (Remove (length (nodes d))) d1 = Ok d2 /\ attached d1 (length (nodes d)) /\ looks_same d d2.
Proof. exact law_undo. Qed.
Print Assumptions C85_undo.
(** Removing the attribute just added restores the document, if it was new. *)
Theorem C85_undo_property : forall d, reachable d -> forall bl bl' p k w d1 d2,
  node_id d p -> ~ In k (map fst (attrs d p)) ->
  run bl (AddProp p k w) d = Ok d1 -> run bl' (RemoveProp p k) d1 = Ok d2 -> looks_same d d2.
Proof. exact law_undo_prop. Qed.
Print Assumptions C85_undo_property.
Theorem C85_undo_boolean : forall d, reachable d -> forall bl bl' p b d1 d2,
  node_id d p -> ~ In b (bool_attrs d p) ->
  run bl (AddBool p b) d = Ok d1 -> run bl' (RemoveBool p b) d1 = Ok d2 -> looks_same d d2.
Proof. exact law_undo_bool. Qed.
Print Assumptions C85_undo_boolean.
(** The last of two assignments counts. *)
Theorem C85_set_property_last : forall d, reachable d -> forall bl p k w w' d1 d2 d3, node_id d p ->
  run bl (SetProp p k w) d = Ok d1 -> run bl (SetProp p k w') d1 = Ok d2 -> run bl (SetProp p k w') d = Ok d3 ->
  looks_same d2 d3.
Proof. exact law_set_last. Qed.
Print Assumptions C85_set_property_last.
(** ... for texts up to the id of the new text node. *)
Theorem C85_set_text_last : forall d, reachable d -> forall bl p s s' d1 d2 d3 v2 v3, node_id d p ->
  run bl (SetText p s) d = Ok d1 -> run bl (SetText p s') d1 = Ok d2 -> run bl (SetText p s') d = Ok d3 ->
  view d2 v2 -> vid v2 = 1 -> view d3 v3 -> vid v3 = 1 -> strip v2 = strip v3.
Proof. exact law_text_last. Qed.
Print Assumptions C85_set_text_last.
(** Setting the text is removing the children and appending the text. *)
Theorem C85_set_text : forall d, reachable d -> forall bl p s d1 d2 d3, node_id d p ->
  run bl (RemoveChildren p) d = Ok d1 -> run bl (AppendText p s) d1 = Ok d2 ->
  run bl (SetText p s) d = Ok d3 -> looks_same d2 d3.
Proof. exact law_set_text. Qed.
Print Assumptions C85_set_text.

Definition elem_u : docnode := mkDoc (B "u") true [B "h"] [(B "a", B "b")].
Definition d_add : dom := Eval vm_compute in after [] (AddProp 5 (B "k") (B "v")) ex1.
Definition d_add' : dom := Eval vm_compute in after [] (RemoveProp 5 (B "k")) d_add.
Definition d_app : dom := Eval vm_compute in after [] (AppendDoc 5 elem_u) ex1.
Definition d_app' : dom := Eval vm_compute in after [] (AddProp 5 (B "k") (B "v")) d_app.
Definition d_rem : dom := Eval vm_compute in after [] (Remove 7) ex1.
Definition d_rem' : dom := Eval vm_compute in after [] (Remove 11) d_rem.
Definition d_set : dom := Eval vm_compute in after [] (SetProp 5 (B "id") (B "y")) ex1.
Definition d_set' : dom := Eval vm_compute in after [] (SetProp 5 (B "id") (B "z")) d_set.
Definition d_txt : dom := Eval vm_compute in after [] (SetText 5 (B "y")) ex1.
(** All calls succeed on [ex1]; the results are different data structures, so
    [looks_same] is not equality; and it tells documents apart. *)
Example C85_ex_attributes :
  node_id ex1 5 /\ ~ In (B "k") (map fst (attrs ex1 5)) /\ run [] (AddProp 5 (B "k") (B "v")) ex1 = Ok d_add /\ run [] (RemoveProp 5 (B "k")) d_add = Ok d_add' /\ length (key_reg d_add') <> length (key_reg ex1) /\ run [] (SetProp 5 (B "id") (B "y")) ex1 = Ok d_set /\ run [] (SetProp 5 (B "id") (B "z")) d_set = Ok d_set' /\ attrs d_set 5 = [(B "id", B "y")].
Proof.
  split; [vm_compute; lia|]. split; [vm_compute; intuition discriminate|].
  split; [vm_compute; reflexivity|]. split; [vm_compute; reflexivity|]. split; [vm_compute; discriminate|].
  split; [vm_compute; reflexivity|]. split; vm_compute; reflexivity.
Qed.
Example C85_ex_structure :
  run [] (AppendDoc 5 elem_u) ex1 = Ok d_app /\ run [] (AddProp 5 (B "k") (B "v")) d_app = Ok d_app' /\ attached ex1 7 /\ attached ex1 11 /\ run [] (Remove 7) ex1 = Ok d_rem /\ run [] (Remove 11) d_rem = Ok d_rem' /\ attached d_rem 11 /\ run [] (SetText 5 (B "y")) ex1 = Ok d_txt /\ children d_txt 5 [12] /\ ~ looks_same ex1 d_rem.
Proof.
  split; [vm_compute; reflexivity|]. split; [vm_compute; reflexivity|].
  split; [att 5 [6; 7; 9]|]. split; [att 4 [5; 10; 11]|].
  split; [vm_compute; reflexivity|]. split; [vm_compute; reflexivity|]. split; [att 4 [5; 10; 11]|].
  split; [vm_compute; reflexivity|]. split; [kids|].
  intros H. destruct (trace_ok _ _ ex1_trace) as (R & HV & _).
  apply (H tree1 eq_refl) in HV.
  assert (C' : children d_rem 5 [6; 9]) by kids.
  inversion HV as [i l ks _ _ F]; subst. inversion F as [|? ? _ F']; subst.
  inversion F' as [|? ? H3 _]; subst. inversion H3 as [? ? ? _ _ G]; subst.
  inversion G as [|? ? H4 _]; subst. inversion H4 as [? ? ? _ _ G']; subst.
  inversion G' as [|? ? H5 _]; subst. inversion H5 as [? ? ? _ C _]; subst.
  pose proof (sibs_fun _ _ _ C _ C') as E. discriminate E.
Qed.
