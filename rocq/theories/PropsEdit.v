(** * Properties of the editing functions (C24-C32, C35, C36, C62). *)
From Coq Require Import String List NArith Arith Bool Lia.
From Verif Require Import Base TrieModel DomModel ParserModel EditModel ReadModel DomSpec ApiSpec
  EditUser EditUserHtml ReplaceBad EditEmpty ReadUser Examples PropsParse.
Import ListNotations.
Local Open Scope nat_scope.

Ltac rm := vm_compute; repeat split; discriminate.

(** ** C24: [removeNode].  [D] is the removed subtree. *)
Theorem C24_remove_node : forall d, reachable d -> forall p c l1 l2 D,
  children d p (l1 ++ c :: l2) -> preorder d c D ->
  exists d', remove_node c d = Ok d' /\ children d' p (l1 ++ l2) /\ removed d' D /\
    same_children_but d d' (p :: D) /\ keeps_but d d' D /\
    length (nodes d') = length (nodes d).
Proof. exact u_remove. Qed.
Print Assumptions C24_remove_node.
Example C24_ex : reachable ex1 /\ children ex1 5 ([6] ++ 7 :: [9]) /\ preorder ex1 7 [7; 8].
Proof. split; [exact ex1_reachable|]. split; [simpl; kids|pre_ord]. Qed.

(** ** C25: [removeChildren] and [setTextContent]. *)
Theorem C25_remove_children : forall d, reachable d -> forall p l D,
  p <> 0 -> children d p l -> preorders d l D ->
  exists d', remove_children p d = Ok d' /\ children d' p [] /\ removed d' D /\
    same_children_but d d' (p :: D) /\ keeps_but d d' D /\
    length (nodes d') = length (nodes d).
Proof. exact u_remove_children. Qed.
Print Assumptions C25_remove_children.
Theorem C25_set_text_content : forall d, reachable d -> forall p s l D,
  node_id d p -> children d p l -> preorders d l D ->
  gives d 1 (set_text_content p s d) (fun d' =>
    let x := length (nodes d) in
    children d' p [x] /\ children d' x [] /\ text_content d' x s /\ removed d' D /\
    same_children_but d d' (p :: D) /\ keeps_but d d' (x :: D)).
Proof. exact u_set_text. Qed.
Print Assumptions C25_set_text_content.
Example C25_ex : reachable ex1 /\ node_id ex1 5 /\ children ex1 5 [6; 7; 9] /\
  preorders ex1 [6; 7; 9] [6; 7; 8; 9] /\ room_for ex1 1.
Proof.
  split; [exact ex1_reachable|]. split; [unfold node_id; simpl; lia|]. split; [kids|].
  split; [pres_ord|rm].
Qed.

(** ** C26: [appendDocumentNode]. *)
Theorem C26_append_document_node : forall d, reachable d -> forall p e l,
  node_id d p -> children d p l ->
  gives d (op_cost (AppendDoc p e)) (append_document_node p e d) (fun '(x, d') =>
    x = length (nodes d) /\ children d' p (l ++ [x]) /\ children d' x [] /\
    same_children_but d d' [p] /\ elem_content d' x e /\ keeps_but d d' [x]).
Proof. exact u_append_doc. Qed.
Print Assumptions C26_append_document_node.
Definition ex_elem : docnode := mkDoc (B "em") true [B "x"] [(B "id", B "y"); (B "id", B "z")].
Example C26_ex : reachable ex1 /\ node_id ex1 5 /\ children ex1 5 [6; 7; 9] /\
  room_for ex1 (op_cost (AppendDoc 5 ex_elem)).
Proof.
  split; [exact ex1_reachable|]. split; [unfold node_id; simpl; lia|]. split; [kids|rm].
Qed.

(** ** C27: [appendTextNode]. *)
Theorem C27_append_text_new : forall d, reachable d -> forall p s l,
  node_id d p -> children d p l -> no_text_end d l ->
  gives d 1 (append_text_node p s d) (fun '(x, d') =>
    x = length (nodes d) /\ children d' p (l ++ [x]) /\ children d' x [] /\
    same_children_but d d' [p] /\ text_content d' x s /\ keeps_but d d' [x]).
Proof. exact u_append_text_new. Qed.
Print Assumptions C27_append_text_new.
Theorem C27_append_text_merge : forall d, reachable d -> forall p s l c old,
  node_id d p -> children d p l -> ends_with_text d l c old ->
  gives d 1 (append_text_node p s d) (fun '(x, d') =>
    x = c /\ same_children_but d d' [] /\ retexted d d' c (old ++ [cSP] ++ s) /\
    removed d' [length (nodes d)] /\ keeps_but d d' [c; length (nodes d)]).
Proof. exact u_append_text_merge. Qed.
Print Assumptions C27_append_text_merge.
Example C27_ex : reachable ex1 /\ children ex1 3 [4] /\ no_text_end ex1 [4] /\
  children ex1 5 [6; 7; 9] /\ ends_with_text ex1 [6; 7; 9] 9 (B "three").
Proof.
  split; [exact ex1_reachable|]. split; [kids|]. split.
  - intros l0 c E. destruct l0 as [|a [|b l0]]; try discriminate. injection E as <-. reflexivity.
  - split; [kids|]. split; [now exists [6; 7]|reflexivity].
Qed.

(** ** C28: [appendHTMLFromString]; [d1] is the DOM after parsing the fragment,
    whose top-level nodes are [tops]. *)
Theorem C28_fragment : forall d, reachable d -> forall bl h ok d1,
  parse_extra (Some bl) h d = Ok (ok, d1) ->
  length (nodes d) <= length (nodes d1) /\
  (forall q m, q < length (nodes d) -> (children d1 q m <-> children d q m)) /\
  (forall q, q < length (nodes d) -> same_content d d1 q) /\
  (forall c, length (nodes d) <= c ->
     ~ attached d1 c \/ exists p l, length (nodes d) <= p /\ children d1 p l /\ In c l).
Proof. exact u_fragment. Qed.
Print Assumptions C28_fragment.
Theorem C28_fragment_order : forall d, reachable d -> forall bl h d1,
  parse_extra (Some bl) h d = Ok (true, d1) -> length (nodes d) < length (nodes d1) ->
  exists tops, sibs d1 (length (nodes d)) tops /\
    preorders d1 tops (seq (length (nodes d)) (length (nodes d1) - length (nodes d))).
Proof. exact u_fragment_order. Qed.
Print Assumptions C28_fragment_order.
Theorem C28_append_html_plain : forall d, reachable d -> forall bl h d1,
  parse_extra (Some bl) h d = Ok (true, d1) -> length (nodes d) < length (nodes d1) ->
  forall tops, sibs d1 (length (nodes d)) tops ->
  forall p l, node_id d p -> children d p l ->
  no_text_end d l \/ no_text_start d1 tops ->
  exists d', append_html (Some bl) p h d = Ok (length (nodes d), d') /\
    children d' p (l ++ tops) /\ same_children_but d1 d' [p] /\ keeps_but d1 d' [].
Proof. exact u_append_html_plain. Qed.
Print Assumptions C28_append_html_plain.
Theorem C28_append_html_merge : forall d, reachable d -> forall bl h d1,
  parse_extra (Some bl) h d = Ok (true, d1) -> length (nodes d) < length (nodes d1) ->
  forall tops, sibs d1 (length (nodes d)) tops ->
  forall p l, node_id d p -> children d p l ->
  forall c old s, ends_with_text d l c old -> text_of d1 (length (nodes d)) = Some s ->
  exists d', append_html (Some bl) p h d = Ok (hd c (tl tops), d') /\
    children d' p (l ++ tl tops) /\ retexted d1 d' c (old ++ [cSP] ++ s) /\
    removed d' [length (nodes d)] /\ same_children_but d1 d' [p] /\
    keeps_but d1 d' [c; length (nodes d)].
Proof. exact u_append_html_merge. Qed.
Print Assumptions C28_append_html_merge.
Definition frag_src : bytes := B "u <i>v</i> w".
Definition ex1_frag : dom := Eval vm_compute in
  match parse_extra (Some []) frag_src ex1 with Ok (_, d) => d | _ => empty_dom end.
Lemma ex1_frag_ok : parse_extra (Some []) frag_src ex1 = Ok (true, ex1_frag).
Proof. vm_compute. reflexivity. Qed.
(** 12 "u", 13 i, 14 "v", 15 "w" *)
Example C28_ex : reachable ex1 /\ parse_extra (Some []) frag_src ex1 = Ok (true, ex1_frag) /\
  length (nodes ex1) < length (nodes ex1_frag) /\ sibs ex1_frag 12 [12; 13; 15] /\
  preorders ex1_frag [12; 13; 15] [12; 13; 14; 15] /\
  children ex1 5 [6; 7; 9] /\ ends_with_text ex1 [6; 7; 9] 9 (B "three") /\
  text_of ex1_frag 12 = Some (B "u") /\
  children ex1 7 [8] /\ children ex1 3 [4] /\ no_text_end ex1 [4].
Proof.
  split; [exact ex1_reachable|]. split; [exact ex1_frag_ok|]. split; [simpl; lia|].
  split; [sib|]. split; [pres_ord|]. split; [kids|].
  split; [split; [now exists [6; 7]|reflexivity]|]. split; [reflexivity|].
  split; [kids|]. split; [kids|].
  intros l0 c E. destruct l0 as [|a [|b l0]]; try discriminate. injection E as <-. reflexivity.
Qed.

(** ** C29: [prependDocumentNode], [prependTextNode]. *)
Theorem C29_prepend_document_node : forall d, reachable d -> forall p e l,
  node_id d p -> children d p l ->
  gives d (op_cost (PrependDoc p e)) (prepend_document_node p e d) (fun '(x, d') =>
    x = length (nodes d) /\ children d' p (x :: l) /\ children d' x [] /\
    same_children_but d d' [p] /\ elem_content d' x e /\ keeps_but d d' [x]).
Proof. exact u_prepend_doc. Qed.
Print Assumptions C29_prepend_document_node.
Theorem C29_prepend_text_new : forall d, reachable d -> forall p s l,
  node_id d p -> children d p l -> no_text_start d l ->
  gives d 1 (prepend_text_node p s d) (fun '(x, d') =>
    x = length (nodes d) /\ children d' p (x :: l) /\ children d' x [] /\
    same_children_but d d' [p] /\ text_content d' x s /\ keeps_but d d' [x]).
Proof. exact u_prepend_text_new. Qed.
Print Assumptions C29_prepend_text_new.
(** When it merges, the returned id is that of the removed node (see C36). *)
Theorem C29_prepend_text_merge : forall d, reachable d -> forall p s l c old,
  node_id d p -> children d p l -> starts_with_text d l c old ->
  gives d 1 (prepend_text_node p s d) (fun '(x, d') =>
    x = length (nodes d) /\ same_children_but d d' [] /\ retexted d d' c (s ++ [cSP] ++ old) /\
    removed d' [length (nodes d)] /\ keeps_but d d' [c; length (nodes d)]).
Proof. exact u_prepend_text_merge. Qed.
Print Assumptions C29_prepend_text_merge.
Example C29_ex : reachable ex1 /\ node_id ex1 5 /\ children ex1 5 [6; 7; 9] /\
  starts_with_text ex1 [6; 7; 9] 6 (B "one") /\
  children ex1 4 [5; 10; 11] /\ no_text_start ex1 [5; 10; 11] /\ room_for ex1 5.
Proof.
  split; [exact ex1_reachable|]. split; [unfold node_id; simpl; lia|]. split; [kids|].
  split; [split; [now exists [7; 9]|reflexivity]|]. split; [kids|]. split; [|rm].
  intros l0 c E. injection E as <- _. reflexivity.
Qed.

(** ** C30: [prependHTMLFromString]. *)
Theorem C30_prepend_html_plain : forall d, reachable d -> forall bl h d1,
  parse_extra (Some bl) h d = Ok (true, d1) -> length (nodes d) < length (nodes d1) ->
  forall tops, sibs d1 (length (nodes d)) tops ->
  forall p l, node_id d p -> children d p l ->
  no_text_start d l \/ no_text_end d1 tops ->
  exists d', prepend_html (Some bl) p h d = Ok (length (nodes d), d') /\
    children d' p (tops ++ l) /\ same_children_but d1 d' [p] /\ keeps_but d1 d' [].
Proof. exact u_prepend_html_plain. Qed.
Print Assumptions C30_prepend_html_plain.
Theorem C30_prepend_html_merge : forall d, reachable d -> forall bl h d1,
  parse_extra (Some bl) h d = Ok (true, d1) -> length (nodes d) < length (nodes d1) ->
  forall tops, sibs d1 (length (nodes d)) tops ->
  forall p l, node_id d p -> children d p l ->
  forall tops' a c old s, tops = tops' ++ [a] ->
  starts_with_text d l c old -> text_of d1 a = Some s ->
  exists d', prepend_html (Some bl) p h d = Ok (hd c tops', d') /\
    children d' p (tops' ++ l) /\ retexted d1 d' c (s ++ [cSP] ++ old) /\
    removed d' [a] /\ same_children_but d1 d' [p] /\ keeps_but d1 d' [c; a].
Proof. exact u_prepend_html_merge. Qed.
Print Assumptions C30_prepend_html_merge.
Example C30_ex : sibs ex1_frag 12 ([12; 13] ++ [15]) /\ text_of ex1_frag 15 = Some (B "w") /\
  children ex1 5 [6; 7; 9] /\ starts_with_text ex1 [6; 7; 9] 6 (B "one") /\
  children ex1 4 [5; 10; 11] /\ no_text_start ex1 [5; 10; 11].
Proof.
  split; [simpl; sib|]. split; [reflexivity|]. split; [kids|].
  split; [split; [now exists [7; 9]|reflexivity]|]. split; [kids|].
  intros l0 c E. injection E as <- _. reflexivity.
Qed.

(** ** C31: [replaceWithDocumentNode]. *)
Theorem C31_replace_document_node : forall d, reachable d -> forall p c l1 l2 e,
  children d p (l1 ++ c :: l2) ->
  gives d (op_cost (ReplaceDoc c e)) (replace_with_document_node c e d) (fun '(x, d') =>
    x = length (nodes d) /\ children d' p (l1 ++ x :: l2) /\ children d' x [] /\
    same_children_but d d' [p] /\ elem_content d' x e /\
    kind d' c = Some TRemoved /\ ~ attached d' c /\ keeps_but d d' [x; c]).
Proof. exact u_replace_doc. Qed.
Print Assumptions C31_replace_document_node.
Example C31_ex : reachable ex1 /\ children ex1 5 ([6] ++ 7 :: [9]) /\
  room_for ex1 (op_cost (ReplaceDoc 7 ex_elem)).
Proof. split; [exact ex1_reachable|]. split; [simpl; kids|rm]. Qed.

(** ** C32: [replaceWithTextNode]. *)
Theorem C32_replace_text_new : forall d, reachable d -> forall p c l1 l2 s,
  children d p (l1 ++ c :: l2) -> no_text_end d l1 -> no_text_start d l2 ->
  gives d 1 (replace_with_text_node c s d) (fun '(x, d') =>
    x = length (nodes d) /\ children d' p (l1 ++ x :: l2) /\ children d' x [] /\
    same_children_but d d' [p] /\ text_content d' x s /\
    kind d' c = Some TRemoved /\ ~ attached d' c /\ keeps_but d d' [x; c]).
Proof. exact u_replace_text_new. Qed.
Print Assumptions C32_replace_text_new.
Theorem C32_replace_text_merge : forall d, reachable d -> forall p c l1 l2 s t s' D,
  children d p (l1 ++ c :: l2) -> merges_into d l1 l2 s t s' -> preorder d c D ->
  gives d 1 (replace_with_text_node c s d) (fun '(x, d') =>
    x = length (nodes d) /\ children d' p (l1 ++ l2) /\ retexted d d' t s' /\
    removed d' (length (nodes d) :: D) /\
    same_children_but d d' (p :: D) /\ keeps_but d d' (t :: length (nodes d) :: D)).
Proof. exact u_replace_text_merge. Qed.
Print Assumptions C32_replace_text_merge.
Example C32_ex : reachable ex1 /\ children ex1 4 ([] ++ 5 :: [10; 11]) /\
  no_text_end ex1 [] /\ no_text_start ex1 [10; 11] /\
  children ex1 5 ([6] ++ 7 :: [9]) /\
  merges_into ex1 [6] [9] (B "z") 6 (B "one z") /\ preorder ex1 7 [7; 8] /\ room_for ex1 1.
Proof.
  split; [exact ex1_reachable|]. split; [simpl; kids|].
  split; [intros l0 c E; destruct l0; discriminate|].
  split; [intros l0 c E; injection E as <- _; reflexivity|]. split; [simpl; kids|].
  split; [left; exists (B "one"); split; [split; [now exists []|reflexivity]|reflexivity]|].
  split; [pre_ord|rm].
Qed.

(** ** C33: [replaceWithHTMLFromString].  [f] and [g] describe the merges at the
    two ends; [B] are the fragment nodes that remain. *)
Theorem C33_replace_html : forall d, reachable d -> forall bl h d1,
  parse_extra (Some bl) h d = Ok (true, d1) -> length (nodes d) < length (nodes d1) ->
  forall tops, sibs d1 (length (nodes d)) tops ->
  forall p c l1 l2, children d p (l1 ++ c :: l2) ->
  forall f g, first_merge d d1 l1 tops f -> last_merge d d1 l2 tops g ->
  (length tops = 1 -> f = None /\ g = None) ->
  let A := match f with Some _ => tl tops | None => tops end in
  let B := match g with Some _ => removelast A | None => A end in
  B <> [] ->
  exists d', replace_with_html (Some bl) c h d = Ok (hd 0 B, d') /\
    children d' p (l1 ++ B ++ l2) /\ same_children_but d1 d' [p] /\
    kind d' c = Some TRemoved /\ ~ attached d' c /\
    merge_done d1 d' f (hd 0 tops) /\ merge_done d1 d' g (last tops 0) /\
    keeps_but d1 d' (c :: merge_ids f (hd 0 tops) ++ merge_ids g (last tops 0)).
Proof. exact u_replace_html. Qed.
Print Assumptions C33_replace_html.
(** A lone text node that merges (there is a previous sibling). *)
Theorem C33_replace_html_text : forall d, reachable d -> forall bl h d1,
  parse_extra (Some bl) h d = Ok (true, d1) -> length (nodes d) < length (nodes d1) ->
  forall tops, sibs d1 (length (nodes d)) tops ->
  forall p c l1 l2, children d p (l1 ++ c :: l2) ->
  forall s t s' D, tops = [length (nodes d)] -> text_of d1 (length (nodes d)) = Some s ->
  merges_into d l1 l2 s t s' -> l1 <> [] -> preorder d c D ->
  exists x d', replace_with_html (Some bl) c h d = Ok (x, d') /\
    children d' p (l1 ++ l2) /\ retexted d1 d' t s' /\ removed d' (length (nodes d) :: D) /\
    same_children_but d1 d' (p :: D) /\ keeps_but d1 d' (t :: length (nodes d) :: D).
Proof. exact u_replace_html_text. Qed.
Print Assumptions C33_replace_html_text.
Definition ex1_frag1 : dom := Eval vm_compute in
  match parse_extra (Some []) (B "u") ex1 with Ok (_, d) => d | _ => empty_dom end.
Example C33_ex : reachable ex1 /\ parse_extra (Some []) frag_src ex1 = Ok (true, ex1_frag) /\
  length (nodes ex1) < length (nodes ex1_frag) /\ sibs ex1_frag 12 [12; 13; 15] /\
  children ex1 5 ([6] ++ 7 :: [9]) /\
  first_merge ex1 ex1_frag [6] [12; 13; 15] (Some (6, B "one u")) /\
  last_merge ex1 ex1_frag [9] [12; 13; 15] (Some (9, B "w three")).
Proof.
  split; [exact ex1_reachable|]. split; [exact ex1_frag_ok|]. split; [simpl; lia|].
  split; [sib|]. split; [simpl; kids|]. split.
  - exists (B "one"), (B "u"), 12, [13; 15].
    repeat split; try reflexivity. now exists [].
  - exists (B "three"), (B "w"), 15, [12; 13]. repeat split; try reflexivity. now exists [].
Qed.
Example C33_text_ex : parse_extra (Some []) (B "u") ex1 = Ok (true, ex1_frag1) /\
  length (nodes ex1) < length (nodes ex1_frag1) /\ sibs ex1_frag1 12 [12] /\
  text_of ex1_frag1 12 = Some (B "u") /\ children ex1 5 ([6] ++ 7 :: [9]) /\
  merges_into ex1 [6] [9] (B "u") 6 (B "one u") /\ preorder ex1 7 [7; 8].
Proof.
  split; [vm_compute; reflexivity|]. split; [simpl; lia|]. split; [sib|]. split; [reflexivity|].
  split; [simpl; kids|]. split; [|pre_ord].
  left; exists (B "one"); split; [split; [now exists []|reflexivity]|reflexivity].
Qed.
(** False in general: NULL is dereferenced when a lone text node is merged into
    the next sibling and there is no previous one. *)
Definition ex2 : dom := Eval vm_compute in the_dom "<p><b>x</b>y</p>".
Lemma ex2_reachable : reachable ex2.
Proof. apply (reach_create (B "<p><b>x</b>y</p>")). vm_compute. reflexivity. Qed.
Theorem C33_null_dereference_refuted :
  ~ (forall d bl h n, reachable d -> attached d n -> has_nodes d bl h ->
       replace_with_html (Some bl) n h d <> Undef NullDeref).
Proof.
  intros H. apply (H ex2 [] (B "z") 3 ex2_reachable).
  - exists 2, [3; 5]. split; [discriminate|]. split; [kids|simpl; tauto].
  - intros d1 E.
    match type of E with ?x = _ => let y := eval vm_compute in x in change (y = Ok (true, d1)) in E end.
    injection E as <-. simpl. lia.
  - vm_compute. reflexivity.
Qed.
Print Assumptions C33_null_dereference_refuted.
(** Exactly then, in every document: the fragment is one text node, the replaced node is
    the first child, and the next sibling is a text node. *)
Theorem C33_null_dereference_iff : forall d, reachable d -> forall bl h d1,
  parse_extra (Some bl) h d = Ok (true, d1) -> length (nodes d) < length (nodes d1) ->
  forall p c l1 l2, children d p (l1 ++ c :: l2) ->
  (replace_with_html (Some bl) c h d = Undef NullDeref <->
   sibs d1 (length (nodes d)) [length (nodes d)] /\ is_text_node d1 (length (nodes d)) /\
   l1 = [] /\ exists t l, l2 = t :: l /\ is_text_node d1 t).
Proof. exact null_iff. Qed.
Print Assumptions C33_null_dereference_iff.
Definition ex2_frag : dom := Eval vm_compute in
  match parse_extra (Some []) (B "z") ex2 with Ok (_, d) => d | _ => empty_dom end.
Example C33_iff_ex : parse_extra (Some []) (B "z") ex2 = Ok (true, ex2_frag) /\
  length (nodes ex2) < length (nodes ex2_frag) /\ children ex2 2 ([] ++ 3 :: [5]) /\
  sibs ex2_frag 6 [6] /\ is_text_node ex2_frag 6 /\ is_text_node ex2_frag 5.
Proof.
  split; [vm_compute; reflexivity|]. split; [simpl; lia|]. split; [simpl; kids|]. split; [sib|].
  split; eexists; reflexivity.
Qed.

(** ** C34: a rejected fragment.  Every node that existed keeps its child list
    and its contents; the call returns 0. *)
Theorem C34_failed_fragment : forall d, reachable d -> forall bl h d1,
  parse_extra (Some bl) h d = Ok (false, d1) ->
  (forall p, append_html (Some bl) p h d = Ok (0, d1) /\
             prepend_html (Some bl) p h d = Ok (0, d1) /\
             replace_with_html (Some bl) p h d = Ok (0, d1)) /\
  (forall q m, q < length (nodes d) -> (children d1 q m <-> children d q m)) /\
  (forall q, q < length (nodes d) -> same_content d d1 q).
Proof.
  intros d R bl h d1 E. split; [intros p; now apply u_failed_append|].
  destruct (u_fragment d R bl h false d1 E) as (_ & A & B & _). split; [exact A|exact B].
Qed.
Print Assumptions C34_failed_fragment.
Definition deep : bytes := flat_map (fun _ => B "<a>") (repeat tt 257).
Example C34_ex : reachable ex2 /\
  match parse_extra (Some []) deep ex2 with Ok (ok, _) => ok = false | _ => False end.
Proof. split; [exact ex2_reachable|]. vm_compute. reflexivity. Qed.

(** ** C35 (false): fragments without nodes.  A childless node gets a child
    that is not a node; otherwise memory past the node array is read. *)
Theorem C35_empty_fragment_refuted : forall d bl h d1 p, reachable d ->
  parse_extra (Some bl) h d = Ok (true, d1) -> length (nodes d1) = length (nodes d) ->
  node_id d p ->
  (children d p [] ->
     (exists d', append_html (Some bl) p h d = Ok (length (nodes d), d') /\
        get_first_child p d' = length (nodes d) /\ nth_error (nodes d') (length (nodes d)) = None) /\
     (exists d', prepend_html (Some bl) p h d = Ok (length (nodes d), d') /\
        get_first_child p d' = length (nodes d) /\ nth_error (nodes d') (length (nodes d)) = None)) /\
  (forall c l, children d p (c :: l) ->
     append_html (Some bl) p h d = Undef OobRead /\ prepend_html (Some bl) p h d = Undef OobRead /\
     forall x, In x (c :: l) -> replace_with_html (Some bl) x h d = Undef OobRead).
Proof. exact u_empty_fragment. Qed.
Print Assumptions C35_empty_fragment_refuted.
Example C35_ex : reachable ex2 /\ parse_extra (Some []) (B " <!-- c --> ") ex2 = Ok (true, ex2) /\
  node_id ex2 2 /\ children ex2 2 (3 :: [5]) /\ node_id ex2 4 /\ children ex2 4 [].
Proof.
  split; [exact ex2_reachable|]. split; [vm_compute; reflexivity|].
  split; [unfold node_id; simpl; lia|]. split; [kids|]. split; [unfold node_id; simpl; lia|kids].
Qed.

(** ** C36: returned ids.  These calls return a node that is in a child list. *)
Lemma att d p l x : p <> 0 -> children d p l -> In x l -> attached d x.
Proof. intros. now exists p, l. Qed.
Theorem C36_returned_ids_live : forall d, reachable d -> forall p l, node_id d p -> children d p l ->
  (forall e, gives d (op_cost (AppendDoc p e)) (append_document_node p e d) (fun '(x, d') => attached d' x)) /\
  (forall e, gives d (op_cost (PrependDoc p e)) (prepend_document_node p e d) (fun '(x, d') => attached d' x)) /\
  (forall c e, In c l ->
     gives d (op_cost (ReplaceDoc c e)) (replace_with_document_node c e d) (fun '(x, d') => attached d' x)) /\
  (forall s, no_text_end d l \/ (exists c old, ends_with_text d l c old) ->
     gives d 1 (append_text_node p s d) (fun '(x, d') => attached d' x)).
Proof.
  intros d R p l P K. assert (PN : p <> 0) by (unfold node_id in P; lia). split; [|split; [|split]].
  - intros e. eapply gives_imp; [apply (u_append_doc d R p e l P K)|].
    intros [x d'] (_ & C & _). apply (att d' p _ x PN C). apply in_or_app. simpl. tauto.
  - intros e. eapply gives_imp; [apply (u_prepend_doc d R p e l P K)|].
    intros [x d'] (_ & C & _). apply (att d' p _ x PN C). now left.
  - intros c e I. apply in_split in I as (l1 & l2 & ->).
    eapply gives_imp; [apply (u_replace_doc d R p c l1 l2 e K)|].
    intros [x d'] (_ & C & _). apply (att d' p _ x PN C). apply in_elt.
  - intros s [H|(c & old & H)].
    + eapply gives_imp; [apply (u_append_text_new d R p s l P K H)|].
      intros [x d'] (_ & C & _). apply (att d' p _ x PN C). apply in_or_app. simpl. tauto.
    + eapply gives_imp; [apply (u_append_text_merge d R p s l c old P K H)|].
      intros [x d'] (-> & S & _). destruct H as [[l0 ->] _].
      apply (att d' p (l0 ++ [c])); [exact PN| |apply in_or_app; simpl; tauto].
      apply S; [simpl; tauto|exact K].
Qed.
Print Assumptions C36_returned_ids_live.
(** False for [prependTextNode] and [replaceWithTextNode]: whenever they merge,
    the id they return is that of a removed node in no child list. *)
Theorem C36_prepend_text_refuted : forall d, reachable d -> forall p s l c old,
  node_id d p -> children d p l -> starts_with_text d l c old ->
  gives d 1 (prepend_text_node p s d) (fun '(x, d') => kind d' x = Some TRemoved /\ ~ attached d' x).
Proof.
  intros d R p s l c old P K S. eapply gives_imp; [apply (u_prepend_text_merge d R p s l c old P K S)|].
  intros [x d'] (-> & _ & _ & Q & _). destruct (Q (length (nodes d))) as (A & _ & C); [now left|].
  split; [exact A|exact C].
Qed.
Print Assumptions C36_prepend_text_refuted.
Theorem C36_replace_text_refuted : forall d, reachable d -> forall p c l1 l2 s t s' D,
  children d p (l1 ++ c :: l2) -> merges_into d l1 l2 s t s' -> preorder d c D ->
  gives d 1 (replace_with_text_node c s d) (fun '(x, d') => kind d' x = Some TRemoved /\ ~ attached d' x).
Proof.
  intros d R p c l1 l2 s t s' D K M P.
  eapply gives_imp; [apply (u_replace_text_merge d R p c l1 l2 s t s' D K M P)|].
  intros [x d'] (-> & _ & _ & Q & _). destruct (Q (length (nodes d))) as (A & _ & C); [now left|].
  split; [exact A|exact C].
Qed.
Print Assumptions C36_replace_text_refuted.
(** [replaceWithHTMLFromString] may return 0 although it succeeded, or the id of
    a node that has nothing to do with the replacement. *)
Definition ex3 : dom := Eval vm_compute in the_dom "<p>a<b>x</b></p>".
Definition ex4 : dom := Eval vm_compute in the_dom "<p><i></i><b>x</b>y</p>".
Theorem C36_replace_html_refuted :
  (reachable ex3 /\ children ex3 2 [3; 4] /\
   exists d', replace_with_html (Some []) 4 (B "z") ex3 = Ok (0, d') /\ children d' 2 [3] /\
     text_of d' 3 = Some (B "a z")) /\
  (reachable ex4 /\ children ex4 2 [3; 4; 6] /\
   exists d', replace_with_html (Some []) 4 (B "z") ex4 = Ok (3, d') /\ children d' 2 [3; 6] /\
     text_of d' 6 = Some (B "z y") /\ tag_name d' 3 = Some (B "i")).
Proof.
  split.
  - split; [apply (reach_create (B "<p>a<b>x</b></p>")); vm_compute; reflexivity|]. split; [kids|].
    match goal with |- exists d', ?x = _ /\ _ => let y := eval vm_compute in x in
      match y with Ok (_, ?d) => exists d end end.
    split; [vm_compute; reflexivity|]. split; [kids|reflexivity].
  - split; [apply (reach_create (B "<p><i></i><b>x</b>y</p>")); vm_compute; reflexivity|]. split; [kids|].
    match goal with |- exists d', ?x = _ /\ _ => let y := eval vm_compute in x in
      match y with Ok (_, ?d) => exists d end end.
    split; [vm_compute; reflexivity|]. split; [kids|]. split; reflexivity.
Qed.
Print Assumptions C36_replace_html_refuted.
Example C36_ex : reachable ex1 /\ node_id ex1 5 /\ children ex1 5 ([6] ++ 7 :: [9]) /\ room_for ex1 5 /\
  starts_with_text ex1 [6; 7; 9] 6 (B "one") /\ ends_with_text ex1 [6; 7; 9] 9 (B "three").
Proof.
  split; [exact ex1_reachable|]. split; [unfold node_id; simpl; lia|]. split; [simpl; kids|]. split; [rm|].
  split; [split; [now exists [7; 9]|reflexivity]|]. split; [now exists [6; 7]|reflexivity].
Qed.

(** ** C62 (false): after removing a node, getParent answers 0 and removing it
    again is harmless.  Prepending registers the old children a second time, so
    a removed node keeps a parent entry; a second removal dereferences NULL. *)
Definition ex5 : dom := Eval vm_compute in
  match run [] (PrependDoc 2 (mkDoc (B "i") true [] [])) ex2 with
  | Ok d => match run [] (Remove 3) d with Ok d => d | _ => empty_dom end | _ => empty_dom end.
Lemma ex5_later : later ex2 ex5.
Proof.
  eapply (later_step _ [] (PrependDoc 2 (mkDoc (B "i") true [] []))).
  - simpl. unfold node_id. simpl. lia.
  - vm_compute. reflexivity.
  - eapply (later_step _ [] (Remove 3)); [|vm_compute; reflexivity|apply later_refl].
    exists 2, [6; 3; 5]. split; [discriminate|]. split; [kids|simpl; tauto].
Qed.
Theorem C62_removed_parent_refuted :
  ~ (forall d n, reachable d -> kind d n = Some TRemoved -> get_parent n d = 0) .
Proof.
  intros H. assert (E : get_parent 3 ex5 = 0).
  { apply H; [exact (later_reachable _ _ ex5_later ex2_reachable)|reflexivity]. }
  vm_compute in E. discriminate.
Qed.
Print Assumptions C62_removed_parent_refuted.
Definition ex6 : dom := Eval vm_compute in
  match run [] (Remove 6) ex5 with
  | Ok d => match run [] (Remove 5) d with Ok d => d | _ => empty_dom end | _ => empty_dom end.
Lemma ex6_later : later ex5 ex6.
Proof.
  eapply (later_step _ [] (Remove 6)); [|vm_compute; reflexivity|].
  - exists 2, [6; 5]. split; [discriminate|]. split; [kids|simpl; tauto].
  - eapply (later_step _ [] (Remove 5)); [|vm_compute; reflexivity|apply later_refl].
    exists 2, [5]. split; [discriminate|]. split; [kids|simpl; tauto].
Qed.
Theorem C62_double_remove_refuted :
  ~ (forall d n, reachable d -> kind d n = Some TRemoved -> exists d', remove_node n d = Ok d').
Proof.
  intros H. destruct (H ex6 3) as [d' E].
  - exact (later_reachable _ _ ex6_later (later_reachable _ _ ex5_later ex2_reachable)).
  - reflexivity.
  - vm_compute in E. discriminate.
Qed.
Print Assumptions C62_double_remove_refuted.

(** ** C63 (false): after replaceWithHTML no removed node is in a child list.  A
    fragment of exactly two text nodes that both merge puts one of the removed
    nodes into the tree. *)
Definition ex7 : dom := Eval vm_compute in the_dom "<p>a<b>x</b>y</p>".
Theorem C63_replace_html_reattaches_removed_refuted :
  ~ (forall d bl h n x d', reachable d -> attached d n -> has_nodes d bl h ->
       replace_with_html (Some bl) n h d = Ok (x, d') ->
       forall c, attached d' c -> kind d' c <> Some TRemoved).
Proof.
  intros H.
  set (o := replace_with_html (Some []) 4 (B "u< v") ex7).
  destruct o as [[x d']| | |] eqn:E; unfold o in E; vm_compute in E; try discriminate.
  injection E as <- <-.
  eapply (H ex7 [] (B "u< v") 4); [| | |vm_compute; reflexivity| |].
  - apply (reach_create (B "<p>a<b>x</b>y</p>")). vm_compute. reflexivity.
  - exists 2, [3; 4; 6]. split; [discriminate|]. split; [kids|simpl; tauto].
  - intros d1 E.
    match type of E with ?x = _ => let y := eval vm_compute in x in change (y = Ok (true, d1)) in E end.
    injection E as <-. simpl. lia.
  - exists 2. eexists. split; [discriminate|]. split; [kids|right; left; reflexivity].
  - reflexivity.
Qed.
Print Assumptions C63_replace_html_reattaches_removed_refuted.
(** Exactly then, in every document: the fragment has two top-level nodes, both text, and
    the siblings on both sides are text too. *)
Theorem C63_reattached_iff : forall d, reachable d -> forall bl h d1,
  parse_extra (Some bl) h d = Ok (true, d1) -> length (nodes d) < length (nodes d1) ->
  forall p c l1 l2, children d p (l1 ++ c :: l2) ->
  forall x d', replace_with_html (Some bl) c h d = Ok (x, d') ->
  ((exists m, attached d' m /\ kind d' m = Some TRemoved) <->
   exists b, sibs d1 (length (nodes d)) [length (nodes d); b] /\
     is_text_node d1 (length (nodes d)) /\ is_text_node d1 b /\
     (exists t l, l1 = l ++ [t] /\ is_text_node d1 t) /\
     (exists t l, l2 = t :: l /\ is_text_node d1 t)).
Proof. exact ghost_iff. Qed.
Print Assumptions C63_reattached_iff.
(** What is left behind: the second text node, already removed, stands in the place of the
    replaced node, and its id is returned. *)
Theorem C63_reattached : forall d, reachable d -> forall bl h d1,
  parse_extra (Some bl) h d = Ok (true, d1) -> length (nodes d) < length (nodes d1) ->
  forall p c l1 l2, children d p (l1 ++ c :: l2) ->
  forall b, sibs d1 (length (nodes d)) [length (nodes d); b] ->
  is_text_node d1 (length (nodes d)) -> is_text_node d1 b ->
  (exists t l, l1 = l ++ [t] /\ is_text_node d1 t) ->
  (exists t l, l2 = t :: l /\ is_text_node d1 t) ->
  exists d', replace_with_html (Some bl) c h d = Ok (b, d') /\
    children d' p (l1 ++ b :: l2) /\ kind d' b = Some TRemoved.
Proof.
  intros d R bl h d1 E L p c l1 l2 H b S1 T1 T2 T3 T4.
  destruct (ghost_ok d R bl h d1 E L p c l1 l2 H b) as (d' & E' & _ & C & K & _).
  - unfold ghost_case. auto.
  - eauto.
Qed.
Print Assumptions C63_reattached.
Definition ex7_frag : dom := Eval vm_compute in
  match parse_extra (Some []) (B "u< v") ex7 with Ok (_, d) => d | _ => empty_dom end.
Example C63_iff_ex : parse_extra (Some []) (B "u< v") ex7 = Ok (true, ex7_frag) /\
  length (nodes ex7) < length (nodes ex7_frag) /\ children ex7 2 ([3] ++ 4 :: [6]) /\
  sibs ex7_frag 7 [7; 8] /\ is_text_node ex7_frag 7 /\ is_text_node ex7_frag 8 /\
  is_text_node ex7_frag 3 /\ is_text_node ex7_frag 6.
Proof.
  split; [vm_compute; reflexivity|]. split; [simpl; lia|]. split; [simpl; kids|]. split; [sib|].
  repeat split; eexists; reflexivity.
Qed.
