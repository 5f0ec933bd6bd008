(** * Properties of reading, attributes, navigation and histories (C15-C23, C37). *)
From Coq Require Import String List NArith Arith Bool Lia.
From Verif Require Import Base TrieModel DomModel ParserModel EditModel ReadModel DomSpec ApiSpec
  ReadUser ReadLeak Examples PropsParse.
Import ListNotations.
Local Open Scope nat_scope.

(** ** C15: attribute queries.  [bool_attrs] and [attrs] list the current
    attributes of a node; the four functions answer exactly about them. *)
Theorem C15_attribute_queries : forall d, reachable d -> forall n, n <> 0 ->
  (forall b, exists r, has_bool_prop n b d = Ok r /\ (r = true <-> In b (bool_attrs d n))) /\
  (forall k, exists r, has_prop_key n k d = Ok r /\ (r = true <-> exists v, In (k, v) (attrs d n))) /\
  (forall v, exists r, has_prop_value n v d = Ok r /\ (r = true <-> exists k, In (k, v) (attrs d n))) /\
  (forall k v, exists r, has_property n k v d = Ok r /\ (r = true <-> In (k, v) (attrs d n))).
Proof.
  intros d R n N. repeat split.
  - intros b. now apply u_has_bool.
  - intros k. destruct (u_has_key d R n k N) as (r & E & H). exists r. split; [exact E|].
    rewrite H, in_map_iff. split.
    + intros ([k' v] & <- & I). exists v. exact I.
    + intros (v & I). exists (k, v). split; [reflexivity|exact I].
  - intros v. destruct (u_has_value d R n v N) as (r & E & H). exists r. split; [exact E|].
    rewrite H, in_map_iff. split.
    + intros ([k' v'] & <- & I). exists k'. exact I.
    + intros (k & I). exists (k, v). split; [reflexivity|exact I].
  - intros k v. now apply u_has_property.
Qed.
Print Assumptions C15_attribute_queries.
Example C15_ex : reachable ex1 /\ bool_attrs ex1 4 = [B "hidden"] /\ attrs ex1 4 = [(B "class", B "a b")] /\
  has_property 4 (B "class") (B "a b") ex1 = Ok true /\ has_property 4 (B "class") (B "x") ex1 = Ok false.
Proof. split; [exact ex1_reachable|]. repeat split. Qed.

(** ** C16: [getValue]. *)
Theorem C16_get_value_first : forall d, reachable d -> forall n k, n <> 0 ->
  (forall l1 v l2, attrs d n = l1 ++ (k, v) :: l2 -> (forall v', ~ In (k, v') l1) ->
     get_value n k d = Ok v) /\
  ((forall v, ~ In (k, v) (attrs d n)) -> get_value n k d = Ok []).
Proof.
  intros d R n k N. rewrite (u_get_value d R n k N). split.
  - intros l1 v l2 -> H. rewrite AttrProofs.first_value_at; [reflexivity|].
    intros I. apply in_map_iff in I as ([k' v'] & <- & I). exact (H v' I).
  - intros H. rewrite AttrProofs.first_value_none; [reflexivity|].
    intros I. apply in_map_iff in I as ([k' v'] & <- & I). exact (H v' I).
Qed.
Print Assumptions C16_get_value_first.
Example C16_ex : reachable ex1 /\ attrs ex1 5 = [] ++ (B "id", B "x") :: [] /\
  get_value 5 (B "id") ex1 = Ok (B "x") /\ get_value 5 (B "class") ex1 = Ok [].
Proof. split; [exact ex1_reachable|]. repeat split. Qed.

(** ** C17: [setPropertyValue]. *)
Theorem C17_set_property_value : forall d, reachable d -> forall n k v, n <> 0 ->
  gives d 1 (set_property_value n k v d) (fun '(ok, d') =>
    (ok = true <-> In k (map fst (attrs d n))) /\
    (ok = false -> d' = d) /\
    (ok = true -> only_attrs_of d d' n /\ attrs d' n = set_first k v (attrs d n) /\
       bool_attrs d' n = bool_attrs d n /\ get_value n k d' = Ok v)).
Proof. exact u_set_prop. Qed.
Print Assumptions C17_set_property_value.
Example C17_ex : reachable ex1 /\ room_for ex1 1 /\ In (B "class") (map fst (attrs ex1 4)) /\
  ~ In (B "id") (map fst (attrs ex1 4)).
Proof.
  split; [exact ex1_reachable|]. split; [vm_compute; repeat split; discriminate|].
  split; vm_compute; intuition discriminate.
Qed.

(** ** C18: removing an attribute. *)
Theorem C18_remove_attribute : forall d, reachable d -> forall n, n <> 0 ->
  (forall k, exists d', remove_property n k d = Ok d' /\ only_attrs_of d d' n /\
     attrs d' n = remove_first (fun kv => beq k (fst kv)) (attrs d n) /\
     bool_attrs d' n = bool_attrs d n) /\
  (forall b, exists d', remove_bool_property n b d = Ok d' /\ only_attrs_of d d' n /\
     bool_attrs d' n = remove_first (beq b) (bool_attrs d n) /\ attrs d' n = attrs d n).
Proof. intros d R n N. split; intros; [now apply u_remove_prop|now apply u_remove_bool]. Qed.
Print Assumptions C18_remove_attribute.
Example C18_ex : reachable ex1 /\ remove_first (beq (B "hidden")) (bool_attrs ex1 4) = [] /\
  remove_first (fun kv : bytes * bytes => beq (B "class") (fst kv)) (attrs ex1 4) = [].
Proof. split; [exact ex1_reachable|]. split; reflexivity. Qed.

(** ** C19: adding an attribute. *)
Theorem C19_add_attribute : forall d, reachable d -> forall n, node_id d n ->
  (forall k v, gives d 1 (add_property n k v d) (fun d' => only_attrs_of d d' n /\
     attrs d' n = attrs d n ++ [(k, v)] /\ bool_attrs d' n = bool_attrs d n)) /\
  (forall b, gives d 1 (add_bool_property n b d) (fun d' => only_attrs_of d d' n /\
     bool_attrs d' n = bool_attrs d n ++ [b] /\ attrs d' n = attrs d n)).
Proof. intros d R n N. split; intros; [now apply u_add_prop|now apply u_add_bool]. Qed.
Print Assumptions C19_add_attribute.
Example C19_ex : reachable ex1 /\ node_id ex1 4 /\ room_for ex1 1.
Proof.
  split; [exact ex1_reachable|]. split; [unfold node_id; simpl; lia|].
  vm_compute; repeat split; discriminate.
Qed.

(** ** C20: navigation.  Every node has exactly one child list; it has no
    repetitions, its members are elements or text nodes with larger ids, and
    the lists of different parents are disjoint. *)
Theorem C20_child_lists : forall d, reachable d -> forall p,
  exists l, children d p l /\ NoDup l /\ (forall l', children d p l' -> l' = l) /\
    (forall c, In c l -> 1 <= p < c /\ c < length (nodes d) /\
       (kind d c = Some TDocument \/ kind d c = Some TText)) /\
    (forall c q m, In c l -> children d q m -> In c m -> q = p).
Proof. exact u_children. Qed.
Print Assumptions C20_child_lists.
(** The navigation functions agree with the child lists. *)
Theorem C20_navigation : forall d, reachable d -> forall p l1 c l2,
  children d p (l1 ++ c :: l2) ->
  get_parent c d = p /\ get_next c d = hd 0 l2 /\ get_previous c d = last l1 0 /\
  get_first_child p d = hd 0 (l1 ++ c :: l2) /\ get_last_next c d = Ok (last l2 c).
Proof. exact u_nav. Qed.
Print Assumptions C20_navigation.
Theorem C20_parents_decrease : forall d, reachable d -> forall c,
  get_parent c d <> 0 -> get_parent c d < c.
Proof. exact u_parent_chain. Qed.
Print Assumptions C20_parents_decrease.
Example C20_ex : reachable ex1_edited /\ children ex1_edited 5 ([6] ++ 9 :: [12]) /\
  get_parent 9 ex1_edited = 5 /\ get_next 9 ex1_edited = 12 /\ get_previous 9 ex1_edited = 6.
Proof.
  split; [exact (later_reachable _ _ ex1_later ex1_reachable)|]. split; [simpl; kids|]. repeat split.
Qed.

(** [flo_html_getLastNextNode] finds the sibling link that ends at the last
    sibling, and nothing for the last sibling itself. *)
Theorem C20_last_sibling_link : forall d, reachable d -> forall p l1 z,
  children d p (l1 ++ [z]) ->
  get_last_next_node z d = Ok None /\
  (forall l0 a c, l1 = l0 ++ [a] -> In c l1 ->
     exists i, get_last_next_node c d = Ok (Some i) /\ nth_error (nexts d) i = Some (a, z)).
Proof. exact u_last_next_node. Qed.
Print Assumptions C20_last_sibling_link.
Example C20_link_ex : children ex1_edited 5 ([6; 9] ++ [12]) /\
  get_last_next_node 12 ex1_edited = Ok None /\
  (exists i, get_last_next_node 6 ex1_edited = Ok (Some i) /\ nth_error (nexts ex1_edited) i = Some (9, 12)).
Proof.
  split; [simpl; kids|]. split; [reflexivity|]. eexists. split; [vm_compute; reflexivity|]. reflexivity.
Qed.

(** ** C21: [traverseDom] enumerates the tree in pre-order.  The pre-order
    exists, is unique, has no repetitions and lists exactly the nodes below. *)
Theorem C21_traverse_dom : forall d, reachable d ->
  exists l, preorder d 1 (1 :: l) /\ dom_walk d 1 l /\ NoDup (1 :: l) /\
    (forall x, In x (1 :: l) <-> below_eq d 1 x).
Proof.
  intros d R. destruct (u_preorder d R 1) as (l & P & N & _ & B); [discriminate|].
  exists l. split; [exact P|]. split; [now apply u_traverse_dom|]. split; [exact N|exact B].
Qed.
Print Assumptions C21_traverse_dom.
Example C21_ex : reachable ex1_edited /\ preorder ex1_edited 1 (1 :: [2; 3; 4; 5; 6; 9; 12; 10; 11]).
Proof. split; [exact (later_reachable _ _ ex1_later ex1_reachable)|pre_ord]. Qed.

(** ** C22: [traverseNode] enumerates the subtree if the node has a child or no
    next sibling. *)
Theorem C22_traverse_node : forall d, reachable d -> forall s l cs, s <> 0 ->
  preorder d s (s :: l) -> children d s cs -> cs <> [] \/ get_next s d = 0 ->
  node_walk d s s l.
Proof. exact u_traverse_node. Qed.
Print Assumptions C22_traverse_node.
(** ... and leaves it otherwise: at every childless node with a next sibling. *)
Theorem C22_traverse_node_leaks : forall d, reachable d -> forall p l1 s b l2,
  children d p (l1 ++ s :: b :: l2) -> children d s [] ->
  traverse_node s s d = Ok b /\ ~ node_walk d s s [].
Proof.
  intros d R p l1 s b l2 H K.
  destruct (u_nav d R _ _ _ _ H) as (_ & E & _). simpl in E.
  destruct (u_children d R p) as (l & Hl & ND & U & M & _). pose proof (U _ H) as EQ. subst l.
  assert (T : traverse_node s s d = Ok b).
  { apply u_traverse_node_leak; [now inversion K|exact E| |].
    - assert (I : In b (l1 ++ s :: b :: l2)) by (apply in_or_app; simpl; tauto).
      destruct (M b I). lia.
    - intros ->. apply NoDup_remove_2 in ND. apply ND. apply in_or_app. simpl. tauto. }
  split; [exact T|]. intros W. inversion W as [? T0|]. rewrite T in T0. injection T0 as T0.
  assert (I : In b (l1 ++ s :: b :: l2)) by (apply in_or_app; simpl; tauto).
  destruct (M b I). lia.
Qed.
Print Assumptions C22_traverse_node_leaks.
Theorem C22_refuted : ~ (forall d s l, reachable d -> s <> 0 -> preorder d s (s :: l) -> node_walk d s s l).
Proof.
  intros H. destruct (C22_traverse_node_leaks ex1 ex1_reachable 4 [5] 10 11 []) as [_ X].
  - simpl. kids.
  - kids.
  - apply X. apply H; [exact ex1_reachable|discriminate|pre_ord].
Qed.
Print Assumptions C22_refuted.
(** Exactly: from an element without children but with a next sibling the walk goes
    on to the end of the document. *)
Theorem C22_leak_exact : forall d, reachable d -> forall s a b, s <> 0 -> children d s [] ->
  preorder d 1 (a ++ s :: b) -> get_next s d <> 0 -> node_walk d s s b.
Proof. intros d R s a b S0 H P N. exact (proj1 (u_leak d R s S0 H a b P N)). Qed.
Print Assumptions C22_leak_exact.
Example C22_ex : reachable ex1 /\ preorder ex1 5 (5 :: [6; 7; 8; 9]) /\ children ex1 5 [6; 7; 9] /\
  children ex1 4 ([5] ++ 10 :: 11 :: []) /\ children ex1 10 [].
Proof.
  split; [exact ex1_reachable|]. split; [pre_ord|]. split; [kids|]. split; [simpl; kids|kids].
Qed.

(** ** C23: [getTextContent]; [texts] lists the texts of the given nodes. *)
Theorem C23_text_content : forall d, reachable d -> forall s l cs, s <> 0 ->
  preorder d s (s :: l) -> children d s cs -> cs <> [] \/ get_next s d = 0 ->
  get_text_content s d = Ok (texts d l).
Proof. exact u_text_content. Qed.
Print Assumptions C23_text_content.
(** An empty element "contains" the text after it. *)
Theorem C23_refuted : ~ (forall d s, reachable d -> s <> 0 -> children d s [] -> get_text_content s d = Ok []).
Proof.
  intros H. assert (E : get_text_content 10 ex1 = Ok [B "tail"]) by (vm_compute; reflexivity).
  rewrite (H ex1 10 ex1_reachable) in E; [discriminate|discriminate|kids].
Qed.
Print Assumptions C23_refuted.
Theorem C23_leak_exact : forall d, reachable d -> forall s a b, s <> 0 -> children d s [] ->
  preorder d 1 (a ++ s :: b) -> get_next s d <> 0 -> get_text_content s d = Ok (texts d b).
Proof. intros d R s a b S0 H P N. exact (proj2 (u_leak d R s S0 H a b P N)). Qed.
Print Assumptions C23_leak_exact.
Example C23_leak_ex : reachable ex1 /\ children ex1 10 [] /\ get_next 10 ex1 = 11 /\
  preorder ex1 1 ([1; 2; 3; 4; 5; 6; 7; 8; 9] ++ 10 :: [11]) /\ texts ex1 [11] = [B "tail"].
Proof. split; [exact ex1_reachable|]. split; [kids|]. split; [reflexivity|]. split; [simpl; pre_ord|reflexivity]. Qed.
Example C23_ex : reachable ex1 /\ preorder ex1 5 (5 :: [6; 7; 8; 9]) /\ children ex1 5 [6; 7; 9] /\
  texts ex1 [6; 7; 8; 9] = [B "one"; B "two"; B "three"].
Proof. split; [exact ex1_reachable|]. split; [pre_ord|]. split; [kids|reflexivity]. Qed.

(** ** C37: every valid call on a reachable DOM ends in a reachable DOM, or
    jumps because a limit is hit; it has no undefined behaviour unless the
    fragment ends with a quote; it terminates.  With C20/C21 this says that
    every history keeps the DOM a tree. *)
Theorem C37_histories : forall d, reachable d -> forall bl o,
  valid d bl o -> ~ ends_quote (fragment o) ->
  gives d (op_cost o) (run bl o d) reachable.
Proof. exact u_run. Qed.
Print Assumptions C37_histories.
Theorem C37_only_quotes_go_wrong : forall d, reachable d -> forall bl o, valid d bl o ->
  run bl o d <> NoFuel /\
  forall u, run bl o d = Undef u -> u = NegLen /\ ends_quote (fragment o).
Proof. intros d R bl o V. split; [now apply u_run_fuel|intros u; now apply u_run_ub]. Qed.
Print Assumptions C37_only_quotes_go_wrong.
Example C37_ex : reachable ex1 /\ valid ex1 [] (AppendHtml 4 (B "x <i>y</i>")) /\
  ~ ends_quote (fragment (AppendHtml 4 (B "x <i>y</i>"))) /\
  valid ex1 [] (ReplaceHtml 7 (B "u<i>v</i>w")).
Proof.
  split; [exact ex1_reachable|]. split; [|split].
  - split; [unfold node_id; simpl; lia|]. intros d1 E.
    match type of E with ?x = _ => let y := eval vm_compute in x in change (y = Ok (true, d1)) in E end.
    injection E as <-. simpl. lia.
  - apply no_quote; vm_compute; discriminate.
  - split; [|split].
    + exists 5, [6; 7; 9]. split; [discriminate|]. split; [kids|simpl; tauto].
    + intros d1 E.
      match type of E with ?x = _ => let y := eval vm_compute in x in change (y = Ok (true, d1)) in E end.
      injection E as <-. simpl. lia.
    + intros d1 p l1 l2 E K [(S & _)|(b & S & _)].
      all: match type of E with ?x = _ => let y := eval vm_compute in x in change (y = Ok (true, d1)) in E end;
        injection E as <-; inversion S as [|? ? ? S1]; subst; inversion S1 as [|? ? ? S2]; subst;
        inversion S2.
Qed.
