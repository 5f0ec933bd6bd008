(** * What every selector string means (C86-C88).
    Statements with one-line proofs and examples.  The reference reader of selector
    strings is in [SelectorSpec]: [parts] splits at commas, [read_part] gives the
    elements of one part - each a list of conditions with the combinator before it -
    and how the part ends. *)
From Coq Require Import String List NArith Arith Bool Lia.
From Verif Require Import Base TrieModel DomModel ParserModel EditModel ReadModel DomSpec ApiSpec MsiModel QueryModel
  QuerySpec SelectorSpec TreeSpec Lemmas SelectorUser SelectorTree TreeLawsUser Examples PropsQuery PropsTree.
Import ListNotations.
Local Open Scope nat_scope.

(** ** C86: every byte string, also a malformed one, is either accepted, and then
    the result is the union of what its parts pick; or its first refused part
    decides the status and the result is empty. *)
Theorem C86_accepted : forall d, reachable d -> forall lo css,
  (forall p, In p (parts css) -> accepted d (read_part p)) ->
  exists r, query_selector_all lo css d = Ok (QSuccess, r) /\ NoDup r /\
    forall n, In n r <-> exists p, In p (parts css) /\ picks lo d (fst (read_part p)) n.
Proof. exact sel_accepted. Qed.
Print Assumptions C86_accepted.
Theorem C86_refused : forall d, reachable d -> forall lo css a p b st,
  parts css = a ++ p :: b -> (forall p, In p a -> accepted d (read_part p)) ->
  refused d (read_part p) st -> query_selector_all lo css d = Ok (st, []).
Proof. exact sel_refused. Qed.
Print Assumptions C86_refused.
(** There is no third case. *)
Theorem C86_decided : forall d, reachable d -> forall css,
  (forall p, In p (parts css) -> accepted d (read_part p)) \/
  exists a p b st, parts css = a ++ p :: b /\ (forall p, In p a -> accepted d (read_part p)) /\
    refused d (read_part p) st.
Proof. exact sel_decided. Qed.
Print Assumptions C86_decided.

(** The character classes the reader shares with the engine, in numbers. *)
Theorem C86_alphabet :
  (forall c, is_tag_start c = true <-> (65 <= c <= 90 \/ 97 <= c <= 122 \/ c = 33)%N) /\
  (forall c, is_elem_start c = true <-> is_tag_start c = true \/ In c (B ".#")) /\
  (forall c, end_of_filter c = true <-> c = 9%N \/ c = 10%N \/ c = 13%N \/ In c (B " >+~[.#")) /\
  [cEQ; cLB; cRB; cDOT; cHASH; cGT; cPLUS; cTILDE; cSTAR; cCOMMA] = B "=[].#>+~*," /\
  s_class = B "class" /\ s_id = B "id".
Proof.
  split; [|split; [|split; [|repeat split]]].
  - intros c. unfold is_tag_start, is_alpha. rewrite !orb_true_iff, !andb_true_iff, !N.leb_le, N.eqb_eq.
    unfold cBANG. lia.
  - intros c. unfold is_elem_start. rewrite !orb_true_iff, !N.eqb_eq. simpl. unfold cDOT, cHASH. intuition.
  - intros c. unfold end_of_filter, is_spec_comb, is_fmt. rewrite !orb_true_iff, !N.eqb_eq. simpl.
    unfold cSP, cGT, cPLUS, cTILDE, cTAB, cNL, cCR, cLB, cDOT, cHASH. lia.
Qed.
Print Assumptions C86_alphabet.
(** A combinator before the first element is ignored, stray closing brackets too;
    the last of several combinators counts; a class name goes on over '.'. *)
Example C86_ex_read :
  parts (B "a,,b,") = [B "a"; []; B "b"] /\
  read_part (B " > body ++> p]] ~ [ id = x ][") =
    ([(None, [Is (Tag (B "body"))]); (Some Child, [Is (Tag (B "p]]"))]);
      (Some LaterSib, [Is (AttrIs (B "id") (B "x"))])], Complete) /\
  read_part (B "*[hidden] b") = ([(None, [Any; Is (Attr (B "hidden"))]); (Some Descendant, [Is (Tag (B "b"))])], Complete) /\
  read_part (B ".a > p") = ([(None, [Is (AttrIs (B "class") (B "a"))])], Complete) /\
  read_part (B "p [") = ([(None, [Is (Tag (B "p"))])], NoCondition) /\
  read_part (B "+ ~") = ([], Complete).
Proof. vm_compute. repeat split. Qed.
Ltac known_go := intros r cs x I J; simpl in I;
  repeat (destruct I as [I|I]; [injection I as <- <-; simpl in J;
     repeat (destruct J as [J|J]; [try discriminate J; injection J as <-; vm_compute|]); try contradiction|]);
  try contradiction.
Ltac name_at_idx i := exists i; split; [discriminate|reflexivity].
(** On [ex1] the part "* ~ > p[id =x]" picks [p] (the last combinator counts), a
    blank part nothing; a part with an unclosed bracket is refused. *)
Example C86_ex : reachable ex1 /\
  (forall p, In p (parts (B "* ~ > p[id =x], ,")) -> accepted ex1 (read_part p)) /\
  query_selector_all (fun _ => 0) (B "* ~ > p[id =x], ,") ex1 = Ok (QSuccess, [5]) /\
  picks (fun _ => 0) ex1 (fst (read_part (B "* ~ > p[id =x]"))) 5 /\
  refused ex1 (read_part (B " [ hidden")) QInvalid /\
  query_selector_all (fun _ => 0) (B "* ~ > p[id =x], [ hidden") ex1 = Ok (QInvalid, []) /\
  refused ex1 (read_part (B "body nav")) QNotSeen.
Proof.
  split; [exact ex1_reachable|]. split; [|split; [vm_compute; reflexivity|]].
  - intros p [<-|[<-|[]]]; (split; [|reflexivity]); known_go; try name_at_idx 4; try (split; name_at_idx 1).
    split; [name_at_idx 2|name_at_idx 2].
  - split; [|split; [|split; [vm_compute; reflexivity|]]].
    + change (fst (read_part (B "* ~ > p[id =x]"))) with
        [(None, [Any]); (Some Child, [Is (Tag (B "p")); Is (AttrIs (B "id") (B "x"))])].
      split; cbn [snd fst].
      * split; [|split; [vm_compute; auto|exact I]].
        exists (mkNode 5 TDocument (PTag 4)), 4. split; [reflexivity|]. split; [now left|]. split; [discriminate|reflexivity].
      * exists 4. split; [|split; reflexivity]. split; [exact I|]. vm_compute. lia.
    + right. split; [intros ? ? ? []|left; split; reflexivity].
    + left. split; [|reflexivity]. intros K. specialize (K (Some Descendant) [Is (Tag (B "nav"))] (Tag (B "nav"))).
      destruct K as (i & N & E); [vm_compute; auto|now left|].
      do 8 (destruct i as [|i]; [discriminate E|]). destruct i; discriminate E.
Qed.

(** ** C87: among the nodes of the tree, a query is a matter of the tree alone,
    after every history; [querySelector] gives the first one in document order, and
    the edits through a selector apply to it. *)
Theorem C87_in_tree : forall d, reachable d -> forall lo css, no_collision lo d -> accepted_css d css ->
  exists r, query_selector_all lo css d = Ok (QSuccess, r) /\ NoDup r /\
    forall n, below_eq d 1 n -> (In n r <-> chosen d css n).
Proof. exact q_chosen. Qed.
Print Assumptions C87_in_tree.
Theorem C87_first : forall d, reachable d -> forall lo css w,
  no_collision lo d -> accepted_css d css -> preorder d 1 w ->
  (exists a n b, w = a ++ n :: b /\ chosen d css n /\ (forall x, In x a -> ~ chosen d css x) /\
     query_selector lo css d = Ok (QSuccess, Some n)) \/
  ((forall x, ~ chosen d css x) /\
   (query_selector lo css d = Ok (QSuccess, Some 0) \/ query_selector lo css d = Ok (QSuccess, None))).
Proof. exact q_first. Qed.
Print Assumptions C87_first.
Theorem C87_edit_first : forall d, reachable d -> forall lo css w f,
  no_collision lo d -> accepted_css d css -> preorder d 1 w ->
  (exists a n b, w = a ++ n :: b /\ chosen d css n /\ (forall x, In x a -> ~ chosen d css x) /\
     with_query lo css f d = f n d) \/
  ((forall x, ~ chosen d css x) /\ with_query lo css f d = f 0 d).
Proof. exact q_edit. Qed.
Print Assumptions C87_edit_first.
(** Documents that look the same answer alike ... *)
Theorem C87_same_look : forall d d', reachable d -> reachable d' -> looks_same d d' ->
  forall css n, chosen d css n <-> chosen d' css n.
Proof. exact same_chosen. Qed.
Print Assumptions C87_same_look.
Theorem C87_same_first : forall d d', reachable d -> reachable d' -> looks_same d d' -> forall lo lo' css,
  no_collision lo d -> no_collision lo' d' -> accepted_css d css -> accepted_css d' css ->
  (exists n, n <> 0 /\ query_selector lo css d = Ok (QSuccess, Some n) /\
     query_selector lo' css d' = Ok (QSuccess, Some n)) \/
  ((forall n, n <> 0 -> query_selector lo css d <> Ok (QSuccess, Some n)) /\
   (forall n, n <> 0 -> query_selector lo' css d' <> Ok (QSuccess, Some n))).
Proof. exact same_first. Qed.
Print Assumptions C87_same_first.
(** ... except for the status: a name that has been in the document once is known
    for ever, and then a query without result succeeds. *)
Theorem C87_status_refuted : exists d d', reachable d /\ reachable d' /\ looks_same d d' /\
  query_selector_all (fun _ => 0) (B "[k=v]") d = Ok (QNotSeen, []) /\
  query_selector_all (fun _ => 0) (B "[k=v]") d' = Ok (QSuccess, []).
Proof.
  exists ex1, d_add'. destruct C85_ex_attributes as (Id & Nk & E1 & E2 & _).
  assert (R1 : reachable d_add) by (exact (reach_step ex1 [] (AddProp 5 (B "k") (B "v")) d_add ex1_reachable Id E1)).
  assert (R2 : reachable d_add').
  { refine (reach_step d_add [] (RemoveProp 5 (B "k")) d_add' R1 _ E2). vm_compute. lia. }
  split; [exact ex1_reachable|]. split; [exact R2|].
  split; [exact (law_undo_prop ex1 ex1_reachable [] [] 5 (B "k") (B "v") d_add d_add' Id Nk E1 E2)|].
  split; vm_compute; reflexivity.
Qed.
Print Assumptions C87_status_refuted.
Example C87_ex : reachable ex1 /\ no_collision (fun _ => 0) ex1 /\ accepted_css ex1 (B "body > p, br") /\
  preorder ex1 1 ([1; 2; 3; 4] ++ 5 :: [6; 7; 8; 9; 10; 11]) /\ chosen ex1 (B "body > p, br") 5 /\
  query_selector (fun _ => 0) (B "body > p, br") ex1 = Ok (QSuccess, Some 5).
Proof.
  split; [exact ex1_reachable|]. split; [intros ? ? _; now left|]. split.
  { intros p [<-|[<-|[]]]; (split; [|reflexivity]); known_go; try name_at_idx 3; try name_at_idx 4. name_at_idx 6. }
  split; [simpl; pre_ord|]. split; [|vm_compute; reflexivity].
  exists (B "body > p"). split; [now left|].
  change (fst (read_part (B "body > p"))) with [(None, [Is (Tag (B "body"))]); (Some Child, [Is (Tag (B "p"))])].
  split; cbn [fst snd].
  - split; [reflexivity|exact I].
  - exists 4. split; [split; [split; [reflexivity|exact I]|]|].
    + cbn [fst]. apply (below_step ex1 1 3 [2; 3] 4); [kids|simpl; auto|].
      apply (below_step ex1 3 4 [4] 4); [kids|simpl; auto|apply below_refl].
    + exists [5; 10; 11]. split; [kids|]. split; [simpl; auto|reflexivity].
Qed.

(** ** C88: a comma means union, for arbitrary strings on both sides; the first
    failure wins. *)
Theorem C88_union : forall d, reachable d -> forall lo a b ra rb,
  query_selector_all lo a d = Ok (QSuccess, ra) -> query_selector_all lo b d = Ok (QSuccess, rb) ->
  exists r, query_selector_all lo (a ++ [cCOMMA] ++ b) d = Ok (QSuccess, r) /\ NoDup r /\
    forall n, In n r <-> In n ra \/ In n rb.
Proof. exact q_union. Qed.
Print Assumptions C88_union.
Theorem C88_union_refused : forall d, reachable d -> forall lo a b st, st <> QSuccess ->
  query_selector_all lo a d = Ok (st, []) \/
  (exists ra, query_selector_all lo a d = Ok (QSuccess, ra)) /\ query_selector_all lo b d = Ok (st, []) ->
  query_selector_all lo (a ++ [cCOMMA] ++ b) d = Ok (st, []).
Proof. exact q_union_refused. Qed.
Print Assumptions C88_union_refused.
Example C88_ex : reachable ex1 /\
  query_selector_all (fun _ => 0) (B "body b,") ex1 = Ok (QSuccess, [7]) /\
  query_selector_all (fun _ => 0) (B "]p,b") ex1 = Ok (QSuccess, [5; 7]) /\
  query_selector_all (fun _ => 0) (B "body b,,]p,b") ex1 = Ok (QSuccess, [5; 7]) /\
  query_selector_all (fun _ => 0) (B "p,[") ex1 = Ok (QInvalid, []).
Proof. split; [exact ex1_reachable|]. vm_compute. repeat split. Qed.
