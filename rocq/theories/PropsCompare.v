(** * Properties of comparison and duplication (C49, C50). *)
From Coq Require Import String List NArith Arith Bool Lia.
From Verif Require Import Base TrieModel DomModel ParserModel EditModel ReadModel DomSpec ApiSpec
  CompareModel CompareSpec CompareProofs DuplicateModel DuplicateProofs ReadUser Examples.
Import ListNotations.
Local Open Scope nat_scope.

(** ** C49: [flo_html_equals].  It never aborts if no node has more than 64
    attributes; it succeeds exactly if the documents are similar; otherwise it
    names two nodes that differ. *)
Theorem C49_equals_exact : forall d1 d2, reachable d1 -> reachable d2 ->
  few_attributes d1 -> few_attributes d2 ->
  exists st i j, dom_equals d1 d2 = Ok (st, i, j) /\
    (st = CSuccess <-> similar d1 d2 1 1) /\
    (st <> CSuccess -> below_eq d1 1 i /\ below_eq d2 1 j /\
       (~ alike d1 i d2 j \/
        exists l1 l2, children d1 i l1 /\ children d2 j l2 /\ length l1 <> length l2)).
Proof. exact equals_exact. Qed.
Print Assumptions C49_equals_exact.

Scheme similar_mut := Minimality for similar Sort Prop
  with similars_mut := Minimality for similars Sort Prop.

Lemma same_strings_refl a : same_strings a a.
Proof. split; [tauto|reflexivity]. Qed.
Lemma same_strings_sym a b : same_strings a b -> same_strings b a.
Proof. intros [H1 H2]. split; [intros s N; symmetry; auto|auto]. Qed.
Lemma same_strings_trans a b c : same_strings a b -> same_strings b c -> same_strings a c.
Proof. intros [H1 H2] [H3 H4]. split; [intros s N; rewrite (H1 s N); auto|congruence]. Qed.
Lemma alike_refl d n : alike d n d n.
Proof. unfold alike. auto 10 using same_strings_refl. Qed.
Lemma alike_sym d1 n d2 m : alike d1 n d2 m -> alike d2 m d1 n.
Proof.
  intros (A & B & C & D & E). do 4 (split; [auto|]). intros K. rewrite <- A in K.
  destruct (E K) as (E1 & E2 & E3). auto using same_strings_sym.
Qed.
Lemma alike_trans d1 n d2 m d3 k : alike d1 n d2 m -> alike d2 m d3 k -> alike d1 n d3 k.
Proof.
  intros (A & B & C & D & E) (A' & B' & C' & D' & E').
  do 4 (split; [congruence|]). intros K. destruct (E K) as (E1 & E2 & E3).
  rewrite A in K. destruct (E' K) as (F1 & F2 & F3). split; [|split]; eapply same_strings_trans; eassumption.
Qed.
Lemma similar_refl d : reachable d -> similar d d 1 1.
Proof.
  intros R. destruct (u_preorder d R 1 ltac:(lia)) as (w & P & _).
  revert P. generalize (1 :: w). generalize 1.
  intros n w' P. revert P.
  apply (preorder_mut d (fun n _ => similar d d n n) (fun l _ => similars d d l l)).
  - intros p cs l C _ S. apply (sim_node d d p p cs cs); auto using alike_refl.
  - constructor.
  - intros. now constructor.
Qed.
Lemma similar_sym d1 d2 n m : similar d1 d2 n m -> similar d2 d1 m n.
Proof.
  apply (similar_mut d1 d2 (fun n m => similar d2 d1 m n) (fun l k => similars d2 d1 k l)).
  - intros a b l1 l2 A C1 C2 _ S. apply (sim_node d2 d1 b a l2 l1); auto using alike_sym.
  - constructor.
  - intros. now constructor.
Qed.
Lemma similar_trans d1 d2 d3 n m : reachable d2 -> similar d1 d2 n m ->
  forall k, similar d2 d3 m k -> similar d1 d3 n k.
Proof.
  intros R2. apply (similar_mut d1 d2 (fun n m => forall k, similar d2 d3 m k -> similar d1 d3 n k)
    (fun l r => forall q, similars d2 d3 r q -> similars d1 d3 l q)).
  - intros a b l1 l2 A C1 C2 _ S k H. inversion H as [? ? l2' l3 A' C2' C3 S']; subst.
    rewrite (kids_unique d2 R2 b _ _ C2' C2) in S'.
    apply (sim_node d1 d3 a k l1 l3); eauto using alike_trans.
  - intros q H. inversion H. constructor.
  - intros a b l1 l2 _ H1 _ H2 q H. inversion H; subst. constructor; auto.
Qed.

Theorem C49_equals_reflexive : forall d, reachable d -> few_attributes d ->
  exists i j, dom_equals d d = Ok (CSuccess, i, j).
Proof.
  intros d R F. destruct (equals_exact d d R R F F) as (st & i & j & E & Q & _).
  exists i, j. rewrite E. now rewrite (proj2 Q (similar_refl d R)).
Qed.
Print Assumptions C49_equals_reflexive.
Theorem C49_equals_symmetric : forall d1 d2 i j, reachable d1 -> reachable d2 ->
  few_attributes d1 -> few_attributes d2 -> dom_equals d1 d2 = Ok (CSuccess, i, j) ->
  exists i' j', dom_equals d2 d1 = Ok (CSuccess, i', j').
Proof.
  intros d1 d2 i j R1 R2 F1 F2 E. destruct (equals_exact d1 d2 R1 R2 F1 F2) as (st & a & b & E1 & Q & _).
  rewrite E in E1. injection E1 as <- <- <-.
  destruct (equals_exact d2 d1 R2 R1 F2 F1) as (st & a & b & E1 & Q' & _).
  exists a, b. rewrite E1. now rewrite (proj2 Q' (similar_sym _ _ _ _ (proj1 Q eq_refl))).
Qed.
Print Assumptions C49_equals_symmetric.
Theorem C49_equals_transitive : forall d1 d2 d3 i j i' j', reachable d1 -> reachable d2 -> reachable d3 ->
  few_attributes d1 -> few_attributes d2 -> few_attributes d3 ->
  dom_equals d1 d2 = Ok (CSuccess, i, j) -> dom_equals d2 d3 = Ok (CSuccess, i', j') ->
  exists a b, dom_equals d1 d3 = Ok (CSuccess, a, b).
Proof.
  intros d1 d2 d3 i j i' j' R1 R2 R3 F1 F2 F3 E E'.
  destruct (equals_exact d1 d2 R1 R2 F1 F2) as (st & a & b & E1 & Q & _).
  rewrite E in E1. injection E1 as <- <- <-.
  destruct (equals_exact d2 d3 R2 R3 F2 F3) as (st & a & b & E1 & Q' & _).
  rewrite E' in E1. injection E1 as <- <- <-.
  destruct (equals_exact d1 d3 R1 R3 F1 F3) as (st & a & b & E1 & Q2 & _).
  exists a, b. rewrite E1. now rewrite (proj2 Q2 (similar_trans _ _ _ _ _ R2 (proj1 Q eq_refl) _ (proj1 Q' eq_refl))).
Qed.
Print Assumptions C49_equals_transitive.

Definition src3 : string := "<a k=x h=y>t</a>".
Definition src4 : string := "<a h=x  k=y>t</a>".
Definition ex3 : dom := Eval vm_compute in the_dom src3.
Definition ex4 : dom := Eval vm_compute in the_dom src4.
Lemma ex3_created : create_dom (B src3) = Ok (Some ex3).
Proof. vm_compute. reflexivity. Qed.
Lemma ex4_created : create_dom (B src4) = Ok (Some ex4).
Proof. vm_compute. reflexivity. Qed.
(** Success does not mean that keys have the same values. *)
Theorem C49_pairs_refuted : exists d1 d2 i j, reachable d1 /\ reachable d2 /\
  dom_equals d1 d2 = Ok (CSuccess, i, j) /\
  get_value 2 (B "k") d1 = Ok (B "x") /\ get_value 2 (B "k") d2 = Ok (B "y").
Proof.
  exists ex3, ex4. do 2 eexists. split; [exact (reach_create _ _ ex3_created)|].
  split; [exact (reach_create _ _ ex4_created)|]. split; [vm_compute; reflexivity|].
  split; vm_compute; reflexivity.
Qed.
Print Assumptions C49_pairs_refuted.
Lemma few_dec d : forallb (fun n => (length (bool_attrs d n) <=? 64) && (length (attrs d n) <=? 64))
  (seq 1 (length (nodes d) - 1)) = true -> few_attributes d.
Proof.
  intros H n N. rewrite forallb_forall in H.
  assert (I : In n (seq 1 (length (nodes d) - 1))) by (apply in_seq; unfold node_id in N; lia).
  apply H, andb_prop in I as [I1 I2]. apply Nat.leb_le in I1, I2. auto.
Qed.
Example C49_ex : reachable ex1 /\ reachable ex3 /\ few_attributes ex1 /\ few_attributes ex3 /\
  dom_equals ex1 ex1 = Ok (CSuccess, 1, 1) /\ dom_equals ex1 ex3 = Ok (CNodeType, 2, 2) /\
  dom_equals ex3 ex3 = Ok (CSuccess, 1, 1).
Proof.
  split; [exact ex1_reachable|]. split; [exact (reach_create _ _ ex3_created)|].
  split; [apply few_dec; vm_compute; reflexivity|]. split; [apply few_dec; vm_compute; reflexivity|].
  vm_compute. auto.
Qed.

(** ** C50: the duplicate is the same document: same tables, registries and ids
    for the strings, hence the same answer to every call.  (That its memory is
    separate: C58.) *)
Theorem C50_duplicate : forall d, reachable d -> duplicate_dom d = Ok d.
Proof. exact u_duplicate. Qed.
Print Assumptions C50_duplicate.
Example C50_ex : reachable ex1 /\ duplicate_dom ex1 = Ok ex1.
Proof. split; [exact ex1_reachable|vm_compute; reflexivity]. Qed.
