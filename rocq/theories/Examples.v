(** * Concrete documents and tactics used to show that the hypotheses of the
    theorems are met.  Everything here is evaluated, nothing is assumed. *)
From Coq Require Import String List NArith Arith Bool Lia.
From Verif Require Import Base TrieModel DomModel ParserModel EditModel ReadModel DomSpec ApiSpec Walk.
Import ListNotations.
Local Open Scope nat_scope.

Notation B := bytes_of_string.
Definition the_dom (t : string) : dom :=
  match create_dom (B t) with Ok (Some d) => d | _ => empty_dom end.

(** 1 root; 2 !DOCTYPE; 3 html; 4 body class="a b" hidden; 5 p id="x"; 6 "one";
    7 b; 8 "two"; 9 "three"; 10 br; 11 "tail" *)
Definition src1 : string :=
  "<!DOCTYPE html><html><body class=""a b"" hidden><p id=""x"">one <b>two</b>  three </p><br/> tail</body></html>".
Definition ex1 : dom := Eval vm_compute in the_dom src1.

Lemma ex1_created : create_dom (B src1) = Ok (Some ex1).
Proof. vm_compute. reflexivity. Qed.
Lemma ex1_reachable : reachable ex1.
Proof. exact (reach_create _ _ ex1_created). Qed.

Ltac sib := match goal with |- sibs ?d ?c ?l =>
  let v := eval vm_compute in c in change (sibs d v l);
  match v with 0 => apply sibs_nil | _ => apply sibs_cons; [discriminate|sib] end end.
Ltac kids := match goal with |- children ?d ?p ?l => unfold children; sib end.
Ltac pre_go := match goal with
  | |- preorder _ _ _ => eapply pre_node; [kids|pre_go]
  | |- preorders _ [] _ => apply pre_nil
  | |- preorders _ (_ :: _) _ => eapply pre_cons; [pre_go|pre_go] end.
Lemma pre_conv d p l l' : preorder d p l -> l = l' -> preorder d p l'.
Proof. congruence. Qed.
Lemma pres_conv d p l l' : preorders d p l -> l = l' -> preorders d p l'.
Proof. congruence. Qed.
Ltac pre_ord := eapply pre_conv; [pre_go|reflexivity].
Ltac pres_ord := eapply pres_conv; [pre_go|reflexivity].

Lemma sibs_fun d c l : sibs d c l -> forall l', sibs d c l' -> l = l'.
Proof.
  induction 1 as [|c l N H IH]; intros l' H'; inversion H'; subst; try congruence.
  f_equal. now apply IH.
Qed.

Example ex1_shape :
  children ex1 1 [2; 3] /\ children ex1 4 [5; 10; 11] /\ children ex1 5 [6; 7; 9] /\
  preorder ex1 4 [4; 5; 6; 7; 8; 9; 10; 11] /\
  tag_name ex1 4 = Some (B "body") /\ bool_attrs ex1 4 = [B "hidden"] /\
  attrs ex1 4 = [(B "class", B "a b")] /\ text_of ex1 9 = Some (B "three").
Proof. repeat match goal with |- _ /\ _ => split end; try kids; try pre_ord; reflexivity. Qed.

Lemma no_quote t : last t 0%N <> cSQ -> last t 0%N <> cDQ -> ~ ends_quote t.
Proof.
  intros H1 H2 (a & q & -> & Q). rewrite List.last_last in *. tauto.
Qed.
