(** * The ids of parsed nodes: numbering in document order (C84). *)
From Coq Require Import List NArith Arith Bool Lia.
From Verif Require Import Base TrieModel DomModel ParserModel EditModel DomSpec ApiSpec GrammarSpec ReaderSpec
  TreeSpec TreeProofs Inv RegProofs ParseTree Attach Walk ParseLoop GrammarLoop ApiProofs EditUser EditUserHtml ReadUser ReaderUser.
Import ListNotations.
Local Open Scope nat_scope.

Definition tsizes (ts : list tree) : nat := fold_right (fun k m => tsize k + m) 0 ts.

Lemma number_elem n tag bs ps ks :
  number n (Elem tag bs ps ks) = V n (mkLabel TDocument (Some tag) None bs ps) (numbers (S n) ks).
Proof. reflexivity. Qed.
Lemma number_vid n t : vid (number n t) = n.
Proof. destruct t; reflexivity. Qed.

Lemma seq_split_eq n m : forall (a b : list nat), a ++ b = seq n m ->
  a = seq n (length a) /\ b = seq (n + length a) (length b).
Proof.
  intros a b E. assert (L : m = length a + length b).
  { rewrite <- app_length, E. now rewrite seq_length. }
  subst m. rewrite seq_app in E. apply app_eq_app in E. destruct E as (l & [[X Y]|[X Y]]).
  - assert (length l = 0). { apply (f_equal (@length _)) in X. rewrite app_length, seq_length in X. lia. }
    destruct l; [|discriminate]. rewrite app_nil_r in X. simpl in Y. auto.
  - assert (length l = 0). { apply (f_equal (@length _)) in X. rewrite app_length, seq_length in X. lia. }
    destruct l; [|discriminate]. rewrite app_nil_r in X. simpl in Y. auto.
Qed.

Definition numbered (d : dom) (t : tree) : Prop := forall x L n, shows d x t -> preorder d x L ->
  L = seq n (length L) -> length L = tsize t /\ x = n /\ view d (number n t).

Lemma numbers_view d : forall ts, Forall (numbered d) ts -> forall xs L n,
  Forall2 (shows d) xs ts -> preorders d xs L -> L = seq n (length L) ->
  length L = tsizes ts /\ map vid (numbers n ts) = xs /\ Forall (view d) (numbers n ts).
Proof.
  induction 1 as [|t ts Ht _ IH]; intros xs L n H P E.
  - inversion H; subst. inversion P; subst. simpl. auto.
  - inversion H; subst. inversion P; subst. destruct (seq_split_eq _ _ _ _ E) as (E1 & E2).
    assert (S1 : shows d x t) by assumption. assert (P1 : preorder d x l0) by assumption.
    destruct (Ht _ _ _ S1 P1 E1) as (A1 & A2 & A3).
    assert (S2 : Forall2 (shows d) l ts) by assumption. assert (P2 : preorders d l ls) by assumption.
    destruct (IH _ _ _ S2 P2 E2) as (B1 & B2 & B3).
    cbn [numbers map tsizes fold_right]. fold (tsizes ts). rewrite app_length, A1, B1. rewrite A1 in B2, B3.
    rewrite number_vid. split; [reflexivity|]. split; [congruence|]. constructor; auto.
Qed.

Lemma all_numbered d : forall t, numbered d t.
Proof.
  induction t as [s|tag bs ps ts IH] using tree_induct; intros x L n H P E.
  - inversion H; subst. inversion P; subst.
    assert (cs = []) by (eapply sibs_fun; eauto). subst cs.
    match goal with Q : preorders _ [] _ |- _ => inversion Q; subst end.
    simpl in E. injection E as ->. split; [reflexivity|]. split; [reflexivity|].
    cbn [number]. constructor; auto.
  - inversion H; subst. inversion P; subst.
    assert (cs = l) by (eapply sibs_fun; eauto). subst cs.
    cbn [length seq] in E. injection E as E1 E2. subst x.
    assert (S1 : Forall2 (shows d) l ts) by assumption. assert (P1 : preorders d l l0) by assumption.
    destruct (numbers_view d ts IH _ _ _ S1 P1 E2) as (A & B & C).
    split; [|split].
    + cbn [length tsize]. f_equal. exact A.
    + reflexivity.
    + rewrite number_elem. constructor; auto. rewrite B. assumption.
Qed.

Lemma shows_numbers d ts xs n m : Forall2 (shows d) xs ts -> preorders d xs (seq n m) ->
  map vid (numbers n ts) = xs /\ Forall (view d) (numbers n ts).
Proof.
  intros H P. destruct (numbers_view d ts) with (xs := xs) (L := seq n m) (n := n) as (_ & A & B); auto.
  - apply Forall_forall. intros. apply all_numbered.
  - now rewrite seq_length.
Qed.

(** ** A parsed document *)
Lemma created_view t d ts us : create_dom t = Ok (Some d) -> document_of t = Trees ts us ->
  view d (V 1 root_label (numbers 2 ts)).
Proof.
  intros E D. pose proof (read_document t) as H. rewrite E in H. destruct H as (ts' & us' & D' & S & _).
  rewrite D in D'. injection D' as <- <-. destruct S as (xs & Hx & HS).
  destruct (u_create_tree t d E) as (P & _). remember (seq 1 (length (nodes d) - 1)) as LL eqn:EL. inversion P; subst p LL.
  assert (cs = xs) by (eapply sibs_fun; eauto). subst cs.
  assert (exists m, l = seq 2 m) as (m & El).
  { destruct (length (nodes d) - 1) as [|m]; [discriminate|]. exists m. cbn [seq] in *. congruence. }
  subst l. assert (PP : preorders d xs (seq 2 m)) by assumption.
  destruct (shows_numbers d ts xs 2 m HS PP) as (A & B).
  constructor; auto; [|now rewrite A].
  destruct (create_good t d E) as (k & W). pose proof (pw_keep _ _ _ _ _ _ W) as K.
  assert (C : content d 1 = content empty_dom 1).
  { apply (keeps_content 2 empty_dom d 1); auto. apply (g_reg _ _ Good_empty). }
  rewrite C. reflexivity.
Qed.

(** ** A parsed fragment *)
Lemma fragment_view d bl h d1 ts us : reachable d -> parse_extra (Some bl) h d = Ok (true, d1) ->
  length (nodes d) < length (nodes d1) -> fragment_of bl h = Trees ts us ->
  sibs d1 (length (nodes d)) (map vid (numbers (length (nodes d)) ts)) /\
  Forall (view d1) (numbers (length (nodes d)) ts) /\ ts <> [] /\
  flat_map ids (numbers (length (nodes d)) ts) = seq (length (nodes d)) (length (nodes d1) - length (nodes d)).
Proof.
  intros R E L F. pose proof (read_fragment d R bl h) as H. rewrite E in H. destruct H as (ts' & us' & F' & S).
  rewrite F in F'. injection F' as <- <-.
  assert (NE : ts <> []). { intros ->. simpl in S. lia. }
  destruct ts as [|t ts]; [congruence|]. destruct S as (_ & tops & HT & HS).
  destruct (u_fragment_order d R bl h d1 E L) as (tops' & HT' & P).
  assert (tops' = tops) by (eapply sibs_fun; eauto). subst tops'.
  destruct (shows_numbers d1 (t :: ts) tops _ _ HS P) as (A & B). rewrite A.
  split; auto. split; auto. split; auto.
  assert (PP : preorders d1 tops (flat_map ids (numbers (length (nodes d)) (t :: ts)))).
  { rewrite <- A. clear -B. induction B; simpl; [constructor|]. constructor; auto. now apply view_preorder. }
  destruct (preorder_fun_mut d1) as (_ & U). exact (U _ _ PP _ P).
Qed.
