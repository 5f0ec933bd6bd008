(** * The iteration macros: proofs. *)
From Coq Require Import List NArith Arith Bool Lia.
From Verif Require Import Base TrieModel DomModel MsiModel UtilTrieModel UtilTrieProofs ReportModel.
Import ListNotations.
Local Open Scope nat_scope.

Section Each.
  Context {K V : Type} (zero : K * V -> bool).
  Fixpoint upto (l : list (K * V)) : list (K * V) :=
    match l with
    | [] => []
    | e :: l' => if zero e then [] else e :: upto l'
    end.
  Lemma each_loop_ok l : forall (it : iter K V) fuel, length l < fuel ->
    (forall n, iter_run n it = Ok (firstn n (map Some l ++ repeat None n))) ->
    each_loop fuel zero it = Ok (upto l).
  Proof.
    induction l as [|e l IH]; intros it fuel F H; (destruct fuel as [|f]; [cbn in F; lia|]);
      cbn [each_loop].
    - pose proof (H 1) as H1. cbn [iter_run] in H1. destruct (iter_step it) as [[x it']| | |]; try discriminate. cbn [bind] in *.
      cbn in H1. injection H1 as ->. reflexivity.
    - pose proof (H 1) as H1. cbn [iter_run] in H1. destruct (iter_step it) as [[x it']| | |] eqn:E; try discriminate. cbn [bind] in *.
      cbn in H1. injection H1 as ->. cbn [upto]. destruct (zero e) eqn:Z; [reflexivity|].
      rewrite (IH it' f).
      + reflexivity.
      + cbn in F. lia.
      + intros n. specialize (H (S n)). cbn [iter_run] in H. rewrite E in H. cbn [bind] in H.
        destruct (iter_run n it') as [r| | |]; cbn [bind] in H; try discriminate.
        injection H as ->. f_equal. rewrite firstn_app, (firstn_app n).
        f_equal. rewrite !map_length. destruct (Nat.le_gt_cases (length l) n) as [L|L].
        * assert (Q : forall a b c, a <= b -> a <= c -> firstn a (repeat (@None (K * V)) b) = firstn a (repeat None c)).
          { intros a; induction a as [|a IHa]; intros [|b] [|c]; cbn; intros; try lia; try reflexivity. f_equal. apply IHa; lia. }
          change (None :: repeat (@None (K * V)) n) with (repeat (@None (K * V)) (S n)). apply Q; lia.
        * replace (n - length l) with 0 by lia. reflexivity.
  Qed.
  Lemma psize_elems (t : ptrie K V) : psize t = length (elems t).
  Proof. induction t as [|k v c0 H0 c1 H1 c2 H2 c3 H3]; cbn [psize elems length]; [reflexivity|]. rewrite !app_length. lia. Qed.
  Lemma for_each_ok (t : ptrie K V) : for_each zero t = Ok (upto (elems t)).
  Proof. unfold for_each. apply each_loop_ok; [rewrite psize_elems; lia|]. intros n. apply iter_new_ok. Qed.
  Lemma upto_all l : (forall e, In e l -> zero e = false) -> upto l = l.
  Proof.
    induction l as [|e l IH]; cbn [upto]; intros H; [reflexivity|]. rewrite (H e (or_introl eq_refl)). f_equal. apply IH.
    intros x I. apply H. now right.
  Qed.
End Each.

(** The first key stays at the root. *)
Section Root.
  Context {K V : Type} (eqk : K -> K -> bool) (w : N) (H : K -> N).
  Definition rooted (e : K * V) (t : ptrie K V) : Prop := exists l, elems t = e :: l.
  Lemma rooted_insert e h k v t r t' : rooted e t -> pinsert eqk w h k v t = Ok (r, t') -> rooted e t'.
  Proof.
    intros [l E]. destruct t as [|k0 v0 c0 c1 c2 c3]; [discriminate|]. cbn [elems] in E. injection E as <- E.
    cbn [pinsert]. destruct (eqk k k0).
    - intros [= <- <-]. eexists. reflexivity.
    - intros X. set (h' := (N.shiftl h 2 mod 2 ^ w)%N) in X.
      destruct (N.shiftr h (w - 2)) as [|p]; [|repeat (destruct p as [p|p|]; try discriminate X)];
        match type of X with bind ?o _ = _ => destruct o as [[r0 c]| | |]; try discriminate X end;
        cbn [bind] in X; injection X as <- <-; eexists; reflexivity.
  Qed.
  Lemma rooted_runs {R} (out : option V -> R) e kvs : forall t rs t', rooted e t ->
    runs eqk w H out kvs t = Ok (rs, t') -> rooted e t'.
  Proof.
    induction kvs as [|[k v] kvs IH]; intros t rs t' Rt; cbn [runs].
    - now intros [= <- <-].
    - destruct (pinsert eqk w (H k) k v t) as [[r t1]| | |] eqn:E; try discriminate. cbn [bind].
      destruct (runs eqk w H out kvs t1) as [[rs1 t2]| | |] eqn:E2; try discriminate. cbn [bind].
      intros [= <- <-]. eapply IH; [|exact E2]. eapply rooted_insert; eauto.
  Qed.
  Lemma rooted_first {R} (out : option V -> R) k v kvs rs t' :
    runs eqk w H out ((k, v) :: kvs) PNil = Ok (rs, t') -> rooted (k, v) t'.
  Proof.
    cbn [runs pinsert bind]. destruct (runs eqk w H out kvs _) as [[rs1 t2]| | |] eqn:E2; try discriminate. cbn [bind].
    intros [= <- <-]. eapply rooted_runs; [|exact E2]. eexists. reflexivity.
  Qed.
End Root.

Lemma rooted_each {K V} (zero : K * V -> bool) e t : rooted e t -> zero e = true -> for_each zero t = Ok [].
Proof. intros [l E] Z. rewrite for_each_ok, E. cbn [upto]. now rewrite Z. Qed.
