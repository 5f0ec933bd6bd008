(** * Reading a DOM that an abandoned call left behind. *)
From Coq Require Import List NArith Arith Bool Lia.
From Verif Require Import Base TrieModel DomModel ParserModel ReadModel DomSpec Lemmas TrieProofs
  Tables Inv Surgery Attach Link RegProofs ParseSafe ParseTree Walk AttrProofs EditProofs
  Grow CrashSpec CrashModel CrashDebris CrashWalk.
Import ListNotations.
Local Open Scope nat_scope.

(** ** Table lookups *)
Definition lk (g h : nat * nat -> nat) (c : nat) (l : list (nat * nat)) : nat :=
  match find_idx (fun e => g e =? c) l with Some i => h (at_idx l i) | None => 0 end.
Lemma lk_cons g h c e l : lk g h c (e :: l) = if g e =? c then h e else lk g h c l.
Proof.
  unfold lk. simpl. destruct (g e =? c); auto.
  destruct (find_idx (fun e => g e =? c) l); auto.
Qed.
Lemma lk_skip g h c x : (forall e, In e x -> g e <> c) -> lk g h c x = 0.
Proof.
  induction x as [|e x IH]; intro H; auto. rewrite lk_cons.
  pose proof (H e (or_introl eq_refl)) as E. apply Nat.eqb_neq in E. rewrite E. apply IH.
  intros; apply H; simpl; auto.
Qed.
Lemma lk_app g h c l x : lk g h c (l ++ x) = if existsb (fun e => g e =? c) l then lk g h c l else lk g h c x.
Proof.
  induction l as [|e l IH]; auto. simpl. rewrite !lk_cons. destruct (g e =? c); auto.
Qed.
Lemma lk_none g h c l : existsb (fun e => g e =? c) l = false -> lk g h c l = 0.
Proof.
  intro H. apply lk_skip. intros e I E. assert (existsb (fun e => g e =? c) l = true).
  { apply existsb_exists. exists e. split; auto. now apply Nat.eqb_eq. }
  congruence.
Qed.
Lemma lk_app_skip g h c l x : (forall e, In e x -> g e <> c) -> lk g h c (l ++ x) = lk g h c l.
Proof.
  intro H. rewrite lk_app. destruct (existsb _ l) eqn:E; auto. rewrite (lk_none _ _ _ _ E).
  now apply lk_skip.
Qed.
Lemma first_lk c d : get_first_child c d = lk fst snd c (firsts d). Proof. reflexivity. Qed.
Lemma next_lk c d : get_next c d = lk fst snd c (nexts d). Proof. reflexivity. Qed.
Lemma prev_lk c d : get_previous c d = lk snd fst c (nexts d). Proof. reflexivity. Qed.
Lemma parent_lk c d : get_parent c d = lk snd fst c (pchilds d). Proof. reflexivity. Qed.

Section Debris.
Context (d0 d : dom) (D : debris d0 d).
Notation n := (length (nodes d0)).

Lemma dbr_first c : c < n -> get_first_child c d = get_first_child c d0.
Proof.
  intro H. rewrite !first_lk. destruct (db_firsts _ _ D) as (x & -> & F). apply lk_app_skip.
  intros e I. rewrite Forall_forall in F. apply F in I. destruct I as (? & _). lia.
Qed.
Lemma dbr_next c : c < n -> get_next c d = get_next c d0.
Proof.
  intro H. rewrite !next_lk. destruct (db_nexts _ _ D) as (x & -> & F). apply lk_app_skip.
  intros e I. rewrite Forall_forall in F. apply F in I. destruct I as (? & _). lia.
Qed.
Lemma dbr_prev c : c < n -> get_previous c d = get_previous c d0.
Proof.
  intro H. rewrite !prev_lk. destruct (db_nexts _ _ D) as (x & -> & F). apply lk_app_skip.
  intros e I. rewrite Forall_forall in F. apply F in I. destruct I as (? & ? & _). lia.
Qed.
Lemma dbr_parent c : c < n -> get_parent c d = get_parent c d0.
Proof.
  intro H. rewrite !parent_lk. destruct (db_pchilds _ _ D) as (x & -> & F). apply lk_app_skip.
  intros e I. rewrite Forall_forall in F. apply F in I. destruct I as (? & ? & _). lia.
Qed.
Lemma dbr_node i : i < n -> nth_error (nodes d) i = nth_error (nodes d0) i.
Proof. intro H. destruct (db_nodes _ _ D) as (x & ->). now rewrite nth_error_app1. Qed.

Context (k : kids) (G : Good d0 k).
Let V := g_inv _ _ G.
Let R := g_reg _ _ G.
Let W := inv_kw _ _ V.

Lemma dbr_content i : i < n -> same_content d0 d i.
Proof.
  intro H. apply content_old; auto.
  - exact (db_regs _ _ D).
  - now apply dbr_node.
  - destruct (db_bprops _ _ D) as (x & E & F). exists x. split; auto. intros e I.
    rewrite Forall_forall in F. apply F in I. lia.
  - destruct (db_props _ _ D) as (x & E & F). exists x. split; auto. intros e I.
    rewrite Forall_forall in F. apply F in I. lia.
Qed.

Lemma sibs_all d1 d2 : (forall x, x <> 0 -> x < n -> get_next x d2 = get_next x d1) ->
  forall c l, sibs d1 c l -> (forall x, In x l -> x < n) -> sibs d2 c l.
Proof. intros H c l S B. apply (sibs_in d1); auto. intros x I. apply H; auto.
  clear -S I. induction S as [|c l N S IH]; [easy|]. destruct I as [<-|I]; auto. Qed.

Lemma kids_old q c : In c (k q) -> c < n.
Proof. intro I. apply (kw_bound _ _ W) in I. lia. Qed.

Lemma dbr_children q l : q < n -> (children d q l <-> children d0 q l).
Proof.
  intro H. assert (C0 : children d0 q (k (Par q))).
  { rewrite (children_k d0 k q) by auto. reflexivity. }
  assert (C : children d q (k (Par q))).
  { unfold children in *. rewrite dbr_first by auto. apply (sibs_all d0 d); auto.
    - intros. now apply dbr_next.
    - intros x I. eapply kids_old; eauto. }
  split; intro X.
  - rewrite (sibs_fun _ _ _ _ X C). auto.
  - rewrite (sibs_fun _ _ _ _ X C0). auto.
Qed.

Lemma dbr_ordered0 : ordered_pc d0.
Proof. intros a b I. destruct (pc_nz _ _ _ (inv_pchild _ _ V) _ _ I) as [?|(? & ? & ?)]; auto. Qed.
Lemma dbr_ordered : ordered_pc d.
Proof.
  intros a b I. destruct (db_pchilds _ _ D) as (x & E & F). rewrite E in I. apply in_app_or in I.
  destruct I as [I|I].
  - now apply dbr_ordered0.
  - rewrite Forall_forall in F. apply F in I. destruct I as (? & ? & ?). simpl in *. auto.
Qed.

Lemma old_first c : c < n -> get_first_child c d0 = 0 \/ get_first_child c d0 < n.
Proof.
  intro H. destruct (Nat.eq_dec c 0) as [->|N].
  - destruct (children_zero d0 k [] V) as [_ X]. specialize (X eq_refl). unfold children in X.
    inversion X. auto.
  - rewrite (get_first_child_at V) by auto. destruct (k (Par c)) as [|x l] eqn:E; auto.
    right. apply (kids_old (Par c)). rewrite E. simpl; auto.
Qed.
Lemma old_next c : c <> 0 -> c < n -> get_next c d0 = 0 \/ get_next c d0 < n.
Proof.
  intros N H. destruct (next_idx c d0) as [i|] eqn:E.
  - right. rewrite next_lk. unfold lk. unfold next_idx in E. rewrite E.
    apply find_idx_some in E. destruct E as ([a b] & E & Ha & _). apply Nat.eqb_eq in Ha. simpl in Ha. subst a.
    unfold at_idx. erewrite nth_error_nth by eauto. simpl. apply nth_error_In in E.
    destruct (inv_next _ _ V) as (T & _). apply T in E. destruct E as [[]|[q Q]]; [easy|].
    apply adj_in in Q. destruct Q as [_ Q]. eapply kids_old; eauto.
  - left. unfold get_next. now rewrite E.
Qed.
Lemma old_parent c : c < n -> get_parent c d0 < n.
Proof.
  intro H. destruct (Nat.eq_dec (get_parent c d0) 0) as [->|N]; [lia|].
  apply parent_entry in N as I.
  destruct (dbr_ordered0 _ _ I) as [[? _]|?]; lia.
Qed.

Lemma dbr_walk l : dom_walk d 1 l <-> dom_walk d0 1 l.
Proof.
  pose proof (traverse_dom_tree _ _ V) as T. set (m := pres _ _ _) in T.
  pose proof (inv_len _ _ V) as L2.
  set (P := fun c => 1 <= c < n).
  assert (A1 : forall c, P c -> get_parent c d0 = 0 \/ P (get_parent c d0)).
  { intros c [? ?]. pose proof (old_parent c ltac:(auto)). unfold P. lia. }
  assert (A2 : forall c, P c -> get_next c d0 = 0 \/ P (get_next c d0)).
  { intros c [? ?]. pose proof (old_next c ltac:(lia) ltac:(auto)). unfold P. lia. }
  assert (A3 : forall c, P c -> get_first_child c d0 = 0 \/ P (get_first_child c d0)).
  { intros c [? ?]. pose proof (old_first c ltac:(auto)). unfold P. lia. }
  assert (E1 : forall c, P c -> get_first_child c d = get_first_child c d0) by (intros c []; now apply dbr_first).
  assert (E2 : forall c, P c -> get_next c d = get_next c d0) by (intros c []; now apply dbr_next).
  assert (E3 : forall c, P c -> get_parent c d = get_parent c d0) by (intros c []; now apply dbr_parent).
  assert (P1 : P 1) by (unfold P; lia).
  destruct (walk_cmp d d0 P 0) with (c := 1) (l := m) as (m1 & W1 & X1); auto.
  { intros c Hc _. left. auto. }
  { exact dbr_ordered. }
  destruct (walk_cmp d0 d P 0) with (c := 1) (l := m1) as (m2 & W2 & X2); auto.
  { intros c Hc _. rewrite E3 by auto. auto. }
  { intros c Hc _. left. split; symmetry; auto. }
  { intros c Hc _. rewrite E2 by auto. auto. }
  { exact dbr_ordered0. }
  { intros c Hc. symmetry. auto. }
  { intros c Hc. rewrite E1 by auto. auto. }
  pose proof (dom_walk_fun _ _ _ _ W2 T) as E. subst m2.
  assert (m1 = m).
  { destruct X1 as (r1 & X1), X2 as (r2 & X2). assert (length m1 = length m).
    { apply (f_equal (@length nat)) in X1, X2. rewrite app_length in X1, X2. lia. }
    rewrite X1 in H. rewrite app_length in H. destruct r1; simpl in *; [|lia].
    rewrite app_nil_r in X1. auto. }
  subst m1. split; intro X.
  - rewrite (dom_walk_fun _ _ _ _ X W1). auto.
  - rewrite (dom_walk_fun _ _ _ _ X T). auto.
Qed.

(** ** Attributes *)
Lemma find_idx_app_l {A} (f : A -> bool) l x i : find_idx f l = Some i -> find_idx f (l ++ x) = Some i.
Proof.
  revert i. induction l as [|e l IH]; simpl; intro i; [discriminate|]. destruct (f e); auto.
  destruct (find_idx f l); [|discriminate]. simpl. intro H. now rewrite (IH _ eq_refl).
Qed.
Lemma map_look s m m' reg : reg_ok reg m -> map_ext m m' ->
  exists id id', map_contains s m = Ok id /\ map_contains s m' = Ok id' /\
    (id' = id \/ (id = 0 /\ length reg <= id')).
Proof.
  intros (l & -> & M) X. destruct (X _ M) as (x & M').
  exists (lookup s l), (lookup s (l ++ x)). split; [now apply map_contains_ok|].
  split; [now apply map_contains_ok|]. unfold lookup.
  destruct (find_idx (beq s) l) as [i|] eqn:E.
  - left. erewrite find_idx_app_l by eauto. reflexivity.
  - destruct (find_idx (beq s) (l ++ x)) as [j|] eqn:E2; auto. right. split; auto. change (S (length l) <= S j).
    destruct (le_lt_dec (length l) j) as [|J]; [lia|]. exfalso.
    apply find_idx_some in E2. destruct E2 as (y & Ey & By & _). rewrite nth_error_app1 in Ey by auto.
    rewrite find_idx_none in E. apply nth_error_In in Ey. apply E in Ey. congruence.
Qed.
Lemma existsb_same {A} (f g : A -> bool) l x : (forall e, In e l -> f e = g e) -> (forall e, In e x -> f e = false) ->
  existsb f (l ++ x) = existsb g l.
Proof.
  intros H1 H2. induction l as [|e l IH]; simpl in *.
  - induction x as [|e x IH]; simpl in *; auto. rewrite (H2 e) by auto. apply IH. auto.
  - rewrite H1 by auto. f_equal. apply IH. auto.
Qed.
Lemma find_same {A} (f g : A -> bool) l x : (forall e, In e l -> f e = g e) -> (forall e, In e x -> f e = false) ->
  find f (l ++ x) = find g l.
Proof.
  intros H1 H2. induction l as [|e l IH]; simpl in *.
  - induction x as [|e x IH]; simpl in *; auto. rewrite (H2 e) by auto. apply IH. auto.
  - rewrite H1 by auto. destruct (g e); auto.
Qed.
Lemma existsb_no {A} (f : A -> bool) l : (forall e, In e l -> f e = false) -> existsb f l = false.
Proof. induction l as [|e l IH]; simpl; auto. intro H. rewrite H by auto. apply IH. auto. Qed.
Lemma find_no {A} (f : A -> bool) l : (forall e, In e l -> f e = false) -> find f l = None.
Proof. induction l as [|e l IH]; simpl; auto. intro H. rewrite H by auto. apply IH. auto. Qed.

Context (i : nat) (Hi : 1 <= i < n).
Lemma new_prop : exists x, props d = props d0 ++ x /\ forall e, In e x -> (p_node e =? i) = false.
Proof.
  destruct (db_props _ _ D) as (x & E & F). exists x. split; auto. intros e I. apply Nat.eqb_neq.
  rewrite Forall_forall in F. apply F in I. lia.
Qed.
Lemma new_bprop : exists x, bprops d = bprops d0 ++ x /\ forall e, In e x -> (fst e =? i) = false.
Proof.
  destruct (db_bprops _ _ D) as (x & E & F). exists x. split; auto. intros e I. apply Nat.eqb_neq.
  rewrite Forall_forall in F. apply F in I. lia.
Qed.
(** An id that is [id], or unknown on one side and too large on the other,
    matches the same entries. *)
Lemma same_match (x id id' len : nat) : x <> 0 -> x < len -> id' = id \/ (id = 0 /\ len <= id') ->
  (x =? id') = (x =? id).
Proof. intros Nx L [->|[-> Q]]; auto. transitivity false; [|symmetry]; apply Nat.eqb_neq; lia. Qed.

Lemma dbr_has_bool b : has_bool_prop i b d = has_bool_prop i b d0.
Proof.
  unfold has_bool_prop. destruct (map_look b _ _ _ (ri_bool _ R) (db_bool _ _ D)) as (a & a' & -> & -> & Q).
  cbn [bind]. destruct new_bprop as (x & -> & X).
  assert (M : forall e, In e (bprops d0) -> (fst e =? i) && (snd e =? a') = (fst e =? i) && (snd e =? a)).
  { intros e I. destruct (fst e =? i) eqn:Ei; auto. simpl. apply Nat.eqb_eq in Ei.
    destruct (ri_bprops _ R _ I) as (_ & L & Nz). eapply same_match; eauto. apply Nz. lia. }
  rewrite (existsb_same _ _ _ _ M) by (intros e I; now rewrite X).
  destruct (a =? 0) eqn:Ea; [|].
  - apply Nat.eqb_eq in Ea. subst a.
    assert (Z : existsb (fun e => (fst e =? i) && (snd e =? 0)) (bprops d0) = false).
    { apply existsb_no. intros e I. destruct (fst e =? i) eqn:Ei; auto. simpl. apply Nat.eqb_eq in Ei.
      destruct (ri_bprops _ R _ I) as (_ & L & Nz). apply Nat.eqb_neq. apply Nz. lia. }
    rewrite Z. now destruct (a' =? 0).
  - apply Nat.eqb_neq in Ea. destruct Q as [->|[]]; [|easy]. apply Nat.eqb_neq in Ea. now rewrite Ea.
Qed.
Lemma key_same kid kid' : kid' = kid \/ (kid = 0 /\ length (key_reg d0) <= kid') ->
  forall e, In e (props d0) -> (p_node e =? i) && (p_key e =? kid') = (p_node e =? i) && (p_key e =? kid).
Proof.
  intros Q e I. destruct (p_node e =? i) eqn:Ei; auto. simpl. apply Nat.eqb_eq in Ei.
  destruct (ri_props _ R _ I) as (_ & L & _ & Nz). eapply same_match; eauto. apply Nz. lia.
Qed.
Lemma val_same vid vid' : vid' = vid \/ (vid = 0 /\ length (val_reg d0) <= vid') ->
  forall e, In e (props d0) -> (p_node e =? i) && (p_val e =? vid') = (p_node e =? i) && (p_val e =? vid).
Proof.
  intros Q e I. destruct (p_node e =? i) eqn:Ei; auto. simpl. apply Nat.eqb_eq in Ei.
  destruct (ri_props _ R _ I) as (_ & _ & L & Nz). eapply same_match; eauto. apply Nz. lia.
Qed.
Lemma key_zero e : In e (props d0) -> (p_node e =? i) && (p_key e =? 0) = false.
Proof.
  intro I. destruct (p_node e =? i) eqn:Ei; auto. simpl. apply Nat.eqb_eq in Ei.
  destruct (ri_props _ R _ I) as (_ & _ & L & Nz). apply Nat.eqb_neq. apply Nz. lia.
Qed.
Lemma val_zero e : In e (props d0) -> (p_node e =? i) && (p_val e =? 0) = false.
Proof.
  intro I. destruct (p_node e =? i) eqn:Ei; auto. simpl. apply Nat.eqb_eq in Ei.
  destruct (ri_props _ R _ I) as (_ & _ & L & Nz). apply Nat.eqb_neq. apply Nz. lia.
Qed.
Lemma dbr_has_key key : has_prop_key i key d = has_prop_key i key d0.
Proof.
  unfold has_prop_key. destruct (map_look key _ _ _ (ri_key _ R) (db_key _ _ D)) as (a & a' & -> & -> & Q).
  cbn [bind]. destruct new_prop as (x & -> & X).
  rewrite (existsb_same _ _ _ _ (key_same _ _ Q)) by (intros e I; now rewrite X).
  destruct (a =? 0) eqn:Ea.
  - apply Nat.eqb_eq in Ea. subst a. rewrite (existsb_no _ _ key_zero). now destruct (a' =? 0).
  - apply Nat.eqb_neq in Ea. destruct Q as [->|[]]; [|easy]. apply Nat.eqb_neq in Ea. now rewrite Ea.
Qed.
Lemma dbr_has_value v : has_prop_value i v d = has_prop_value i v d0.
Proof.
  unfold has_prop_value. destruct (map_look v _ _ _ (ri_val _ R) (db_val _ _ D)) as (a & a' & -> & -> & Q).
  cbn [bind]. destruct new_prop as (x & -> & X).
  rewrite (existsb_same _ _ _ _ (val_same _ _ Q)) by (intros e I; now rewrite X).
  destruct (a =? 0) eqn:Ea.
  - apply Nat.eqb_eq in Ea. subst a. rewrite (existsb_no _ _ val_zero). now destruct (a' =? 0).
  - apply Nat.eqb_neq in Ea. destruct Q as [->|[]]; [|easy]. apply Nat.eqb_neq in Ea. now rewrite Ea.
Qed.
Lemma dbr_has_property key v : has_property i key v d = has_property i key v d0.
Proof.
  unfold has_property. destruct (map_look key _ _ _ (ri_key _ R) (db_key _ _ D)) as (a & a' & -> & -> & Q).
  destruct (map_look v _ _ _ (ri_val _ R) (db_val _ _ D)) as (b & b' & -> & -> & Q2).
  cbn [bind]. destruct new_prop as (x & -> & X).
  assert (M : forall e, In e (props d0) -> (p_node e =? i) && (p_key e =? a') && (p_val e =? b')
                       = (p_node e =? i) && (p_key e =? a) && (p_val e =? b)).
  { intros e I. pose proof (key_same _ _ Q e I) as K1. pose proof (val_same _ _ Q2 e I) as K2.
    destruct (p_node e =? i); auto. simpl in *. now rewrite K1, K2. }
  rewrite (existsb_same _ _ _ _ M) by (intros e I; now rewrite X).
  destruct (a =? 0) eqn:Ea.
  - apply Nat.eqb_eq in Ea. subst a. rewrite existsb_no; [now destruct (a' =? 0)|].
    intros e I. now rewrite key_zero.
  - apply Nat.eqb_neq in Ea. destruct Q as [->|[]]; [|easy]. apply Nat.eqb_neq in Ea. now rewrite Ea.
Qed.
Lemma dbr_get_value key : get_value i key d = get_value i key d0.
Proof.
  unfold get_value. destruct (map_look key _ _ _ (ri_key _ R) (db_key _ _ D)) as (a & a' & -> & -> & Q).
  cbn [bind]. destruct new_prop as (x & -> & X).
  rewrite (find_same _ _ _ _ (key_same _ _ Q)) by (intros e I; now rewrite X).
  destruct (a =? 0) eqn:Ea.
  - apply Nat.eqb_eq in Ea. subst a. rewrite (find_no _ _ key_zero). now destruct (a' =? 0).
  - apply Nat.eqb_neq in Ea. destruct Q as [->|[]]; [|easy]. apply Nat.eqb_neq in Ea. rewrite Ea.
    destruct (find _ (props d0)) as [e|] eqn:F; auto. apply find_some in F. destruct F as [I _].
    destruct (ri_props _ R _ I) as (_ & _ & L & _). destruct (db_regs _ _ D) as (_ & _ & _ & y & ->).
    now rewrite nth_error_app1.
Qed.
Lemma dbr_answers : same_answers d0 d i.
Proof.
  split; [exact dbr_has_bool|]. split; [exact dbr_has_key|]. split; [exact dbr_has_value|].
  split; [exact dbr_has_property|exact dbr_get_value].
Qed.
End Debris.
