(** * The structural invariant of a DOM and lookups under it. *)
From Coq Require Import List NArith Arith Bool Lia.
From Verif Require Import Base TrieModel DomModel Lemmas Tables.
Import ListNotations.
Local Open Scope nat_scope.

(** Ghost state: the child list of every parent, and the sibling chains that
    are not attached to a parent yet. *)
Inductive key : Type := Par (p : nat) | Flo (f : nat).
Definition kids := key -> list nat.

Definition key_dec (a b : key) : {a = b} + {a <> b}.
Proof. decide equality; apply Nat.eq_dec. Defined.

Definition upk (k : kids) (q : key) (l : list nat) : kids :=
  fun q' => if key_dec q q' then l else k q'.

Lemma upk_eq k q l : upk k q l q = l.
Proof. unfold upk. destruct (key_dec q q); congruence. Qed.
Lemma upk_neq k q q' l : q <> q' -> upk k q l q' = k q'.
Proof. unfold upk. destruct (key_dec q q'); congruence. Qed.

Record kw (n : nat) (k : kids) : Prop := {
  kw_nodup : forall q, NoDup (k q);
  kw_disj : forall q q' c, In c (k q) -> In c (k q') -> q = q';
  kw_bound : forall q c, In c (k q) -> 2 <= c < n;
  kw_order : forall p c, In c (k (Par p)) -> 1 <= p < c;
  kw_flo : forall f c, In c (k (Flo f)) -> f <= c }.

Definition Rn (k : kids) (a b : nat) : Prop := exists q, adj a b (k q).
Definition Rf (k : kids) (p c : nat) : Prop := hd_error (k (Par p)) = Some c.
Definition Rp (k : kids) (p c : nat) : Prop := In c (k (Par p)).

(** The parent table.  It may hold an entry more than once and entries of nodes
    that are no longer attached: [prependix.c] registers the old children a
    second time (see [connect_others]), and removal clears one entry only. *)
Record pc_ok (n : nat) (l : list (nat * nat)) (k : kids) : Prop := {
  pc_in : forall a b, Rp k a b -> In (a, b) l;
  pc_nz : forall a b, In (a, b) l -> (a = 0 /\ b = 0) \/ (1 <= a /\ a < b /\ b < n);
  pc_fun : forall a a' b, In (a, b) l -> In (a', b) l -> a = a';
  pc_flo : forall f a c, In c (k (Flo f)) -> ~ In (a, c) l }.

Record Inv (d : dom) (k : kids) : Prop := {
  inv_ids : forall i n, nth_error (nodes d) i = Some n -> n_id n = i;
  inv_len : 2 <= length (nodes d);
  inv_next : tab_ok (nexts d) (Rn k);
  inv_first : tab_ok (firsts d) (Rf k);
  inv_pchild : pc_ok (length (nodes d)) (pchilds d) k;
  inv_kw : kw (length (nodes d)) k }.

Definition kext (k k' : kids) : Prop := forall q, k q = k' q.

Lemma Rn_ext k k' a b : kext k k' -> Rn k a b <-> Rn k' a b.
Proof. intros E; split; intros [q H]; exists q; [rewrite <- E|rewrite E]; auto. Qed.
Lemma kw_ext n k k' : kext k k' -> kw n k -> kw n k'.
Proof.
  intros E [H1 H2 H3 H4 H5]. constructor; intros; rewrite <- E in *.
  - apply H1.
  - eapply H2; eauto.
  - eapply H3; eauto.
  - eapply H4; eauto.
  - eapply H5; eauto.
Qed.

Lemma pc_ext n l k k' : kext k k' -> pc_ok n l k -> pc_ok n l k'.
Proof.
  intros E [H1 H2 H3 H4]. constructor; auto; intros; unfold Rp in *;
    rewrite <- E in *; eauto.
Qed.

Lemma Inv_ext d k k' : kext k k' -> Inv d k -> Inv d k'.
Proof.
  intros E [H1 H2 H3 H4 H5 H6]. constructor; auto.
  - eapply tab_ext; [exact H3|]. intros. now apply Rn_ext.
  - eapply tab_ext; [exact H4|]. intros. unfold Rf. now rewrite E.
  - eapply pc_ext; eauto.
  - eapply kw_ext; eauto.
Qed.

(** Two DOMs that differ at most in the three navigation tables. *)
Definition same_data (d d' : dom) : Prop :=
  d' = mkDom (nodes d) (firsts d') (pchilds d') (nexts d') (bprops d) (props d)
         (tag_reg d) (bool_reg d) (key_reg d) (val_reg d) (tag_map d)
         (bool_map d) (key_map d) (val_map d).

Lemma same_data_refl d : same_data d d.
Proof. destruct d; reflexivity. Qed.
Lemma same_data_trans a b c : same_data a b -> same_data b c -> same_data a c.
Proof. unfold same_data. intros -> ->. reflexivity. Qed.

(** ** Relations determined by [k] are functional *)
Section Fun.
  Context {n : nat} {k : kids} (W : kw n k).

  Lemma Rn_fun_r a b b' : Rn k a b -> Rn k a b' -> b' = b.
  Proof.
    intros [q H] [q' H'].
    assert (q = q').
    { eapply (kw_disj _ _ W _ _ a); [apply (adj_in _ _ _ H)|apply (adj_in _ _ _ H')]. }
    subst. eapply adj_fun_r; eauto. apply (kw_nodup _ _ W).
  Qed.
  Lemma Rn_fun_l a a' b : Rn k a b -> Rn k a' b -> a' = a.
  Proof.
    intros [q H] [q' H'].
    assert (q = q').
    { eapply (kw_disj _ _ W _ _ b); [apply (adj_in _ _ _ H)|apply (adj_in _ _ _ H')]. }
    subst. eapply adj_fun_l; eauto. apply (kw_nodup _ _ W).
  Qed.
  Lemma Rp_fun p p' c : Rp k p c -> Rp k p' c -> p' = p.
  Proof.
    intros H H'. assert (E : Par p = Par p') by (eapply (kw_disj _ _ W); eauto).
    congruence.
  Qed.
End Fun.

(** ** Lookups *)
Section Look.
  Context {d : dom} {k : kids} (I : Inv d k).
  Let W := inv_kw _ _ I.

  Lemma k_nz q c : In c (k q) -> c <> 0.
  Proof. intros H. apply (kw_bound _ _ W) in H. lia. Qed.

  Lemma first_at p :
    p <> 0 ->
    match k (Par p) with
    | [] => first_idx p d = None
    | c :: _ => exists i, first_idx p d = Some i /\
                          nth_error (firsts d) i = Some (p, c)
    end.
  Proof.
    intros Hp. unfold first_idx. destruct (k (Par p)) as [|c l] eqn:E.
    - eapply tab_find_fst_none; [apply (inv_first _ _ I)|auto|].
      intros b H. unfold Rf in H. rewrite E in H. discriminate.
    - eapply tab_find_fst; [apply (inv_first _ _ I)| |].
      + unfold Rf. now rewrite E.
      + unfold Rf. rewrite E. intros b H. simpl in H. congruence.
  Qed.

  Lemma next_at q l1 c l2 :
    k q = l1 ++ c :: l2 ->
    match l2 with
    | [] => next_idx c d = None
    | b :: _ => exists i, next_idx c d = Some i /\
                          nth_error (nexts d) i = Some (c, b)
    end.
  Proof.
    intros E. unfold next_idx. destruct l2 as [|b l2].
    - eapply tab_find_fst_none; [apply (inv_next _ _ I)| |].
      + eapply (k_nz q). rewrite E. apply in_elt.
      + intros b [q' H].
        assert (q = q').
        { eapply (kw_disj _ _ W _ _ c); [|apply (adj_in _ _ _ H)].
          rewrite E. apply in_elt. }
        subst q'. revert H. eapply adj_last_none; [apply (kw_nodup _ _ W)|].
        rewrite E. apply last_error_snoc.
    - assert (HR : Rn k c b).
      { exists q. rewrite E. apply adj_split. eauto. }
      eapply tab_find_fst; [apply (inv_next _ _ I)|exact HR|].
      intros b' H. eapply Rn_fun_r; eauto.
  Qed.

  Lemma prev_at q l1 c l2 :
    k q = l1 ++ c :: l2 ->
    match last_error l1 with
    | None => prev_idx c d = None
    | Some a => exists i, prev_idx c d = Some i /\
                          nth_error (nexts d) i = Some (a, c)
    end.
  Proof.
    intros E. unfold prev_idx. destruct (last_error l1) as [a|] eqn:L.
    - apply last_error_some in L as [l0 ->].
      assert (HR : Rn k a c).
      { exists q. rewrite E, <- app_assoc. apply adj_split. simpl. eauto. }
      eapply tab_find_snd; [apply (inv_next _ _ I)|exact HR|].
      intros a' H. eapply Rn_fun_l; eauto.
    - apply last_error_none in L. subst l1. simpl in E.
      eapply tab_find_snd_none; [apply (inv_next _ _ I)| |].
      + eapply (k_nz q). rewrite E. simpl; auto.
      + intros a [q' H].
        assert (q = q').
        { eapply (kw_disj _ _ W _ _ c); [|apply (adj_in _ _ _ H)].
          rewrite E. simpl; auto. }
        subst q'. revert H. eapply adj_hd_none; [apply (kw_nodup _ _ W)|].
        rewrite E. reflexivity.
  Qed.

  Lemma parent_at p c :
    In c (k (Par p)) ->
    exists i, parent_idx c d = Some i /\ nth_error (pchilds d) i = Some (p, c).
  Proof.
    intros H. unfold parent_idx. pose proof (inv_pchild _ _ I) as P.
    pose proof (pc_in _ _ _ P _ _ H) as Hin.
    destruct (find_idx_ex (fun e => snd e =? c) (pchilds d) (p, c) Hin) as [i Hi].
    { simpl. apply Nat.eqb_refl. }
    exists i. split; auto. apply find_idx_some in Hi as ([x y] & Hn & He & _).
    simpl in He. apply Nat.eqb_eq in He. subst y.
    apply nth_error_In in Hn as Hin'.
    rewrite (pc_fun _ _ _ P _ _ _ Hin' Hin) in Hn. exact Hn.
  Qed.

  Lemma parent_none c :
    (forall p, ~ In (p, c) (pchilds d)) -> parent_idx c d = None.
  Proof.
    intros H. unfold parent_idx. apply find_idx_none. intros [x y] Hin. simpl.
    apply Nat.eqb_neq. intros ->. exact (H x Hin).
  Qed.

  Lemma parent_flo f c : In c (k (Flo f)) -> parent_idx c d = None.
  Proof.
    intros H. apply parent_none. intros p. eapply (pc_flo _ _ _ (inv_pchild _ _ I)).
    exact H.
  Qed.

  Lemma next_none c : c <> 0 -> (forall q, ~ In c (k q)) -> next_idx c d = None.
  Proof.
    intros Hc H. unfold next_idx.
    eapply tab_find_fst_none; [apply (inv_next _ _ I)|auto|].
    intros b [q Hb]. apply adj_in in Hb. eapply H, Hb.
  Qed.

  Lemma prev_none c : c <> 0 -> (forall q, ~ In c (k q)) -> prev_idx c d = None.
  Proof.
    intros Hc H. unfold prev_idx.
    eapply tab_find_snd_none; [apply (inv_next _ _ I)|auto|].
    intros b [q Hb]. apply adj_in in Hb. eapply H, Hb.
  Qed.

  (** Values instead of indices. *)
  Lemma get_first_child_at p :
    p <> 0 -> get_first_child p d = match k (Par p) with [] => 0 | c :: _ => c end.
  Proof.
    intros Hp. unfold get_first_child. pose proof (first_at p Hp) as H.
    destruct (k (Par p)).
    - now rewrite H.
    - destruct H as (i & -> & H). now rewrite (at_idx_nth _ _ _ H).
  Qed.

  Lemma get_next_at q l1 c l2 :
    k q = l1 ++ c :: l2 ->
    get_next c d = match l2 with [] => 0 | b :: _ => b end.
  Proof.
    intros E. unfold get_next. pose proof (next_at q l1 c l2 E) as H.
    destruct l2.
    - now rewrite H.
    - destruct H as (i & -> & H). now rewrite (at_idx_nth _ _ _ H).
  Qed.

  Lemma get_previous_at q l1 c l2 :
    k q = l1 ++ c :: l2 ->
    get_previous c d = match last_error l1 with None => 0 | Some a => a end.
  Proof.
    intros E. unfold get_previous. pose proof (prev_at q l1 c l2 E) as H.
    destruct (last_error l1).
    - destruct H as (i & -> & H). now rewrite (at_idx_nth _ _ _ H).
    - now rewrite H.
  Qed.

  Lemma get_parent_at p c : In c (k (Par p)) -> get_parent c d = p.
  Proof.
    intros H. unfold get_parent. destruct (parent_at p c H) as (i & -> & Hn).
    now rewrite (at_idx_nth _ _ _ Hn).
  Qed.

  Lemma get_parent_none c :
    (forall p, ~ In (p, c) (pchilds d)) -> get_parent c d = 0.
  Proof. intros H. unfold get_parent. now rewrite parent_none. Qed.

  Lemma get_next_none c : c <> 0 -> (forall q, ~ In c (k q)) -> get_next c d = 0.
  Proof. intros Hc H. unfold get_next. now rewrite next_none. Qed.
  Lemma get_previous_none c :
    c <> 0 -> (forall q, ~ In c (k q)) -> get_previous c d = 0.
  Proof. intros Hc H. unfold get_previous. now rewrite prev_none. Qed.

  (** Length of chains is bounded by the table. *)
  Fixpoint pairs (l : list nat) : list (nat * nat) :=
    match l with
    | x :: ((y :: _) as l') => (x, y) :: pairs l'
    | _ => []
    end.

  Lemma pairs_adj a b l : In (a, b) (pairs l) <-> adj a b l.
  Proof.
    induction l as [|x l IH]; simpl; [tauto|].
    destruct l as [|y l].
    - simpl. split; [tauto|]. intros [[_ H]|[]]; discriminate.
    - simpl in IH. simpl. rewrite IH. split.
      + intros [H|H]; auto. injection H as -> ->. auto.
      + intros [[-> H]|H]; auto. injection H as ->. auto.
  Qed.

  Lemma pairs_length l : length l <= S (length (pairs l)).
  Proof.
    induction l as [|x l IH]; simpl; [lia|]. destruct l; simpl in *; lia.
  Qed.

  Lemma pairs_nodup l : NoDup l -> NoDup (pairs l).
  Proof.
    induction l as [|x l IH]; simpl; intros H; [constructor|].
    destruct l as [|y l]; [constructor|].
    inversion H; subst. constructor; auto.
    intros Hp. apply pairs_adj, adj_in in Hp. tauto.
  Qed.

  Lemma chain_length q : length (k q) <= S (length (nexts d)).
  Proof.
    etransitivity; [apply pairs_length|]. apply le_n_S.
    apply NoDup_incl_length.
    - apply pairs_nodup, (kw_nodup _ _ W).
    - intros [a b] H. apply pairs_adj in H.
      eapply (proj1 (proj2 (inv_next _ _ I))). now exists q.
  Qed.

  Lemma last_next_loop_at q fuel l1 c l2 :
    k q = l1 ++ c :: l2 -> length l2 <= fuel ->
    last_next_loop fuel c d = Ok (last l2 c).
  Proof.
    revert l1 c fuel; induction l2 as [|b l2 IH]; intros l1 c fuel E Hf.
    - pose proof (next_at _ _ _ _ E) as H. simpl in H.
      destruct fuel; simpl; rewrite H; reflexivity.
    - pose proof (next_at _ _ _ _ E) as (i & Hi & Hn).
      destruct fuel as [|f]; [simpl in Hf; lia|].
      cbn [last_next_loop]. rewrite Hi, (at_idx_nth _ _ _ Hn). cbn [snd].
      rewrite (IH (l1 ++ [c]) b f).
      + f_equal. destruct l2; [reflexivity|]. simpl.
        clear. revert n. induction l2 as [|y l2 IH]; intros n; simpl; auto.
      + now rewrite <- app_assoc.
      + simpl in Hf. lia.
  Qed.

  Lemma get_last_next_at q l1 c l2 :
    k q = l1 ++ c :: l2 -> get_last_next c d = Ok (last l2 c).
  Proof.
    intros E. unfold get_last_next. eapply last_next_loop_at; eauto.
    pose proof (chain_length q) as H. rewrite E, app_length in H.
    simpl in H. lia.
  Qed.

  Lemma get_last_next_free c :
    c <> 0 -> (forall q, ~ In c (k q)) -> get_last_next c d = Ok c.
  Proof.
    intros Hc H. unfold get_last_next. cbn [last_next_loop].
    now rewrite next_none.
  Qed.
End Look.

Lemma last_last (l : list nat) c x : last_error (c :: l) = Some x <-> last l c = x.
Proof.
  revert c; induction l as [|y l IH]; intros c.
  - simpl. unfold last_error. simpl. split; congruence.
  - rewrite last_error_cons, IH. simpl. destruct l; [tauto|].
    assert (E : forall c, last (n :: l) c = last (n :: l) y).
    { intros c'. clear. revert n. induction l as [|z l IH]; intros n; [reflexivity|].
      exact (IH z). }
    now rewrite (E c).
Qed.

(** Singleton floats. *)
Lemma fresh_not_in d k q : Inv d k -> ~ In (length (nodes d)) (k q).
Proof. intros I H. apply (kw_bound _ _ (inv_kw _ _ I)) in H. lia. Qed.

Lemma zero_not_in d k q : Inv d k -> ~ In 0 (k q).
Proof. intros I H. apply (kw_bound _ _ (inv_kw _ _ I)) in H. lia. Qed.

Lemma par_empty d k p :
  Inv d k -> length (nodes d) <= p \/ p = 0 -> k (Par p) = [].
Proof.
  intros I Hp. destruct (k (Par p)) as [|c l] eqn:E; auto. exfalso.
  assert (H : In c (k (Par p))) by (rewrite E; simpl; auto).
  pose proof (kw_bound _ _ (inv_kw _ _ I) _ _ H).
  pose proof (kw_order _ _ (inv_kw _ _ I) _ _ H). lia.
Qed.
