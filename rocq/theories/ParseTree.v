(** * The tree built by the parser: state invariant of the main loop. *)
From Coq Require Import List NArith Arith Bool Lia.
From Verif Require Import Base TrieModel DomModel ParserModel DomSpec
  Lemmas TrieProofs Tables Inv Surgery Attach Link RegProofs ParseSafe.
Import ListNotations.
Local Open Scope nat_scope.

(** ** Well-typed nodes *)
Definition pay_ok (n : node) : Prop :=
  match n_type n with
  | TText => exists s, n_pay n = PText s
  | TDocument => exists t, n_pay n = PTag t /\ t <> 0
  | TRoot => n_pay n = PTag 0
  | _ => True
  end.
Definition is_live (n : node) : Prop := n_type n = TDocument \/ n_type n = TText.

Record TyInv (d : dom) (k : kids) : Prop := {
  ty_pay : forall i n, nth_error (nodes d) i = Some n -> pay_ok n;
  ty_zero : kind d 0 = Some TError;
  ty_one : kind d 1 = Some TRoot;
  ty_other : forall i n, 2 <= i -> nth_error (nodes d) i = Some n ->
     is_live n \/ n_type n = TRemoved;
  ty_kids : forall q c n, In c (k q) -> nth_error (nodes d) c = Some n -> is_live n }.

Record Good (d : dom) (k : kids) : Prop := {
  g_inv : Inv d k;
  g_reg : RegInv d;
  g_ty : TyInv d k }.

Definition no_kids : kids := fun _ => [].

Lemma reg_ok_empty : reg_ok [[]] empty_map.
Proof. exists []. split; auto. apply map_ok_empty. Qed.

Lemma Good_empty : Good empty_dom no_kids.
Proof.
  constructor.
  - constructor; simpl; auto.
    + intros [|[|[|i]]] n H; simpl in H; try discriminate; injection H as <-; auto.
    + apply tab_nil. intros a b [q H]. exact H.
    + apply tab_nil. intros a b H. discriminate.
    + constructor; simpl; try contradiction.
    + constructor; simpl; try contradiction. intros q. constructor.
  - constructor; simpl; try apply reg_ok_empty; try contradiction.
    intros [|[|[|i]]] n t H; simpl in H; try discriminate; injection H as <-; simpl;
      intros E; injection E as <-; lia.
  - constructor; try reflexivity; try contradiction.
    + intros [|[|[|i]]] n H; simpl in H; try discriminate; injection H as <-; first [exact I|reflexivity].
    + intros [|[|[|i]]] n Hi H; simpl in H; try lia; discriminate.
Qed.

Lemma TyInv_push d k k' n x d' :
  TyInv d k -> 2 <= length (nodes d) -> nodes d' = nodes d ++ [n] -> pay_ok n -> is_live n ->
  (forall q c, In c (k' q) -> In c (k q) /\ c < length (nodes d) \/ c = x) ->
  x = length (nodes d) -> TyInv d' k'.
Proof.
  intros T Hl E Hp Hv Hk ->. destruct T.
  assert (Hs : forall i m, nth_error (nodes d') i = Some m ->
            nth_error (nodes d) i = Some m \/ (i = length (nodes d) /\ m = n)).
  { intros i m H. rewrite E in H. destruct (Nat.lt_ge_cases i (length (nodes d))).
    - rewrite nth_error_app1 in H; auto.
    - rewrite nth_error_app2 in H; auto. right.
      destruct (i - length (nodes d)) as [|[|j]] eqn:Ej; simpl in H; try discriminate.
      injection H as <-. split; auto. lia. }
  constructor.
  - intros i m H. destruct (Hs i m H) as [H'|[_ ->]]; eauto.
  - unfold kind in *. rewrite E, nth_error_app1 by lia. auto.
  - unfold kind in *. rewrite E, nth_error_app1 by lia. auto.
  - intros i m Hi H. destruct (Hs i m H) as [H'|[_ ->]]; eauto.
  - intros q c m Hc H. destruct (Hs c m H) as [H'|[_ ->]]; auto.
    destruct (Hk q c Hc) as [[Hin _]| ->]; eauto.
    apply nth_lt in H'. lia.
Qed.

(** ** A fresh node *)
Definition fresh (d : dom) (k : kids) (x : nat) : Prop :=
  2 <= x < length (nodes d) /\ (forall q, ~ In x (k q)) /\
  (forall p, ~ In (p, x) (pchilds d)) /\ k (Par x) = [].

(** ** Order lemmas *)
Lemma pre_sibling_q n k q a b x :
  kw n k -> In a (k q) -> In b (k q) ->
  In x (pre n k a) -> In x (pre n k b) -> a = b.
Proof.
  intros W Ha Hb. remember x as x0 eqn:Hx0.
  revert x Hx0. induction x0 as [x0 IH] using lt_wf_ind. intros x -> H1 H2.
  assert (U : forall u v p2, In u (k q) -> In v (k q) -> In u (k (Par p2)) ->
              In p2 (pre n k v) -> False).
  { intros u v p2 Hu Hv Hp2 Hq2.
    assert (Par p2 = q) by (eapply (kw_disj _ _ W); eauto). subst q.
    apply pre_ge in Hq2; auto. pose proof (kw_order _ _ W _ _ Hv). lia. }
  destruct (pre_parent n k a x W H1) as [->|(p1 & Hp1 & Hq1)].
  - destruct (pre_parent n k b a W H2) as [->|(p2 & Hp2 & Hq2)]; auto.
    exfalso. eapply (U a b); eauto.
  - destruct (pre_parent n k b x W H2) as [->|(p2 & Hp2 & Hq2)].
    + exfalso. eapply (U b a); eauto.
    + assert (Par p1 = Par p2) by (eapply (kw_disj _ _ W); eauto).
      injection H as <-. pose proof (kw_order _ _ W _ _ Hp1).
      eapply (IH p1); eauto. lia.
Qed.

Lemma pre_mono n m k c : kw n k -> n <= m -> pre m k c = pre n k c.
Proof. intros W H. unfold pre at 1. apply prel_fuel; auto. lia. Qed.

Lemma pres_mono n m k l : kw n k -> n <= m -> pres m k l = pres n k l.
Proof. intros W H. apply flat_map_ext_in. intros. now apply pre_mono. Qed.

Lemma pre_same_par n k k' c :
  kw n k -> kw n k' -> (forall x, In x (pre n k c) -> k' (Par x) = k (Par x)) ->
  pre n k' c = pre n k c.
Proof.
  intros W W'. pattern c. apply (kids_ind n k); auto. clear c. intros c IH H.
  rewrite (pre_eq n k' c), (pre_eq n k c) by auto.
  rewrite H by (apply pre_self; auto). f_equal.
  apply flat_map_ext_in. intros x Hx. apply IH; auto. intros y Hy. apply H.
  rewrite pre_eq by auto. right. apply pres_in. eauto.
Qed.

Lemma pres_app n k l l' : pres n k (l ++ l') = pres n k l ++ pres n k l'.
Proof. apply flat_map_app. Qed.
Lemma pres_one n k c : pres n k [c] = pre n k c.
Proof. unfold pres. simpl. apply app_nil_r. Qed.

(** ** The open-element stack *)
Definition curk (b : key) (s : list frame) : key :=
  match s with [] => b | (p, _) :: _ => Par p end.

Inductive linked (b : key) (bot : list frame) (k : kids) : list frame -> Prop :=
| lk_bot : linked b bot k bot
| lk_push p tag s : last_error (k (curk b s)) = Some p -> linked b bot k s ->
                    linked b bot k ((p, tag) :: s).

(** Root mode or fragment mode ([n0] is the first new node id). *)
Definition pmode (n0 : nat) (b : key) (bot : list frame) : Prop :=
  (b = Par 1 /\ bot = [(1, [])] /\ 2 <= n0) \/ (b = Flo n0 /\ bot = [] /\ 2 <= n0).

Lemma curk_bot n0 b bot : pmode n0 b bot -> curk b bot = b.
Proof. intros [(-> & -> & _)|(-> & -> & _)]; reflexivity. Qed.

Lemma linked_frame n k n0 b bot s p tag :
  kw n k -> 2 <= n -> pmode n0 b bot -> linked b bot k s -> In (p, tag) s -> 1 <= p < n.
Proof.
  intros W Hn M L. induction L as [|p' tag' s Hl L IH].
  - intros H. destruct M as [(_ & -> & _)|(_ & -> & _)]; simpl in H; [|tauto].
    destruct H as [H|[]]. injection H as <- <-. lia.
  - intros [H|H]; auto. injection H as <- <-. apply last_error_in in Hl.
    apply (kw_bound _ _ W) in Hl. lia.
Qed.

(** Appending a fresh node to the innermost open container appends it to the
    pre-order listing of the whole new part. *)
Section Rightmost.
  Context (n : nat) (k : kids) (W : kw n k) (n0 : nat) (b : key) (bot : list frame).
  Context (M : pmode n0 b bot).
  Context (s0 : list frame) (x : nat) (Hx : k (Par x) = []).
  Let q := curk b s0.
  Let k' := upk k q (k q ++ [x]).
  Context (W' : kw n k').
  Context (Hfree : forall q, ~ In x (k q)).

  Lemma rm_x : q <> Par x.
  Proof.
    intros E. assert (In x (k' (Par x))).
    { unfold k'. rewrite E, upk_eq. apply in_or_app. simpl; auto. }
    apply (kw_order _ _ W') in H. lia.
  Qed.

  Lemma rm_base : pres n k' (k' q) = pres n k (k q) ++ [x].
  Proof.
    unfold k' at 2. rewrite upk_eq, pres_app, pres_one. f_equal.
    - apply flat_map_ext_in. intros c Hc. apply pre_same_par; auto.
      intros y Hy. unfold k'. apply upk_neq. intros E.
      apply pre_ge in Hy; auto. rewrite E in Hc. apply (kw_order _ _ W) in Hc. lia.
    - rewrite pre_eq by auto. unfold k'. rewrite upk_neq by apply rm_x.
      rewrite Hx. reflexivity.
  Qed.

  Lemma rm_down s : linked b bot k s ->
    pres n k' (k' (curk b s)) = pres n k (k (curk b s)) ++ [x] ->
    (forall p0, q = Par p0 -> curk b s = Par p0 \/
        exists c, In c (k (curk b s)) /\ In p0 (pre n k c)) ->
    pres n k' (k' b) = pres n k (k b) ++ [x].
  Proof.
    induction 1 as [|p tag s Hl L IH].
    - rewrite (curk_bot n0 b bot M). auto.
    - intros HP Hq. simpl in HP, Hq. apply IH; clear IH.
      + destruct (key_dec (curk b s) q) as [E|E].
        { rewrite E. apply rm_base. }
        apply last_error_some in Hl as [l Hl].
        assert (Hk' : k' (curk b s) = k (curk b s)) by (unfold k'; now apply upk_neq; auto).
        rewrite Hk', Hl, !pres_app, !pres_one, <- app_assoc. f_equal.
        * apply flat_map_ext_in. intros c Hc. apply pre_same_par; auto.
          intros y Hy. unfold k'. apply upk_neq. intros Eq. specialize (Hq y Eq).
          assert (Hpy : In y (pre n k p)).
          { destruct Hq as [Ep|(c' & H1 & H2)].
            - injection Ep as ->. apply pre_self; auto.
            - rewrite pre_eq by auto. right. apply pres_in. eauto. }
          assert (c = p).
          { eapply (pre_sibling_q n k (curk b s)); eauto.
            - rewrite Hl. apply in_or_app; auto.
            - rewrite Hl. apply in_or_app; simpl; auto. }
          subst c. pose proof (kw_nodup _ _ W (curk b s)) as Nd. rewrite Hl in Nd.
          apply nodup_app_inv in Nd as (_ & _ & Nd). apply (Nd p); simpl; auto.
        * rewrite (pre_eq n k' p), (pre_eq n k p) by auto. simpl. f_equal. auto.
      + intros p0 Eq. right. exists p.
        split; [apply last_error_in; auto|].
        destruct (Hq p0 Eq) as [Ep|(c' & H1 & H2)].
        * injection Ep as ->. apply pre_self; auto.
        * rewrite pre_eq by auto. right. apply pres_in. eauto.
  Qed.

  Lemma rightmost : linked b bot k s0 ->
    pres n k' (k' b) = pres n k (k b) ++ [x].
  Proof.
    intros L. apply (rm_down s0 L).
    - apply rm_base.
    - intros p0 E. left. exact E.
  Qed.
End Rightmost.

Definition top_id (s : list frame) : nat := match s with (p, _) :: _ => p | [] => 0 end.
Definition prev_ok (b : key) (k : kids) (s : list frame) (prev : nat) : Prop :=
  (k (curk b s) = [] /\ prev = top_id s) \/ last_error (k (curk b s)) = Some prev.

(** [update_refs] links a fresh node as last child of the current container. *)
Lemma update_refs_ok d k n0 b bot s prev x :
  Inv d k -> pmode n0 b bot -> linked b bot k s -> prev_ok b k s prev ->
  fresh d k x -> n0 <= x ->
  (forall p tag, In (p, tag) s -> p < x) ->
  let d' := update_refs x prev s d in
  let k' := upk k (curk b s) (k (curk b s) ++ [x]) in
  Inv d' k' /\ same_data d d'.
Proof.
  intros I M L HP (Hx & Hfree & Hpc & Hnk) Hn0 Hfr d' k'.
  pose proof (inv_kw _ _ I) as W.
  assert (Hbase : s = [] -> b = Flo n0).
  { intros ->. inversion L as [E|]; subst. destruct M as [(_ & Hb & _)|(-> & _)]; auto.
    congruence. }
  unfold d', k', update_refs. unfold prev_ok in HP.
  destruct (Nat.ltb_spec 0 x) as [_|]; [|lia]. simpl andb.
  destruct s as [|[p tag] s].
  - rewrite (Hbase eq_refl) in *. simpl in *. destruct HP as [[E ->]|E].
    + simpl. rewrite E. simpl. split; [|apply same_data_refl].
      apply promote; auto.
    + assert (prev <> 0).
      { eapply k_nz; [exact I|apply last_error_in; eauto]. }
      destruct (Nat.ltb_spec 0 prev); [|lia]. split.
      * apply link_next_flo; auto.
      * destruct d; reflexivity.
  - simpl in *.
    assert (Hp : 1 <= p < x).
    { split; [|eapply Hfr; eauto].
      eapply (linked_frame (length (nodes d)) k n0 b bot _ p tag W (inv_len _ _ I) M L).
      simpl; auto. }
    destruct HP as [[E ->]|E].
    + simpl. destruct (Nat.ltb_spec 0 p); [|lia]. rewrite Nat.eqb_refl, E. simpl. split.
      * apply link_first; auto.
      * destruct d; reflexivity.
    + apply last_error_in in E as Hin. pose proof (kw_order _ _ W _ _ Hin).
      destruct (Nat.ltb_spec 0 prev); [|lia].
      destruct (Nat.eqb_spec p prev); [lia|]. split.
      * apply link_next_par; auto.
      * destruct d; reflexivity.
Qed.
