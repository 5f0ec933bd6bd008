(** * Traversal visits the tree in pre-order. *)
From Coq Require Import List NArith Arith Bool Lia.
From Verif Require Import Base TrieModel DomModel ParserModel ReadModel DomSpec
  Lemmas Tables Inv Surgery Attach Link RegProofs ParseSafe ParseTree.
Import ListNotations.
Local Open Scope nat_scope.

(** ** The pre-order listing of the specification *)
Scheme preorder_ind2 := Induction for preorder Sort Prop
  with preorders_ind2 := Induction for preorders Sort Prop.
Combined Scheme preorder_mut from preorder_ind2, preorders_ind2.

Lemma preorder_at d k c :
  Inv d k -> c <> 0 -> preorder d c (pre (length (nodes d)) k c).
Proof.
  intros I. pose proof (inv_kw _ _ I) as W. pattern c.
  apply (kids_ind (length (nodes d)) k); auto. clear c. intros c IH Hc.
  rewrite pre_eq by auto. econstructor; [apply (children_at d k c I Hc)|].
  assert (G : forall l, (forall x, In x l -> In x (k (Par c))) ->
            preorders d l (pres (length (nodes d)) k l)).
  { induction l as [|a l IHl]; intros Hs; simpl; [constructor|]. constructor.
    - apply IH; [apply Hs; simpl; auto|].
      eapply (k_nz I (Par c)). apply Hs. simpl; auto.
    - apply IHl. intros x Hx. apply Hs. simpl; auto. }
  apply G. auto.
Qed.

Lemma preorder_fun_mut d :
  (forall c l, preorder d c l -> forall l', preorder d c l' -> l = l') /\
  (forall cs l, preorders d cs l -> forall l', preorders d cs l' -> l = l').
Proof.
  apply (preorder_mut d (fun c l _ => forall l', preorder d c l' -> l = l')
                        (fun cs l _ => forall l', preorders d cs l' -> l = l')).
  - intros p cs l Hc Hp IH l' H'. inversion H' as [p' cs' l0 Hc' Hp']; subst.
    rewrite (sibs_fun _ _ _ _ Hc Hc') in *. f_equal. apply IH. auto.
  - intros l' H. inversion H. auto.
  - intros c cs l ls H1 IH1 H2 IH2 l' H'. inversion H'; subst. f_equal; auto.
Qed.

Lemma preorder_fun d c l l' : preorder d c l -> preorder d c l' -> l = l'.
Proof. intros. eapply (proj1 (preorder_fun_mut d)); eauto. Qed.

Lemma preorder_iff d k c l :
  Inv d k -> c <> 0 -> (preorder d c l <-> l = pre (length (nodes d)) k c).
Proof.
  intros I Hc. split.
  - intros H. eapply preorder_fun; eauto. apply preorder_at; auto.
  - intros ->. apply preorder_at; auto.
Qed.

(** ** Paths to an ancestor *)
Inductive path (k : kids) (s : nat) : nat -> list nat -> Prop :=
| path_nil : path k s s []
| path_step c p l : In c (k (Par p)) -> path k s p l -> path k s c (c :: l).

Lemma path_below n k s c l : kw n k -> path k s c l ->
  s <= c /\ (forall x, In x l -> x <= c /\ s < x) /\ NoDup l.
Proof.
  intros W. induction 1 as [|c p l Hc P (IH1 & IH2 & IH3)].
  - split; [lia|]. split; [intros x []|constructor].
  - pose proof (kw_order _ _ W _ _ Hc) as Ho. split; [lia|]. split.
    + intros x [<-|Hx]; [lia|]. destruct (IH2 x Hx). lia.
    + constructor; auto. intros Hin. destruct (IH2 c Hin). lia.
Qed.

Lemma path_length d k s c l : Inv d k -> path k s c l -> length l <= length (pchilds d).
Proof.
  intros I P. pose proof (inv_kw _ _ I) as W.
  destruct (path_below _ _ _ _ _ W P) as (_ & _ & Nd).
  rewrite <- (map_length snd (pchilds d)). apply NoDup_incl_length; auto.
  intros x Hx. induction P as [|c p l Hc P IH]; [destruct Hx|].
  destruct Hx as [<-|Hx].
  - apply in_map_iff. exists (p, c). split; auto.
    apply (pc_in _ _ _ (inv_pchild _ _ I)). exact Hc.
  - apply IH; auto. inversion Nd; auto.
Qed.

Lemma pre_path n k s c : kw n k -> In c (pre n k s) -> exists l, path k s c l.
Proof.
  intros W. revert s. intros s. remember c as c0. revert c Heqc0.
  induction c0 as [c0 IH] using lt_wf_ind. intros c -> H.
  destruct (pre_parent n k s c W H) as [->|(p & Hp & Hps)].
  - exists []. constructor.
  - destruct (IH p ltac:(apply (kw_order _ _ W) in Hp; lia) p eq_refl Hps) as [l P].
    exists (c :: l). econstructor; eauto.
Qed.

(** ** A generic walk *)
Inductive gwalk (T : nat -> outcome nat) : nat -> list nat -> Prop :=
| gw_stop c : T c = Ok 0 -> gwalk T c []
| gw_step c n l : T c = Ok n -> n <> 0 -> gwalk T n l -> gwalk T c (n :: l).

Section Walk.
  Context (d : dom) (k : kids) (I : Inv d k) (s stop : nat).
  Let n := length (nodes d).
  Let W : kw n k := inv_kw _ _ I.
  Context (Hstop : stop <= s) (Hs : s <> 0).
  Context (T : nat -> outcome nat).
  Context (Tchild : forall c a l, c <> 0 -> k (Par c) = a :: l -> T c = Ok a).

  Definition exits (c : nat) (rest : list nat) : Prop :=
    forall l fuel, path k s c l -> S (length l) <= fuel ->
      climb fuel c stop d = Ok (hd 0 rest).

  Context (Tleaf : forall c l rest, k (Par c) = [] -> path k s c l ->
             (c = s -> T c = Ok 0) ->
             exits c rest -> T c = Ok (hd 0 rest)).

  (** after the subtree of [c] the walk continues with [rest] *)
  Definition continues (rest : list nat) : Prop :=
    match rest with [] => True | m :: r => m <> 0 /\ gwalk T m r end.

  Lemma climb_next q l1 c b l2 fuel :
    k q = l1 ++ c :: b :: l2 -> s < c -> climb fuel c stop d = Ok b.
  Proof.
    intros E Hc. assert (c <> 0) by lia.
    assert (Hb : b <> 0).
    { apply (k_nz I q). rewrite E. apply in_or_app. simpl; auto. }
    assert (G : get_next c d = b) by (rewrite (get_next_at I q l1 c (b :: l2) E); auto).
    destruct fuel; simpl; rewrite G;
      destruct (Nat.eqb_spec c 0); try lia; destruct (Nat.eqb_spec c stop); try lia; simpl;
      destruct (Nat.eqb_spec b 0); try lia; auto.
  Qed.

  Lemma climb_up p l1 c fuel :
    k (Par p) = l1 ++ [c] -> s < c -> climb (S fuel) c stop d = climb fuel p stop d.
  Proof.
    intros E Hc. assert (G : get_next c d = 0) by (rewrite (get_next_at I (Par p) l1 c [] E); auto).
    cbn [climb]. rewrite G. destruct (Nat.eqb_spec c 0); [lia|].
    destruct (Nat.eqb_spec c stop); [lia|]. simpl.
    rewrite (get_parent_at I p c); auto. rewrite E. apply in_or_app; simpl; auto.
  Qed.

  Lemma walk_from c : forall lp rest,
    path k s c lp -> exits c rest -> continues rest ->
    (c = s -> k (Par c) <> [] \/ T c = Ok 0 /\ rest = []) ->
    gwalk T c (pres n k (k (Par c)) ++ rest).
  Proof.
    pattern c. apply (kids_ind n k); auto. clear c. intros c IH lp rest P X C Hspec.
    assert (Hc0 : c <> 0).
    { destruct (path_below _ _ _ _ _ W P). lia. }
    assert (Hfin : forall rest', rest' = rest -> T c = Ok (hd 0 rest') -> gwalk T c rest').
    { intros rest' -> HT. destruct rest as [|m r]; simpl in *.
      - constructor; auto.
      - destruct C. econstructor; eauto. }
    destruct (k (Par c)) as [|a l] eqn:E.
    { simpl. apply Hfin; auto. eapply Tleaf; eauto.
      intros ->. destruct (Hspec eq_refl) as [H|[H _]]; [congruence|auto]. }
    assert (G : forall l2 l1 a2, k (Par c) = l1 ++ a2 :: l2 ->
       gwalk T a2 (pres n k (k (Par a2)) ++ pres n k l2 ++ rest)).
    { induction l2 as [|b2 l2 IHl]; intros l1 a2 E2.
      - assert (Hin : In a2 (k (Par c))) by (rewrite E2; apply in_elt).
        assert (Hlt : s < a2).
        { apply (kw_order _ _ W) in Hin. destruct (path_below _ _ _ _ _ W P). lia. }
        simpl. rewrite <- E in *. apply (IH a2 Hin (a2 :: lp)); auto.
        + econstructor; eauto.
        + intros lq fuel Pq Hf. destruct fuel as [|fuel]; [lia|].
          rewrite (climb_up c l1 a2 fuel E2 Hlt). apply (X lp); auto.
          inversion Pq as [|c' p' l' Hin' P']; subst; [lia|].
          assert (p' = c).
          { assert (Par p' = Par c) by (eapply (kw_disj _ _ W); eauto). congruence. }
          subst p'. simpl in Hf.
          assert (length l' = length lp); [|lia].
          { clear -P P' W. revert lp P. induction P' as [|c0 p l Hc P' IHP]; intros lp P.
            - inversion P as [|c' p' l' H' Pq]; subst; auto.
              destruct (path_below _ _ _ _ _ W Pq) as (H1 & _).
              apply (kw_order _ _ W) in H'. lia.
            - inversion P as [|c' p' l'' H' Pq]; subst.
              + destruct (path_below _ _ _ _ _ W P') as (H1 & _).
                apply (kw_order _ _ W) in Hc. lia.
              + assert (Par p' = Par p) by (eapply (kw_disj _ _ W); eauto).
                injection H as ->. simpl. f_equal. apply IHP; auto. }
        + intros ->. lia.
      - assert (Hin : In a2 (k (Par c))) by (rewrite E2; apply in_elt).
        assert (Hlt : s < a2).
        { apply (kw_order _ _ W) in Hin. destruct (path_below _ _ _ _ _ W P). lia. }
        assert (Hb : b2 <> 0).
        { apply (k_nz I (Par c)). rewrite E2. apply in_or_app. simpl; auto. }
        specialize (IHl (l1 ++ [a2]) b2).
        rewrite <- app_assoc in IHl. specialize (IHl E2).
        rewrite <- E in *.
        apply (IH a2 Hin (a2 :: lp)).
        + econstructor; eauto.
        + intros lq fuel Pq Hf. simpl. rewrite (pre_eq n k b2) by auto. simpl.
          eapply climb_next; eauto.
        + simpl. rewrite (pre_eq n k b2) by auto. simpl. split; auto.
          rewrite <- app_assoc. exact IHl.
        + intros ->. lia. }
    simpl. rewrite (pre_eq n k a) by auto. simpl. econstructor.
    - apply (Tchild c a l); auto.
    - apply (k_nz I (Par c)). rewrite E. simpl; auto.
    - rewrite <- app_assoc. apply (G l [] a E).
  Qed.
End Walk.

Lemma dom_walk_gwalk d c l : gwalk (fun c => traverse_dom c d) c l -> dom_walk d c l.
Proof. induction 1; econstructor; eauto. Qed.
Lemma node_walk_gwalk d s c l : gwalk (fun c => traverse_node c s d) c l -> node_walk d s c l.
Proof. induction 1; econstructor; eauto. Qed.

Lemma one_not_in d k q : Inv d k -> ~ In 1 (k q).
Proof. intros I H. apply (kw_bound _ _ (inv_kw _ _ I)) in H. lia. Qed.

Lemma climb_root d k fuel : Inv d k -> 1 <= fuel -> climb fuel 1 0 d = Ok 0.
Proof.
  intros I Hf. destruct fuel as [|f]; [lia|]. cbn [climb]. simpl (1 =? 0). simpl orb.
  cbv iota. rewrite (get_next_none I 1); [|lia|intros q; apply (one_not_in d k q I)].
  simpl (0 =? 0). rewrite (get_parent_none 1).
  - destruct f; reflexivity.
  - intros p H. apply (pc_nz _ _ _ (inv_pchild _ _ I)) in H. lia.
Qed.

Lemma traverse_dom_tree d k :
  Inv d k -> dom_walk d 1 (pres (length (nodes d)) k (k (Par 1))).
Proof.
  intros I. pose proof (inv_kw _ _ I) as W.
  rewrite <- (app_nil_r (pres _ _ _)). apply dom_walk_gwalk.
  eapply (walk_from d k I 1 0); try lia.
  - intros c a l Hc E. unfold traverse_dom. rewrite (get_first_child_at I c) by auto.
    rewrite E. assert (a <> 0) by (apply (k_nz I (Par c)); rewrite E; simpl; auto).
    destruct (Nat.eqb_spec a 0); [lia|]. reflexivity.
  - intros c l rest E P _ X.
    assert (Hc : c <> 0) by (destruct (path_below _ _ _ _ _ W P); lia).
    unfold traverse_dom. rewrite (get_first_child_at I c), E by auto. simpl (0 =? 0).
    cbv iota beta. cbn [negb].
    pose proof (path_length d k 1 c l I P) as Hlen.
    assert (Hx : climb (S (S (length (pchilds d)))) c 0 d = Ok (hd 0 rest)).
    { apply (X l); auto. lia. }
    cbn [climb] in Hx. destruct (Nat.eqb_spec c 0); [lia|]. simpl orb in Hx.
    destruct (Nat.eqb_spec (get_next c d) 0) as [E0|E0]; simpl negb; cbv iota in *.
    + exact Hx.
    + exact Hx.
  - constructor.
  - intros l fuel P Hf. simpl. apply (climb_root d k); auto. lia.
  - exact Logic.I.
  - intros _. destruct (k (Par 1)) eqn:E; [right|left; congruence].
    split; auto. unfold traverse_dom. rewrite (get_first_child_at I 1), E by auto.
    simpl. rewrite (get_next_none I 1); [|lia|intros q; apply (one_not_in d k q I)].
    simpl. rewrite (get_parent_none 1); [reflexivity|].
    intros p H. apply (pc_nz _ _ _ (inv_pchild _ _ I)) in H. lia.
Qed.

Lemma climb_stop d s fuel : climb fuel s s d = Ok 0.
Proof.
  assert (E : (s =? 0) || (s =? s) = true) by (rewrite Nat.eqb_refl; apply orb_true_r).
  destruct fuel; unfold climb; fold climb; rewrite E; reflexivity.
Qed.

Lemma traverse_node_tree d k s :
  Inv d k -> s <> 0 -> k (Par s) <> [] \/ get_next s d = 0 ->
  node_walk d s s (pres (length (nodes d)) k (k (Par s))).
Proof.
  intros I Hs0 Hs. pose proof (inv_kw _ _ I) as W.
  rewrite <- (app_nil_r (pres _ _ _)). apply node_walk_gwalk.
  assert (Hself : k (Par s) = [] -> traverse_node s s d = Ok 0).
  { intros E. unfold traverse_node. rewrite (get_first_child_at I s), E by auto. simpl.
    destruct Hs as [Hs|Hs]; [congruence|]. rewrite Hs. simpl. now rewrite Nat.eqb_refl. }
  eapply (walk_from d k I s s); try lia.
  - intros c a l Hc E. unfold traverse_node. rewrite (get_first_child_at I c) by auto.
    rewrite E. assert (a <> 0) by (apply (k_nz I (Par c)); rewrite E; simpl; auto).
    destruct (Nat.eqb_spec a 0); [lia|]. reflexivity.
  - intros c l rest E P Hspec X.
    assert (Hc : c <> 0) by (destruct (path_below _ _ _ _ _ W P); lia).
    assert (Hx : climb (S (S (length (pchilds d)))) c s d = Ok (hd 0 rest)).
    { apply (X l); auto. pose proof (path_length d k s c l I P). lia. }
    destruct (Nat.eq_dec c s) as [->|Hcs].
    { rewrite Hself by auto. symmetry. rewrite <- Hx. apply climb_stop. }
    unfold traverse_node. rewrite (get_first_child_at I c), E by auto. simpl (0 =? 0).
    cbn [negb]. cbv iota.
    cbn [climb] in Hx. destruct (Nat.eqb_spec c 0); [lia|].
    destruct (Nat.eqb_spec c s); [lia|]. simpl orb in Hx.
    assert (Hns : get_next c d <> s).
    { inversion P as [|c' p' l' Hin P']; subst; [congruence|].
      apply in_split in Hin as (l1 & l2 & E2).
      rewrite (get_next_at I (Par p') l1 c l2 E2).
      destruct l2 as [|b l2]; [lia|]. intros ->.
      assert (Hin : In s (k (Par p'))) by (rewrite E2; apply in_or_app; simpl; auto).
      apply (kw_order _ _ W) in Hin. destruct (path_below _ _ _ _ _ W P'). lia. }
    destruct (Nat.eqb_spec (get_next c d) s); [lia|].
    destruct (Nat.eqb_spec (get_next c d) 0) as [E0|E0]; simpl negb; cbv iota in *.
    + rewrite E0. simpl. exact Hx.
    + destruct (Nat.ltb_spec 0 (get_next c d)); [|lia]. exact Hx.
  - constructor.
  - intros l fuel P Hf. apply climb_stop.
  - exact Logic.I.
  - intros _. destruct (k (Par s)) eqn:E; [right|left; congruence]. auto.
Qed.

(** Determinism of walks. *)
Lemma dom_walk_fun d c l l' : dom_walk d c l -> dom_walk d c l' -> l = l'.
Proof.
  intros H. revert l'. induction H; intros l' H'; inversion H'; subst; try congruence.
  assert (n = n0) by congruence. subst. f_equal. auto.
Qed.
Lemma node_walk_fun d s c l l' : node_walk d s c l -> node_walk d s c l' -> l = l'.
Proof.
  intros H. revert l'. induction H; intros l' H'; inversion H'; subst; try congruence.
  assert (n = n0) by congruence. subst. f_equal. auto.
Qed.

(** ** Text content *)
Lemma text_content_walk d s c l :
  (forall i n, nth_error (nodes d) i = Some n -> pay_ok n) ->
  node_walk d s c l -> (forall x, In x l -> x < length (nodes d)) ->
  forall fuel, length l <= fuel -> text_content_loop fuel c s d = Ok (texts d l).
Proof.
  intros Hp. induction 1 as [c E|c m l E Hm Hw IH]; intros Hb fuel Hf.
  - destruct fuel; simpl; rewrite E; reflexivity.
  - destruct fuel as [|f]; [simpl in Hf; lia|]. cbn [text_content_loop].
    rewrite E. cbn [bind]. destruct (Nat.eqb_spec m 0); [lia|].
    unfold get_node. destruct (nth_error (nodes d) m) as [nd|] eqn:En.
    2:{ apply nth_error_None in En. specialize (Hb m (or_introl eq_refl)). lia. }
    cbn [bind]. rewrite IH; [|intros x Hx; apply Hb; simpl; auto|simpl in Hf; lia].
    cbn [bind]. specialize (Hp m nd En). unfold pay_ok in Hp.
    simpl. unfold text_of. rewrite En. destruct nd as [i ty pay]. simpl in *.
    destruct ty; auto. destruct Hp as [t ->]. reflexivity.
Qed.

Lemma text_content_tree d k s :
  Good d k -> s <> 0 -> k (Par s) <> [] \/ get_next s d = 0 ->
  get_text_content s d = Ok (texts d (pres (length (nodes d)) k (k (Par s)))).
Proof.
  intros G Hs0 Hs. pose proof (g_inv _ _ G) as I. pose proof (inv_kw _ _ I) as W.
  unfold get_text_content. apply text_content_walk.
  - apply (ty_pay _ _ (g_ty _ _ G)).
  - apply traverse_node_tree; auto.
  - intros x Hx. apply pres_in in Hx as (c & Hc & Hx).
    destruct (pre_parent _ _ _ _ W Hx) as [->|(p & Hp & _)];
      eapply (kw_bound _ _ W); eauto.
  - assert (Nd : NoDup (pre (length (nodes d)) k s)) by (apply pre_nodup; auto).
    rewrite pre_eq in Nd by auto. inversion Nd; subst.
    assert (length (pres (length (nodes d)) k (k (Par s))) <= length (nodes d)); [|lia].
    transitivity (length (seq 0 (length (nodes d)))); [|rewrite seq_length; auto].
    apply NoDup_incl_length; auto.
    intros x Hx. apply in_seq. apply pres_in in Hx as (c & Hc & Hx).
    assert (2 <= x < length (nodes d)); [|lia].
    destruct (pre_parent _ _ _ _ W Hx) as [->|(p & Hp & _)];
      eapply (kw_bound _ _ W); eauto.
Qed.
