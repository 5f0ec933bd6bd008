(** * Association tables with tombstones, and adjacency in lists. *)
From Coq Require Import List NArith Arith Bool Lia.
From Verif Require Import Base DomModel Lemmas.
Import ListNotations.
Local Open Scope nat_scope.

Definition live (e : nat * nat) : bool := negb (fst e =? 0).

(** [l] holds exactly the pairs of [R], once each, plus tombstones (0,0). *)
Definition tab_ok (l : list (nat * nat)) (R : nat -> nat -> Prop) : Prop :=
  (forall a b, In (a, b) l -> (a = 0 /\ b = 0) \/ R a b) /\
  (forall a b, R a b -> In (a, b) l /\ a <> 0 /\ b <> 0) /\
  NoDup (filter live l).

Lemma tab_ext l R R' :
  tab_ok l R -> (forall a b, R a b <-> R' a b) -> tab_ok l R'.
Proof.
  intros (H1 & H2 & H3) E. split; [|split; auto].
  - intros a b H. apply H1 in H. rewrite E in H. exact H.
  - intros a b H. apply E in H. auto.
Qed.

Lemma tab_nil R : (forall a b, ~ R a b) -> tab_ok [] R.
Proof.
  intros H. split; [|split].
  - intros a b [].
  - intros a b HR. destruct (H a b HR).
  - constructor.
Qed.

Lemma tab_push l R a b :
  tab_ok l R -> a <> 0 -> b <> 0 -> ~ R a b ->
  tab_ok (l ++ [(a, b)]) (fun x y => R x y \/ (x = a /\ y = b)).
Proof.
  intros (H1 & H2 & H3) Ha Hb Hn. split; [|split].
  - intros x y H. apply in_app_or in H as [H|[H|[]]].
    + apply H1 in H. tauto.
    + injection H as -> ->. tauto.
  - intros x y [H|[-> ->]].
    + apply H2 in H as (? & ? & ?). split; auto. apply in_or_app; auto.
    + split; auto. apply in_or_app; right; left; auto.
  - rewrite filter_app. simpl.
    assert (E : live (a, b) = true).
    { unfold live. simpl. destruct (Nat.eqb_spec a 0); auto. }
    rewrite E. apply NoDup_rev in H3.
    rewrite <- (rev_involutive (_ ++ _)). apply NoDup_rev.
    rewrite rev_app_distr. simpl. constructor; auto.
    rewrite <- in_rev. rewrite filter_In. intros [Hi _].
    apply H1 in Hi. tauto.
Qed.

Lemma nodup_mid {A} (l1 : list A) x l2 :
  NoDup (l1 ++ x :: l2) <-> NoDup (l1 ++ l2) /\ ~ In x (l1 ++ l2).
Proof.
  split.
  - intros H. split; [eapply NoDup_remove_1|eapply NoDup_remove_2]; eauto.
  - intros [H1 H2]. revert H1 H2; induction l1 as [|y l1 IH]; simpl; intros.
    + constructor; auto.
    + inversion H1; subst. constructor.
      * intros Hi. apply in_app_or in Hi as [Hi|[->|Hi]].
        -- apply H3, in_or_app; auto.
        -- tauto.
        -- apply H3, in_or_app; auto.
      * apply IH; auto. 
Qed.

Lemma tab_kill l R a b i :
  tab_ok l R -> nth_error l i = Some (a, b) -> R a b ->
  tab_ok (upd l i (0, 0)) (fun x y => R x y /\ ~ (x = a /\ y = b)).
Proof.
  intros (H1 & H2 & H3) Hi HR.
  destruct (upd_split l i (a, b) (0, 0) Hi) as (l1 & l2 & -> & Hl & ->).
  pose proof (H2 a b HR) as (_ & Ha & Hb).
  assert (E : live (a, b) = true).
  { unfold live. simpl. destruct (Nat.eqb_spec a 0); auto. }
  rewrite filter_app in H3. simpl in H3. rewrite E in H3.
  apply nodup_mid in H3 as [H3 H4]. rewrite <- filter_app in H4.
  rewrite filter_In in H4.
  assert (H5 : ~ In (a, b) (l1 ++ l2)) by tauto. clear H4.
  split; [|split].
  - intros x y H. apply in_app_or in H as [H|[H|H]].
    + destruct (H1 x y) as [?|?]; [apply in_or_app; auto|auto|].
      right. split; auto. intros [-> ->]. apply H5, in_or_app; auto.
    + injection H as <- <-. auto.
    + destruct (H1 x y) as [?|?]; [apply in_or_app; right; right; auto|auto|].
      right. split; auto. intros [-> ->]. apply H5, in_or_app; auto.
  - intros x y [H Hne]. apply H2 in H as (Hin & ? & ?). split; auto.
    apply in_app_or in Hin as [Hin|[Hin|Hin]].
    + apply in_or_app; auto.
    + injection Hin as -> ->. tauto.
    + apply in_or_app; right; right; auto.
  - rewrite filter_app. simpl. exact H3.
Qed.

Lemma tab_set l R a b a' b' i :
  tab_ok l R -> nth_error l i = Some (a, b) -> R a b ->
  a' <> 0 -> b' <> 0 -> ~ R a' b' ->
  tab_ok (upd l i (a', b'))
         (fun x y => (R x y /\ ~ (x = a /\ y = b)) \/ (x = a' /\ y = b')).
Proof.
  intros (H1 & H2 & H3) Hi HR Ha' Hb' Hn.
  destruct (upd_split l i (a, b) (a', b') Hi) as (l1 & l2 & -> & Hl & ->).
  pose proof (H2 a b HR) as (_ & Ha & Hb).
  assert (E : live (a, b) = true).
  { unfold live. simpl. destruct (Nat.eqb_spec a 0); auto. }
  assert (E' : live (a', b') = true).
  { unfold live. simpl. destruct (Nat.eqb_spec a' 0); auto. }
  rewrite filter_app in H3. simpl in H3. rewrite E in H3.
  apply nodup_mid in H3 as [H3 H4]. rewrite <- filter_app in H4.
  rewrite filter_In in H4.
  assert (H5 : ~ In (a, b) (l1 ++ l2)) by tauto. clear H4.
  split; [|split].
  - intros x y H. apply in_app_or in H as [H|[H|H]].
    + destruct (H1 x y) as [?|?]; [apply in_or_app; auto|auto|].
      right. left. split; auto. intros [-> ->]. apply H5, in_or_app; auto.
    + injection H as <- <-. auto.
    + destruct (H1 x y) as [?|?]; [apply in_or_app; right; right; auto|auto|].
      right. left. split; auto. intros [-> ->]. apply H5, in_or_app; auto.
  - intros x y [[H Hne]|[-> ->]].
    + apply H2 in H as (Hin & ? & ?). split; auto.
      apply in_app_or in Hin as [Hin|[Hin|Hin]].
      * apply in_or_app; auto.
      * injection Hin as -> ->. tauto.
      * apply in_or_app; right; right; auto.
    + split; auto. apply in_or_app; right; left; auto.
  - rewrite filter_app. simpl. rewrite E'. apply nodup_mid. split; auto.
    rewrite <- filter_app, filter_In. intros [Hi' _].
    assert (Hin : In (a', b') (l1 ++ (a, b) :: l2)).
    { apply in_app_or in Hi' as [?|?]; apply in_or_app; simpl; auto. }
    apply H1 in Hin. tauto.
Qed.

(** ** Searching *)
Lemma tab_find_fst l R a b :
  tab_ok l R -> R a b -> (forall b', R a b' -> b' = b) ->
  exists i, find_idx (fun e => fst e =? a) l = Some i /\
            nth_error l i = Some (a, b).
Proof.
  intros (H1 & H2 & H3) HR Hf.
  pose proof (H2 a b HR) as (Hin & Ha & Hb).
  destruct (find_idx_ex (fun e => fst e =? a) l (a, b) Hin) as [i Hi].
  { simpl. apply Nat.eqb_refl. }
  exists i. split; auto. apply find_idx_some in Hi as ([x y] & Hn & He & _).
  simpl in He. apply Nat.eqb_eq in He. subst x.
  apply nth_error_In in Hn as Hin'. apply H1 in Hin' as [[? _]|Hr]; [congruence|].
  rewrite (Hf y Hr) in Hn. exact Hn.
Qed.

Lemma tab_find_fst_none l R a :
  tab_ok l R -> a <> 0 -> (forall b, ~ R a b) ->
  find_idx (fun e => fst e =? a) l = None.
Proof.
  intros (H1 & H2 & H3) Ha Hn. apply find_idx_none. intros [x y] Hin. simpl.
  apply Nat.eqb_neq. intros ->. apply H1 in Hin as [[? _]|H]; [congruence|].
  exact (Hn y H).
Qed.

Lemma tab_find_snd l R a b :
  tab_ok l R -> R a b -> (forall a', R a' b -> a' = a) ->
  exists i, find_idx (fun e => snd e =? b) l = Some i /\
            nth_error l i = Some (a, b).
Proof.
  intros (H1 & H2 & H3) HR Hf.
  pose proof (H2 a b HR) as (Hin & Ha & Hb).
  destruct (find_idx_ex (fun e => snd e =? b) l (a, b) Hin) as [i Hi].
  { simpl. apply Nat.eqb_refl. }
  exists i. split; auto. apply find_idx_some in Hi as ([x y] & Hn & He & _).
  simpl in He. apply Nat.eqb_eq in He. subst y.
  apply nth_error_In in Hn as Hin'. apply H1 in Hin' as [[_ ?]|Hr]; [congruence|].
  rewrite (Hf x Hr) in Hn. exact Hn.
Qed.

Lemma tab_find_snd_none l R b :
  tab_ok l R -> b <> 0 -> (forall a, ~ R a b) ->
  find_idx (fun e => snd e =? b) l = None.
Proof.
  intros (H1 & H2 & H3) Hb Hn. apply find_idx_none. intros [x y] Hin. simpl.
  apply Nat.eqb_neq. intros ->. apply H1 in Hin as [[_ ?]|H]; [congruence|].
  exact (Hn x H).
Qed.

Lemma at_idx_nth l i e : nth_error l i = Some e -> at_idx l i = e.
Proof. apply nth_error_nth. Qed.

(** ** Adjacency *)
Fixpoint adj (a b : nat) (l : list nat) : Prop :=
  match l with
  | x :: l' => (x = a /\ hd_error l' = Some b) \/ adj a b l'
  | [] => False
  end.

Definition last_error (l : list nat) : option nat := hd_error (rev l).

Lemma last_error_snoc l x : last_error (l ++ [x]) = Some x.
Proof. unfold last_error. now rewrite rev_app_distr. Qed.

Lemma last_error_cons x y l : last_error (x :: y :: l) = last_error (y :: l).
Proof.
  unfold last_error. change (x :: y :: l) with ([x] ++ (y :: l)).
  rewrite rev_app_distr. simpl. rewrite <- app_assoc.
  destruct (rev l) as [|z r]; reflexivity.
Qed.

Lemma last_error_some l x : last_error l = Some x <-> exists l', l = l' ++ [x].
Proof.
  split.
  - unfold last_error. destruct (rev l) as [|y r] eqn:E; intros H; [discriminate|].
    injection H as ->. exists (rev r).
    rewrite <- (rev_involutive l), E. reflexivity.
  - intros [l' ->]. apply last_error_snoc.
Qed.

Lemma last_error_none l : last_error l = None <-> l = [].
Proof.
  split.
  - unfold last_error. intros H. rewrite <- (rev_involutive l).
    destruct (rev l); [reflexivity|discriminate].
  - intros ->. reflexivity.
Qed.

Lemma adj_app a b l1 l2 :
  adj a b (l1 ++ l2) <->
  adj a b l1 \/ adj a b l2 \/ (last_error l1 = Some a /\ hd_error l2 = Some b).
Proof.
  induction l1 as [|x l1 IH].
  - simpl. split; [tauto|]. intros [[]|[H|[H _]]]; auto. discriminate.
  - destruct l1 as [|y l1].
    + simpl. split.
      * intros [[-> H]|H]; auto.
      * intros [[[_ H]|[]]|[H|[H1 H2]]]; [discriminate|auto|].
        injection H1 as ->. auto.
    + rewrite last_error_cons. simpl app in *. simpl adj at 1 2.
      simpl adj in IH. rewrite IH. simpl. tauto.
Qed.

Lemma adj_split a b l : adj a b l <-> exists l1 l2, l = l1 ++ a :: b :: l2.
Proof.
  split.
  - induction l as [|x l IH]; simpl; [tauto|]. intros [[-> H]|H].
    + destruct l as [|y l]; [discriminate|]. injection H as ->.
      exists [], l. reflexivity.
    + destruct (IH H) as (l1 & l2 & ->). exists (x :: l1), l2. reflexivity.
  - intros (l1 & l2 & ->). apply adj_app. right; left. simpl. auto.
Qed.

Lemma adj_in a b l : adj a b l -> In a l /\ In b l.
Proof.
  rewrite adj_split. intros (l1 & l2 & ->). split; apply in_or_app; simpl; auto.
Qed.

Lemma nodup_split_eq (l1 l2 m1 m2 : list nat) x :
  NoDup (l1 ++ x :: l2) -> l1 ++ x :: l2 = m1 ++ x :: m2 -> l1 = m1 /\ l2 = m2.
Proof.
  revert m1; induction l1 as [|y l1 IH]; intros [|z m1] Hn H; simpl in *.
  - injection H as ->. auto.
  - injection H as <- ->. inversion Hn; subst. exfalso. apply H1.
    apply in_or_app; simpl; auto.
  - injection H as -> <-. inversion Hn; subst. exfalso. apply H1.
    apply in_or_app; simpl; auto.
  - injection H as <- H. inversion Hn; subst.
    destruct (IH m1 H3 H) as [-> ->]. auto.
Qed.

Lemma adj_fun_r a b b' l : NoDup l -> adj a b l -> adj a b' l -> b = b'.
Proof.
  rewrite !adj_split. intros Hn (l1 & l2 & ->) (m1 & m2 & E).
  destruct (nodup_split_eq _ _ _ _ _ Hn E) as [-> H]. congruence.
Qed.

Lemma adj_fun_l a a' b l : NoDup l -> adj a b l -> adj a' b l -> a = a'.
Proof.
  rewrite !adj_split. intros Hn (l1 & l2 & ->) (m1 & m2 & E).
  assert (E1 : (l1 ++ [a]) ++ b :: l2 = (m1 ++ [a']) ++ b :: m2)
    by (rewrite <- !app_assoc; exact E).
  assert (Hn1 : NoDup ((l1 ++ [a]) ++ b :: l2))
    by (rewrite <- app_assoc; exact Hn).
  destruct (nodup_split_eq _ _ _ _ _ Hn1 E1) as [H _].
  apply app_inj_tail in H. tauto.
Qed.

Lemma adj_neq a b l : NoDup l -> adj a b l -> a <> b.
Proof.
  rewrite adj_split. intros Hn (l1 & l2 & ->) ->.
  apply NoDup_remove_2 in Hn. apply Hn. apply in_or_app; simpl; auto.
Qed.

Lemma hd_error_app {A} (l1 l2 : list A) :
  hd_error (l1 ++ l2) = match l1 with [] => hd_error l2 | x :: _ => Some x end.
Proof. destruct l1; reflexivity. Qed.

Lemma last_error_app l1 l2 :
  last_error (l1 ++ l2) = match l2 with [] => last_error l1 | _ => last_error l2 end.
Proof.
  unfold last_error. rewrite rev_app_distr, hd_error_app.
  destruct l2 as [|x l2]; [reflexivity|].
  destruct (rev (x :: l2)) eqn:E; [|reflexivity].
  apply (f_equal (@length nat)) in E. rewrite rev_length in E. discriminate.
Qed.

Lemma last_error_in l x : last_error l = Some x -> In x l.
Proof.
  rewrite last_error_some. intros [l' ->]. apply in_or_app; simpl; auto.
Qed.

Lemma hd_error_in {A} (l : list A) x : hd_error l = Some x -> In x l.
Proof. destruct l; simpl; intros; [discriminate|]. injection H as ->. auto. Qed.

(** Last element has no successor, first no predecessor. *)
Lemma adj_last_none l x : NoDup l -> last_error l = Some x -> forall b, ~ adj x b l.
Proof.
  intros Hn H b Ha. apply last_error_some in H as [l' ->].
  apply adj_split in Ha as (l1 & l2 & E).
  assert (E' : l' ++ x :: [] = l1 ++ x :: b :: l2) by exact E.
  destruct (nodup_split_eq _ _ _ _ _ Hn E') as [_ H]. discriminate.
Qed.

Lemma adj_hd_none l x : NoDup l -> hd_error l = Some x -> forall a, ~ adj a x l.
Proof.
  intros Hn H a Ha. destruct l as [|y l]; [discriminate|]. injection H as ->.
  apply adj_split in Ha as (l1 & l2 & E).
  assert (E' : [] ++ x :: l = (l1 ++ [a]) ++ x :: l2)
    by (rewrite <- app_assoc; exact E).
  destruct (nodup_split_eq [] l (l1 ++ [a]) l2 x Hn E') as [H _].
  destruct l1; discriminate.
Qed.
