(** * General lemmas: outcomes, byte strings, tables, scanning loops. *)
From Coq Require Import List NArith Arith Bool Lia.
From Verif Require Import Base.
Import ListNotations.
Local Open Scope nat_scope.

(** ** Outcomes *)

(** [safe N Q o]: the run ends normally in [Q], or leaves through longjmp, or
    (only if [N]) builds a string of negative length.  It never reads or writes
    out of bounds, dereferences NULL, or runs out of fuel. *)
Definition safe {A} (N : Prop) (Q : A -> Prop) (o : outcome A) : Prop :=
  match o with
  | Ok a => Q a
  | Longjmp _ => True
  | Undef NegLen => N
  | _ => False
  end.

Lemma safe_ok {A} N (Q : A -> Prop) a : Q a -> safe N Q (Ok a).
Proof. exact (fun h => h). Qed.

Lemma safe_bind {A B} N (P : A -> Prop) (Q : B -> Prop) x f :
  safe N P x -> (forall a, P a -> safe N Q (f a)) -> safe N Q (bind x f).
Proof.
  intros Hx Hf. destruct x as [a|u|j|]; simpl in *; auto.
Qed.

Lemma safe_imp {A} N (P Q : A -> Prop) x :
  safe N P x -> (forall a, P a -> Q a) -> safe N Q x.
Proof.
  intros Hx H. destruct x as [a|u|j|]; simpl in *; auto.
Qed.

Lemma safe_neg {A} (N M : Prop) (Q : A -> Prop) x :
  safe N Q x -> (N -> M) -> safe M Q x.
Proof.
  intros Hx H. destruct x as [a|u|j|]; simpl in *; auto. destruct u; auto.
Qed.

Lemma safe_and {A} N (P Q : A -> Prop) x :
  safe N P x -> safe N Q x -> safe N (fun a => P a /\ Q a) x.
Proof. intros. destruct x as [a|u|j|]; simpl in *; auto. Qed.

Lemma safe_inv {A} N (Q : A -> Prop) x a : safe N Q x -> x = Ok a -> Q a.
Proof. intros H ->. exact H. Qed.

Lemma safe_get {A} N (Q : A -> Prop) x :
  safe N Q x -> (exists a, x = Ok a /\ Q a) \/ (exists j, x = Longjmp j)
                \/ (x = Undef NegLen /\ N).
Proof.
  destruct x as [a|u|j|]; simpl; intros H; [left; eauto| |right; left; eauto|tauto].
  destruct u; tauto.
Qed.

Lemma bind_ok {A B} (x : outcome A) (f : A -> outcome B) b :
  bind x f = Ok b -> exists a, x = Ok a /\ f a = Ok b.
Proof. destruct x; simpl; intros; try discriminate; eauto. Qed.

Lemma bind_assoc {A B C} (x : outcome A) (f : A -> outcome B) (g : B -> outcome C) :
  bind (bind x f) g = bind x (fun a => bind (f a) g).
Proof. destruct x; reflexivity. Qed.

(** ** Byte strings *)
Lemma beq_eq a b : beq a b = true <-> a = b.
Proof.
  revert b; induction a as [|x a IH]; destruct b as [|y b]; simpl; split;
    intros H; try discriminate; auto.
  - apply andb_true_iff in H as [H1 H2]. apply N.eqb_eq in H1.
    apply IH in H2. congruence.
  - injection H as -> ->. rewrite N.eqb_refl. apply IH. reflexivity.
Qed.

Lemma beq_refl a : beq a a = true.
Proof. apply beq_eq; reflexivity. Qed.

Lemma beq_neq a b : beq a b = false <-> a <> b.
Proof.
  rewrite <- beq_eq. destruct (beq a b); split; intros; try discriminate; auto.
  congruence.
Qed.

Lemma beq_sym a b : beq a b = beq b a.
Proof.
  destruct (beq a b) eqn:E; symmetry.
  - apply beq_eq in E. subst. apply beq_refl.
  - apply beq_neq. apply beq_neq in E. congruence.
Qed.

Lemma bytes_dec (a b : bytes) : {a = b} + {a <> b}.
Proof.
  destruct (beq a b) eqn:E; [left; apply beq_eq|right; apply beq_neq]; exact E.
Qed.

(** ** Checked reads *)
Lemma safe_get_char N t i :
  i < length t -> safe N (fun c => nth_error t i = Some c) (get_char t i).
Proof.
  intros H. unfold get_char. destruct (nth_error t i) eqn:E; simpl; auto.
  apply nth_error_None in E. lia.
Qed.

Lemma get_char_ok t i c : nth_error t i = Some c -> get_char t i = Ok c.
Proof. unfold get_char. intros ->. reflexivity. Qed.

Lemma safe_read_slice N t i n :
  i + n <= length t ->
  safe N (fun s => s = firstn n (skipn i t) /\ length s = n) (read_slice t i n).
Proof.
  intros H. unfold read_slice.
  destruct (Nat.leb_spec (i + n) (length t)); [|lia]. simpl. split; auto.
  rewrite firstn_length, skipn_length. lia.
Qed.

Lemma read_slice_app pre s post :
  read_slice (pre ++ s ++ post) (length pre) (length s) = Ok s.
Proof.
  unfold read_slice. rewrite !app_length.
  destruct (Nat.leb_spec (length pre + length s)
              (length pre + (length s + length post))); [|lia].
  rewrite skipn_app, Nat.sub_diag, skipn_all. simpl.
  rewrite firstn_app, Nat.sub_diag, firstn_all. simpl.
  now rewrite app_nil_r.
Qed.

Lemma nth_error_app_exact {A} (pre : list A) x post :
  nth_error (pre ++ x :: post) (length pre) = Some x.
Proof. rewrite nth_error_app2, Nat.sub_diag; auto. Qed.

Lemma nth_error_app_at {A} (pre : list A) post i :
  nth_error (pre ++ post) (length pre + i) = nth_error post i.
Proof. rewrite nth_error_app2 by lia. f_equal. lia. Qed.

Lemma get_char_app pre c post :
  get_char (pre ++ c :: post) (length pre) = Ok c.
Proof. apply get_char_ok, nth_error_app_exact. Qed.

Lemma current_char_app pre c post :
  current_char (pre ++ c :: post) (length pre) = c.
Proof. unfold current_char. now rewrite nth_error_app_exact. Qed.

(** ** Scanning loops *)
Lemma safe_scan_until N t stop fuel i :
  (forall k c, i <= k < length t -> nth_error t k = Some c ->
     (forall m cm, i <= m < k -> nth_error t m = Some cm ->
                   stop m cm = Ok false) ->
     safe N (fun _ => True) (stop k c)) ->
  length t - i <= fuel ->
  safe N (fun j => i <= j /\ (j <= length t \/ j = i) /\
                 (forall k c, i <= k < j -> nth_error t k = Some c ->
                              stop k c = Ok false) /\
                 (forall c, nth_error t j = Some c -> stop j c = Ok true))
       (scan_until fuel t stop i).
Proof.
  revert i; induction fuel as [|f IH]; intros i Hs Hf.
  - unfold scan_until. destruct (Nat.ltb_spec i (length t)); [lia|].
    simpl. repeat split; try lia. intros c Hc.
    assert (i < length t) by (apply nth_error_Some; congruence). lia.
  - simpl. destruct (Nat.ltb_spec i (length t)).
    + eapply safe_bind; [apply safe_get_char; auto|]. intros c Hc.
      assert (Hsafe : safe N (fun _ => True) (stop i c)).
      { apply Hs; auto; try lia. }
      destruct (stop i c) as [b|u|j|] eqn:Hstop; simpl in *; auto.
      destruct b.
      * simpl. repeat split; try lia. intros c' Hc'. congruence.
      * eapply safe_imp; [apply IH|].
        -- intros k ck Hk Hck Hprev. apply Hs; auto; try lia.
           intros m cm Hm Hcm. destruct (Nat.eq_dec m i) as [->|].
           ++ congruence.
           ++ apply Hprev; auto; lia.
        -- lia.
        -- intros j (H1 & H2 & H3 & H4). repeat split; try lia; auto.
           intros k ck Hk Hck. destruct (Nat.eq_dec k i) as [->|].
           ++ congruence.
           ++ apply H3; auto; lia.
    + simpl. repeat split; try lia. intros c Hc.
      assert (i < length t) by (apply nth_error_Some; congruence). lia.
Qed.

Lemma safe_scan N t stop i :
  safe N (fun j => i <= j /\ (j <= length t \/ j = i) /\
                 (forall k c, i <= k < j -> nth_error t k = Some c ->
                              stop c = false) /\
                 (forall c, nth_error t j = Some c -> stop c = true))
       (scan t stop i).
Proof.
  unfold scan. eapply safe_imp; [apply safe_scan_until|].
  - intros. exact I.
  - lia.
  - simpl. intros j (H1 & H2 & H3 & H4). repeat split; auto.
    + intros k c Hk Hc. specialize (H3 k c Hk Hc). congruence.
    + intros c Hc. specialize (H4 c Hc). congruence.
Qed.

Lemma safe_skip_space N t i :
  safe N (fun j => i <= j /\ (j <= length t \/ j = i) /\
                 (forall k c, i <= k < j -> nth_error t k = Some c ->
                              is_blank c = true) /\
                 (forall c, nth_error t j = Some c -> is_blank c = false))
       (skip_space t i).
Proof.
  unfold skip_space. eapply safe_imp; [apply safe_scan|].
  simpl. intros j (H1 & H2 & H3 & H4). repeat split; auto.
  - intros k c Hk Hc. specialize (H3 k c Hk Hc).
    now apply negb_false_iff in H3.
  - intros c Hc. specialize (H4 c Hc). now apply negb_true_iff in H4.
Qed.

(** Exact versions. *)
Lemma scan_until_exact fuel pre mid rest stop :
  length mid <= fuel ->
  (forall m1 c m2, mid = m1 ++ c :: m2 ->
                   stop (length pre + length m1) c = Ok false) ->
  (match rest with
   | [] => True
   | c :: _ => stop (length pre + length mid) c = Ok true
   end) ->
  scan_until fuel (pre ++ mid ++ rest) stop (length pre)
  = Ok (length pre + length mid).
Proof.
  revert pre fuel; induction mid as [|x mid IH]; intros pre fuel Hf Hm Hr.
  - simpl in *. rewrite Nat.add_0_r in *. destruct rest as [|c rest].
    + rewrite app_nil_r. destruct fuel; simpl;
        destruct (Nat.ltb_spec (length pre) (length pre)); auto; lia.
    + assert (E : length pre <? length (pre ++ c :: rest) = true).
      { apply Nat.ltb_lt. rewrite app_length. simpl. lia. }
      destruct fuel; cbn -[Nat.ltb]; rewrite E, get_char_app; simpl;
        rewrite Hr; reflexivity.
  - destruct fuel as [|f]; [simpl in Hf; lia|].
    assert (E : length pre <? length (pre ++ (x :: mid) ++ rest) = true).
    { apply Nat.ltb_lt. rewrite app_length. simpl. lia. }
    cbn -[Nat.ltb app]. rewrite E. simpl (_ ++ _) at 1.
    change ((x :: mid) ++ rest) with (x :: (mid ++ rest)).
    rewrite get_char_app. cbn [bind].
    pose proof (Hm [] x mid eq_refl) as Hx. simpl in Hx.
    rewrite Nat.add_0_r in Hx. rewrite Hx. cbn [bind].
    specialize (IH (pre ++ [x]) f).
    rewrite <- app_assoc in IH. simpl app in IH.
    rewrite app_length in IH. simpl length in IH.
    rewrite Nat.add_1_r in IH. simpl length.
    rewrite Nat.add_succ_r, <- Nat.add_succ_l. apply IH.
    + simpl in Hf. lia.
    + intros m1 c m2 ->. specialize (Hm (x :: m1) c m2 eq_refl).
      simpl in Hm. rewrite Nat.add_succ_r in Hm. exact Hm.
    + destruct rest; auto. simpl in Hr. rewrite Nat.add_succ_r in Hr.
      exact Hr.
Qed.

Lemma scan_exact pre mid rest stop :
  Forall (fun c => stop c = false) mid ->
  (match rest with [] => True | c :: _ => stop c = true end) ->
  scan (pre ++ mid ++ rest) stop (length pre) = Ok (length pre + length mid).
Proof.
  intros Hm Hr. unfold scan. apply scan_until_exact.
  - rewrite !app_length. lia.
  - intros m1 c m2 ->. f_equal.
    rewrite Forall_forall in Hm. apply Hm, in_elt.
  - destruct rest; auto. now rewrite Hr.
Qed.

Lemma skip_space_exact pre mid rest :
  Forall (fun c => is_blank c = true) mid ->
  (match rest with [] => True | c :: _ => is_blank c = false end) ->
  skip_space (pre ++ mid ++ rest) (length pre) = Ok (length pre + length mid).
Proof.
  intros Hm Hr. apply scan_exact.
  - eapply Forall_impl; [|exact Hm]. simpl. intros a ->. reflexivity.
  - destruct rest; auto. now rewrite Hr.
Qed.

(** ** Tables *)
Lemma find_idx_some {A} (f : A -> bool) l i :
  find_idx f l = Some i -> exists x, nth_error l i = Some x /\ f x = true /\
    forall j y, j < i -> nth_error l j = Some y -> f y = false.
Proof.
  revert i; induction l as [|a l IH]; simpl; intros i H; [discriminate|].
  destruct (f a) eqn:E.
  - injection H as <-. exists a. repeat split; auto. intros; lia.
  - destruct (find_idx f l) as [k|] eqn:F; [|discriminate].
    injection H as <-. destruct (IH k eq_refl) as (x & H1 & H2 & H3).
    exists x. repeat split; auto. intros [|j] y Hj Hy; simpl in *.
    + congruence.
    + eapply H3; [|exact Hy]. lia.
Qed.

Lemma find_idx_none {A} (f : A -> bool) l :
  find_idx f l = None <-> forall x, In x l -> f x = false.
Proof.
  induction l as [|a l IH]; simpl; split; intros H; try tauto.
  - destruct (f a) eqn:E; [discriminate|].
    destruct (find_idx f l); [discriminate|].
    intros x [->|Hx]; auto. now apply IH.
  - rewrite (H a (or_introl eq_refl)).
    destruct IH as [_ IH]. rewrite IH; auto.
Qed.

Lemma find_idx_ex {A} (f : A -> bool) l x :
  In x l -> f x = true -> exists i, find_idx f l = Some i.
Proof.
  intros Hi Hf. destruct (find_idx f l) eqn:E; eauto.
  rewrite find_idx_none in E. rewrite (E x Hi) in Hf. discriminate.
Qed.

Lemma nth_nth_error {A} (l : list A) i d x :
  nth_error l i = Some x -> nth i l d = x.
Proof. apply nth_error_nth. Qed.

Lemma upd_length {A} (l : list A) i x : length (upd l i x) = length l.
Proof. revert i; induction l; destruct i; simpl; auto. Qed.

Lemma upd_nth_eq {A} (l : list A) i x :
  i < length l -> nth_error (upd l i x) i = Some x.
Proof.
  revert i; induction l; destruct i; simpl; intros; auto; try lia.
  apply IHl. lia.
Qed.

Lemma upd_nth_neq {A} (l : list A) i j x :
  i <> j -> nth_error (upd l i x) j = nth_error l j.
Proof.
  revert i j; induction l; destruct i, j; simpl; intros; auto; try lia.
Qed.

Lemma upd_split {A} (l : list A) i x y :
  nth_error l i = Some x ->
  exists l1 l2, l = l1 ++ x :: l2 /\ length l1 = i /\
                upd l i y = l1 ++ y :: l2.
Proof.
  revert i; induction l as [|a l IH]; destruct i; simpl; intros H; try discriminate.
  - injection H as ->. exists [], l. auto.
  - destruct (IH i H) as (l1 & l2 & -> & <- & E).
    exists (a :: l1), l2. rewrite E. auto.
Qed.
