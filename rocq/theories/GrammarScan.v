(** * Exact results of the parser's scanning functions on well-formed text. *)
From Coq Require Import List NArith Arith Bool Lia.
From Verif Require Import Base TrieModel DomModel ParserModel DomSpec GrammarSpec
  Lemmas TrieProofs Inv RegProofs ParseSafe.
Import ListNotations.
Local Open Scope nat_scope.

(** [r] is what remains of [t] from position [i] on. *)
Definition suf (t : bytes) (i : nat) (r : bytes) : Prop :=
  exists pre, t = pre ++ r /\ length pre = i.

Lemma suf_zero t : suf t 0 t.
Proof. exists []. auto. Qed.
Lemma suf_app t i a r : suf t i (a ++ r) -> suf t (i + length a) r.
Proof.
  intros (pre & -> & <-). exists (pre ++ a). rewrite app_assoc, app_length. auto.
Qed.
Lemma suf_cons t i c r : suf t i (c :: r) -> suf t (S i) r.
Proof. intros H. apply (suf_app t i [c]) in H. now rewrite Nat.add_1_r in H. Qed.
Lemma suf_len t i r : suf t i r -> i + length r = length t.
Proof. intros (pre & -> & <-). now rewrite app_length. Qed.
Lemma suf_nth t i a c r : suf t i (a ++ c :: r) -> nth_error t (i + length a) = Some c.
Proof.
  intros (pre & -> & <-). rewrite nth_error_app_at. apply nth_error_app_exact.
Qed.
Lemma suf_get t i c r : suf t i (c :: r) ->
  get_char t i = Ok c /\ current_char t i = c /\ i < length t /\ (i <? length t) = true /\
  nth_error t i = Some c.
Proof.
  intros H. pose proof (suf_nth t i [] c r H) as E. rewrite Nat.add_0_r in E.
  unfold get_char, current_char. rewrite E. repeat split; auto.
  - apply nth_lt in E. auto.
  - apply Nat.ltb_lt. apply nth_lt in E. auto.
Qed.
Lemma suf_nil t i : suf t i [] -> (i <? length t) = false /\ current_char t i = 0%N /\ i = length t.
Proof.
  intros H. apply suf_len in H. simpl in H. assert (i = length t) by lia.
  split; [apply Nat.ltb_ge; lia|]. split; auto.
  unfold current_char. rewrite (proj2 (nth_error_None t i)); auto. lia.
Qed.
Lemma suf_last t i a c r : suf t i ((a ++ [c]) ++ r) ->
  get_char t (i + length (a ++ [c]) - 1) = Ok c /\
  nth_error t (i + length (a ++ [c]) - 1) = Some c.
Proof.
  intros H. rewrite <- app_assoc in H. apply suf_nth in H.
  rewrite app_length. simpl. replace (i + (length a + 1) - 1) with (i + length a) by lia.
  unfold get_char. now rewrite H.
Qed.
Lemma suf_slice t i a r : suf t i (a ++ r) -> read_slice t i (length a) = Ok a.
Proof. intros (pre & -> & <-). apply read_slice_app. Qed.
Lemma suf_scan t i a r stop :
  suf t i (a ++ r) -> (forall c, In c a -> stop c = false) ->
  match r with [] => True | c :: _ => stop c = true end ->
  scan t stop i = Ok (i + length a).
Proof.
  intros (pre & -> & <-) H H2. apply scan_exact; auto. apply Forall_forall. auto.
Qed.

Lemma suf_scan_until fuel t i a r stop :
  suf t i (a ++ r) -> length a <= fuel ->
  (forall m1 c m2, a = m1 ++ c :: m2 -> stop (i + length m1) c = Ok false) ->
  match r with [] => True | c :: _ => stop (i + length a) c = Ok true end ->
  scan_until fuel t stop i = Ok (i + length a).
Proof. intros (pre & -> & <-) H1 H2 H3. apply scan_until_exact; auto. Qed.

(** ** Blanks *)
Fixpoint dropb (s : bytes) : bytes :=
  match s with
  | [] => []
  | c :: s' => if is_blank c then dropb s' else s
  end.
Lemma dropb_app ws r : blanks ws -> dropb (ws ++ r) = dropb r.
Proof.
  induction ws as [|c ws IH]; intros H; simpl; auto.
  rewrite (H c) by (simpl; auto). apply IH. intros x Hx. apply H. simpl; auto.
Qed.
Lemma dropb_split s : exists ws, s = ws ++ dropb s /\ blanks ws.
Proof.
  induction s as [|c s (ws & E & H)]; simpl.
  - exists []. split; auto. intros x [].
  - destruct (is_blank c) eqn:Ec.
    + exists (c :: ws). simpl. rewrite <- E. split; auto. intros x [<-|Hx]; auto.
    + exists []. split; auto. intros x [].
Qed.
Lemma dropb_head s : match dropb s with [] => True | c :: _ => is_blank c = false end.
Proof. induction s as [|c s IH]; simpl; auto. destruct (is_blank c) eqn:E; auto. Qed.
Lemma dropb_id s : match s with [] => True | c :: _ => is_blank c = false end -> dropb s = s.
Proof. destruct s; simpl; auto. now intros ->. Qed.
Lemma dropb_idem s : dropb (dropb s) = dropb s.
Proof. apply dropb_id, dropb_head. Qed.

Lemma suf_skip t i r : suf t i r ->
  exists j, skip_space t i = Ok j /\ suf t j (dropb r) /\ i <= j.
Proof.
  intros H. destruct (dropb_split r) as (ws & E & Hw). rewrite E in H.
  exists (i + length ws). split; [|split; [apply suf_app; auto|lia]].
  destruct H as (pre & -> & <-). apply skip_space_exact.
  - apply Forall_forall. intros c Hc. apply Hw; auto.
  - apply dropb_head.
Qed.

(** ** Comments *)
(** [r] is at the end of the input or at a tag. *)
Definition stops (r : bytes) : Prop :=
  r = [] \/ exists r', r = cLT :: r' /\ forall s, r' <> [cBANG; cDASH; cDASH] ++ s.

Lemma beq_len3 a b : length a = length b -> (beq a b = true <-> a = b).
Proof. intros _. apply beq_eq. Qed.

Lemma is_comment_no t i r : suf t i (cLT :: r) ->
  (forall s, r <> [cBANG; cDASH; cDASH] ++ s) -> is_comment t i = Ok false.
Proof.
  intros H Hn. unfold is_comment. destruct (Nat.ltb_spec (i + 4) (length t)) as [Hl|]; auto.
  pose proof (suf_len _ _ _ H) as L. simpl in L.
  destruct r as [|c1 [|c2 [|c3 r]]]; simpl in L; try lia.
  rewrite Nat.add_1_r. apply suf_cons in H.
  rewrite (suf_slice t (S i) [c1; c2; c3] r H : read_slice t (S i) 3 = _). cbn [bind].
  destruct (beq s_comment [c1; c2; c3]) eqn:E; auto.
  apply beq_eq in E. unfold s_comment in E. injection E as <- <- <-.
  exfalso. apply (Hn r). reflexivity.
Qed.

Lemma is_comment_yes t i body r : suf t i (com_src body ++ r) -> is_comment t i = Ok true.
Proof.
  intros H. unfold is_comment. pose proof (suf_len _ _ _ H) as L.
  unfold com_src in *. rewrite <- !app_assoc in *. simpl in *. rewrite app_length in L. simpl in L.
  destruct (Nat.ltb_spec (i + 4) (length t)) as [Hl|]; [|lia].
  rewrite Nat.add_1_r. apply suf_cons in H.
  rewrite (suf_slice t (S i) [cBANG; cDASH; cDASH] _ H : read_slice t (S i) 3 = _). reflexivity.
Qed.

Lemma last_two (l : bytes) : 2 <= length l -> exists p x y, l = p ++ [x; y].
Proof.
  intros H. destruct (rev l) as [|y [|x p]] eqn:E.
  - apply (f_equal (@length N)) in E. rewrite rev_length in E. simpl in E. lia.
  - apply (f_equal (@length N)) in E. rewrite rev_length in E. simpl in E. lia.
  - exists (rev p), x, y. rewrite <- (rev_involutive l), E. simpl. now rewrite <- app_assoc.
Qed.

Lemma skip_comment_exact t i body r : com_ok body -> suf t i (com_src body ++ r) ->
  skip_comment t i = Ok (i + length (com_src body)) /\ suf t (i + length (com_src body)) r.
Proof.
  intros Hc H. split; [|apply suf_app; auto].
  unfold skip_comment. pose proof (suf_len _ _ _ H) as L. unfold com_src in H, L.
  assert (H0 : suf t i ([cLT; cBANG] ++ ([cDASH; cDASH] ++ body ++ [cDASH; cDASH]) ++ cGT :: r)).
  { rewrite <- !app_assoc in *. exact H. }
  rewrite !app_length in L. simpl in L.
  assert (H4 : suf t (i + 4) ((body ++ [cDASH; cDASH]) ++ cGT :: r)).
  { apply (suf_app t i [cLT; cBANG; cDASH; cDASH]). rewrite <- !app_assoc in *. exact H. }
  assert (G : forall m1 c m2, (body ++ [cDASH; cDASH]) = m1 ++ c :: m2 \/
            (m1 = body ++ [cDASH; cDASH] /\ c = cGT) ->
     exists x y p, [cDASH; cDASH] ++ m1 = p ++ [x; y] /\
       read_slice t (i + 4 + length m1 - 2) 2 = Ok [x; y]).
  { intros m1 c m2 Em.
    destruct (last_two ([cDASH; cDASH] ++ m1)) as (p & x & y & Ep).
    { rewrite app_length. simpl. lia. }
    exists x, y, p. split; auto.
    assert (Hp : length p = length m1).
    { apply (f_equal (@length N)) in Ep. rewrite !app_length in Ep. simpl in Ep. lia. }
    assert (H5 : exists r2, suf t i ([cLT; cBANG] ++ p ++ [x; y] ++ r2)).
    { destruct Em as [Em|[Em Ec]].
      - exists (c :: m2 ++ cGT :: r). rewrite (app_assoc p), <- Ep, <- app_assoc.
        rewrite Em in H0. rewrite <- !app_assoc in H0. exact H0.
      - exists (cGT :: r). rewrite (app_assoc p), <- Ep, Em. exact H0. }
    destruct H5 as [r2 H5]. apply suf_app, suf_app, suf_slice in H5.
    cbn [length] in H5. rewrite Hp in H5. rewrite <- H5. f_equal. lia. }
  rewrite (suf_scan_until (length t) t (i + 4) (body ++ [cDASH; cDASH]) (cGT :: r)); auto.
  - simpl. f_equal. unfold com_src. rewrite !app_length. simpl. lia.
  - rewrite app_length. simpl. lia.
  - intros m1 c m2 Em. destruct (N.eqb_spec c cGT) as [->|]; auto.
    destruct (Nat.leb_spec 2 (i + 4 + length m1)); [|lia].
    destruct (G m1 cGT m2 (or_introl Em)) as (x & y & p & Ep & ->). cbn [bind].
    destruct (beq s_dashes [x; y]) eqn:Eb; auto. apply beq_eq in Eb.
    exfalso. apply (Hc p m2). rewrite Em. rewrite app_assoc, Ep.
    unfold s_dashes in Eb. rewrite <- Eb. rewrite <- !app_assoc. reflexivity.
  - cbv beta. rewrite N.eqb_refl.
    destruct (Nat.leb_spec 2 (i + 4 + length (body ++ [cDASH; cDASH]))); [|lia].
    destruct (G (body ++ [cDASH; cDASH]) cGT [] (or_intror (conj eq_refl eq_refl)))
      as (x & y & p & Ep & ->). cbn [bind]. f_equal. apply beq_eq.
    rewrite app_assoc in Ep.
    assert (E2 : rev ([cDASH; cDASH] : bytes) = rev [x; y]).
    { apply (f_equal (@rev N)) in Ep. rewrite !rev_app_distr in Ep. simpl in Ep.
      injection Ep. intros _ <- <-. reflexivity. }
    simpl in E2. injection E2 as <- <-. reflexivity.
Qed.
