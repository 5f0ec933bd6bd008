(** * Edits of a document and of its duplicate. *)
From Coq Require Import List NArith ZArith Arith Bool Lia.
From Verif Require Import Base TrieModel DomModel ParserModel EditModel DuplicateModel ApiSpec SizeSpec ArenaSpec SessionSpec DupSpec MemModel MemSpec Lemmas Surgery MemProofs
  Inv Tables RegProofs ParseTree ApiProofs TraceModel TraceProofs TraceMem TraceUser TraceEditModel TraceEditProofs TraceEditMem TraceEditOps TraceEditText TraceEditUser
  DuplicateProofs DupMemModel DupMem DupProofs.
Import ListNotations.
Local Open Scope Z_scope.

Lemma edit_prog arrs s d ex bl o d' : map d_len (firstn 6 (skipn 1 arrs)) = lens d -> length arrs = (11 + length ex)%nat -> run bl o d = Ok d' ->
  exists l more p, xmem l d d' ex more p /\ edit_in bl o d arrs s = (let* '(arrs, s) := mruns p arrs s in Ok (d', arrs, s)).
Proof.
  intros L1 L2 R. pose proof (s_run bl o d) as S. pose proof (x_run_tracks bl o d) as X.
  unfold T, xq in *. unfold edit_in. destruct (x_run bl o d) as [l r] eqn:Ex. cbn [snd fst] in *. subst r. rewrite R in *.
  destruct X as [(_ & Rg & Q) _]. destruct (Q ex) as (more & p & M). exists l, more, p. split; [exact M|].
  rewrite L1, L2, (xm_prog _ _ _ _ _ _ M). reflexivity.
Qed.
Lemma app_shows {A B} (R : A -> B -> Prop) a1 a2 : forall c1 c2, length a1 = length c1 -> Forall2 R (a1 ++ a2) (c1 ++ c2) -> Forall2 R a1 c1 /\ Forall2 R a2 c2.
Proof.
  induction a1 as [|x a1 IH]; intros [|y c1] c2 L H; cbn in *; try discriminate; [split; [constructor|exact H]|].
  inversion H; subst. injection L as L. destruct (IH c1 c2 L ltac:(assumption)). split; [constructor; auto|assumption].
Qed.
Lemma shows_lens s arrs d ex : Forall2 (shows_arr s) arrs (dcells d ex) -> map d_len (firstn 6 (skipn 1 arrs)) = lens d.
Proof.
  intros O. unfold dcells, cells in O.
  do 11 (let a := fresh "a" in let l := fresh "l" in let H := fresh "H" in
     inversion O as [|a ? l ? H Sh']; subst; clear O; rename Sh' into O).
  cbn [skipn firstn map]. unfold lens.
  repeat match goal with H : shows_arr _ ?a _ |- _ => let X := fresh in destruct H as (_ & X & _); cbn [snd] in X; rewrite ?map_length in X end.
  repeat f_equal; assumption.
Qed.
Lemma ghost_len a n : ghost a n -> d_len a = d_len n.
Proof. intros [->|((_ & X & _) & _ & ->)]; [reflexivity|exact X]. Qed.
Lemma ghosts_lens a n : Forall2 ghost a n -> map d_len a = map d_len n.
Proof. induction 1; cbn; [reflexivity|]. f_equal; [now apply ghost_len|assumption]. Qed.
Lemma map_firstn {A B} (f : A -> B) k l : map f (firstn k l) = firstn k (map f l).
Proof. revert l. induction k; intros [|x l]; cbn; congruence. Qed.
Lemma map_skipn1 {A B} (f : A -> B) l : map f (skipn 1 l) = skipn 1 (map f l).
Proof. destruct l; reflexivity. Qed.

Lemma cells_tab d ex i : (2 <= i <= 6)%nat -> exists sz xs, nth_error (dcells d ex) i = Some (sz, xs) /\ length xs = table_len i d.
Proof.
  intros H. do 7 (destruct i as [|i]; [try lia; do 2 eexists; (split; [reflexivity|]); cbn [table_len]; now rewrite ?map_length|]). lia.
Qed.
Lemma tab_mono l d d' ex more p i : xmem l d d' ex more p -> (2 <= i <= 6)%nat -> (table_len i d <= table_len i d')%nat.
Proof.
  intros M H. destruct (cells_tab d ex i H) as (sz & xs & N & <-). destruct (cells_tab d' (ex ++ more) i H) as (sz' & ys & N' & <-).
  destruct (aops_mono _ _ _ _ _ _ (xm_ops _ _ _ _ _ _ M) N) as (zs & Nz & L). rewrite N' in Nz. injection Nz as _ <-. exact L.
Qed.
Lemma run_mono bl o d d' i : run bl o d = Ok d' -> (2 <= i <= 6)%nat -> (table_len i d <= table_len i d')%nat.
Proof.
  intros R H. pose proof (s_run bl o d) as S. pose proof (x_run_tracks bl o d) as X. unfold T, xq in X.
  destruct (x_run bl o d) as [l r]. cbn [snd fst] in *. subst r. rewrite R in X. destruct X as [(_ & _ & Q) _]. destruct (Q []) as (more & p & M).
  exact (tab_mono _ _ _ _ _ _ _ M H).
Qed.
Lemma runs_mono ops i : (2 <= i <= 6)%nat -> forall d d', runs ops d = Ok d' -> (table_len i d <= table_len i d')%nat.
Proof.
  intros H. induction ops as [|[bl o] ops IH]; intros d d' R; cbn [runs] in R; [injection R as <-; lia|].
  destruct (run bl o d) as [d1| | |] eqn:E; try discriminate. cbn [bind] in R. pose proof (run_mono _ _ _ _ i E H). specialize (IH _ _ R). lia.
Qed.
Lemma first_dec d d' : still_empty d d' \/ first_element d d'.
Proof.
  unfold still_empty, first_element.
  assert (D : forall i, (table_len i d = 0%nat -> table_len i d' = 0%nat) \/ (table_len i d = 0%nat /\ table_len i d' <> 0%nat)).
  { intros i. destruct (Nat.eq_dec (table_len i d) 0), (Nat.eq_dec (table_len i d') 0); try (left; tauto). right. auto. }
  assert (E : forall i, (2 <= i <= 6)%nat -> i = 2%nat \/ i = 3%nat \/ i = 4%nat \/ i = 5%nat \/ i = 6%nat) by lia.
  destruct (D 2%nat) as [D2|D2]; [|right; exists 2%nat; split; [lia|exact D2]].
  destruct (D 3%nat) as [D3|D3]; [|right; exists 3%nat; split; [lia|exact D3]].
  destruct (D 4%nat) as [D4|D4]; [|right; exists 4%nat; split; [lia|exact D4]].
  destruct (D 5%nat) as [D5|D5]; [|right; exists 5%nat; split; [lia|exact D5]].
  destruct (D 6%nat) as [D6|D6]; [|right; exists 6%nat; split; [lia|exact D6]].
  left. intros i Hi. destruct (E i Hi) as [->|[->|[->|[->| ->]]]]; assumption.
Qed.

Section Two.
Context (lo : Z) (d0 : dom).

Definition step_ok (bl : bytes) (o : op) (b : bool) (d1 d2 : dom) (a1 a2 : list darr) (s : mem) (d1' d2' : dom) : Prop :=
  safe_m (fun '(d, a, s') => d = (if b then d2' else d1') /\ frame lo s s' /\
    exists e1 e2 n2, both lo d0 d1' d2' (if b then a1 else a) (if b then a else a2) s' e1 e2 n2)
   (edit_in bl o (if b then d2 else d1) (if b then a2 else a1) s).

Lemma both_lens d1 d2 a1 a2 s e1 e2 n2 : both lo d0 d1 d2 a1 a2 s e1 e2 n2 ->
  (map d_len (firstn 6 (skipn 1 a1)) = lens d1 /\ length a1 = (11 + length e1)%nat) /\
  (map d_len (firstn 6 (skipn 1 a2)) = lens d2 /\ length a2 = (11 + length e2)%nat).
Proof.
  intros [G O L _ _ _]. apply ok_shows in O. apply app_shows in O; [|rewrite dcells_len; exact L]. destruct O as [O1 O2].
  split; [split; [exact (shows_lens _ _ _ _ O1)|exact L]|]. split.
  - rewrite map_firstn, map_skipn1, (ghosts_lens _ _ G), <- map_skipn1, <- map_firstn. exact (shows_lens _ _ _ _ O2).
  - rewrite (Forall2_len _ _ _ G), (Forall2_len _ _ _ O2). apply dcells_len.
Qed.

(** An edit of the original. *)
Lemma edit_first d1 d2 a1 a2 s e1 e2 n2 bl o d1' : both lo d0 d1 d2 a1 a2 s e1 e2 n2 -> a_beg (m_arena s) <= a_end (m_arena s) ->
  run bl o d1 = Ok d1' -> step_ok bl o false d1 d2 a1 a2 s d1' d2.
Proof.
  intros Bo I R. unfold step_ok. destruct (both_lens _ _ _ _ _ _ _ _ Bo) as [[L1 L2] [L3 L4]].
  destruct (edit_prog a1 s d1 e1 bl o d1' L1 L2 R) as (l & more & p & M & ->).
  destruct Bo as [G O L T1 T2 H].
  assert (Ln : length n2 = length (dcells d2 e2)) by (rewrite <- (Forall2_len _ _ _ G), L4, dcells_len; reflexivity).
  apply ok_swap in O; [|rewrite dcells_len; exact L].
  assert (NG : forall i, ~ gh a1 i).
  { intros i (d & Nd & Hd). exact (ok_not_hollow lo n2 _ Ln s a1 _ i d O Nd Hd). }
  assert (GG : Forall2 ghost a1 a1) by (clear; induction a1; constructor; [now left|assumption]).
  pose proof (gh_runs lo n2 (dcells d2 e2) Ln p s a1 a1 _ _ GG O (xm_ops _ _ _ _ _ _ M) I) as W.
  specialize (W ltac:(intros i Hi; destruct (NG i Hi))).
  destruct (mruns p a1 s) as [[a s']| | |]; cbn [safe_m bind] in W |- *; try exact W.
  destruct W as (n1 & G1 & O1 & F1 & Q1). split; [reflexivity|]. split; [exact F1|].
  assert (n1 = a).
  { assert (NG' : forall i, ~ gh a i) by (intros i Hi; apply Q1 in Hi; destruct (NG i Hi)). clear - G1 NG'.
    induction G1 as [|x y a n1 Hg _ IH]; [reflexivity|]. f_equal.
    - destruct Hg as [->|(Hh & _)]; [reflexivity|]. exfalso. apply (NG' 0%nat). exists x. auto.
    - apply IH. intros i (d & Nd & Hd). apply (NG' (S i)). exists d. auto. }
  subst n1. apply ok_swap in O1; [|exact Ln]. exists (e1 ++ more), e2, n2. constructor; auto.
  - apply ok_shows in O1. apply Forall2_len in O1. rewrite !app_length, Ln, !dcells_len in O1. lia.
  - exact (texts_ok_step _ _ _ _ _ _ T1 M).
  - intros x Hx. specialize (T2 x Hx). rewrite !texts_in_app, !in_app_iff in *. tauto.
Qed.

(** An edit of the duplicate that starts no table that was empty. *)
Lemma edit_second d1 d2 a1 a2 s e1 e2 n2 bl o d2' : both lo d0 d1 d2 a1 a2 s e1 e2 n2 -> a_beg (m_arena s) <= a_end (m_arena s) ->
  run bl o d2 = Ok d2' -> still_empty d0 d2' -> step_ok bl o true d1 d2 a1 a2 s d1 d2'.
Proof.
  intros Bo I R SE. unfold step_ok. destruct (both_lens _ _ _ _ _ _ _ _ Bo) as [[L1 L2] [L3 L4]].
  destruct (edit_prog a2 s d2 e2 bl o d2' L3 L4 R) as (l & more & p & M & ->).
  destruct Bo as [G O L T1 T2 H].
  assert (Ln : length a1 = length (dcells d1 e1)) by (rewrite dcells_len; exact L).
  pose proof (gh_runs lo a1 (dcells d1 e1) Ln p s a2 n2 _ _ G O (xm_ops _ _ _ _ _ _ M) I) as W.
  match type of W with ?Q -> _ => assert (P : Q) end.
  { intros i Hi. apply H in Hi. destruct Hi as [Hi Z]. destruct (cells_tab d2' (e2 ++ more) i Hi) as (sz & xs & N & E).
    rewrite (SE i Hi Z) in E. apply length_zero_iff_nil in E. subst xs. eauto. }
  specialize (W P). destruct (mruns p a2 s) as [[a s']| | |]; cbn [safe_m bind] in W |- *; try exact W.
  destruct W as (n' & G1 & O1 & F1 & Q1). split; [reflexivity|]. split; [exact F1|].
  exists e1, (e2 ++ more), n'. constructor; auto.
  - intros x Hx. pose proof (texts_ok_step l d2 d2' e2 more p) as _. destruct (xm_text _ _ _ _ _ _ M x Hx) as [X|X].
    + specialize (T2 x X). rewrite !texts_in_app, !in_app_iff in *. tauto.
    + rewrite !texts_in_app, !in_app_iff. tauto.
  - intros i. rewrite Q1. apply H.
Qed.
(** One that does. *)
Lemma edit_second_bad d1 d2 a1 a2 s e1 e2 n2 bl o d2' : both lo d0 d1 d2 a1 a2 s e1 e2 n2 -> a_beg (m_arena s) <= a_end (m_arena s) ->
  run bl o d2 = Ok d2' -> first_element d0 d2' ->
  edit_in bl o d2 a2 s = Undef OobWrite \/ edit_in bl o d2 a2 s = Longjmp ArenaFull.
Proof.
  intros Bo I R (i & Hi & Z & Nz). destruct (both_lens _ _ _ _ _ _ _ _ Bo) as [[L1 L2] [L3 L4]].
  destruct (edit_prog a2 s d2 e2 bl o d2' L3 L4 R) as (l & more & p & M & ->).
  destruct Bo as [G O L T1 T2 H]. destruct (cells_tab d2' (e2 ++ more) i Hi) as (sz & xs & N & E).
  assert (Ln : length a1 = length (dcells d1 e1)) by (rewrite dcells_len; exact L).
  destruct (gh_runs_bad lo a1 (dcells d1 e1) Ln p s a2 n2 _ _ i sz xs G O (xm_ops _ _ _ _ _ _ M) I) as [->| ->]; cbn; auto.
  - apply H. split; assumption.
  - intros ->. cbn in E. congruence.
Qed.

Lemma two_safe es : forall d1 d2 a1 a2 s e1 e2 n2 d1' d2', both lo d0 d1 d2 a1 a2 s e1 e2 n2 -> a_beg (m_arena s) <= a_end (m_arena s) ->
  runs (mine false es) d1 = Ok d1' -> runs (mine true es) d2 = Ok d2' -> still_empty d0 d2' ->
  safe_m (fun '((x, b1), (y, b2), s') => x = d1' /\ y = d2' /\ frame lo s s' /\ exists f1 f2 m2, both lo d0 d1' d2' b1 b2 s' f1 f2 m2)
    (edits_two es (d1, a1) (d2, a2) s).
Proof.
  induction es as [|[b [bl o]] es IH]; intros d1 d2 a1 a2 s e1 e2 n2 d1' d2' Bo I R1 R2 SE.
  - cbn in R1, R2. injection R1 as <-. injection R2 as <-. cbn. split; [reflexivity|]. split; [reflexivity|]. split; [constructor; auto; lia|eauto].
  - assert (FT : forall s1 s2, frame lo s s1 -> frame lo s1 s2 -> frame lo s s2).
    { intros s1 s2 [A1 A2 A3 A4] [B1 B2 B3 B4]. constructor; [lia|lia|lia|]. intros a Ha. rewrite B4, A4; auto. rewrite A2. exact Ha. }
    cbn [edits_two fst snd]. destruct b.
    + change (mine false ((true, (bl, o)) :: es)) with (mine false es) in R1. change (mine true ((true, (bl, o)) :: es)) with ((bl, o) :: mine true es) in R2.
      cbn [runs] in R2. destruct (run bl o d2) as [dm| | |] eqn:E; try discriminate. cbn [bind] in R2.
      assert (SM : still_empty d0 dm).
      { intros i Hi Z. pose proof (runs_mono _ i Hi _ _ R2). rewrite (SE i Hi Z) in *. lia. }
      pose proof (edit_second _ _ _ _ _ _ _ _ _ _ _ Bo I E SM) as W. unfold step_ok in W.
      destruct (edit_in bl o d2 a2 s) as [[[d a] s1]| | |]; cbn [safe_m bind] in W |- *; try exact W. destruct W as (-> & F1 & f1 & f2 & m2 & B1).
      pose proof (IH _ _ _ _ _ _ _ _ _ _ B1 (fr_in _ _ _ F1) R1 R2 SE) as V.
      destruct (edits_two es (d1, a1) (dm, a) s1) as [[[[x b1] [y b2]] s2]| | |]; cbn [safe_m bind] in V |- *; try exact V.
      destruct V as (-> & -> & F2 & X). split; [reflexivity|]. split; [reflexivity|]. split; [exact (FT _ _ F1 F2)|exact X].
    + change (mine true ((false, (bl, o)) :: es)) with (mine true es) in R2. change (mine false ((false, (bl, o)) :: es)) with ((bl, o) :: mine false es) in R1.
      cbn [runs] in R1. destruct (run bl o d1) as [dm| | |] eqn:E; try discriminate. cbn [bind] in R1.
      pose proof (edit_first _ _ _ _ _ _ _ _ _ _ _ Bo I E) as W. unfold step_ok in W.
      destruct (edit_in bl o d1 a1 s) as [[[d a] s1]| | |]; cbn [safe_m bind] in W |- *; try exact W. destruct W as (-> & F1 & f1 & f2 & m2 & B1).
      pose proof (IH _ _ _ _ _ _ _ _ _ _ B1 (fr_in _ _ _ F1) R1 R2 SE) as V.
      destruct (edits_two es (dm, a) (d2, a2) s1) as [[[[x b1] [y b2]] s2]| | |]; cbn [safe_m bind] in V |- *; try exact V.
      destruct V as (-> & -> & F2 & X). split; [reflexivity|]. split; [reflexivity|]. split; [exact (FT _ _ F1 F2)|exact X].
Qed.
Lemma two_bad es : forall d1 d2 a1 a2 s e1 e2 n2 d1' d2', both lo d0 d1 d2 a1 a2 s e1 e2 n2 -> a_beg (m_arena s) <= a_end (m_arena s) ->
  runs (mine false es) d1 = Ok d1' -> runs (mine true es) d2 = Ok d2' -> still_empty d0 d2 -> first_element d0 d2' ->
  edits_two es (d1, a1) (d2, a2) s = Undef OobWrite \/ edits_two es (d1, a1) (d2, a2) s = Longjmp ArenaFull.
Proof.
  induction es as [|[b [bl o]] es IH]; intros d1 d2 a1 a2 s e1 e2 n2 d1' d2' Bo I R1 R2 SE FE.
  - cbn in R1, R2. injection R2 as <-. destruct FE as (i & Hi & Z & Nz). destruct (Nz (SE i Hi Z)).
  - cbn [edits_two fst snd]. destruct b.
    + change (mine false ((true, (bl, o)) :: es)) with (mine false es) in R1. change (mine true ((true, (bl, o)) :: es)) with ((bl, o) :: mine true es) in R2.
      cbn [runs] in R2. destruct (run bl o d2) as [dm| | |] eqn:E; try discriminate. cbn [bind] in R2.
      destruct (first_dec d0 dm) as [SM|FM].
      * pose proof (edit_second _ _ _ _ _ _ _ _ _ _ _ Bo I E SM) as W. unfold step_ok in W.
        destruct (edit_in bl o d2 a2 s) as [[[d a] s1]| |[]|]; cbn [safe_m bind] in W |- *; try contradiction; [|now right]. destruct W as (-> & F1 & f1 & f2 & m2 & B1).
        exact (IH _ _ _ _ _ _ _ _ _ _ B1 (fr_in _ _ _ F1) R1 R2 SM FE).
      * destruct (edit_second_bad _ _ _ _ _ _ _ _ _ _ _ Bo I E FM) as [->| ->]; cbn; auto.
    + change (mine true ((false, (bl, o)) :: es)) with (mine true es) in R2. change (mine false ((false, (bl, o)) :: es)) with ((bl, o) :: mine false es) in R1.
      cbn [runs] in R1. destruct (run bl o d1) as [dm| | |] eqn:E; try discriminate. cbn [bind] in R1.
      pose proof (edit_first _ _ _ _ _ _ _ _ _ _ _ Bo I E) as W. unfold step_ok in W.
      destruct (edit_in bl o d1 a1 s) as [[[d a] s1]| |[]|]; cbn [safe_m bind] in W |- *; try contradiction; [|now right]. destruct W as (-> & F1 & f1 & f2 & m2 & B1).
      exact (IH _ _ _ _ _ _ _ _ _ _ B1 (fr_in _ _ _ F1) R1 R2 SE FE).
Qed.
End Two.

(** ** What the memory holds *)
Lemma ghost_shows s a n c : ghost a n -> shows_arr s n c -> shows_arr s a c.
Proof.
  intros [->|((_ & Z & _) & _ & ->)] H; [exact H|]. destruct H as (H1 & H2 & H3). cbn in H1, H2. split; [exact H1|]. split; [lia|].
  intros k x N. destruct (snd c); [destruct k; discriminate|discriminate].
Qed.
Lemma ghosts_show s a n c : Forall2 ghost a n -> Forall2 (shows_arr s) n c -> Forall2 (shows_arr s) a c.
Proof. intros G. revert c. induction G; intros c Q; inversion Q; subst; constructor; eauto using ghost_shows. Qed.
Lemma Forall2_skip {A B} (R : A -> B -> Prop) k l l' : Forall2 R l l' -> Forall2 R (skipn k l) (skipn k l').
Proof. intros H. revert k. induction H; intros [|k]; cbn; auto. Qed.

Lemma both_holds lo d0 d1 d2 a1 a2 s e1 e2 n2 : both lo d0 d1 d2 a1 a2 s e1 e2 n2 -> fits16 d1 -> fits16 d2 ->
  holds s a1 d1 /\ holds_sharing s a2 (a1 ++ a2) d2.
Proof.
  intros Bo F1 F2. destruct (both_lens _ _ _ _ _ _ _ _ _ _ Bo) as [_ [_ L4]]. destruct Bo as [G O L T1 T2 H].
  apply ok_shows in O. apply app_shows in O; [|rewrite dcells_len; exact L]. destruct O as [O1 O2].
  split; [exact (shows_holds s a1 d1 e1 F1 O1 T1)|]. apply (ghosts_show _ _ _ _ G) in O2.
  assert (Sk : Forall2 (shows_arr s) (skipn 11 a1) e1) by exact (Forall2_skip _ 11 _ _ O1).
  assert (W : holds s (a2 ++ skipn 11 a1) d2).
  { apply (shows_holds s _ d2 (e2 ++ e1) F2).
    - change (dcells d2 (e2 ++ e1)) with (dcells d2 e2 ++ e1). now apply Forall2_app.
    - intros x Hx. specialize (T2 x Hx). rewrite !texts_in_app, !in_app_iff in *. tauto. }
  assert (Nth : forall i d, (i < 11)%nat -> nth_error (a2 ++ skipn 11 a1) i = Some d -> nth_error a2 i = Some d).
  { intros i d Hi N. rewrite nth_error_app1 in N by lia. exact N. }
  unfold holds in W. destruct W as (W1 & W2 & W3 & W4 & W5 & W6 & W7 & W8 & W9 & W10 & W11). unfold holds_sharing.
  assert (PA : forall i l, (i < 11)%nat -> pairs_at s (a2 ++ skipn 11 a1) i l -> pairs_at s a2 i l)
    by (intros i l Hi (a & Na & R); exists a; split; [now apply Nth|exact R]).
  assert (CA : forall i n, (i < 11)%nat -> count_at (a2 ++ skipn 11 a1) i n -> count_at a2 i n)
    by (intros i l Hi (a & Na & R); exists a; split; [now apply Nth|exact R]).
  split; [destruct W1 as (a & Na & R); exists a; split; [apply Nth; [lia|exact Na]|exact R]|].
  do 4 (split; [apply PA; [lia|assumption]|]).
  split; [destruct W6 as (a & Na & R); exists a; split; [apply Nth; [lia|exact Na]|exact R]|].
  do 4 (split; [apply CA; [lia|assumption]|]).
  intros txt Ht. destruct (W11 txt Ht) as (a & Ha & R). exists a. split; [|exact R].
  unfold text_buffers in *. apply filter_In in Ha as [Ha Hs]. apply filter_In. split; [|exact Hs].
  apply in_app_iff in Ha. apply in_app_iff. destruct Ha as [Ha|Ha]; [now right|left].
  rewrite <- (firstn_skipn 11 a1). apply in_app_iff. now right.
Qed.

(** ** From the start *)
Lemma session_ok s t ops d0 d : a_beg (m_arena s) <= a_end (m_arena s) -> session_gives t ops d0 d ->
  safe_m (fun r => exists arrs s', r = Some (d, arrs, s') /\ frame (a_beg (m_arena s)) s s' /\
     exists ex, ok_mem (a_beg (m_arena s)) s' arrs (dcells d ex) /\ texts_ok d ex) (session_in s t ops).
Proof.
  intros I [E R]. unfold session_in. pose proof (session_start s t _ I E) as W.
  destruct (create_dom_in s t) as [[[r arrs] s1]| | |]; cbn [safe_m bind] in W |- *; try exact W. destruct W as (-> & F1 & W).
  destruct (W d0 eq_refl) as (ex & O & Tx).
  pose proof (edits_safe _ ops d0 d s1 arrs ex O (fr_in _ _ _ F1) Tx R) as V.
  destruct (edits_in ops d0 arrs s1) as [[[d1 arrs2] s2]| | |]; cbn [safe_m bind] in V |- *; try exact V.
  destruct V as (-> & (ex' & O' & Tx') & F2). exists arrs2, s2. split; [reflexivity|]. split; [|eauto].
  destruct F1 as [A1 A2 A3 A4], F2 as [B1 B2 B3 B4]. constructor; [lia|lia|lia|]. intros a Ha. rewrite B4, A4; auto. rewrite A2. exact Ha.
Qed.
Lemma frame_trans lo s s1 s2 : frame lo s s1 -> frame lo s1 s2 -> frame lo s s2.
Proof. intros [A1 A2 A3 A4] [B1 B2 B3 B4]. constructor; [lia|lia|lia|]. intros a Ha. rewrite B4, A4; auto. rewrite A2. exact Ha. Qed.

Section Session.
Context (s : mem) (t : bytes) (ops : list (bytes * op)) (es : list (bool * (bytes * op))) (d0 d d1 d2 : dom).
Context (I : a_beg (m_arena s) <= a_end (m_arena s)) (E : create_dom t = Ok (Some d0)) (V : all_valid ops d0) (R : runs ops d0 = Ok d).
Context (V1 : all_valid (mine false es) d) (R1 : runs (mine false es) d = Ok d1) (V2 : all_valid (mine true es) d) (R2 : runs (mine true es) d = Ok d2).
Let lo := a_beg (m_arena s).

Lemma dup_reach : reachable d.
Proof. eapply runs_reachable; [eapply reach_create; exact E|exact V|exact R]. Qed.
Lemma dup_session_safe : still_empty d d2 ->
  safe_m (fun r => exists a1 a2 s', r = Some ((d1, a1), (d2, a2), s') /\ frame lo s s' /\ holds s' a1 d1 /\ holds_sharing s' a2 (a1 ++ a2) d2)
    (dup_session_in s t ops es).
Proof.
  intros SE. unfold dup_session_in. pose proof (session_ok s t ops d0 d I (conj E R)) as W.
  destruct (session_in s t ops) as [r| | |]; cbn [safe_m bind] in W |- *; try exact W. destruct W as (arrs & s1 & -> & F1 & ex & O & Tx).
  pose proof (dup_safe _ d arrs s1 ex O (fr_in _ _ _ F1) Tx (reachable_gd d dup_reach)) as W.
  destruct (duplicate_in d arrs s1) as [[[dd arrs2] s2]| | |]; cbn [safe_m bind] in W |- *; try exact W. destruct W as (-> & F2 & e2 & n2 & B).
  pose proof (two_safe _ d es d d arrs arrs2 s2 ex e2 n2 d1 d2 B (fr_in _ _ _ F2) R1 R2 SE) as W.
  destruct (edits_two es (d, arrs) (d, arrs2) s2) as [[[[x b1] [y b2]] s3]| | |]; cbn [safe_m bind] in W |- *; try exact W.
  destruct W as (-> & -> & F3 & f1 & f2 & m2 & B3). exists b1, b2, s3. split; [reflexivity|].
  split; [exact (frame_trans _ _ _ _ F1 (frame_trans _ _ _ _ F2 F3))|].
  apply (both_holds _ _ _ _ _ _ _ _ _ _ B3); apply reachable_fits.
  - exact (runs_reachable _ _ _ dup_reach V1 R1).
  - exact (runs_reachable _ _ _ dup_reach V2 R2).
Qed.
Lemma dup_session_bad : first_element d d2 ->
  dup_session_in s t ops es = Undef OobWrite \/ dup_session_in s t ops es = Longjmp ArenaFull.
Proof.
  intros FE. unfold dup_session_in. pose proof (session_ok s t ops d0 d I (conj E R)) as W.
  destruct (session_in s t ops) as [r| |[]|]; cbn [safe_m bind] in W |- *; try contradiction; [|now right]. destruct W as (arrs & s1 & -> & F1 & ex & O & Tx).
  pose proof (dup_safe _ d arrs s1 ex O (fr_in _ _ _ F1) Tx (reachable_gd d dup_reach)) as W.
  destruct (duplicate_in d arrs s1) as [[[dd arrs2] s2]| |[]|]; cbn [safe_m bind] in W |- *; try contradiction; [|now right]. destruct W as (-> & F2 & e2 & n2 & B).
  destruct (two_bad _ d es d d arrs arrs2 s2 ex e2 n2 d1 d2 B (fr_in _ _ _ F2) R1 R2 ltac:(intros i Hi Z; exact Z) FE) as [->| ->]; cbn; auto.
Qed.
End Session.
