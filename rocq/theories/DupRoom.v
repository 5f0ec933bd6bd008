(** * How much memory a document, its duplicate and edits of both need. *)
From Coq Require Import List NArith ZArith Arith Bool Lia.
From Verif Require Import Base TrieModel DomModel ParserModel EditModel ApiSpec SizeSpec ArenaSpec MemModel MemSpec Lemmas MemProofs MemCost
  RegProofs ApiProofs Size SizeEdit TraceModel TraceProofs TraceMem TraceUser TraceEditModel TraceEditProofs TraceEditMem TraceEditOps TraceEditText TraceEditUser
  DuplicateModel DupMemModel DupSpec DupMem DupProofs DupUser.
Import ListNotations.
Local Open Scope Z_scope.

(** Running a program on the second group of arrays. *)
Lemma mruns_shift a1 p : forall a2 s, mruns (map (shift (length a1)) p) (a1 ++ a2) s = let* '(x, s') := mruns p a2 s in Ok (a1 ++ x, s').
Proof.
  induction p as [|o p IH]; intros a2 s; cbn [map mruns]; [reflexivity|].
  rewrite mrun_shift. destruct (mrun o a2 s) as [[x s1]| | |]; cbn [bind]; auto.
Qed.
Lemma aops_shift c1 cs p cs' : aops cs p cs' -> aops (c1 ++ cs) (map (shift (length c1)) p) (c1 ++ cs').
Proof. induction 1; cbn [map]; [constructor|]. econstructor; [apply aop_shift; eassumption|assumption]. Qed.
Lemma align_shift n p : Forall (align_le 8) p -> Forall (align_le 8) (map (shift n) p).
Proof. induction 1 as [|o p H _ IH]; constructor; [destruct o; exact H|exact IH]. Qed.

Definition thrifty (lo : Z) (s : mem) (ds : list darr) : Prop :=
  Forall (lean 8) ds /\ within lo s (budget 8 ds) /\ a_beg (m_arena s) <= a_end (m_arena s).
Lemma thrifty_swap lo s a b : thrifty lo s (a ++ b) -> thrifty lo s (b ++ a).
Proof.
  intros (H & W & I). split; [|split; [|exact I]].
  - apply Forall_app in H. apply Forall_app. tauto.
  - unfold within in *. rewrite budget_app in *. lia.
Qed.

Lemma group_fits lo a1 a2 c1 c2 s p c2' : length a1 = length c1 -> ok_mem lo s (a1 ++ a2) (c1 ++ c2) -> aops c2 p c2' ->
  Forall (align_le 8) p -> thrifty lo s (a1 ++ a2) -> lo + demand 8 c1 + demand 8 c2' <= a_end (m_arena s) ->
  exists x s', mruns p a2 s = Ok (x, s') /\ thrifty lo s' (a1 ++ x) /\ a_end (m_arena s') = a_end (m_arena s).
Proof.
  intros L O A Al (Ln & W & I) Rm. pose proof (aops_shift c1 _ _ _ A) as A'. rewrite <- L in A'.
  destruct (mruns_fits' 8 lo _ ltac:(lia) s _ _ _ O A' (align_shift _ _ Al) Ln W I) as (ds' & s' & E & _ & L1 & W1 & I1 & T1).
  { rewrite demand_app. lia. }
  rewrite mruns_shift in E. destruct (mruns p a2 s) as [[x s1]| | |]; try discriminate. cbn [bind] in E. injection E as <- <-.
  exists x, s1. split; [reflexivity|]. split; [|exact T1]. split; [exact L1|]. split; assumption.
Qed.

(** The same on arrays with copies of empty ones. *)
Lemma ghost_fits lo a1 a2 n2 c1 c2 s p c2' : length a1 = length c1 -> Forall2 ghost a2 n2 -> ok_mem lo s (a1 ++ n2) (c1 ++ c2) -> aops c2 p c2' ->
  Forall (align_le 8) p -> thrifty lo s (a1 ++ n2) -> lo + demand 8 c1 + demand 8 c2' <= a_end (m_arena s) ->
  (forall i, gh a2 i -> exists sz, nth_error c2' i = Some (sz, [])) ->
  exists a2' n2' s', mruns p a2 s = Ok (a2', s') /\ thrifty lo s' (a1 ++ n2') /\ a_end (m_arena s') = a_end (m_arena s) /\
    Forall2 ghost a2' n2' /\ ok_mem lo s' (a1 ++ n2') (c1 ++ c2') /\ (forall i, gh a2' i <-> gh a2 i).
Proof.
  intros L G O A Al Th Rm Hg. destruct (group_fits lo a1 n2 c1 c2 s p c2' L O A Al Th Rm) as (x & s' & E & T1 & T2).
  pose proof (gh_runs' lo a1 c1 L p s a2 n2 c2 c2' G O A (proj2 (proj2 Th)) Hg) as W. rewrite E in W. cbn [alike] in W.
  destruct W as (rs & E' & G' & O' & _ & Q). exists rs, x, s'. auto 6.
Qed.

(** A first element for the copy of an empty array: with room, always a write outside. *)
Lemma alloc_zero size align s : 0 < size -> pow2 align -> a_beg (m_arena s) + padding (a_beg (m_arena s)) align <= a_end (m_arena s) ->
  exists p s', alloc1 size align (Z.of_nat 0) s = Ok (p, s').
Proof.
  intros S P H. unfold alloc1, alloc. set (pad := padding _ _) in *.
  destruct (Z.ltb_spec (Z.quot (a_end (m_arena s) - a_beg (m_arena s) - pad) size) (Z.of_nat 0)) as [X|X]; cbn [bind]; [|eauto].
  exfalso. pose proof (Z.quot_pos (a_end (m_arena s) - a_beg (m_arena s) - pad) size ltac:(lia) ltac:(lia)). lia.
Qed.
Lemma alloc_one size align s p s' : 0 < size -> alloc1 size align 1 s = Ok (p, s') -> a_beg (m_arena s) + padding (a_beg (m_arena s)) align <= a_end (m_arena s).
Proof.
  intros S. unfold alloc1, alloc. set (pad := padding _ _).
  destruct (Z.ltb_spec (Z.quot (a_end (m_arena s) - a_beg (m_arena s) - pad) size) 1) as [X|X]; cbn [bind]; [discriminate|].
  intros _. destruct (Z.le_gt_cases 0 (a_end (m_arena s) - a_beg (m_arena s) - pad)) as [Y|Y]; [lia|].
  pose proof (Z.quot_opp_l (- (a_end (m_arena s) - a_beg (m_arena s) - pad)) size ltac:(lia)) as Q. rewrite Z.opp_involutive in Q.
  pose proof (Z.quot_pos (- (a_end (m_arena s) - a_beg (m_arena s) - pad)) size ltac:(lia) ltac:(lia)). lia.
Qed.
Lemma push_hollow_room d x s y : hollow d -> (0 < d_size d)%nat -> pow2 (d_align d) -> push (mkArr (d_size d) (d_align d) None 0 0) x s = Ok y ->
  push d x s = Undef OobWrite.
Proof.
  intros (C3 & C2 & C1) Sz Pw H. unfold push at 1, grow at 1 in H. cbn [d_cap d_len d_buf d_size d_align Nat.leb] in H.
  destruct (alloc1 (2 * Z.of_nat (d_size d)) (d_align d) 1 s) as [[q s1]| | |] eqn:Ea; cbn [bind] in H; try discriminate.
  apply alloc_one in Ea; [|lia]. pose proof (pad_bounds (a_beg (m_arena s)) (d_align d) Pw) as Pb. pose proof (pad_bounds (a_beg (m_arena s)) 1 pow2_one) as P1.
  destruct (d_buf d) as [b|] eqn:Eb; [|congruence]. unfold push. rewrite C1, C2. cbn [Nat.leb]. unfold grow. rewrite Eb, C1.
  destruct (_ =? _).
  - destruct (alloc_zero (Z.of_nat (d_size d)) 1 s) as (p & s2 & ->); [lia|exact pow2_one|lia|]. reflexivity.
  - destruct (alloc_zero (2 * Z.of_nat (d_size d)) (d_align d) s) as (p & s2 & ->); [lia|exact Pw|lia|]. reflexivity.
Qed.
Lemma ghost_bad lo a1 c1 : length a1 = length c1 -> forall p s rs ns cs cs' i sz xs y, Forall2 ghost rs ns -> ok_mem lo s (a1 ++ ns) (c1 ++ cs) -> aops cs p cs' ->
  a_beg (m_arena s) <= a_end (m_arena s) -> gh rs i -> nth_error cs' i = Some (sz, xs) -> xs <> [] -> mruns p ns s = Ok y ->
  mruns p rs s = Undef OobWrite.
Proof.
  intros L1. induction p as [|o p IH]; intros s rs ns cs cs' i sz xs y F O H I G N X Y; inversion H as [|? ? cs1 ? ? H1 H2]; subst; cbn [mruns] in *.
  - exfalso. destruct G as (d & Nd & Hd). destruct (ok_group _ _ _ L1 _ _ _ _ _ _ O N) as (n & Nn & _ & Ok').
    destruct (Forall2_nth_l _ _ _ _ _ F Nd) as (n' & Nn' & Gh). assert (n' = n) by congruence. subst n'.
    destruct Gh as [->|(_ & _ & En)]; [exact (ok_not_hollow _ _ _ L1 _ _ _ _ _ O Nn Hd)|].
    pose proof (ao_len _ _ _ _ Ok') as L. rewrite En in L. destruct xs; [contradiction|discriminate].
  - assert (D : (exists j x, o = Push j x /\ gh rs j) \/ (forall j x, o = Push j x -> ~ gh rs j)).
    { destruct o as [| j x | | | |]; try (right; intros; discriminate).
      destruct (nth_error rs j) as [d|] eqn:E.
      - destruct (d_buf d) as [b|] eqn:Eb; [destruct (Nat.eq_dec (d_len d) 0), (Nat.eq_dec (d_cap d) 0)|];
          try (right; intros j' x' Q (d' & Hd' & (Y1 & Y2 & Y3)); injection Q as <- <-; congruence).
        left. exists j, x. split; [reflexivity|]. exists d. split; [exact E|]. repeat split; congruence.
      - right. intros j' x' Q (d' & Hd' & _). injection Q as <- <-. congruence. }
    destruct D as [(j & x & -> & Gj)|NP].
    + destruct Gj as (d & Nd & Hd). destruct (Forall2_nth_l _ _ _ _ _ F Nd) as (n & Nn & Gh).
      inversion H1; subst. match goal with X : nth_error cs j = Some _ |- _ => destruct (ok_group _ _ _ L1 _ _ _ _ _ _ O X) as (n' & Nn' & Sn & Ok') end.
      assert (n' = n) by congruence. subst n'.
      destruct Gh as [->|(_ & _ & En)]; [destruct (ok_not_hollow _ _ _ L1 _ _ _ _ _ O Nn Hd)|]. subst n.
      cbn [mrun] in Y |- *. rewrite Nn in Y. rewrite Nd. destruct (push (mkArr _ _ None 0 0) x s) as [y1| | |] eqn:Ep; try discriminate.
      rewrite (push_hollow_room d x s y1 Hd (ao_size _ _ _ _ Ok') (ao_align _ _ _ _ Ok') Ep). reflexivity.
    + pose proof (gh_step' lo a1 c1 L1 s rs ns cs o cs1 F O H1 I NP) as W. destruct (mrun o ns s) as [[ns1 s1]| |[]|]; cbn [alike bind] in W, Y; try discriminate; try contradiction.
      destruct W as (rs1 & -> & F1 & O1 & Fr1 & G1). cbn [bind]. eapply IH; eauto; [exact (fr_in _ _ _ Fr1)|now apply G1].
Qed.

(** An edit of the original. *)
Section Two.
Context (lo : Z) (d0 : dom).
Definition cost (e : list aarr) (d d' : dom) (ops : list (bytes * op)) : Z :=
  Z.of_nat (table_bytes d') - 238 * Z.of_nat (regs d) + demand 8 e + 18 * Z.of_nat (text_bytes ops d).
Lemma cost_now d d' ops e : runs ops d = Ok d' -> demand 8 (dcells d e) <= cost e d d' ops.
Proof.
  intros R. destruct (edits_plan ops d d' e R) as (m & p & A & D). pose proof (demand_mono 8 _ _ _ ltac:(lia) A) as M.
  rewrite (dcells_demand d'), demand_app in M. unfold cost. lia.
Qed.
Lemma cost_step l d dm d' e more p bl o ops : xmem l d dm e more p -> run bl o d = Ok dm -> regs dm = (regs d + x_tries l)%nat ->
  (x_bytes l <= op_text_bytes o (texts d))%nat -> cost (e ++ more) dm d' ops <= cost e d d' ((bl, o) :: ops).
Proof.
  intros M R Rg By. unfold cost. rewrite demand_app, (xm_cost _ _ _ _ _ _ M). unfold x_cost. cbn [text_bytes]. rewrite R. lia.
Qed.
Lemma edit_prog' arrs s d ex bl o d' : map d_len (firstn 6 (skipn 1 arrs)) = lens d -> length arrs = (11 + length ex)%nat -> run bl o d = Ok d' ->
  exists l more p, xmem l d d' ex more p /\ edit_in bl o d arrs s = (let* '(arrs, s) := mruns p arrs s in Ok (d', arrs, s)) /\
    regs d' = (regs d + x_tries l)%nat /\ (x_bytes l <= op_text_bytes o (texts d))%nat.
Proof.
  intros L1 L2 R. pose proof (s_run bl o d) as S. pose proof (x_run_tracks bl o d) as X. pose proof (x_run_bytes bl o d) as Y.
  unfold T, TraceEditText.B, xq in *. unfold edit_in. destruct (x_run bl o d) as [l r] eqn:Ex. cbn [snd fst] in *. subst r. rewrite R in *.
  destruct X as [(_ & Rg & Q) _]. destruct (Q ex) as (more & p & M). exists l, more, p. split; [exact M|].
  rewrite L1, L2, (xm_prog _ _ _ _ _ _ M). auto.
Qed.

Lemma first_fits d1 d2 a1 a2 s e1 e2 n2 bl o dm d1' d2' ops1 ops2 : both lo d0 d1 d2 a1 a2 s e1 e2 n2 -> thrifty lo s (a1 ++ n2) ->
  run bl o d1 = Ok dm -> runs ops1 dm = Ok d1' -> runs ops2 d2 = Ok d2' ->
  lo + cost e1 d1 d1' ((bl, o) :: ops1) + cost e2 d2 d2' ops2 <= a_end (m_arena s) ->
  exists a s', edit_in bl o d1 a1 s = Ok (dm, a, s') /\ a_end (m_arena s') = a_end (m_arena s) /\
    exists f1, both lo d0 dm d2 a a2 s' f1 e2 n2 /\ thrifty lo s' (a ++ n2) /\ cost f1 dm d1' ops1 <= cost e1 d1 d1' ((bl, o) :: ops1).
Proof.
  intros Bo Th R R1 R2 Rm. destruct (both_lens _ _ _ _ _ _ _ _ _ _ Bo) as [[L1 L2] [L3 L4]].
  destruct (edit_prog' a1 s d1 e1 bl o dm L1 L2 R) as (l & more & p & M & -> & Rg & By).
  pose proof (cost_step l d1 dm d1' e1 more p bl o ops1 M R Rg By) as Cs.
  pose proof (cost_now dm d1' ops1 (e1 ++ more) R1) as C1. pose proof (cost_now d2 d2' ops2 e2 R2) as C2.
  destruct Bo as [G O L T1 T2 H].
  assert (Ln : length n2 = length (dcells d2 e2)) by (rewrite <- (Forall2_len _ _ _ G), L4, dcells_len; reflexivity).
  apply ok_swap in O; [|rewrite dcells_len; exact L]. apply thrifty_swap in Th.
  assert (NG : forall i, ~ gh a1 i).
  { intros i (d & Nd & Hd). exact (ok_not_hollow lo n2 _ Ln s a1 _ i d O Nd Hd). }
  assert (GG : Forall2 ghost a1 a1) by (clear; induction a1; constructor; [now left|assumption]).
  destruct (ghost_fits lo n2 a1 a1 _ _ s p _ Ln GG O (xm_ops _ _ _ _ _ _ M) (xm_align _ _ _ _ _ _ M) Th ltac:(lia)
    ltac:(intros i Hi; destruct (NG i Hi))) as (a & n1 & s' & E & Th1 & En & G1 & O1 & Q1).
  rewrite E. cbn [bind]. exists a, s'. split; [reflexivity|]. split; [exact En|]. exists (e1 ++ more).
  assert (n1 = a).
  { assert (NG' : forall i, ~ gh a i) by (intros i Hi; apply Q1 in Hi; destruct (NG i Hi)). clear - G1 NG'.
    induction G1 as [|x y a n1 Hg _ IH]; [reflexivity|]. f_equal.
    - destruct Hg as [->|(Hh & _)]; [reflexivity|]. exfalso. apply (NG' 0%nat). exists x. auto.
    - apply IH. intros i (d & Nd & Hd). apply (NG' (S i)). exists d. auto. }
  subst n1. split; [|split; [now apply thrifty_swap|exact Cs]]. apply ok_swap in O1; [|exact Ln]. constructor; auto.
  - apply ok_shows in O1. apply Forall2_len in O1. rewrite !app_length, Ln, !dcells_len in O1. lia.
  - exact (texts_ok_step _ _ _ _ _ _ T1 M).
  - intros x Hx. specialize (T2 x Hx). rewrite !texts_in_app, !in_app_iff in *. tauto.
Qed.

Lemma second_fits d1 d2 a1 a2 s e1 e2 n2 bl o dm d1' d2' ops1 ops2 : both lo d0 d1 d2 a1 a2 s e1 e2 n2 -> thrifty lo s (a1 ++ n2) ->
  run bl o d2 = Ok dm -> still_empty d0 dm -> runs ops1 d1 = Ok d1' -> runs ops2 dm = Ok d2' ->
  lo + cost e1 d1 d1' ops1 + cost e2 d2 d2' ((bl, o) :: ops2) <= a_end (m_arena s) ->
  exists a s', edit_in bl o d2 a2 s = Ok (dm, a, s') /\ a_end (m_arena s') = a_end (m_arena s) /\
    exists f2 m2, both lo d0 d1 dm a1 a s' e1 f2 m2 /\ thrifty lo s' (a1 ++ m2) /\ cost f2 dm d2' ops2 <= cost e2 d2 d2' ((bl, o) :: ops2).
Proof.
  intros Bo Th R SE R1 R2 Rm. destruct (both_lens _ _ _ _ _ _ _ _ _ _ Bo) as [[L1 L2] [L3 L4]].
  destruct (edit_prog' a2 s d2 e2 bl o dm L3 L4 R) as (l & more & p & M & -> & Rg & By).
  pose proof (cost_step l d2 dm d2' e2 more p bl o ops2 M R Rg By) as Cs.
  pose proof (cost_now dm d2' ops2 (e2 ++ more) R2) as C2. pose proof (cost_now d1 d1' ops1 e1 R1) as C1.
  destruct Bo as [G O L T1 T2 H].
  assert (Ln : length a1 = length (dcells d1 e1)) by (rewrite dcells_len; exact L).
  assert (P : forall i, gh a2 i -> exists sz, nth_error (dcells dm (e2 ++ more)) i = Some (sz, [])).
  { intros i Hi. apply H in Hi. destruct Hi as [Hi Z]. destruct (cells_tab dm (e2 ++ more) i Hi) as (sz & xs & N & E).
    rewrite (SE i Hi Z) in E. apply length_zero_iff_nil in E. subst xs. eauto. }
  destruct (ghost_fits lo a1 a2 n2 _ _ s p _ Ln G O (xm_ops _ _ _ _ _ _ M) (xm_align _ _ _ _ _ _ M) Th ltac:(lia) P)
    as (a & m2 & s' & E & Th1 & En & G1 & O1 & Q1).
  rewrite E. cbn [bind]. exists a, s'. split; [reflexivity|]. split; [exact En|]. exists (e2 ++ more), m2.
  split; [|split; [exact Th1|exact Cs]]. constructor; auto.
  - intros x Hx. destruct (xm_text _ _ _ _ _ _ M x Hx) as [X|X].
    + specialize (T2 x X). rewrite !texts_in_app, !in_app_iff in *. tauto.
    + rewrite !texts_in_app, !in_app_iff. tauto.
  - intros i. rewrite Q1. apply H.
Qed.

Lemma two_fits es : forall d1 d2 a1 a2 s e1 e2 n2 d1' d2', both lo d0 d1 d2 a1 a2 s e1 e2 n2 -> thrifty lo s (a1 ++ n2) ->
  runs (mine false es) d1 = Ok d1' -> runs (mine true es) d2 = Ok d2' -> still_empty d0 d2' ->
  lo + cost e1 d1 d1' (mine false es) + cost e2 d2 d2' (mine true es) <= a_end (m_arena s) ->
  exists x, edits_two es (d1, a1) (d2, a2) s = Ok x.
Proof.
  induction es as [|[b [bl o]] es IH]; intros d1 d2 a1 a2 s e1 e2 n2 d1' d2' Bo Th R1 R2 SE Rm; [cbn; eauto|].
  cbn [edits_two fst snd]. destruct b.
  - change (mine false ((true, (bl, o)) :: es)) with (mine false es) in *. change (mine true ((true, (bl, o)) :: es)) with ((bl, o) :: mine true es) in *.
    cbn [runs] in R2. destruct (run bl o d2) as [dm| | |] eqn:E; try discriminate. cbn [bind] in R2.
    assert (SM : still_empty d0 dm).
    { intros i Hi Z. pose proof (runs_mono _ i Hi _ _ R2). rewrite (SE i Hi Z) in *. lia. }
    destruct (second_fits _ _ _ _ _ _ _ _ _ _ _ _ _ _ _ Bo Th E SM R1 R2 Rm) as (a & s' & -> & En & f2 & m2 & B1 & Th1 & C). cbn [bind].
    eapply IH; eauto. rewrite En. lia.
  - change (mine true ((false, (bl, o)) :: es)) with (mine true es) in *. change (mine false ((false, (bl, o)) :: es)) with ((bl, o) :: mine false es) in *.
    cbn [runs] in R1. destruct (run bl o d1) as [dm| | |] eqn:E; try discriminate. cbn [bind] in R1.
    destruct (first_fits _ _ _ _ _ _ _ _ _ _ _ _ _ _ _ Bo Th E R1 R2 Rm) as (a & s' & -> & En & f1 & B1 & Th1 & C). cbn [bind].
    eapply IH; eauto. rewrite En. lia.
Qed.
Lemma second_bad d1 d2 a1 a2 s e1 e2 n2 bl o dm d1' d2' ops1 ops2 : both lo d0 d1 d2 a1 a2 s e1 e2 n2 -> thrifty lo s (a1 ++ n2) ->
  run bl o d2 = Ok dm -> first_element d0 dm -> runs ops1 d1 = Ok d1' -> runs ops2 dm = Ok d2' ->
  lo + cost e1 d1 d1' ops1 + cost e2 d2 d2' ((bl, o) :: ops2) <= a_end (m_arena s) ->
  edit_in bl o d2 a2 s = Undef OobWrite.
Proof.
  intros Bo Th R (i & Hi & Z & Nz) R1 R2 Rm. destruct (both_lens _ _ _ _ _ _ _ _ _ _ Bo) as [[L1 L2] [L3 L4]].
  destruct (edit_prog' a2 s d2 e2 bl o dm L3 L4 R) as (l & more & p & M & -> & Rg & By).
  pose proof (cost_step l d2 dm d2' e2 more p bl o ops2 M R Rg By) as Cs.
  pose proof (cost_now dm d2' ops2 (e2 ++ more) R2) as C2. pose proof (cost_now d1 d1' ops1 e1 R1) as C1.
  destruct Bo as [G O L T1 T2 H].
  assert (Ln : length a1 = length (dcells d1 e1)) by (rewrite dcells_len; exact L).
  destruct (group_fits lo a1 n2 _ _ s p _ Ln O (xm_ops _ _ _ _ _ _ M) (xm_align _ _ _ _ _ _ M) Th ltac:(lia)) as (x & s' & E & _).
  destruct (cells_tab dm (e2 ++ more) i Hi) as (sz & xs & N & Lx).
  rewrite (ghost_bad lo a1 (dcells d1 e1) Ln p s a2 n2 _ _ i sz xs _ G O (xm_ops _ _ _ _ _ _ M) (proj2 (proj2 Th))
    ltac:(apply H; split; assumption) N ltac:(intros ->; cbn in Lx; congruence) E). reflexivity.
Qed.
Lemma two_fits_bad es : forall d1 d2 a1 a2 s e1 e2 n2 d1' d2', both lo d0 d1 d2 a1 a2 s e1 e2 n2 -> thrifty lo s (a1 ++ n2) ->
  runs (mine false es) d1 = Ok d1' -> runs (mine true es) d2 = Ok d2' -> still_empty d0 d2 -> first_element d0 d2' ->
  lo + cost e1 d1 d1' (mine false es) + cost e2 d2 d2' (mine true es) <= a_end (m_arena s) ->
  edits_two es (d1, a1) (d2, a2) s = Undef OobWrite.
Proof.
  induction es as [|[b [bl o]] es IH]; intros d1 d2 a1 a2 s e1 e2 n2 d1' d2' Bo Th R1 R2 SE FE Rm.
  - cbn in R1, R2. injection R2 as <-. destruct FE as (i & Hi & Z & Nz). destruct (Nz (SE i Hi Z)).
  - cbn [edits_two fst snd]. destruct b.
    + change (mine false ((true, (bl, o)) :: es)) with (mine false es) in *. change (mine true ((true, (bl, o)) :: es)) with ((bl, o) :: mine true es) in *.
      cbn [runs] in R2. destruct (run bl o d2) as [dm| | |] eqn:E; try discriminate. cbn [bind] in R2.
      destruct (first_dec d0 dm) as [SM|FM].
      * destruct (second_fits _ _ _ _ _ _ _ _ _ _ _ _ _ _ _ Bo Th E SM R1 R2 Rm) as (a & s' & -> & En & f2 & m2 & B1 & Th1 & C). cbn [bind].
        eapply IH; eauto. rewrite En. lia.
      * rewrite (second_bad _ _ _ _ _ _ _ _ _ _ _ _ _ _ _ Bo Th E FM R1 R2 Rm). reflexivity.
    + change (mine true ((false, (bl, o)) :: es)) with (mine true es) in *. change (mine false ((false, (bl, o)) :: es)) with ((bl, o) :: mine false es) in *.
      cbn [runs] in R1. destruct (run bl o d1) as [dm| | |] eqn:E; try discriminate. cbn [bind] in R1.
      destruct (first_fits _ _ _ _ _ _ _ _ _ _ _ _ _ _ _ Bo Th E R1 R2 Rm) as (a & s' & -> & En & f1 & B1 & Th1 & C). cbn [bind].
      eapply IH; eauto. rewrite En. lia.
Qed.
End Two.

(** ** The copies *)
Lemma copy_fits d s (xs : list bytes) : (0 < d_size d)%nat -> pow2 (d_align d) -> d_align d <= 8 -> d_len d = length xs ->
  (d_buf d = None -> d_len d = 0%nat) -> a_beg (m_arena s) + 7 + Z.of_nat (d_size d) * Z.of_nat (length xs) <= a_end (m_arena s) ->
  exists d' s', copy_array d s = Ok (d', s') /\ a_end (m_arena s') = a_end (m_arena s) /\
    a_beg (m_arena s') <= a_beg (m_arena s) + 7 + Z.of_nat (d_size d) * Z.of_nat (length xs) /\
    d' = mkArr (d_size d) (d_align d) (d_buf d') (length xs) (length xs).
Proof.
  intros Sz Pw Al Ln Bf Rm. unfold copy_array. pose proof (pad_bounds (a_beg (m_arena s)) (d_align d) Pw) as Pb.
  assert (A : exists p s', alloc1 (Z.of_nat (d_size d)) (d_align d) (Z.of_nat (d_len d)) s = Ok (p, s') /\ a_end (m_arena s') = a_end (m_arena s) /\
    a_beg (m_arena s') <= a_beg (m_arena s) + 7 + Z.of_nat (d_size d) * Z.of_nat (length xs)).
  { rewrite Ln. destruct (length xs) as [|n].
    - unfold alloc1, alloc. set (pad := padding _ _) in *.
      destruct (Z.ltb_spec (Z.quot (a_end (m_arena s) - a_beg (m_arena s) - pad) (Z.of_nat (d_size d))) (Z.of_nat 0)) as [X|X].
      + exfalso. pose proof (Z.quot_pos (a_end (m_arena s) - a_beg (m_arena s) - pad) (Z.of_nat (d_size d)) ltac:(lia) ltac:(lia)). lia.
      + cbn [bind]. do 2 eexists. split; [reflexivity|]. cbn [m_arena a_beg a_end]. lia.
    - destruct (alloc1_fits (Z.of_nat (d_size d)) (d_align d) (Z.of_nat (S n)) s 8) as (p & s' & E & F1 & F2); try lia; auto.
      exists p, s'. split; [exact E|]. split; [exact F2|lia]. }
  destruct A as (p & s' & -> & E1 & E2). cbn [bind].
  destruct (d_buf d) as [b|]; [|specialize (Bf eq_refl); rewrite Bf]; cbn [bind]; (do 2 eexists; split; [reflexivity|]);
   cbn [m_arena d_buf]; (split; [exact E1|]); (split; [exact E2|]); congruence.
Qed.

Lemma copies_fits lo a1 c1 : length a1 = length c1 -> forall l cl, Forall2 (src a1 c1) l cl -> forall out ns cs s,
  ok_mem lo s (a1 ++ ns) (c1 ++ cs) -> Forall2 ghost out ns -> Forall (lean 8) (a1 ++ ns) ->
  a_beg (m_arena s) + 7 * Z.of_nat (length l) <= lo + budget 8 (a1 ++ ns) ->
  lo + demand 8 c1 + demand 8 cs + demand 8 cl <= a_end (m_arena s) ->
  exists out' ns' s', copies l out s = Ok (out', s') /\ Forall2 ghost out' ns' /\ ok_mem lo s' (a1 ++ ns') (c1 ++ cs ++ cl) /\
    Forall (lean 8) (a1 ++ ns') /\ within lo s' (budget 8 (a1 ++ ns')) /\ a_end (m_arena s') = a_end (m_arena s).
Proof.
  intros L1 l cl H. induction H as [|d [sz xs] l cl (i & Nd & Nc & Sz) H IH]; intros out ns cs s O G Ln W Rm; cbn [copies].
  - exists out, ns, s. rewrite app_nil_r. unfold within. cbn [length] in W. split; [reflexivity|]. split; [exact G|]. split; [exact O|]. split; [exact Ln|]. split; [lia|reflexivity].
  - assert (N1 : nth_error (a1 ++ ns) i = Some d) by (rewrite nth_error_app1; [exact Nd|apply nth_error_Some; congruence]).
    assert (N2 : nth_error (c1 ++ cs) i = Some (sz, xs)) by (rewrite nth_error_app1; [exact Nc|apply nth_error_Some; unfold aarr in *; congruence]).
    destruct (ok_nth _ _ _ _ _ _ _ O N2) as (d0 & Nd0 & Sd & Od). assert (d0 = d) by congruence. subst d0.
    pose proof (proj1 (Forall_forall _ _) Ln d (nth_error_In _ _ N1)) as [_ Ld].
    pose proof (budget_demand 8 lo s _ _ ltac:(lia) O Ln) as BD. rewrite demand_app in BD. cbn [demand] in Rm.
    assert (Dcl : 0 <= demand 8 cl) by (clear; induction cl as [|[k ys] cl IH]; cbn [demand]; nia).
    cbn [length] in W.
    destruct (copy_fits d s xs) as (d' & s1 & E & En & Bg & Ed).
    { exact (ao_size _ _ _ _ Od). } { exact (ao_align _ _ _ _ Od). } { exact Ld. } { exact (ao_len _ _ _ _ Od). }
    { intros Hb. pose proof (ao_buf _ _ _ _ Od) as Q. rewrite Hb in Q. apply Q. }
    { rewrite Sd. nia. }
    rewrite E. cbn [bind]. pose proof (copy_step lo s (a1 ++ ns) (c1 ++ cs) i d sz xs O N1 N2 Sz) as V. rewrite E in V. cbn [safe_m] in V.
    destruct V as (n' & G1 & O1 & _ & _ & _). rewrite <- !app_assoc in O1.
    assert (Q : d_size n' = sz /\ d_align n' = d_align d /\ d_len n' = length xs /\ d_cap n' = length xs).
    { destruct G1 as [<-|((_ & Z1 & Z2) & _ & ->)]; rewrite Ed in *; cbn in *; auto. }
    destruct Q as (Q1 & Q2 & Q3 & Q4).
    destruct (IH (out ++ [d']) (ns ++ [n']) (cs ++ [(sz, xs)]) s1 O1) as (out' & ns' & s' & E' & R).
    + apply Forall2_app; [exact G|constructor; [exact G1|constructor]].
    + rewrite app_assoc. apply Forall_app. split; [exact Ln|]. constructor; [|constructor]. split; [lia|]. rewrite Q2. exact Ld.
    + rewrite app_assoc, budget_app. cbn [budget]. rewrite Q1, Q4, Sd in *. nia.
    + rewrite demand_app. cbn [demand]. rewrite En. lia.
    + exists out', ns', s'. rewrite <- app_assoc in R. rewrite En in R. auto.
Qed.

(** The number of map nodes. *)
Lemma ins_count l : forall m, (length (fst (t_insert_strings l m)) <= length l)%nat.
Proof.
  induction l as [|x l IH]; intros m; cbn [t_insert_strings length]; [cbn; lia|].
  unfold t_bind. assert (K : (length (fst (t_map_insert x m)) <= 1)%nat).
  { unfold t_map_insert, t_bind, lift, emit, t_ret. cbn. destruct (map_insert x m) as [[[[|] id] m']| | |]; cbn; lia. }
  destruct (t_map_insert x m) as [e o]; cbn [snd fst] in *.
  destruct o as [[[b n] m']| | |]; cbn [fst]; try lia. rewrite app_length. specialize (IH m'). lia.
Qed.
Lemma bind_count {A B} (x : tr A) (f : A -> tr B) k k' : (length (fst x) <= k)%nat -> (forall a, length (fst (f a)) <= k')%nat -> (length (fst (t_bind x f)) <= k + k')%nat.
Proof. intros H K. unfold t_bind. destruct (snd x) as [a| | |]; cbn [fst]; try lia. rewrite app_length. specialize (K a). lia. Qed.
Lemma dup_count d : (length (fst (t_duplicate_maps d)) <= regs d)%nat.
Proof.
  assert (TL : forall {A} (l : list A), (length (tl l) <= length l)%nat) by (intros ? [|? ?]; cbn; lia).
  unfold t_duplicate_maps, regs. rewrite <- !Nat.add_assoc.
  pose proof (TL _ (map t_name (tag_reg d))) as K1. rewrite map_length in K1.
  apply bind_count; [pose proof (ins_count (tl (map t_name (tag_reg d))) empty_map); lia|]. intros tm.
  apply bind_count; [pose proof (ins_count (tl (bool_reg d)) empty_map); pose proof (TL _ (bool_reg d)); lia|]. intros bm.
  apply bind_count; [pose proof (ins_count (tl (key_reg d)) empty_map); pose proof (TL _ (key_reg d)); lia|]. intros km.
  rewrite <- (Nat.add_0_r (length (val_reg d))).
  apply bind_count; [pose proof (ins_count (tl (val_reg d)) empty_map); pose proof (TL _ (val_reg d)); lia|]. intros vm. cbn. lia.
Qed.
Lemma tries_align l : tries_only l -> forall n, Forall (align_le 8) (prog n l).
Proof. induction 1 as [|e l -> _ IH]; intros n; [constructor|]. unfold prog; fold prog. constructor; [cbn; lia|apply IH]. Qed.
Lemma tries_demand n : demand 8 (repeat (56%nat, [zeros 56]) n) = 238 * Z.of_nat n.
Proof. induction n as [|n IH]; [reflexivity|]. cbn [repeat demand]. rewrite IH. cbn [length]. lia. Qed.

Lemma dup_fits lo d arrs s ex : ok_mem lo s arrs (dcells d ex) -> thrifty lo s arrs -> texts_ok d ex -> good_dom d ->
  lo + demand 8 (dcells d ex) + Z.of_nat (table_bytes d) <= a_end (m_arena s) ->
  exists arrs2 s2 e2 n2, duplicate_in d arrs s = Ok (d, arrs2, s2) /\ a_end (m_arena s2) = a_end (m_arena s) /\
    both lo d d d arrs arrs2 s2 ex e2 n2 /\ thrifty lo s2 (arrs ++ n2) /\ demand 8 e2 <= 238 * Z.of_nat (regs d).
Proof.
  intros O (Ln8 & Wn & I) Tx GD Rm. unfold duplicate_in. destruct (mem_lens _ _ _ _ _ O) as [_ Ln]. pose proof (s_dup d) as Sd. rewrite (gd_dup d GD) in Sd.
  pose proof (tries_dup d) as Tr. pose proof (dup_count d) as Ct. destruct (t_duplicate_maps d) as [evs r]. cbn [snd fst] in *. subst r.
  assert (O0 : ok_mem lo s (arrs ++ []) (dcells d ex ++ [])) by now rewrite !app_nil_r.
  pose proof (group_step lo s arrs [] (dcells d ex) [] _ _ O0 Ln (a_raw [] 304 8 [zeros 304] ltac:(lia) pow8 ltac:(discriminate) ltac:(repeat constructor)) I) as W0.
  pose proof (budget_demand 8 lo s _ _ ltac:(lia) O Ln8) as BD. unfold within in Wn.
  assert (TB : 1230 <= Z.of_nat (table_bytes d)) by (unfold table_bytes; lia).
  assert (DD : demand 8 (dcells d []) = Z.of_nat (table_bytes d) - 238 * Z.of_nat (regs d)) by (rewrite dcells_demand; cbn [demand]; lia).
  assert (DT : demand 8 (dcells d []) = 1230 + demand 8 (firstn 10 (skipn 1 (dcells d ex)))) by reflexivity.
  assert (DP : 0 <= demand 8 (firstn 10 (skipn 1 (dcells d ex)))) by (generalize (firstn 10 (skipn 1 (dcells d ex))); intros l; induction l as [|[k ys] l IHl]; cbn [demand]; nia).
  destruct (alloc1_fits (Z.of_nat 304) 8 (Z.of_nat 1) s 8) as (p & s0 & Ea & Eb & Ec); [lia|exact pow8|lia|lia|lia|].
  cbn [mrun app length] in W0 |- *. rewrite Ea in *. cbn [bind safe_m] in W0 |- *. destruct W0 as [O1 F1].
  set (r0 := mkArr 304 8 (Some p) 1 1) in *. set (s1 := mkMem _ _) in *.
  assert (B1 : a_beg (m_arena s1) <= a_beg (m_arena s) + 7 + 304) by (unfold s1; cbn [m_arena]; lia).
  assert (N1 : a_end (m_arena s1) = a_end (m_arena s)) by exact Ec.
  set (cl := firstn 10 (skipn 1 (dcells d ex))) in *.
  assert (SR : Forall2 (src arrs (dcells d ex)) (firstn 10 (skipn 1 arrs)) cl) by (exact (srcs d arrs ex Ln)).
  assert (LC : (length (firstn 10 (skipn 1 arrs)) <= 10)%nat) by (rewrite firstn_length; lia).
  assert (H0 : Forall2 (fun (d : darr) (c : nat * list bytes) => hollow d <-> snd c = []) [r0] [(304%nat, [zeros 304])]).
  { constructor; [|constructor]. split; [intros (_ & _ & X); discriminate|discriminate]. }
  pose proof (copies_safe lo arrs (dcells d ex) Ln _ _ SR [r0] [r0] [(304%nat, [zeros 304])] s1 O1 (Forall2_cons _ _ (or_introl eq_refl) (Forall2_nil _)) H0) as W1.
  destruct (copies_fits lo arrs (dcells d ex) Ln _ _ SR [r0] [r0] [(304%nat, [zeros 304])] s1 O1 (Forall2_cons _ _ (or_introl eq_refl) (Forall2_nil _)))
    as (out & ns & s2 & E2 & G2 & O2 & L2 & Wn2 & N2).
  { apply Forall_app. split; [exact Ln8|]. constructor; [|constructor]. unfold r0, lean. cbn [d_cap d_len d_align]. lia. }
  { rewrite budget_app. cbn [budget]. unfold r0. cbn [d_size d_cap]. lia. }
  { cbn [demand length]. rewrite N1. lia. }
  rewrite E2 in *. cbn [bind safe_m] in W1 |- *. destruct W1 as (_ & _ & _ & H2 & _ & _ & I2).
  assert (I2' : a_beg (m_arena s2) <= a_end (m_arena s2)).
  { apply (I2 (firstn 9 cl) (16%nat, repeat (zeros 16) (length (val_reg d)))); [reflexivity|]. cbn [snd]. destruct (val_reg d) eqn:E; [|discriminate]. now destruct (gd_val d GD). }
  change (ok_mem lo s2 (arrs ++ ns) (dcells d ex ++ dcells d [])) in O2.
  change (Forall2 (fun (d : darr) (c : nat * list bytes) => hollow d <-> snd c = []) out (dcells d [])) in H2.
  pose proof (tries_ops evs Tr 11 (dcells d [])) as A.
  pose proof (copies_hollow d out GD H2) as GH.
  change (dcells d [] ++ repeat (56%nat, [zeros 56]) (length evs)) with (dcells d (repeat (56%nat, [zeros 56]) (length evs))) in A.
  assert (P3 : forall i, gh out i -> exists sz, nth_error (dcells d (repeat (56%nat, [zeros 56]) (length evs))) i = Some (sz, [])).
  { intros i Hi. apply GH in Hi. destruct Hi as [Bd Z]. destruct (cells_tab d (repeat (56%nat, [zeros 56]) (length evs)) i Bd) as (sz & xs & N & E).
    rewrite Z in E. apply length_zero_iff_nil in E. subst xs. eauto. }
  destruct (ghost_fits lo arrs out ns (dcells d ex) _ s2 (prog 11 evs) _ Ln G2 O2 A (tries_align evs Tr 11)) as (out3 & n3 & s3 & E3 & Th3 & N3 & G3 & O3 & Q3); auto.
  { split; [exact L2|]. split; [exact Wn2|exact I2']. }
  { rewrite (dcells_demand d (repeat _ _)), tries_demand, N2, N1. lia. }
  rewrite E3. cbn [bind]. exists out3, s3, (repeat (56%nat, [zeros 56]) (length evs)), n3. split; [reflexivity|]. split; [congruence|]. split; [|split; [exact Th3|rewrite tries_demand; lia]].
  constructor; [exact G3|exact O3|exact Ln|exact Tx| |].
  + intros x Hx. rewrite texts_in_app, in_app_iff. left. now apply Tx.
  + intros i. rewrite Q3. apply GH.
Qed.

(** ** Sessions *)
Lemma edits_fits' lo ops : forall d d' s arrs ex, ok_mem lo s arrs (dcells d ex) -> thrifty lo s arrs -> texts_ok d ex -> runs ops d = Ok d' ->
  lo + cost ex d d' ops <= a_end (m_arena s) ->
  exists arrs' s' ex', edits_in ops d arrs s = Ok (d', arrs', s') /\ ok_mem lo s' arrs' (dcells d' ex') /\ thrifty lo s' arrs' /\ texts_ok d' ex' /\
    a_end (m_arena s') = a_end (m_arena s) /\
    demand 8 ex' <= 238 * (Z.of_nat (regs d') - Z.of_nat (regs d)) + demand 8 ex + 18 * Z.of_nat (text_bytes ops d).
Proof.
  induction ops as [|[bl o] ops IH]; intros d d' s arrs ex O (L & W & I) Tx R Rm; cbn [runs edits_in] in *.
  - injection R as <-. exists arrs, s, ex. cbn [text_bytes]. split; [reflexivity|]. split; [exact O|]. split; [split; auto|]. split; [exact Tx|]. split; [reflexivity|lia].
  - destruct (run bl o d) as [d1| | |] eqn:E1; try discriminate. cbn [bind] in R.
    destruct (edit_step lo s arrs d ex bl o d1 O E1) as (l & more & p & M & -> & Rg & By).
    pose proof (cost_step l d d1 d' ex more p bl o ops M E1 Rg By) as Cs. pose proof (cost_now d1 d' ops (ex ++ more) R) as Cn.
    destruct (mruns_fits' 8 lo p ltac:(lia) s arrs _ _ O (xm_ops _ _ _ _ _ _ M) (xm_align _ _ _ _ _ _ M) L W I) as (arrs1 & s1 & E & O1 & L1 & W1 & I1 & T1); [lia|].
    rewrite E. cbn [bind].
    destruct (IH d1 d' s1 arrs1 (ex ++ more) O1 (conj L1 (conj W1 I1)) (texts_ok_step _ _ _ _ _ _ Tx M) R ltac:(lia)) as (arrs' & s' & ex' & E' & O' & Th & Tx' & En & Dm).
    exists arrs', s', ex'. split; [exact E'|]. split; [exact O'|]. split; [exact Th|]. split; [exact Tx'|]. split; [congruence|].
    rewrite demand_app, (xm_cost _ _ _ _ _ _ M) in Dm. unfold x_cost in Dm. cbn [text_bytes]. rewrite E1. lia.
Qed.

Lemma session_fits' s t ops d0 d : session_gives t ops d0 d ->
  a_beg (m_arena s) + Z.of_nat (table_bytes d + 18 * (length t + text_bytes ops d0)) <= a_end (m_arena s) ->
  exists arrs s' ex, session_in s t ops = Ok (Some (d, arrs, s')) /\ ok_mem (a_beg (m_arena s)) s' arrs (dcells d ex) /\
    thrifty (a_beg (m_arena s)) s' arrs /\ texts_ok d ex /\ a_end (m_arena s') = a_end (m_arena s) /\
    demand 8 ex <= 238 * Z.of_nat (regs d) + 18 * Z.of_nat (length t + text_bytes ops d0).
Proof.
  intros [E R] Rm. unfold session_in, create_dom_in. pose proof (s_create_dom t) as S. destruct (t_create_dom t) as [l o] eqn:Et.
  cbn [snd] in S. subst o. rewrite E in Et. destruct (create_mem t l _ Et) as (d1 & b & ex & P & Rr & A & Al & Tx & Dm).
  destruct b; [|discriminate]. injection Rr as <-.
  assert (Tt : (texts d0 <= length t)%nat).
  { pose proof (u_create t d0 E) as G. destruct G as [_ G _ _ _ _ _ _ _]. change (texts empty_dom) with 0%nat in G. lia. }
  pose proof (cost_now d0 d ops ex R) as Cn.
  assert (Dm' : demand 8 ex <= 238 * Z.of_nat (regs d0) + 18 * Z.of_nat (texts d0)) by exact Dm.
  assert (Cc : cost ex d0 d ops <= Z.of_nat (table_bytes d + 18 * (length t + text_bytes ops d0))) by (unfold cost; lia).
  destruct (mruns_fits' 8 (a_beg (m_arena s)) _ ltac:(lia) s [] [] _ (ok_fresh s) A Al) as (arrs & s1 & Em & O & L & W & I1 & T1).
  - constructor.
  - unfold within. cbn. lia.
  - lia.
  - change (cells _ _ _ _ _ _ _ _ _ _ ex) with (dcells d0 ex). lia.
  - rewrite Em. cbn [bind]. rewrite E. cbn [bind].
    assert (Tx0 : texts_ok d0 ex) by (intros x Hx; rewrite Tx; now apply in_map).
    destruct (edits_fits' (a_beg (m_arena s)) ops d0 d s1 arrs ex O (conj L (conj W I1)) Tx0 R ltac:(lia)) as (arrs' & s' & ex' & E' & O' & Th & Tx' & En & Dx).
    rewrite E'. cbn [bind]. exists arrs', s', ex'. split; [reflexivity|]. split; [exact O'|]. split; [exact Th|]. split; [exact Tx'|]. split; [congruence|lia].
Qed.

Section Session.
Context (s : mem) (t : bytes) (ops : list (bytes * op)) (es : list (bool * (bytes * op))) (d0 d d1 d2 : dom).
Context (E : create_dom t = Ok (Some d0)) (V : all_valid ops d0) (R : runs ops d0 = Ok d).
Context (R1 : runs (mine false es) d = Ok d1) (R2 : runs (mine true es) d = Ok d2).
Context (Rm : a_beg (m_arena s) + Z.of_nat (both_bytes t ops es d0 d d1 d2) <= a_end (m_arena s)).
Let lo := a_beg (m_arena s).

Lemma tb_mono ops' dd dd' : runs ops' dd = Ok dd' -> Z.of_nat (table_bytes dd) <= Z.of_nat (table_bytes dd') + 18 * Z.of_nat (text_bytes ops' dd).
Proof.
  intros X. pose proof (cost_now dd dd' ops' [] X) as C. rewrite dcells_demand in C. unfold cost in C. cbn [demand] in C. lia.
Qed.
Lemma dup_ready : exists arrs s1 arrs2 s2 ex e2 n2,
  session_in s t ops = Ok (Some (d, arrs, s1)) /\ duplicate_in d arrs s1 = Ok (d, arrs2, s2) /\
  both lo d d d arrs arrs2 s2 ex e2 n2 /\ thrifty lo s2 (arrs ++ n2) /\
  lo + cost ex d d1 (mine false es) + cost e2 d d2 (mine true es) <= a_end (m_arena s2).
Proof.
  pose proof (tb_mono _ _ _ R1) as M1. pose proof (tb_mono _ _ _ R2) as M2. unfold both_bytes in Rm.
  destruct (session_fits' s t ops d0 d (conj E R) ltac:(lia)) as (arrs & s1 & ex & E1 & O & Th & Tx & En & Dm).
  assert (RD : reachable d) by (eapply runs_reachable; [eapply reach_create; exact E|exact V|exact R]).
  destruct (dup_fits lo d arrs s1 ex O Th Tx (reachable_gd d RD)) as (arrs2 & s2 & e2 & n2 & E2 & En2 & B & Th2 & De).
  { rewrite dcells_demand. unfold lo. lia. }
  exists arrs, s1, arrs2, s2, ex, e2, n2. split; [exact E1|]. split; [exact E2|]. split; [exact B|]. split; [exact Th2|]. unfold cost, lo. lia.
Qed.
Lemma dup_session_fits : still_empty d d2 -> exists x, dup_session_in s t ops es = Ok (Some x).
Proof.
  intros SE. destruct dup_ready as (arrs & s1 & arrs2 & s2 & ex & e2 & n2 & E1 & E2 & B & Th & C). unfold dup_session_in.
  rewrite E1. cbn [bind]. rewrite E2. cbn [bind].
  destruct (two_fits lo d es d d arrs arrs2 s2 ex e2 n2 d1 d2 B Th R1 R2 SE C) as (x & ->). cbn [bind]. eauto.
Qed.
Lemma dup_session_fits_bad : first_element d d2 -> dup_session_in s t ops es = Undef OobWrite.
Proof.
  intros FE. destruct dup_ready as (arrs & s1 & arrs2 & s2 & ex & e2 & n2 & E1 & E2 & B & Th & C). unfold dup_session_in.
  rewrite E1. cbn [bind]. rewrite E2. cbn [bind].
  rewrite (two_fits_bad lo d es d d arrs arrs2 s2 ex e2 n2 d1 d2 B Th R1 R2 ltac:(intros i Hi Z; exact Z) FE C). reflexivity.
Qed.
End Session.
