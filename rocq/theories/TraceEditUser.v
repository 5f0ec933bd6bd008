(** * The memory of a whole session: a parse and any number of edits. *)
From Coq Require Import List NArith ZArith Arith Bool Lia.
From Verif Require Import Base TrieModel DomModel ParserModel EditModel ApiSpec SizeSpec ArenaSpec MemModel MemSpec Lemmas MemProofs MemCost
  RegProofs ApiProofs Size SizeEdit TraceModel TraceProofs TraceMem TraceUser TraceEditModel TraceEditProofs TraceEditMem TraceEditOps TraceEditText.
Import ListNotations.
Local Open Scope Z_scope.

(** [mruns_fits], with all that is needed to go on. *)
Lemma mruns_fits' A lo l : 1 <= A -> forall s ds cs cs', ok_mem lo s ds cs -> aops cs l cs' ->
  Forall (align_le A) l -> Forall (lean A) ds -> within lo s (budget A ds) ->
  a_beg (m_arena s) <= a_end (m_arena s) -> lo + demand A cs' <= a_end (m_arena s) ->
  exists ds' s', mruns l ds s = Ok (ds', s') /\ ok_mem lo s' ds' cs' /\ Forall (lean A) ds' /\ within lo s' (budget A ds') /\
    a_beg (m_arena s') <= a_end (m_arena s') /\ a_end (m_arena s') = a_end (m_arena s).
Proof.
  intros A1. induction l as [|o l IH]; intros s ds cs cs' O H Al F W I T; inversion H as [|? ? cs1 ? ? H1 H2]; subst; cbn [mruns].
  - do 2 eexists. split; [reflexivity|]. auto.
  - inversion Al as [|? ? Al1 Al2]; subst. pose proof (demand_mono A _ _ _ A1 H2) as M.
    destruct (mrun_fits A lo A1 s ds cs o cs1 O H1 Al1 F W ltac:(lia)) as (ds1 & s1 & E & F1 & W1 & T1).
    rewrite E. cbn [bind]. pose proof (mrun_safe lo s ds cs o cs1 O H1 I) as S. rewrite E in S. cbn [safe_m] in S.
    destruct S as [O1 Fr]. destruct (IH s1 ds1 cs1 cs' O1 H2 Al2 F1 W1 (fr_in _ _ _ Fr) ltac:(lia)) as (ds2 & s2 & E2 & R1 & R2 & R3 & R4 & R5).
    do 2 eexists. split; [exact E2|]. rewrite T1 in R5. auto.
Qed.

(** What the memory says about the lengths. *)
Lemma shows_len s arrs cs : Forall2 (shows_arr s) arrs cs -> length arrs = length cs.
Proof. induction 1; cbn; auto. Qed.
Lemma dcells_len d ex : length (dcells d ex) = (11 + length ex)%nat.
Proof. reflexivity. Qed.
Lemma mem_lens lo s arrs d ex : ok_mem lo s arrs (dcells d ex) ->
  map d_len (firstn 6 (skipn 1 arrs)) = lens d /\ length arrs = (11 + length ex)%nat.
Proof.
  intros O. apply ok_shows in O. split; [|rewrite (shows_len _ _ _ O); apply dcells_len].
  unfold dcells, cells in O.
  do 11 (let a := fresh "a" in let l := fresh "l" in let H := fresh "H" in
     inversion O as [|a ? l ? H Sh']; subst; clear O; rename Sh' into O).
  cbn [skipn firstn map]. unfold lens.
  repeat match goal with H : shows_arr _ ?a _ |- _ => let X := fresh in destruct H as (_ & X & _); cbn [snd] in X; rewrite ?map_length in X end.
  repeat f_equal; assumption.
Qed.

(** One edit. *)
Lemma edit_step lo s arrs d ex bl o d' : ok_mem lo s arrs (dcells d ex) -> run bl o d = Ok d' ->
  exists l more p, xmem l d d' ex more p /\ edit_in bl o d arrs s = (let* '(arrs, s) := mruns p arrs s in Ok (d', arrs, s)) /\
    regs d' = (regs d + x_tries l)%nat /\ (x_bytes l <= op_text_bytes o (texts d))%nat.
Proof.
  intros O R. pose proof (s_run bl o d) as S. pose proof (x_run_tracks bl o d) as X. pose proof (x_run_bytes bl o d) as Y.
  unfold T, TraceEditText.B, xq in *. unfold edit_in. destruct (x_run bl o d) as [l r] eqn:Ex. cbn [snd fst] in *. subst r. rewrite R in *.
  destruct X as [(_ & Rg & Q) _]. destruct (Q ex) as (more & p & M). exists l, more, p. split; [exact M|].
  destruct (mem_lens _ _ _ _ _ O) as [-> ->]. rewrite (xm_prog _ _ _ _ _ _ M). auto.
Qed.

Definition texts_ok (d : dom) (ex : list aarr) : Prop := forall s, In s (ntexts (nodes d)) -> In (singles s) (texts_in ex).
Lemma texts_ok_step l d d' ex more p : texts_ok d ex -> xmem l d d' ex more p -> texts_ok d' (ex ++ more).
Proof.
  intros H M s Hs. rewrite texts_in_app, in_app_iff. destruct (xm_text _ _ _ _ _ _ M s Hs) as [X|X]; [left; now apply H|now right].
Qed.

Lemma edits_safe lo ops : forall d d' s arrs ex, ok_mem lo s arrs (dcells d ex) -> a_beg (m_arena s) <= a_end (m_arena s) -> texts_ok d ex ->
  runs ops d = Ok d' ->
  safe_m (fun '(d1, arrs', s') => d1 = d' /\ (exists ex', ok_mem lo s' arrs' (dcells d' ex') /\ texts_ok d' ex') /\ frame lo s s')
    (edits_in ops d arrs s).
Proof.
  induction ops as [|[bl o] ops IH]; intros d d' s arrs ex O I Tx R; cbn [runs edits_in] in *.
  - injection R as <-. cbn. split; [reflexivity|]. split; [eauto|]. constructor; auto; lia.
  - destruct (run bl o d) as [d1| | |] eqn:E1; try discriminate. cbn [bind] in R.
    destruct (edit_step lo s arrs d ex bl o d1 O E1) as (l & more & p & M & -> & _).
    pose proof (mruns_safe lo p s arrs _ _ O (xm_ops _ _ _ _ _ _ M) I) as W.
    destruct (mruns p arrs s) as [[arrs1 s1]| | |]; cbn in W |- *; try exact W. destruct W as [O1 F1].
    specialize (IH d1 d' s1 arrs1 (ex ++ more) O1 (fr_in _ _ _ F1) (texts_ok_step _ _ _ _ _ _ Tx M) R).
    destruct (edits_in ops d1 arrs1 s1) as [[[d2 arrs2] s2]| | |]; cbn in IH |- *; try exact IH.
    destruct IH as (-> & X & F2). split; [reflexivity|]. split; [exact X|].
    destruct F1 as [A1 A2 A3 A4], F2 as [B1 B2 B3 B4]. constructor; [lia|lia|lia|]. intros a Ha. rewrite B4, A4; auto. rewrite A2. exact Ha.
Qed.

Lemma dcells_demand d ex : demand 8 (dcells d ex) = Z.of_nat (table_bytes d) - 238 * Z.of_nat (regs d) + demand 8 ex.
Proof.
  unfold dcells, cells, table_bytes, regs. cbn [demand length]. rewrite !map_length, !repeat_length. lia.
Qed.

(** All the edits as one program. *)
Lemma edits_plan ops : forall d d' ex, runs ops d = Ok d' ->
  exists more p, aops (dcells d ex) p (dcells d' (ex ++ more)) /\
    demand 8 more <= 238 * (Z.of_nat (regs d') - Z.of_nat (regs d)) + 18 * Z.of_nat (text_bytes ops d).
Proof.
  induction ops as [|[bl o] ops IH]; intros d d' ex R; cbn [runs text_bytes] in *.
  - injection R as <-. exists [], []. rewrite app_nil_r. split; [apply as_nil|cbn [demand]; lia].
  - destruct (run bl o d) as [d1| | |] eqn:E1; try discriminate. cbn [bind] in R.
    pose proof (s_run bl o d) as S. pose proof (x_run_tracks bl o d) as X. pose proof (x_run_bytes bl o d) as Y.
    unfold T, TraceEditText.B, xq in *. destruct (x_run bl o d) as [l r] eqn:Ex. cbn [snd fst] in *. subst r. rewrite E1 in *.
    destruct X as [(_ & Rg & Q) _]. destruct (Q ex) as (m1 & p1 & M). destruct (IH d1 d' (ex ++ m1) R) as (m2 & p2 & A2 & D2).
    exists (m1 ++ m2), (p1 ++ p2). split; [rewrite app_assoc; eapply aops_app; [exact (xm_ops _ _ _ _ _ _ M)|exact A2]|].
    rewrite demand_app, (xm_cost _ _ _ _ _ _ M). unfold x_cost. lia.
Qed.

Lemma edits_fits lo ops : forall d d' s arrs ex, ok_mem lo s arrs (dcells d ex) -> Forall (lean 8) arrs -> within lo s (budget 8 arrs) ->
  a_beg (m_arena s) <= a_end (m_arena s) -> runs ops d = Ok d' ->
  lo + Z.of_nat (table_bytes d') - 238 * Z.of_nat (regs d) + demand 8 ex + 18 * Z.of_nat (text_bytes ops d) <= a_end (m_arena s) ->
  exists arrs' s', edits_in ops d arrs s = Ok (d', arrs', s').
Proof.
  induction ops as [|[bl o] ops IH]; intros d d' s arrs ex O L W I R Rm; cbn [runs edits_in text_bytes] in *.
  - injection R as <-. eauto.
  - destruct (run bl o d) as [d1| | |] eqn:E1; try discriminate. cbn [bind] in R.
    destruct (edit_step lo s arrs d ex bl o d1 O E1) as (l & more & p & M & -> & Rg & By).
    destruct (edits_plan ops d1 d' (ex ++ more) R) as (m2 & p2 & A2 & D2).
    pose proof (demand_mono 8 _ _ _ ltac:(lia) A2) as Mo. pose proof (xm_cost _ _ _ _ _ _ M) as C. unfold x_cost in C.
    rewrite !dcells_demand, !demand_app in Mo.
    destruct (mruns_fits' 8 lo p ltac:(lia) s arrs _ _ O (xm_ops _ _ _ _ _ _ M) (xm_align _ _ _ _ _ _ M) L W I) as (arrs1 & s1 & E & O1 & L1 & W1 & I1 & T1).
    { rewrite dcells_demand, demand_app. lia. }
    rewrite E. cbn [bind]. eapply IH; eauto. rewrite T1, demand_app. lia.
Qed.

Lemma runs_reachable ops : forall d d', reachable d -> all_valid ops d -> runs ops d = Ok d' -> reachable d'.
Proof.
  induction ops as [|[bl o] ops IH]; intros d d' H V R; cbn [runs all_valid] in *; [now injection R as <-|].
  destruct V as [V1 V2]. destruct (run bl o d) as [d1| | |] eqn:E; try discriminate. cbn [bind] in R.
  eapply IH; [eapply reach_step; eauto|now apply V2|exact R].
Qed.

(** From the shape of the memory to what it holds. *)
Lemma shows_holds s arrs d ex : fits16 d -> Forall2 (shows_arr s) arrs (dcells d ex) -> texts_ok d ex -> holds s arrs d.
Proof.
  intros [F1 F2 F3 F4 F5 F6] Sh Tx. pose proof (texts_forall _ _ _ Sh) as TF.
  assert (TE : texts_in (dcells d ex) = texts_in ex) by reflexivity.
  rewrite TE in TF. unfold dcells, cells in Sh. unfold holds.
  do 11 (let a := fresh "a" in let l := fresh "l" in let H := fresh "H" in
     inversion Sh as [|a ? l ? H Sh']; subst; clear Sh; rename Sh' into Sh).
  split; [eapply show_nodes; [reflexivity|eassumption|exact F1]|].
  split; [eapply show_pairs; [reflexivity|eassumption|exact F2]|].
  split; [eapply show_pairs; [reflexivity|eassumption|exact F3]|].
  split; [eapply show_pairs; [reflexivity|eassumption|exact F4]|].
  split; [eapply show_pairs; [reflexivity|eassumption|exact F5]|].
  split; [eapply show_props; [reflexivity|eassumption|exact F6]|].
  do 4 (split; [eexists; split; [reflexivity|]; match goal with H : shows_arr _ ?a (_, repeat _ ?n) |- d_len ?a = ?n =>
      destruct H as (_ & H & _); cbn in H; rewrite repeat_length in H; exact H end|]).
  intros txt Hin. change (In txt (ntexts (nodes d))) in Hin. specialize (Tx txt Hin).
  match goal with |- exists a, In a ?l /\ _ => revert TF; generalize l end. intros bufs TF.
  clear - Tx TF. induction TF as [|a xs bufs l H _ IH]; [destruct Tx|]. destruct Tx as [->|Tx].
  - exists a. split; [now left|now apply show_text].
  - destruct (IH Tx) as (b & Hb & Tb). exists b. split; [now right|exact Tb].
Qed.

(** ** Sessions *)
Lemma session_start s t r : a_beg (m_arena s) <= a_end (m_arena s) -> create_dom t = Ok r ->
  safe_m (fun '(r', arrs, s') => r' = r /\ frame (a_beg (m_arena s)) s s' /\
     forall d, r = Some d -> exists ex, ok_mem (a_beg (m_arena s)) s' arrs (dcells d ex) /\ texts_ok d ex) (create_dom_in s t).
Proof.
  intros I E. unfold create_dom_in. pose proof (s_create_dom t) as S. destruct (t_create_dom t) as [l o] eqn:Et.
  cbn [snd] in S. subst o. rewrite E in Et. destruct (create_mem t l r Et) as (d & b & ex & P & R & A & Al & Tx & Dm).
  pose proof (mruns_safe (a_beg (m_arena s)) _ s [] [] _ (ok_fresh s) A I) as W.
  destruct (mruns (dom_arrays ++ prog 11 l) [] s) as [[arrs s']| | |]; cbn in W |- *; try exact W. rewrite E. cbn.
  destruct W as [W F]. split; [reflexivity|]. split; [exact F|]. intros d0 Er. rewrite Er in R. destruct b; [|discriminate].
  injection R as ->. exists ex. split; [exact W|]. intros x Hx. rewrite Tx. now apply in_map.
Qed.

(** Every call of the session has a result. *)
Definition session_gives (t : bytes) (ops : list (bytes * op)) (d0 d : dom) : Prop :=
  create_dom t = Ok (Some d0) /\ runs ops d0 = Ok d.

Lemma session_safe s t ops d0 d : a_beg (m_arena s) <= a_end (m_arena s) -> session_gives t ops d0 d ->
  safe_m (fun r => exists arrs s', r = Some (d, arrs, s') /\ frame (a_beg (m_arena s)) s s' /\
     exists ex, Forall2 (shows_arr s') arrs (dcells d ex) /\ texts_ok d ex) (session_in s t ops).
Proof.
  intros I [E R]. unfold session_in. pose proof (session_start s t _ I E) as W.
  destruct (create_dom_in s t) as [[[r arrs] s1]| | |]; cbn in W |- *; try exact W. destruct W as (-> & F1 & W).
  destruct (W d0 eq_refl) as (ex & O & Tx).
  pose proof (edits_safe _ ops d0 d s1 arrs ex O (fr_in _ _ _ F1) Tx R) as V.
  destruct (edits_in ops d0 arrs s1) as [[[d1 arrs2] s2]| | |]; cbn in V |- *; try exact V.
  destruct V as (-> & (ex' & O' & Tx') & F2). exists arrs2, s2. split; [reflexivity|]. split.
  - destruct F1 as [A1 A2 A3 A4], F2 as [B1 B2 B3 B4]. constructor; [lia|lia|lia|]. intros a Ha. rewrite B4, A4; auto. rewrite A2. exact Ha.
  - exists ex'. split; [exact (ok_shows _ _ _ _ O')|exact Tx'].
Qed.

Lemma session_fits s t ops d0 d : session_gives t ops d0 d ->
  a_beg (m_arena s) + Z.of_nat (table_bytes d + 18 * (length t + text_bytes ops d0)) <= a_end (m_arena s) ->
  exists arrs s', session_in s t ops = Ok (Some (d, arrs, s')).
Proof.
  intros [E R] Rm. unfold session_in, create_dom_in. pose proof (s_create_dom t) as S. destruct (t_create_dom t) as [l o] eqn:Et.
  cbn [snd] in S. subst o. rewrite E in Et. destruct (create_mem t l _ Et) as (d1 & b & ex & P & Rr & A & Al & Tx & Dm).
  destruct b; [|discriminate]. injection Rr as <-.
  assert (Tt : (texts d0 <= length t)%nat).
  { pose proof (u_create t d0 E) as G. destruct G as [_ G _ _ _ _ _ _ _]. change (texts empty_dom) with 0%nat in G. lia. }
  destruct (edits_plan ops d0 d ex R) as (m2 & p2 & A2 & D2).
  pose proof (demand_mono 8 _ _ _ ltac:(lia) A2) as Mo. rewrite !dcells_demand, !demand_app in Mo.
  assert (Dm' : demand 8 ex <= 238 * Z.of_nat (regs d0) + 18 * Z.of_nat (texts d0)) by exact Dm.
  destruct (mruns_fits' 8 (a_beg (m_arena s)) _ ltac:(lia) s [] [] _ (ok_fresh s) A Al) as (arrs & s1 & Em & O & L & W & I1 & T1).
  - constructor.
  - unfold within. cbn. lia.
  - lia.
  - change (cells _ _ _ _ _ _ _ _ _ _ ex) with (dcells d0 ex). rewrite dcells_demand. lia.
  - rewrite Em. cbn [bind]. rewrite E. cbn [bind].
    destruct (edits_fits (a_beg (m_arena s)) ops d0 d s1 arrs ex O L W I1 R) as (arrs2 & s2 & E2); [rewrite T1; lia|].
    rewrite E2. cbn [bind]. eauto.
Qed.

(** ** Pointers *)
Local Open Scope nat_scope.
From Verif Require Import SessionSpec.

Lemma fresh_some tab g ls : fresh tab g ls = true -> exists i, tab = S i /\ nth_error ls i = Some g.
Proof.
  unfold fresh. destruct tab as [|i]; [discriminate|]. destruct (nth_error ls i) eqn:E; [|discriminate].
  intros H. apply Nat.eqb_eq in H. subst. eauto.
Qed.
(** Lengths of the six tables, as arrays. *)
Definition six (cs : list aarr) (ls : list nat) : Prop :=
  length ls = 6 /\ 7 <= length cs /\
  forall i n, nth_error ls i = Some n -> exists sz xs, nth_error cs (S i) = Some (sz, xs) /\ sz <> 1 /\ length xs = n.
Lemma six_d d ex : six (dcells d ex) (lens d).
Proof.
  split; [reflexivity|]. split; [cbn; lia|]. intros i n. do 6 (destruct i as [|i]; [cbn [lens nth_error]; intros E; injection E as <-;
    do 2 eexists; (split; [reflexivity|]); (split; [discriminate|now rewrite ?map_length])|]). destruct i; discriminate.
Qed.
Lemma six_end cs c ls : six cs ls -> six (cs ++ [c]) ls.
Proof.
  intros (L & M & H). split; [exact L|]. split; [rewrite app_length; lia|]. intros i n E. destruct (H i n E) as (sz & xs & N & R).
  exists sz, xs. split; [|exact R]. rewrite nth_error_app1; [exact N|]. apply nth_error_Some. congruence.
Qed.
Lemma six_upd cs ls j sz xs ys : nth_error cs j = Some (sz, xs) -> (length ys = length xs \/ 7 <= j \/ j = 0 \/ sz = 1) -> six cs ls -> six (upd cs j (sz, ys)) ls.
Proof.
  intros Nj Q (L & M & H). split; [exact L|]. split; [now rewrite upd_length|]. intros i n E. destruct (H i n E) as (sz' & xs' & N' & R1 & R2).
  assert (Li : i < 6) by (rewrite <- L; apply nth_error_Some; congruence).
  destruct (Nat.eq_dec j (S i)) as [->|Ne].
  - pose proof (eq_trans (eq_sym Nj) N') as X. injection X as <- <-. exists sz, ys. split; [|split; [exact R1|]].
    + apply upd_nth_eq, nth_error_Some. unfold aarr in *. congruence.
    + destruct Q as [Q|[Q|[Q|Q]]]; [lia|lia|lia|contradiction].
  - exists sz', xs'. split; [|auto]. rewrite upd_nth_neq; auto.
Qed.
Lemma six_bump cs ls i sz xs x : i < 6 -> nth_error cs (S i) = Some (sz, xs) -> six cs ls -> six (upd cs (S i) (sz, xs ++ [x])) (bump i ls).
Proof.
  intros Li Ni (L & M & H). unfold bump. split; [now rewrite upd_length|]. split; [now rewrite upd_length|]. intros j n E.
  destruct (Nat.eq_dec j i) as [->|Ne].
  - rewrite upd_nth_eq in E by (now rewrite L). injection E as <-.
    assert (X : nth_error ls i = Some (nth i ls 0)) by (apply nth_error_nth'; now rewrite L).
    destruct (H i _ X) as (sz' & xs' & N' & R1 & R2). pose proof (eq_trans (eq_sym Ni) N') as Y. injection Y as <- <-.
    exists sz, (xs ++ [x]). split; [apply upd_nth_eq, nth_error_Some; unfold aarr in *; congruence|]. split; [exact R1|]. rewrite app_length. cbn. lia.
  - rewrite upd_nth_neq in E by auto. destruct (H j n E) as (sz' & xs' & N' & R). exists sz', xs'. split; [|exact R]. rewrite upd_nth_neq; auto.
Qed.

Definition good_access (d : dom) (pre : list xev) (e : xev) : Prop :=
  match e with
  | XStore tab k g x => current d pre tab g /\ k < g
  | XLoad tab k g => current d pre tab g
  | _ => True
  end.
Lemma x_lens_nth pre : forall ls i n, length ls = 6 -> nth_error ls i = Some n ->
  nth_error (x_lens pre ls) i = Some (n + list_sum (map (appends (S i)) pre)).
Proof.
  induction pre as [|e pre IH]; intros ls i n L H; cbn [x_lens map]; [rewrite Nat.add_0_r; exact H|].
  change (list_sum (?a :: ?b)) with (a + list_sum b). rewrite Nat.add_assoc. apply IH.
  - destruct e as [e| | |]; cbn [x_lens1]; auto. destruct e; cbn [ev_lens]; unfold bump; now rewrite ?upd_length.
  - assert (B : forall j, j < 6 -> nth_error (bump j ls) i = Some (n + (if i =? j then 1 else 0))).
    { intros j Lj. unfold bump. destruct (Nat.eqb_spec i j) as [<-|Ne].
      - rewrite upd_nth_eq by (now rewrite L). rewrite (nth_error_nth ls i 0 H). f_equal. lia.
      - rewrite upd_nth_neq by auto. rewrite Nat.add_0_r. exact H. }
    assert (Z : forall m, m = 0 -> nth_error ls i = Some (n + m)) by (intros m ->; rewrite Nat.add_0_r; exact H).
    assert (Li : i < 6) by (rewrite <- L; apply nth_error_Some; congruence).
    destruct e as [e| | |]; cbn [x_lens1]; try (apply Z; reflexivity).
    destruct e; cbn [ev_lens]; try (apply Z; reflexivity); rewrite B by lia;
      (do 6 (destruct i as [|i]; [reflexivity|])); lia.
Qed.
Lemma table_nth d i g : nth_error (lens d) i = Some g -> 1 <= S i <= 6 /\ g = table_len (S i) d.
Proof.
  do 6 (destruct i as [|i]; [cbn; intros E; injection E as <-; split; [lia|reflexivity]|]). destruct i; discriminate.
Qed.

(** Run along the record: the arrays always have the lengths of the tables. *)
Lemma aops_split l l' a c : aops a (l ++ l') c -> exists b, aops a l b /\ aops b l' c.
Proof.
  revert a. induction l as [|o l IH]; intros a H; cbn [app] in H; [exists a; split; [apply as_nil|exact H]|].
  inversion H as [|? ? c1 ? ? H1 H2]; subst. destruct (IH _ H2) as (b & B1 & B2). exists b. split; [eapply as_cons; eauto|exact B2].
Qed.
Lemma six_ev cs n e cs' ls : six cs ls -> aops cs (prog n [e]) cs' -> six cs' (ev_lens e ls).
Proof.
  intros Q H. destruct e; cbn [prog ev_lens] in *; inversion H as [|? ? c1 ? ? H1 H2]; subst; inversion H2; subst; clear H H2;
    inversion H1; subst;
    try (apply six_end; exact Q);
    try (match goal with N : nth_error _ (S ?i) = Some _ |- six (upd _ (S ?i) _) (bump ?i _) => apply six_bump; [lia|exact N|exact Q] end);
    try (eapply six_upd; [eassumption| |exact Q]; lia).
Qed.
Lemma stores_in l : forall ls n p cs cs', xprog ls n l = Some p -> six cs ls -> aops cs p cs' ->
  forall pre tab k g x post, l = pre ++ XStore tab k g x :: post -> k < g.
Proof.
  induction l as [|e l IH]; intros ls n p cs cs' E Q A pre tab k g x post Hl; [destruct pre; discriminate|].
  destruct e as [e|tab' k' g' x'|tab' k' g'|s]; cbn [xprog] in E.
  - destruct (xprog _ _ l) as [q|] eqn:Eq; [|discriminate]. injection E as <-. destruct (aops_split _ _ _ _ A) as (b & A1 & A2).
    destruct pre as [|e' pre]; [discriminate|]. injection Hl as _ Hl. eapply IH; [exact Eq|exact (six_ev _ _ _ _ _ Q A1)|exact A2|exact Hl].
  - destruct (fresh tab' g' ls) eqn:Fr; [|discriminate]. destruct (xprog _ _ l) as [q|] eqn:Eq; [|discriminate]. injection E as <-.
    inversion A as [|? ? c1 ? ? A1 A2]; subst. inversion A1 as [| |? ? ? sz xs ? N Hk Hx| | |]; subst.
    destruct pre as [|e' pre].
    + injection Hl as -> -> -> -> ->. destruct (fresh_some _ _ _ Fr) as (i & -> & Ng). destruct Q as (_ & _ & Q).
      destruct (Q i g Ng) as (sz & xs' & N' & _ & L). pose proof (eq_trans (eq_sym N) N') as X. injection X as _ <-. now rewrite <- L.
    + injection Hl as _ Hl. eapply IH; [exact Eq| |exact A2|exact Hl]. eapply six_upd; [exact N|left; apply upd_length|exact Q].
  - destruct (fresh tab' g' ls) eqn:Fr; [|discriminate]. destruct pre as [|e' pre]; [discriminate|]. injection Hl as _ Hl. eapply IH; eauto.
  - destruct (xprog _ _ l) as [q|] eqn:Eq; [|discriminate]. injection E as <-. inversion A as [|? ? c1 ? ? A1 A2]; subst.
    destruct pre as [|e' pre]; [discriminate|]. injection Hl as _ Hl. eapply IH; [exact Eq| |exact A2|exact Hl].
    destruct s; inversion A1; subst; apply six_end; exact Q.
Qed.
Lemma xprog_current l d n p : xprog (lens d) n l = Some p -> forall pre e post, l = pre ++ e :: post ->
  match e with XStore tab _ g _ | XLoad tab _ g => current d pre tab g | _ => True end.
Proof.
  intros E pre e post Hl.
  assert (G : forall l ls n p pre, xprog ls n l = Some p -> l = pre ++ e :: post ->
     match e with XStore tab _ g _ | XLoad tab _ g => fresh tab g (x_lens pre ls) = true | _ => True end).
  { clear. induction l as [|e' l IH]; intros ls n p pre E Hl; [destruct pre; discriminate|].
    destruct pre as [|e'' pre].
    - injection Hl as -> ->. cbn [x_lens]. destruct e; cbn [xprog] in E; auto; destruct (fresh _ _ _); auto; discriminate.
    - injection Hl as -> Hl. cbn [x_lens]. destruct e'' as [e'|tab' k' g' x'|tab' k' g'|s]; cbn [xprog x_lens1] in *.
      + destruct (xprog _ _ l) as [q|] eqn:Eq; [|discriminate]. eapply IH; eauto.
      + destruct (fresh tab' g' ls); [|discriminate]. destruct (xprog _ _ l) as [q|] eqn:Eq; [|discriminate]. eapply IH; eauto.
      + destruct (fresh tab' g' ls); [|discriminate]. eapply IH; eauto.
      + destruct (xprog _ _ l) as [q|] eqn:Eq; [|discriminate]. eapply IH; eauto. }
  assert (C : forall tab g, fresh tab g (x_lens pre (lens d)) = true -> current d pre tab g).
  { intros tab g F. destruct (fresh_some _ _ _ F) as (i & -> & Ng).
    destruct (nth_error (lens d) i) as [m|] eqn:Em.
    - rewrite (x_lens_nth pre (lens d) i m eq_refl Em) in Ng. injection Ng as <-. destruct (table_nth d i m Em) as [T0 ->]. split; [exact T0|reflexivity].
    - exfalso. assert (Lx : length (x_lens pre (lens d)) = 6).
      { generalize (eq_refl : length (lens d) = 6). generalize (lens d). clear. induction pre as [|e pre IH]; intros ls L; cbn [x_lens]; auto.
        apply IH. destruct e as [e| | |]; cbn [x_lens1]; auto. destruct e; cbn [ev_lens]; unfold bump; now rewrite ?upd_length. }
      assert (i < 6) by (rewrite <- Lx; apply nth_error_Some; congruence). apply nth_error_None in Em. cbn in Em. lia. }
  specialize (G l (lens d) n p pre E Hl). destruct e; auto.
Qed.
Lemma edit_pointers bl o d d' : run bl o d = Ok d' -> pointers_current d (fst (x_run bl o d)).
Proof.
  intros R. pose proof (s_run bl o d) as S. pose proof (x_run_tracks bl o d) as X. unfold T, xq in X.
  destruct (x_run bl o d) as [l r]. cbn [snd fst] in *. subst r. rewrite R in X. destruct X as [(_ & _ & Q) _].
  destruct (Q []) as (more & p & M). intros pre e post Hl. pose proof (xprog_current _ _ _ _ (xm_prog _ _ _ _ _ _ M) pre e post Hl) as C.
  destruct e; auto. split; [exact C|]. subst l.
  eapply stores_in; [exact (xm_prog _ _ _ _ _ _ M)|apply six_d|exact (xm_ops _ _ _ _ _ _ M)|reflexivity].
Qed.
