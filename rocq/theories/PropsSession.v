(** * The memory of a session: a parse followed by edits (C99, C100). *)
From Coq Require Import String List NArith ZArith Arith Bool Lia.
From Verif Require Import Base DomModel DomSpec ParserModel EditModel ApiSpec SizeSpec MemModel MemSpec MemProofs ArenaSpec TraceModel TraceProofs
  TraceMem TraceUser TraceEditModel TraceEditProofs TraceEditMem TraceEditOps TraceEditText TraceEditUser SessionSpec PropsArena GrammarSpec ReaderSpec PropsReader Examples.
Import ListNotations.
Local Open Scope Z_scope.

(** ** C99: after [createDom] and any valid edits in one arena, the arena holds the
    document that the calls describe. *)
Theorem C99_memory_holds_document : forall s t ops d0 d arrs s',
  a_beg (m_arena s) <= a_end (m_arena s) ->
  create_dom t = Ok (Some d0) -> all_valid ops d0 -> runs ops d0 = Ok d ->
  session_in s t ops = Ok (Some (d, arrs, s')) ->
  holds s' arrs d /\
  a_beg (m_arena s) <= a_beg (m_arena s') <= a_end (m_arena s) /\
  forall a, a < a_beg (m_arena s) \/ a_end (m_arena s) <= a -> m_cont s' a = m_cont s a.
Proof.
  intros s t ops d0 d arrs s' I E V R H. pose proof (session_safe s t ops d0 d I (conj E R)) as W. rewrite H in W. cbn in W.
  destruct W as (arrs1 & s1 & Q & [F1 F2 F3 F4] & ex & Sh & Tx). injection Q as <- <-. split; [|split; [lia|exact F4]].
  eapply shows_holds; [|exact Sh|exact Tx]. apply reachable_fits. eapply runs_reachable; [eapply reach_create; exact E|exact V|exact R].
Qed.
Print Assumptions C99_memory_holds_document.

(** The session ends with that document or with the jump for lack of memory, nothing
    else: in particular with no access outside the arena's arrays. *)
Theorem C99_full_or_result : forall s t ops d0 d, a_beg (m_arena s) <= a_end (m_arena s) ->
  create_dom t = Ok (Some d0) -> runs ops d0 = Ok d ->
  session_in s t ops = Longjmp ArenaFull \/ exists arrs s', session_in s t ops = Ok (Some (d, arrs, s')).
Proof.
  intros s t ops d0 d I E R. pose proof (session_safe s t ops d0 d I (conj E R)) as W.
  destruct (session_in s t ops) as [r| |[]|]; cbn in W; try contradiction; [|now left].
  right. destruct W as (arrs & s' & -> & _). eauto.
Qed.
Print Assumptions C99_full_or_result.

(** An arena with this much room never runs out. *)
Theorem C99_room_suffices : forall s t ops d0 d,
  create_dom t = Ok (Some d0) -> runs ops d0 = Ok d ->
  a_beg (m_arena s) + Z.of_nat (table_bytes d + 18 * (length t + text_bytes ops d0)) <= a_end (m_arena s) ->
  exists arrs s', session_in s t ops = Ok (Some (d, arrs, s')).
Proof. intros s t ops d0 d E R. apply session_fits. now split. Qed.
Print Assumptions C99_room_suffices.

(** A text that the parser rejects: no document and no edits; a full arena is reported only
    if the arena is too small for the text. *)
Theorem C99_rejected_text : forall s t ops, create_dom t = Ok None -> a_beg (m_arena s) <= a_end (m_arena s) ->
  (session_in s t ops = Ok None \/ session_in s t ops = Longjmp ArenaFull) /\
  (a_beg (m_arena s) + (1236 * Z.of_nat (length t) + 2746) <= a_end (m_arena s) -> session_in s t ops = Ok None).
Proof.
  intros s t ops E I. unfold session_in. split.
  - destruct (C95_full_or_result t s None E I) as [W|(arrs & s' & W)]; rewrite W; [now right|now left].
  - intros Rm. destruct (C95_room_suffices t s None E Rm) as (arrs & s' & W). rewrite W. reflexivity.
Qed.
Print Assumptions C99_rejected_text.
Example C99_rejected_ex : create_dom (nested (B "i") 256) = Ok None.
Proof.
  assert (L : (N.of_nat (length (nested (B "i") 256)) <= 65533)%N) by (vm_compute; discriminate).
  pose proof (C81_document_total _ L) as W.
  assert (Td : document_of (nested (B "i") 256) = TooDeep) by (vm_compute; reflexivity). rewrite Td in W. exact W.
Qed.

(** A session in an arena of 60000 bytes: an attribute set, a text merged, a node
    replaced, markup prepended, a node removed. *)
Definition s_src : bytes := B "<p a='v'>x<b>y</b></p>z".
Definition s_ops : list (bytes * op) :=
  [([], SetProp 2 (B "a") (B "new")); ([], AppendText 1 (B "more")); ([], ReplaceText 4 (B "q"));
   ([], PrependHtml 1 (B "<i c>k</i>")); ([], Remove 2)].
Definition s_peek (o : outcome (option (dom * list darr * mem))) : list (list (outcome bytes)) :=
  match o with Ok (Some (d, arrs, s)) => peek (Ok (Some d, arrs, s)) | _ => [] end.
Definition s_doc (o : outcome (option dom)) : dom := match o with Ok (Some d) => d | _ => empty_dom end.
Definition s_d0 : dom := Eval vm_compute in s_doc (create_dom s_src).
Definition s_d : dom := Eval vm_compute in match runs s_ops s_d0 with Ok d => d | _ => empty_dom end.
Example C99_ex :
  create_dom s_src = Ok (Some s_d0) /\ runs s_ops s_d0 = Ok s_d /\
  is_ok (session_in (arena_of 60000) s_src s_ops) = true /\ is_full (session_in (arena_of 1500) s_src s_ops) = true /\
  Z.of_nat (table_bytes s_d + 18 * (length s_src + text_bytes s_ops s_d0)) = 8590.
Proof. split; [|split; [|split; [|split]]]; vm_compute; reflexivity. Qed.

(** Every step of that session is valid. *)
Example C99_valid_ex : all_valid s_ops s_d0.
Proof.
  assert (K : forall d x, x <> 0%nat -> get_next x d = 0%nat -> sibs d x [x]).
  { intros d x Z H. apply sibs_cons; [exact Z|]. rewrite H. constructor. }
  cbn [all_valid s_ops].
  split; [vm_compute; lia|]. intros d1 H1. vm_compute in H1. injection H1 as <-.
  split; [vm_compute; lia|]. intros d2 H2. vm_compute in H2. injection H2 as <-.
  split. { exists 2%nat, [3%nat; 4%nat]. split; [discriminate|]. split; [|right; now left].
    apply sibs_cons; [discriminate|]. apply K; [discriminate|reflexivity]. }
  intros d3 H3. vm_compute in H3. injection H3 as <-.
  split. { split; [vm_compute; lia|]. intros d' H. vm_compute in H. injection H as <-. vm_compute. lia. }
  intros d4 H4. vm_compute in H4. injection H4 as <-.
  split; [|intros; exact I]. exists 1%nat, [9%nat; 2%nat; 6%nat]. split; [discriminate|]. split; [|right; now left].
  apply sibs_cons; [discriminate|]. apply sibs_cons; [discriminate|]. apply K; [discriminate|reflexivity].
Qed.
(** Its memory: first children, parents, next siblings, flags, attributes, texts (old
    ones stay behind). *)
Example C99_peek : s_peek (session_in (arena_of 60000) s_src s_ops) = map (map Ok)
  [[[1; 0; 9; 0]; [0; 0; 0; 0]; [0; 0; 0; 0]; [9; 0; 10; 0]];
   [[0; 0; 0; 0]; [0; 0; 0; 0]; [0; 0; 0; 0]; [0; 0; 0; 0]; [1; 0; 6; 0]; [9; 0; 10; 0]; [1; 0; 9; 0]; [1; 0; 2; 0]; [1; 0; 6; 0]];
   [[0; 0; 0; 0]; [0; 0; 0; 0]; [9; 0; 6; 0]];
   [[9; 0; 1; 0]];
   [[2; 0; 1; 0; 2; 0]];
   [[120]]; [[121]]; [[122]]; [[109]; [111]; [114]; [101]]; [[122]; [32]; [109]; [111]; [114]; [101]]; [[113]];
   [[120]; [32]; [113]]; [[107]]]%N.
Proof. vm_compute. reflexivity. Qed.

(** ** C100: an edit never stores through a pointer into a table that has grown since the
    pointer was taken (growing may move the table), nor outside the table; and the
    recorded loads are of current elements too. *)
Theorem C100_no_stale_pointer : forall bl o d d', run bl o d = Ok d' -> pointers_current d (fst (x_run bl o d)).
Proof. exact edit_pointers. Qed.
Print Assumptions C100_no_stale_pointer.
(** The record is that of the edit: same outcome. *)
Theorem C100_same_outcome : forall bl o d, snd (x_run bl o d) = run bl o d.
Proof. exact s_run. Qed.
Print Assumptions C100_same_outcome.
(** Replacing a node stores through seven pointers after one push and two allocations. *)
Example C100_ex : is_ok (run [] (ReplaceText 4 (B "q")) s_d0) = true /\
  List.length (filter (fun e => match e with XStore _ _ _ _ => true | _ => false end) (fst (x_run [] (ReplaceText 4 (B "q")) s_d0))) = 7%nat.
Proof. split; vm_compute; reflexivity. Qed.
(** A pointer kept over a push is noticed. *)
Example C100_stale : ~ pointers_current s_d0 [XB (ENext (3, 4)%nat); XStore 4 0 (List.length (nexts s_d0)) (enc_pair (0, 0)%nat)].
Proof.
  intros H. specialize (H [XB (ENext (3, 4)%nat)] _ [] eq_refl). destruct H as [[_ H] _]. vm_compute in H. discriminate.
Qed.
