(** * Edits and queries of a document in one arena (C108). *)
From Coq Require Import String List NArith ZArith Arith Bool Lia.
From Verif Require Import Base DomModel DomSpec ParserModel EditModel QueryModel ApiSpec MemModel MemSpec MemProofs ArenaSpec SessionSpec
  TraceModel TraceEditModel TraceEditUser QueryMemModel AskSpec ReadUser QueryMemSafe AskRoom PropsArena PropsSession PropsQuery GrammarSpec Examples.
Import ListNotations.
Local Open Scope Z_scope.

(** Every query has an answer. *)
Lemma selector_total d : reachable d -> forall lo css, exists st r, query_selector lo css d = Ok (st, r).
Proof.
  intros H lo css. destruct (C42_query_total d H lo css) as (st & l & E & _).
  destruct (u_preorder d H 1%nat ltac:(lia)) as (w & P & _).
  destruct st; try solve [unfold query_selector; rewrite E; cbn [bind]; eauto].
  pose proof (C44_query_selector_first d H lo css l _ E P) as F.
  destruct l as [|x l]; [eauto|]. destruct F as [(a & n & b & _ & _ & _ & F)|[_ F]]; eauto.
Qed.
Lemma answers_total cs : forall d d', reachable d -> all_valid (edits_of cs d) d -> runs (edits_of cs d) d = Ok d' -> exists ans, answers cs d = Ok ans.
Proof.
  induction cs as [|[bl o|lo sets css|lo sets css bl o] cs IH]; intros d d' H V R; cbn [edits_of answers] in *.
  - now exists [].
  - cbn [runs all_valid] in R, V. destruct V as [V1 V2]. destruct (run bl o d) as [d1| | |] eqn:E; try discriminate. cbn [bind] in R |- *.
    apply (IH d1 d'); [eapply reach_step; eauto|now apply V2|exact R].
  - destruct (C42_query_total d H lo css) as (st & r & E & _). rewrite E. cbn [bind].
    destruct (IH d d' H V R) as (l & ->). cbn [bind]. eauto.
  - destruct (selector_total d H lo css) as (st & r & E). rewrite E in *. cbn [bind].
    destruct st; try (exact (IH d d' H V R)).
    cbn [runs all_valid] in R, V. destruct V as [V1 V2]. destruct (run bl _ d) as [d1| | |] eqn:E1; try discriminate. cbn [bind] in R |- *.
    apply (IH d1 d'); [eapply reach_step; eauto|now apply V2|exact R].
Qed.

(** ** C108: [createDom] and then edits and queries in any order, in one arena, and edits at
    the node that a query finds.  Every
    query has the answer the document of that moment gives; at the end the memory holds the
    document as the edits leave it and, at the addresses the queries handed out, still all
    their answers; nothing outside the arena changes.  The only other outcome is the jump
    for a full arena. *)
Theorem C108_edits_and_queries : forall s t cs d0 d,
  a_beg (m_arena s) <= a_end (m_arena s) ->
  create_dom t = Ok (Some d0) -> all_valid (edits_of cs d0) d0 -> runs (edits_of cs d0) d0 = Ok d ->
  exists ans, answers cs d0 = Ok ans /\
  (talk_in s t cs = Longjmp ArenaFull \/
   exists arrs res s', talk_in s t cs = Ok (Some (d, arrs, res, s')) /\
     holds s' arrs d /\ Forall2 (answer_kept s') res ans /\
     forall a, a < a_beg (m_arena s) \/ a_end (m_arena s) <= a -> m_cont s' a = m_cont s a).
Proof.
  intros s t cs d0 d I E V R. destruct (answers_total cs d0 d (reach_create _ _ E) V R) as (ans & An). exists ans. split; [exact An|].
  pose proof (talk_safe s t cs d0 d ans I E V R An) as W.
  destruct (talk_in s t cs) as [r| |[]|]; cbn [safe_m] in W; try contradiction; [|now left]. right.
  destruct W as (arrs & res & s' & -> & F & H & K). exists arrs, res, s'. split; [reflexivity|]. split; [exact H|]. split; [exact K|apply F].
Qed.
Print Assumptions C108_edits_and_queries.

(** The calls that edit at the node a query finds are the nine [...WithQuery] functions:
    they leave the document that the edits of [EditAt] leave. *)
Theorem C108_edit_at_query : forall d, reachable d -> forall lo sets css bl,
  let at_query o := runs (edits_of [EditAt lo sets css bl o] d) d in
  let with_q f := let* '(_, d') := with_query lo css f d in Ok d' in
  (forall x, at_query (fun n => AppendDoc n x) = with_q (fun n => append_document_node n x)) /\
  (forall x, at_query (fun n => AppendText n x) = with_q (fun n => append_text_node n x)) /\
  (forall x, at_query (fun n => AppendHtml n x) = with_q (fun n => append_html (Some bl) n x)) /\
  (forall x, at_query (fun n => PrependDoc n x) = with_q (fun n => prepend_document_node n x)) /\
  (forall x, at_query (fun n => PrependText n x) = with_q (fun n => prepend_text_node n x)) /\
  (forall x, at_query (fun n => PrependHtml n x) = with_q (fun n => prepend_html (Some bl) n x)) /\
  (forall x, at_query (fun n => ReplaceDoc n x) = with_q (fun n => replace_with_document_node n x)) /\
  (forall x, at_query (fun n => ReplaceText n x) = with_q (fun n => replace_with_text_node n x)) /\
  (forall x, at_query (fun n => ReplaceHtml n x) = with_q (fun n => replace_with_html (Some bl) n x)).
Proof.
  intros d R lo sets css bl at_query with_q. destruct (selector_total d R lo css) as (st & r & Q).
  assert (G : forall (o : nat -> op) f, (forall n, run bl (o n) d = let* '(_, d') := f n d in Ok d') -> at_query o = with_q f).
  { intros o f H. unfold at_query, with_q, with_query. cbn [edits_of]. rewrite Q. cbn [bind].
    destruct st; try reflexivity. cbn [runs]. rewrite H. destruct (f _ d) as [[y d1]| | |]; reflexivity. }
  repeat split; intros x; apply G; reflexivity.
Qed.
Print Assumptions C108_edit_at_query.
(** A text that the parser gives up: nothing else is done, and a full arena is reported
    only if the arena is too small for the text. *)
Theorem C108_rejected_text : forall s t cs, create_dom t = Ok None -> a_beg (m_arena s) <= a_end (m_arena s) ->
  (talk_in s t cs = Ok None \/ talk_in s t cs = Longjmp ArenaFull) /\
  (a_beg (m_arena s) + (1236 * Z.of_nat (length t) + 2746) <= a_end (m_arena s) -> talk_in s t cs = Ok None).
Proof.
  intros s t cs E I. unfold talk_in. split.
  - destruct (C95_full_or_result t s None E I) as [W|(arrs & s' & W)]; rewrite W; [now right|now left].
  - intros Rm. destruct (C95_room_suffices t s None E Rm) as (arrs & s' & W). rewrite W. reflexivity.
Qed.
Print Assumptions C108_rejected_text.
Example C108_rejected_ex : create_dom (nested (B "i") 256) = Ok None.
Proof. exact C99_rejected_ex. Qed.

(** How much room is enough: then none of the calls runs out of memory. *)
Theorem C108_room_suffices : forall s t cs d0 d ans,
  create_dom t = Ok (Some d0) -> all_valid (edits_of cs d0) d0 -> runs (edits_of cs d0) d0 = Ok d -> answers cs d0 = Ok ans ->
  a_beg (m_arena s) + Z.of_nat (talk_bytes t cs d0 d ans) <= a_end (m_arena s) ->
  exists arrs res s', talk_in s t cs = Ok (Some (d, arrs, res, s')) /\ holds s' arrs d /\ Forall2 (answer_kept s') res ans.
Proof.
  intros s t cs d0 d ans E V R An Rm. destruct (talk_fits s t cs d0 d ans E V R An Rm) as (x & Ex).
  destruct (C108_edits_and_queries s t cs d0 d ltac:(lia) E V R) as (ans' & An' & [W|(arrs & res & s' & W & H & K & _)]); [congruence|].
  assert (ans' = ans) by congruence. subst ans'. eauto 6.
Qed.
Print Assumptions C108_room_suffices.
(** One query: room in proportion to the number of nodes and to the length of the selector,
    nearly all of it given back. *)
Theorem C108_query_room : forall d, reachable d -> forall lo sets css s,
  a_beg (m_arena s) + Z.of_nat (query_bytes (length (nodes d)) (length css)) <= a_end (m_arena s) ->
  exists st q n s', query_in lo sets css d s = Ok (st, q, n, s') /\
    a_beg (m_arena s) <= a_beg (m_arena s') <= a_beg (m_arena s) + 1 + 2 * Z.of_nat n.
Proof. intros d R lo sets css s Rm. destruct (query_fits lo sets css d s R Rm) as (st & q & n & s' & E & B & L). eauto 8. Qed.
Print Assumptions C108_query_room.

(** A query between two edits, one that is in error, and one after them; then an edit at the
    node that a query finds, and one whose query is in error. *)
Definition q_src : bytes := B "<p>x</p>".
Definition q_d : dom := Eval vm_compute in s_doc (create_dom q_src).
Definition q_cs : list call :=
  [Ask (fun _ => 0%nat) (fun _ => 255%N) (B "p"); Edit [] (AppendHtml 1 (B "<p a></p>")); Ask (fun _ => 0%nat) (fun _ => 7%N) (B "[a");
   Ask (fun _ => 0%nat) (fun _ => 9%N) (B "p,[a]");
   EditAt (fun _ => 0%nat) (fun _ => 3%N) (B "[a]") [] (fun n => AppendText n (B "z")); EditAt (fun _ => 0%nat) (fun _ => 1%N) (B "[") [] (fun n => AppendText n (B "y"))].
Definition q_peek (o : outcome (option (dom * list darr * list (qstatus * Z * nat) * mem))) : list (qstatus * list N) :=
  match o with
  | Ok (Some (_, _, res, s)) => map (fun '(st, q, n) => (st, rd (m_cont s) q (2 * n))) res
  | _ => []
  end.
Example C108_ex : create_dom q_src = Ok (Some q_d) /\
  answers q_cs q_d = Ok [(QSuccess, [2%nat]); (QInvalid, []); (QSuccess, [2%nat; 4%nat])] /\
  q_peek (talk_in (arena_of 20000) q_src q_cs) = [(QSuccess, [2; 0]); (QInvalid, []); (QSuccess, [2; 0; 4; 0])]%N /\
  is_full (talk_in (arena_of 1200) q_src q_cs) = true.
Proof. split; [|split; [|split]]; vm_compute; reflexivity. Qed.
Definition q_ops : list (bytes * op) := [([], AppendHtml 1 (B "<p a></p>")); ([], AppendText 4 (B "z"))].
Example C108_valid_ex : edits_of q_cs q_d = q_ops /\ all_valid (edits_of q_cs q_d) q_d.
Proof.
  assert (Eo : edits_of q_cs q_d = q_ops) by (vm_compute; reflexivity). split; [exact Eo|]. rewrite Eo.
  cbn [q_ops all_valid]. split. { split; [vm_compute; lia|]. intros d' H. vm_compute in H. injection H as <-. vm_compute. lia. }
  intros d1 H1. vm_compute in H1. injection H1 as <-. split; [vm_compute; lia|intros; exact I].
Qed.
Definition q_d2 : dom := Eval vm_compute in match runs (edits_of q_cs q_d) q_d with Ok d => d | _ => empty_dom end.
Example C108_room_ex : runs (edits_of q_cs q_d) q_d = Ok q_d2 /\
  (Z.of_nat (talk_bytes q_src q_cs q_d q_d2 [(QSuccess, [2%nat]); (QInvalid, []); (QSuccess, [2%nat; 4%nat])]) <=? 20000) = true /\
  (Z.of_nat (query_bytes (length (nodes q_d)) 1) <=? 3000) = true /\ reachable q_d.
Proof. split; [|split; [|split]]; try (vm_compute; reflexivity). apply (reach_create q_src). vm_compute. reflexivity. Qed.
