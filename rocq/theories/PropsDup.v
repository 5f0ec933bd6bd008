(** * A document and its duplicate in memory (C106, C107). *)
From Coq Require Import String List NArith ZArith Arith Bool Lia.
From Verif Require Import Base DomModel DomSpec ParserModel EditModel DuplicateModel ApiSpec MemModel MemSpec MemProofs ArenaSpec SessionSpec DupSpec
  TraceModel TraceEditModel DupMemModel DupProofs DupUser DupRoom PropsArena PropsSession Examples.
Import ListNotations.
Local Open Scope Z_scope.

(** ** C106: a document, its duplicate and edits of both, in any order, in one arena: the
    memory holds the document as its own edits leave it and the duplicate as its own edits
    leave it; nothing outside the arena changes.  This needs that no edit puts a first
    element into a table of the duplicate that was empty when it was made. *)
Theorem C106_document_and_duplicate : forall s t ops es d0 d d1 d2,
  a_beg (m_arena s) <= a_end (m_arena s) ->
  create_dom t = Ok (Some d0) -> all_valid ops d0 -> runs ops d0 = Ok d ->
  all_valid (mine false es) d -> runs (mine false es) d = Ok d1 ->
  all_valid (mine true es) d -> runs (mine true es) d = Ok d2 -> still_empty d d2 ->
  dup_session_in s t ops es = Longjmp ArenaFull \/
  exists a1 a2 s', dup_session_in s t ops es = Ok (Some ((d1, a1), (d2, a2), s')) /\
    holds s' a1 d1 /\ holds_sharing s' a2 (a1 ++ a2) d2 /\
    forall a, a < a_beg (m_arena s) \/ a_end (m_arena s) <= a -> m_cont s' a = m_cont s a.
Proof.
  intros s t ops es d0 d d1 d2 I E V R V1 R1 V2 R2 SE.
  pose proof (dup_session_safe s t ops es d0 d d1 d2 I E V R V1 R1 V2 R2 SE) as W.
  destruct (dup_session_in s t ops es) as [r| |[]|]; cbn [safe_m] in W; try contradiction; [|now left]. right.
  destruct W as (a1 & a2 & s' & -> & F & H1 & H2). exists a1, a2, s'. split; [reflexivity|]. split; [exact H1|]. split; [exact H2|apply F].
Qed.
Print Assumptions C106_document_and_duplicate.

(** How much room is enough: then none of the calls runs out of memory. *)
Theorem C106_room_suffices : forall s t ops es d0 d d1 d2,
  create_dom t = Ok (Some d0) -> all_valid ops d0 -> runs ops d0 = Ok d ->
  all_valid (mine false es) d -> runs (mine false es) d = Ok d1 ->
  all_valid (mine true es) d -> runs (mine true es) d = Ok d2 -> still_empty d d2 ->
  a_beg (m_arena s) + Z.of_nat (both_bytes t ops es d0 d d1 d2) <= a_end (m_arena s) ->
  exists a1 a2 s', dup_session_in s t ops es = Ok (Some ((d1, a1), (d2, a2), s')) /\
    holds s' a1 d1 /\ holds_sharing s' a2 (a1 ++ a2) d2.
Proof.
  intros s t ops es d0 d d1 d2 E V R V1 R1 V2 R2 SE Rm.
  destruct (dup_session_fits s t ops es d0 d d1 d2 E V R R1 R2 Rm SE) as (x & Ex).
  destruct (C106_document_and_duplicate s t ops es d0 d d1 d2 ltac:(lia) E V R V1 R1 V2 R2 SE) as [W|(a1 & a2 & s' & W & H1 & H2 & _)]; [congruence|].
  eauto 6.
Qed.
Print Assumptions C106_room_suffices.

(** A text that the parser rejects: no document and no duplicate (such a text:
    [C99_rejected_ex]). *)
Theorem C106_rejected_text : forall s t ops es, create_dom t = Ok None -> a_beg (m_arena s) <= a_end (m_arena s) ->
  (dup_session_in s t ops es = Ok None \/ dup_session_in s t ops es = Longjmp ArenaFull) /\
  (a_beg (m_arena s) + (1236 * Z.of_nat (length t) + 2746) <= a_end (m_arena s) -> dup_session_in s t ops es = Ok None).
Proof.
  intros s t ops es E I. unfold dup_session_in. destruct (C99_rejected_text s t ops E I) as [A R]. split.
  - destruct A as [->| ->]; [now left|now right].
  - intros Rm. rewrite (R Rm). reflexivity.
Qed.
Print Assumptions C106_rejected_text.

(** ** C107: "a duplicate can be edited like its original" is false: an edit that puts a first element
    into one of its empty tables (the first attribute, the first flag, the first child or
    the first sibling of the document) writes outside the memory of that table, whatever was done
    to both documents before. *)
Theorem C107_edit_duplicate_refuted : forall s t ops es d0 d d1 d2,
  a_beg (m_arena s) <= a_end (m_arena s) ->
  create_dom t = Ok (Some d0) -> all_valid ops d0 -> runs ops d0 = Ok d ->
  runs (mine false es) d = Ok d1 -> runs (mine true es) d = Ok d2 -> first_element d d2 ->
  dup_session_in s t ops es = Undef OobWrite \/ dup_session_in s t ops es = Longjmp ArenaFull.
Proof. exact dup_session_bad. Qed.
Print Assumptions C107_edit_duplicate_refuted.

(** With enough room it is not the arena that stops it. *)
Theorem C107_with_room_refuted : forall s t ops es d0 d d1 d2,
  create_dom t = Ok (Some d0) -> all_valid ops d0 -> runs ops d0 = Ok d ->
  runs (mine false es) d = Ok d1 -> runs (mine true es) d = Ok d2 -> first_element d d2 ->
  a_beg (m_arena s) + Z.of_nat (both_bytes t ops es d0 d d1 d2) <= a_end (m_arena s) ->
  dup_session_in s t ops es = Undef OobWrite.
Proof. intros s t ops es d0 d d1 d2 E V R R1 R2 FE Rm. exact (dup_session_fits_bad s t ops es d0 d d1 d2 E V R R1 R2 Rm FE). Qed.
Print Assumptions C107_with_room_refuted.

(** In particular: the first flag or the first attribute of a document that had none. *)
Theorem C107_first_flag_refuted : forall s t ops d0 d bl n b d2,
  a_beg (m_arena s) <= a_end (m_arena s) ->
  create_dom t = Ok (Some d0) -> all_valid ops d0 -> runs ops d0 = Ok d -> bprops d = [] ->
  run bl (AddBool n b) d = Ok d2 ->
  let r := dup_session_in s t ops [(true, (bl, AddBool n b))] in r = Undef OobWrite \/ r = Longjmp ArenaFull.
Proof.
  intros s t ops d0 d bl n b d2 I E V R Z R2 r.
  apply (C107_edit_duplicate_refuted s t ops _ d0 d d d2 I E V R); [reflexivity|cbn [mine map filter fst snd Bool.eqb runs]; rewrite R2; reflexivity|].
  exists 5%nat. split; [lia|]. cbn [table_len]. rewrite Z. split; [reflexivity|].
  cbn [run] in R2. unfold add_bool_property in R2. destruct (intern_bool b d) as [[bid d3]| | |]; try discriminate. cbn [bind] in R2.
  injection R2 as <-. cbn. rewrite app_length. cbn. lia.
Qed.
Print Assumptions C107_first_flag_refuted.
Theorem C107_first_attribute_refuted : forall s t ops d0 d bl n k v d2,
  a_beg (m_arena s) <= a_end (m_arena s) ->
  create_dom t = Ok (Some d0) -> all_valid ops d0 -> runs ops d0 = Ok d -> props d = [] ->
  run bl (AddProp n k v) d = Ok d2 ->
  let r := dup_session_in s t ops [(true, (bl, AddProp n k v))] in r = Undef OobWrite \/ r = Longjmp ArenaFull.
Proof.
  intros s t ops d0 d bl n k v d2 I E V R Z R2 r.
  apply (C107_edit_duplicate_refuted s t ops _ d0 d d d2 I E V R); [reflexivity|cbn [mine map filter fst snd Bool.eqb runs]; rewrite R2; reflexivity|].
  exists 6%nat. split; [lia|]. cbn [table_len]. rewrite Z. split; [reflexivity|].
  cbn [run] in R2. unfold add_property in R2. destruct (intern_key k d) as [[kid d3]| | |]; try discriminate. cbn [bind] in R2.
  destruct (intern_val v d3) as [[vid d4]| | |]; try discriminate. cbn [bind] in R2.
  injection R2 as <-. cbn. rewrite app_length. cbn. lia.
Qed.
Print Assumptions C107_first_attribute_refuted.

(** A document with all five tables; the original gets an attribute and loses a node, the
    duplicate gets a text and an element. *)
Definition u_src : bytes := B "<p a='v' c>x<b>y</b></p>z".
Definition u_es : list (bool * (bytes * op)) :=
  [(true, ([], AppendText 1 (B "more"))); (false, ([], SetProp 2 (B "a") (B "new"))); (true, ([], AppendHtml 2 (B "<i k=w>q</i>")));
   (false, ([], Remove 4)); (true, ([], SetProp 4 (B "k") (B "u")))].
Definition u_d : dom := Eval vm_compute in s_doc (create_dom u_src).
Definition u_peek (o : outcome (option ((dom * list darr) * (dom * list darr) * mem))) : list (list (outcome bytes)) :=
  match o with
  | Ok (Some ((_, a1), (_, a2), s)) =>
      map (fun a => map (fun k => get a k s) (seq 0 (d_len a))) (firstn 5 (skipn 2 a1) ++ firstn 5 (skipn 2 a2))
  | _ => []
  end.
Definition u_d1 : dom := Eval vm_compute in match runs (mine false u_es) u_d with Ok d => d | _ => empty_dom end.
Definition u_d2 : dom := Eval vm_compute in match runs (mine true u_es) u_d with Ok d => d | _ => empty_dom end.
Example C106_ex : create_dom u_src = Ok (Some u_d) /\
  runs (mine false u_es) u_d = Ok u_d1 /\ runs (mine true u_es) u_d = Ok u_d2 /\
  is_ok (dup_session_in (arena_of 60000) u_src [] u_es) = true /\ is_full (dup_session_in (arena_of 3000) u_src [] u_es) = true.
Proof. split; [|split; [|split; [|split]]]; vm_compute; reflexivity. Qed.
Example C106_room_ex : (Z.of_nat (both_bytes u_src [] u_es u_d u_d u_d1 u_d2) <=? 60000) = true.
Proof. vm_compute. reflexivity. Qed.
(** Every edit is valid, and no table is empty. *)
Example C106_valid_ex : all_valid (mine false u_es) u_d /\ all_valid (mine true u_es) u_d /\ still_empty u_d u_d2.
Proof.
  assert (K : forall d x, x <> 0%nat -> get_next x d = 0%nat -> sibs d x [x]).
  { intros d x Z H. apply sibs_cons; [exact Z|]. rewrite H. constructor. }
  split; [|split].
  - cbn [mine u_es map filter fst snd Bool.eqb all_valid].
    split; [vm_compute; lia|]. intros d1 H1. vm_compute in H1. injection H1 as <-.
    split; [|intros; exact I]. exists 2%nat, [3%nat; 4%nat]. split; [discriminate|]. split; [|right; now left].
    apply sibs_cons; [discriminate|]. apply K; [discriminate|reflexivity].
  - cbn [mine u_es map filter fst snd Bool.eqb all_valid].
    split; [vm_compute; lia|]. intros d1 H1. vm_compute in H1. injection H1 as <-.
    split. { split; [vm_compute; lia|]. intros d' H. vm_compute in H. injection H as <-. vm_compute. lia. }
    intros d2 H2. vm_compute in H2. injection H2 as <-.
    split; [vm_compute; lia|intros; exact I].
  - intros tab H. do 7 (destruct tab as [|tab]; [try lia; vm_compute; discriminate|]). lia.
Qed.
(** Its memory: first children, children, next siblings, flags, attributes of the original
    and then of the duplicate. *)
Example C106_peek : u_peek (dup_session_in (arena_of 60000) u_src [] u_es) = map (map Ok)
  [[[1; 0; 2; 0]; [2; 0; 3; 0]; [0; 0; 0; 0]];
   [[1; 0; 2; 0]; [2; 0; 3; 0]; [0; 0; 0; 0]; [0; 0; 0; 0]; [1; 0; 6; 0]];
   [[0; 0; 0; 0]; [2; 0; 6; 0]];
   [[2; 0; 1; 0]];
   [[2; 0; 1; 0; 2; 0]];
   [[1; 0; 2; 0]; [2; 0; 3; 0]; [4; 0; 5; 0]; [8; 0; 9; 0]];
   [[1; 0; 2; 0]; [2; 0; 3; 0]; [2; 0; 4; 0]; [4; 0; 5; 0]; [1; 0; 6; 0]; [8; 0; 9; 0]; [2; 0; 8; 0]];
   [[3; 0; 4; 0]; [2; 0; 6; 0]; [4; 0; 8; 0]];
   [[2; 0; 1; 0]];
   [[2; 0; 1; 0; 1; 0]; [8; 0; 2; 0; 2; 0]]]%N.
Proof. vm_compute. reflexivity. Qed.

(** A document without attributes or siblings. *)
Definition v_src : bytes := B "<p>x</p>".
Definition v_d : dom := Eval vm_compute in s_doc (create_dom v_src).
Example C107_ex : create_dom v_src = Ok (Some v_d) /\
  dup_session_in (arena_of 20000) v_src [] [(true, ([], AddBool 2 (B "c")))] = Undef OobWrite /\
  dup_session_in (arena_of 20000) v_src [] [(true, ([], AddProp 2 (B "k") (B "v")))] = Undef OobWrite /\
  dup_session_in (arena_of 20000) v_src [] [(true, ([], AppendHtml 1 (B "<b></b>")))] = Undef OobWrite /\
  is_ok (dup_session_in (arena_of 20000) v_src [] [(false, ([], AddBool 2 (B "c"))); (true, ([], SetText 3 (B "c")))]) = true.
Proof. split; [|split; [|split; [|split]]]; vm_compute; reflexivity. Qed.
Definition v_es : list (bool * (bytes * op)) := [(false, ([], SetText 3 (B "y"))); (true, ([], AddBool 2 (B "c")))].
Definition v_d1 : dom := Eval vm_compute in match runs (mine false v_es) v_d with Ok d => d | _ => empty_dom end.
Definition v_d2 : dom := Eval vm_compute in match runs (mine true v_es) v_d with Ok d => d | _ => empty_dom end.
Example C107_room_ex : runs (mine false v_es) v_d = Ok v_d1 /\ runs (mine true v_es) v_d = Ok v_d2 /\ first_element v_d v_d2 /\
  (Z.of_nat (both_bytes v_src [] v_es v_d v_d v_d1 v_d2) <=? 20000) = true /\
  dup_session_in (arena_of 20000) v_src [] v_es = Undef OobWrite.
Proof.
  split; [vm_compute; reflexivity|]. split; [vm_compute; reflexivity|].
  split; [exists 5%nat; split; [lia|]; split; vm_compute; [reflexivity|discriminate]|]. split; vm_compute; reflexivity.
Qed.
