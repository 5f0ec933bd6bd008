(** * The memory of a parse (C95, C96). *)
From Coq Require Import String List NArith ZArith Arith Bool Lia.
From Verif Require Import Base DomModel ParserModel ApiSpec MemModel MemSpec MemProofs ArenaSpec TraceModel TraceProofs TraceMem TraceUser Examples.
Import ListNotations.
Local Open Scope Z_scope.

(** ** C95: parsing [n] bytes never runs out of an arena with room for 1236 n + 2746
    bytes, whatever the markup: if [createDom] has a result (a document or NULL), it has
    that result in the arena. *)
Theorem C95_room_suffices : forall t s r, create_dom t = Ok r ->
  a_beg (m_arena s) + (1236 * Z.of_nat (length t) + 2746) <= a_end (m_arena s) ->
  exists arrs s', create_dom_in s t = Ok (r, arrs, s').
Proof. exact create_in_fits. Qed.
Print Assumptions C95_room_suffices.

(** In a smaller arena the only other result is the jump for lack of memory. *)
Theorem C95_full_or_result : forall t s r, create_dom t = Ok r -> a_beg (m_arena s) <= a_end (m_arena s) ->
  create_dom_in s t = Longjmp ArenaFull \/ exists arrs s', create_dom_in s t = Ok (r, arrs, s').
Proof.
  intros t s r E I. unfold create_dom_in. pose proof (s_create_dom t) as S. destruct (t_create_dom t) as [l o] eqn:Et.
  cbn [snd] in S. subst o. rewrite E in Et. destruct (create_mem t l r Et) as (d & b & ex & _ & _ & A & _).
  pose proof (mruns_safe (a_beg (m_arena s)) _ s [] [] _ (ok_fresh s) A I) as W.
  destruct (mruns _ [] s) as [[ds s']| |[]|]; cbn in W; try contradiction; [|now left].
  right. cbn [bind]. rewrite E. cbn [bind]. eauto.
Qed.
Print Assumptions C95_full_or_result.

Definition arena_of (n : Z) : mem := mkMem (mkArena 4099 (4099 + n)) (fun _ => 170%N).
Definition is_ok {A} (o : outcome A) : bool := match o with Ok _ => true | _ => false end.
Definition is_full {A} (o : outcome A) : bool := match o with Longjmp ArenaFull => true | _ => false end.
(** Parsing a small document in an arena of that size, and in one that is too small. *)
Example C95_ex : let t := B "<p id='x' hidden>one<b>two</b> three</p>" in
  is_ok (create_dom t) = true /\ length t = 40%nat /\
  is_ok (create_dom_in (arena_of (1236 * 40 + 2746)) t) = true /\
  is_full (create_dom_in (arena_of 1000) t) = true.
Proof. cbv zeta. split; [|split; [|split]]; vm_compute; reflexivity. Qed.

(** ** C96: after a parse the arrays in the arena hold exactly the tables of the
    document - every link, every attribute, every node id and kind, every byte of every
    text - and nothing outside the arena has changed. *)
Theorem C96_tables_in_memory : forall t s d arrs s', a_beg (m_arena s) <= a_end (m_arena s) ->
  create_dom_in s t = Ok (Some d, arrs, s') ->
  create_dom t = Ok (Some d) /\
  nodes_at s' arrs 1 (nodes d) /\
  pairs_at s' arrs 2 (firsts d) /\ pairs_at s' arrs 3 (pchilds d) /\ pairs_at s' arrs 4 (nexts d) /\
  pairs_at s' arrs 5 (bprops d) /\ props_at s' arrs 6 (props d) /\
  count_at arrs 7 (length (tag_reg d)) /\ count_at arrs 8 (length (bool_reg d)) /\
  count_at arrs 9 (length (key_reg d)) /\ count_at arrs 10 (length (val_reg d)) /\
  Forall2 (text_at s') (text_buffers arrs) (all_texts d) /\
  forall a, a < a_beg (m_arena s) \/ a_end (m_arena s) <= a -> m_cont s' a = m_cont s a.
Proof.
  intros t s d arrs s' I E. destruct (create_in_shows t s _ arrs s' I E) as (Ec & d1 & b & ex & _ & R & Sh & Tx & Out).
  split; [exact Ec|]. destruct b; [|discriminate]. injection R as <-.
  destruct (reachable_fits d (reach_create t d Ec)) as [F1 F2 F3 F4 F5 F6].
  pose proof (texts_forall _ _ _ Sh) as TF.
  assert (TE : texts_in (cells (map nkey (nodes d)) (firsts d) (pchilds d) (nexts d) (bprops d) (props d)
     (length (tag_reg d)) (length (bool_reg d)) (length (key_reg d)) (length (val_reg d)) ex) = texts_in ex) by reflexivity.
  rewrite TE, Tx in TF. unfold cells in Sh.
  do 11 (let a := fresh "a" in let l := fresh "l" in let H := fresh "H" in
     inversion Sh as [|a ? l ? H Sh']; subst; clear Sh; rename Sh' into Sh).
  split; [eapply show_nodes; [reflexivity|eassumption|exact F1]|].
  split; [eapply show_pairs; [reflexivity|eassumption|exact F2]|].
  split; [eapply show_pairs; [reflexivity|eassumption|exact F3]|].
  split; [eapply show_pairs; [reflexivity|eassumption|exact F4]|].
  split; [eapply show_pairs; [reflexivity|eassumption|exact F5]|].
  split; [eapply show_props; [reflexivity|eassumption|exact F6]|].
  do 4 (split; [eexists; split; [reflexivity|]; match goal with H : shows_arr _ ?a (_, repeat _ ?n) |- d_len ?a = ?n =>
      destruct H as (_ & H & _); cbn in H; rewrite repeat_length in H; exact H end|]).
  split; [|exact Out].
  unfold all_texts. change (flat_map _ (nodes d)) with (ntexts (nodes d)).
  match goal with |- Forall2 _ ?l _ => revert TF; generalize l end. generalize (ntexts (nodes d)). clear.
  induction l as [|x l IH]; intros bufs TF; cbn [map] in TF; inversion TF; subst; constructor; auto.
  now apply show_text.
Qed.
Print Assumptions C96_tables_in_memory.


(** Bytes of the link tables and of the texts of a small document, read back. *)
Definition read_all (s : mem) (a : darr) : list (outcome bytes) := map (fun k => get a k s) (seq 0 (d_len a)).
Definition peek (o : outcome (option dom * list darr * mem)) : list (list (outcome bytes)) :=
  match o with
  | Ok (_, arrs, s) => map (fun i => match nth_error arrs i with Some a => read_all s a | None => [] end) [2; 3; 4; 5; 6]%nat
      ++ map (read_all s) (text_buffers arrs)
  | _ => []
  end.
Example C96_ex :
  is_ok (create_dom_in (arena_of 60000) (B "<p a='v'>x  y<b c></b></p>q")) = true /\
  peek (create_dom_in (arena_of 60000) (B "<p a='v'>x  y<b c></b></p>q")) =
  map (map Ok)
  [[[1; 0; 2; 0]; [2; 0; 3; 0]];                                   (* first children: 1-2, 2-3 *)
   [[1; 0; 2; 0]; [2; 0; 3; 0]; [2; 0; 4; 0]; [1; 0; 5; 0]];       (* parents *)
   [[3; 0; 4; 0]; [2; 0; 5; 0]];                                   (* next siblings *)
   [[4; 0; 1; 0]];                                                 (* node 4 has flag 1 *)
   [[2; 0; 1; 0; 1; 0]];                                           (* node 2, key 1, value 1 *)
   [[120]; [32]; [121]]; [[113]]]%N.                               (* "x y", "q" *)
Proof. split; vm_compute; reflexivity. Qed.
