(** * The tables of first children and of next siblings never have more entries
    than there are nodes. *)
From Coq Require Import List NArith Arith Bool Lia.
From Verif Require Import Base Lemmas TrieModel DomModel ParserModel EditModel DomSpec ApiSpec Grow.
Import ListNotations.
Local Open Scope nat_scope.

Definition links (d : dom) : nat := length (firsts d) + length (nexts d).
(** [c] entries can still be added before there are as many entries as nodes. *)
Definition slack (c : nat) (d : dom) : Prop := links d + c <= length (nodes d).
Definition keep (d d' : dom) : Prop := links d' = links d /\ length (nodes d') = length (nodes d).

Lemma keep_refl d : keep d d.
Proof. split; reflexivity. Qed.
Lemma keep_trans a b c : keep a b -> keep b c -> keep a c.
Proof. unfold keep. lia. Qed.
Lemma keep_slack c d d' : keep d d' -> slack c d -> slack c d'.
Proof. unfold keep, slack. lia. Qed.
Lemma slack_le a b d : b <= a -> slack a d -> slack b d.
Proof. unfold slack. lia. Qed.
Ltac kp := unfold keep, links; simpl; rewrite ?upd_length; auto.

Definition made (d : dom) (id : nat) (d' : dom) : Prop :=
  id = length (nodes d) /\ links d' = links d /\ length (nodes d') = S (length (nodes d)).
Lemma made_keep d id a b : made d id a -> keep a b -> made d id b.
Proof. unfold made, keep. lia. Qed.
Lemma made_slack c d id d' : made d id d' -> slack c d -> slack (S c) d'.
Proof. unfold made, slack. lia. Qed.

Lemma l_create ty d : okq (fun '(id, d') => made d id d') (create_node ty d).
Proof. unfold create_node. destruct (_ <=? _)%N; simpl; auto. unfold made, links. simpl. rewrite app_length. simpl. lia. Qed.
Lemma l_set_pay d i p : okq (keep d) (set_pay d i p).
Proof. unfold set_pay, get_node. destruct (nth_error (nodes d) i); simpl; auto. kp. Qed.
Lemma l_intern_key s d : okq (fun '(_, d') => keep d d') (intern_key s d).
Proof. unfold intern_key. eapply okq_bind; [apply okq_any|]. intros [[ins id] m] _. simpl. kp. Qed.
Lemma l_intern_val s d : okq (fun '(_, d') => keep d d') (intern_val s d).
Proof. unfold intern_val. eapply okq_bind; [apply okq_any|]. intros [[ins id] m] _. simpl. kp. Qed.
Lemma l_intern_bool s d : okq (fun '(_, d') => keep d d') (intern_bool s d).
Proof. unfold intern_bool. eapply okq_bind; [apply okq_any|]. intros [[ins id] m] _. simpl. kp. Qed.
Lemma l_add_property id k v d : okq (keep d) (add_property id k v d).
Proof.
  unfold add_property. eapply okq_bind; [apply l_intern_key|]. intros [kid d1] H1.
  eapply okq_bind; [apply l_intern_val|]. intros [vid d2] H2. simpl.
  eapply keep_trans; [exact H1|]. eapply keep_trans; [exact H2|]. kp.
Qed.
Lemma l_add_bool id b d : okq (keep d) (add_bool_property id b d).
Proof.
  unfold add_bool_property. eapply okq_bind; [apply l_intern_bool|]. intros [bid d1] H1. simpl.
  eapply keep_trans; [exact H1|]. kp.
Qed.
Lemma l_set_tag tag id p d : okq (keep d) (set_tag tag id p d).
Proof.
  unfold set_tag. eapply okq_bind; [apply okq_any|]. intros [[ins tid] m] _. cbv zeta.
  eapply okq_imp; [apply l_set_pay|]. intros d' G. eapply keep_trans; [|exact G]. kp.
Qed.

(** ** The parser *)
Lemma l_text_node t i tag d : okq (fun '(id, _, d') => made d id d') (parse_text_node t i tag d).
Proof.
  unfold parse_text_node. eapply okq_bind; [apply l_create|]. intros [id d1] H1.
  eapply okq_bind; [apply okq_any|]. intros [raw j] _.
  eapply okq_bind; [apply l_set_pay|]. intros d2 H2. simpl. eapply made_keep; eauto.
Qed.
Lemma l_attr_loop fuel t id : forall can i d,
  okq (fun '(_, _, d') => keep d d') (attr_loop fuel t id can i d).
Proof.
  induction fuel as [|f IH]; intros can i d; simpl; destruct (_ <? _);
    try (simpl; apply keep_refl).
  - eapply okq_bind; [apply okq_any|]. intros c _. destruct (_ =? _)%N; simpl; auto. apply keep_refl.
  - eapply okq_bind; [apply okq_any|]. intros c _. destruct (_ =? _)%N; [simpl; apply keep_refl|].
    eapply okq_bind with (P := fun '(_, _, d') => keep d d').
    + destruct (_ =? _)%N; [simpl; apply keep_refl|].
      destruct (negb _); [|simpl; apply keep_refl].
      eapply okq_bind; [apply okq_any|]. intros [key j] _. destruct (_ =? _)%N.
      * eapply okq_bind; [apply okq_any|]. intros [v j2] _.
        eapply okq_bind; [apply l_add_property|]. intros d1 H. exact H.
      * eapply okq_bind; [apply l_add_bool|]. intros d1 H. exact H.
    + intros [[can' i'] d'] H. eapply okq_bind; [apply okq_any|]. intros i'' _.
      eapply okq_imp; [apply IH|]. intros [[a b] d2] H2. eapply keep_trans; eauto.
Qed.
Lemma l_document_node t i ex d :
  okq (fun '(id, _, _, _, d') => made d id d') (parse_document_node t i ex d).
Proof.
  unfold parse_document_node. eapply okq_bind; [apply l_create|]. intros [id d1] H1.
  eapply okq_bind; [apply okq_any|]. intros j _. cbv zeta.
  eapply okq_bind; [apply okq_any|]. intros sl _.
  eapply okq_bind; [apply okq_any|]. intros [can sz] _.
  eapply okq_bind; [apply okq_any|]. intros tag _.
  eapply okq_bind; [apply okq_any|]. intros j2 _.
  eapply okq_bind; [apply l_attr_loop|]. intros [[can2 j3] d2] H2.
  eapply okq_bind; [apply l_set_tag|]. intros d3 H3. simpl.
  eapply made_keep; [|exact H3]. eapply made_keep; eauto.
Qed.
Lemma l_update_refs n p s d : length (nodes (update_refs n p s d)) = length (nodes d) /\
  links (update_refs n p s d) <= S (links d) /\ (p = 0 -> links (update_refs n p s d) = links d).
Proof.
  unfold update_refs. destruct ((0 <? n) && (0 <? p)) eqn:E; [|auto].
  assert (p <> 0). { apply andb_prop in E as [_ E]. apply Nat.ltb_lt in E. lia. }
  split; [|split; [|tauto]]; destruct s as [|[q x] s]; try destruct (q =? p);
    unfold links; simpl; rewrite ?app_length; simpl; auto; lia.
Qed.

Definition gain (d d' : dom) : Prop := links d' + length (nodes d) <= links d + length (nodes d').
Definition gain1 (d d' : dom) : Prop := S (links d') + length (nodes d) <= links d + length (nodes d').
Lemma made_gain d id d1 prev s : made d id d1 -> gain d (update_refs id prev s d1) /\
  (prev = 0 -> gain1 d (update_refs id prev s d1)).
Proof.
  intros M. destruct (l_update_refs id prev s d1) as (A & B & C). unfold made, gain, gain1 in *. lia.
Qed.
Lemma l_step bl t st i prev s d : okq (fun '(r, d') => gain d d' /\ (prev = 0 -> s = [] -> gain1 d d' \/
    (d' = d /\ exists j, r = Some (j, 0, [])))) (parse_step bl t st i prev s d).
Proof.
  unfold parse_step. eapply okq_bind; [apply okq_any|]. intros c _.
  assert (G0 : gain d d) by (unfold gain; lia).
  assert (T : forall k tg, okq (fun '(r, d') => gain d d' /\ (prev = 0 -> s = [] -> gain1 d d' \/
    (d' = d /\ exists j, r = Some (j, 0, [])))) (let* '(id, j, d1) := parse_text_node t k tg d in Ok (Some (j, id, s), update_refs id prev s d1))).
  { intros k tg. eapply okq_bind; [apply l_text_node|]. intros [[id j] d1] H. simpl.
    destruct (made_gain _ _ _ prev s H). split; auto. }
  destruct (_ =? _)%N; [|apply T].
  eapply okq_bind; [apply okq_any|]. intros [] _.
  { eapply okq_bind; [apply okq_any|]. intros j _. simpl. split; [exact G0|]. intros -> ->. right. eauto. }
  eapply okq_bind; [apply okq_any|]. intros tt _.
  eapply okq_bind; [apply okq_any|]. intros [] _.
  { set (x := if _ <? _ then _ else _). destruct x as [pv st'] eqn:X.
    eapply okq_bind; [apply okq_any|]. intros j _. simpl. split; [exact G0|]. intros -> ->. right. split; [reflexivity|].
    unfold x in X. simpl in X. destruct (st <? 0); injection X as <- <-; eauto. }
  cbv zeta. destruct (_ || _); [|apply T].
  eapply okq_bind; [apply l_document_node|]. intros [[[[id can] tag] j] d1] H.
  destruct (made_gain _ _ _ prev s H).
  destruct can; [destruct (_ <=? _)|]; simpl; split; auto.
Qed.
Lemma gain_trans a b c : gain a b -> gain b c -> gain a c.
Proof. unfold gain. lia. Qed.
Lemma l_loop fuel bl t st : forall i prev s d,
  okq (fun '(_, d') => gain d d' /\ (prev = 0 -> s = [] -> d' = d \/ gain1 d d')) (parse_loop fuel bl t st i prev s d).
Proof.
  induction fuel as [|f IH]; intros i prev s d; cbn [parse_loop]; destruct (_ <? _);
    [exact I|cbn [okq]; split; [unfold gain; lia|auto]| |cbn [okq]; split; [unfold gain; lia|auto]].
  eapply okq_bind; [apply l_step|]. intros [[[[j pv] s']|] d1] [H1 H2].
  - eapply okq_bind; [apply okq_any|]. intros j2 _. eapply okq_imp; [apply IH|].
    intros [b d2] [A B]. split; [eapply gain_trans; eauto|]. intros P S.
    destruct (H2 P S) as [G|(-> & j' & [= _ -> ->])].
    + right. unfold gain, gain1 in *. lia.
    + destruct (B eq_refl eq_refl); auto.
  - simpl. split; [exact H1|]. intros P S. destruct (H2 P S) as [G|(-> & j' & Q)]; [auto|discriminate].
Qed.
Lemma l_parse bl t prev s d : okq (fun '(_, d') => gain d d' /\ (prev = 0 -> s = [] -> d' = d \/ gain1 d d')) (parse bl t prev s d).
Proof. unfold parse. eapply okq_bind; [apply okq_any|]. intros i _. apply l_loop. Qed.

(** ** Editing *)
Lemma l_unlink id d : okq (keep d) (unlink_node id d).
Proof.
  unfold unlink_node. eapply okq_bind; [apply okq_any|]. intros n _. cbv zeta.
  set (d1 := match prev_idx (n_id n) d with Some _ => _ | None => d end).
  assert (E1 : keep d d1).
  { unfold d1. destruct (prev_idx _ d); [destruct (next_idx _ d)|]; kp. }
  clearbody d1. eapply okq_bind with (P := keep d1).
  - destruct (parent_idx _ d); simpl; [|apply keep_refl].
    destruct (first_idx _ _); simpl; auto.
    destruct (_ =? _); [|simpl; kp]. destruct (next_idx _ d); simpl; kp.
  - intros d2 E2. simpl. apply (keep_trans _ _ _ E1). apply (keep_trans _ _ _ E2).
    destruct (next_idx _ d); kp.
Qed.
Lemma l_remove_f fuel : (forall id d, okq (keep d) (remove_node_f fuel id d)) /\
  (forall id d, okq (keep d) (remove_children_f fuel id d)).
Proof.
  induction fuel as [|f [IH1 IH2]]; split; intros id d; simpl; auto.
  - eapply okq_bind; [apply IH2|]. intros d1 E1. eapply okq_imp; [apply l_unlink|].
    intros d2 E2. eapply keep_trans; eauto.
  - destruct (0 <? _); simpl; [|apply keep_refl].
    eapply okq_bind; [apply IH1|]. intros d1 E1. eapply okq_imp; [apply IH2|].
    intros d2 E2. eapply keep_trans; eauto.
Qed.
Lemma l_remove_node id d : okq (keep d) (remove_node id d).
Proof. apply l_remove_f. Qed.
Lemma l_remove_children id d : okq (keep d) (remove_children id d).
Proof. apply l_remove_f. Qed.
Lemma l_try_merge t s a d : okq (fun '(_, d') => keep d d') (try_merge t s a d).
Proof.
  unfold try_merge. eapply okq_bind; [apply okq_any|]. intros n _.
  destruct (is_text n); [|simpl; apply keep_refl].
  eapply okq_bind; [apply okq_any|]. intros m _.
  eapply okq_bind; [apply okq_any|]. intros tx _.
  eapply okq_bind with (P := keep d); [|intros; simpl; auto].
  unfold add_text_to_text_node. eapply okq_bind; [apply okq_any|]. intros m' _.
  eapply okq_bind; [apply okq_any|]. intros tx' _. apply l_set_pay.
Qed.
Lemma l_connect fuel : forall p c d, okq (keep d) (connect_others_loop fuel p c d).
Proof.
  induction fuel; intros p c d; simpl; destruct (0 <? c); simpl; auto; try apply keep_refl.
  eapply okq_imp; [apply IHfuel|]. intros d2 E. eapply keep_trans; [|exact E]. kp.
Qed.
Lemma l_append_refs c p x d : slack (S c) d -> okq (slack c) (append_refs p x d).
Proof.
  intros S. unfold append_refs, connect_others. destruct (first_idx p d).
  - eapply okq_bind; [apply okq_any|]. intros l _. cbv zeta.
    eapply okq_imp; [apply l_connect|]. intros d2 E. eapply keep_slack; [exact E|].
    unfold slack, links in *. simpl. rewrite app_length. simpl. lia.
  - cbv zeta. eapply okq_imp; [apply l_connect|]. intros d2 E. eapply keep_slack; [exact E|].
    unfold slack, links in *. simpl. rewrite app_length. simpl. lia.
Qed.
Lemma l_prepend_refs c p x d : slack (S c) d -> okq (slack c) (prepend_refs p x d).
Proof.
  intros S. unfold prepend_refs, connect_others. destruct (first_idx p d).
  - cbv zeta. eapply okq_bind; [apply okq_any|]. intros l _.
    eapply okq_imp; [apply l_connect|]. intros d2 E. eapply keep_slack; [exact E|].
    unfold slack, links in *. simpl. rewrite app_length, upd_length. simpl. lia.
  - cbv zeta. eapply okq_imp; [apply l_connect|]. intros d2 E. eapply keep_slack; [exact E|].
    unfold slack, links in *. simpl. rewrite app_length. simpl. lia.
Qed.
Lemma l_replace_refs o x d : okq (keep d) (replace_refs o x d).
Proof.
  unfold replace_refs, replace_others. eapply okq_bind; [apply okq_any|]. intros n _.
  eapply okq_bind; [apply okq_any|]. intros l _. cbv zeta.
  set (d1 := match prev_idx o d with Some _ => _ | None => _ end).
  assert (E1 : keep d d1).
  { unfold d1. destruct (prev_idx o d); [kp|].
    destruct (parent_idx o d) as [i|]; [destruct (first_idx _ d)|]; kp. }
  clearbody d1. eapply okq_bind with (P := keep d1).
  - destruct (parent_idx o d); [|apply keep_refl].
    eapply okq_imp; [apply l_connect|]. intros d2 E. eapply keep_trans; [|exact E]. kp.
  - intros d2 E2. simpl. apply (keep_trans _ _ _ E1). apply (keep_trans _ _ _ E2).
    destruct (next_idx o d); kp.
Qed.
Lemma l_text_element s d : okq (fun '(id, d') => made d id d') (parse_text_element s d).
Proof.
  unfold parse_text_element. eapply okq_bind; [apply l_create|]. intros [id d1] H.
  eapply okq_bind; [apply l_set_pay|]. intros d2 E. simpl. eapply made_keep; eauto.
Qed.
Lemma l_add_bools id l : forall d, okq (keep d) (add_bools id l d).
Proof.
  induction l as [|b l IH]; intros d; simpl; [apply keep_refl|].
  eapply okq_bind; [apply l_add_bool|]. intros d1 H. eapply okq_imp; [apply IH|].
  intros d2 H2. eapply keep_trans; eauto.
Qed.
Lemma l_add_props id l : forall d, okq (keep d) (add_props id l d).
Proof.
  induction l as [|[k v] l IH]; intros d; simpl; [apply keep_refl|].
  eapply okq_bind; [apply l_add_property|]. intros d1 H. eapply okq_imp; [apply IH|].
  intros d2 H2. eapply keep_trans; eauto.
Qed.
Lemma l_document_element e d : okq (fun '(id, d') => made d id d') (parse_document_element e d).
Proof.
  unfold parse_document_element. eapply okq_bind; [apply l_create|]. intros [id d1] H1.
  eapply okq_bind; [apply l_set_tag|]. intros d2 H2.
  eapply okq_bind; [apply l_add_bools|]. intros d3 H3.
  eapply okq_bind; [apply l_add_props|]. intros d4 H4. simpl.
  do 3 (eapply made_keep; [|eassumption]). exact H1.
Qed.
Lemma l_try_both o x d : okq (fun '(_, d') => keep d d') (try_merge_both o x d).
Proof.
  unfold try_merge_both. eapply okq_bind; [apply okq_any|]. intros n _.
  destruct (is_text n); [|simpl; apply keep_refl].
  assert (N : forall d0, keep d d0 -> okq (fun '(_, d') => keep d d')
     match next_idx o d0 with
     | Some j => try_merge (snd (at_idx (nexts d0) j)) (n_id n) false d0
     | None => Ok (false, d0) end).
  { intros d0 G0. destruct (next_idx o d0); [|exact G0].
    eapply okq_imp; [apply l_try_merge|]. intros [b d1] H. eapply keep_trans; eauto. }
  cbv zeta. destruct (prev_idx o d).
  - eapply okq_bind; [apply l_try_merge|]. intros [[] d1] H; [exact H|]. apply N. exact H.
  - apply N, keep_refl.
Qed.

(** Straight-line code: the slack 3 is there until the new nodes are attached. *)
Definition sl {A} (x : A * dom) : Prop := slack 2 (snd x).
Lemma s_try t s a d : slack 3 d -> okq (fun '(_, d') => slack 3 d') (try_merge t s a d).
Proof. intros. eapply okq_imp; [apply l_try_merge|]. intros [b d1] E. eapply keep_slack; eauto. Qed.
Lemma s_both o x d : slack 3 d -> okq (fun '(_, d') => slack 3 d') (try_merge_both o x d).
Proof. intros. eapply okq_imp; [apply l_try_both|]. intros [b d1] E. eapply keep_slack; eauto. Qed.
Lemma s_remove id d : slack 3 d -> okq (slack 3) (remove_node id d).
Proof. intros. eapply okq_imp; [apply l_remove_node|]. intros d1 E. eapply keep_slack; eauto. Qed.
Lemma s_replace p x d : slack 3 d -> okq (slack 3) (replace_refs p x d).
Proof. intros. eapply okq_imp; [apply l_replace_refs|]. intros d1 E. eapply keep_slack; eauto. Qed.

Ltac s_go :=
  repeat (cbv zeta; cbv beta in *; match goal with
  | |- okq _ (bind (try_merge _ _ _ ?d0) _) =>
      eapply okq_bind; [apply s_try; eassumption|]; intros [? ?] ?
  | |- okq _ (bind (try_merge_both _ _ ?d0) _) =>
      eapply okq_bind; [apply s_both; eassumption|]; intros [? ?] ?
  | |- okq _ (bind (remove_node _ _) _) =>
      eapply okq_bind; [apply s_remove; eassumption|]; intros ? ?
  | |- okq _ (bind (append_refs _ _ _) _) =>
      eapply okq_bind; [apply (l_append_refs 2); eassumption|]; intros ? ?
  | |- okq _ (bind (prepend_refs _ _ _) _) =>
      eapply okq_bind; [apply (l_prepend_refs 2); eassumption|]; intros ? ?
  | |- okq _ (bind (replace_refs _ _ _) _) =>
      eapply okq_bind; [apply s_replace; eassumption|]; intros ? ?
  | |- okq _ (bind (get_last_next _ _) _) => eapply okq_bind; [apply okq_any|]; intros ? _
  | |- okq _ (bind (get_node _ _) _) => eapply okq_bind; [apply okq_any|]; intros ? _
  | |- okq _ (remove_node _ _) => apply s_remove; eassumption
  | |- okq _ (if ?b then _ else _) => destruct b
  | |- okq _ (match ?b with Some _ => _ | None => _ end) => destruct b
  | |- okq _ (Ok _) => unfold sl; cbn [okq snd]; first [assumption | eapply slack_le; [|eassumption]; lia]
  | |- okq _ (Undef _) => exact I
  end).

Lemma l_extra bl h d : has_nodes d bl h -> slack 2 d ->
  okq (fun '(ok, d') => if ok : bool then slack 3 d' else slack 2 d') (parse_extra (Some bl) h d).
Proof.
  intros V S. pose proof (l_parse (Some bl) h 0 [] d) as L. unfold parse_extra in *.
  specialize (V). unfold has_nodes, parse_extra in V.
  destruct (parse (Some bl) h 0 [] d) as [[[] d1]| | |]; simpl in *; auto.
  - specialize (V d1 eq_refl). destruct L as [_ L]. destruct (L eq_refl eq_refl) as [->|G]; [lia|].
    unfold slack, gain1 in *. lia.
  - destruct L as [L _]. unfold slack, gain in *. lia.
Qed.

Lemma l_run bl o d : valid d bl o -> slack 2 d -> okq (slack 2) (run bl o d).
Proof.
  intros V S.
  assert (W : forall A (x : outcome (A * dom)), okq sl x -> okq (slack 2) (let* '(_, d') := x in Ok d')).
  { intros A x H. eapply okq_bind; [exact H|]. intros [a d1] E. exact E. }
  assert (K : forall x, okq (keep d) x -> okq (slack 2) x).
  { intros x H. eapply okq_imp; [exact H|]. intros d1 E. eapply keep_slack; eauto. }
  destruct o; simpl; try apply W.
  - unfold append_document_node. eapply okq_bind; [apply l_document_element|]. intros [x d1] H.
    pose proof (made_slack _ _ _ _ H S). s_go.
  - unfold append_text_node. eapply okq_bind; [apply l_text_element|]. intros [x d1] H.
    pose proof (made_slack _ _ _ _ H S). s_go.
  - unfold append_html. cbv zeta. eapply okq_bind; [apply l_extra; [apply V|exact S]|]. intros [[] d1] H; cbn [negb]; s_go.
  - unfold prepend_document_node. eapply okq_bind; [apply l_document_element|]. intros [x d1] H.
    pose proof (made_slack _ _ _ _ H S). s_go.
  - unfold prepend_text_node. eapply okq_bind; [apply l_text_element|]. intros [x d1] H.
    pose proof (made_slack _ _ _ _ H S). s_go.
  - unfold prepend_html. cbv zeta. eapply okq_bind; [apply l_extra; [apply V|exact S]|]. intros [[] d1] H; cbn [negb]; s_go.
  - unfold replace_with_document_node. eapply okq_bind; [apply l_document_element|]. intros [x d1] H.
    pose proof (made_slack _ _ _ _ H S). s_go.
  - unfold replace_with_text_node. eapply okq_bind; [apply l_text_element|]. intros [x d1] H.
    pose proof (made_slack _ _ _ _ H S). s_go.
  - unfold replace_with_html. cbv zeta. eapply okq_bind; [apply l_extra; [apply V|exact S]|]. intros [[] d1] H; cbn [negb]; [|s_go].
    eapply okq_bind; [apply okq_any|]. intros ln _. destruct (_ <? ln).
    + eapply okq_bind; [apply okq_any|]. intros n' _.
      eapply okq_bind with (P := fun '(_, d') => slack 3 d').
      { s_go. }
      intros [fn d2] H2. eapply okq_bind; [apply okq_any|]. intros n2 _.
      eapply okq_bind with (P := slack 3).
      { s_go. }
      intros d3 H3. s_go.
    + s_go.
  - apply K, l_remove_node.
  - apply K, l_remove_children.
  - unfold set_text_content. eapply okq_bind; [apply l_remove_children|]. intros d1 H1.
    eapply okq_bind; [apply l_text_element|]. intros [x d2] H2. simpl.
    unfold slack, keep, made, links in *. simpl. rewrite app_length. simpl. lia.
  - apply K, l_add_bool.
  - apply K, l_add_property.
  - apply K. unfold remove_bool_property. eapply okq_bind; [apply okq_any|]. intros bid _.
    destruct (0 <? bid); [|simpl; apply keep_refl]. destruct (bprop_idx _ _ _); simpl; kp.
  - apply K. unfold remove_property. eapply okq_bind; [apply okq_any|]. intros bid _.
    destruct (0 <? bid); [|simpl; apply keep_refl]. destruct (prop_idx _ _ _); simpl; kp.
  - unfold set_property_value. eapply okq_bind; [apply okq_any|]. intros kid _.
    destruct (kid =? 0); [simpl; exact S|].
    destruct (prop_idx _ _ _); [|simpl; exact S].
    eapply okq_bind; [apply l_intern_val|]. intros [vid d1] H.
    destruct (nth_error (props d1) _); simpl; auto. unfold sl. cbn [snd]. eapply keep_slack; [|exact S].
    eapply keep_trans; [exact H|]. kp.
  - apply K. unfold add_text_to_text_node. eapply okq_bind; [apply okq_any|]. intros x _.
    eapply okq_bind; [apply okq_any|]. intros y _. apply l_set_pay.
  - apply K, l_set_tag.
Qed.

Lemma reachable_slack d : reachable d -> slack 2 d.
Proof.
  induction 1 as [t d E|d bl o d' R IH V E].
  - unfold create_dom, parse_root in E. apply bind_ok in E as ([ok d0] & E1 & E2).
    destruct ok; [|discriminate]. injection E2 as <-.
    pose proof (l_parse None t 1 [(1, [])] empty_dom) as G. rewrite E1 in G. destruct G as [G _].
    unfold slack, gain, links in *. cbn in G. lia.
  - pose proof (l_run bl o d V IH) as G. rewrite E in G. exact G.
Qed.
