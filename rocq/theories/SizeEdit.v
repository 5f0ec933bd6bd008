(** * An edit adds at most as many nodes as its text has bytes. *)
From Coq Require Import List NArith Arith Bool Lia.
From Verif Require Import Base TrieModel DomModel ParserModel EditModel DomSpec ApiSpec SizeSpec Lemmas Grow Size.
Import ListNotations.
Local Open Scope nat_scope.

Definition lk (d d' : dom) : Prop := length (nodes d') = length (nodes d).
Lemma lk_refl d : lk d d. Proof. reflexivity. Qed.
Lemma lk_trans a b c : lk a b -> lk b c -> lk a c. Proof. unfold lk. congruence. Qed.
Ltac lksame := unfold lk; cbn; rewrite ?upd_length; reflexivity.

Lemma l_set_pay d i p : okq (lk d) (set_pay d i p).
Proof. unfold set_pay, get_node. destruct (nth_error (nodes d) i); simpl; auto. lksame. Qed.
Lemma l_intern_key s d : okq (fun '(_, d') => lk d d') (intern_key s d).
Proof. unfold intern_key. eapply okq_bind; [apply okq_any|]. intros [[ins id] m] _. lksame. Qed.
Lemma l_intern_val s d : okq (fun '(_, d') => lk d d') (intern_val s d).
Proof. unfold intern_val. eapply okq_bind; [apply okq_any|]. intros [[ins id] m] _. lksame. Qed.
Lemma l_intern_bool s d : okq (fun '(_, d') => lk d d') (intern_bool s d).
Proof. unfold intern_bool. eapply okq_bind; [apply okq_any|]. intros [[ins id] m] _. lksame. Qed.
Lemma l_set_tag tag id p d : okq (lk d) (set_tag tag id p d).
Proof.
  unfold set_tag. eapply okq_bind; [apply okq_any|]. intros [[ins tid] m] _. cbv zeta.
  eapply okq_imp; [apply l_set_pay|]. intros d' G. exact G.
Qed.
Lemma l_add_property id k v d : okq (lk d) (add_property id k v d).
Proof.
  unfold add_property. eapply okq_bind; [apply l_intern_key|]. intros [kid d1] H1.
  eapply okq_bind; [apply l_intern_val|]. intros [vid d2] H2. simpl.
  eapply lk_trans; [exact H1|]. eapply lk_trans; [exact H2|]. lksame.
Qed.
Lemma l_add_bool id b d : okq (lk d) (add_bool_property id b d).
Proof.
  unfold add_bool_property. eapply okq_bind; [apply l_intern_bool|]. intros [bid d1] H1. simpl.
  eapply lk_trans; [exact H1|]. lksame.
Qed.
Lemma l_unlink id d : okq (lk d) (unlink_node id d).
Proof.
  unfold unlink_node. eapply okq_bind; [apply okq_any|]. intros n _. cbv zeta.
  set (d1 := match prev_idx (n_id n) d with Some _ => _ | None => d end).
  assert (E1 : lk d d1).
  { unfold d1. destruct (prev_idx _ d); [destruct (next_idx _ d)|]; lksame. }
  clearbody d1. eapply okq_bind with (P := lk d1).
  - destruct (parent_idx _ d); simpl; [|apply lk_refl].
    destruct (first_idx _ _); simpl; auto.
    destruct (_ =? _); [|simpl; lksame]. destruct (next_idx _ d); simpl; lksame.
  - intros d2 E2. simpl. apply (lk_trans _ _ _ E1). apply (lk_trans _ _ _ E2).
    destruct (next_idx _ d); lksame.
Qed.
Lemma l_remove_f fuel : (forall id d, okq (lk d) (remove_node_f fuel id d)) /\
  (forall id d, okq (lk d) (remove_children_f fuel id d)).
Proof.
  induction fuel as [|f [IH1 IH2]]; split; intros id d; simpl; auto.
  - eapply okq_bind; [apply IH2|]. intros d1 E1. eapply okq_imp; [apply l_unlink|].
    intros d2 E2. eapply lk_trans; eauto.
  - destruct (0 <? _); simpl; [|apply lk_refl].
    eapply okq_bind; [apply IH1|]. intros d1 E1. eapply okq_imp; [apply IH2|].
    intros d2 E2. eapply lk_trans; eauto.
Qed.
Lemma l_remove_node id d : okq (lk d) (remove_node id d).
Proof. apply l_remove_f. Qed.
Lemma l_remove_children id d : okq (lk d) (remove_children id d).
Proof. apply l_remove_f. Qed.
Lemma l_try_merge t s a d : okq (fun '(_, d') => lk d d') (try_merge t s a d).
Proof.
  unfold try_merge. eapply okq_bind; [apply okq_any|]. intros n _.
  destruct (is_text n); [|simpl; apply lk_refl].
  eapply okq_bind; [apply okq_any|]. intros m _.
  eapply okq_bind; [apply okq_any|]. intros tx _.
  eapply okq_bind with (P := lk d); [|intros; simpl; auto].
  unfold add_text_to_text_node. eapply okq_bind; [apply okq_any|]. intros m' _.
  eapply okq_bind; [apply okq_any|]. intros tx' _. apply l_set_pay.
Qed.
Lemma l_connect fuel : forall p c d, okq (lk d) (connect_others_loop fuel p c d).
Proof.
  induction fuel; intros p c d; simpl; destruct (0 <? c); simpl; auto; try apply lk_refl.
  eapply okq_imp; [apply IHfuel|]. intros d2 E. eapply lk_trans; [|exact E]. lksame.
Qed.
Lemma l_append_refs p x d : okq (lk d) (append_refs p x d).
Proof.
  unfold append_refs, connect_others. destruct (first_idx p d).
  - eapply okq_bind; [apply okq_any|]. intros l _. cbv zeta.
    eapply okq_imp; [apply l_connect|]. intros d2 E. eapply lk_trans; [|exact E]. lksame.
  - cbv zeta. eapply okq_imp; [apply l_connect|]. intros d2 E. eapply lk_trans; [|exact E]. lksame.
Qed.
Lemma l_prepend_refs p x d : okq (lk d) (prepend_refs p x d).
Proof.
  unfold prepend_refs, connect_others. destruct (first_idx p d).
  - cbv zeta. eapply okq_bind; [apply okq_any|]. intros l _.
    eapply okq_imp; [apply l_connect|]. intros d2 E. eapply lk_trans; [|exact E]. lksame.
  - cbv zeta. eapply okq_imp; [apply l_connect|]. intros d2 E. eapply lk_trans; [|exact E]. lksame.
Qed.
Lemma l_replace_refs o x d : okq (lk d) (replace_refs o x d).
Proof.
  unfold replace_refs, replace_others. eapply okq_bind; [apply okq_any|]. intros n _.
  eapply okq_bind; [apply okq_any|]. intros l _. cbv zeta.
  set (d1 := match prev_idx o d with Some _ => _ | None => _ end).
  assert (E1 : lk d d1).
  { unfold d1. destruct (prev_idx o d); [lksame|].
    destruct (parent_idx o d) as [i|]; [destruct (first_idx _ d)|]; lksame. }
  clearbody d1. eapply okq_bind with (P := lk d1).
  - destruct (parent_idx o d); [|apply lk_refl].
    eapply okq_imp; [apply l_connect|]. intros d2 E. eapply lk_trans; [|exact E]. lksame.
  - intros d2 E2. simpl. apply (lk_trans _ _ _ E1). apply (lk_trans _ _ _ E2).
    destruct (next_idx o d); lksame.
Qed.
Lemma l_add_bools id l : forall d, okq (lk d) (add_bools id l d).
Proof.
  induction l as [|b l IH]; intros d; simpl; [apply lk_refl|].
  eapply okq_bind; [apply l_add_bool|]. intros d1 H. eapply okq_imp; [apply IH|].
  intros d2 H2. eapply lk_trans; eauto.
Qed.
Lemma l_add_props id l : forall d, okq (lk d) (add_props id l d).
Proof.
  induction l as [|[k v] l IH]; intros d; simpl; [apply lk_refl|].
  eapply okq_bind; [apply l_add_property|]. intros d1 H. eapply okq_imp; [apply IH|].
  intros d2 H2. eapply lk_trans; eauto.
Qed.
Lemma l_try_both o x d : okq (fun '(_, d') => lk d d') (try_merge_both o x d).
Proof.
  unfold try_merge_both. eapply okq_bind; [apply okq_any|]. intros n _.
  destruct (is_text n); [|simpl; apply lk_refl].
  assert (N : forall d0, lk d d0 -> okq (fun '(_, d') => lk d d')
     match next_idx o d0 with
     | Some j => try_merge (snd (at_idx (nexts d0) j)) (n_id n) false d0
     | None => Ok (false, d0) end).
  { intros d0 G0. destruct (next_idx o d0); [|exact G0].
    eapply okq_imp; [apply l_try_merge|]. intros [b d1] H. eapply lk_trans; eauto. }
  cbv zeta. destruct (prev_idx o d).
  - eapply okq_bind; [apply l_try_merge|]. intros [[] d1] H; [exact H|]. apply N. exact H.
  - apply N, lk_refl.
Qed.

(** Straight-line code made of pieces that add no node. *)
Definition under (B : nat) (d : dom) : Prop := length (nodes d) <= B.
Definition us (B : nat) {A} (x : A * dom) : Prop := under B (snd x).
Lemma lk_under B d d' : under B d -> lk d d' -> under B d'.
Proof. unfold under, lk. lia. Qed.
Lemma us_try B t s a d0 : under B d0 -> okq (us B) (try_merge t s a d0).
Proof. intros. eapply okq_imp; [apply l_try_merge|]. intros [b d1] E. eapply lk_under; eauto. Qed.
Lemma us_both B o x d0 : under B d0 -> okq (us B) (try_merge_both o x d0).
Proof. intros. eapply okq_imp; [apply l_try_both|]. intros [b d1] E. eapply lk_under; eauto. Qed.
Lemma un_remove B id d0 : under B d0 -> okq (under B) (remove_node id d0).
Proof. intros. eapply okq_imp; [apply l_remove_node|]. intros d1 E. eapply lk_under; eauto. Qed.
Lemma un_append B p x d0 : under B d0 -> okq (under B) (append_refs p x d0).
Proof. intros. eapply okq_imp; [apply l_append_refs|]. intros d1 E. eapply lk_under; eauto. Qed.
Lemma un_prepend B p x d0 : under B d0 -> okq (under B) (prepend_refs p x d0).
Proof. intros. eapply okq_imp; [apply l_prepend_refs|]. intros d1 E. eapply lk_under; eauto. Qed.
Lemma un_replace B p x d0 : under B d0 -> okq (under B) (replace_refs p x d0).
Proof. intros. eapply okq_imp; [apply l_replace_refs|]. intros d1 E. eapply lk_under; eauto. Qed.

Ltac u_go :=
  repeat (cbv zeta; cbv beta in *; match goal with
  | |- okq _ (bind (try_merge _ _ _ ?d0) _) =>
      eapply okq_bind; [apply us_try; eassumption|]; intros [? ?] ?; unfold us in *; cbn [snd] in *
  | |- okq _ (bind (try_merge_both _ _ ?d0) _) =>
      eapply okq_bind; [apply us_both; eassumption|]; intros [? ?] ?; unfold us in *; cbn [snd] in *
  | |- okq _ (bind (remove_node _ _) _) =>
      eapply okq_bind; [apply un_remove; eassumption|]; intros ? ?
  | |- okq _ (bind (append_refs _ _ _) _) =>
      eapply okq_bind; [apply un_append; eassumption|]; intros ? ?
  | |- okq _ (bind (prepend_refs _ _ _) _) =>
      eapply okq_bind; [apply un_prepend; eassumption|]; intros ? ?
  | |- okq _ (bind (replace_refs _ _ _) _) =>
      eapply okq_bind; [apply un_replace; eassumption|]; intros ? ?
  | |- okq _ (bind (get_last_next _ _) _) => eapply okq_bind; [apply okq_any|]; intros ? _
  | |- okq _ (bind (get_node _ _) _) => eapply okq_bind; [apply okq_any|]; intros ? _
  | |- okq _ (remove_node _ _) => apply un_remove; eassumption
  | |- okq _ (if ?b then _ else _) => destruct b
  | |- okq _ (match ?b with Some _ => _ | None => _ end) => destruct b
  | |- okq _ (Ok _) => unfold us; cbn [okq snd]; assumption
  | |- okq _ (Undef _) => exact I
  end).


Lemma u_text_element s d : okq (fun '(_, d') => under (S (length (nodes d))) d') (parse_text_element s d).
Proof.
  unfold parse_text_element, create_node. destruct (_ <=? _)%N; [|exact I]. cbn [bind].
  eapply okq_bind; [apply l_set_pay|]. intros d2 E. unfold lk in E. cbn in *. unfold under. rewrite E, app_length. cbn. lia.
Qed.
Lemma u_document_element e d : okq (fun '(_, d') => under (S (length (nodes d))) d') (parse_document_element e d).
Proof.
  unfold parse_document_element, create_node. destruct (_ <=? _)%N; [|exact I]. cbn [bind].
  eapply okq_bind; [apply l_set_tag|]. intros d1 E1.
  eapply okq_bind; [apply l_add_bools|]. intros d2 E2.
  eapply okq_bind; [apply l_add_props|]. intros d3 E3. cbn. unfold lk, under in *. rewrite E3, E2, E1. cbn. rewrite app_length. cbn. lia.
Qed.
Lemma u_parse_extra bl t d : okq (us (length (nodes d) + length t)) (parse_extra bl t d).
Proof. eapply okq_imp; [apply sz_parse|]. intros [b d'] [H _ _ _ _ _ _ _ _]. exact H. Qed.

Lemma u_append_html bl p h d : okq (us (length (nodes d) + length h)) (append_html bl p h d).
Proof.
  unfold append_html. cbv zeta. eapply okq_bind; [apply u_parse_extra|]. intros [ok d1] H. unfold us in H; cbn [snd] in H. u_go.
Qed.
Lemma u_prepend_html bl p h d : okq (us (length (nodes d) + length h)) (prepend_html bl p h d).
Proof.
  unfold prepend_html. cbv zeta. eapply okq_bind; [apply u_parse_extra|]. intros [ok d1] H. unfold us in H; cbn [snd] in H. u_go.
Qed.
Lemma u_replace_html bl p h d : okq (us (length (nodes d) + length h)) (replace_with_html bl p h d).
Proof.
  unfold replace_with_html. cbv zeta. eapply okq_bind; [apply u_parse_extra|]. intros [ok d1] H. unfold us in H; cbn [snd] in H.
  destruct (negb ok); [exact H|]. eapply okq_bind; [apply okq_any|]. intros ln _.
  destruct (_ <? ln).
  - eapply okq_bind; [apply okq_any|]. intros n _.
    eapply okq_bind with (P := us (length (nodes d) + length h)).
    { u_go. }
    intros [fn d2] H2. unfold us in H2; cbn [snd] in H2.
    eapply okq_bind; [apply okq_any|]. intros n2 _.
    eapply okq_bind with (P := under (length (nodes d) + length h)).
    { u_go. }
    intros d3 H3. u_go.
  - u_go.
Qed.

Lemma u_run bl o d : okq (under (length (nodes d) + op_size o)) (run bl o d).
Proof.
  assert (W : forall A B (x : outcome (A * dom)), okq (us B) x -> okq (under B) (let* '(_, d') := x in Ok d')).
  { intros A B x H. eapply okq_bind; [exact H|]. intros [a d1] E. exact E. }
  assert (L : forall x, okq (lk d) x -> okq (under (length (nodes d) + 0)) x).
  { intros x H. eapply okq_imp; [exact H|]. unfold lk, under. lia. }
  assert (S1 : length (nodes d) + 1 = S (length (nodes d))) by lia.
  destruct o; cbn [run op_size]; rewrite ?S1; try apply W; try apply L.
  - unfold append_document_node. eapply okq_bind; [apply u_document_element|]. intros [x d1] H. u_go.
  - unfold append_text_node. eapply okq_bind; [apply u_text_element|]. intros [x d1] H. u_go.
  - apply u_append_html.
  - unfold prepend_document_node. eapply okq_bind; [apply u_document_element|]. intros [x d1] H. u_go.
  - unfold prepend_text_node. eapply okq_bind; [apply u_text_element|]. intros [x d1] H. u_go.
  - apply u_prepend_html.
  - unfold replace_with_document_node. eapply okq_bind; [apply u_document_element|]. intros [x d1] H. u_go.
  - unfold replace_with_text_node. eapply okq_bind; [apply u_text_element|]. intros [x d1] H. u_go.
  - apply u_replace_html.
  - apply l_remove_node.
  - apply l_remove_children.
  - unfold set_text_content. eapply okq_bind; [apply l_remove_children|]. intros d1 H1.
    eapply okq_bind; [apply u_text_element|]. intros [x d2] H2. cbn. unfold lk, under in *. cbn. lia.
  - apply l_add_bool.
  - apply l_add_property.
  - unfold remove_bool_property. eapply okq_bind; [apply okq_any|]. intros bid _.
    destruct (0 <? bid); [|simpl; apply lk_refl]. destruct (bprop_idx _ _ _); simpl; lksame.
  - unfold remove_property. eapply okq_bind; [apply okq_any|]. intros bid _.
    destruct (0 <? bid); [|simpl; apply lk_refl]. destruct (prop_idx _ _ _); simpl; lksame.
  - unfold set_property_value. eapply okq_bind; [apply okq_any|]. intros kid _.
    assert (R : okq (us (length (nodes d) + 0)) (Ok (false, d))) by (cbn; unfold us, under; cbn; lia).
    destruct (kid =? 0); [exact R|]. destruct (prop_idx _ _ _); [|exact R].
    eapply okq_bind; [apply l_intern_val|]. intros [vid d1] H. unfold lk in H.
    destruct (nth_error (props d1) _); simpl; auto. unfold us, under. cbn. lia.
  - unfold add_text_to_text_node. eapply okq_bind; [apply okq_any|]. intros x _.
    eapply okq_bind; [apply okq_any|]. intros y _. apply l_set_pay.
  - apply l_set_tag.
Qed.

Lemma u_create t d : create_dom t = Ok (Some d) -> grew (length t) empty_dom d.
Proof.
  intros E. unfold create_dom, parse_root in E. apply bind_ok in E as ([ok d0] & E1 & E2).
  destruct ok; [|discriminate]. injection E2 as <-.
  pose proof (sz_parse t None 1 [(1, [])] empty_dom) as G. rewrite E1 in G. exact G.
Qed.
