(** * The life of a node: ids are never reused, a node keeps its kind until it
    is removed, and its name unless the name is set. *)
From Coq Require Import List NArith Arith Bool Lia.
From Verif Require Import Base TrieModel DomModel ParserModel EditModel ReadModel
     DomSpec ApiSpec Lemmas TrieProofs Tables Surgery RegProofs Grow.
Import ListNotations.
Local Open Scope nat_scope.

(** What may happen to one node; node [e] may get another name. *)
Definition aged' (e : option nat) (i : nat) (x x' : node) : Prop :=
  n_id x' = n_id x /\
  ((n_type x' = n_type x /\ (e <> Some i -> forall t, n_pay x = PTag t -> n_pay x' = PTag t)) \/ n_type x' = TRemoved).
Definition life (e : option nat) (d d' : dom) : Prop :=
  forall i x, nth_error (nodes d) i = Some x -> exists x', nth_error (nodes d') i = Some x' /\ aged' e i x x'.

Lemma life_same e d d' : nodes d' = nodes d -> life e d d'.
Proof. intros E i x H. exists x. rewrite E. split; auto. split; auto. Qed.
Lemma life_refl e d : life e d d.
Proof. now apply life_same. Qed.
Lemma life_trans e a b c : life e a b -> life e b c -> life e a c.
Proof.
  intros H K i x E. destruct (H i x E) as (y & Ey & I1 & H1). destruct (K i y Ey) as (z & Ez & I2 & H2).
  exists z. split; auto. split; [congruence|]. destruct H2 as [(T2 & P2)|T2]; [|auto].
  destruct H1 as [(T1 & P1)|T1]; [|right; congruence]. left. split; [congruence|]. auto.
Qed.
Lemma life_upd e d d' i x x' : nth_error (nodes d) i = Some x -> nodes d' = upd (nodes d) i x' -> aged' e i x x' -> life e d d'.
Proof.
  intros E N A j y Ey. rewrite N, upd_nth. destruct (Nat.eqb_spec j i) as [->|]; [|exists y; repeat split; auto].
  rewrite E. exists x'. split; auto. rewrite E in Ey. injection Ey as <-. exact A.
Qed.
Lemma life_push e d d' l : nodes d' = nodes d ++ l -> life e d d'.
Proof.
  intros N i x E. exists x. rewrite N, nth_error_app1 by (apply nth_error_Some; congruence). repeat split; auto.
Qed.
Ltac lf := first [apply life_same; reflexivity | apply life_refl].

(** Registries do not touch nodes. *)
Definition kn (d d' : dom) : Prop := nodes d' = nodes d.
Lemma k_add_property id k v d : okq (kn d) (add_property id k v d).
Proof.
  unfold add_property, intern_key, intern_val. rewrite bind_assoc.
  eapply okq_bind; [apply okq_any|]. intros [[a b] m] _. cbn [bind].
  rewrite bind_assoc. eapply okq_bind; [apply okq_any|]. intros [[a' b'] m'] _. reflexivity.
Qed.
Lemma k_add_bool id b d : okq (kn d) (add_bool_property id b d).
Proof.
  unfold add_bool_property, intern_bool. rewrite bind_assoc.
  eapply okq_bind; [apply okq_any|]. intros [[a c] m] _. reflexivity.
Qed.
Lemma k_attr_loop fuel t id : forall can i d,
  okq (fun '(_, _, d') => kn d d') (attr_loop fuel t id can i d).
Proof.
  induction fuel as [|f IH]; intros can i d; simpl; destruct (_ <? _); try (simpl; reflexivity).
  - eapply okq_bind; [apply okq_any|]. intros c _. destruct (_ =? _)%N; simpl; auto. reflexivity.
  - eapply okq_bind; [apply okq_any|]. intros c _. destruct (_ =? _)%N; [simpl; reflexivity|].
    eapply okq_bind with (P := fun '(_, _, d') => kn d d').
    + destruct (_ =? _)%N; [simpl; reflexivity|].
      destruct (negb _); [|simpl; reflexivity].
      eapply okq_bind; [apply okq_any|]. intros [key j] _. destruct (_ =? _)%N.
      * eapply okq_bind; [apply okq_any|]. intros [v j2] _.
        eapply okq_bind; [apply k_add_property|]. intros d1 H. exact H.
      * eapply okq_bind; [apply k_add_bool|]. intros d1 H. exact H.
    + intros [[can' i'] d'] H. eapply okq_bind; [apply okq_any|]. intros i'' _.
      eapply okq_imp; [apply IH|]. intros [[a b] d2] H2. unfold kn in *. congruence.
Qed.
Lemma k_set_pay d i p : okq (fun d' => exists x, nth_error (nodes d) i = Some x /\
  nodes d' = upd (nodes d) i (mkNode (n_id x) (n_type x) p)) (set_pay d i p).
Proof. unfold set_pay, get_node. destruct (nth_error (nodes d) i) eqn:E; simpl; auto. eauto. Qed.
Lemma k_set_tag tag id p d : okq (fun d' => exists x t, nth_error (nodes d) id = Some x /\
  nodes d' = upd (nodes d) id (mkNode (n_id x) (n_type x) (PTag t))) (set_tag tag id p d).
Proof.
  unfold set_tag. eapply okq_bind; [apply okq_any|]. intros [[ins tid] m] _. cbv zeta.
  eapply okq_imp; [apply k_set_pay|]. intros d' (x & E & N). exists x, tid. auto.
Qed.
Lemma k_create' ty d : okq (fun '(id, d') => id = length (nodes d) /\ exists x, nodes d' = nodes d ++ [x]) (create_node ty d).
Proof. unfold create_node. destruct (_ <=? _)%N; simpl; eauto. Qed.
Lemma upd_end {A} (l : list A) x y : upd (l ++ [x]) (length l) y = l ++ [y].
Proof. apply upd_last. Qed.

(** ** The parser *)
Section Life.
Context (e : option nat).
Notation life := (life e).

Lemma f_text_node t i tag d : okq (fun '(_, _, d') => life d d') (parse_text_node t i tag d).
Proof.
  unfold parse_text_node. eapply okq_bind; [apply k_create'|]. intros [id d1] (-> & x & H1).
  eapply okq_bind; [apply okq_any|]. intros [raw j] _.
  eapply okq_bind; [apply k_set_pay|]. intros d2 (y & E & H2). simpl.
  rewrite H1, upd_end in H2. eapply life_push; eauto.
Qed.
Lemma f_document_node t i ex d :
  okq (fun '(_, _, _, _, d') => life d d') (parse_document_node t i ex d).
Proof.
  unfold parse_document_node. eapply okq_bind; [apply k_create'|]. intros [id d1] (-> & x & H1).
  eapply okq_bind; [apply okq_any|]. intros j _. cbv zeta.
  eapply okq_bind; [apply okq_any|]. intros sl _.
  eapply okq_bind; [apply okq_any|]. intros [can size] _.
  eapply okq_bind; [apply okq_any|]. intros tag _.
  eapply okq_bind; [apply okq_any|]. intros j2 _.
  eapply okq_bind; [apply k_attr_loop|]. intros [[can2 j3] d2] H2.
  eapply okq_bind; [apply k_set_tag|]. intros d3 (y & tt & E & H3). simpl.
  unfold kn in H2. rewrite H2, H1, upd_end in H3. eapply life_push; eauto.
Qed.
Lemma f_update_refs n p s d : life d (update_refs n p s d).
Proof.
  unfold update_refs. destruct (_ && _); [|lf].
  destruct s as [|[q tg] s]; [lf|]. destruct (_ =? _); lf.
Qed.
Lemma f_step bl t st i prev s d : okq (fun '(_, d') => life d d') (parse_step bl t st i prev s d).
Proof.
  unfold parse_step. eapply okq_bind; [apply okq_any|]. intros c _.
  destruct (_ =? _)%N.
  - eapply okq_bind; [apply okq_any|]. intros [] _.
    { eapply okq_bind; [apply okq_any|]. intros j _. simpl. lf. }
    eapply okq_bind; [apply okq_any|]. intros tt _.
    eapply okq_bind; [apply okq_any|]. intros [] _.
    { set (x := if _ <? _ then _ else _). destruct x as [pv st'].
      eapply okq_bind; [apply okq_any|]. intros j _. simpl. lf. }
    cbv zeta. destruct (_ || _).
    + eapply okq_bind; [apply f_document_node|]. intros [[[[id can] tag] j] d1] H.
      assert (G : life d (update_refs id prev s d1))
        by (eapply life_trans; [exact H|apply f_update_refs]).
      destruct can; [destruct (_ <=? _)|]; exact G.
    + eapply okq_bind; [apply f_text_node|]. intros [[id j] d1] H. simpl.
      eapply life_trans; [exact H|apply f_update_refs].
  - eapply okq_bind; [apply f_text_node|]. intros [[id j] d1] H. simpl.
    eapply life_trans; [exact H|apply f_update_refs].
Qed.
Lemma f_loop fuel bl t st : forall i prev s d,
  okq (fun '(_, d') => life d d') (parse_loop fuel bl t st i prev s d).
Proof.
  induction fuel as [|f IH]; intros i prev s d; simpl; destruct (_ <? _);
    try (simpl; auto using life_refl; fail).
  eapply okq_bind; [apply f_step|]. intros [[[[j pv] s']|] d1] H; [|exact H].
  eapply okq_bind; [apply okq_any|]. intros j2 _. eapply okq_imp; [apply IH|].
  intros [b d2] H2. eapply life_trans; eauto.
Qed.
Lemma f_parse_extra bl t d : okq (fun '(_, d') => life d d') (parse_extra bl t d).
Proof. unfold parse_extra, parse. eapply okq_bind; [apply okq_any|]. intros i _. apply f_loop. Qed.

(** ** Editing *)
Lemma f_unlink id d : okq (life d) (unlink_node id d).
Proof.
  unfold unlink_node, get_node. destruct (nth_error (nodes d) id) as [n|] eqn:E; simpl; auto.
  set (d1 := match prev_idx (n_id n) d with Some _ => _ | None => d end).
  assert (E1 : kn d d1).
  { unfold d1. destruct (prev_idx _ d); [destruct (next_idx _ d)|]; reflexivity. }
  clearbody d1. eapply okq_bind with (P := kn d1).
  - destruct (parent_idx _ d); simpl; [|reflexivity].
    destruct (first_idx _ _); simpl; auto.
    destruct (_ =? _); [|simpl; reflexivity]. destruct (next_idx _ d); reflexivity.
  - intros d2 E2. simpl.
    eapply (life_upd e d _ id n (mkNode (n_id n) TRemoved (PTag 0))); [exact E| |split; [reflexivity|right; reflexivity]].
    unfold kn in *. destruct (next_idx _ d); cbn [nodes set_nodes set_nexts]; rewrite E2, E1; reflexivity.
Qed.
Lemma f_remove_f fuel : (forall id d, okq (life d) (remove_node_f fuel id d)) /\
  (forall id d, okq (life d) (remove_children_f fuel id d)).
Proof.
  induction fuel as [|f [IH1 IH2]]; split; intros id d; simpl; auto.
  - eapply okq_bind; [apply IH2|]. intros d1 E1. eapply okq_imp; [apply f_unlink|].
    intros d2 E2. eapply life_trans; eauto.
  - destruct (0 <? _); simpl; [|apply life_refl].
    eapply okq_bind; [apply IH1|]. intros d1 E1. eapply okq_imp; [apply IH2|].
    intros d2 E2. eapply life_trans; eauto.
Qed.
Lemma f_remove_node id d : okq (life d) (remove_node id d).
Proof. apply f_remove_f. Qed.
Lemma f_remove_children id d : okq (life d) (remove_children id d).
Proof. apply f_remove_f. Qed.
Lemma f_add_text n s a d : okq (life d) (add_text_to_text_node n s a d).
Proof.
  unfold add_text_to_text_node, get_node. destruct (nth_error (nodes d) n) as [x|] eqn:E; simpl; auto.
  unfold node_text. destruct (n_pay x) eqn:P; simpl; auto.
  unfold set_pay, get_node. rewrite E. simpl. eapply (life_upd e d _ n x); [exact E|reflexivity|].
  split; [reflexivity|]. left. split; [reflexivity|]. intros _ t' H. congruence.
Qed.
Lemma f_try_merge t s a d : okq (fun '(_, d') => life d d') (try_merge t s a d).
Proof.
  unfold try_merge. eapply okq_bind; [apply okq_any|]. intros n _.
  destruct (is_text n); [|simpl; apply life_refl].
  eapply okq_bind; [apply okq_any|]. intros m _.
  eapply okq_bind; [apply okq_any|]. intros tx _.
  eapply okq_bind with (P := life d); [apply f_add_text|intros; simpl; auto].
Qed.
Lemma f_connect fuel : forall p c d, okq (life d) (connect_others_loop fuel p c d).
Proof.
  induction fuel; intros p c d; simpl; destruct (0 <? c); simpl; auto; try apply life_refl.
  eapply okq_imp; [apply IHfuel|]. intros d2 E. eapply life_trans; [|exact E]. lf.
Qed.
Lemma f_append_refs p x d : okq (life d) (append_refs p x d).
Proof.
  unfold append_refs, connect_others. destruct (first_idx p d).
  - eapply okq_bind; [apply okq_any|]. intros l _. cbv zeta.
    eapply okq_imp; [apply f_connect|]. intros d2 E. eapply life_trans; [|exact E]. lf.
  - cbv zeta. eapply okq_imp; [apply f_connect|]. intros d2 E. eapply life_trans; [|exact E]. lf.
Qed.
Lemma f_prepend_refs p x d : okq (life d) (prepend_refs p x d).
Proof.
  unfold prepend_refs, connect_others. destruct (first_idx p d).
  - cbv zeta. eapply okq_bind; [apply okq_any|]. intros l _.
    eapply okq_imp; [apply f_connect|]. intros d2 E. eapply life_trans; [|exact E]. lf.
  - cbv zeta. eapply okq_imp; [apply f_connect|]. intros d2 E. eapply life_trans; [|exact E]. lf.
Qed.
Lemma k_connect fuel : forall p c d, okq (kn d) (connect_others_loop fuel p c d).
Proof.
  induction fuel; intros p c d; simpl; destruct (0 <? c); simpl; auto; try reflexivity.
  eapply okq_imp; [apply IHfuel|]. intros d2 E. exact E.
Qed.
Lemma f_replace_refs o x d : okq (life d) (replace_refs o x d).
Proof.
  unfold replace_refs, replace_others, get_node. destruct (nth_error (nodes d) o) as [n|] eqn:En; [|exact I]. cbn [bind].
  eapply okq_bind; [apply okq_any|]. intros l _. cbv zeta.
  set (d1 := match prev_idx o d with Some _ => _ | None => _ end).
  assert (E1 : kn d d1).
  { unfold d1. destruct (prev_idx o d); [reflexivity|].
    destruct (parent_idx o d) as [i|]; [destruct (first_idx _ d)|]; reflexivity. }
  clearbody d1. eapply okq_bind with (P := kn d1).
  - destruct (parent_idx o d); [|reflexivity].
    eapply okq_imp; [apply k_connect|]. intros d2 E. exact E.
  - intros d2 E2. simpl.
    eapply (life_upd e d _ o n (mkNode (n_id n) TRemoved (n_pay n))); [exact En| |split; [reflexivity|right; reflexivity]].
    unfold kn in *. destruct (next_idx o d); cbn [nodes set_nodes set_nexts]; rewrite E2, E1; reflexivity.
Qed.
Lemma f_text_element s d : okq (fun '(_, d') => life d d') (parse_text_element s d).
Proof.
  unfold parse_text_element. eapply okq_bind; [apply k_create'|]. intros [id d1] (-> & x & H).
  eapply okq_bind; [apply k_set_pay|]. intros d2 (y & E & H2). simpl. rewrite H, upd_end in H2. eapply life_push; eauto.
Qed.
Lemma k_add_bools id l : forall d, okq (kn d) (add_bools id l d).
Proof.
  induction l as [|b l IH]; intros d; simpl; [reflexivity|].
  eapply okq_bind; [apply k_add_bool|]. intros d1 H. eapply okq_imp; [apply IH|].
  intros d2 H2. unfold kn in *. congruence.
Qed.
Lemma k_add_props id l : forall d, okq (kn d) (add_props id l d).
Proof.
  induction l as [|[k v] l IH]; intros d; simpl; [reflexivity|].
  eapply okq_bind; [apply k_add_property|]. intros d1 H. eapply okq_imp; [apply IH|].
  intros d2 H2. unfold kn in *. congruence.
Qed.
Lemma f_document_element en d : okq (fun '(_, d') => life d d') (parse_document_element en d).
Proof.
  unfold parse_document_element. eapply okq_bind; [apply k_create'|]. intros [id d1] (-> & x & H1).
  eapply okq_bind; [apply k_set_tag|]. intros d2 (y & t & E & H2).
  eapply okq_bind; [apply k_add_bools|]. intros d3 H3.
  eapply okq_bind; [apply k_add_props|]. intros d4 H4. simpl.
  unfold kn in *. rewrite H1, upd_end in H2. eapply life_push. rewrite H4, H3. exact H2.
Qed.
Lemma f_try_both o x d : okq (fun '(_, d') => life d d') (try_merge_both o x d).
Proof.
  unfold try_merge_both. eapply okq_bind; [apply okq_any|]. intros n _.
  destruct (is_text n); [|simpl; apply life_refl].
  assert (Nx : forall d0, life d d0 -> okq (fun '(_, d') => life d d')
     match next_idx o d0 with
     | Some j => try_merge (snd (at_idx (nexts d0) j)) (n_id n) false d0
     | None => Ok (false, d0) end).
  { intros d0 G0. destruct (next_idx o d0); [|exact G0].
    eapply okq_imp; [apply f_try_merge|]. intros [b d1] H. eapply life_trans; eauto. }
  cbv zeta. destruct (prev_idx o d).
  - eapply okq_bind; [apply f_try_merge|]. intros [[] d1] H; [exact H|]. apply Nx. exact H.
  - apply Nx, life_refl.
Qed.

Definition fs (d : dom) {A} (x : A * dom) : Prop := life d (snd x).
Lemma fs_try d t s a d0 : life d d0 -> okq (fs d) (try_merge t s a d0).
Proof. intros. eapply okq_imp; [apply f_try_merge|]. intros [b d1] E. eapply life_trans; eauto. Qed.
Lemma fs_both d o x d0 : life d d0 -> okq (fs d) (try_merge_both o x d0).
Proof. intros. eapply okq_imp; [apply f_try_both|]. intros [b d1] E. eapply life_trans; eauto. Qed.
Lemma fr_remove d id d0 : life d d0 -> okq (life d) (remove_node id d0).
Proof. intros. eapply okq_imp; [apply f_remove_node|]. intros d1 E. eapply life_trans; eauto. Qed.
Lemma fr_append d p x d0 : life d d0 -> okq (life d) (append_refs p x d0).
Proof. intros. eapply okq_imp; [apply f_append_refs|]. intros d1 E. eapply life_trans; eauto. Qed.
Lemma fr_prepend d p x d0 : life d d0 -> okq (life d) (prepend_refs p x d0).
Proof. intros. eapply okq_imp; [apply f_prepend_refs|]. intros d1 E. eapply life_trans; eauto. Qed.
Lemma fr_replace d p x d0 : life d d0 -> okq (life d) (replace_refs p x d0).
Proof. intros. eapply okq_imp; [apply f_replace_refs|]. intros d1 E. eapply life_trans; eauto. Qed.

Ltac f_go :=
  repeat (cbv zeta; cbv beta in *; match goal with
  | |- okq _ (bind (try_merge _ _ _ ?d0) _) =>
      eapply okq_bind; [apply fs_try; eassumption|]; intros [? ?] ?; unfold fs in *; cbn [snd] in *
  | |- okq _ (bind (try_merge_both _ _ ?d0) _) =>
      eapply okq_bind; [apply fs_both; eassumption|]; intros [? ?] ?; unfold fs in *; cbn [snd] in *
  | |- okq _ (bind (remove_node _ _) _) =>
      eapply okq_bind; [apply fr_remove; eassumption|]; intros ? ?
  | |- okq _ (bind (append_refs _ _ _) _) =>
      eapply okq_bind; [apply fr_append; eassumption|]; intros ? ?
  | |- okq _ (bind (prepend_refs _ _ _) _) =>
      eapply okq_bind; [apply fr_prepend; eassumption|]; intros ? ?
  | |- okq _ (bind (replace_refs _ _ _) _) =>
      eapply okq_bind; [apply fr_replace; eassumption|]; intros ? ?
  | |- okq _ (bind (get_last_next _ _) _) => eapply okq_bind; [apply okq_any|]; intros ? _
  | |- okq _ (bind (get_node _ _) _) => eapply okq_bind; [apply okq_any|]; intros ? _
  | |- okq _ (remove_node _ _) => apply fr_remove; eassumption
  | |- okq _ (if ?b then _ else _) => destruct b
  | |- okq _ (match ?b with Some _ => _ | None => _ end) => destruct b
  | |- okq _ (Ok _) => unfold fs; cbn [okq snd]; assumption
  | |- okq _ (Undef _) => exact I
  end).

Lemma f_append_html bl p h d : okq (fs d) (append_html bl p h d).
Proof.
  unfold append_html. cbv zeta. eapply okq_bind; [apply f_parse_extra|]. intros [ok d1] H. f_go.
Qed.
Lemma f_prepend_html bl p h d : okq (fs d) (prepend_html bl p h d).
Proof.
  unfold prepend_html. cbv zeta. eapply okq_bind; [apply f_parse_extra|]. intros [ok d1] H. f_go.
Qed.
Lemma f_replace_html bl p h d : okq (fs d) (replace_with_html bl p h d).
Proof.
  unfold replace_with_html. cbv zeta. eapply okq_bind; [apply f_parse_extra|]. intros [ok d1] H.
  destruct (negb ok); [exact H|]. eapply okq_bind; [apply okq_any|]. intros ln _.
  destruct (_ <? ln).
  - eapply okq_bind; [apply okq_any|]. intros n _.
    eapply okq_bind with (P := fs d).
    { f_go. }
    intros [fn d2] H2. unfold fs in H2; cbn [snd] in H2.
    eapply okq_bind; [apply okq_any|]. intros n2 _.
    eapply okq_bind with (P := life d).
    { f_go. }
    intros d3 H3. f_go.
  - f_go.
Qed.

Lemma f_run bl o d : (forall n t p, o = SetTag n t p -> e = Some n) -> okq (life d) (run bl o d).
Proof.
  intros HE.
  assert (W : forall A (x : outcome (A * dom)), okq (fs d) x -> okq (life d) (let* '(_, d') := x in Ok d')).
  { intros A x H. eapply okq_bind; [exact H|]. intros [a d1] E. exact E. }
  assert (K : forall x, okq (kn d) x -> okq (life d) x).
  { intros x H. eapply okq_imp; [exact H|]. intros d1 E. now apply life_same. }
  destruct o; simpl; try apply W.
  - unfold append_document_node. eapply okq_bind; [apply f_document_element|]. intros [x d1] H. f_go.
  - unfold append_text_node. eapply okq_bind; [apply f_text_element|]. intros [x d1] H. f_go.
  - apply f_append_html.
  - unfold prepend_document_node. eapply okq_bind; [apply f_document_element|]. intros [x d1] H. f_go.
  - unfold prepend_text_node. eapply okq_bind; [apply f_text_element|]. intros [x d1] H. f_go.
  - apply f_prepend_html.
  - unfold replace_with_document_node. eapply okq_bind; [apply f_document_element|]. intros [x d1] H. f_go.
  - unfold replace_with_text_node. eapply okq_bind; [apply f_text_element|]. intros [x d1] H. f_go.
  - apply f_replace_html.
  - apply f_remove_node.
  - apply f_remove_children.
  - unfold set_text_content. eapply okq_bind; [apply f_remove_children|]. intros d1 H1.
    eapply okq_bind; [apply f_text_element|]. intros [x d2] H2. simpl.
    eapply life_trans; [exact H1|]. eapply life_trans; [exact H2|]. lf.
  - apply K, k_add_bool.
  - apply K, k_add_property.
  - unfold remove_bool_property. eapply okq_bind; [apply okq_any|]. intros bid _.
    destruct (0 <? bid); [|simpl; apply life_refl]. destruct (bprop_idx _ _ _); simpl; lf.
  - unfold remove_property. eapply okq_bind; [apply okq_any|]. intros bid _.
    destruct (0 <? bid); [|simpl; apply life_refl]. destruct (prop_idx _ _ _); simpl; lf.
  - unfold set_property_value. eapply okq_bind; [apply okq_any|]. intros kid _.
    destruct (kid =? 0); [simpl; apply life_refl|].
    destruct (prop_idx _ _ _); [|simpl; apply life_refl].
    unfold intern_val. rewrite bind_assoc. eapply okq_bind; [apply okq_any|]. intros [[ins vid] m] _. cbn [bind].
    destruct (nth_error _ _); simpl; auto. unfold fs. cbn [snd]. lf.
  - apply f_add_text.
  - specialize (HE _ _ _ eq_refl). eapply okq_imp; [apply k_set_tag|].
    intros d' (x & t & E & N). eapply (life_upd e d d' n x); eauto. split; [reflexivity|]. left. split; [reflexivity|].
    intros Q. now elim Q.
Qed.
End Life.

(** ** Histories *)
Lemma life_kind e d d' n : life e d d' -> n < length (nodes d) ->
  n < length (nodes d') /\ (kind d' n = kind d n \/ kind d' n = Some TRemoved).
Proof.
  intros H L. destruct (nth_error (nodes d) n) as [x|] eqn:E; [|apply nth_error_None in E; lia].
  destruct (H n x E) as (x' & E' & _ & A). split; [apply nth_error_Some; congruence|].
  unfold kind. rewrite E, E'. destruct A as [(T & _)|T]; [left|right]; congruence.
Qed.
Lemma life_tag e d d' n tag : RegInv d -> regs_ext d d' -> life e d d' -> e <> Some n ->
  tag_name d n = Some tag -> kind d' n = Some TDocument -> tag_name d' n = Some tag.
Proof.
  intros R ((y & X) & _) H Ne T K. unfold tag_name in *. unfold kind in K.
  destruct (nth_error (nodes d) n) as [[i ty pay]|] eqn:E; [|discriminate].
  destruct (H n _ E) as ([i' ty' pay'] & E' & _ & A). rewrite E' in *. simpl in K, A. injection K as ->.
  destruct ty; try discriminate. destruct pay as [t| |]; try discriminate.
  destruct A as [(_ & P)|A]; [|discriminate]. rewrite (P Ne t eq_refl). rewrite X.
  pose proof (ri_tags _ R n _ t E eq_refl) as Lt. now rewrite nth_error_app1 by exact Lt.
Qed.
