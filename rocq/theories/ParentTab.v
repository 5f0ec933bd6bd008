(** * The parent table of a document that was never prepended to: one entry per child,
    none for removed nodes. *)
From Coq Require Import List NArith Arith Bool Lia.
From Verif Require Import Base TrieModel DomModel ParserModel EditModel DomSpec ApiSpec
  Lemmas TrieProofs Tables Inv Surgery Attach Replace RegProofs ParseTree Walk EditProofs Grow Zeroed.
Import ListNotations.
Local Open Scope nat_scope.

Definition once (l : list (nat * nat)) : Prop :=
  forall i j a a' b, b <> 0 -> nth_error l i = Some (a, b) -> nth_error l j = Some (a', b) -> i = j.
Definition nr (d d' : dom) : Prop := forall b, kind d' b = Some TRemoved -> kind d b = Some TRemoved.
Definition unheld (d : dom) : Prop :=
  forall a b, b <> 0 -> In (a, b) (pchilds d) -> kind d b <> Some TRemoved.
Definition ids (d : dom) : Prop := forall i n, nth_error (nodes d) i = Some n -> n_id n = i.
Record PT (d : dom) : Prop := { pt_once : once (pchilds d); pt_unheld : unheld d; pt_ids : ids d }.

Lemma nr_refl d : nr d d. Proof. intros b H. exact H. Qed.
Lemma nr_trans a b c : nr a b -> nr b c -> nr a c. Proof. intros H1 H2 x H. auto. Qed.
Lemma nr_nodes d d' : nodes d' = nodes d -> nr d d'.
Proof. intros E b. unfold kind. now rewrite E. Qed.

Lemma once_app l l' : once l -> NoDup (map snd l') -> (forall a a' b, In (a, b) l -> In (a', b) l' -> b = 0) ->
  once (l ++ l').
Proof.
  intros H N D i j a a' b B Ei Ej.
  destruct (lt_dec i (length l)) as [Li|Li]; destruct (lt_dec j (length l)) as [Lj|Lj].
  - rewrite nth_error_app1 in Ei, Ej by lia. eauto.
  - rewrite nth_error_app1 in Ei by lia. rewrite nth_error_app2 in Ej by lia. exfalso. apply B.
    eapply D; eapply nth_error_In; eauto.
  - rewrite nth_error_app1 in Ej by lia. rewrite nth_error_app2 in Ei by lia. exfalso. apply B.
    eapply D; eapply nth_error_In; eauto.
  - rewrite nth_error_app2 in Ei, Ej by lia.
    assert (i - length l = j - length l); [|lia].
    apply (map_nth_error snd) in Ei, Ej. cbn in Ei, Ej. rewrite <- Ej in Ei.
    eapply NoDup_nth_error in Ei; eauto. apply nth_error_Some. congruence.
Qed.
Lemma once_zer l l' : zer l l' -> once l -> once l'.
Proof.
  intros [_ Z] H i j a a' b B Ei Ej. apply Z in Ei as [Ei|Ei]; [congruence|]. apply Z in Ej as [Ej|Ej]; [congruence|]. eauto.
Qed.
Lemma PT_same d d' : pchilds d' = pchilds d -> nr d d' -> ids d' -> PT d -> PT d'.
Proof.
  intros E N I [H1 H2 _]. constructor; [now rewrite E| |exact I].
  intros a b B Hi K. rewrite E in Hi. exact (H2 a b B Hi (N b K)).
Qed.

(** ** Removing *)
Lemma ids_upd d i n : ids d -> n_id n = i -> ids (set_nodes d (upd (nodes d) i n)).
Proof.
  intros H E j m. cbn. rewrite upd_nth. destruct (Nat.eqb_spec j i) as [->|]; [|apply H].
  destruct (nth_error (nodes d) i); [|discriminate]. intros X. injection X as <-. exact E.
Qed.
Lemma unlink_shape id d : ids d ->
  okq (fun d' => pchilds d' = match parent_idx id d with None => pchilds d | Some i => upd (pchilds d) i (0, 0) end /\
                 nodes d' = upd (nodes d) id (mkNode id TRemoved (PTag 0))) (unlink_node id d).
Proof.
  intros I. unfold unlink_node, get_node. destruct (nth_error (nodes d) id) as [n|] eqn:E; simpl; auto.
  rewrite (I _ _ E).
  set (d1 := match prev_idx id d with Some _ => _ | None => d end).
  assert (E1 : pchilds d1 = pchilds d /\ nodes d1 = nodes d).
  { unfold d1. destruct (prev_idx _ d); [destruct (next_idx _ d)|]; auto. }
  clearbody d1. destruct E1 as [E1 E2].
  eapply okq_bind with (P := fun d2 => pchilds d2 = match parent_idx id d with None => pchilds d | Some i => upd (pchilds d) i (0, 0) end /\ nodes d2 = nodes d).
  - destruct (parent_idx _ d); simpl; [|auto].
    destruct (first_idx _ _); simpl; auto. rewrite E1.
    destruct (_ =? _); [|simpl; auto]. destruct (next_idx _ d); simpl; auto.
  - intros d2 [H1 H2]. destruct (next_idx _ d); simpl; rewrite H1, H2; auto.
Qed.
Lemma pt_unlink id d : PT d -> okq PT (unlink_node id d).
Proof.
  intros [O U I]. pose proof (unlink_shape id d I) as S. destruct (unlink_node id d) as [d'| | |]; cbn in *; auto.
  destruct S as [S1 S2].
  assert (NI : forall a b, b <> 0 -> In (a, b) (pchilds d') -> b <> id /\ In (a, b) (pchilds d)).
  { intros a b B Hi. rewrite S1 in Hi. unfold parent_idx in *. destruct (find_idx _ (pchilds d)) as [i|] eqn:F.
    - apply find_idx_some in F as ([x y] & Ex & Fx & _). cbn in Fx. apply Nat.eqb_eq in Fx. subst y.
      apply In_nth_error in Hi as [j Ej]. rewrite upd_nth in Ej. destruct (Nat.eqb_spec j i) as [Ej'|Nj].
      + subst j. rewrite Ex in Ej. congruence.
      + split; [|eapply nth_error_In; eauto]. intros Eb. apply Nj. rewrite Eb in Ej, B. exact (O _ _ _ _ _ B Ej Ex).
    - split; [|exact Hi]. rewrite find_idx_none in F. specialize (F _ Hi). cbn in F. apply Nat.eqb_neq in F. exact F. }
  constructor.
  - rewrite S1. destruct (parent_idx id d); [|exact O]. eapply once_zer; [apply zer_upd|exact O].
  - intros a b B Hi K. destruct (NI a b B Hi) as [Nb Hi']. apply (U a b B Hi'). unfold kind in *. rewrite S2, upd_nth_neq in K by auto. exact K.
  - intros i n. rewrite S2, upd_nth. destruct (Nat.eqb_spec i id) as [->|]; [|apply I].
    destruct (nth_error (nodes d) id); [|discriminate]. intros X. injection X as <-. reflexivity.
Qed.
Lemma pt_remove_f fuel : (forall id d, PT d -> okq PT (remove_node_f fuel id d)) /\
  (forall id d, PT d -> okq PT (remove_children_f fuel id d)).
Proof.
  induction fuel as [|f [IH1 IH2]]; split; intros id d H; simpl; auto.
  - eapply okq_bind; [apply IH2; exact H|]. intros d1 H1. apply pt_unlink. exact H1.
  - destruct (0 <? _); simpl; [|exact H]. eapply okq_bind; [apply IH1; exact H|]. intros d1 H1. apply IH2. exact H1.
Qed.
Lemma pt_remove id d : PT d -> okq PT (remove_node id d). Proof. apply pt_remove_f. Qed.
Lemma pt_remove_children id d : PT d -> okq PT (remove_children id d). Proof. apply pt_remove_f. Qed.

(** ** Steps that leave the parent table alone *)
Definition flat (d d' : dom) : Prop :=
  pchilds d' = pchilds d /\ length (nodes d') = length (nodes d) /\ nr d d' /\ (ids d -> ids d').
Lemma flat_refl d : flat d d. Proof. repeat split; auto using nr_refl. Qed.
Lemma flat_trans a b c : flat a b -> flat b c -> flat a c.
Proof. intros (A & B & C & D) (A' & B' & C' & D'). split; [congruence|]. split; [congruence|]. split; [eapply nr_trans; eauto|auto]. Qed.
Lemma flat_nodes d d' : pchilds d' = pchilds d -> nodes d' = nodes d -> flat d d'.
Proof. intros A B. split; auto. split; [congruence|]. split; [now apply nr_nodes|]. unfold ids. now rewrite B. Qed.
Lemma flat_PT d d' : flat d d' -> PT d -> PT d'.
Proof. intros (A & _ & C & D) H. eapply PT_same; eauto. apply D, H. Qed.

Lemma fl_set_pay d i p : okq (flat d) (set_pay d i p).
Proof.
  unfold set_pay, get_node. destruct (nth_error (nodes d) i) as [n|] eqn:E; simpl; auto.
  split; [reflexivity|]. split; [cbn; apply upd_length|]. split.
  - intros b. unfold kind. cbn. rewrite upd_nth. destruct (Nat.eqb_spec b i) as [->|]; auto. now rewrite E.
  - intros I j m. cbn. rewrite upd_nth. destruct (Nat.eqb_spec j i) as [->|]; [|apply I].
    rewrite E. intros X. injection X as <-. cbn. now apply I.
Qed.
Ltac fl_int := unfold intern_key, intern_val, intern_bool;
  eapply okq_bind; [apply okq_any|]; intros [[ins id] m] _; destruct ins; cbn; apply flat_nodes; reflexivity.
Lemma fl_key s d : okq (fun '(_, d') => flat d d') (intern_key s d). Proof. fl_int. Qed.
Lemma fl_val s d : okq (fun '(_, d') => flat d d') (intern_val s d). Proof. fl_int. Qed.
Lemma fl_bool s d : okq (fun '(_, d') => flat d d') (intern_bool s d). Proof. fl_int. Qed.
Lemma fl_add_property id k v d : okq (flat d) (add_property id k v d).
Proof.
  unfold add_property. eapply okq_bind; [apply fl_key|]. intros [x d1] H1. eapply okq_bind; [apply fl_val|].
  intros [y d2] H2. cbn. eapply flat_trans; [exact H1|]. eapply flat_trans; [exact H2|]. apply flat_nodes; reflexivity.
Qed.
Lemma fl_add_bool id b d : okq (flat d) (add_bool_property id b d).
Proof.
  unfold add_bool_property. eapply okq_bind; [apply fl_bool|]. intros [x d1] H1. cbn.
  eapply flat_trans; [exact H1|]. apply flat_nodes; reflexivity.
Qed.
Lemma fl_set_tag tag id p d : okq (flat d) (set_tag tag id p d).
Proof.
  unfold set_tag. eapply okq_bind; [apply okq_any|]. intros [[ins tid] m] _.
  destruct ins; (eapply okq_imp; [apply fl_set_pay|]; intros d1 H; eapply flat_trans; [|exact H]; apply flat_nodes; reflexivity).
Qed.
Lemma fl_try_merge t s a d : okq (fun '(_, d') => flat d d') (try_merge t s a d).
Proof.
  unfold try_merge. eapply okq_bind; [apply okq_any|]. intros n _. destruct (is_text n); [|cbn; apply flat_refl].
  eapply okq_bind; [apply okq_any|]. intros m _. eapply okq_bind; [apply okq_any|]. intros x _.
  eapply okq_bind with (P := flat d); [|intros d1 H; exact H]. unfold add_text_to_text_node.
  eapply okq_bind; [apply okq_any|]. intros n' _. eapply okq_bind; [apply okq_any|]. intros x' _. apply fl_set_pay.
Qed.
Lemma fl_try_both o x d : okq (fun '(_, d') => flat d d') (try_merge_both o x d).
Proof.
  unfold try_merge_both. eapply okq_bind; [apply okq_any|]. intros n _. destruct (is_text n); [|cbn; apply flat_refl].
  assert (N : forall d0, flat d d0 -> okq (fun '(_, d') => flat d d')
     (match next_idx o d0 with Some j => try_merge (snd (at_idx (nexts d0) j)) (n_id n) false d0 | None => Ok (false, d0) end)).
  { intros d0 H0. destruct (next_idx o d0); [|exact H0]. eapply okq_imp; [apply fl_try_merge|]. intros [b d1] H1. eapply flat_trans; eauto. }
  destruct (prev_idx o d); [|apply N, flat_refl].
  eapply okq_bind; [apply fl_try_merge|]. intros [b d1] H1. destruct b; [exact H1|]. apply N. exact H1.
Qed.
Lemma fl_add_bools id l : forall d, okq (flat d) (add_bools id l d).
Proof.
  induction l as [|b l IH]; intros d; cbn; [apply flat_refl|]. eapply okq_bind; [apply fl_add_bool|]. intros d1 H1.
  eapply okq_imp; [apply IH|]. intros d2 H2. eapply flat_trans; eauto.
Qed.
Lemma fl_add_props id l : forall d, okq (flat d) (add_props id l d).
Proof.
  induction l as [|[k v] l IH]; intros d; cbn; [apply flat_refl|]. eapply okq_bind; [apply fl_add_property|]. intros d1 H1.
  eapply okq_imp; [apply IH|]. intros d2 H2. eapply flat_trans; eauto.
Qed.

(** ** A new node *)
Definition one (x : nat) (d d' : dom) : Prop :=
  x = length (nodes d) /\ length (nodes d') = S x /\ pchilds d' = pchilds d /\ nr d d' /\ (ids d -> ids d').
Lemma one_flat x a b c : one x a b -> flat b c -> one x a c.
Proof. intros (A & B & C & D & E) (A' & B' & C' & D'). repeat split; auto; try congruence. eapply nr_trans; eauto. Qed.
Lemma on_create ty d : ty <> TRemoved -> okq (fun '(id, d') => one id d d') (create_node ty d).
Proof.
  intros T. unfold create_node. destruct (_ <=? _)%N; cbn; auto. split; [reflexivity|]. cbn. rewrite app_length. cbn.
  split; [lia|]. split; [reflexivity|]. split.
  - intros b. unfold kind. cbn. destruct (lt_dec b (length (nodes d))) as [L|L]; [now rewrite nth_error_app1 by lia|].
    rewrite nth_error_app2 by lia. destruct (b - length (nodes d)) as [|[|]]; cbn; congruence.
  - intros I i n. cbn. destruct (lt_dec i (length (nodes d))) as [L|L]; [rewrite nth_error_app1 by lia; apply I|].
    rewrite nth_error_app2 by lia. destruct (i - length (nodes d)) as [|[|]] eqn:E; cbn; try discriminate.
    intros X. injection X as <-. cbn. lia.
Qed.
Lemma on_text_node t i tag d : okq (fun '(id, _, d') => one id d d') (parse_text_node t i tag d).
Proof.
  unfold parse_text_node. eapply okq_bind; [apply on_create; discriminate|]. intros [id d1] H1.
  eapply okq_bind; [apply okq_any|]. intros [raw j] _. eapply okq_bind; [apply fl_set_pay|]. intros d2 H2. cbn.
  eapply one_flat; eauto.
Qed.
Lemma fl_attr_loop fuel t id : forall can i d, okq (fun '(_, _, d') => flat d d') (attr_loop fuel t id can i d).
Proof.
  induction fuel as [|f IH]; intros can i d; simpl; destruct (_ <? _); try (simpl; apply flat_refl).
  - eapply okq_bind; [apply okq_any|]. intros c _. destruct (_ =? _)%N; simpl; auto. apply flat_refl.
  - eapply okq_bind; [apply okq_any|]. intros c _. destruct (_ =? _)%N; [simpl; apply flat_refl|].
    eapply okq_bind with (P := fun '(_, _, d') => flat d d').
    + destruct (_ =? _)%N; [simpl; apply flat_refl|].
      destruct (negb _); [|simpl; apply flat_refl].
      eapply okq_bind; [apply okq_any|]. intros [key j] _. destruct (_ =? _)%N.
      * eapply okq_bind; [apply okq_any|]. intros [v j2] _.
        eapply okq_bind; [apply fl_add_property|]. intros d1 H. exact H.
      * eapply okq_bind; [apply fl_add_bool|]. intros d1 H. exact H.
    + intros [[can' i'] d'] H. eapply okq_bind; [apply okq_any|]. intros i'' _.
      eapply okq_imp; [apply IH|]. intros [[a b] d2] H2. eapply flat_trans; eauto.
Qed.
Lemma on_document_node t i ex d : okq (fun '(id, _, _, _, d') => one id d d') (parse_document_node t i ex d).
Proof.
  unfold parse_document_node. eapply okq_bind; [apply on_create; discriminate|]. intros [id d1] H1.
  eapply okq_bind; [apply okq_any|]. intros j _. cbv zeta.
  eapply okq_bind; [apply okq_any|]. intros sl _.
  eapply okq_bind; [apply okq_any|]. intros [can size] _.
  eapply okq_bind; [apply okq_any|]. intros tag _.
  eapply okq_bind; [apply okq_any|]. intros j2 _.
  eapply okq_bind; [apply fl_attr_loop|]. intros [[can2 j3] d2] H2.
  eapply okq_bind; [apply fl_set_tag|]. intros d3 H3. simpl.
  eapply one_flat; [|exact H3]. eapply one_flat; [exact H1|exact H2].
Qed.
Lemma on_text_element s d : okq (fun '(id, d') => one id d d') (parse_text_element s d).
Proof.
  unfold parse_text_element. eapply okq_bind; [apply on_create; discriminate|]. intros [id d1] H1.
  eapply okq_bind; [apply fl_set_pay|]. intros d2 H2. cbn. eapply one_flat; eauto.
Qed.
Lemma on_document_element e d : okq (fun '(id, d') => one id d d') (parse_document_element e d).
Proof.
  unfold parse_document_element. eapply okq_bind; [apply on_create; discriminate|]. intros [id d1] H1.
  eapply okq_bind; [apply fl_set_tag|]. intros d2 H2.
  eapply okq_bind; [apply fl_add_bools|]. intros d3 H3.
  eapply okq_bind; [apply fl_add_props|]. intros d4 H4. cbn.
  eapply one_flat; [|exact H4]. eapply one_flat; [|exact H3]. eapply one_flat; eauto.
Qed.
Lemma one_PT x d d' : one x d d' -> PT d -> PT d'.
Proof. intros (_ & _ & A & B & C) H. eapply PT_same; eauto. apply C, H. Qed.

(** ** Parsing: the new entries have new, different children *)
Definition pp (d d' : dom) : Prop :=
  length (nodes d) <= length (nodes d') /\ nr d d' /\ (ids d -> ids d') /\
  exists l, pchilds d' = pchilds d ++ l /\ NoDup (map snd l) /\
    forall e, In e l -> length (nodes d) <= snd e < length (nodes d').
Lemma pp_refl d : pp d d.
Proof. split; auto. split; [apply nr_refl|]. split; auto. exists []. rewrite app_nil_r. cbn. split; auto. split; [constructor|contradiction]. Qed.
Lemma pp_trans a b c : pp a b -> pp b c -> pp a c.
Proof.
  intros (A1 & A2 & A3 & l & A4 & A5 & A6) (B1 & B2 & B3 & m & B4 & B5 & B6).
  split; [lia|]. split; [eapply nr_trans; eauto|]. split; [auto|]. exists (l ++ m).
  split; [rewrite B4, A4; symmetry; apply app_assoc|]. split.
  - rewrite map_app. apply nodup_app; auto. intros x Hx Hy. apply in_map_iff in Hx as (e & <- & He).
    apply in_map_iff in Hy as (e' & Ee & He'). specialize (A6 _ He). specialize (B6 _ He'). lia.
  - intros e He. apply in_app_or in He as [He|He]; [specialize (A6 _ He)|specialize (B6 _ He)]; lia.
Qed.
Lemma pp_refs x prev s d d1 : one x d d1 -> pp d (update_refs x prev s d1).
Proof.
  intros (A & B & C & D & E). unfold update_refs.
  assert (P : forall d2, nodes d2 = nodes d1 -> (pchilds d2 = pchilds d \/ exists q, pchilds d2 = pchilds d ++ [(q, x)]) -> pp d d2).
  { intros d2 N P. split; [rewrite N; lia|]. split; [eapply nr_trans; [exact D|now apply nr_nodes]|].
    split; [intros I; unfold ids; rewrite N; exact (E I)|]. destruct P as [P|[q P]].
    - exists []. rewrite P, app_nil_r. cbn. split; auto. split; [constructor|contradiction].
    - exists [(q, x)]. split; [exact P|]. cbn. split; [repeat constructor; auto|]. intros e [<-|[]]. cbn. rewrite N. lia. }
  destruct (_ && _); [|apply P; auto].
  destruct s as [|[q tg] s]; [apply P; cbn; auto|].
  destruct (_ =? _); apply P; auto; right; exists q; cbn; now rewrite C.
Qed.
Lemma pp_step bl t st i prev s d : okq (fun '(_, d') => pp d d') (parse_step bl t st i prev s d).
Proof.
  unfold parse_step. eapply okq_bind; [apply okq_any|]. intros c _.
  destruct (_ =? _)%N.
  - eapply okq_bind; [apply okq_any|]. intros [] _.
    { eapply okq_bind; [apply okq_any|]. intros j _. simpl. apply pp_refl. }
    eapply okq_bind; [apply okq_any|]. intros tt _.
    eapply okq_bind; [apply okq_any|]. intros [] _.
    { set (x := if _ <? _ then _ else _). destruct x as [pv st'].
      eapply okq_bind; [apply okq_any|]. intros j _. simpl. apply pp_refl. }
    cbv zeta. destruct (_ || _).
    + eapply okq_bind; [apply on_document_node|]. intros [[[[id can] tag] j] d1] H.
      pose proof (pp_refs id prev s d d1 H) as G.
      destruct can; [destruct (_ <=? _)|]; exact G.
    + eapply okq_bind; [apply on_text_node|]. intros [[id j] d1] H. simpl. now apply pp_refs.
  - eapply okq_bind; [apply on_text_node|]. intros [[id j] d1] H. simpl. now apply pp_refs.
Qed.
Lemma pp_loop fuel bl t st : forall i prev s d, okq (fun '(_, d') => pp d d') (parse_loop fuel bl t st i prev s d).
Proof.
  induction fuel as [|f IH]; intros i prev s d; simpl; destruct (_ <? _);
    try (simpl; auto using pp_refl; fail).
  eapply okq_bind; [apply pp_step|]. intros [[[[j pv] s']|] d1] H; [|exact H].
  eapply okq_bind; [apply okq_any|]. intros j2 _. eapply okq_imp; [apply IH|].
  intros [b d2] H2. eapply pp_trans; eauto.
Qed.
Lemma pp_parse_extra bl t d : okq (fun '(_, d') => pp d d') (parse_extra bl t d).
Proof. unfold parse_extra, parse. eapply okq_bind; [apply okq_any|]. intros i _. apply pp_loop. Qed.
Lemma pp_PT d d' : (forall a b, In (a, b) (pchilds d) -> b < length (nodes d)) -> pp d d' -> PT d -> PT d'.
Proof.
  intros Bd (A & B & C & l & E & N & R) [O U I]. constructor; [| |now apply C].
  - rewrite E. apply once_app; auto. intros a a' b H1 H2. apply Bd in H1. apply R in H2. cbn in H2. lia.
  - intros a b Hb Hi K. apply B in K. rewrite E in Hi. apply in_app_or in Hi as [Hi|Hi]; [exact (U a b Hb Hi K)|].
    apply R in Hi. cbn in Hi. unfold kind in K. destruct (nth_error (nodes d) b) eqn:En; [|discriminate].
    assert (b < length (nodes d)) by (apply nth_error_Some; congruence). lia.
Qed.

(** ** Attaching *)
Lemma live_not_removed d k q c : Good d k -> In c (k q) -> kind d c <> Some TRemoved.
Proof.
  intros G H K. unfold kind in K. destruct (nth_error (nodes d) c) as [n|] eqn:E; [|discriminate].
  pose proof (ty_kids _ _ (g_ty _ _ G) _ _ _ H E) as L. injection K as K. unfold is_live in L. rewrite K in L. intuition discriminate.
Qed.
Lemma map_snd_pair (p : nat) (l : list nat) : map snd (map (pair p) l) = l.
Proof. rewrite map_map. cbn. apply map_id. Qed.
Lemma Good_PTb d k : Good d k -> forall a b, In (a, b) (pchilds d) -> b < length (nodes d).
Proof.
  intros G a b H. apply (pc_nz _ _ _ (inv_pchild _ _ (g_inv _ _ G))) in H.
  pose proof (inv_len _ _ (g_inv _ _ G)). lia.
Qed.
Lemma pt_append d k p f new rest d2 : Good d k -> k (Flo f) = new :: rest -> (forall c, In c (new :: rest) -> 1 <= p < c) ->
  PT d -> append_refs p new d = Ok d2 -> PT d2.
Proof.
  intros G E Hp [O U I] E2.
  destruct (append_refs_full d k (g_inv _ _ G) p f new rest E) as (d' & E' & D & P & I2).
  { rewrite E. exact Hp. }
  rewrite E2 in E'. injection E' as <-. apply same_data_nodes in D as Dn.
  pose proof (pc_flo _ _ _ (inv_pchild _ _ (g_inv _ _ G)) f) as F.
  constructor.
  - rewrite P. apply once_app; auto.
    + rewrite map_snd_pair. apply (kw_nodup _ _ (inv_kw _ _ (g_inv _ _ G))).
    + intros a a' b H1 H2. apply in_map_iff in H2 as (c & X & Hc). injection X as <- <-. exfalso. exact (F a c Hc H1).
  - intros a b B Hi K. unfold kind in K. rewrite Dn in K. fold (kind d b) in K. rewrite P in Hi.
    apply in_app_or in Hi as [Hi|Hi]; [exact (U a b B Hi K)|].
    apply in_map_iff in Hi as (c & X & Hc). injection X as <- <-. exact (live_not_removed _ _ _ _ G Hc K).
  - unfold ids. rewrite Dn. exact I.
Qed.
Lemma once_swap l i p old new l' : once l -> nth_error l i = Some (p, old) -> (forall a, ~ In (a, new) l) ->
  NoDup (new :: l') -> (forall a b, In b l' -> ~ In (a, b) l) -> once (upd l i (p, new) ++ map (pair p) l').
Proof.
  intros O E N D L. inversion D as [|? ? D1 D2]; subst.
  apply once_app.
  - intros x y a a' b B Ex Ey. rewrite upd_nth in Ex, Ey. rewrite E in *.
    destruct (Nat.eqb_spec x i) as [->|Nx]; destruct (Nat.eqb_spec y i) as [->|Ny]; auto.
    + injection Ex as _ <-. exfalso. eapply N, nth_error_In; eauto.
    + injection Ey as _ <-. exfalso. eapply N, nth_error_In; eauto.
    + eauto.
  - now rewrite map_snd_pair.
  - intros a a' b H1 H2. apply in_map_iff in H2 as (c & X & Hc). injection X as <- <-.
    apply in_upd in H1 as [H1|H1]; [congruence|]. exfalso. exact (L a c Hc H1).
Qed.
Lemma pt_replace d k p f new rest old l1 l2 d2 :
  Good d k -> k (Flo f) = new :: rest -> (forall c, In c (new :: rest) -> 1 <= p < c) ->
  k (Par p) = l1 ++ old :: l2 -> PT d -> replace_refs old new d = Ok d2 -> PT d2.
Proof.
  intros G E Hp Ek [O U I] E2. pose proof (inv_kw _ _ (g_inv _ _ G)) as W.
  assert (Hin : In old (k (Par p))) by (rewrite Ek; apply in_elt).
  pose proof (kw_bound _ _ W _ _ Hin) as Hb.
  destruct (nth_error (nodes d) old) as [m|] eqn:Em; [|apply nth_error_None in Em; lia].
  destruct (replace_refs_full d k (g_inv _ _ G) p f new rest E ltac:(rewrite E; exact Hp) old l1 l2 m Ek Em)
    as (d' & E' & Mt & Nn & (i & Hi & P) & I2).
  rewrite E2 in E'. injection E' as <-.
  pose proof (pc_flo _ _ _ (inv_pchild _ _ (g_inv _ _ G)) f) as F.
  pose proof (kw_nodup _ _ W (Flo f)) as Nd. rewrite E in Nd, F.
  assert (Fo : ~ In old (new :: rest)).
  { intros H. rewrite <- E in H. pose proof (kw_disj _ _ W _ _ _ H Hin). discriminate. }
  constructor.
  - rewrite P. apply (once_swap _ i p old); auto.
    + intros a. apply F. now left.
    + intros a b Hbr. apply F. now right.
  - intros a b B Hx K.
    assert (b <> old).
    { intros ->. rewrite P in Hx. apply in_app_or in Hx as [Hx|Hx].
      - apply In_nth_error in Hx as [j Ej]. rewrite upd_nth in Ej. destruct (Nat.eqb_spec j i) as [Ej'|Nj].
        + subst j. rewrite Hi in Ej. injection Ej as _ Ej. apply Fo. left. congruence.
        + apply Nj. exact (O _ _ _ _ _ B Ej Hi).
      - apply in_map_iff in Hx as (c & X & Hc). injection X as _ ->. apply Fo. now right. }
    assert (K' : kind d b = Some TRemoved).
    { unfold kind in *. now rewrite Nn, upd_nth_neq in K by auto. }
    rewrite P in Hx. apply in_app_or in Hx as [Hx|Hx].
    + apply in_upd in Hx as [Hx|Hx]; [|exact (U a b B Hx K')]. injection Hx as -> ->.
      revert K'. apply (live_not_removed d k (Flo f)); auto. rewrite E. now left.
    + apply in_map_iff in Hx as (c & X & Hc). injection X as <- <-.
      revert K'. apply (live_not_removed d k (Flo f)); auto. rewrite E. now right.
  - intros j n. rewrite Nn, upd_nth. destruct (Nat.eqb_spec j old) as [->|]; [|apply I].
    rewrite Em. intros X. injection X as <-. reflexivity.
Qed.

(** ** With a bound on the number of entries *)
Definition PL (m : nat) (d : dom) : Prop := PT d /\ length (pchilds d) <= m.
Lemma PL_le m m' d : PL m d -> m <= m' -> PL m' d.
Proof. intros [H L] Hm. split; [exact H|lia]. Qed.
Lemma pl_unlink m id d : PL m d -> okq (PL m) (unlink_node id d).
Proof.
  intros [H L]. pose proof (unlink_shape id d (pt_ids _ H)) as S. pose proof (pt_unlink id d H) as T.
  destruct (unlink_node id d) as [d'| | |]; cbn in *; auto. split; [exact T|]. destruct S as [-> _].
  destruct (parent_idx id d); [now rewrite upd_length|exact L].
Qed.
Lemma pl_remove_f m fuel : (forall id d, PL m d -> okq (PL m) (remove_node_f fuel id d)) /\
  (forall id d, PL m d -> okq (PL m) (remove_children_f fuel id d)).
Proof.
  induction fuel as [|f [IH1 IH2]]; split; intros id d H; simpl; auto.
  - eapply okq_bind; [apply IH2; exact H|]. intros d1 H1. apply pl_unlink. exact H1.
  - destruct (0 <? _); simpl; [|exact H]. eapply okq_bind; [apply IH1; exact H|]. intros d1 H1. apply IH2. exact H1.
Qed.
Lemma pl_remove m id d : PL m d -> okq (PL m) (remove_node id d). Proof. apply pl_remove_f. Qed.
Lemma pl_remove_children m id d : PL m d -> okq (PL m) (remove_children id d). Proof. apply pl_remove_f. Qed.
Lemma flat_PL m d d' : flat d d' -> PL m d -> PL m d'.
Proof. intros F [H L]. split; [eapply flat_PT; eauto|]. destruct F as [-> _]. exact L. Qed.
Lemma one_PL m x d d' : one x d d' -> PL m d -> PL m d'.
Proof. intros F [H L]. split; [eapply one_PT; eauto|]. destruct F as (_ & _ & -> & _). exact L. Qed.
Lemma pl_append m d k p f new rest d2 : Good d k -> k (Flo f) = new :: rest -> (forall c, In c (new :: rest) -> 1 <= p < c) ->
  PL m d -> append_refs p new d = Ok d2 -> PL (S (length rest) + m) d2.
Proof.
  intros G E Hp [H L] E2. split; [eapply pt_append; eauto|].
  destruct (append_refs_full d k (g_inv _ _ G) p f new rest E) as (d' & E' & D & P & I2).
  { rewrite E. exact Hp. }
  rewrite E2 in E'. injection E' as <-. rewrite P, app_length, map_length, E. cbn. lia.
Qed.
Lemma pl_replace m d k p f new rest old l1 l2 d2 :
  Good d k -> k (Flo f) = new :: rest -> (forall c, In c (new :: rest) -> 1 <= p < c) ->
  k (Par p) = l1 ++ old :: l2 -> PL m d -> replace_refs old new d = Ok d2 -> PL (length rest + m) d2.
Proof.
  intros G E Hp Ek [H L] E2. split; [eapply (pt_replace d k p f new rest old l1 l2); eauto|].
  pose proof (inv_kw _ _ (g_inv _ _ G)) as W.
  assert (Hin : In old (k (Par p))) by (rewrite Ek; apply in_elt).
  pose proof (kw_bound _ _ W _ _ Hin) as Hb.
  destruct (nth_error (nodes d) old) as [n|] eqn:Em; [|apply nth_error_None in Em; lia].
  destruct (replace_refs_full d k (g_inv _ _ G) p f new rest E ltac:(rewrite E; exact Hp) old l1 l2 n Ek Em)
    as (d' & E' & Mt & Nn & (i & Hi & P) & I2).
  rewrite E2 in E'. injection E' as <-. rewrite P, app_length, upd_length, map_length. lia.
Qed.
(** A parsed fragment: the new entries and the new top nodes are different new nodes. *)
Lemma nodup_range (l : list nat) a b : NoDup l -> (forall x, In x l -> a <= x < b) -> length l <= b - a.
Proof.
  intros N R. rewrite <- (seq_length (b - a) a). apply NoDup_incl_length; auto.
  intros x Hx. apply in_seq. apply R in Hx. lia.
Qed.
Lemma pp_PL m d k d' k' : Good d k -> Good d' k' -> pp d d' -> PL m d ->
  (forall c, In c (k' (Flo (length (nodes d)))) -> length (nodes d) <= c) ->
  exists m', PL m' d' /\ m' + length (k' (Flo (length (nodes d)))) + length (nodes d) <= m + length (nodes d').
Proof.
  intros G G' P [H L] R. exists (length (pchilds d')). split.
  - split; [|auto]. eapply pp_PT; eauto. exact (Good_PTb _ _ G).
  - destruct P as (A & _ & _ & l & E & N & Rl). rewrite E, app_length.
    pose proof (nodup_range (map snd l ++ k' (Flo (length (nodes d)))) (length (nodes d)) (length (nodes d'))) as X.
    rewrite app_length, map_length in X. rewrite <- Nat.add_assoc.
    enough (length l + length (k' (Flo (length (nodes d)))) <= length (nodes d') - length (nodes d)) by lia.
    apply X.
    + apply nodup_app; auto; [apply (kw_nodup _ _ (inv_kw _ _ (g_inv _ _ G')))|].
      intros x Hx Hy. apply in_map_iff in Hx as ([a b] & <- & He).
      apply (pc_flo _ _ _ (inv_pchild _ _ (g_inv _ _ G')) _ a _ Hy). rewrite E. apply in_or_app. now right.
    + intros x Hx. apply in_app_or in Hx as [Hx|Hx].
      * apply in_map_iff in Hx as (e & <- & He). now apply Rl.
      * split; [now apply R|]. apply (kw_bound _ _ (inv_kw _ _ (g_inv _ _ G')) _ _ Hx).
Qed.
