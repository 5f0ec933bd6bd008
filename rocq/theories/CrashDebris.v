(** * What the creating part of an edit leaves behind when it is abandoned. *)
From Coq Require Import List NArith Arith Bool Lia.
From Verif Require Import Base Lemmas TrieModel TrieProofs DomModel ParserModel EditModel ReadModel DomSpec ApiSpec
  Tables Inv RegProofs Grow CrashModel CrashAgree.
Import ListNotations.
Local Open Scope nat_scope.

(** All states at which the computation can be left satisfy [P], and its result
    satisfies [Q]. *)
Definition abq {A} (P : dom -> Prop) (Q : A -> Prop) (x : ab A) : Prop :=
  Forall P (fst x) /\ okq Q (snd x).

Lemma abq_ret {A} P (Q : A -> Prop) a : Q a -> abq P Q (a_ret a).
Proof. split; simpl; auto. Qed.
Lemma abq_pure {A} P (Q : A -> Prop) o : okq Q o -> abq P Q (pure o).
Proof. split; simpl; auto. Qed.
Lemma abq_may (P : dom -> Prop) d : P d -> abq P (fun _ => True) (may_jump d).
Proof. split; simpl; auto. Qed.
Lemma abq_jump {A} (P : dom -> Prop) (Q : A -> Prop) j d : P d -> abq P Q (a_jump j d).
Proof. split; simpl; auto. Qed.
Lemma abq_bind {A B} P (R : A -> Prop) (Q : B -> Prop) x f :
  abq P R x -> (forall a, R a -> abq P Q (f a)) -> abq P Q (a_bind x f).
Proof.
  intros [H1 H2] H3. unfold abq, a_bind in *. destruct (snd x); simpl in *; auto.
  destruct (H3 a H2) as [F O]. split; auto. now apply Forall_app.
Qed.
Lemma abq_imp {A} P (R Q : A -> Prop) x : abq P R x -> (forall a, R a -> Q a) -> abq P Q x.
Proof. intros [H1 H2] H. split; auto. eapply okq_imp; eauto. Qed.
Lemma abq_impP {A} (P P' : dom -> Prop) (Q : A -> Prop) x :
  abq P Q x -> (forall a, P a -> P' a) -> abq P' Q x.
Proof. intros [H1 H2] H. split; auto. eapply Forall_impl; eauto. Qed.
Lemma abq_try {A} (P : dom -> Prop) (Q : A -> Prop) d x :
  P d -> abq P Q x -> abq P Q (a_bind (may_jump d) (fun _ => x)).
Proof. intros H1 H2. eapply abq_bind. apply abq_may; auto. auto. Qed.
Lemma abq_pbind {A B} P (Q : B -> Prop) (o : outcome A) (f : A -> ab B) :
  (forall a, o = Ok a -> abq P Q (f a)) -> abq P Q (a_bind (pure o) f).
Proof.
  intro H. unfold a_bind, pure. simpl. destruct o; simpl.
  - specialize (H a eq_refl). destruct H. split; auto.
  - split; simpl; auto.
  - split; simpl; auto.
  - split; simpl; auto.
Qed.

(** Every string of the old map keeps its number. *)
Definition map_ext (m m' : amap) : Prop :=
  forall l, map_ok m l -> exists x, map_ok m' (l ++ x).
Lemma map_ext_refl m : map_ext m m.
Proof. intros l H. exists []. now rewrite app_nil_r. Qed.
Lemma map_ext_trans a b c : map_ext a b -> map_ext b c -> map_ext a c.
Proof.
  intros H1 H2 l H. destruct (H1 l H) as [x Hx]. destruct (H2 _ Hx) as [y Hy].
  exists (x ++ y). now rewrite app_assoc.
Qed.
Lemma map_ext_insert s m : okq (fun '(_, _, m') => map_ext m m') (map_insert s m).
Proof.
  destruct (map_insert s m) as [[[ins id] m']| | |] eqn:E; simpl; auto.
  intros l H. destruct (in_dec (list_eq_dec N.eq_dec) s l) as [I|I].
  - rewrite (map_insert_old s m l H I) in E. injection E as <- <- <-. exists []. now rewrite app_nil_r.
  - destruct (map_insert_new s m l H I) as [[_ E2]|(_ & E2 & H2)]; rewrite E2 in E; [discriminate|].
    injection E as <- <- <-. now exists [s].
Qed.

(** [e] links two nodes created after [n], the first one older. *)
Definition late (n hi : nat) (e : nat * nat) : Prop := n <= fst e /\ fst e < snd e /\ snd e < hi.

(** Every node carries its own index. *)
Definition ids_ok (d : dom) : Prop := forall i x, nth_error (nodes d) i = Some x -> n_id x = i.

(** [d] is [d0] with nodes, links among them, attributes of them and strings added. *)
Record debris (d0 d : dom) : Prop := {
  db_nodes : exists x, nodes d = nodes d0 ++ x;
  db_firsts : exists x, firsts d = firsts d0 ++ x /\ Forall (late (length (nodes d0)) (length (nodes d))) x;
  db_pchilds : exists x, pchilds d = pchilds d0 ++ x /\ Forall (late (length (nodes d0)) (length (nodes d))) x;
  db_nexts : exists x, nexts d = nexts d0 ++ x /\ Forall (late (length (nodes d0)) (length (nodes d))) x;
  db_bprops : exists x, bprops d = bprops d0 ++ x /\ Forall (fun e => length (nodes d0) <= fst e) x;
  db_props : exists x, props d = props d0 ++ x /\ Forall (fun e => length (nodes d0) <= p_node e) x;
  db_regs : regs_ext d0 d;
  db_bool : map_ext (bool_map d0) (bool_map d);
  db_key : map_ext (key_map d0) (key_map d);
  db_val : map_ext (val_map d0) (val_map d);
  db_tag : map_ext (tag_map d0) (tag_map d);
  db_cap : (N.of_nat (length (nodes d0)) <= 65535)%N -> (N.of_nat (length (nodes d)) <= 65535)%N;
  db_ids : ids_ok d0 -> ids_ok d }.

Lemma ex_nil {A} (P : A -> Prop) l : exists x : list A, l = l ++ x /\ Forall P x.
Proof. exists []. now rewrite app_nil_r. Qed.
Lemma ex_nil0 {A} (l : list A) : exists x : list A, l = l ++ x.
Proof. exists []. now rewrite app_nil_r. Qed.
Lemma ex_snoc {A} (P : A -> Prop) l0 l e :
  (exists x : list A, l = l0 ++ x /\ Forall P x) -> P e -> exists x, l ++ [e] = l0 ++ x /\ Forall P x.
Proof.
  intros (x & -> & H) He. exists (x ++ [e]). rewrite app_assoc. split; auto. apply Forall_app. auto.
Qed.
Lemma ex_weak (a b c : nat) l0 l : b <= c ->
  (exists x : list (nat * nat), l = l0 ++ x /\ Forall (late a b) x) ->
  exists x, l = l0 ++ x /\ Forall (late a c) x.
Proof.
  intros H (x & E & F). exists x. split; auto. eapply Forall_impl; [|exact F].
  unfold late. intros e He. lia.
Qed.
Lemma debris_refl d : debris d d.
Proof.
  constructor; try apply ex_nil; try apply ex_nil0; try apply map_ext_refl; auto. apply regs_ext_refl.
Qed.
Lemma debris_len d0 d : debris d0 d -> length (nodes d0) <= length (nodes d).
Proof. intros [(x & ->) _ _ _ _ _ _ _ _ _ _ _ _]. rewrite app_length. lia. Qed.

Ltac sp := repeat match goal with |- _ /\ _ => split end.

Section Ops.
Context (d0 : dom).
Local Notation n := (length (nodes d0)).
Local Notation D := (debris d0).

Lemma db_push_node d x : (N.of_nat (length (nodes d)) <= 65534)%N -> n_id x = length (nodes d) -> D d -> D (push_node d x).
Proof.
  intros Lc Ix [(y & E) Hf Hp Hn Hb Hq Hr H1 H2 H3 H4 Hcap Hids].
  assert (L : length (nodes d) <= length (nodes (push_node d x))) by (simpl; rewrite app_length; lia).
  constructor; try (simpl; assumption).
  - exists (y ++ [x]). simpl. now rewrite E, app_assoc.
  - exact (ex_weak _ _ _ _ _ L Hf).
  - exact (ex_weak _ _ _ _ _ L Hp).
  - exact (ex_weak _ _ _ _ _ L Hn).
  - intros _. simpl. rewrite app_length. simpl. lia.
  - intros I0 i z. simpl. intros Hz. destruct (Nat.lt_ge_cases i (length (nodes d))) as [Hl|Hl].
    + rewrite nth_error_app1 in Hz by auto. now apply (Hids I0).
    + rewrite nth_error_app2 in Hz by auto. destruct (i - length (nodes d)) as [|j] eqn:Ej; simpl in Hz.
      * injection Hz as <-. lia.
      * now destruct j.
Qed.
Lemma upd_app_r {A} (l x : list A) i y : length l <= i -> upd (l ++ x) i y = l ++ upd x (i - length l) y.
Proof.
  revert i. induction l as [|a l IH]; intros i H; simpl in *.
  - now rewrite Nat.sub_0_r.
  - destruct i as [|i]; [lia|]. simpl. rewrite IH by lia. reflexivity.
Qed.
Lemma upd_len {A} (l : list A) i y : length (upd l i y) = length l.
Proof. revert i. induction l; intros [|i]; simpl; auto. Qed.
Lemma db_set_node d i x : n <= i -> (forall z, nth_error (nodes d) i = Some z -> n_id x = n_id z) -> D d -> D (set_nodes d (upd (nodes d) i x)).
Proof.
  intros Hi Hx [(y & E) Hf Hp Hn Hb Hq Hr H1 H2 H3 H4 Hcap Hids].
  constructor; cbn [nodes firsts pchilds nexts bprops props set_nodes bool_map key_map val_map];
    rewrite ?upd_len; auto.
  - exists (upd y (i - n) x). rewrite E. now apply upd_app_r.
  - intros I0 j z Hz. cbn [nodes set_nodes] in Hz. destruct (Nat.eq_dec j i) as [->|Nj].
    + destruct (nth_error (nodes d) i) as [z0|] eqn:Ez.
      * rewrite (upd_nth_eq (nodes d) i x) in Hz by (apply nth_error_Some; congruence). injection Hz as <-.
        rewrite (Hx z0 eq_refl). now apply (Hids I0).
      * apply nth_error_None in Ez. assert (i < length (upd (nodes d) i x)) by (apply nth_error_Some; congruence).
        rewrite upd_len in *. lia.
    + rewrite upd_nth_neq in Hz by auto. now apply (Hids I0).
Qed.
Lemma db_set_pay d i p : n <= i -> D d -> okq D (set_pay d i p).
Proof.
  intros Hi H. unfold set_pay, get_node. destruct (nth_error (nodes d) i) as [z|] eqn:Ez; simpl; auto.
  apply db_set_node; auto. intros z' Q. rewrite Ez in Q. now injection Q as <-.
Qed.
Lemma db_push_first d e : late n (length (nodes d)) e -> D d -> D (push_first d e).
Proof. intros He [H0 Hf Hp Hn Hb Hq Hr H1 H2 H3 H4 Hcap Hids]. constructor; auto. simpl. now apply ex_snoc. Qed.
Lemma db_push_pchild d e : late n (length (nodes d)) e -> D d -> D (push_pchild d e).
Proof. intros He [H0 Hf Hp Hn Hb Hq Hr H1 H2 H3 H4 Hcap Hids]. constructor; auto. simpl. now apply ex_snoc. Qed.
Lemma db_push_next d e : late n (length (nodes d)) e -> D d -> D (push_next d e).
Proof. intros He [H0 Hf Hp Hn Hb Hq Hr H1 H2 H3 H4 Hcap Hids]. constructor; auto. simpl. now apply ex_snoc. Qed.
Lemma db_push_bprop d e : n <= fst e -> D d -> D (push_bprop d e).
Proof. intros He [H0 Hf Hp Hn Hb Hq Hr H1 H2 H3 H4 Hcap Hids]. constructor; auto. simpl. now apply ex_snoc. Qed.
Lemma db_push_prop d e : n <= p_node e -> D d -> D (push_prop d e).
Proof. intros He [H0 Hf Hp Hn Hb Hq Hr H1 H2 H3 H4 Hcap Hids]. constructor; auto. simpl. now apply ex_snoc. Qed.
Lemma db_set_bools d x m : map_ext (bool_map d) m -> D d -> D (set_bools d (bool_reg d ++ x) m).
Proof.
  intros He [H0 Hf Hp Hn Hb Hq (Ha & (y & Eb) & Hc & Hd) H1 H2 H3 H4 Hcap Hids].
  constructor; auto; [|eapply map_ext_trans; eauto].
  repeat split; simpl; auto. exists (y ++ x). now rewrite Eb, app_assoc.
Qed.
Lemma db_set_keys d x m : map_ext (key_map d) m -> D d -> D (set_keys d (key_reg d ++ x) m).
Proof.
  intros He [H0 Hf Hp Hn Hb Hq (Ha & Hb' & (y & Ec) & Hd) H1 H2 H3 H4 Hcap Hids].
  constructor; auto; [|eapply map_ext_trans; eauto].
  repeat split; simpl; auto. exists (y ++ x). now rewrite Ec, app_assoc.
Qed.
Lemma db_set_vals d x m : map_ext (val_map d) m -> D d -> D (set_vals d (val_reg d ++ x) m).
Proof.
  intros He [H0 Hf Hp Hn Hb Hq (Ha & Hb' & Hc & (y & Ed)) H1 H2 H3 H4 Hcap Hids].
  constructor; auto; [|eapply map_ext_trans; eauto].
  repeat split; simpl; auto. exists (y ++ x). now rewrite Ed, app_assoc.
Qed.
Lemma db_set_tags d x m : map_ext (tag_map d) m -> D d -> D (set_tags d (tag_reg d ++ x) m).
Proof.
  intros He [H0 Hf Hp Hn Hb Hq ((y & Ea) & Hb' & Hc & Hd) H1 H2 H3 H4 Hcap Hids].
  constructor; auto; [|eapply map_ext_trans; eauto].
  repeat split; simpl; auto. exists (y ++ x). now rewrite Ea, app_assoc.
Qed.
Lemma db_set_bools0 d m : map_ext (bool_map d) m -> D d -> D (set_bools d (bool_reg d) m).
Proof. intros. rewrite <- (app_nil_r (bool_reg d)). now apply db_set_bools. Qed.
Lemma db_set_keys0 d m : map_ext (key_map d) m -> D d -> D (set_keys d (key_reg d) m).
Proof. intros. rewrite <- (app_nil_r (key_reg d)). now apply db_set_keys. Qed.
Lemma db_set_vals0 d m : map_ext (val_map d) m -> D d -> D (set_vals d (val_reg d) m).
Proof. intros. rewrite <- (app_nil_r (val_reg d)). now apply db_set_vals. Qed.
Lemma db_set_tags0 d m : map_ext (tag_map d) m -> D d -> D (set_tags d (tag_reg d) m).
Proof. intros. rewrite <- (app_nil_r (tag_reg d)). now apply db_set_tags. Qed.

Definition len_eq (d d' : dom) : Prop := length (nodes d') = length (nodes d).

Lemma a_create ty d : D d ->
  abq D (fun '(id, d') => D d' /\ id = length (nodes d) /\ length (nodes d') = S id) (c_create_node ty d).
Proof.
  intro H. unfold c_create_node. destruct (_ <=? _)%N eqn:Lc; [|now apply abq_jump]. apply N.leb_le in Lc.
  apply abq_try; auto. apply abq_ret. sp; [now apply db_push_node|reflexivity|].
  simpl. rewrite app_length. simpl. lia.
Qed.
Lemma a_insert s m d : D d -> abq D (fun '(_, _, m') => map_ext m m') (c_map_insert s m d).
Proof.
  intro H. unfold c_map_insert. pose proof (map_ext_insert s m) as X.
  destruct (map_insert s m) as [[[[|] id] m']| | |]; simpl in X.
  - apply abq_try; auto. now apply abq_ret.
  - now apply abq_ret.
  - now apply abq_pure.
  - now apply abq_jump.
  - now apply abq_pure.
Qed.
Lemma a_intern_bool s d : D d -> abq D (fun '(_, d') => D d' /\ len_eq d d') (c_intern_bool s d).
Proof.
  intro H. eapply abq_bind. now apply a_insert. intros [[[|] id] m] E.
  - apply abq_try. now apply db_set_bools0. apply abq_ret. split; [now apply db_set_bools|reflexivity].
  - apply abq_ret. split; [now apply db_set_bools0|reflexivity].
Qed.
Lemma a_intern_key s d : D d -> abq D (fun '(_, d') => D d' /\ len_eq d d') (c_intern_key s d).
Proof.
  intro H. eapply abq_bind. now apply a_insert. intros [[[|] id] m] E.
  - apply abq_try. now apply db_set_keys0. apply abq_ret. split; [now apply db_set_keys|reflexivity].
  - apply abq_ret. split; [now apply db_set_keys0|reflexivity].
Qed.
Lemma a_intern_val s d : D d -> abq D (fun '(_, d') => D d' /\ len_eq d d') (c_intern_val s d).
Proof.
  intro H. eapply abq_bind. now apply a_insert. intros [[[|] id] m] E.
  - apply abq_try. now apply db_set_vals0. apply abq_ret. split; [now apply db_set_vals|reflexivity].
  - apply abq_ret. split; [now apply db_set_vals0|reflexivity].
Qed.
(** Attributes: only the last push touches the node they are given to. *)
Lemma a_add_property_st id k v d : D d -> Forall D (fst (c_add_property id k v d)).
Proof.
  intro H. apply (@proj1 _ (okq (fun _ => True) (snd (c_add_property id k v d)))).
  change (abq D (fun _ => True) (c_add_property id k v d)).
  eapply abq_bind. now apply a_intern_key. intros [kid d1] [H1 L1].
  eapply abq_bind. now apply a_intern_val. intros [vid d2] [H2 L2].
  apply abq_try; auto. now apply abq_ret.
Qed.
Lemma a_add_bool_st id b d : D d -> Forall D (fst (c_add_bool_property id b d)).
Proof.
  intro H. apply (@proj1 _ (okq (fun _ => True) (snd (c_add_bool_property id b d)))).
  change (abq D (fun _ => True) (c_add_bool_property id b d)).
  eapply abq_bind. now apply a_intern_bool. intros [vid d2] [H2 L2].
  apply abq_try; auto. now apply abq_ret.
Qed.
Lemma a_set_tag_st tag id p d : D d -> Forall D (fst (c_set_tag tag id p d)).
Proof.
  intro H. apply (@proj1 _ (okq (fun _ => True) (snd (c_set_tag tag id p d)))).
  change (abq D (fun _ => True) (c_set_tag tag id p d)).
  eapply abq_bind. now apply a_insert. intros [[[|] t] m] E.
  - apply abq_try; [now apply db_set_tags0|]. apply abq_pure. apply okq_any.
  - apply abq_pure. apply okq_any.
Qed.
Lemma a_add_property id k v d : n <= id -> D d -> abq D (fun d' => D d' /\ len_eq d d') (c_add_property id k v d).
Proof.
  intros Hi H. eapply abq_bind. now apply a_intern_key. intros [kid d1] [H1 L1].
  eapply abq_bind. now apply a_intern_val. intros [vid d2] [H2 L2].
  apply abq_try; auto. apply abq_ret. split. now apply db_push_prop.
  unfold len_eq in *. simpl. congruence.
Qed.
Lemma a_add_bool id b d : n <= id -> D d -> abq D (fun d' => D d' /\ len_eq d d') (c_add_bool_property id b d).
Proof.
  intros Hi H. eapply abq_bind. now apply a_intern_bool. intros [vid d2] [H2 L2].
  apply abq_try; auto. apply abq_ret. split. now apply db_push_bprop.
  unfold len_eq in *. simpl. congruence.
Qed.
Lemma okq_pay_len d id p : okq (fun d' => len_eq d d') (set_pay d id p).
Proof. unfold set_pay. destruct (get_node d id); simpl; auto. unfold len_eq. simpl. apply upd_len. Qed.
Lemma okq_and {A} (P Q : A -> Prop) x : okq P x -> okq Q x -> okq (fun a => P a /\ Q a) x.
Proof. destruct x; simpl; auto. Qed.
Lemma a_set_tag tag id p d : n <= id -> D d -> abq D (fun d' => D d' /\ len_eq d d') (c_set_tag tag id p d).
Proof.
  intros Hi H. eapply abq_bind. now apply a_insert. intros [[[|] t] m] E.
  - apply abq_try. now apply db_set_tags0. apply abq_pure. apply okq_and.
    + apply db_set_pay; auto. now apply db_set_tags.
    + apply (okq_pay_len (set_tags d (tag_reg d ++ [mkTag tag p]) m)).
  - apply abq_pure. apply okq_and.
    + apply db_set_pay; auto. now apply db_set_tags0.
    + apply (okq_pay_len (set_tags d (tag_reg d) m)).
Qed.
Lemma late_weak a b c e : b <= c -> late a b e -> late a c e.
Proof. unfold late. lia. Qed.
(** Links made by the fragment parser. *)
Lemma a_update_refs new prev s d : D d -> new < length (nodes d) ->
  (prev <> 0 -> n <= prev < new) -> (forall f, In f s -> n <= fst f < new) ->
  abq D (fun d' => D d' /\ len_eq d d') (c_update_refs new prev s d).
Proof.
  intros H Hn Hp Hs. unfold c_update_refs. destruct (0 <? new) eqn:E1; [|now apply abq_ret].
  destruct (0 <? prev) eqn:E2; [|now apply abq_ret]. simpl andb. cbv iota.
  apply Nat.ltb_lt in E2. assert (Lp : late n (length (nodes d)) (prev, new)) by (unfold late; simpl; lia).
  destruct s as [|[q t] s].
  - apply abq_try; auto. apply abq_ret. split; [|reflexivity]. now apply db_push_next.
  - assert (Lq : late n (length (nodes d)) (q, new)).
    { specialize (Hs (q, t) (or_introl eq_refl)). unfold late; simpl in *; lia. }
    apply abq_try; auto. assert (Hd : D (push_pchild d (q, new))) by now apply db_push_pchild.
    apply abq_try; auto. apply abq_ret. destruct (q =? prev); split; try reflexivity.
    + now apply db_push_first.
    + now apply db_push_next.
Qed.
Lemma a_text_node t i tag d : D d ->
  abq D (fun '(id, _, d') => D d' /\ id = length (nodes d) /\ length (nodes d') = S id)
      (c_parse_text_node t i tag d).
Proof.
  intro H. eapply abq_bind. now apply a_create. intros [id d1] (H1 & -> & L).
  apply abq_try; auto. apply abq_pbind. intros [raw j] _.
  apply abq_bind with (R := fun d' => D d' /\ len_eq d1 d').
  - apply abq_pure. apply okq_and; [|apply okq_pay_len]. apply db_set_pay; auto. now apply debris_len.
  - intros d2 [H2 L2]. apply abq_ret. sp; auto. unfold len_eq in L2. lia.
Qed.
Lemma a_attr_loop fuel t id : n <= id -> forall can i d, D d ->
  abq D (fun '(_, _, d') => D d' /\ len_eq d d') (c_attr_loop fuel t id can i d).
Proof.
  intro Hi. induction fuel as [|f IH]; intros can i d H; cbn [c_attr_loop];
    (destruct (i <? length t); [|now apply abq_ret]); apply abq_pbind; intros c _;
    (destruct (c =? cGT)%N; [now apply abq_ret|]); [now apply abq_pure|].
  apply abq_bind with (R := fun '(_, _, d') => D d' /\ len_eq d d').
  - destruct (c =? cSLASH)%N; [now apply abq_ret|]. destruct (negb (is_blank c)); [|now apply abq_ret].
    apply abq_pbind. intros [key j] _. destruct (current_char t j =? cEQ)%N.
    + apply abq_pbind. intros [v j'] _. eapply abq_bind. now apply a_add_property.
      intros d1 H1. now apply abq_ret.
    + eapply abq_bind. now apply a_add_bool. intros d1 H1. now apply abq_ret.
  - intros [[can' j] d1] [H1 L1]. apply abq_pbind. intros j' _. eapply abq_imp. now apply IH.
    intros [[? ?] d2] [H2 L2]. split; auto. unfold len_eq in *. congruence.
Qed.
Lemma a_document_node t i ex d : D d ->
  abq D (fun '(id, _, _, _, d') => D d' /\ id = length (nodes d) /\ length (nodes d') = S id)
      (c_parse_document_node t i ex d).
Proof.
  intro H. eapply abq_bind. now apply a_create. intros [id d1] (H1 & -> & L).
  apply abq_pbind. intros j _. apply abq_pbind. intros sl _. apply abq_pbind. intros [can size] _.
  apply abq_pbind. intros tag _. apply abq_pbind. intros j' _.
  eapply abq_bind. apply a_attr_loop; auto. now apply debris_len.
  intros [[can' j2] d2] [H2 L2]. eapply abq_bind. apply a_set_tag; auto. now apply debris_len.
  intros d3 [H3 L3]. apply abq_ret. sp; auto. unfold len_eq in *. lia.
Qed.

(** Positions of the main loop: previous node and open elements are new. *)
Definition posn (prev : nat) (s : list frame) (d : dom) : Prop :=
  (prev <> 0 -> n <= prev < length (nodes d)) /\
  (forall f, In f s -> n <= fst f < length (nodes d)).
Lemma posn_mono prev s d d' : length (nodes d) <= length (nodes d') -> posn prev s d -> posn prev s d'.
Proof. intros L [H1 H2]. split; [intro; specialize (H1 H); lia|]. intros f Hf. specialize (H2 f Hf). lia. Qed.
Lemma a_step bl t st i prev s d : D d -> posn prev s d ->
  abq D (fun '(r, d') => D d' /\ match r with Some (_, p', s') => posn p' s' d' | None => True end)
      (c_parse_step bl t st i prev s d).
Proof.
  intros H Hp.
  assert (X : forall i, abq D (fun '(r, d') => D d' /\ match r with Some (_, p', s') => posn p' s' d' | None => True end)
    (do* '(id, j, d) := c_parse_text_node t i (containing_tag s) d in
    do* d := c_update_refs id prev s d in a_ret (Some (j, id, s), d))).
  { intro i'. eapply abq_bind. now apply a_text_node. intros [[id j] d1] (H1 & -> & L).
    eapply abq_bind. apply a_update_refs; auto. lia. apply Hp. apply Hp.
    intros d2 [H2 L2]. apply abq_ret. split; auto. split; [intros _; unfold len_eq in L2; apply debris_len in H; lia|].
    destruct Hp as [_ Hs]. intros f Hf. specialize (Hs f Hf). unfold len_eq in L2. lia. }
  unfold c_parse_step. apply abq_pbind. intros c _. destruct (c =? cLT)%N; [|apply X].
  apply abq_pbind. intros cm _. destruct cm.
  { apply abq_pbind. intros j _. now apply abq_ret. }
  apply abq_pbind. intros tt _. apply abq_pbind. intros e _. destruct e.
  - assert (Y : posn (fst (if st <? length s then match s with (id, _) :: s' => (id, s') | [] => (prev, s) end else (prev, s)))
                   (snd (if st <? length s then match s with (id, _) :: s' => (id, s') | [] => (prev, s) end else (prev, s))) d).
    { destruct (st <? length s); [|exact Hp]. destruct s as [|[id tg] s]; [exact Hp|].
      destruct Hp as [_ Hs]. split; simpl; [intros _; apply (Hs (id, tg)); now left|].
      intros f Hf. apply Hs. now right. }
    destruct (if st <? length s then _ else _) as [p' s']. apply abq_pbind. intros j _. apply abq_ret. split; auto.
  - destruct (_ || _); [|apply X]. eapply abq_bind. now apply a_document_node.
    intros [[[[id can] tag] j] d1] (H1 & -> & L). eapply abq_bind. apply a_update_refs; auto. lia. apply Hp. apply Hp.
    intros d2 [H2 L2]. unfold len_eq in L2. pose proof (debris_len _ _ H) as Ln. destruct Hp as [_ Hs].
    assert (Z : forall f, In f s -> n <= fst f < length (nodes d2)).
    { intros f Hf. specialize (Hs f Hf). lia. }
    destruct can; [destruct (max_depth <=? length s)|]; apply abq_ret; (split; [exact H2|]).
    + exact Logic.I.
    + split; [intros _; lia|]. intros f [<-|Hf]; simpl; auto. lia.
    + split; [intros _; lia|]. exact Z.
Qed.
Lemma a_loop fuel bl t st : forall i prev s d, D d -> posn prev s d ->
  abq D (fun '(_, d') => D d') (c_parse_loop fuel bl t st i prev s d).
Proof.
  induction fuel as [|f IH]; intros i prev s d H Hp; cbn [c_parse_loop];
    (destruct (i <? length t); [|now apply abq_ret]); [now apply abq_pure|].
  eapply abq_bind. now apply a_step. intros [[[[i' p'] s']|] d1] [H1 P1]; [|now apply abq_ret].
  apply abq_pbind. intros j _. now apply IH.
Qed.
Lemma a_parse_extra bl t d : D d -> abq D (fun '(_, d') => D d') (c_parse_extra bl t d).
Proof.
  intro H. apply abq_pbind. intros i _. apply a_loop; auto. split; [intro C; now elim C|]. intros f [].
Qed.
Lemma a_add_bools id l : n <= id -> forall d, D d -> abq D (fun d' => D d' /\ len_eq d d') (c_add_bools id l d).
Proof.
  intro Hi. induction l as [|b l IH]; intros d H; cbn [c_add_bools]; [now apply abq_ret|].
  eapply abq_bind. now apply a_add_bool. intros d1 [H1 L1]. eapply abq_imp. now apply IH.
  intros d2 [H2 L2]. split; auto. unfold len_eq in *. congruence.
Qed.
Lemma a_add_props id l : n <= id -> forall d, D d -> abq D (fun d' => D d' /\ len_eq d d') (c_add_props id l d).
Proof.
  intro Hi. induction l as [|[k v] l IH]; intros d H; cbn [c_add_props]; [now apply abq_ret|].
  eapply abq_bind. now apply a_add_property. intros d1 [H1 L1]. eapply abq_imp. now apply IH.
  intros d2 [H2 L2]. split; auto. unfold len_eq in *. congruence.
Qed.
Lemma a_document_element dn d : D d ->
  abq D (fun '(id, d') => D d' /\ id = length (nodes d) /\ length (nodes d') = S id)
      (c_parse_document_element dn d).
Proof.
  intro H. eapply abq_bind. now apply a_create. intros [id d1] (H1 & -> & L).
  pose proof (debris_len _ _ H) as Ln.
  eapply abq_bind. now apply a_set_tag. intros d2 [H2 L2].
  eapply abq_bind. now apply a_add_bools. intros d3 [H3 L3].
  eapply abq_bind. now apply a_add_props. intros d4 [H4 L4].
  apply abq_ret. sp; auto. unfold len_eq in *. lia.
Qed.
Lemma a_text_element s d : D d ->
  abq D (fun '(id, d') => D d' /\ id = length (nodes d) /\ length (nodes d') = S id)
      (c_parse_text_element s d).
Proof.
  intro H. eapply abq_bind. now apply a_create. intros [id d1] (H1 & -> & L).
  apply abq_try; auto. apply abq_bind with (R := fun d' => D d' /\ len_eq d1 d').
  - apply abq_pure. apply okq_and; [|apply okq_pay_len]. apply db_set_pay; auto. now apply debris_len.
  - intros d2 [H2 L2]. apply abq_ret. sp; auto. unfold len_eq in L2. lia.
Qed.
End Ops.
