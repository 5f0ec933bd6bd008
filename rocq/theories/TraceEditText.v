(** * How many bytes of text an edit writes. *)
From Coq Require Import List NArith ZArith Arith Bool Lia.
From Verif Require Import Base TrieModel DomModel ParserModel EditModel ApiSpec SizeSpec ArenaSpec MemModel Lemmas RegProofs Size SizeEdit Grow
  TraceModel TraceProofs TraceMem TraceEditModel TraceEditProofs TraceEditMem TraceEditOps.
Import ListNotations.
Local Open Scope nat_scope.

(** At most [b] bytes written, and at most [c] bytes of text in the document after. *)
Definition V (b c : nat) (x : xtr dom) : Prop := xq (fun l d' => x_bytes l <= b /\ texts d' <= c) x.
Definition V2 {A} (b c : nat) (x : xtr (A * dom)) : Prop := xq (fun l r => x_bytes l <= b /\ texts (snd r) <= c) x.
Lemma xq_tx {A B} (pa : A -> dom) (pb : B -> dom) b1 c1 b2 c2 b x f :
  xq (fun l a => x_bytes l <= b1 /\ texts (pa a) <= c1) x ->
  (forall a, texts (pa a) <= c1 -> xq (fun l r => x_bytes l <= b2 /\ texts (pb r) <= c2) (f a)) -> b1 + b2 <= b ->
  xq (fun l r => x_bytes l <= b /\ texts (pb r) <= c2) (x_bind x f).
Proof.
  intros H K L. eapply xq_bind; [exact H|]. intros l a [X Y]. eapply xq_imp; [exact (K a Y)|]. intros l' r [X' Y'].
  rewrite x_bytes_app. split; lia.
Qed.
Lemma V_bind b1 c1 b2 c2 b x f : V b1 c1 x -> (forall d, texts d <= c1 -> V b2 c2 (f d)) -> b1 + b2 <= b -> V b c2 (x_bind x f).
Proof. apply (xq_tx (fun a => a) (fun r => r)). Qed.
Lemma V_bind2 {B} b1 c1 b2 c2 b x (f : dom -> xtr (B * dom)) : V b1 c1 x -> (forall d, texts d <= c1 -> V2 b2 c2 (f d)) -> b1 + b2 <= b -> V2 b c2 (x_bind x f).
Proof. apply (xq_tx (fun a => a) (fun r : B * dom => snd r)). Qed.
Lemma V2_bind {A} b1 c1 b2 c2 b x (f : A * dom -> xtr dom) : V2 b1 c1 x -> (forall a d, texts d <= c1 -> V b2 c2 (f (a, d))) -> b1 + b2 <= b -> V b c2 (x_bind x f).
Proof. intros H K L. apply (xq_tx (fun a : A * dom => snd a) (fun r => r) b1 c1 b2 c2 b x f H); auto. intros [a d] E. exact (K a d E). Qed.
Lemma V2_bind2 {A B} b1 c1 b2 c2 b x (f : A * dom -> xtr (B * dom)) : V2 b1 c1 x -> (forall a d, texts d <= c1 -> V2 b2 c2 (f (a, d))) -> b1 + b2 <= b -> V2 b c2 (x_bind x f).
Proof. intros H K L. apply (xq_tx (fun a : A * dom => snd a) (fun r : B * dom => snd r) b1 c1 b2 c2 b x f H); auto. intros [a d] E. exact (K a d E). Qed.
Lemma V_lift {A} b c (o : outcome A) f : (forall a, o = Ok a -> V b c (f a)) -> V b c (x_bind (xlift o) f).
Proof. apply xq_lift. Qed.
Lemma V2_lift {A B} b c (o : outcome A) (f : A -> xtr (B * dom)) : (forall a, o = Ok a -> V2 b c (f a)) -> V2 b c (x_bind (xlift o) f).
Proof. apply xq_lift. Qed.
Lemma V_ret b c d : texts d <= c -> V b c (x_ret d).
Proof. intros H. split; [apply Nat.le_0_l|exact H]. Qed.
Lemma V2_ret {A} b c (a : A) d : texts d <= c -> V2 b c (x_ret (a, d)).
Proof. intros H. split; [apply Nat.le_0_l|exact H]. Qed.
Lemma V_load b c t k g f : V b c (f tt) -> V b c (x_bind (x_emit (XLoad t k g)) f).
Proof. intros H. apply (xq_bind (fun l a => l = [XLoad t k g])); [reflexivity|]. intros l [] ->. eapply xq_imp; [exact H|]. intros l' d' X. exact X. Qed.
Lemma V2_load {A} b c t k g (f : unit -> xtr (A * dom)) : V2 b c (f tt) -> V2 b c (x_bind (x_emit (XLoad t k g)) f).
Proof. intros H. apply (xq_bind (fun l a => l = [XLoad t k g])); [reflexivity|]. intros l [] ->. eapply xq_imp; [exact H|]. intros l' d' X. exact X. Qed.
Lemma V_le b b' c c' x : V b c x -> b <= b' -> c <= c' -> V b' c' x.
Proof. intros H B C. eapply xq_imp; [exact H|]. cbn. intros l d [X Y]. split; lia. Qed.
Lemma V2_le {A} b b' c c' (x : xtr (A * dom)) : V2 b c x -> b <= b' -> c <= c' -> V2 b' c' x.
Proof. intros H B C. eapply xq_imp; [exact H|]. cbn. intros l d [X Y]. split; lia. Qed.

Lemma v_store_f k g e d c : texts d <= c -> V 0 c (st_first k g e d). Proof. intros H. split; [apply Nat.le_refl|exact H]. Qed.
Lemma v_store_p k g e d c : texts d <= c -> V 0 c (st_pchild k g e d). Proof. intros H. split; [apply Nat.le_refl|exact H]. Qed.
Lemma v_store_n k g e d c : texts d <= c -> V 0 c (st_next k g e d). Proof. intros H. split; [apply Nat.le_refl|exact H]. Qed.
Lemma v_store_b k g e d c : texts d <= c -> V 0 c (st_bprop k g e d). Proof. intros H. split; [apply Nat.le_refl|exact H]. Qed.
Lemma v_store_r k g e d c : texts d <= c -> V 0 c (st_prop k g e d). Proof. intros H. split; [apply Nat.le_refl|exact H]. Qed.
Lemma v_push_f e d c : texts d <= c -> V 0 c (p_first e d). Proof. intros H. split; [apply Nat.le_refl|exact H]. Qed.
Lemma v_push_p e d c : texts d <= c -> V 0 c (p_pchild e d). Proof. intros H. split; [apply Nat.le_refl|exact H]. Qed.
Lemma v_push_n e d c : texts d <= c -> V 0 c (p_next e d). Proof. intros H. split; [apply Nat.le_refl|exact H]. Qed.

Lemma texts_upd d i n m : nth_error (nodes d) i = Some m ->
  texts (set_nodes d (upd (nodes d) i n)) + text_len m = texts d + text_len n.
Proof. intros H. unfold texts. cbn. rewrite map_upd'. apply sum_upd. now rewrite nth_error_map, H. Qed.
Lemma texts_upd_none d i n : nth_error (nodes d) i = None -> texts (set_nodes d (upd (nodes d) i n)) = texts d.
Proof.
  intros H. unfold texts. cbn. rewrite map_upd'. f_equal. apply nth_error_None in H. rewrite <- (map_length text_len) in H. revert H.
  generalize (map text_len (nodes d)) (text_len n). clear. intros l x. revert i. induction l as [|y l IH]; intros [|i] H; cbn in *; auto; [lia|].
  f_equal. apply IH. lia.
Qed.
Lemma texts_node d i m : nth_error (nodes d) i = Some m -> text_len m <= texts d.
Proof.
  unfold texts. revert i. induction (nodes d) as [|x ns IH]; intros [|i] H; try discriminate; cbn [nth_error map] in *;
    match goal with |- _ <= list_sum (?a :: ?b) => change (list_sum (a :: b)) with (a + list_sum b) end.
  - injection H as ->. lia.
  - specialize (IH i H). lia.
Qed.
Lemma v_st_node k g n d c : (forall m, nth_error (nodes d) k = Some m -> text_len n <= text_len m) -> texts d <= c -> V 0 c (st_node k g n d).
Proof.
  intros P H. split; [apply Nat.le_refl|]. cbn [st_node x_bind x_emit x_ret snd fst].
  destruct (nth_error (nodes d) k) as [m|] eqn:E; [pose proof (texts_upd d k n m E); specialize (P m eq_refl); lia|].
  rewrite (texts_upd_none d k n E). exact H.
Qed.
Lemma node_text_len n s : node_text n = Ok s -> text_len n = length s.
Proof. unfold node_text, text_len. destruct (n_pay n); intros E; try discriminate. now injection E as ->. Qed.

Ltac q := try assumption; try lia.
Lemma v_unlink id d c : texts d <= c -> V 0 c (x_unlink_node id d).
Proof.
  intros H. unfold x_unlink_node. apply V_lift. intros n _.
  apply (V_bind 0 c 0 c); [| |lia].
  { destruct (prev_idx _ d); [|now apply V_ret]. destruct (next_idx _ d); [apply V_load|]; now apply v_store_n. }
  intros d1 H1. apply (V_bind 0 c 0 c); [| |lia].
  { destruct (parent_idx _ d); [|now apply V_ret]. apply V_load. apply (V_bind 0 c 0 c); [now apply v_store_p| |lia]. intros d2 H2.
    destruct (first_idx _ d2); [|exact I]. destruct (_ =? id); [|now apply V_ret]. destruct (next_idx _ d); [apply V_load|]; now apply v_store_f. }
  intros d2 H2. apply (V_bind 0 c 0 c); [| |lia].
  { destruct (next_idx _ d); [now apply v_store_n|now apply V_ret]. }
  intros d3 H3. apply v_st_node; [|exact H3]. intros m _. cbn. lia.
Qed.
Lemma v_remove_f fuel c : (forall id d, texts d <= c -> V 0 c (x_remove_node_f fuel id d)) /\
  (forall id d, texts d <= c -> V 0 c (x_remove_children_f fuel id d)).
Proof.
  induction fuel as [|f [IH1 IH2]]; [split; intros; exact I|]. split; intros id d H.
  - cbn [x_remove_node_f]. apply (V_bind 0 c 0 c); [now apply IH2|intros; now apply v_unlink|lia].
  - cbn [x_remove_children_f]. destruct (0 <? get_first_child id d); [|now apply V_ret]. apply (V_bind 0 c 0 c); [now apply IH1|intros; now apply IH2|lia].
Qed.
Lemma v_remove id d c : texts d <= c -> V 0 c (x_remove_node id d). Proof. apply v_remove_f. Qed.
Lemma v_remove_ch id d c : texts d <= c -> V 0 c (x_remove_children id d). Proof. apply v_remove_f. Qed.
Lemma v_connect fuel p c : forall x d, texts d <= c -> V 0 c (x_connect_loop fuel p x d).
Proof.
  induction fuel as [|f IH]; intros x d H; cbn [x_connect_loop]; (destruct (0 <? x); [|now apply V_ret]); [exact I|].
  apply (V_bind 0 c 0 c); [now apply v_push_p| |lia]. intros d1 H1. now apply IH.
Qed.
Lemma v_append_r p x d c : texts d <= c -> V 0 c (x_append_refs p x d).
Proof.
  intros H. unfold x_append_refs. destruct (first_idx p d).
  - apply V_load. apply V_lift. intros l _. apply (V_bind 0 c 0 c); [now apply v_push_n| |lia]. intros d1 H1.
    apply (V_bind 0 c 0 c); [now apply v_push_p| |lia]. intros d2 H2. now apply v_connect.
  - apply (V_bind 0 c 0 c); [now apply v_push_f| |lia]. intros d1 H1.
    apply (V_bind 0 c 0 c); [now apply v_push_p| |lia]. intros d2 H2. now apply v_connect.
Qed.
Lemma v_prepend_r p x d c : texts d <= c -> V 0 c (x_prepend_refs p x d).
Proof.
  intros H. unfold x_prepend_refs. destruct (first_idx p d).
  - apply V_load. apply (V_bind 0 c 0 c); [now apply v_store_f| |lia]. intros d0 H0. apply V_lift. intros l _.
    apply (V_bind 0 c 0 c); [now apply v_push_n| |lia]. intros d1 H1.
    apply (V_bind 0 c 0 c); [now apply v_push_p| |lia]. intros d2 H2. now apply v_connect.
  - apply (V_bind 0 c 0 c); [now apply v_push_f| |lia]. intros d1 H1.
    apply (V_bind 0 c 0 c); [now apply v_push_p| |lia]. intros d2 H2. now apply v_connect.
Qed.
Lemma nodes_connect fuel p : forall x d, xq (fun l d' => nodes d' = nodes d) (x_connect_loop fuel p x d).
Proof. intros. eapply xq_imp; [exact (x_connect fuel p x d)|]. intros l d' [_ [H _]]. exact H. Qed.
Lemma v_replace_r o x d c : texts d <= c -> V 0 c (x_replace_refs o x d).
Proof.
  intros H. unfold x_replace_refs. apply V_lift. intros n Hn. apply get_node_nth in Hn. apply V_lift. intros l _.
  set (pf := match parent_idx o d with Some i => first_idx (fst (at_idx (pchilds d) i)) d | None => None end).
  set (R := fun (l : list xev) (d' : dom) => x_bytes l <= 0 /\ nodes d' = nodes d).
  assert (RB : forall (P : dom -> Prop) (x : xtr dom) (f : dom -> xtr dom), xq (fun l d' => x_bytes l <= 0 /\ nodes d' = nodes d) x -> (forall d', nodes d' = nodes d -> xq (fun l d' => x_bytes l <= 0 /\ P d') (f d')) ->
            xq (fun l d' => x_bytes l <= 0 /\ P d') (x_bind x f)).
  { intros P y f A B. eapply xq_bind; [exact A|]. intros l1 d1 [X Y]. eapply xq_imp; [exact (B d1 Y)|]. intros l2 d2 [X' Y']. rewrite x_bytes_app. split; [lia|exact Y']. }
  apply (RB (fun d' => texts d' <= c)).
  { destruct (prev_idx o d); [split; [apply Nat.le_refl|reflexivity]|]. destruct pf; [split; [apply Nat.le_refl|reflexivity]|]. split; [apply Nat.le_refl|reflexivity]. }
  intros d1 N1. apply (RB (fun d' => texts d' <= c)).
  { destruct (parent_idx o d); [|split; [apply Nat.le_refl|exact N1]].
    eapply (xq_bind (fun l _ => x_bytes l <= 0)); [apply Nat.le_refl|]. intros l1 [] L1.
    eapply (xq_bind (fun l d' => x_bytes l <= 0 /\ nodes d' = nodes d)); [split; [apply Nat.le_refl|exact N1]|]. intros l2 d2 [L2 N2].
    pose proof (v_connect (S (length (nexts d2))) (fst (at_idx (pchilds d1) n0)) (texts d2) (get_next x d2) d2 (Nat.le_refl _)) as C1.
    pose proof (nodes_connect (S (length (nexts d2))) (fst (at_idx (pchilds d1) n0)) (get_next x d2) d2) as C2.
    unfold V, xq in *. destruct (snd _); auto. rewrite !x_bytes_app. split; [lia|congruence]. }
  intros d2 N2. apply (RB (fun d' => texts d' <= c)).
  { destruct (next_idx o d); (split; [apply Nat.le_refl|exact N2]). }
  intros d3 N3. apply v_st_node; [|unfold texts in *; now rewrite N3].
  intros m Hm. rewrite N3, Hn in Hm. injection Hm as <-. cbn. unfold text_len. cbn. lia.
Qed.
Lemma tl_text a b s : text_len (mkNode a b (PText s)) = length s.
Proof. reflexivity. Qed.
Lemma tl_tag a b t : text_len (mkNode a b (PTag t)) = 0.
Proof. reflexivity. Qed.
Lemma v_set_text id s d c : texts d <= c -> V (length s) (c + length s) (x_set_text id s d).
Proof.
  intros H. unfold x_set_text, V, xq, x_bind, x_emit, xlift. cbn [snd fst app]. destruct (set_pay d id (PText s)) as [d'| | |] eqn:E; auto.
  destruct (set_pay_parts _ _ _ _ E) as (n & N & ->). split; [unfold x_bytes; cbn [map x_byt1]; change (list_sum [length s]) with (length s + 0); lia|].
  pose proof (texts_upd d id (mkNode (n_id n) (n_type n) (PText s)) n N) as X. rewrite tl_text in X. lia.
Qed.
Lemma texts_push d n : texts (push_node d n) = texts d + text_len n.
Proof. unfold texts, push_node. cbn. rewrite map_app, list_sum_app. cbn. lia. Qed.
Lemma v_create ty d c : texts d <= c -> V2 0 c (emb (t_create_node ty d)).
Proof.
  intros H. unfold t_create_node. destruct (_ <=? _)%N; [|exact I]. split; [apply Nat.le_refl|]. cbn [snd emb]. 
  change (texts (push_node d (mkNode (length (nodes d)) ty PNone)) <= c). rewrite texts_push. cbn. lia.
Qed.
Lemma v_text_element s d c : texts d <= c -> V2 (length s) (c + length s) (x_parse_text_element s d).
Proof.
  intros H. unfold x_parse_text_element. apply (V2_bind2 0 c (length s) (c + length s)); [now apply v_create| |lia].
  intros id d1 H1. apply (V_bind2 (length s) (c + length s) 0 (c + length s)); [now apply v_set_text|intros; now apply V2_ret|lia].
Qed.
(** Events of TraceModel that write no text. *)
Lemma v_quiet (x : tr dom) d c : texts d <= c -> trq (fun l d' => list_sum (map piece_len l) = 0 /\ texts d' <= texts d) x -> V 0 c (emb x).
Proof. intros H K. eapply xq_emb; [exact K|]. intros l d' [X Y]. rewrite x_bytes_emb. split; lia. Qed.
Lemma piece0_app l l' : list_sum (map piece_len (l ++ l')) = list_sum (map piece_len l) + list_sum (map piece_len l').
Proof. now rewrite map_app, list_sum_app. Qed.
Lemma q_insert s m : trq (fun l _ => list_sum (map piece_len l) = 0) (t_map_insert s m).
Proof. unfold t_map_insert, trq, t_bind, lift, emit, t_ret. cbn. destruct (map_insert s m) as [[[[|] id] m']| | |]; cbn; auto. Qed.
Lemma q_intern_bool s d : trq (fun l r => list_sum (map piece_len l) = 0 /\ nodes (snd r) = nodes d) (t_intern_bool s d).
Proof. unfold t_intern_bool, t_map_insert, trq, t_bind, lift, emit, t_ret. cbn. destruct (map_insert s (bool_map d)) as [[[[|] id] m']| | |]; cbn; auto. Qed.
Lemma q_intern_key s d : trq (fun l r => list_sum (map piece_len l) = 0 /\ nodes (snd r) = nodes d) (t_intern_key s d).
Proof. unfold t_intern_key, t_map_insert, trq, t_bind, lift, emit, t_ret. cbn. destruct (map_insert s (key_map d)) as [[[[|] id] m']| | |]; cbn; auto. Qed.
Lemma q_intern_val s d : trq (fun l r => list_sum (map piece_len l) = 0 /\ nodes (snd r) = nodes d) (t_intern_val s d).
Proof. unfold t_intern_val, t_map_insert, trq, t_bind, lift, emit, t_ret. cbn. destruct (map_insert s (val_map d)) as [[[[|] id] m']| | |]; cbn; auto. Qed.
Lemma q_bool id b d : trq (fun l d' => list_sum (map piece_len l) = 0 /\ texts d' <= texts d) (t_add_bool_property id b d).
Proof.
  unfold t_add_bool_property. eapply trq_bind; [apply q_intern_bool|]. intros l [bid d1] [X Y]. apply trq_note. cbn [snd] in Y.
  cbn. rewrite piece0_app. cbn. split; [lia|]. unfold texts. cbn. rewrite Y. apply Nat.le_refl.
Qed.
Lemma q_prop id k v d : trq (fun l d' => list_sum (map piece_len l) = 0 /\ texts d' <= texts d) (t_add_property id k v d).
Proof.
  unfold t_add_property. eapply trq_bind; [apply q_intern_key|]. intros l [kid d1] [X Y].
  eapply trq_bind; [apply q_intern_val|]. intros l' [vid d2] [X' Y']. apply trq_note. cbn [snd] in *.
  cbn. rewrite !piece0_app. cbn. split; [lia|]. unfold texts. cbn. rewrite Y', Y. apply Nat.le_refl.
Qed.
Lemma q_tag tag id paired d : trq (fun l d' => list_sum (map piece_len l) = 0 /\ texts d' <= texts d) (t_set_tag tag id paired d).
Proof.
  unfold t_set_tag, t_map_insert, trq, t_bind, lift, emit, t_ret. cbn.
  destruct (map_insert tag (tag_map d)) as [[[[|] tid] m]| | |]; cbn; auto;
    match goal with |- match ?x with _ => _ end => destruct x as [d'| | |] eqn:E end; auto;
    destruct (set_pay_parts _ _ _ _ E) as (n & N & ->); (split; [reflexivity|]);
    match goal with |- texts (set_nodes ?d1 _) <= _ => pose proof (texts_upd d1 id (mkNode (n_id n) (n_type n) (PTag tid)) n N) as X end;
    rewrite tl_tag in X;
    match type of X with _ = texts ?z + 0 => change (texts z) with (texts d) in X end; lia.
Qed.
Lemma v_bools id c l : forall d, texts d <= c -> V 0 c (x_add_bools id l d).
Proof.
  induction l as [|b l IH]; intros d H; cbn [x_add_bools]; [now apply V_ret|].
  apply (V_bind 0 c 0 c); [eapply v_quiet; [exact H|apply q_bool]|intros; now apply IH|lia].
Qed.
Lemma v_props id c l : forall d, texts d <= c -> V 0 c (x_add_props id l d).
Proof.
  induction l as [|[k v] l IH]; intros d H; cbn [x_add_props]; [now apply V_ret|].
  apply (V_bind 0 c 0 c); [eapply v_quiet; [exact H|apply q_prop]|intros; now apply IH|lia].
Qed.
Lemma v_document_element e d c : texts d <= c -> V2 0 c (x_parse_document_element e d).
Proof.
  intros H. unfold x_parse_document_element. apply (V2_bind2 0 c 0 c); [now apply v_create| |lia]. intros id d1 H1.
  apply (V_bind2 0 c 0 c); [eapply v_quiet; [exact H1|apply q_tag]| |lia]. intros d2 H2.
  apply (V_bind2 0 c 0 c); [now apply v_bools| |lia]. intros d3 H3. apply (V_bind2 0 c 0 c); [now apply v_props|intros; now apply V2_ret|lia].
Qed.
Lemma v_extra bl h d c : texts d <= c -> V2 (length h) (c + length h) (x_parse_extra bl h d).
Proof.
  intros H. pose proof (sz_parse h bl 0 [] d) as G. pose proof (s_parse_extra bl h d) as S. unfold parse_extra in S. rewrite <- S in G. clear S.
  unfold x_parse_extra in *. unfold V2, xq. rewrite xsnd_bind in *. unfold x_bind. cbn [xlift snd fst app] in *.
  destruct (skip_space h 0) as [i| | |]; cbn [bind] in *; auto. cbn [emb snd fst].
  pose proof (k_loop (S (length h)) bl h 0 i 0 [] d) as K. unfold trq in K. cbn [emb snd] in G.
  destruct (snd (t_parse_loop _ _ _ _ _ _ _ _)) as [[b d']| | |]; auto. destruct K as [K1 _ _ _ _ _ _ _ _ _ _ _ K13]. cbn [okq] in G.
  destruct G as [_ G _ _ _ _ _ _ _]. cbn [snd]. rewrite x_bytes_emb, (pieces_sum _ false (K1 false)).
  assert (X : texts d' = texts d + list_sum (map (@length N) (ev_texts (fst (t_parse_loop (S (length h)) bl h 0 i 0 [] d))))).
  { unfold texts. rewrite !texts_ntexts, K13, map_app, list_sum_app. reflexivity. }
  split; lia.
Qed.
Lemma v_addtext id s a d c : texts d <= c -> V (c + 1 + length s) (c + 1 + length s) (x_add_text id s a d).
Proof.
  intros H. unfold x_add_text. apply V_lift. intros n Hn. apply V_lift. intros old Ho. apply node_text_len in Ho. apply get_node_nth in Hn.
  pose proof (texts_node _ _ _ Hn) as L. set (r := if a then _ else _).
  assert (Lr : length r = length old + 1 + length s) by (unfold r; destruct a; rewrite !app_length; cbn; lia).
  unfold x_set_text, V, xq, x_bind, x_emit, xlift. cbn [snd fst app]. destruct (set_pay d id (PText r)) as [d'| | |] eqn:E; auto.
  destruct (set_pay_parts _ _ _ _ E) as (m & M & ->). rewrite Hn in M. injection M as <-.
  split; [unfold x_bytes; cbn [map x_byt1]; change (list_sum [length r]) with (length r + 0); lia|].
  pose proof (texts_upd d id (mkNode (n_id n) (n_type n) (PText r)) n Hn) as X. rewrite tl_text in X. lia.
Qed.
Lemma v_merge t s a d c : texts d <= c -> V2 (2 * c + 1) (2 * c + 1) (x_try_merge t s a d).
Proof.
  intros H. unfold x_try_merge. apply V2_lift. intros n _. destruct (is_text n); [|apply V2_ret; lia]. apply V2_lift. intros m Hm. apply V2_lift. intros x Hx.
  apply get_node_nth in Hm. apply node_text_len in Hx. pose proof (texts_node _ _ _ Hm) as L.
  apply (V_bind2 (2 * c + 1) (2 * c + 1) 0 (2 * c + 1)); [eapply V_le; [now apply (v_addtext t x a d c)|lia|lia]|intros; now apply V2_ret|lia].
Qed.
Lemma v_both o x d c : texts d <= c -> V2 (2 * c + 1) (2 * c + 1) (x_try_merge_both o x d).
Proof.
  intros H. unfold x_try_merge_both. apply V2_lift. intros n _. destruct (is_text n); [|apply V2_ret; lia].
  assert (Nx : forall d0 g, texts d0 <= c -> V2 (2 * c + 1) (2 * c + 1) (match next_idx o d0 with
       | Some j =>
           log^ XLoad 4 j (length (nexts d0)) then
           log^ XLoad 1 x g then
           x_try_merge (snd (at_idx (nexts d0) j)) (n_id n) false d0
       | None => x_ret (false, d0)
       end)).
  { intros d0 g H0. destruct (next_idx o d0); [|apply V2_ret; lia]. apply V2_load, V2_load. now apply v_merge. }
  destruct (prev_idx o d) as [i|]; [|now apply Nx]. apply V2_load, V2_load.
  (* a failed merge writes nothing *)
  assert (M : xq (fun l r => if fst r : bool then x_bytes l <= 2 * c + 1 /\ texts (snd r) <= 2 * c + 1 else x_bytes l = 0 /\ texts (snd r) <= c)
                 (x_try_merge (fst (at_idx (nexts d) i)) (n_id n) true d)).
  { pose proof (v_merge (fst (at_idx (nexts d) i)) (n_id n) true d c H) as W. unfold V2 in W. unfold x_try_merge in *.
    apply xq_lift. intros m Hm. rewrite Hm in W. destruct (is_text m) eqn:Em; [|cbn; split; [reflexivity|exact H]].
    clear Nx. revert W. unfold xq, x_bind, xlift, x_ret. cbn [snd fst]. rewrite Em. cbn [snd fst app].
    destruct (get_node d (n_id n)) as [y| | |]; cbn [snd fst]; auto. destruct (node_text y) as [s| | |]; cbn [snd fst app]; auto.
    destruct (snd (x_add_text _ _ _ _)); cbn [snd fst]; auto. }
  eapply xq_bind; [exact M|]. intros l [[|] d1] E; cbn [fst snd] in E; destruct E as [E1 E2].
  - cbn. rewrite app_nil_r. split; assumption.
  - eapply xq_imp; [exact (Nx d1 _ E2)|]. intros l' r [X Y]. rewrite x_bytes_app. split; [lia|exact Y].
Qed.

Lemma v_append_html bl p h d : V2 (3 * length h + 2 * texts d + 1) (2 * (texts d + length h) + 1) (x_append_html bl p h d).
Proof.
  set (c := texts d + length h). set (C := 2 * c + 1).
  assert (Fin : forall fn d, texts d <= C -> V2 0 C (do^ d := x_append_refs p fn d in x_ret (fn, d))).
  { intros. apply (V_bind2 0 C 0 C); [now apply v_append_r|intros; now apply V2_ret|lia]. }
  unfold x_append_html. apply (V2_bind2 (length h) c (2 * c + 1) C); [now apply v_extra| |unfold c; lia].
  intros [|] d1 H1; cbn [negb]; [|apply V2_ret; unfold C; lia].
  assert (W : texts d1 <= C) by (unfold C; lia).
  assert (Fin' : forall fn d, texts d <= C -> V2 (2 * c + 1) C (do^ d := x_append_refs p fn d in x_ret (fn, d))).
  { intros. eapply V2_le; [now apply Fin|lia|lia]. }
  destruct (0 <? get_first_child p d1); [|now apply Fin']. apply V2_lift. intros ln _. apply V2_lift. intros n _.
  destruct (_ <? ln); (destruct (is_text n); [|now apply Fin']); apply V2_lift; intros fc _; apply V2_load;
    (apply (V2_bind2 (2 * c + 1) C 0 C); [now apply v_merge| |lia]); intros [|] d2 H2; try (now apply Fin);
    (apply (V_bind2 0 C 0 C); [now apply v_remove| |lia]); intros d3 H3; [now apply Fin|now apply V2_ret].
Qed.
Lemma v_prepend_html bl p h d : V2 (3 * length h + 2 * texts d + 1) (2 * (texts d + length h) + 1) (x_prepend_html bl p h d).
Proof.
  set (c := texts d + length h). set (C := 2 * c + 1).
  assert (Fin : forall fn d, texts d <= C -> V2 0 C (do^ d := x_prepend_refs p fn d in x_ret (fn, d))).
  { intros. apply (V_bind2 0 C 0 C); [now apply v_prepend_r|intros; now apply V2_ret|lia]. }
  unfold x_prepend_html. apply (V2_bind2 (length h) c (2 * c + 1) C); [now apply v_extra| |unfold c; lia].
  intros [|] d1 H1; cbn [negb]; [|apply V2_ret; unfold C; lia].
  assert (W : texts d1 <= C) by (unfold C; lia).
  assert (Fin' : forall fn d, texts d <= C -> V2 (2 * c + 1) C (do^ d := x_prepend_refs p fn d in x_ret (fn, d))).
  { intros. eapply V2_le; [now apply Fin|lia|lia]. }
  destruct (0 <? get_first_child p d1); [|now apply Fin']. apply V2_lift. intros ln _.
  destruct (_ <? ln); apply V2_lift; intros n _; (destruct (is_text n); [|now apply Fin']); apply V2_load;
    (apply (V2_bind2 (2 * c + 1) C 0 C); [now apply v_merge| |lia]); intros [|] d2 H2; try (now apply Fin);
    (apply (V_bind2 0 C 0 C); [now apply v_remove| |lia]); intros d3 H3; [now apply Fin|now apply V2_ret].
Qed.
Lemma v_replace_html bl p h d : V2 (7 * length h + 6 * texts d + 4) (4 * (texts d + length h) + 3) (x_replace_with_html bl p h d).
Proof.
  set (c := texts d + length h). set (C := 2 * c + 1). set (D := 4 * c + 3).
  assert (Fin : forall fn d, texts d <= D -> V2 0 D (do^ d := x_replace_refs p fn d in x_ret (fn, d))).
  { intros. apply (V_bind2 0 D 0 D); [now apply v_replace_r|intros; now apply V2_ret|lia]. }
  unfold x_replace_with_html. apply (V2_bind2 (length h) c (6 * c + 4) D); [now apply v_extra| |unfold c; lia].
  intros [|] d1 H1; cbn [negb]; [|apply V2_ret; unfold D; lia].
  apply V2_lift. intros ln _. destruct (_ <? ln).
  - apply V2_lift. intros n _. apply (V2_bind2 (2 * c + 1) C (4 * c + 3) D); [| |lia].
    + destruct (is_text n); [|apply V2_ret; unfold C; lia]. destruct (prev_idx p d1); [|apply V2_ret; unfold C; lia]. apply V2_load, V2_load.
      apply (V2_bind2 (2 * c + 1) C 0 C); [now apply v_merge| |lia]. intros [|] d2 H2; [|now apply V2_ret].
      apply (V_bind2 0 C 0 C); [now apply v_remove|intros; now apply V2_ret|lia].
    + intros fn d2 H2. apply V2_lift. intros m _. apply (V_bind2 (4 * c + 3) D 0 D); [|intros; now apply Fin|lia].
      assert (W : texts d2 <= D) by (unfold C, D in *; lia).
      destruct (is_text m); [|now apply V_ret]. destruct (next_idx p d2); [|now apply V_ret]. apply V_load.
      apply (V2_bind (4 * c + 3) D 0 D); [eapply V2_le; [now apply (v_merge _ _ _ d2 C)|unfold C; lia|unfold C, D; lia]| |lia].
      intros [|] d3 H3; [now apply v_remove|now apply V_ret].
  - apply (V2_bind2 (2 * c + 1) D (4 * c + 3) D); [eapply V2_le; [now apply (v_both _ _ d1 c)|lia|unfold D; lia]| |lia].
    intros [|] d2 H2; [|eapply V2_le; [now apply Fin|lia|lia]]. eapply V2_le; [|apply Nat.le_0_l|apply Nat.le_refl].
    apply (V_bind2 0 D 0 D); [now apply v_remove| |lia]. intros d3 H3.
    apply (V_bind2 0 D 0 D); [now apply v_remove| |lia]. intros d4 H4. destruct (prev_idx p d1); [|exact I]. apply V2_load. now apply V2_ret.
Qed.
Lemma v_append_text p s d : V2 (3 * length s + 2 * texts d + 1) (2 * (texts d + length s) + 1) (x_append_text_node p s d).
Proof.
  set (c := texts d + length s). set (C := 2 * c + 1).
  unfold x_append_text_node. apply (V2_bind2 (length s) c (2 * c + 1) C); [now apply v_text_element| |unfold c; lia].
  intros x d1 H1. assert (W : texts d1 <= C) by (unfold C; lia). destruct (x =? 0); [now apply V2_ret|].
  destruct (0 <? _); [|apply (V_bind2 0 C 0 C); [now apply v_append_r|intros; now apply V2_ret|lia]]. apply V2_lift. intros fc _.
  apply (V2_bind2 (2 * c + 1) C 0 C); [now apply v_merge| |lia].
  intros [|] d2 H2; (apply (V_bind2 0 C 0 C); [first [now apply v_remove|now apply v_append_r]|intros; now apply V2_ret|lia]).
Qed.
Lemma v_prepend_text p s d : V2 (3 * length s + 2 * texts d + 1) (2 * (texts d + length s) + 1) (x_prepend_text_node p s d).
Proof.
  set (c := texts d + length s). set (C := 2 * c + 1).
  unfold x_prepend_text_node. apply (V2_bind2 (length s) c (2 * c + 1) C); [now apply v_text_element| |unfold c; lia].
  intros x d1 H1. assert (W : texts d1 <= C) by (unfold C; lia). destruct (x =? 0); [now apply V2_ret|].
  destruct (0 <? _); [|apply (V_bind2 0 C 0 C); [now apply v_prepend_r|intros; now apply V2_ret|lia]].
  apply (V2_bind2 (2 * c + 1) C 0 C); [now apply v_merge| |lia].
  intros [|] d2 H2; (apply (V_bind2 0 C 0 C); [first [now apply v_remove|now apply v_prepend_r]|intros; now apply V2_ret|lia]).
Qed.
Lemma v_replace_text p s d : V2 (3 * length s + 2 * texts d + 1) (2 * (texts d + length s) + 1) (x_replace_with_text_node p s d).
Proof.
  set (c := texts d + length s). set (C := 2 * c + 1).
  unfold x_replace_with_text_node. apply (V2_bind2 (length s) c (2 * c + 1) C); [now apply v_text_element| |unfold c; lia].
  intros x d1 H1. assert (W : texts d1 <= C) by (unfold C; lia). destruct (x =? 0); [now apply V2_ret|].
  apply (V2_bind2 (2 * c + 1) C 0 C); [now apply v_both| |lia]. intros [|] d2 H2.
  - apply (V_bind2 0 C 0 C); [now apply v_remove| |lia]. intros d3 H3. apply (V_bind2 0 C 0 C); [now apply v_remove|intros; now apply V2_ret|lia].
  - apply (V_bind2 0 C 0 C); [now apply v_replace_r|intros; now apply V2_ret|lia].
Qed.

Definition B (b : nat) (x : xtr dom) : Prop := xq (fun l _ => x_bytes l <= b) x.
Lemma B_V b c x : V b c x -> B b x.
Proof. intros H. eapply xq_imp; [exact H|]. intros l d [X _]. exact X. Qed.
Lemma B_V2 b c (x : xtr (nat * dom)) : V2 b c x -> B b (do^ '(_, d) := x in x_ret d).
Proof. intros H. eapply xq_bind; [exact H|]. intros l [a d] [X _]. cbn. rewrite app_nil_r. exact X. Qed.

Theorem x_run_bytes bl o d : B (op_text_bytes o (texts d)) (x_run bl o d).
Proof.
  destruct o; cbn [x_run op_text_bytes].
  - eapply (B_V2 0 (texts d)). unfold x_append_document_node. apply (V2_bind2 0 (texts d) 0 (texts d)); [now apply v_document_element| |lia].
    intros x d1 H1. destruct (x =? 0); [now apply V2_ret|]. apply (V_bind2 0 (texts d) 0 (texts d)); [now apply v_append_r|intros; now apply V2_ret|lia].
  - eapply B_V2, v_append_text.
  - eapply B_V2, v_append_html.
  - eapply (B_V2 0 (texts d)). unfold x_prepend_document_node. apply (V2_bind2 0 (texts d) 0 (texts d)); [now apply v_document_element| |lia].
    intros x d1 H1. destruct (x =? 0); [now apply V2_ret|]. apply (V_bind2 0 (texts d) 0 (texts d)); [now apply v_prepend_r|intros; now apply V2_ret|lia].
  - eapply B_V2, v_prepend_text.
  - eapply B_V2, v_prepend_html.
  - eapply (B_V2 0 (texts d)). unfold x_replace_with_document_node. apply (V2_bind2 0 (texts d) 0 (texts d)); [now apply v_document_element| |lia].
    intros x d1 H1. destruct (x =? 0); [now apply V2_ret|]. apply (V_bind2 0 (texts d) 0 (texts d)); [now apply v_replace_r|intros; now apply V2_ret|lia].
  - eapply B_V2, v_replace_text.
  - eapply B_V2, v_replace_html.
  - eapply B_V. now apply (v_remove n d (texts d)).
  - eapply B_V. now apply (v_remove_ch n d (texts d)).
  - apply (B_V _ (texts d + length s)). unfold x_set_text_content. apply (V_bind 0 (texts d) (length s) (texts d + length s)); [now apply v_remove_ch| |lia].
    intros d1 H1. apply (V2_bind (length s) (texts d + length s) 0 (texts d + length s)); [now apply v_text_element| |lia]. intros x d2 H2.
    apply (V_bind 0 (texts d + length s) 0 (texts d + length s)); [now apply v_push_f|intros; now apply v_push_p|lia].
  - eapply (B_V _ (texts d)), v_quiet; [apply Nat.le_refl|apply q_bool].
  - eapply (B_V _ (texts d)), v_quiet; [apply Nat.le_refl|apply q_prop].
  - apply (B_V _ (texts d)). unfold x_remove_bool_property. apply V_lift. intros i _. destruct (0 <? i); [|now apply V_ret].
    destruct (bprop_idx n i d); [now apply v_store_b|now apply V_ret].
  - apply (B_V _ (texts d)). unfold x_remove_property. apply V_lift. intros i _. destruct (0 <? i); [|now apply V_ret].
    destruct (prop_idx n i d); [now apply v_store_r|now apply V_ret].
  - assert (Q : V2 0 (texts d) (x_set_property_value n k v d)).
    { unfold x_set_property_value. apply V2_lift. intros kid _. destruct (kid =? 0); [now apply V2_ret|].
      destruct (prop_idx n kid d); [|now apply V2_ret]. apply (V2_bind2 0 (texts d) 0 (texts d)); [| |lia].
      - eapply xq_emb; [apply q_intern_val|]. intros l r [X Y]. rewrite x_bytes_emb. split; [lia|]. unfold texts. now rewrite Y.
      - intros vid d1 H1. destruct (nth_error (props d1) n0); [|exact I]. apply (V_bind2 0 (texts d) 0 (texts d)); [now apply v_store_r|intros; now apply V2_ret|lia]. }
    eapply xq_bind; [exact Q|]. intros l [a d1] [X _]. cbn. rewrite app_nil_r. exact X.
  - eapply B_V, V_le; [now apply (v_addtext n s app d (texts d))|lia|apply Nat.le_refl].
  - eapply (B_V _ (texts d)), v_quiet; [apply Nat.le_refl|apply q_tag].
Qed.
