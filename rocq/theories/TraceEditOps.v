(** * Every edit's record is a program that turns the old tables into the new ones. *)
From Coq Require Import List NArith ZArith Arith Bool Lia.
From Verif Require Import Base TrieModel DomModel ParserModel EditModel ApiSpec MemModel MemSpec Lemmas RegProofs MemProofs MemCost
  TraceModel TraceProofs TraceMem TraceEditModel TraceEditProofs TraceEditMem.
Import ListNotations.
Local Open Scope nat_scope.

Definition T (d : dom) (F : dom -> Prop) (x : xtr dom) : Prop := xq (fun l d' => xtracks l d d' /\ F d') x.
Definition T2 {A} (d : dom) (F : A -> dom -> Prop) (x : xtr (A * dom)) : Prop :=
  xq (fun l r => xtracks l d (snd r) /\ F (fst r) (snd r)) x.

Lemma xq_st {A B} (pa : A -> dom) (pb : B -> dom) (F : A -> Prop) (G : B -> Prop) d x f :
  xq (fun l a => xtracks l d (pa a) /\ F a) x ->
  (forall a, F a -> xq (fun l b => xtracks l (pa a) (pb b) /\ G b) (f a)) ->
  xq (fun l b => xtracks l d (pb b) /\ G b) (x_bind x f).
Proof.
  intros H K. eapply xq_bind; [exact H|]. intros l a [X Y]. eapply xq_imp; [exact (K a Y)|]. intros l' b [X' Y'].
  split; [|exact Y']. eapply xtracks_app; eassumption.
Qed.
Lemma T_bind F G d x f : T d F x -> (forall d', F d' -> T d' G (f d')) -> T d G (x_bind x f).
Proof. apply (xq_st (fun a => a) (fun b => b)). Qed.
Lemma T_bind2 {B} F (G : B -> dom -> Prop) d x f : T d F x -> (forall d', F d' -> T2 d' G (f d')) -> T2 d G (x_bind x f).
Proof. apply (xq_st (fun a => a) (fun b : B * dom => snd b) F (fun b => G (fst b) (snd b))). Qed.
Lemma T2_bind {A} (F : A -> dom -> Prop) G d x f : T2 d F x -> (forall a d', F a d' -> T d' G (f (a, d'))) -> T d G (x_bind x f).
Proof. intros H K. apply (xq_st (fun a : A * dom => snd a) (fun b => b) (fun a => F (fst a) (snd a)) G d x f H). intros [a d'] E. exact (K a d' E). Qed.
Lemma T2_bind2 {A B} (F : A -> dom -> Prop) (G : B -> dom -> Prop) d x f :
  T2 d F x -> (forall a d', F a d' -> T2 d' G (f (a, d'))) -> T2 d G (x_bind x f).
Proof.
  intros H K. apply (xq_st (fun a : A * dom => snd a) (fun b : B * dom => snd b) (fun a => F (fst a) (snd a)) (fun b => G (fst b) (snd b)) d x f H).
  intros [a d'] E. exact (K a d' E).
Qed.
Lemma T_lift {A} G d (o : outcome A) f : (forall a, o = Ok a -> T d G (f a)) -> T d G (x_bind (xlift o) f).
Proof. apply xq_lift. Qed.
Lemma T2_lift {A B} (G : B -> dom -> Prop) d (o : outcome A) f : (forall a, o = Ok a -> T2 d G (f a)) -> T2 d G (x_bind (xlift o) f).
Proof. apply xq_lift. Qed.
Lemma T_ret (G : dom -> Prop) d : G d -> T d G (x_ret d).
Proof. intros H. split; [apply xtracks_nil|exact H]. Qed.
Lemma T2_ret {A} (G : A -> dom -> Prop) (a : A) d : G a d -> T2 d G (x_ret (a, d)).
Proof. intros H. split; [apply xtracks_nil|exact H]. Qed.
Lemma T_load G d tab k g f : (1 <=? tab) && (tab <=? 6) = true -> g = nth (tab - 1) (lens d) 0 -> T d G (f tt) -> T d G (x_bind (x_emit (XLoad tab k g)) f).
Proof.
  intros B E H. apply (xq_bind (fun l a => l = [XLoad tab k g])); [reflexivity|]. intros l [] ->.
  eapply xq_imp; [exact H|]. intros l' d' [X Y]. split; [|exact Y]. eapply xtracks_app; [|exact X]. now apply one_load.
Qed.
Lemma T2_load {A} (G : A -> dom -> Prop) d tab k g f : (1 <=? tab) && (tab <=? 6) = true -> g = nth (tab - 1) (lens d) 0 -> T2 d G (f tt) -> T2 d G (x_bind (x_emit (XLoad tab k g)) f).
Proof.
  intros B E H. apply (xq_bind (fun l a => l = [XLoad tab k g])); [reflexivity|]. intros l [] ->.
  eapply xq_imp; [exact H|]. intros l' d' [X Y]. split; [|exact Y]. eapply xtracks_app; [|exact X]. now apply one_load.
Qed.
Lemma T_imp (F G : dom -> Prop) d x : T d F x -> (forall d', F d' -> G d') -> T d G x.
Proof. intros H K. eapply xq_imp; [exact H|]. intros l d' [X Y]. auto. Qed.
Lemma T2_imp {A} (F G : A -> dom -> Prop) d x : T2 d F x -> (forall a d', F a d' -> G a d') -> T2 d G x.
Proof. intros H K. eapply xq_imp; [exact H|]. intros l d' [X Y]. auto. Qed.

Definition same_lens (d d' : dom) : Prop := lens d' = lens d.
Definition any {A} : A -> dom -> Prop := fun _ _ => True.
Definition anyd : dom -> Prop := fun _ => True.
Lemma lens_nexts d d' : lens d' = lens d -> length (nexts d') = length (nexts d).
Proof. intros H. exact (f_equal (fun l => nth 3 l 0) H). Qed.
Lemma lens_pchilds d d' : lens d' = lens d -> length (pchilds d') = length (pchilds d).
Proof. intros H. exact (f_equal (fun l => nth 2 l 0) H). Qed.
Lemma lens_firsts d d' : lens d' = lens d -> length (firsts d') = length (firsts d).
Proof. intros H. exact (f_equal (fun l => nth 1 l 0) H). Qed.
Lemma lens_nodes d d' : lens d' = lens d -> length (nodes d') = length (nodes d).
Proof. intros H. exact (f_equal (fun l => nth 0 l 0) H). Qed.
Lemma idx_lt {A} (f : A -> bool) l i : find_idx f l = Some i -> i < length l.
Proof. intros H. apply find_idx_some in H as (x & N & _). apply nth_error_Some. congruence. Qed.
Lemma get_node_nth d id n : get_node d id = Ok n -> nth_error (nodes d) id = Some n.
Proof. unfold get_node. destruct (nth_error (nodes d) id); [|discriminate]. intros H. now injection H as ->. Qed.

(** Stores to the link tables keep lengths and nodes. *)
Definition ke (d d' : dom) : Prop := lens d' = lens d /\ nodes d' = nodes d.
Lemma t_next k g e d : g = length (nexts d) -> k < length (nexts d) -> T d (ke d) (st_next k g e d).
Proof. intros E L. pose proof (k_st_next k g e d E L) as [H H']. split; [exact H|]. split; [exact H'|reflexivity]. Qed.
Lemma t_first k g e d : g = length (firsts d) -> k < length (firsts d) -> T d (ke d) (st_first k g e d).
Proof. intros E L. pose proof (k_st_first k g e d E L) as [H H']. split; [exact H|]. split; [exact H'|reflexivity]. Qed.
Lemma t_pchild k g e d : g = length (pchilds d) -> k < length (pchilds d) -> T d (fun d' => ke d d' /\ firsts d' = firsts d) (st_pchild k g e d).
Proof. intros E L. pose proof (k_st_pchild k g e d E L) as [H H']. split; [exact H|]. split; [split; [exact H'|reflexivity]|reflexivity]. Qed.
Lemma ke_refl d : ke d d. Proof. split; reflexivity. Qed.
Lemma ke_trans a b c : ke a b -> ke b c -> ke a c. Proof. unfold ke. intros [] []. split; congruence. Qed.

Lemma x_unlink id d : T d (same_lens d) (x_unlink_node id d).
Proof.
  unfold x_unlink_node. apply T_lift. intros n Hn. apply get_node_nth in Hn.
  destruct (next_idx (n_id n) d) as [j|] eqn:Ej; [pose proof (idx_lt _ _ _ Ej) as Lj|];
  destruct (parent_idx (n_id n) d) as [i|] eqn:Ei; try (pose proof (idx_lt _ _ _ Ei) as Li);
  destruct (prev_idx (n_id n) d) as [v|] eqn:Ev; try (pose proof (idx_lt _ _ _ Ev) as Lv).
  all: apply (T_bind (ke d)).
  all: try (apply T_load; [reflexivity|reflexivity|]).
  all: try (apply t_next; auto).
  all: try (apply T_ret, ke_refl).
  all: intros d1 [L1 N1].
  all: apply (T_bind (ke d)).
  all: try (apply T_ret; split; assumption).
  all: try (apply T_load; [reflexivity|symmetry; exact (lens_pchilds _ _ L1)|]).
  all: try (eapply T_bind; [apply t_pchild; rewrite (lens_pchilds _ _ L1); auto|];
            intros d2 [[L2 N2] F2]; destruct (first_idx _ d2) as [k|] eqn:Ek; [pose proof (idx_lt _ _ _ Ek) as Lk|exact I];
            destruct (_ =? id); [|apply T_ret; split; congruence];
            try (apply T_load; [reflexivity|symmetry; exact (lens_nexts d d2 ltac:(congruence))|]);
            eapply T_imp; [apply t_first; auto|]; intros d3 [L3 N3]; split; congruence).
  all: intros d2 [L2 N2].
  all: apply (T_bind (ke d)).
  all: try (eapply T_imp; [apply t_next; rewrite ?(lens_nexts _ _ L2); auto|]; intros d3 [L3 N3]; split; congruence).
  all: try (apply T_ret; split; assumption).
  all: intros d3 [L3 N3].
  all: (eapply xq_imp; [apply (k_st_node id _ _ n); [now rewrite N3|now rewrite N3|now right]|]);
    intros l d4 [X Y]; (split; [exact X|]); unfold same_lens; congruence.
Qed.
Lemma x_remove_f fuel : (forall id d, T d (same_lens d) (x_remove_node_f fuel id d)) /\
  (forall id d, T d (same_lens d) (x_remove_children_f fuel id d)).
Proof.
  induction fuel as [|f [IH1 IH2]]; [split; intros; exact I|]. split; intros id d.
  - cbn [x_remove_node_f]. eapply T_bind; [apply IH2|]. intros d1 L1. eapply T_imp; [apply x_unlink|]. unfold same_lens in *. intros; congruence.
  - cbn [x_remove_children_f]. destruct (0 <? get_first_child id d); [|now apply T_ret]. eapply T_bind; [apply IH1|]. intros d1 L1.
    eapply T_imp; [apply IH2|]. unfold same_lens in *. intros; congruence.
Qed.
Lemma x_remove id d : T d (same_lens d) (x_remove_node id d). Proof. apply x_remove_f. Qed.
Lemma x_remove_ch id d : T d (same_lens d) (x_remove_children id d). Proof. apply x_remove_f. Qed.

Lemma x_remove_bool id b d : T d anyd (x_remove_bool_property id b d).
Proof.
  unfold x_remove_bool_property. apply T_lift. intros bid _. destruct (0 <? bid); [|now apply T_ret].
  destruct (bprop_idx id bid d) as [i|] eqn:E; [|now apply T_ret]. pose proof (k_st_bprop i _ (0, 0) d eq_refl (idx_lt _ _ _ E)) as [H _]. split; [exact H|exact I].
Qed.
Lemma x_remove_prop id b d : T d anyd (x_remove_property id b d).
Proof.
  unfold x_remove_property. apply T_lift. intros bid _. destruct (0 <? bid); [|now apply T_ret].
  destruct (prop_idx id bid d) as [i|] eqn:E; [|now apply T_ret]. pose proof (k_st_prop i _ (mkProp 0 0 0) d eq_refl (idx_lt _ _ _ E)) as [H _]. split; [exact H|exact I].
Qed.
Lemma intern_val_tabs v d : trq (fun l '(_, d') => nodes d' = nodes d /\ props d' = props d) (t_intern_val v d).
Proof.
  unfold t_intern_val, t_map_insert, trq, t_bind, lift, emit, t_ret. cbn.
  destruct (map_insert v (val_map d)) as [[[[|] id] m]| | |]; cbn; auto.
Qed.
Lemma trq_and {A} (P Q : list ev -> A -> Prop) x : trq P x -> trq Q x -> trq (fun l a => P l a /\ Q l a) x.
Proof. unfold trq. destruct (snd x); auto. Qed.
Lemma x_set_prop id k v d : T2 d any (x_set_property_value id k v d).
Proof.
  unfold x_set_property_value. apply T2_lift. intros kid _. destruct (kid =? 0); [now apply T2_ret|].
  destruct (prop_idx id kid d) as [i|] eqn:E; [|now apply T2_ret]. pose proof (idx_lt _ _ _ E) as L.
  apply (T2_bind2 (fun _ d' => props d' = props d)).
  - eapply xq_emb; [exact (trq_and _ _ _ (k_intern_val v d) (intern_val_tabs v d))|].
    intros l [a d'] [[X _] [_ Y]]. cbn [fst snd]. split; [apply tabs_x, tracks_tabs, X|exact Y].
  - intros vid d1 P. destruct (nth_error (props d1) i) as [p|]; [|exact I]. apply (T_bind2 anyd); [|intros d2 _; now apply T2_ret].
    pose proof (k_st_prop i (length (props d)) (mkProp (p_node p) (p_key p) vid) d1 ltac:(now rewrite P) ltac:(rewrite P; exact L)) as [H _].
    split; [exact H|exact I].
Qed.

Lemma x_text_element s d : T2 d any (x_parse_text_element s d).
Proof.
  unfold x_parse_text_element. apply (T2_bind2 any).
  - eapply xq_emb; [apply k_create|]. intros l [id d'] (_ & _ & X & _). split; [apply tabs_x, tracks_tabs, X|exact I].
  - intros id d1 _. apply (T_bind2 anyd); [|intros; now apply T2_ret]. eapply xq_imp; [apply k_set_text|]. intros l d' [X _]. split; [exact X|exact I].
Qed.
Lemma x_bools id l : forall d, T d anyd (x_add_bools id l d).
Proof.
  induction l as [|b l IH]; intros d; cbn [x_add_bools]; [now apply T_ret|]. apply (T_bind anyd); [|intros; apply IH].
  eapply xq_emb; [apply k_add_bool|]. intros l' d' [X _]. split; [apply tabs_x, tracks_tabs, X|exact I].
Qed.
Lemma x_props id l : forall d, T d anyd (x_add_props id l d).
Proof.
  induction l as [|[k v] l IH]; intros d; cbn [x_add_props]; [now apply T_ret|]. apply (T_bind anyd); [|intros; apply IH].
  eapply xq_emb; [apply k_add_property|]. intros l' d' [X _]. split; [apply tabs_x, tracks_tabs, X|exact I].
Qed.
Lemma x_tag tag id paired d : T d anyd (emb (t_set_tag tag id paired d)).
Proof. eapply xq_emb; [apply k_set_tag_any|]. intros l d' [X _]. split; [apply tabs_x, X|exact I]. Qed.
Lemma x_document_element e d : T2 d any (x_parse_document_element e d).
Proof.
  unfold x_parse_document_element. apply (T2_bind2 any).
  - eapply xq_emb; [apply k_create|]. intros l [id d'] (_ & _ & X & _). split; [apply tabs_x, tracks_tabs, X|exact I].
  - intros id d1 _. apply (T_bind2 anyd); [apply x_tag|]. intros d2 _. apply (T_bind2 anyd); [apply x_bools|]. intros d3 _.
    apply (T_bind2 anyd); [apply x_props|]. intros d4 _. now apply T2_ret.
Qed.
Lemma x_extra bl t d : T2 d any (x_parse_extra bl t d).
Proof.
  unfold x_parse_extra. apply T2_lift. intros i _. eapply xq_emb; [apply k_loop|]. intros l [b d'] X. split; [apply tabs_x, tracks_tabs, X|exact I].
Qed.
Lemma x_addtext id s a d : T d (same_lens d) (x_add_text id s a d).
Proof. unfold x_add_text. apply T_lift. intros n _. apply T_lift. intros old _. exact (k_set_text _ _ _). Qed.
Lemma x_merge t s a d : T2 d (fun _ => same_lens d) (x_try_merge t s a d).
Proof.
  unfold x_try_merge. apply T2_lift. intros n _. destruct (is_text n); [|now apply T2_ret]. apply T2_lift. intros m _. apply T2_lift. intros x _.
  eapply T_bind2; [apply x_addtext|]. intros d' L. now apply T2_ret.
Qed.
(** Pushing to [parentChilds] leaves the other tables alone. *)
Definition kc (d d' : dom) : Prop := nodes d' = nodes d /\ firsts d' = firsts d /\ nexts d' = nexts d.
Lemma x_connect fuel p : forall c d, T d (kc d) (x_connect_loop fuel p c d).
Proof.
  induction fuel as [|f IH]; intros c d; cbn [x_connect_loop]; (destruct (0 <? c); [|apply T_ret; repeat split]); [exact I|].
  eapply T_bind; [apply k_p_pchild|]. intros d1 ->. eapply T_imp; [apply IH|]. intros d2 H. exact H.
Qed.
Lemma x_append_r p x d : T d anyd (x_append_refs p x d).
Proof.
  unfold x_append_refs. destruct (first_idx p d) as [i|].
  - apply T_load; [reflexivity|reflexivity|]. apply T_lift. intros l _. eapply T_bind; [apply k_p_next|]. intros d1 _.
    eapply T_bind; [apply k_p_pchild|]. intros d2 _. eapply T_imp; [apply x_connect|now intros].
  - eapply T_bind; [apply k_p_first|]. intros d1 _. eapply T_bind; [apply k_p_pchild|]. intros d2 _. eapply T_imp; [apply x_connect|now intros].
Qed.
Lemma x_prepend_r p x d : T d anyd (x_prepend_refs p x d).
Proof.
  unfold x_prepend_refs. destruct (first_idx p d) as [i|] eqn:E.
  - apply T_load; [reflexivity|reflexivity|]. eapply T_bind; [apply t_first; [reflexivity|exact (idx_lt _ _ _ E)]|]. intros d0 _.
    apply T_lift. intros l _. eapply T_bind; [apply k_p_next|]. intros d1 _.
    eapply T_bind; [apply k_p_pchild|]. intros d2 _. eapply T_imp; [apply x_connect|now intros].
  - eapply T_bind; [apply k_p_first|]. intros d1 _. eapply T_bind; [apply k_p_pchild|]. intros d2 _. eapply T_imp; [apply x_connect|now intros].
Qed.
Lemma x_replace_r o x d : T d anyd (x_replace_refs o x d).
Proof.
  unfold x_replace_refs. apply T_lift. intros n Hn. apply get_node_nth in Hn. apply T_lift. intros l _.
  set (pf := match parent_idx o d with Some i => first_idx (fst (at_idx (pchilds d) i)) d | None => None end).
  apply (T_bind (ke d)).
  { destruct (prev_idx o d) as [v|] eqn:Ev; [apply t_next; [reflexivity|exact (idx_lt _ _ _ Ev)]|].
    destruct pf as [k|] eqn:Ek; [|apply T_ret, ke_refl]. unfold pf in Ek. destruct (parent_idx o d); [|discriminate].
    apply t_first; [reflexivity|exact (idx_lt _ _ _ Ek)]. }
  intros d1 [L1 N1]. apply (T_bind (fun d' => length (nexts d') = length (nexts d) /\ nodes d' = nodes d)).
  { destruct (parent_idx o d) as [i|] eqn:Ei; [|apply T_ret; split; [exact (lens_nexts _ _ L1)|exact N1]].
    apply T_load; [reflexivity|symmetry; exact (lens_pchilds _ _ L1)|].
    eapply T_bind; [apply t_pchild; rewrite (lens_pchilds _ _ L1); [reflexivity|exact (idx_lt _ _ _ Ei)]|].
    intros d2 [[L2 N2] _]. eapply T_imp; [apply x_connect|]. intros d3 (A & B & C). split; [|congruence].
    rewrite C. apply lens_nexts. congruence. }
  intros d2 [L2 N2]. apply (T_bind (fun d' => nodes d' = nodes d)).
  { destruct (next_idx o d) as [j|] eqn:Ej; [|now apply T_ret]. eapply T_imp; [apply t_next; [now rewrite L2|rewrite L2; exact (idx_lt _ _ _ Ej)]|].
    intros d3 [_ N3]. congruence. }
  intros d3 N3. eapply xq_imp; [apply (k_st_node o _ _ n); [now rewrite N3|now rewrite N3|now left]|].
  intros l' d4 [X _]. split; [exact X|exact I].
Qed.
Lemma x_both o x d : T2 d (fun _ => same_lens d) (x_try_merge_both o x d).
Proof.
  unfold x_try_merge_both. apply T2_lift. intros n _. destruct (is_text n); [|now apply T2_ret].
  assert (Nx : forall d0, same_lens d d0 -> T2 d0 (fun _ => same_lens d) (match next_idx o d0 with
       | Some j =>
           log^ XLoad 4 j (length (nexts d0)) then
           log^ XLoad 1 x (length (nodes d)) then
           x_try_merge (snd (at_idx (nexts d0) j)) (n_id n) false d0
       | None => x_ret (false, d0)
       end)).
  { intros d0 L0. destruct (next_idx o d0); [|now apply T2_ret]. apply T2_load; [reflexivity|reflexivity|].
    apply T2_load; [reflexivity|symmetry; exact (lens_nodes _ _ L0)|]. eapply T2_imp; [apply x_merge|]. unfold same_lens in *. intros; congruence. }
  destruct (prev_idx o d); [|now apply Nx]. apply T2_load; [reflexivity|reflexivity|]. apply T2_load; [reflexivity|reflexivity|].
  eapply T2_bind2; [apply x_merge|]. intros [|] d1 L1; [now apply T2_ret|]. now apply Nx.
Qed.

Ltac fin := intros; now apply T2_ret.
Lemma x_append_html' bl p h d : T2 d any (x_append_html bl p h d).
Proof.
  assert (Fin : forall fn d, T2 d any (do^ d := x_append_refs p fn d in x_ret (fn, d))) by (intros; eapply T_bind2; [apply x_append_r|fin]).
  unfold x_append_html. eapply T2_bind2; [apply x_extra|]. intros [|] d1 _; cbn [negb]; [|now apply T2_ret].
  destruct (0 <? get_first_child p d1); [|apply Fin]. apply T2_lift. intros ln _. apply T2_lift. intros n _.
  destruct (_ <? ln); (destruct (is_text n); [|apply Fin]); apply T2_lift; intros fc _; (apply T2_load; [reflexivity|reflexivity|]);
    (eapply T2_bind2; [apply x_merge|]); intros [|] d2 L2; try apply Fin; (eapply T_bind2; [apply x_remove|]); intros d3 L3; [apply Fin|now apply T2_ret].
Qed.
Lemma x_prepend_html' bl p h d : T2 d any (x_prepend_html bl p h d).
Proof.
  assert (Fin : forall fn d, T2 d any (do^ d := x_prepend_refs p fn d in x_ret (fn, d))) by (intros; eapply T_bind2; [apply x_prepend_r|fin]).
  unfold x_prepend_html. eapply T2_bind2; [apply x_extra|]. intros [|] d1 _; cbn [negb]; [|now apply T2_ret].
  destruct (0 <? get_first_child p d1); [|apply Fin]. apply T2_lift. intros ln _.
  destruct (_ <? ln); apply T2_lift; intros n _; (destruct (is_text n); [|apply Fin]); (apply T2_load; [reflexivity|reflexivity|]);
    (eapply T2_bind2; [apply x_merge|]); intros [|] d2 L2; try apply Fin; (eapply T_bind2; [apply x_remove|]); intros d3 L3; [apply Fin|now apply T2_ret].
Qed.
Lemma x_replace_html' bl p h d : T2 d any (x_replace_with_html bl p h d).
Proof.
  assert (Fin : forall fn d, T2 d any (do^ d := x_replace_refs p fn d in x_ret (fn, d))) by (intros; eapply T_bind2; [apply x_replace_r|fin]).
  unfold x_replace_with_html. eapply T2_bind2; [apply x_extra|]. intros [|] d1 _; cbn [negb]; [|now apply T2_ret].
  apply T2_lift. intros ln _. destruct (_ <? ln).
  - apply T2_lift. intros n _. apply (T2_bind2 any).
    + destruct (is_text n); [|now apply T2_ret]. destruct (prev_idx p d1); [|now apply T2_ret]. apply T2_load; [reflexivity|reflexivity|]. apply T2_load; [reflexivity|reflexivity|].
      eapply T2_bind2; [apply x_merge|]. intros [|] d2 L2; [|now apply T2_ret]. eapply T_bind2; [apply x_remove|fin].
    + intros fn d2 _. apply T2_lift. intros m _. apply (T_bind2 anyd); [|intros; apply Fin].
      destruct (is_text m); [|now apply T_ret]. destruct (next_idx p d2); [|now apply T_ret]. apply T_load; [reflexivity|reflexivity|].
      eapply T2_bind; [apply x_merge|]. intros [|] d3 L3; [|now apply T_ret]. eapply T_imp; [apply x_remove|now intros].
  - eapply T2_bind2; [apply x_both|]. intros [|] d2 L2; [|apply Fin]. eapply T_bind2; [apply x_remove|]. intros d3 L3.
    eapply T_bind2; [apply x_remove|]. intros d4 L4. destruct (prev_idx p d1); [|exact I]. apply T2_load; [reflexivity| |now apply T2_ret].
    symmetry. apply (lens_nexts d1 d4). unfold same_lens in *. congruence.
Qed.
Lemma x_append_text' p s d : T2 d any (x_append_text_node p s d).
Proof.
  unfold x_append_text_node. eapply T2_bind2; [apply x_text_element|]. intros x d1 _. destruct (x =? 0); [now apply T2_ret|].
  destruct (0 <? _); [|eapply T_bind2; [apply x_append_r|fin]]. apply T2_lift. intros c _.
  eapply T2_bind2; [apply x_merge|]. intros [|] d2 L2; (eapply T_bind2; [first [apply x_remove|apply x_append_r]|fin]).
Qed.
Lemma x_prepend_text' p s d : T2 d any (x_prepend_text_node p s d).
Proof.
  unfold x_prepend_text_node. eapply T2_bind2; [apply x_text_element|]. intros x d1 _. destruct (x =? 0); [now apply T2_ret|].
  destruct (0 <? _); [|eapply T_bind2; [apply x_prepend_r|fin]].
  eapply T2_bind2; [apply x_merge|]. intros [|] d2 L2; (eapply T_bind2; [first [apply x_remove|apply x_prepend_r]|fin]).
Qed.
Lemma x_replace_text' p s d : T2 d any (x_replace_with_text_node p s d).
Proof.
  unfold x_replace_with_text_node. eapply T2_bind2; [apply x_text_element|]. intros x d1 _. destruct (x =? 0); [now apply T2_ret|].
  eapply T2_bind2; [apply x_both|]. intros [|] d2 L2.
  - eapply T_bind2; [apply x_remove|]. intros d3 _. eapply T_bind2; [apply x_remove|fin].
  - eapply T_bind2; [apply x_replace_r|fin].
Qed.
Lemma x_setcontent id s d : T d anyd (x_set_text_content id s d).
Proof.
  unfold x_set_text_content. eapply T_bind; [apply x_remove_ch|]. intros d1 _. eapply T2_bind; [apply x_text_element|]. intros x d2 _.
  eapply T_bind; [apply k_p_first|]. intros d3 _. eapply T_imp; [apply k_p_pchild|now intros].
Qed.

Theorem x_run_tracks bl o d : T d anyd (x_run bl o d).
Proof.
  assert (Dr : forall (x : xtr (nat * dom)), T2 d any x -> T d anyd (do^ '(_, d) := x in x_ret d)).
  { intros x H. eapply T2_bind; [exact H|]. intros a d' _. now apply T_ret. }
  destruct o; cbn [x_run].
  - apply Dr. unfold x_append_document_node. eapply T2_bind2; [apply x_document_element|]. intros x d1 _. destruct (x =? 0); [now apply T2_ret|].
    eapply T_bind2; [apply x_append_r|fin].
  - apply Dr, x_append_text'.
  - apply Dr, x_append_html'.
  - apply Dr. unfold x_prepend_document_node. eapply T2_bind2; [apply x_document_element|]. intros x d1 _. destruct (x =? 0); [now apply T2_ret|].
    eapply T_bind2; [apply x_prepend_r|fin].
  - apply Dr, x_prepend_text'.
  - apply Dr, x_prepend_html'.
  - apply Dr. unfold x_replace_with_document_node. eapply T2_bind2; [apply x_document_element|]. intros x d1 _. destruct (x =? 0); [now apply T2_ret|].
    eapply T_bind2; [apply x_replace_r|fin].
  - apply Dr, x_replace_text'.
  - apply Dr, x_replace_html'.
  - eapply T_imp; [apply x_remove|now intros].
  - eapply T_imp; [apply x_remove_ch|now intros].
  - apply x_setcontent.
  - eapply xq_emb; [apply k_add_bool|]. intros l d' [X _]. split; [apply tabs_x, tracks_tabs, X|exact I].
  - eapply xq_emb; [apply k_add_property|]. intros l d' [X _]. split; [apply tabs_x, tracks_tabs, X|exact I].
  - apply x_remove_bool.
  - apply x_remove_prop.
  - eapply T2_bind; [apply x_set_prop|]. intros a d' _. now apply T_ret.
  - eapply T_imp; [apply x_addtext|now intros].
  - apply x_tag.
Qed.
