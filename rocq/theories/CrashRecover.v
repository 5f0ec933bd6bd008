(** * Calls that only remove, after an abandoned call. *)
From Coq Require Import List NArith Arith Bool Lia.
From Verif Require Import Base TrieModel DomModel ParserModel EditModel ReadModel DomSpec ApiSpec CrashSpec CrashModel RecoverSpec
  Lemmas TrieProofs Tables Inv RegProofs ParseTree ApiProofs ReadUser CompareSpec LogModel PrintModel PrintSpec PrintProofs QueryModel EditUser Link CrashDebris CrashRead CrashLink CrashOps CrashUser CrashFacts CrashThms CrashPrint CrashSearch CrashSame.
Import ListNotations.
Local Open Scope nat_scope.

(** All entries are about nodes that exist. *)
Definition pair_in (n : nat) (e : nat * nat) : Prop := fst e < n /\ snd e < n.
Record ranged (d : dom) : Prop := {
  rg_len : 0 < length (nodes d);
  rg_ids : ids_ok d;
  rg_first : Forall (pair_in (length (nodes d))) (firsts d);
  rg_pc : Forall (pair_in (length (nodes d))) (pchilds d);
  rg_next : Forall (pair_in (length (nodes d))) (nexts d) }.

Lemma find_idx_app_skip {A} (f : A -> bool) l x : (forall e, In e x -> f e = false) ->
  find_idx f (l ++ x) = find_idx f l.
Proof.
  intros H. induction l as [|e l IH]; simpl.
  - apply find_idx_none. exact H.
  - destruct (f e); auto. now rewrite IH.
Qed.
Lemma find_idx_lt {A} (f : A -> bool) l i : find_idx f l = Some i -> i < length l.
Proof. intros E. apply find_idx_some in E as (x & Hx & _). apply nth_error_Some. congruence. Qed.
Lemma at_idx_app l x i : i < length l -> at_idx (l ++ x) i = at_idx l i.
Proof. intros H. unfold at_idx. now apply app_nth1. Qed.
Lemma upd_app_l {A} (l x : list A) i y : i < length l -> upd (l ++ x) i y = upd l i y ++ x.
Proof.
  revert i. induction l as [|a l IH]; intros i H; simpl in *; [lia|]. destruct i; simpl; auto. rewrite IH; auto. lia.
Qed.
Lemma in_upd {A} (l : list A) i y e : In e (upd l i y) -> e = y \/ In e l.
Proof.
  revert i. induction l as [|a l IH]; intros i H; destruct i; simpl in *; auto.
  - destruct H as [<-|H]; auto.
  - destruct H as [<-|H]; auto. apply IH in H as [H|H]; auto.
Qed.
Lemma forall_upd {A} (P : A -> Prop) l i y : Forall P l -> P y -> Forall P (upd l i y).
Proof. rewrite !Forall_forall. intros H Hy e I. apply in_upd in I as [->|I]; auto. Qed.
Lemma at_idx_in n l i : Forall (pair_in n) l -> 0 < n -> pair_in n (at_idx l i).
Proof.
  intros F N. unfold at_idx. destruct (nth_in_or_default i l (0, 0)) as [H|H].
  - rewrite Forall_forall in F. now apply F.
  - rewrite H. split; simpl; lia.
Qed.

Lemma late_f n hi x c : c < n -> Forall (late n hi) x -> forall e, In e x -> (fst e =? c) = false.
Proof. intros H F e I. rewrite Forall_forall in F. apply F in I as (? & _). apply Nat.eqb_neq. lia. Qed.
Lemma late_s n hi x c : c < n -> Forall (late n hi) x -> forall e, In e x -> (snd e =? c) = false.
Proof. intros H F e I. rewrite Forall_forall in F. apply F in I as (? & ? & _). apply Nat.eqb_neq. lia. Qed.

Section Setters.
Context (d d' : dom) (D : debris d d').
Lemma sim_set_nexts i y : i < length (nexts d) ->
  debris (set_nexts d (upd (nexts d) i y)) (set_nexts d' (upd (nexts d') i y)).
Proof.
  intros H. destruct D. destruct db_nexts as (x & E & F).
  constructor; simpl; auto. exists x. split; auto. rewrite E. now apply upd_app_l.
Qed.
Lemma sim_set_firsts i y : i < length (firsts d) ->
  debris (set_firsts d (upd (firsts d) i y)) (set_firsts d' (upd (firsts d') i y)).
Proof.
  intros H. destruct D. destruct db_firsts as (x & E & F).
  constructor; simpl; auto. exists x. split; auto. rewrite E. now apply upd_app_l.
Qed.
Lemma sim_set_pchilds i y : i < length (pchilds d) ->
  debris (set_pchilds d (upd (pchilds d) i y)) (set_pchilds d' (upd (pchilds d') i y)).
Proof.
  intros H. destruct D. destruct db_pchilds as (x & E & F).
  constructor; simpl; auto. exists x. split; auto. rewrite E. now apply upd_app_l.
Qed.
Lemma sim_set_bprops i y : i < length (bprops d) ->
  debris (set_bprops d (upd (bprops d) i y)) (set_bprops d' (upd (bprops d') i y)).
Proof.
  intros H. destruct D. destruct db_bprops as (x & E & F).
  constructor; simpl; auto. exists x. split; auto. rewrite E. now apply upd_app_l.
Qed.
Lemma sim_set_props i y : i < length (props d) ->
  debris (set_props d (upd (props d) i y)) (set_props d' (upd (props d') i y)).
Proof.
  intros H. destruct D. destruct db_props as (x & E & F).
  constructor; simpl; auto. exists x. split; auto. rewrite E. now apply upd_app_l.
Qed.
Lemma ids_upd e i x : ids_ok e -> n_id x = i -> ids_ok (set_nodes e (upd (nodes e) i x)).
Proof.
  intros H Hx j y E. simpl in E. destruct (Nat.eq_dec j i) as [->|N].
  - destruct (Nat.lt_ge_cases i (length (nodes e))) as [L|L].
    + rewrite upd_nth_eq in E by auto. inversion E; subst; auto.
    + assert (nth_error (upd (nodes e) i x) i = None) by (apply nth_error_None; rewrite upd_len; auto). congruence.
  - rewrite upd_nth_neq in E by auto. now apply H.
Qed.
Lemma sim_set_nodes i x : ids_ok d -> i < length (nodes d) -> n_id x = i ->
  debris (set_nodes d (upd (nodes d) i x)) (set_nodes d' (upd (nodes d') i x)).
Proof.
  intros I H Hx. pose proof (ids_upd d' i x (db_ids _ _ D I) Hx) as Q. destruct D. destruct db_nodes as (y & E).
  constructor; simpl; rewrite ?upd_len; auto. exists y. rewrite E. now apply upd_app_l.
Qed.
Lemma sim_next_idx c : c < length (nodes d) -> next_idx c d' = next_idx c d.
Proof. intros H. unfold next_idx. destruct (db_nexts _ _ D) as (x & -> & F). apply find_idx_app_skip. eapply late_f; eauto. Qed.
Lemma sim_prev_idx c : c < length (nodes d) -> prev_idx c d' = prev_idx c d.
Proof. intros H. unfold prev_idx. destruct (db_nexts _ _ D) as (x & -> & F). apply find_idx_app_skip. eapply late_s; eauto. Qed.
Lemma sim_parent_idx c : c < length (nodes d) -> parent_idx c d' = parent_idx c d.
Proof. intros H. unfold parent_idx. destruct (db_pchilds _ _ D) as (x & -> & F). apply find_idx_app_skip. eapply late_s; eauto. Qed.
Lemma sim_first_idx c : c < length (nodes d) -> first_idx c d' = first_idx c d.
Proof. intros H. unfold first_idx. destruct (db_firsts _ _ D) as (x & -> & F). apply find_idx_app_skip. eapply late_f; eauto. Qed.
Lemma sim_at_next i : i < length (nexts d) -> at_idx (nexts d') i = at_idx (nexts d) i.
Proof. intros H. destruct (db_nexts _ _ D) as (x & -> & F). now apply at_idx_app. Qed.
Lemma sim_at_pc i : i < length (pchilds d) -> at_idx (pchilds d') i = at_idx (pchilds d) i.
Proof. intros H. destruct (db_pchilds _ _ D) as (x & -> & F). now apply at_idx_app. Qed.
Lemma sim_at_first i : i < length (firsts d) -> at_idx (firsts d') i = at_idx (firsts d) i.
Proof. intros H. destruct (db_firsts _ _ D) as (x & -> & F). now apply at_idx_app. Qed.
Lemma sim_node i : i < length (nodes d) -> get_node d' i = get_node d i.
Proof. intros H. unfold get_node. now rewrite (dbr_node d d' D i H). Qed.
End Setters.

Lemma rg_set_nexts d i y : ranged d -> pair_in (length (nodes d)) y -> ranged (set_nexts d (upd (nexts d) i y)).
Proof. intros [] Y. constructor; simpl; auto. now apply forall_upd. Qed.
Lemma rg_set_firsts d i y : ranged d -> pair_in (length (nodes d)) y -> ranged (set_firsts d (upd (firsts d) i y)).
Proof. intros [] Y. constructor; simpl; auto. now apply forall_upd. Qed.
Lemma rg_set_pchilds d i y : ranged d -> pair_in (length (nodes d)) y -> ranged (set_pchilds d (upd (pchilds d) i y)).
Proof. intros [] Y. constructor; simpl; auto. now apply forall_upd. Qed.
Lemma rg_set_nodes d i x : ranged d -> n_id x = i -> ranged (set_nodes d (upd (nodes d) i x)).
Proof.
  intros R Hx. pose proof (ids_upd d i x (rg_ids _ R) Hx) as Q. destruct R.
  constructor; simpl; rewrite ?upd_len; auto.
Qed.
Lemma zero_in d : ranged d -> pair_in (length (nodes d)) (0, 0).
Proof. intros []. split; simpl; auto. Qed.

(** One step of a simulation: both sides move, the rest stays debris. *)
Definition moves (d : dom) (x x' : outcome dom) : Prop :=
  forall e, x = Ok e -> exists e', x' = Ok e' /\ debris e e' /\ ranged e /\ length (nodes e) = length (nodes d).

Lemma sim_unlink d d' id : debris d d' -> ranged d -> id < length (nodes d) ->
  moves d (unlink_node id d) (unlink_node id d').
Proof.
  intros D R H e E. unfold unlink_node in *. rewrite (sim_node d d' D id H).
  destruct (get_node d id) as [nd| | |] eqn:En; cbn [bind] in *; try discriminate.
  assert (Hi : n_id nd = id).
  { unfold get_node in En. destruct (nth_error (nodes d) id) as [z|] eqn:Ez; [|discriminate]. inversion En; subst. now apply (rg_ids _ R). }
  rewrite Hi in *. rewrite (sim_next_idx d d' D id H), (sim_parent_idx d d' D id H), (sim_prev_idx d d' D id H).
  assert (Jn : forall j, next_idx id d = Some j -> j < length (nexts d)) by (intros j; apply find_idx_lt).
  set (nx := next_idx id d) in *.
  (* the previous sibling *)
  set (d1 := match prev_idx id d with None => d | Some i => match nx with None => set_nexts d (upd (nexts d) i (0, 0))
     | Some j => set_nexts d (upd (nexts d) i (fst (at_idx (nexts d) i), snd (at_idx (nexts d) j))) end end) in *.
  set (d1' := match prev_idx id d with None => d' | Some i => match nx with None => set_nexts d' (upd (nexts d') i (0, 0))
     | Some j => set_nexts d' (upd (nexts d') i (fst (at_idx (nexts d') i), snd (at_idx (nexts d') j))) end end) in *.
  assert (S1 : debris d1 d1' /\ ranged d1 /\ length (nodes d1) = length (nodes d) /\ length (nexts d1) = length (nexts d) /\ pchilds d1 = pchilds d /\ firsts d1 = firsts d).
  { subst d1 d1'. destruct (prev_idx id d) as [i|] eqn:Ep; [|auto 10]. apply find_idx_lt in Ep. destruct nx as [j|] eqn:Ej.
    - specialize (Jn j eq_refl). rewrite (sim_at_next d d' D i Ep), (sim_at_next d d' D j Jn).
      split; [now apply sim_set_nexts|]. split; [|simpl; rewrite upd_len; auto]. apply rg_set_nexts; auto.
      split; simpl; apply at_idx_in; try apply R.
    - split; [now apply sim_set_nexts|]. split; [|simpl; rewrite upd_len; auto]. apply rg_set_nexts; auto. now apply zero_in. }
  destruct S1 as (D1 & R1 & L1 & Ln1 & Ep1 & Ef1).
  assert (Jn1 : forall j, nx = Some j -> j < length (nexts d1)) by (intros j Q; rewrite Ln1; auto).
  clearbody d1 d1'.
  set (x2 := match parent_idx id d with None => Ok d1 | Some i => _ end) in E.
  match goal with |- exists e', bind ?x _ = _ /\ _ => set (x2' := x) end.
  assert (S2 : forall d2, x2 = Ok d2 -> exists d2', x2' = Ok d2' /\ debris d2 d2' /\ ranged d2 /\ length (nodes d2) = length (nodes d) /\ length (nexts d2) = length (nexts d1)).
  { intros d2. subst x2 x2'. destruct (parent_idx id d) as [i|] eqn:Epi; [|intros Q; inversion Q; subst; exists d1'; auto 10].
    apply find_idx_lt in Epi. rewrite <- Ep1 in Epi. rewrite (sim_at_pc d1 d1' D1 i Epi).
    set (par := fst (at_idx (pchilds d1) i)).
    assert (Hp : par < length (nodes d1)) by (apply at_idx_in; apply R1).
    pose proof (sim_set_pchilds d1 d1' D1 i (0, 0) Epi) as D3. pose proof (rg_set_pchilds d1 i (0, 0) R1 (zero_in _ R1)) as R3.
    set (d3 := set_pchilds d1 (upd (pchilds d1) i (0, 0))) in *. set (d3' := set_pchilds d1' (upd (pchilds d1') i (0, 0))) in *.
    assert (L3 : length (nodes d3) = length (nodes d)) by exact L1.
    assert (N3 : nexts d3 = nexts d1) by reflexivity.
    assert (Jn3 : forall j, nx = Some j -> j < length (nexts d3)) by exact Jn1.
    assert (Hp3 : par < length (nodes d3)) by exact Hp. clearbody d3 d3'.
    rewrite (sim_first_idx d3 d3' D3 par Hp3). destruct (first_idx par d3) as [kx|] eqn:Ek; [|discriminate]. apply find_idx_lt in Ek.
    rewrite (sim_at_first d3 d3' D3 kx Ek). destruct (snd (at_idx (firsts d3) kx) =? id).
    - destruct nx as [j|] eqn:Ej; intros Q; inversion Q; subst d2.
      + rewrite (sim_at_next d3 d3' D3 j (Jn3 j eq_refl)). eexists. split; [reflexivity|].
        split; [now apply sim_set_firsts|]. split; [|simpl; rewrite N3; auto]. apply rg_set_firsts; auto. split; simpl; apply at_idx_in; apply R3.
      + eexists. split; [reflexivity|]. split; [now apply sim_set_firsts|]. split; [|simpl; rewrite N3; auto].
        apply rg_set_firsts; auto. now apply zero_in.
    - intros Q; inversion Q; subst d2. exists d3'. rewrite N3. auto. }
  clearbody x2 x2'. destruct x2 as [d2| | |]; cbn [bind] in E; try discriminate.
  destruct (S2 d2 eq_refl) as (d2' & -> & D2 & R2 & L2 & Ln2). cbn [bind].
  set (d4 := match nx with None => d2 | Some j => set_nexts d2 (upd (nexts d2) j (0, 0)) end) in *.
  set (d4' := match nx with None => d2' | Some j => set_nexts d2' (upd (nexts d2') j (0, 0)) end) in *.
  assert (S4 : debris d4 d4' /\ ranged d4 /\ length (nodes d4) = length (nodes d)).
  { subst d4 d4'. destruct nx as [j|] eqn:Ej; [|auto]. specialize (Jn1 j eq_refl).
    split; [apply sim_set_nexts; auto; lia|]. split; [|exact L2]. apply rg_set_nexts; auto. now apply zero_in. }
  destruct S4 as (D4 & R4 & L4). clearbody d4 d4'. inversion E; subst e. eexists. split; [reflexivity|].
  split; [apply sim_set_nodes; auto; [apply R4|lia]|]. split; [now apply rg_set_nodes|]. simpl. now rewrite upd_len.
Qed.

Lemma sim_first_child d d' c : debris d d' -> c < length (nodes d) -> get_first_child c d' = get_first_child c d.
Proof. intros D H. exact (dbr_first d d' D c H). Qed.
Lemma first_child_in d c : ranged d -> get_first_child c d < length (nodes d).
Proof.
  intros R. unfold get_first_child. destruct (first_idx c d) as [i|]; [|apply R]. apply at_idx_in; apply R.
Qed.

Lemma sim_remove : forall f,
  (forall d d' id, debris d d' -> ranged d -> id < length (nodes d) -> moves d (remove_node_f f id d) (remove_node_f f id d')) /\
  (forall d d' id, debris d d' -> ranged d -> id < length (nodes d) -> moves d (remove_children_f f id d) (remove_children_f f id d')).
Proof.
  induction f as [|f [IH1 IH2]]; (split; intros d d' id D R H e E; [cbn [remove_node_f] in *|cbn [remove_children_f] in *]); try discriminate.
  - destruct (remove_children_f f id d) as [d1| | |] eqn:E1; cbn [bind] in E; try discriminate.
    destruct (IH2 d d' id D R H d1 E1) as (d1' & -> & D1 & R1 & L1). cbn [bind].
    destruct (sim_unlink d1 d1' id D1 R1 ltac:(lia) e E) as (e' & Q & De & Re & Le). exists e'. rewrite <- L1. auto.
  - rewrite (sim_first_child d d' id D H). destruct (0 <? get_first_child id d); [|inversion E; subst; exists d'; auto].
    destruct (remove_node_f f (get_first_child id d) d) as [d1| | |] eqn:E1; cbn [bind] in E; try discriminate.
    destruct (IH1 d d' _ D R (first_child_in d id R) d1 E1) as (d1' & -> & D1 & R1 & L1). cbn [bind].
    destruct (IH2 d1 d1' id D1 R1 ltac:(lia) e E) as (e' & Q & De & Re & Le). exists e'. rewrite <- L1. auto.
Qed.

Lemma more_fuel : forall f g, f <= g ->
  (forall d id e, remove_node_f f id d = Ok e -> remove_node_f g id d = Ok e) /\
  (forall d id e, remove_children_f f id d = Ok e -> remove_children_f g id d = Ok e).
Proof.
  induction f as [|f IH]; intros g L; (split; intros d id e E; [cbn [remove_node_f] in E|cbn [remove_children_f] in E]); try discriminate;
    (destruct g as [|g]; [lia|]); destruct (IH g ltac:(lia)) as [A B]; [cbn [remove_node_f]|cbn [remove_children_f]].
  - destruct (remove_children_f f id d) as [d1| | |] eqn:E1; cbn [bind] in E; try discriminate. now rewrite (B _ _ _ E1).
  - destruct (0 <? get_first_child id d); [|exact E].
    destruct (remove_node_f f (get_first_child id d) d) as [d1| | |] eqn:E1; cbn [bind] in E; try discriminate.
    rewrite (A _ _ _ E1). cbn [bind]. now apply B.
Qed.
Lemma debris_fuel d d' : debris d d' -> remove_fuel d <= remove_fuel d'.
Proof. intros D. unfold remove_fuel. destruct (db_pchilds _ _ D) as (x & -> & _). rewrite app_length. lia. Qed.

Lemma good_ranged d k : Good d k -> ranged d.
Proof.
  intros G. pose proof (g_inv _ _ G) as V. pose proof (inv_len _ _ V) as L2. pose proof (inv_kw _ _ V) as W. constructor.
  - lia.
  - exact (inv_ids _ _ V).
  - apply Forall_forall. intros [a c] I. destruct (inv_first _ _ V) as (T1 & _). unfold pair_in. simpl.
    destruct (T1 a c I) as [[-> ->]|A]; [lia|]. unfold Rf in A.
    assert (J : In c (k (Par a))) by (destruct (k (Par a)); [discriminate|injection A as ->; simpl; auto]).
    pose proof (kw_bound _ _ W _ _ J). pose proof (kw_order _ _ W _ _ J). lia.
  - apply Forall_forall. intros [a c] I. unfold pair_in. simpl.
    destruct (pc_nz _ _ _ (inv_pchild _ _ V) a c I) as [[-> ->]|Q]; lia.
  - apply Forall_forall. intros [a c] I. destruct (inv_next _ _ V) as (T1 & _). unfold pair_in. simpl.
    destruct (T1 a c I) as [[-> ->]|[q A]]; [lia|]. apply adj_split in A as (l1 & l2 & Eq).
    assert (J : In a (k q)) by (rewrite Eq; apply in_elt). apply (kw_bound _ _ W) in J.
    assert (J2 : In c (k q)) by (rewrite Eq; apply in_or_app; simpl; auto). apply (kw_bound _ _ W) in J2. lia.
Qed.

(** ** One call *)
Section One.
Context (d d' : dom) (k : kids) (G : Good d k) (D : debris d d').
Notation n := (length (nodes d)).
Let R := g_reg _ _ G.

Lemma sim_remove_node id e : id < n -> remove_node id d = Ok e ->
  exists e', remove_node id d' = Ok e' /\ debris e e' /\ length (nodes e) = n.
Proof.
  intros H E. unfold remove_node in *.
  destruct (proj1 (sim_remove (remove_fuel d)) d d' id D (good_ranged d k G) H e E) as (e' & Q & De & _ & Le).
  exists e'. split; auto. exact (proj1 (more_fuel _ _ (debris_fuel d d' D)) _ _ _ Q).
Qed.
Lemma sim_remove_children id e : id < n -> remove_children id d = Ok e ->
  exists e', remove_children id d' = Ok e' /\ debris e e' /\ length (nodes e) = n.
Proof.
  intros H E. unfold remove_children in *.
  destruct (proj2 (sim_remove (remove_fuel d)) d d' id D (good_ranged d k G) H e E) as (e' & Q & De & _ & Le).
  exists e'. split; auto. exact (proj2 (more_fuel _ _ (debris_fuel d d' D)) _ _ _ Q).
Qed.
Lemma sim_remove_bool id b e : 1 <= id < n -> remove_bool_property id b d = Ok e ->
  exists e', remove_bool_property id b d' = Ok e' /\ debris e e' /\ length (nodes e) = n.
Proof.
  intros H E. unfold remove_bool_property in *.
  destruct (map_look b _ _ _ (ri_bool _ R) (db_bool _ _ D)) as (a & a' & Ea & Ea' & Q). rewrite Ea in E. rewrite Ea'. cbn [bind] in *.
  destruct (new_bprop d d' D id H) as (x & Ex & X).
  assert (Ix : bprop_idx id a' d' = if a' =? a then bprop_idx id a d else None).
  { unfold bprop_idx. rewrite Ex. rewrite find_idx_app_skip by (intros y I; now rewrite X).
    destruct (a' =? a) eqn:Z; [apply Nat.eqb_eq in Z; now subst|]. apply Nat.eqb_neq in Z. destruct Q as [->|[-> Q]]; [easy|].
    apply find_idx_none. intros y I. destruct (fst y =? id) eqn:Ei; auto. simpl. apply Nat.eqb_eq in Ei.
    destruct (ri_bprops _ R _ I) as (_ & L & _). apply Nat.eqb_neq. lia. }
  rewrite Ix. destruct (a' =? a) eqn:Z.
  - apply Nat.eqb_eq in Z. subst a'. destruct (0 <? a); [|inversion E; subst; exists d'; auto].
    destruct (bprop_idx id a d) as [i|] eqn:Ei; inversion E; subst e; eexists; (split; [reflexivity|]); [|auto].
    apply find_idx_lt in Ei. split; [now apply sim_set_bprops|reflexivity].
  - apply Nat.eqb_neq in Z. destruct Q as [->|[-> Q]]; [easy|]. simpl in E. inversion E; subst.
    exists d'. split; [now destruct (0 <? a')|auto].
Qed.
Lemma sim_remove_prop id key e : 1 <= id < n -> remove_property id key d = Ok e ->
  exists e', remove_property id key d' = Ok e' /\ debris e e' /\ length (nodes e) = n.
Proof.
  intros H E. unfold remove_property in *.
  destruct (map_look key _ _ _ (ri_key _ R) (db_key _ _ D)) as (a & a' & Ea & Ea' & Q). rewrite Ea in E. rewrite Ea'. cbn [bind] in *.
  destruct (new_prop d d' D id H) as (x & Ex & X).
  assert (Ix : prop_idx id a' d' = if a' =? a then prop_idx id a d else None).
  { unfold prop_idx. rewrite Ex. rewrite find_idx_app_skip by (intros y I; now rewrite X).
    destruct (a' =? a) eqn:Z; [apply Nat.eqb_eq in Z; now subst|]. apply Nat.eqb_neq in Z. destruct Q as [->|[-> Q]]; [easy|].
    apply find_idx_none. intros y I. destruct (p_node y =? id) eqn:Ei; auto. simpl. apply Nat.eqb_eq in Ei.
    destruct (ri_props _ R _ I) as (_ & L & _). apply Nat.eqb_neq. lia. }
  rewrite Ix. destruct (a' =? a) eqn:Z.
  - apply Nat.eqb_eq in Z. subst a'. destruct (0 <? a); [|inversion E; subst; exists d'; auto].
    destruct (prop_idx id a d) as [i|] eqn:Ei; inversion E; subst e; eexists; (split; [reflexivity|]); [|auto].
    apply find_idx_lt in Ei. split; [now apply sim_set_props|reflexivity].
  - apply Nat.eqb_neq in Z. destruct Q as [->|[-> Q]]; [easy|]. simpl in E. inversion E; subst.
    exists d'. split; [now destruct (0 <? a')|auto].
Qed.
Lemma sim_add_text id s ap e : id < n -> add_text_to_text_node id s ap d = Ok e ->
  exists e', add_text_to_text_node id s ap d' = Ok e' /\ debris e e' /\ length (nodes e) = n.
Proof.
  intros H E. unfold add_text_to_text_node in *. rewrite (sim_node d d' D id H).
  destruct (get_node d id) as [x| | |] eqn:Ex; cbn [bind] in *; try discriminate.
  destruct (node_text x) as [old| | |]; cbn [bind] in *; try discriminate.
  unfold set_pay in *. rewrite (sim_node d d' D id H), Ex in *. cbn [bind] in *. inversion E; subst e.
  eexists. split; [reflexivity|]. split; [|simpl; now rewrite upd_len]. apply sim_set_nodes; auto.
  - exact (inv_ids _ _ (g_inv _ _ G)).
  - unfold get_node in Ex. destruct (nth_error (nodes d) id) as [z|] eqn:Ez; [|discriminate]. inversion Ex; subst.
    simpl. exact (inv_ids _ _ (g_inv _ _ G) _ _ Ez).
Qed.
Lemma sim_plain o e : plain n o -> valid d [] o -> run [] o d = Ok e ->
  exists e', run [] o d' = Ok e' /\ debris e e' /\ length (nodes e) = n.
Proof.
  intros P V E. destruct o; cbn [run valid plain] in *; try contradiction.
  - now apply sim_remove_node.
  - now apply sim_remove_children.
  - now apply sim_remove_bool.
  - now apply sim_remove_prop.
  - now apply sim_add_text.
Qed.
End One.

Lemma sim_calls l : forall d d' e, reachable d -> debris d d' -> Forall (plain (length (nodes d))) l -> valid_calls l d ->
  run_calls l d = Ok e -> reachable e /\ exists e', run_calls l d' = Ok e' /\ debris e e' /\ length (nodes e) = length (nodes d).
Proof.
  induction l as [|o l IH]; intros d d' e R D F V E; cbn [run_calls valid_calls] in *.
  - inversion E; subst. split; auto. exists d'. auto.
  - inversion F as [|? ? Po Pl]; subst. destruct V as [Vo Vl]. destruct (run [] o d) as [d1| | |] eqn:E1; cbn [bind] in E; try discriminate.
    destruct (reachable_good d R) as [k G]. destruct (sim_plain d d' k G D o d1 Po Vo E1) as (d1' & -> & D1 & L1). cbn [bind].
    assert (R1 : reachable d1) by (eapply reach_step; eauto). rewrite <- L1 in Pl.
    destruct (IH d1 d1' e R1 D1 Pl (Vl d1 eq_refl) E) as (Re & e' & Q & De & Le). split; auto. exists e'. rewrite <- L1. auto.
Qed.

Lemma debris_recover d d' l e : reachable d -> debris d d' ->
  Forall (plain (length (nodes d))) l -> valid_calls l d -> run_calls l d = Ok e ->
  exists e', run_calls l d' = Ok e' /\
    (forall i, node_id d i -> same_content e e' i /\ same_answers e e' i) /\
    (forall q m, node_id d q -> (children e' q m <-> children e q m)) /\
    (forall u, dom_walk e' 1 u <-> dom_walk e 1 u) /\
    (forall ps, print_dom e = Ok ps -> exists ps', print_dom e' = Ok ps' /\ concat ps' = concat ps) /\
    (forall lo css st r, query_selector_all lo css e = Ok (st, r) -> st <> QNotSeen ->
       exists r', query_selector_all lo css e' = Ok (st, r') /\ forall x, node_id d x -> (In x r' <-> In x r)).
Proof.
  intros R D F Vl E. destruct (reachable_good d R) as [k G].
  destruct (sim_calls l d d' e R D F Vl E) as (Re & e' & Q & De & Le). exists e'. split; [exact Q|].
  destruct (reachable_good e Re) as [ke Ge]. pose proof (inv_len _ _ (g_inv _ _ Ge)) as L2. unfold node_id. rewrite <- Le.
  split; [|split; [|split; [|split]]].
  - intros i Hi. split; [apply (dbr_content e e' De ke Ge); lia|apply (dbr_answers e e' De ke Ge i Hi)].
  - intros q m Hq. apply (dbr_children e e' De ke Ge). lia.
  - intros u. apply (dbr_walk e e' De ke Ge).
  - intros ps Ep. destruct (print_debris e e' De ke Ge) as (ps' & Ep' & P'). exists ps'. split; auto.
    destruct (print_dom_ok e Re) as (qs & Eq & Pq). assert (qs = ps) as -> by congruence.
    eapply prints_once; [exact P'|]. apply (dbr_prints e e' De ke Ge); [exact Pq|lia].
  - intros lo css st r Eq N. destruct (same_all lo e e' De ke Ge (proj1 (u_limits e Re)) css st r Eq N) as (r' & A & B).
    exists r'. split; auto. intros x Hx. apply B. lia.
Qed.

Lemma recover d bl o d' l e : reachable d -> valid d bl o -> left_with bl o d d' -> one_step o ->
  Forall (plain (length (nodes d))) l -> valid_calls l d -> run_calls l d = Ok e ->
  exists e', run_calls l d' = Ok e' /\
    (forall i, node_id d i -> same_content e e' i /\ same_answers e e' i) /\
    (forall q m, node_id d q -> (children e' q m <-> children e q m)) /\
    (forall u, dom_walk e' 1 u <-> dom_walk e 1 u) /\
    (forall ps, print_dom e = Ok ps -> exists ps', print_dom e' = Ok ps' /\ concat ps' = concat ps) /\
    (forall lo css st r, query_selector_all lo css e = Ok (st, r) -> st <> QNotSeen ->
       exists r', query_selector_all lo css e' = Ok (st, r') /\ forall x, node_id d x -> (In x r' <-> In x r)).
Proof.
  intros R V L O. destruct (reachable_good d R) as [k G]. apply debris_recover; auto. now apply (one_step_debris d k bl o).
Qed.

(** ** What an abandoned call leaves if nothing shows. *)
Lemma unseen_debris d k bl o d' : Good d k -> valid d bl o -> left_with bl o d d' -> unseen d d' -> debris d d'.
Proof.
  intros G V L [U1 U2]. pose proof (inv_len _ _ (g_inv _ _ G)) as Ln.
  destruct (crash_main d k bl o d' G V L) as (b & kb & p & B & Gb & Lb & [[Q S]|(e & A & N & Z & gone & _ & -> & Hp & _ & H)]).
  - assert (b = d) as ->.
    { destruct o as [| | | | | | | | | | |n0 s0| | | | | | | ]; try exact B. cbn [begun] in B.
      specialize (S n0 s0 eq_refl). cbn [valid] in V.
      assert (Eb : exists c, children b n0 c /\ c = []).
      { destruct (set_text_j d k G n0 s0 V) as (b' & kb' & E1 & Gb' & _ & He & _).
        rewrite B in E1. injection E1 as <-. exists []. split; auto. now apply (kc b kb'). }
      destruct Eb as (c & Ec & ->). apply (dbr_children b d' S kb Gb) in Ec; [|unfold node_id in V; lia].
      apply (U2 n0 [] V) in Ec. unfold children in Ec.
      unfold remove_children in B. destruct (remove_fuel d) eqn:Ef; [unfold remove_fuel in Ef; lia|]. cbn [remove_children_f] in B.
      assert (get_first_child n0 d = 0) as E0 by (inversion Ec; auto). rewrite E0 in B. cbn in B. now injection B. }
    destruct Q as [D|(km & _ & D)]; auto.
  - exfalso. assert (Hd : node_id d (edited d o)) by exact Hp.
    destruct (li_new _ _ _ _ _ _ _ _ _ _ H) as [N1 N2]. rewrite Lb in N2.
    destruct N as [|x N]; [easy|]. specialize (N2 x (or_introl eq_refl)).
    destruct (lk_edited _ _ _ _ _ _ _ _ _ _ H) as [_ [C|C]]; apply (U2 _ _ Hd) in C; apply (kc d k) in C; auto;
      assert (I : In x (k (Par (edited d o)))) by (rewrite <- C; apply in_or_app; right; simpl; auto);
      apply (kw_bound _ _ (inv_kw _ _ (g_inv _ _ G))) in I; lia.
Qed.
Lemma unseen_recover d bl o d' l e : reachable d -> valid d bl o -> left_with bl o d d' -> unseen d d' ->
  Forall (plain (length (nodes d))) l -> valid_calls l d -> run_calls l d = Ok e ->
  exists e', run_calls l d' = Ok e' /\
    (forall i, node_id d i -> same_content e e' i /\ same_answers e e' i) /\
    (forall q m, node_id d q -> (children e' q m <-> children e q m)) /\
    (forall u, dom_walk e' 1 u <-> dom_walk e 1 u) /\
    (forall ps, print_dom e = Ok ps -> exists ps', print_dom e' = Ok ps' /\ concat ps' = concat ps) /\
    (forall lo css st r, query_selector_all lo css e = Ok (st, r) -> st <> QNotSeen ->
       exists r', query_selector_all lo css e' = Ok (st, r') /\ forall x, node_id d x -> (In x r' <-> In x r)).
Proof.
  intros R V L U. destruct (reachable_good d R) as [k G]. apply debris_recover; auto. now apply (unseen_debris d k bl o).
Qed.
Lemma unseen_first d bl o d' lo css st r : reachable d -> valid d bl o -> left_with bl o d d' -> unseen d d' ->
  query_selector lo css d = Ok (st, r) -> st <> QNotSeen ->
  exists r', query_selector lo css d' = Ok (st, r') /\ (r' = r \/ r = Some 0 /\ r' = None).
Proof.
  intros R V L U. destruct (reachable_good d R) as [k G]. apply (debris_first d bl o d'); auto. now apply (unseen_debris d k bl o).
Qed.
