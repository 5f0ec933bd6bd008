(** * Iteration and reports (C92, C93, C94). *)
From Coq Require Import String List NArith ZArith Arith Bool Lia.
From Verif Require Import Base Lemmas TrieModel DomModel ParserModel EditModel ReadModel DomSpec ApiSpec MsiModel TrieProofs Inv RegProofs ParseTree ApiProofs
  CompareModel CompareSpec CompareProofs ReadUser LogModel LogSpec LogProofs PropsLog PrintModel UtilTrieModel UtilTrieProofs
  PropsTrie PropsCompare ReportModel ReportSpec ReportEach ReportDiff ReportStatus Examples.
Import ListNotations.
Local Open Scope nat_scope.

(** ** C92: the loops over sets and maps.  The macros stop at the first element that
    looks like the zeroed result of a finished iterator. *)

Lemma elems_of_set {K} eqk w H (Sp : forall a b : K, eqk a b = true <-> a = b) t ks :
  @rep K unit eqk w H t (map (fun k => (k, tt)) ks) ->
  NoDup (map fst (elems t)) /\ forall k, In k (map fst (elems t)) <-> In k ks.
Proof.
  intros Rp. split; [apply (rep_nodup _ _ _ _ _ Rp)|]. intros k. rewrite <- (lookup_unit eqk Sp k tt ks).
  rewrite <- (rep_elems _ _ _ _ _ Rp). rewrite in_map_iff. split.
  - intros ([k' []] & <- & I). exact I.
  - intros I. now exists (k, tt).
Qed.
Lemma upto_in {K V} zero (l : list (K * V)) e : In e (upto zero l) -> In e l /\ zero e = false.
Proof.
  induction l as [|x l IH]; cbn [upto]; [intros []|]. destruct (zero x) eqn:Z; [intros []|].
  intros [->|I]; [now split; [left|]|]. destruct (IH I). split; [now right|assumption].
Qed.
Lemma upto_nodup {K V} zero (l : list (K * V)) : NoDup (map fst l) -> NoDup (map fst (upto zero l)).
Proof.
  induction l as [|x l IH]; cbn [upto map]; [auto|]. intros D. destruct (zero x); [constructor|]. cbn [map].
  apply NoDup_cons_iff in D as [D1 D2]. constructor; [|auto]. intros I. apply D1.
  apply in_map_iff in I as (y & <- & I). apply in_map. now apply upto_in in I.
Qed.

Theorem C92_each_string : forall ks bs t, string_set_run ks PNil = Ok (bs, t) ->
  exists l, each_string t = Ok l /\ NoDup l /\ (forall k, In k l -> In k ks /\ k <> []) /\
    (~ In [] ks -> forall k, In k ks -> In k l).
Proof.
  intros ks bs t. rewrite string_set_runs. intros Q.
  destruct (runs_ok beq beq_spec 64 ltac:(discriminate) djb2 djb2_lt
              (fun r : option unit => match r with None => true | Some _ => false end)
              (map (fun k => (k, tt)) ks) PNil [] (rep_nil beq 64 djb2)) as (rs & t' & E & Rp & _).
  rewrite Q in E. injection E as -> ->. cbn [app] in Rp.
  destruct (elems_of_set beq 64 djb2 beq_spec _ _ Rp) as [D I].
  unfold each_string. rewrite for_each_ok. cbn [bind]. eexists. split; [reflexivity|].
  split; [now apply upto_nodup|]. split.
  - intros k Hk. apply in_map_iff in Hk as (e & <- & Hk). apply upto_in in Hk as [Hk Z]. split.
    + apply I. now apply in_map.
    + intros X. rewrite X in Z. discriminate.
  - intros No k Hk. rewrite upto_all.
    + now apply I.
    + intros e He. destruct (fst e) as [|c s] eqn:F; [|reflexivity]. exfalso. apply No. apply I. rewrite <- F. now apply in_map.
Qed.
Print Assumptions C92_each_string.

Theorem C92_each_uint16 : forall ks bs t, uint16_set_run ks PNil = Ok (bs, t) ->
  exists l, each_uint16 t = Ok l /\ NoDup l /\ (forall k, In k l -> In k ks /\ k <> 0%N) /\
    (~ In 0%N ks -> forall k, In k ks -> In k l).
Proof.
  intros ks bs t. rewrite uint16_set_runs. intros Q.
  destruct (runs_ok N.eqb N.eqb_eq 16 ltac:(discriminate) hash16 hash16_lt
              (fun r : option unit => match r with None => true | Some _ => false end)
              (map (fun k => (k, tt)) ks) PNil [] (rep_nil N.eqb 16 hash16)) as (rs & t' & E & Rp & _).
  rewrite Q in E. injection E as -> ->. cbn [app] in Rp.
  destruct (elems_of_set N.eqb 16 hash16 N.eqb_eq _ _ Rp) as [D I].
  unfold each_uint16. rewrite for_each_ok. cbn [bind]. eexists. split; [reflexivity|].
  split; [now apply upto_nodup|]. split.
  - intros k Hk. apply in_map_iff in Hk as (e & <- & Hk). apply upto_in in Hk as [Hk Z]. split.
    + apply I. now apply in_map.
    + now apply N.eqb_neq.
  - intros No k Hk. rewrite upto_all.
    + now apply I.
    + intros e He. apply N.eqb_neq. intros F. apply No. apply I. rewrite <- F. now apply in_map.
Qed.
Print Assumptions C92_each_uint16.

(** ... for a map: keys with the value of their first insertion. *)
Theorem C92_each_string_map : forall kvs rs t, string_map_run kvs PNil = Ok (rs, t) ->
  exists l, each_string_uint16 t = Ok l /\ NoDup (map fst l) /\
    (forall k v, In (k, v) l ->
       v <> 0%N /\ exists i, nth_error kvs i = Some (k, v) /\ ~ In k (map fst (firstn i kvs))) /\
    (~ In 0%N (map snd kvs) -> forall k v i, nth_error kvs i = Some (k, v) -> ~ In k (map fst (firstn i kvs)) -> In (k, v) l).
Proof.
  intros kvs rs t Q. destruct (C66_iterate_string_map kvs rs t Q) as (l & D & I & Rn).
  assert (E : each_string_uint16 t = Ok (upto (fun e => N.eqb (snd e) 0) l)).
  { unfold each_string_uint16, for_each. apply each_loop_ok; [|exact Rn].
    rewrite psize_elems. pose proof (Rn (S (length l))) as A. rewrite iter_new_ok in A. injection A as A.
    assert (X : forall (n : nat) (a b : list (bytes * N)), length b < n ->
       firstn n (map Some a ++ repeat None n) = firstn n (map Some b ++ repeat None n) -> length b <= length a).
    { clear. induction n as [|n IH]; intros a b L; [lia|]. destruct b as [|y b]; [cbn [length]; lia|].
      destruct a as [|x a]; cbn [map app firstn repeat]; intros H; [discriminate|]. injection H as _ H.
      cbn [length] in *. apply le_n_S. apply (IH a b); [lia|].
      assert (Y : forall c : list (bytes * N), firstn n (map Some c ++ None :: repeat None n) = firstn n (map Some c ++ repeat None n)).
      { intros c. change (None :: repeat None n) with (repeat (@None (bytes * N)) (S n)).
        replace (S n) with (n + 1) by lia. rewrite repeat_app, app_assoc, firstn_app. cbn [repeat].
        replace (n - length (map Some c ++ repeat None n)) with 0 by (rewrite app_length, repeat_length; lia).
        cbn [firstn]. now rewrite app_nil_r. }
      now rewrite !Y in H. }
    symmetry in A. specialize (X (S (length l)) (elems t) l ltac:(lia)). symmetry in A. apply X in A. lia. }
  exists (upto (fun e => N.eqb (snd e) 0) l). split; [exact E|]. split; [now apply upto_nodup|]. split.
  - intros k v H. apply upto_in in H as [H Z]. split; [now apply N.eqb_neq|]. now apply I.
  - intros No k v i H1 H2. rewrite upto_all.
    + apply I. eauto.
    + intros [k' v'] H. cbn [snd]. apply N.eqb_neq. intros ->. apply I in H as (j & H & _). apply No.
      apply nth_error_In in H. apply in_map_iff. now exists (k', 0%N).
Qed.
Print Assumptions C92_each_string_map.

(** In the maps of a DOM no id is 0: a loop over one visits every name ever seen,
    with its id, in the order of the ids. *)
Theorem C92_each_interned : forall d, reachable d ->
  each_interned (mroot (tag_map d)) = Ok (combine (tl (map t_name (tag_reg d))) (seq 1 (length (tag_reg d) - 1))) /\
  each_interned (mroot (bool_map d)) = Ok (combine (tl (bool_reg d)) (seq 1 (length (bool_reg d) - 1))) /\
  each_interned (mroot (key_map d)) = Ok (combine (tl (key_reg d)) (seq 1 (length (key_reg d) - 1))) /\
  each_interned (mroot (val_map d)) = Ok (combine (tl (val_reg d)) (seq 1 (length (val_reg d) - 1))).
Proof.
  intros d R. pose proof (u_reg d R) as G.
  assert (X : forall reg m, reg_ok reg m -> each_interned (mroot m) = Ok (combine (tl reg) (seq 1 (length reg - 1)))).
  { intros reg m (l & -> & Q & _ & _). unfold each_interned. rewrite Q, for_each_ok, elems_chain.
    cbn [tl length]. rewrite Nat.sub_succ, Nat.sub_0_r. rewrite upto_all; [reflexivity|].
    intros [k v] I. cbn [snd]. apply Nat.eqb_neq. apply in_combine_r in I. apply in_seq in I. lia. }
  split; [|repeat split]; try (apply X; apply G).
  rewrite (X _ _ (ri_tag _ G)). now rewrite map_length.
Qed.
Print Assumptions C92_each_interned.

(** C92 (false): such a loop visits every element.  A set whose first key is the
    empty string (or 0), a map whose first value is 0: nothing is visited at all. *)
Theorem C92_empty_first_refuted : forall ks bs t, string_set_run ([] :: ks) PNil = Ok (bs, t) -> each_string t = Ok [].
Proof.
  intros ks bs t. rewrite string_set_runs. cbn [map]. intros Q. apply rooted_first in Q.
  unfold each_string. now rewrite (rooted_each _ _ _ Q).
Qed.
Print Assumptions C92_empty_first_refuted.
Theorem C92_zero_first_refuted : forall ks bs t, uint16_set_run (0%N :: ks) PNil = Ok (bs, t) -> each_uint16 t = Ok [].
Proof.
  intros ks bs t. rewrite uint16_set_runs. cbn [map]. intros Q. apply rooted_first in Q.
  unfold each_uint16. now rewrite (rooted_each _ _ _ Q).
Qed.
Print Assumptions C92_zero_first_refuted.
Theorem C92_zero_value_refuted : forall k kvs rs t, string_map_run ((k, 0%N) :: kvs) PNil = Ok (rs, t) ->
  each_string_uint16 t = Ok [].
Proof.
  intros k kvs rs t. rewrite string_map_runs. intros Q. apply rooted_first in Q.
  unfold each_string_uint16. now rewrite (rooted_each _ _ _ Q).
Qed.
Print Assumptions C92_zero_value_refuted.
Definition set_of ks := match string_set_run ks PNil with Ok (_, t) => t | _ => PNil end.
Definition set16_of ks := match uint16_set_run ks PNil with Ok (_, t) => t | _ => PNil end.
Definition map_of kvs := match string_map_run kvs PNil with Ok (_, t) => t | _ => PNil end.
Example C92_ex :
  (exists bs, string_set_run [B "a"; B "bc"; B "a"] PNil = Ok (bs, set_of [B "a"; B "bc"; B "a"])) /\
  each_string (set_of [B "a"; B "bc"; B "a"]) = Ok [B "a"; B "bc"] /\
  each_string (set_of [B "a"; B ""; B "bc"]) = Ok [B "a"] /\
  each_string (set_of [B ""; B "bc"]) = Ok [] /\
  each_uint16 (set16_of [7; 300; 7]%N) = Ok [7; 300]%N /\
  each_string_uint16 (map_of [(B "a", 7); (B "b", 9); (B "a", 8)]%N) = Ok [(B "a", 7); (B "b", 9)]%N /\
  reachable ex1 /\ each_interned (mroot (key_map ex1)) = Ok [(B "class", 1); (B "id", 2)].
Proof.
  split; [eexists; vm_compute; reflexivity|]. split; [vm_compute; reflexivity|]. split; [vm_compute; reflexivity|].
  split; [vm_compute; reflexivity|]. split; [vm_compute; reflexivity|]. split; [vm_compute; reflexivity|].
  split; [exact ex1_reachable|vm_compute; reflexivity].
Qed.

(** ** C93: [flo_html_printFirstDifference] *)

Theorem C93_first_difference : forall d1 d2 n m, reachable d1 -> reachable d2 ->
  few_attributes d1 -> few_attributes d2 -> node_id d1 n -> node_id d2 m ->
  exists ops, first_difference n d1 m d2 = Ok ops /\ report d1 n d2 m (written ops).
Proof. intros d1 d2 n m R1 R2 A1 A2. now apply first_difference_ok. Qed.
Print Assumptions C93_first_difference.

(** The calls of such a report: no padding, a flush at the end. *)
Definition fin (ops : list wop) : Prop := Forall wop_small ops /\ exists l o, ops = l ++ [o] /\ wop_flushes o.
Lemma fin_app a b : Forall wop_small a -> fin b -> fin (a ++ b).
Proof.
  intros H [S1 (l & o & -> & F)]. split; [now apply Forall_app|]. exists (a ++ l), o. now rewrite app_assoc.
Qed.
Lemma fin_cons a b : wop_small a -> fin b -> fin (a :: b).
Proof. intros H F. apply (fin_app [a]); [now constructor|exact F]. Qed.
Lemma fin_flush : fin [WFlush].
Proof. split; [repeat constructor|]. exists [], WFlush. now split. Qed.
Lemma lines_small l : Forall wop_small (map sayln l).
Proof. apply Forall_map, Forall_forall. intros. exact I. Qed.
Ltac fins := repeat first [apply fin_flush | apply fin_cons; [exact I|] | apply fin_app; [apply lines_small|]].
Lemma report_sets_fin h w x1 s1 d1 x2 s2 d2 ops : report_sets h w x1 s1 d1 x2 s2 d2 = Ok ops -> fin ops.
Proof.
  unfold report_sets, print_attributes.
  destruct (tag_text x1 d1); try discriminate. destruct (tag_text x2 d2); try discriminate. cbn [bind].
  intros H. injection H as <-. cbn [app]. fins.
Qed.
Ltac inv_ok H := injection H as H; subst.
Lemma report_bools_fin x1 d1 x2 d2 ops : report_bools x1 d1 x2 d2 = Ok (Some ops) -> fin ops.
Proof.
  unfold report_bools. destruct (fill_bools _ _ d1 _); try discriminate. cbn [bind].
  destruct (fill_bools _ _ d2 _); try discriminate. cbn [bind]. destruct (s_equals _ _) as [h| | |]; try discriminate. cbn [bind].
  destruct h; try discriminate; destruct (report_sets _ _ _ _ _ _ _ _) eqn:E; try discriminate; cbn [bind]; intros H; inv_ok H;
    eapply report_sets_fin; eauto.
Qed.
Lemma report_props_fin x1 d1 x2 d2 ops : report_props x1 d1 x2 d2 = Ok (Some ops) -> fin ops.
Proof.
  unfold report_props. destruct (fill_props _ _ d1 _ _) as [[k1 v1]| | |]; try discriminate. cbn [bind].
  destruct (fill_props _ _ d2 _ _) as [[k2 v2]| | |]; try discriminate. cbn [bind].
  destruct (s_equals k1 k2) as [h| | |]; try discriminate. cbn [bind].
  destruct h; [destruct (s_equals v1 v2) as [h| | |]; try discriminate; cbn [bind]; destruct h; try discriminate| |];
    destruct (report_sets _ _ _ _ _ _ _ _) eqn:E; try discriminate; cbn [bind]; intros H; inv_ok H; eapply report_sets_fin; eauto.
Qed.
Lemma report_tags_fin x1 d1 x2 d2 ops : report_tags x1 d1 x2 d2 = Ok (Some ops) -> fin ops.
Proof.
  unfold report_tags. destruct (negb (ntype_eqb _ _)); [intros H; inv_ok H; fins|].
  destruct (n_type x1).
  - discriminate.
  - destruct (reg_of x1 d1) as [r1| | |]; try discriminate. destruct (reg_of x2 d2) as [r2| | |]; try discriminate. cbn [bind].
    destruct (negb (eqb _ _)); [intros H; inv_ok H; fins|]. destruct (negb (beq _ _)); [intros H; inv_ok H; fins|discriminate].
  - destruct (node_text x1); try discriminate. destruct (node_text x2); try discriminate. cbn [bind].
    destruct (beq _ _); [discriminate|]. intros H. inv_ok H. fins.
  - intros H. inv_ok H. fins.
  - intros H. inv_ok H. fins.
Qed.
Lemma first_difference_fin n d1 m d2 ops : first_difference n d1 m d2 = Ok ops -> fin ops.
Proof.
  unfold first_difference. destruct (get_node d1 n) as [x1| | |]; try discriminate.
  destruct (get_node d2 m) as [x2| | |]; try discriminate. cbn [bind].
  destruct (report_tags x1 d1 x2 d2) as [[l|]| | |] eqn:T; try discriminate; cbn [bind].
  { intros H. inv_ok H. eapply report_tags_fin; eauto. }
  assert (No : fin [WApp (lit "Could not find any differences for the supplied nodes & documents combination." ++ nl) false true]).
  { split; [repeat constructor|]. eexists [], _. split; [reflexivity|exact eq_refl]. }
  destruct (n_type x1); cbn [bind]; try (intros H; inv_ok H; exact No).
  destruct (report_bools x1 d1 x2 d2) as [[l|]| | |] eqn:Bo; try discriminate; cbn [bind].
  { intros H. inv_ok H. eapply report_bools_fin; eauto. }
  destruct (report_props x1 d1 x2 d2) as [[l|]| | |] eqn:Po; try discriminate; cbn [bind]; intros H; inv_ok H.
  - eapply report_props_fin; eauto.
  - exact No.
Qed.

(** ... and the file receives all of it (behind what was in the buffer). *)
Theorem C93_report_reaches_file : forall d1 d2 n m ops k w, first_difference n d1 m d2 = Ok ops -> progresses k ->
  length (w_buf w) <= w_cap w -> 0 < w_cap w ->
  exists fuel, forall fuel', fuel <= fuel' ->
    exists w', wruns fuel' k ops w = Ok w' /\ w_buf w' = [] /\ w_out w' = w_out w ++ w_buf w ++ written ops.
Proof.
  intros d1 d2 n m ops k w E P L C. destruct (first_difference_fin _ _ _ _ _ E) as [Sm (l & o & -> & F)].
  now apply outputs.
Qed.
Print Assumptions C93_report_reaches_file.

Ltac other := let H := fresh in intros H; vm_compute in H; discriminate H.
(** For nodes that are in use: no difference is found exactly if there is none. *)
Theorem C93_nothing_found : forall d1 d2 n m ops, reachable d1 -> reachable d2 ->
  few_attributes d1 -> few_attributes d2 -> node_id d1 n -> node_id d2 m -> kind d1 n <> Some TRemoved ->
  first_difference n d1 m d2 = Ok ops ->
  (written ops = nothing_found <-> alike d1 n d2 m).
Proof.
  intros d1 d2 n m ops R1 R2 A1 A2 N1 N2 K E.
  destruct (first_difference_ok d1 d2 R1 R2 A1 A2 n m N1 N2) as (ops' & E' & Rp). rewrite E in E'. injection E' as <-.
  assert (Hd : forall what t a1 a2 s, set_report what t a1 a2 s -> s <> nothing_found).
  { intros what t a1 a2 s (e1 & e2 & _ & _ & ->) H. unfold nothing_found, ln, lit in H. cbn in H. discriminate H. }
  inversion Rp as [k1 k2 H1 H2 H3 Q|s1 s2 H1 H2 H3 Q|t1 t2 p1 p2 (H1 & H2 & H3 & H4) H5 Q|t1 t2 p (H1 & H2 & H3 & H4) H5 Q
     |t p s (H1 & H2 & H3 & H4) H5 H6 Q|t p s (H1 & H2 & H3 & H4) H5 H6 H7 Q|t p s (H1 & H2 & H3 & H4) H5 H6 H7 H8 Q|H1 H2 Q|H1 H2 Q];
    [| | | | | | | |split; [intros _; exact H2|intros _; congruence]];
    (split; [intros X; exfalso|intros (B1 & B2 & B3 & B4 & B5); exfalso]).
  - vm_compute in X. discriminate X.
  - congruence.
  - vm_compute in X. discriminate X.
  - congruence.
  - vm_compute in X. discriminate X.
  - congruence.
  - vm_compute in X. discriminate X.
  - congruence.
  - eapply Hd; eauto.
  - assert (Kd : kind d1 n = Some TDocument).
    { unfold tag_name in H1. unfold kind. destruct (nth_error (nodes d1) n) as [[i ty pl]|]; [|discriminate]. cbn in *.
      destruct ty; congruence. }
    now destruct (B5 Kd).
  - eapply Hd; eauto.
  - assert (Kd : kind d1 n = Some TDocument).
    { unfold tag_name in H1. unfold kind. destruct (nth_error (nodes d1) n) as [[i ty pl]|]; [|discriminate]. cbn in *.
      destruct ty; congruence. }
    now destruct (B5 Kd) as (? & ? & ?).
  - eapply Hd; eauto.
  - assert (Kd : kind d1 n = Some TDocument).
    { unfold tag_name in H1. unfold kind. destruct (nth_error (nodes d1) n) as [[i ty pl]|]; [|discriminate]. cbn in *.
      destruct ty; congruence. }
    now destruct (B5 Kd) as (? & ? & ?).
  - congruence.
  - congruence.
Qed.
Print Assumptions C93_nothing_found.

Lemma below_kind d i : reachable d -> below_eq d 1 i -> node_id d i /\ kind d i <> Some TRemoved.
Proof.
  intros R B.
  assert (X : forall n x, below_eq d n x -> x = n \/ exists p l, children d p l /\ In x l).
  { intros n x H. induction H as [n|n c l x C Ic H IH]; [now left|].
    destruct IH as [->|A]; [|now right]. right. eauto. }
  destruct (X 1 i B) as [->|(p & l & C & I)].
  - destruct (reachable_good d R) as [k G]. pose proof (ty_one _ _ (g_ty _ _ G)) as O.
    pose proof (inv_len _ _ (g_inv _ _ G)). split; [unfold node_id; lia|congruence].
  - destruct (u_children d R p) as (l' & C' & _ & U & H & _). rewrite (U _ C) in I. destruct (H _ I) as (H1 & H2 & H3).
    split; [unfold node_id; lia|]. destruct H3; congruence.
Qed.
(** C93 (false): after [flo_html_equals] reported two nodes, this function says
    where they differ.  If they only have different numbers of children it says
    that there is no difference. *)
Theorem C93_child_counts_refuted : forall d1 d2 st i j, reachable d1 -> reachable d2 ->
  few_attributes d1 -> few_attributes d2 -> dom_equals d1 d2 = Ok (st, i, j) -> st <> CSuccess -> alike d1 i d2 j ->
  (exists l1 l2, children d1 i l1 /\ children d2 j l2 /\ length l1 <> length l2) /\
  exists ops, first_difference i d1 j d2 = Ok ops /\ written ops = nothing_found.
Proof.
  intros d1 d2 st i j R1 R2 A1 A2 E N Al.
  destruct (C49_equals_exact d1 d2 R1 R2 A1 A2) as (st' & i' & j' & E' & _ & H). rewrite E in E'. injection E' as <- <- <-.
  destruct (H N) as (B1 & B2 & [C|C]); [tauto|]. split; [exact C|].
  destruct (below_kind d1 i R1 B1) as [N1 K1]. destruct (below_kind d2 j R2 B2) as [N2 _].
  destruct (first_difference_ok d1 d2 R1 R2 A1 A2 i j N1 N2) as (ops & F & _). exists ops. split; [exact F|].
  now apply (C93_nothing_found d1 d2 i j).
Qed.
Print Assumptions C93_child_counts_refuted.
(** ... in all other cases it does. *)
Theorem C93_after_equals : forall d1 d2 st i j, reachable d1 -> reachable d2 ->
  few_attributes d1 -> few_attributes d2 -> dom_equals d1 d2 = Ok (st, i, j) -> st <> CSuccess -> ~ alike d1 i d2 j ->
  exists ops, first_difference i d1 j d2 = Ok ops /\ report d1 i d2 j (written ops) /\ written ops <> nothing_found.
Proof.
  intros d1 d2 st i j R1 R2 A1 A2 E N Al.
  destruct (C49_equals_exact d1 d2 R1 R2 A1 A2) as (st' & i' & j' & E' & _ & H). rewrite E in E'. injection E' as <- <- <-.
  destruct (H N) as (B1 & B2 & _).
  destruct (below_kind d1 i R1 B1) as [N1 K1]. destruct (below_kind d2 j R2 B2) as [N2 _].
  destruct (first_difference_ok d1 d2 R1 R2 A1 A2 i j N1 N2) as (ops & F & Rp). exists ops. split; [exact F|]. split; [exact Rp|].
  intros W. apply Al. now apply (C93_nothing_found d1 d2 i j ops R1 R2 A1 A2 N1 N2 K1 F).
Qed.
Print Assumptions C93_after_equals.
(** C93 (false): the message about different tags names both.  It gives the first
    node's name twice. *)
Theorem C93_second_tag_refuted : forall d1 d2 n m t1 t2 p, reachable d1 -> reachable d2 ->
  few_attributes d1 -> few_attributes d2 -> node_id d1 n -> node_id d2 m ->
  elements d1 n d2 m t1 t2 p p -> t1 <> t2 ->
  exists ops, first_difference n d1 m d2 = Ok ops /\
    written ops = ln (lit "Nodes have different tags.") ++ ln (lit "node 1 tag: " ++ t1) ++ ln (lit "node 2 tag: " ++ t1).
Proof.
  intros d1 d2 n m t1 t2 p R1 R2 A1 A2 N1 N2 (T1 & T2 & P1 & P2) Ne.
  destruct (first_difference_ok d1 d2 R1 R2 A1 A2 n m N1 N2) as (ops & E & Rp). exists ops. split; [exact E|].
  assert (Kd : forall d n t, tag_name d n = Some t -> kind d n = Some TDocument).
  { clear. intros d n t. unfold tag_name, kind. destruct (nth_error (nodes d) n) as [[i ty pl]|]; [|discriminate]. cbn. destruct ty; congruence. }
  assert (Tx : forall d n t, tag_name d n = Some t -> text_of d n = None).
  { clear. intros d n t. unfold tag_name, text_of. destruct (nth_error (nodes d) n) as [[i ty pl]|]; [|discriminate]. destruct ty; congruence. }
  pose proof (Kd _ _ _ T1) as Ka. pose proof (Kd _ _ _ T2) as Kb. pose proof (Tx _ _ _ T1) as Kc.
  inversion Rp as [k1 k2 H1 H2 H3 Q|s1 s2 H1 H2 H3 Q|t1' t2' p1 p2 (H1 & H2 & H3 & H4) H5 Q|t1' t2' p' (H1 & H2 & H3 & H4) H5 Q
     |t p' s (H1 & H2 & H3 & H4) H5 H6 Q|t p' s (H1 & H2 & H3 & H4) H5 H6 H7 Q|t p' s (H1 & H2 & H3 & H4) H5 H6 H7 H8 Q|H1 H2 Q
     |H1 (_ & _ & B3 & _) Q]; try congruence.
  assert (t1' = t1) by congruence. subst t1'. reflexivity.
Qed.
Print Assumptions C93_second_tag_refuted.

Definition src5 : string := "<a x><b></b></a>".
Definition src6 : string := "<a y><b></b><p></p></a>".
Definition src7 : string := "<a x></a>".
Definition ex5 : dom := Eval vm_compute in the_dom src5.
Definition ex6 : dom := Eval vm_compute in the_dom src6.
Definition ex7 : dom := Eval vm_compute in the_dom src7.
Lemma ex5_reachable : reachable ex5.
Proof. apply (reach_create (B src5)). vm_compute. reflexivity. Qed.
Lemma ex6_reachable : reachable ex6.
Proof. apply (reach_create (B src6)). vm_compute. reflexivity. Qed.
Lemma ex7_reachable : reachable ex7.
Proof. apply (reach_create (B src7)). vm_compute. reflexivity. Qed.
Definition says (o : outcome (list wop)) (s : bytes) : Prop := exists ops, o = Ok ops /\ written ops = s.
Example C93_ex : reachable ex5 /\ reachable ex6 /\ reachable ex7 /\ few_attributes ex5 /\ few_attributes ex6 /\ few_attributes ex7 /\
  dom_equals ex5 ex6 = Ok (CContent, 2, 2) /\ ~ alike ex5 2 ex6 2 /\
  says (first_difference 2 ex5 2 ex6)
    (ln (lit "Collections have different content") ++ ln (lit "Nodes contain different bool props") ++
     ln (lit "Printing certain attributes of node 1 with tag a") ++ ln (lit "x") ++
     ln (lit "Printing certain attributes of node 2 with tag a") ++ ln (lit "y")) /\
  dom_equals ex5 ex7 = Ok (CSizes, 2, 2) /\ alike ex5 2 ex7 2 /\
  says (first_difference 2 ex5 2 ex7) nothing_found /\
  elements ex5 3 ex6 4 (lit "b") (lit "p") true true /\
  says (first_difference 3 ex5 4 ex6)
    (ln (lit "Nodes have different tags.") ++ ln (lit "node 1 tag: b") ++ ln (lit "node 2 tag: b")).
Proof.
  split; [exact ex5_reachable|]. split; [exact ex6_reachable|]. split; [exact ex7_reachable|].
  do 3 (split; [apply few_dec; vm_compute; reflexivity|]). split; [vm_compute; reflexivity|]. split.
  { intros (_ & _ & _ & _ & H). destruct (H eq_refl) as ([H1 _] & _). specialize (H1 (lit "x")).
    vm_compute in H1. destruct (proj1 (H1 ltac:(discriminate)) (or_introl eq_refl)) as [X|[]]. discriminate X. }
  split; [eexists; split; vm_compute; reflexivity|]. split; [vm_compute; reflexivity|]. split.
  { vm_compute. repeat split; tauto. }
  split; [eexists; split; vm_compute; reflexivity|]. split; [vm_compute; auto|].
  eexists; split; vm_compute; reflexivity.
Qed.

(** The texts of the result of a comparison tell the results apart. *)
Theorem C93_status_texts : (forall c c', cstatus_text c = cstatus_text c' -> c = c') /\
  (forall h h', hcmp_text h = hcmp_text h' -> h = h').
Proof. split; [intros [] []|intros [] []]; intros E; try reflexivity; vm_compute in E; discriminate E. Qed.
Print Assumptions C93_status_texts.

(** ** C94: [flo_html_printDomStatus] *)

Theorem C94_dom_status : forall d dec, reachable d -> addressable d -> writes_decimal dec ->
  exists ops, dom_status d = Ok ops /\ written ops = status_text dec d.
Proof.
  intros d dec R A D. destruct (status_ok dec D d R A) as (ops & E & _ & W). eauto.
Qed.
Print Assumptions C94_dom_status.
Theorem C94_status_reaches_file : forall d dec k w, reachable d -> addressable d -> writes_decimal dec -> progresses k ->
  length (w_buf w) <= w_cap w -> 0 < w_cap w ->
  exists ops fuel, dom_status d = Ok ops /\ forall fuel', fuel <= fuel' ->
    exists w', wruns fuel' k ops w = Ok w' /\ w_buf w' = [] /\ w_out w' = w_out w ++ w_buf w ++ status_text dec d.
Proof.
  intros d dec k w R A D P L C. destruct (status_ok dec D d R A) as (ops & E & Sm & W).
  destruct (outputs k ops WFlush w P Sm I L C) as (fuel & H). exists (ops ++ [WFlush]), fuel. split; [exact E|].
  now rewrite <- W.
Qed.
Print Assumptions C94_status_reaches_file.
(** There is such a way to write numbers, and it does not matter which. *)
Definition dec64 (n : nat) : bytes := match uint64_text (N.of_nat n) with Ok s => s | _ => [] end.
Lemma dec64_ok : writes_decimal dec64.
Proof. intros n H. unfold dec64. destruct (C55_uint64 _ H) as (s & E & D). now rewrite E. Qed.
Theorem C94_decimal_unique : forall dec dec', writes_decimal dec -> writes_decimal dec' ->
  forall n, (N.of_nat n < 2 ^ 64)%N -> dec n = dec' n.
Proof. intros dec dec' D D' n H. eapply C55_decimal_unique; [apply D|apply D']; exact H. Qed.
Print Assumptions C94_decimal_unique.
Example C94_ex : reachable ex7 /\ addressable ex7 /\ writes_decimal dec64 /\
  says (dom_status ex7) (status_text dec64 ex7) /\
  map_part dec64 (lit "printing bool property status...") (bool_reg ex7) =
    ln (lit "printing bool property status...") ++ ln (lit "string = x                              with id = 1") ++ endl.
Proof.
  split; [exact ex7_reachable|]. split; [split; repeat (constructor; [vm_compute; reflexivity|]); constructor|].
  split; [exact dec64_ok|]. split; [eexists; split; vm_compute; reflexivity|]. vm_compute. reflexivity.
Qed.
