(** * Tries of the utility library (C60, C66). *)
From Coq Require Import String List NArith Arith Bool Lia Permutation.
From Verif Require Import Base Lemmas TrieModel TrieProofs DomModel ParserModel MsiModel ApiSpec RegProofs ReadUser
  CompareProofs UtilTrieModel UtilTrieProofs Examples.
Import ListNotations.
Local Open Scope nat_scope.

Lemma lookup_set {K} (eqk : K -> K -> bool) (S : forall a b, eqk a b = true <-> a = b) k ks :
  lookup_first eqk k (map (fun k => (k, tt)) ks) = None <-> ~ In k ks.
Proof.
  rewrite (lookup_none eqk S). rewrite map_map. cbn [fst]. now rewrite map_id.
Qed.
Lemma lookup_unit {K} (eqk : K -> K -> bool) (S : forall a b, eqk a b = true <-> a = b) k u ks :
  lookup_first eqk k (map (fun k => (k, tt)) ks) = Some u <-> In k ks.
Proof.
  destruct (lookup_first eqk k (map (fun k => (k, tt)) ks)) as [[]|] eqn:E; destruct u.
  - split; [|reflexivity]. intros _. destruct (in_dec (fun a b => match bool_dec (eqk a b) true with
        | left p => left (proj1 (S a b) p) | right p => right (fun q => p (proj2 (S a b) q)) end) k ks) as [I|I]; [exact I|].
    apply (lookup_set eqk S) in I. congruence.
  - apply (lookup_set eqk S) in E. split; [discriminate|tauto].
Qed.

(** C60: [flo_trie_insertStringSet] answers true exactly for the keys that were not
    inserted before. *)
Theorem C60_string_set : forall ks, exists bs t, string_set_run ks PNil = Ok (bs, t) /\
  length bs = length ks /\
  forall i k, nth_error ks i = Some k ->
    exists b, nth_error bs i = Some b /\ (b = true <-> ~ In k (firstn i ks)).
Proof.
  intros ks. rewrite string_set_runs.
  destruct (runs_ok beq beq_spec 64 ltac:(discriminate) djb2 djb2_lt
              (fun r : option unit => match r with None => true | Some _ => false end)
              (map (fun k => (k, tt)) ks) PNil [] (rep_nil beq 64 djb2)) as (rs & t & E & _ & L & N).
  exists rs, t. split; [exact E|]. split; [now rewrite L, map_length|]. intros i k Hk.
  eexists. split; [apply (N i k tt); rewrite nth_error_map, Hk; reflexivity|].
  cbn [app]. rewrite firstn_map, <- (lookup_set beq beq_spec). destruct (lookup_first _ _ _); split; congruence.
Qed.
Print Assumptions C60_string_set.

(** C60: the same for [flo_trie_insertUint16Set]. *)
Theorem C60_uint16_set : forall ks, exists bs t, uint16_set_run ks PNil = Ok (bs, t) /\
  length bs = length ks /\
  forall i k, nth_error ks i = Some k ->
    exists b, nth_error bs i = Some b /\ (b = true <-> ~ In k (firstn i ks)).
Proof.
  intros ks. rewrite uint16_set_runs.
  destruct (runs_ok N.eqb N.eqb_eq 16 ltac:(discriminate) hash16 hash16_lt
              (fun r : option unit => match r with None => true | Some _ => false end)
              (map (fun k => (k, tt)) ks) PNil [] (rep_nil N.eqb 16 hash16)) as (rs & t & E & _ & L & N).
  exists rs, t. split; [exact E|]. split; [now rewrite L, map_length|]. intros i k Hk.
  eexists. split; [apply (N i k tt); rewrite nth_error_map, Hk; reflexivity|].
  cbn [app]. rewrite firstn_map, <- (lookup_set N.eqb N.eqb_eq). destruct (lookup_first _ _ _); split; congruence.
Qed.
Print Assumptions C60_uint16_set.

(** C60: [flo_trie_insertStringUint16Map] returns the value of the first insertion
    of the key, and 1 (not the value) if there was none. *)
Theorem C60_string_map : forall kvs, exists rs t, string_map_run kvs PNil = Ok (rs, t) /\
  length rs = length kvs /\
  forall i k v, nth_error kvs i = Some (k, v) ->
    (~ In k (map fst (firstn i kvs)) -> nth_error rs i = Some 1%N) /\
    (forall j u, j < i -> nth_error kvs j = Some (k, u) -> ~ In k (map fst (firstn j kvs)) ->
       nth_error rs i = Some u).
Proof.
  intros kvs. rewrite string_map_runs.
  destruct (runs_ok beq beq_spec 64 ltac:(discriminate) djb2 djb2_lt
              (fun r : option N => match r with None => 1%N | Some u => u end) kvs PNil [] (rep_nil beq 64 djb2))
    as (rs & t & E & _ & L & Nt).
  exists rs, t. split; [exact E|]. split; [exact L|]. intros i k v Hk.
  specialize (Nt i k v Hk). cbn [app] in Nt. split.
  - intros I. apply (lookup_none beq beq_spec) in I. now rewrite I in Nt.
  - intros j u Lj Hj I. rewrite Nt. f_equal. apply (lookup_none beq beq_spec) in I.
    assert (F : lookup_first beq k (firstn (S j) kvs) = Some u).
    { assert (X : firstn (S j) kvs = firstn j kvs ++ [(k, u)]).
      { clear - Hj. revert kvs Hj. induction j as [|j IH]; intros [|x l] H; try discriminate.
        - injection H as ->. reflexivity.
        - change (firstn (S (S j)) (x :: l)) with (x :: firstn (S j) l). rewrite (IH l H). reflexivity. }
      rewrite X, lookup_snoc, I. cbn [fst snd]. now rewrite (proj2 (beq_spec _ _) eq_refl). }
    assert (P : exists q, firstn i kvs = firstn (S j) kvs ++ q).
    { exists (skipn (S j) (firstn i kvs)). rewrite <- (firstn_skipn (S j) (firstn i kvs)) at 1. f_equal.
      rewrite firstn_firstn. f_equal. lia. }
    destruct P as [q ->]. unfold lookup_first in *.
    assert (G : forall p, find (fun e : bytes * N => beq (fst e) k) p <> None -> find (fun e => beq (fst e) k) (p ++ q) = find (fun e => beq (fst e) k) p).
    { induction p as [|y p IHp]; cbn [find app]; [congruence|]. destruct (beq (fst y) k); auto. }
    rewrite G; [rewrite F; reflexivity|]. intros X. rewrite X in F. discriminate.
Qed.
Print Assumptions C60_string_map.

Example C60_ex :
  (exists t, string_set_run [B "a"; B "bc"; B "a"; B "a"] PNil = Ok ([true; true; false; false], t)) /\
  (exists t, uint16_set_run [1; 65535; 300; 65535; 1]%N PNil = Ok ([true; true; true; false; false], t)) /\
  (exists t, string_map_run [(B "a", 7); (B "b", 9); (B "a", 8); (B "b", 3)]%N PNil = Ok ([1; 1; 7; 9]%N, t)).
Proof. repeat split; eexists; vm_compute; reflexivity. Qed.

(** C66: an iterator over such a set returns every key exactly once and then the
    zeroed result, for ever. *)
Theorem C66_iterate_string_set : forall ks bs t, string_set_run ks PNil = Ok (bs, t) ->
  exists l, NoDup l /\ (forall k, In k l <-> In k ks) /\
    forall n, iter_run n (iter_new t) = Ok (firstn n (map (fun k => Some (k, tt)) l ++ repeat None n)).
Proof.
  intros ks bs t. rewrite string_set_runs. intros Q.
  destruct (runs_ok beq beq_spec 64 ltac:(discriminate) djb2 djb2_lt
              (fun r : option unit => match r with None => true | Some _ => false end)
              (map (fun k => (k, tt)) ks) PNil [] (rep_nil beq 64 djb2)) as (rs & t' & E & Rp & _).
  rewrite Q in E. injection E as -> ->. destruct (rep_iter beq 64 djb2 _ _ Rp) as (l & _ & D & I & R).
  exists (map fst l). split; [exact D|].
  assert (Eq : map (fun k => Some (k, tt)) (map fst l) = map Some l).
  { rewrite map_map. apply map_ext. intros [k []]. reflexivity. }
  split; [|now rewrite Eq]. intros k. cbn [app] in I. split.
  - intros H. apply in_map_iff in H as ([k' u] & <- & H). apply I in H. now apply (lookup_unit beq beq_spec) in H.
  - intros H. apply in_map_iff. exists (k, tt). split; [reflexivity|]. apply I. now apply (lookup_unit beq beq_spec).
Qed.
Print Assumptions C66_iterate_string_set.
Theorem C66_iterate_uint16_set : forall ks bs t, uint16_set_run ks PNil = Ok (bs, t) ->
  exists l, NoDup l /\ (forall k, In k l <-> In k ks) /\
    forall n, iter_run n (iter_new t) = Ok (firstn n (map (fun k => Some (k, tt)) l ++ repeat None n)).
Proof.
  intros ks bs t. rewrite uint16_set_runs. intros Q.
  destruct (runs_ok N.eqb N.eqb_eq 16 ltac:(discriminate) hash16 hash16_lt
              (fun r : option unit => match r with None => true | Some _ => false end)
              (map (fun k => (k, tt)) ks) PNil [] (rep_nil N.eqb 16 hash16)) as (rs & t' & E & Rp & _).
  rewrite Q in E. injection E as -> ->. destruct (rep_iter N.eqb 16 hash16 _ _ Rp) as (l & _ & D & I & R).
  exists (map fst l). split; [exact D|].
  assert (Eq : map (fun k => Some (k, tt)) (map fst l) = map Some l).
  { rewrite map_map. apply map_ext. intros [k []]. reflexivity. }
  split; [|now rewrite Eq]. intros k. cbn [app] in I. split.
  - intros H. apply in_map_iff in H as ([k' u] & <- & H). apply I in H. now apply (lookup_unit N.eqb N.eqb_eq) in H.
  - intros H. apply in_map_iff. exists (k, tt). split; [reflexivity|]. apply I. now apply (lookup_unit N.eqb N.eqb_eq).
Qed.
Print Assumptions C66_iterate_uint16_set.
(** ... for a map: every key once, with the value of its first insertion. *)
Theorem C66_iterate_string_map : forall kvs rs t, string_map_run kvs PNil = Ok (rs, t) ->
  exists l, NoDup (map fst l) /\
    (forall k v, In (k, v) l <-> exists i, nth_error kvs i = Some (k, v) /\ ~ In k (map fst (firstn i kvs))) /\
    forall n, iter_run n (iter_new t) = Ok (firstn n (map Some l ++ repeat None n)).
Proof.
  intros ks bs t. rewrite string_map_runs. intros Q.
  destruct (runs_ok beq beq_spec 64 ltac:(discriminate) djb2 djb2_lt
              (fun r : option N => match r with None => 1%N | Some u => u end) ks PNil [] (rep_nil beq 64 djb2))
    as (rs & t' & E & Rp & _).
  rewrite Q in E. injection E as -> ->. destruct (rep_iter beq 64 djb2 _ _ Rp) as (l & _ & D & I & R).
  exists l. split; [exact D|]. split; [|exact R]. intros k v. rewrite I. cbn [app]. clear. split.
  - induction ks as [|[k' v'] ks IH]; unfold lookup_first in *; cbn [find fst]; [discriminate|].
    destruct (beq k' k) eqn:E.
    + apply beq_spec in E. subst. cbn [snd]. intros [= <-]. exists 0. split; [reflexivity|]. intros [].
    + intros H. destruct (IH H) as (i & N & F). exists (S i). split; [exact N|]. cbn [firstn map fst]. intros [X|X]; [|tauto].
      apply beq_spec in X. congruence.
  - intros (i & N & F). revert ks N F. induction i as [|i IH]; intros [|[k' v'] ks] N F; try discriminate; cbn [nth_error firstn map fst] in *.
    + injection N as -> ->. unfold lookup_first. cbn [find fst]. now rewrite (proj2 (beq_spec _ _) eq_refl).
    + unfold lookup_first. cbn [find fst]. destruct (beq k' k) eqn:E; [apply beq_spec in E; subst; exfalso; apply F; now left|].
      apply IH; auto. intros X. apply F. now right.
Qed.
Print Assumptions C66_iterate_string_map.

(** ... and the interning maps of a document: every name with its id, in the order
    of the ids. *)
Theorem C66_iterate_interned : forall d, reachable d -> forall reg m,
  In (reg, m) [(map t_name (tag_reg d), tag_map d); (bool_reg d, bool_map d); (key_reg d, key_map d); (val_reg d, val_map d)] ->
  forall n, iter_run n (iter_new (of_trie (mroot m))) =
    Ok (firstn n (map Some (combine (tl reg) (seq 1 (length reg - 1))) ++ repeat None n)).
Proof.
  intros d R reg m I n. assert (Q : reg_ok reg m).
  { destruct (u_reg d R). destruct I as [[= <- <-]|[[= <- <-]|[[= <- <-]|[[= <- <-]|[]]]]]; assumption. }
  destruct Q as (l & -> & Q & _ & _). cbn [tl length]. rewrite Nat.sub_succ, Nat.sub_0_r.
  rewrite Q, iter_new_ok, elems_chain. reflexivity.
Qed.
Print Assumptions C66_iterate_interned.
Example C66_ex : reachable ex1 /\
  iter_run 8 (iter_new (of_trie (mroot (tag_map ex1)))) =
    Ok (map Some [(B "!DOCTYPE", 1); (B "html", 2); (B "body", 3); (B "p", 4); (B "b", 5); (B "br", 6)] ++ [None; None]) /\
  exists t, string_set_run [B "a"; B "bc"; B "a"; B "d"] PNil = Ok ([true; true; false; true], t) /\
    iter_run 5 (iter_new t) = Ok [Some (B "a", tt); Some (B "bc", tt); Some (B "d", tt); None; None].
Proof.
  split; [exact ex1_reachable|]. split; [vm_compute; reflexivity|]. eexists. split; vm_compute; reflexivity.
Qed.
