(** * The memory of a query. *)
From Coq Require Import List NArith ZArith Arith Bool Lia.
From Verif Require Import Base TrieModel DomModel MsiModel QueryModel ParserModel EditModel ApiSpec ArenaSpec MemModel MemSpec Lemmas MemProofs
  RegProofs ApiProofs TraceModel TraceProofs TraceMem TraceUser TraceEditModel TraceEditProofs TraceEditMem TraceEditUser DupMem QueryMemModel AskSpec.
Import ListNotations.
Local Open Scope nat_scope.

(** ** The same results as without the record *)
Lemma m_snd {A B} (x : qm A) (f : A -> qm B) : snd (m_bind x f) = bind (snd x) (fun a => snd (f a)).
Proof. unfold m_bind. destruct (snd x); reflexivity. Qed.
Lemma bind_ext {A B} (x : outcome A) (f g : A -> outcome B) : (forall a, f a = g a) -> bind x f = bind x g.
Proof. intros H. destruct x; cbn; auto. Qed.

Lemma v_insert_if lo id fs d s : snd (m_insert_if lo id fs d s) = insert_if lo id fs d s.
Proof.
  unfold m_insert_if, insert_if. rewrite m_snd. cbn [m_lift snd]. apply bind_ext. intros [|]; [|reflexivity].
  rewrite m_snd. cbn [m_insert snd]. apply bind_ext. intros [b s']. reflexivity.
Qed.
Lemma v_all lo fs d l : forall s, snd (m_all_loop lo l fs d s) = all_nodes_loop lo l fs d s.
Proof.
  induction l as [|n l IH]; intros s; cbn [m_all_loop all_nodes_loop]; [reflexivity|].
  rewrite m_snd, v_insert_if. apply bind_ext. intros s'. apply IH.
Qed.
Lemma v_siblings lo limit fs d fuel : forall next s, snd (m_siblings_loop fuel lo limit next fs d s) = siblings_loop fuel lo limit next fs d s.
Proof.
  induction fuel as [|f IH]; intros next s; cbn [m_siblings_loop siblings_loop]; destruct (0 <? next); try reflexivity.
  rewrite m_snd, v_insert_if. apply bind_ext. intros s'. destruct limit; [reflexivity|apply IH].
Qed.
Lemma v_adjacents_loop lo limit fs d l : forall s, snd (m_adjacents_loop lo limit l fs d s) = adjacents_loop lo limit l fs d s.
Proof.
  induction l as [|x l IH]; intros s; cbn [m_adjacents_loop adjacents_loop]; [reflexivity|].
  rewrite m_snd, v_siblings. apply bind_ext. intros s'. apply IH.
Qed.
Lemma v_pass lo fs d filled l : forall fill s, snd (m_descend_pass lo l fs d filled fill s) = descend_pass lo l fs d filled fill s.
Proof.
  induction l as [|[p c] l IH]; intros fill s; cbn [m_descend_pass descend_pass]; [reflexivity|].
  rewrite m_snd. cbn [m_lift snd]. apply bind_ext. intros n. rewrite m_snd. cbn [m_lift snd]. apply bind_ext. intros go.
  rewrite m_snd. destruct go.
  - rewrite m_snd. cbn [m_insert snd]. destruct (u_insert c fill) as [[b fill']| | |]; cbn [bind]; try reflexivity.
    rewrite m_snd, v_insert_if. destruct (insert_if lo c fs d s); cbn [bind m_ret snd]; auto.
  - cbn [m_ret snd bind]. apply IH.
Qed.
Lemma v_descend lo one fs d fuel : forall filled fill s, snd (m_descend_loop fuel lo one fs d filled fill s) = descend_loop fuel lo one fs d filled fill s.
Proof.
  induction fuel as [|f IH]; intros filled fill s; cbn [m_descend_loop descend_loop]; destruct (0 <? m_len filled); try reflexivity.
  rewrite m_snd, v_pass. apply bind_ext. intros [fill' s']. destruct one; [reflexivity|apply IH].
Qed.
Lemma v_step lo c fs d s : snd (m_step lo c fs d s) = q_step lo c fs d s.
Proof.
  destruct c; cbn [m_step q_step].
  - apply v_all.
  - unfold m_adjacents, q_adjacents. rewrite m_snd. apply v_adjacents_loop.
  - unfold m_descendants, q_descendants. rewrite m_snd. apply v_descend.
  - unfold m_adjacents, q_adjacents. rewrite m_snd. apply v_adjacents_loop.
  - unfold m_descendants, q_descendants. rewrite m_snd. apply v_descend.
Qed.
Lemma v_query_loop lo t d fuel : forall i c s, snd (m_query_loop fuel lo t d i c s) = query_loop fuel lo t d i c s.
Proof.
  induction fuel as [|f IH]; intros i c s; cbn [m_query_loop query_loop]; destruct (i <? length t); try reflexivity.
  rewrite m_snd. cbn [m_lift snd]. apply bind_ext. intros [st|[fs i1]]; [reflexivity|].
  rewrite m_snd. cbn [m_lift snd]. apply bind_ext. intros [st|[[|f0 fs1] i2]]; [reflexivity|reflexivity|].
  rewrite m_snd, v_step. apply bind_ext. intros s'. rewrite m_snd. cbn [m_lift snd]. apply bind_ext. intros [c' i']. apply IH.
Qed.
Lemma v_results lo t d s : snd (m_query_results lo t d s) = query_results lo t d s.
Proof. unfold m_query_results, query_results. rewrite m_snd. cbn [m_lift snd]. apply bind_ext. intros i. apply v_query_loop. Qed.
Lemma v_each l : forall s, snd (m_insert_each l s) = insert_each l s.
Proof.
  induction l as [|v l IH]; intros s; cbn [m_insert_each insert_each]; [reflexivity|].
  rewrite m_snd. cbn [m_insert snd]. apply bind_ext. intros [b s']. apply IH.
Qed.
Lemma v_parts lo css d fuel : forall from set res, snd (m_parts_loop fuel lo css d from set res) = parts_loop fuel lo css d from set res.
Proof.
  induction fuel as [|f IH]; intros from set res; cbn [m_parts_loop parts_loop]; destruct (from <? length css); try reflexivity.
  rewrite m_snd. cbn [m_lift snd]. apply bind_ext. intros j. rewrite m_snd. cbn [m_lift snd]. apply bind_ext. intros iter.
  rewrite m_snd, v_results. apply bind_ext. intros [st set']. destruct st; try reflexivity.
  rewrite m_snd, v_each. apply bind_ext. intros res'. apply IH.
Qed.

(** ** The set of the results is one of those that were allocated, and is big enough *)
Lemma filter_le {A} (f : A -> bool) l : length (filter f l) <= length l.
Proof. induction l as [|x l IH]; cbn; [lia|]. destruct (f x); cbn; lia. Qed.
Definition roomy (s : uset) : Prop := length (m_buf s) = 2 ^ m_exp s /\ m_len s <= 2 ^ m_exp s.
Lemma raw_len v s b s' : u_insert_raw v s = Ok (b, s') -> length (m_buf s') = length (m_buf s) /\ m_exp s' = m_exp s /\ m_len s' <= S (m_len s).
Proof.
  unfold u_insert_raw, msi_insert. destruct (probe _ _ _ _ _ _ _) as [[i [|]]| | |]; cbn [bind]; intros H; try discriminate; injection H as <- <-; cbn [m_buf m_exp m_len].
  - rewrite upd_length. auto.
  - auto.
Qed.
Lemma raw_all l : forall s s', u_insert_all l s = Ok s' -> length (m_buf s') = length (m_buf s) /\ m_exp s' = m_exp s /\ m_len s' <= m_len s + length l.
Proof.
  induction l as [|v l IH]; intros s s' H; cbn [u_insert_all length] in *; [injection H as <-; lia|].
  destruct (u_insert_raw v s) as [[b s1]| | |] eqn:E; try discriminate. cbn [bind] in H. apply raw_len in E. apply IH in H. lia.
Qed.
Lemma insert_roomy v s b s' : roomy s -> u_insert v s = Ok (b, s') -> roomy s' /\ In (m_exp s') (m_exp s :: fst (m_insert v s)).
Proof.
  intros [L N] H. unfold u_insert in H. cbn [m_insert fst]. destruct (Nat.leb_spec (2 ^ m_exp s / 2) (m_len s)) as [G|G]; cbn [bind] in H.
  - destruct (u_rehash s (u_new (S (m_exp s)))) as [s1| | |] eqn:E; try discriminate. cbn [bind] in H. apply raw_all in E.
    destruct E as (E1 & E2 & E3). unfold u_new in E1, E2, E3. cbn [msi_new m_buf m_exp m_len] in *. rewrite repeat_length in E1.
    assert (EL : length (u_elems s) <= 2 ^ m_exp s) by (rewrite <- L; unfold u_elems, msi_elems; apply filter_le).
    apply raw_len in H. destruct H as (H1 & H2 & H3). pose proof (Nat.pow_nonzero 2 (m_exp s) ltac:(lia)) as P.
    unfold roomy. rewrite H1, H2, E1, E2. cbn [Nat.pow] in *. split; [lia|]. right. now left.
  - apply raw_len in H. destruct H as (H1 & H2 & H3). unfold roomy. rewrite H1, H2.
    pose proof (Nat.div_le_upper_bound (2 ^ m_exp s) 2 (2 ^ m_exp s) ltac:(lia) ltac:(lia)). split; [lia|]. now left.
Qed.
Definition grown (s : uset) (l : list nat) (s' : uset) : Prop := roomy s -> roomy s' /\ In (m_exp s') (m_exp s :: l).
Lemma grown_app s l l0 l1 s1 s2 : grown s l s1 -> grown s1 l1 s2 -> grown s (l ++ l0 ++ l1) s2.
Proof.
  intros H K R. destruct (H R) as [R1 I1]. destruct (K R1) as [R2 I2]. split; [exact R2|]. cbn [In] in *. rewrite !in_app_iff.
  destruct I2 as [<-|I2]; [|tauto]. destruct I1; tauto.
Qed.
Lemma each_grown l : forall s s', insert_each l s = Ok s' -> grown s (fst (m_insert_each l s)) s'.
Proof.
  induction l as [|v l IH]; intros s s' H; cbn [m_insert_each insert_each] in *; [injection H as <-; intros R; split; [exact R|now left]|].
  destruct (u_insert v s) as [[b s1]| | |] eqn:E; try discriminate. cbn [bind] in H. unfold m_bind. cbn [m_insert snd]. rewrite E. cbn [fst].
  apply (grown_app s _ [] _ s1 s'); [intros R; exact (insert_roomy v s b s1 R E)|exact (IH s1 s' H)].
Qed.
Lemma parts_grown lo css d fuel : forall from set res st res', parts_loop fuel lo css d from set res = Ok (st, res') ->
  grown res (fst (m_parts_loop fuel lo css d from set res)) res'.
Proof.
  induction fuel as [|f IH]; intros from set res st res' H; cbn [m_parts_loop parts_loop] in *; destruct (from <? length css); try discriminate;
    try (injection H as <- <-; intros R; split; [exact R|now left]).
  destruct (scan css _ from) as [j| | |]; try discriminate. cbn [bind] in H. destruct (read_slice css from (j - from)) as [iter| | |] eqn:Er; try discriminate. cbn [bind] in H.
  pose proof (v_results lo iter d set) as V. destruct (query_results lo iter d set) as [[st1 set1]| | |]; try discriminate. cbn [bind] in H.
  unfold m_bind at 1 2. cbn [m_lift snd fst app]. rewrite Er. unfold m_bind at 1. rewrite V.
  destruct st1; try (injection H as <- <-; cbn [fst m_ret]; intros R; split; [exact R|now left]).
  pose proof (v_each (u_elems set1) res) as V2. destruct (insert_each (u_elems set1) res) as [res1| | |] eqn:E2; try discriminate. cbn [bind] in H.
  unfold m_bind. rewrite V2. cbn [fst app].
  pose proof (grown_app res [] (fst (m_query_results lo iter d set)) _ res res' (fun R => conj R (or_introl eq_refl))
     (grown_app res _ [] _ res1 res' (each_grown _ _ _ E2) (IH _ _ _ _ _ H))) as G. cbn [app] in G. exact G.
Qed.
