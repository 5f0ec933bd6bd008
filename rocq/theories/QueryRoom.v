(** * How much room a query needs. *)
From Coq Require Import List NArith ZArith Arith Bool Lia Permutation.
From Verif Require Import Base TrieModel DomModel ParserModel DomSpec ApiSpec MsiModel QueryModel QuerySpec
  Lemmas TrieProofs Tables Inv RegProofs ParseTree MsiProofs UsetProofs QueryProofs AttrProofs QueryTotal MemModel MemProofs
  QueryMemModel QueryMemProofs QueryMemSafe.
Import ListNotations.
Local Open Scope nat_scope.

Fixpoint tot (l : list nat) : nat := match l with [] => 0 | e :: l => 2 ^ e + tot l end.
Lemma tot_app a b : tot (a ++ b) = tot a + tot b.
Proof. induction a as [|e a IH]; cbn [app tot]; [reflexivity|]. rewrite IH. lia. Qed.

Section Room.
  Context (lo : nat -> nat) (d : dom) (k : kids) (G : Good d k).
  Context (LN : (N.of_nat (length (nodes d)) <= 65535)%N).

  Definition cap : nat := 128 + 4 * length (nodes d).

  (** If the call returns: no set is larger than [cap], and [Q] holds of their total and
      of the result. *)
  Definition sp {A} (x : qm A) (Q : nat -> A -> Prop) : Prop :=
    forall a, snd x = Ok a -> Forall (fun e => 2 ^ e <= cap) (fst x) /\ Q (tot (fst x)) a.
  Lemma sp_bind {A B} (x : qm A) (f : A -> qm B) P Q : sp x P -> (forall m a, P m a -> sp (f a) (fun m' b => Q (m + m') b)) -> sp (m_bind x f) Q.
  Proof.
    intros H K b E. unfold m_bind in *. destruct (snd x) as [a| | |] eqn:Ea; cbn [snd fst] in *; try discriminate.
    destruct (H a Ea) as [F1 P1]. destruct (K _ _ P1 b E) as [F2 P2]. split; [now apply Forall_app|]. now rewrite tot_app.
  Qed.
  Lemma sp_imp {A} (x : qm A) (P Q : nat -> A -> Prop) : sp x P -> (forall m a, P m a -> Q m a) -> sp x Q.
  Proof. intros H K a E. destruct (H a E) as [F1 P1]. auto. Qed.
  Lemma sp_ret {A} (a : A) (Q : nat -> A -> Prop) : Q 0 a -> sp (m_ret a) Q.
  Proof. intros H b E. injection E as <-. split; [constructor|exact H]. Qed.
  Lemma sp_lift {A} (o : outcome A) (Q : nat -> A -> Prop) : (forall a, o = Ok a -> Q 0 a) -> sp (m_lift o) Q.
  Proof. intros H b E. split; [constructor|]. now apply H. Qed.

  Definition phi (s : uset) : nat := 2 * 2 ^ m_exp s.
  Record tidy (ph : nat) (s : uset) : Prop := {
    ty_ok : uset_ok s ph;
    ty_val : forall x, In x (u_elems s) -> x < length (nodes d);
    ty_cap : 2 ^ m_exp s <= cap }.
  Definition neat (s : uset) : Prop := exists ph, tidy ph s.
  Lemma neat_phi s : neat s -> phi s <= 2 * cap.
  Proof. intros (ph & H). unfold phi. pose proof (ty_cap _ _ H). lia. Qed.
  Lemma tidy_new e : 7 <= e <= 18 -> 2 ^ e <= cap -> tidy 0 (u_new e).
  Proof. intros H C. destruct (uset_new e H) as [O E]. constructor; [exact O| |exact C]. rewrite E. contradiction. Qed.
  Lemma tidy_start : tidy 0 (u_new start_exp).
  Proof. apply tidy_new; [unfold start_exp; lia|]. unfold cap. change (2 ^ start_exp) with 128. lia. Qed.
  Lemma tidy_reset s : neat s -> tidy 0 (u_reset s).
  Proof. intros (ph & H). unfold u_reset. apply tidy_new; [apply (uo_exp _ _ (ty_ok _ _ H))|apply (ty_cap _ _ H)]. Qed.
  Lemma neat_len s : neat s -> m_len s <= length (nodes d).
  Proof.
    intros (ph & H). rewrite (uo_len _ _ (ty_ok _ _ H)). pose proof (uo_ph _ _ (ty_ok _ _ H)) as P.
    pose proof (inv_len _ _ (g_inv _ _ G)) as L0.
    assert (length (0 :: u_elems s) <= length (seq 0 (length (nodes d)))) as L.
    { apply NoDup_incl_length.
      - constructor; [|apply u_nodup, (uo_wf _ _ (ty_ok _ _ H))]. intros Z. now apply (uo_val _ _ (ty_ok _ _ H)) in Z as [Z _].
      - intros x [<-|Hx]; apply in_seq; [lia|]. pose proof (ty_val _ _ H x Hx). lia. }
    rewrite seq_length in L. cbn [length] in L. lia.
  Qed.

  (** The exponent after an insertion. *)
  Lemma insert_exp v s b s' : u_insert v s = Ok (b, s') -> tot (fst (m_insert v s)) + phi s = phi s' /\
    m_exp s' = (if 2 ^ m_exp s / 2 <=? m_len s then S (m_exp s) else m_exp s).
  Proof.
    unfold u_insert, phi. cbn [m_insert fst]. intros H. destruct (2 ^ m_exp s / 2 <=? m_len s); cbn [bind] in H.
    - destruct (u_rehash s (u_new (S (m_exp s)))) as [s1| | |] eqn:E; try discriminate. cbn [bind] in H. apply raw_all in E. apply raw_len in H.
      destruct E as (_ & E & _), H as (_ & H & _). rewrite H, E. cbn [u_new msi_new m_exp tot Nat.pow]. split; [lia|reflexivity].
    - apply raw_len in H. destruct H as (_ & H & _). rewrite H. cbn [tot]. split; [lia|reflexivity].
  Qed.
  Lemma grow_cap s : neat s -> 2 ^ m_exp s / 2 <= m_len s -> 2 ^ S (m_exp s) <= cap.
  Proof.
    intros H L. pose proof (neat_len s H) as N. destruct H as (ph & H). pose proof (uo_exp _ _ (ty_ok _ _ H)) as [E _].
    rewrite half_pow in L by lia. rewrite pow_S. replace (m_exp s) with (S (m_exp s - 1)) by lia. rewrite pow_S. unfold cap. lia.
  Qed.
  Lemma insert_post v s b s' ph' : neat s -> u_insert v s = Ok (b, s') -> uset_ok s' ph' -> (forall x, In x (u_elems s') -> x < length (nodes d)) ->
    Forall (fun e => 2 ^ e <= cap) (fst (m_insert v s)) /\ neat s' /\ tot (fst (m_insert v s)) + phi s = phi s'.
  Proof.
    intros H E O V. destruct (insert_exp v s b s' E) as [T X]. cbn [m_insert fst] in *.
    destruct (Nat.leb_spec (2 ^ m_exp s / 2) (m_len s)) as [L|L].
    - pose proof (grow_cap s H L) as C. split; [constructor; [exact C|constructor]|]. split; [|exact T]. exists ph'. constructor; auto. now rewrite X.
    - split; [constructor|]. split; [|exact T]. exists ph'. constructor; auto. rewrite X. destruct H as (ph & H). apply (ty_cap _ _ H).
  Qed.
  Lemma sp_insert v s : neat s -> v <> 0 -> v < length (nodes d) -> sp (m_insert v s) (fun m x => neat (snd x) /\ m + phi s = phi (snd x)).
  Proof.
    intros H Z L [b s'] E. cbn [m_insert snd] in E. pose proof H as (ph & T).
    destruct (u_insert_ok s ph v (ty_ok _ _ T) Z ltac:(lia)) as (r & s1 & ph1 & E1 & O1 & _ & _ & X).
    rewrite E in E1. injection E1 as <- <-. cbn [snd]. apply (insert_post v s b s' ph1 H E O1).
    intros x Hx. apply X in Hx as [->|Hx]; [exact L|now apply (ty_val _ _ T)].
  Qed.
  Lemma sp_insert0 s : tidy 0 s -> sp (m_insert 0 s) (fun m x => neat (snd x) /\ m + phi s = phi (snd x)).
  Proof.
    intros T [b s'] E. cbn [m_insert snd] in E.
    destruct (u_insert_zero s (ty_ok _ _ T)) as (s1 & ph1 & E1 & O1 & X).
    rewrite E in E1. injection E1 as -> <-. cbn [snd]. apply (insert_post 0 s true s' ph1 (ex_intro _ _ T) E O1).
    intros x Hx. apply X in Hx. now apply (ty_val _ _ T).
  Qed.
  Definition steps (s : uset) (m : nat) (s' : uset) : Prop := neat s' /\ m + phi s = phi s'.
  Lemma sp_if v fs s : neat s -> v <> 0 -> v < length (nodes d) -> sp (m_insert_if lo v fs d s) (steps s).
  Proof.
    intros H Z L. unfold m_insert_if. eapply sp_bind; [apply (sp_lift _ (fun m _ => m = 0)); reflexivity|]. intros m b ->. destruct b.
    - eapply sp_bind; [apply sp_insert; assumption|]. intros m [b s'] [N P]. cbn [snd] in *. apply sp_ret. split; [exact N|lia].
    - apply sp_ret. split; [exact H|lia].
  Qed.
  Lemma sp_if0 fs s : tidy 0 s -> sp (m_insert_if lo 0 fs d s) (steps s).
  Proof.
    intros T. unfold m_insert_if. eapply sp_bind; [apply (sp_lift _ (fun m _ => m = 0)); reflexivity|]. intros m b ->. destruct b.
    - eapply sp_bind; [apply sp_insert0; assumption|]. intros m [b s'] [N P]. cbn [snd] in *. apply sp_ret. split; [exact N|lia].
    - apply sp_ret. split; [now exists 0|lia].
  Qed.
  Lemma sp_rest fs l : forall s a, neat s -> (forall i x, nth_error l i = Some x -> n_id x = a + i) -> a <> 0 -> a + length l <= length (nodes d) ->
    sp (m_all_loop lo l fs d s) (steps s).
  Proof.
    induction l as [|x l IH]; intros s a H Id A L; cbn [m_all_loop length] in *; [apply sp_ret; split; [exact H|lia]|].
    assert (En : n_id x = a) by (rewrite (Id 0 x eq_refl); lia). rewrite En.
    eapply sp_bind; [apply sp_if; [exact H|exact A|lia]|]. intros m s' [N P].
    eapply sp_imp; [apply (IH s' (S a)); [exact N| |lia|lia]|].
    - intros i y Hi. rewrite (Id (S i) y Hi). lia.
    - intros m' s2 [N2 P2]. split; [exact N2|lia].
  Qed.
  Lemma sp_all fs s : tidy 0 s -> sp (m_all_loop lo (nodes d) fs d s) (steps s).
  Proof.
    intros T. pose proof (inv_ids _ _ (g_inv _ _ G)) as Id. pose proof (inv_len _ _ (g_inv _ _ G)) as Len.
    assert (EN : exists n0 rest, nodes d = n0 :: rest) by (destruct (nodes d) as [|n0 rest]; [cbn in Len; lia|eauto]).
    destruct EN as (n0 & rest & En).
    assert (Ln : length (nodes d) = S (length rest)) by now rewrite En.
    assert (Eq : m_all_loop lo (nodes d) fs d s = m_all_loop lo (n0 :: rest) fs d s) by (rewrite <- En; reflexivity).
    rewrite Eq. cbn [m_all_loop].
    assert (E0 : n_id n0 = 0) by (apply Id; rewrite En; reflexivity). rewrite E0.
    eapply sp_bind; [apply sp_if0, T|]. intros m s' [N P].
    eapply sp_imp; [apply (sp_rest fs rest s' 1 N)|].
    - intros i x Hi. rewrite (Id (S i) x); [reflexivity|]. rewrite En. exact Hi.
    - lia.
    - lia.
    - intros m' s2 [N2 P2]. split; [exact N2|lia].
  Qed.
  Lemma sp_siblings limit fs next l : sibs d next l -> (forall x, In x l -> x <> 0 /\ x < length (nodes d)) ->
    forall fuel s, neat s -> sp (m_siblings_loop fuel lo limit next fs d s) (steps s).
  Proof.
    induction 1 as [|c l Nc H IH]; intros B fuel s N; destruct fuel as [|f]; cbn [m_siblings_loop].
    - apply sp_ret. split; [exact N|lia].
    - apply sp_ret. split; [exact N|lia].
    - destruct (0 <? c); [apply sp_lift; discriminate|apply sp_ret; split; [exact N|lia]].
    - destruct (0 <? c); [|apply sp_ret; split; [exact N|lia]].
      destruct (B c (or_introl eq_refl)) as [_ Lc]. eapply sp_bind; [apply sp_if; assumption|]. intros m s' [N1 P1]. destruct limit.
      + apply sp_ret. split; [exact N1|lia].
      + eapply sp_imp; [apply (IH (fun x Hx => B x (or_intror Hx)) f s' N1)|]. intros m' s2 [N2 P2]. split; [exact N2|lia].
  Qed.
  Lemma sp_adj limit fs l : (forall x, In x l -> x <> 0) -> forall s, neat s -> sp (m_adjacents_loop lo limit l fs d s) (steps s).
  Proof.
    induction l as [|x l IH]; intros Z s N; cbn [m_adjacents_loop]; [apply sp_ret; split; [exact N|lia]|].
    destruct (next_chain d k G LN x (Z x (or_introl eq_refl))) as (ch & Hc & _ & B).
    eapply sp_bind; [eapply sp_siblings; [exact Hc|exact B|exact N]|]. intros m s' [N1 P1].
    eapply sp_imp; [apply IH; [intros y Hy; apply Z; now right|exact N1]|]. intros m' s2 [N2 P2]. split; [exact N2|lia].
  Qed.
  Lemma sp_pass fs filled l : forall fill s, neat fill -> neat s -> sp (m_descend_pass lo l fs d filled fill s)
    (fun m x => neat (fst x) /\ neat (snd x) /\ m + phi fill + phi s = phi (fst x) + phi (snd x)).
  Proof.
    induction l as [|[p c] l IH]; intros fill s Nf Ns; cbn [m_descend_pass]; [apply sp_ret; cbn [fst snd]; split; [exact Nf|split; [exact Ns|lia]]|].
    eapply sp_bind; [apply (sp_lift _ (fun m x => m = 0 /\ get_node d c = Ok x)); auto|]. intros m x [-> Ex].
    eapply sp_bind; [apply (sp_lift _ (fun m go => m = 0 /\ (go = true -> n_type x = TDocument))); intros go Hg; split; [reflexivity|]; intros ->; destruct (n_type x); auto; discriminate|].
    intros m go [-> Hg].
    eapply (sp_bind _ _ (fun m y => neat (fst y) /\ neat (snd y) /\ m + phi fill + phi s = phi (fst y) + phi (snd y))).
    - destruct go; [|apply sp_ret; cbn [fst snd]; split; [exact Nf|split; [exact Ns|lia]]].
      assert (Bc : c <> 0 /\ c < length (nodes d)).
      { apply (elem_nz d k G). apply (elem_node d). exists x. split; [|now apply Hg].
        unfold get_node in Ex. destruct (nth_error (nodes d) c); [now injection Ex as ->|discriminate]. }
      eapply sp_bind; [apply sp_insert; [exact Nf|apply Bc|apply Bc]|]. intros m [b fill'] [N1 P1]. cbn [snd] in *.
      eapply sp_bind; [apply (sp_if c fs s Ns); apply Bc|]. intros m' s' [N2 P2]. apply sp_ret. cbn [fst snd]. split; [exact N1|]. split; [exact N2|lia].
    - intros m [fill' s'] (N1 & N2 & P). cbn [fst snd] in *. eapply sp_imp; [apply IH; assumption|]. intros m' [f2 s2] (N3 & N4 & P2). cbn [fst snd] in *.
      split; [exact N3|]. split; [exact N4|lia].
  Qed.
  Lemma sp_descend one fs fuel : forall filled fill s, neat filled -> neat fill -> neat s -> sp (m_descend_loop fuel lo one fs d filled fill s)
    (fun m s' => neat s' /\ m + phi s + phi fill + phi filled <= phi s' + 4 * cap).
  Proof.
    induction fuel as [|f IH]; intros filled fill s N1 N2 N3; cbn [m_descend_loop]; pose proof (neat_phi _ N1) as C1; pose proof (neat_phi _ N2) as C2;
      (destruct (0 <? m_len filled); [|apply sp_ret; split; [exact N3|lia]]); [apply sp_lift; discriminate|].
    eapply sp_bind; [apply sp_pass; assumption|]. intros m [fill' s'] (M1 & M2 & P). cbn [fst snd] in *. destruct one.
    - apply sp_ret. split; [exact M2|]. pose proof (neat_phi _ M1). lia.
    - eapply sp_imp; [apply IH; [exact M1|exists 0; now apply tidy_reset|exact M2]|]. intros m' s2 [K1 K2]. split; [exact K1|].
      change (phi (u_reset filled)) with (phi filled) in K2. lia.
  Qed.
  Lemma sp_step c fs s : neat s -> (c = CNone -> tidy 0 s) -> sp (m_step lo c fs d s) (fun m s' => neat s' /\ m <= 6 * cap).
  Proof.
    intros N T.
    assert (Adj : forall limit, sp (m_adjacents lo limit fs d s) (fun m s' => neat s' /\ m <= 6 * cap)).
    { intros limit. unfold m_adjacents. eapply (sp_bind _ _ (fun m _ => m = 128)).
      - intros u _. cbn [fst]. split; [|reflexivity]. constructor; [|constructor]. apply (ty_cap _ _ tidy_start).
      - intros m _ ->. eapply sp_imp; [apply sp_adj; [|exists 0; exact tidy_start]|].
        + intros x Hx. destruct N as (ph & N). now apply (uo_val _ _ (ty_ok _ _ N)) in Hx.
        + intros m s' [N1 P]. split; [exact N1|]. pose proof (neat_phi _ N1). unfold phi at 1 in P. change (m_exp (u_new start_exp)) with start_exp in P. change (2 ^ start_exp) with 128 in P. lia. }
    assert (Dsc : forall one, sp (m_descendants lo one fs d s) (fun m s' => neat s' /\ m <= 6 * cap)).
    { intros one. unfold m_descendants. unfold u_copy. eapply (sp_bind _ _ (fun m _ => m = phi s)).
      - intros u _. cbn [fst tot]. pose proof N as (ph & T'). pose proof (ty_cap _ _ T'). split; [apply Forall_cons; [assumption|apply Forall_cons; [assumption|apply Forall_nil]]|unfold phi; lia].
      - intros m _ ->. eapply sp_imp; [apply sp_descend; [exact N|exists 0; apply (tidy_reset s N)|exists 0; apply (tidy_reset s N)]|].
        intros m s' [N1 P]. split; [exact N1|]. pose proof (neat_phi _ N1).
        change (phi (u_reset s)) with (phi s) in P. change (phi (u_new (m_exp s))) with (phi s) in P. lia. }
    destruct c; cbn [m_step]; auto.
    eapply sp_imp; [apply sp_all, T, eq_refl|]. intros m s' [N1 P]. split; [exact N1|]. pose proof (neat_phi _ N1). lia.
  Qed.
  Lemma sp_query t fuel : forall i c s, neat s -> (c = CNone -> tidy 0 s) -> i <= length t ->
    sp (m_query_loop fuel lo t d i c s) (fun m x => neat (snd x) /\ m <= 6 * cap * (length t - i)).
  Proof.
    induction fuel as [|f IH]; intros i c s N T L; cbn [m_query_loop];
      (destruct (i <? length t) eqn:Li; [apply Nat.ltb_lt in Li|apply sp_ret; cbn [snd]; split; [exact N|apply Nat.le_0_l]]); [apply sp_lift; discriminate|].
    destruct (good_head d k G LN t i Li) as (r & Er & Hr).
    eapply sp_bind; [apply (sp_lift _ (fun m a => m = 0 /\ a = r)); intros a Ha; split; [reflexivity|congruence]|]. intros m a [-> ->].
    destruct r as [st|[fs j]]; [apply sp_ret; cbn [snd]; split; [exact N|apply Nat.le_0_l]|]. destruct Hr as (Hj & Mf & Adv).
    destruct (good_filters d k G LN t (S (length t)) j fs) as (r & Er2 & Hr); [lia|lia|lia|].
    eapply sp_bind; [apply (sp_lift _ (fun m a => m = 0 /\ a = r)); intros a Ha; split; [reflexivity|congruence]|]. intros m a [-> ->].
    destruct r as [st|[fs' j']]; [apply sp_ret; cbn [snd]; split; [exact N|apply Nat.le_0_l]|]. destruct Hr as (Hj' & Mf' & Adv').
    destruct fs' as [|x fs0] eqn:Ef; [apply sp_ret; cbn [snd]; split; [exact N|apply Nat.le_0_l]|]. rewrite <- Ef in *.
    assert (i < j').
    { destruct fs as [|y fs]; [|specialize (Adv ltac:(discriminate)); lia]. specialize (Adv' ltac:(congruence)). lia. }
    eapply sp_bind; [apply sp_step; assumption|]. intros m s' [N1 P1].
    destruct (good_comb d LN t (length t) j' CDescendant) as ([c' i'] & Ec & Hi & Hc'); [lia|lia|discriminate|].
    eapply sp_bind; [apply (sp_lift _ (fun m a => m = 0 /\ a = (c', i'))); intros a Ha; split; [reflexivity|congruence]|]. intros m0 a [-> ->].
    eapply sp_imp; [apply IH; [exact N1|congruence|lia]|]. intros m' [st s2] [N2 P2]. cbn [snd] in *. split; [exact N2|].
    assert (6 * cap * S (length t - i') <= 6 * cap * (length t - i)) by (apply Nat.mul_le_mono_l; lia). lia.
  Qed.
  Lemma sp_results t s : tidy 0 s -> sp (m_query_results lo t d s) (fun m x => neat (snd x) /\ m <= 6 * cap * length t).
  Proof.
    intros T. unfold m_query_results.
    destruct (good_scan t (fun c => is_elem_start c || (c =? cLB)%N || (c =? cSTAR)%N) 0) as (i & Ei & Hi & _); [lia|].
    eapply sp_bind; [apply (sp_lift _ (fun m a => m = 0 /\ a = i)); intros a Ha; split; [reflexivity|congruence]|]. intros m a [-> ->].
    eapply sp_imp; [apply sp_query; [now exists 0|auto|lia]|]. intros m [st s2] [N2 P2]. cbn [snd] in *. split; [exact N2|].
    assert (6 * cap * (length t - i) <= 6 * cap * length t) by (apply Nat.mul_le_mono_l; lia). lia.
  Qed.
  Lemma sp_each l : (forall x, In x l -> x <> 0 /\ x < length (nodes d)) -> forall s, neat s -> sp (m_insert_each l s) (steps s).
  Proof.
    induction l as [|v l IH]; intros B s N; cbn [m_insert_each]; [apply sp_ret; split; [exact N|lia]|].
    destruct (B v (or_introl eq_refl)) as [B1 B2]. eapply sp_bind; [apply sp_insert; assumption|]. intros m [b s'] [N1 P1]. cbn [snd] in *.
    eapply sp_imp; [apply IH; [intros x Hx; apply B; now right|exact N1]|]. intros m' s2 [N2 P2]. split; [exact N2|lia].
  Qed.
  Lemma sp_parts css fuel : forall from set res, tidy 0 set -> neat res -> sp (m_parts_loop fuel lo css d from set res)
    (fun m x => neat (snd x) /\ m + phi res <= phi (snd x) + 6 * cap * (length css - from)).
  Proof.
    induction fuel as [|f IH]; intros from set res T N; cbn [m_parts_loop];
      (destruct (from <? length css) eqn:L; [apply Nat.ltb_lt in L|apply sp_ret; cbn [snd]; split; [exact N|apply Nat.le_add_r]]); [apply sp_lift; discriminate|].
    destruct (good_scan css (fun c => (c =? cCOMMA)%N) from) as (j & Ej & Hj & _); [lia|].
    eapply sp_bind; [apply (sp_lift _ (fun m a => m = 0 /\ a = j)); intros a Ha; split; [reflexivity|congruence]|]. intros m a [-> ->].
    destruct (good_slice css from (j - from)) as (iter & Ei & _ & Li); [lia|].
    eapply sp_bind; [apply (sp_lift _ (fun m a => m = 0 /\ a = iter)); intros a Ha; split; [reflexivity|congruence]|]. intros m a [-> ->].
    eapply sp_bind; [apply sp_results, T|]. intros m [st set'] [N1 P1]. cbn [snd] in *. rewrite Li in P1.
    assert (M1 : 6 * cap * (j - from) <= 6 * cap * (length css - from)) by (apply Nat.mul_le_mono_l; lia).
    destruct st; try (apply sp_ret; cbn [snd]; split; [exact N|lia]).
    eapply sp_bind; [apply sp_each; [|exact N]|].
    - intros x Hx. destruct N1 as (ph & N1). split; [now apply (uo_val _ _ (ty_ok _ _ N1)) in Hx|now apply (ty_val _ _ N1)].
    - intros m' res' [N2 P2]. eapply sp_imp; [apply IH; [now apply tidy_reset|exact N2]|]. intros m2 [st2 res2] [N3 P3]. cbn [snd] in *. split; [exact N3|].
      rewrite Li in P3.
      assert (6 * cap * (j - from) + 6 * cap * (length css - (from + (j - from) + 1)) <= 6 * cap * (length css - from)).
      { rewrite <- Nat.mul_add_distr_l. apply Nat.mul_le_mono_l. lia. }
      lia.
  Qed.
End Room.
