(** * What an abandoned call leaves: all editing calls. *)
From Coq Require Import List NArith Arith Bool Lia.
From Verif Require Import Base TrieModel DomModel ParserModel EditModel ReadModel DomSpec ApiSpec Lemmas TrieProofs
  Tables Inv Surgery Attach Replace Link RegProofs ParseSafe ParseTree ParseLoop Walk AttrProofs EditProofs EditOps EditHtml
  EditUser ApiProofs Grow CrashSpec CrashModel CrashAgree CrashDebris CrashWalk CrashRead CrashLink CrashOps CrashHtml.
Import ListNotations.
Local Open Scope nat_scope.

Definition place (o : op) (k : kids) (p : nat) (A Z gone : list nat) : Prop :=
  match o with
  | AppendDoc q _ | AppendText q _ | AppendHtml q _ => p = q /\ A = k (Par p) /\ Z = [] /\ gone = []
  | PrependDoc q _ | PrependText q _ | PrependHtml q _ => p = q /\ A = [] /\ Z = k (Par p) /\ gone = []
  | ReplaceHtml n _ => k (Par p) = A ++ n :: Z /\ gone = [n]
  | SetText n _ => p = n /\ k (Par p) = [] /\ A = [] /\ Z = [] /\ gone = []
  | _ => False
  end.
Lemma in_last {A} (x : ab (A * dom)) d' :
  In d' (fst (do* '(_, d) := x in a_ret d)) -> In d' (fst x).
Proof. intro I. apply in_bind in I as [I|([a y] & _ & I)]; auto. destruct I. Qed.

Lemma append_html_j d k (G : Good d k) bl p h : 1 <= p < length (nodes d) -> has_nodes d bl h ->
  stq (pst d k True p) (fun '(_, e) d' => exists N, links True d k p (k (Par p)) N [] [] e d') (c_append_html (Some bl) p h d).
Proof.
  intros Hp Hn. unfold c_append_html. apply stq_bind.
  { intros d' I. eapply extra_st; eauto. }
  intros [[] d1] E; [|apply stq_ret]. destruct (extra_made d k G bl h Hn d1 E) as (D & k1 & rest & F).
  exact (j_append_frag d k G d1 k1 rest F D p Hp).
Qed.
Lemma prepend_html_j d k (G : Good d k) bl p h : 1 <= p < length (nodes d) -> has_nodes d bl h ->
  stq (pst d k True p) (fun '(_, e) d' => exists N, links True d k p [] N (k (Par p)) [] e d') (c_prepend_html (Some bl) p h d).
Proof.
  intros Hp Hn. unfold c_prepend_html. apply stq_bind.
  { intros d' I. eapply extra_st; eauto. }
  intros [[] d1] E; [|apply stq_ret]. destruct (extra_made d k G bl h Hn d1 E) as (D & k1 & rest & F).
  exact (j_prepend_frag d k G d1 k1 rest F D p Hp).
Qed.
Lemma replace_html_j d k (G : Good d k) bl old h p l1 l2 : k (Par p) = l1 ++ old :: l2 -> has_nodes d bl h ->
  (forall d1, parse_extra (Some bl) h d = Ok (true, d1) -> ~ replace_bad d d1 l1 l2) ->
  stq (pst d k True p) (fun '(_, e) d' => exists N, links True d k p l1 N l2 [old] e d') (c_replace_with_html (Some bl) old h d).
Proof.
  intros Ek Hn Hb. pose proof (inv_kw _ _ (g_inv _ _ G)) as W.
  assert (Io : In old (k (Par p))) by (rewrite Ek; apply in_elt).
  pose proof (kw_order _ _ W _ _ Io) as Ho. pose proof (kw_bound _ _ W _ _ Io) as Hb2.
  unfold c_replace_with_html. apply stq_bind.
  { intros d' I. eapply extra_st; eauto. }
  intros [[] d1] E; [|apply stq_ret]. destruct (extra_made d k G bl h Hn d1 E) as (D & k1 & rest & F).
  rewrite s_parse_extra in E. specialize (Hb d1 E).
  refine (j_replace_frag d k G d1 k1 rest F D p _ old l1 l2 Ek _); [lia|].
  eapply guard_ok; eauto.
Qed.

Lemma set_text_j d k (G : Good d k) p s : 1 <= p < length (nodes d) ->
  exists b kb, remove_children p d = Ok b /\ Good b kb /\ length (nodes b) = length (nodes d) /\ kb (Par p) = [] /\
    stq (debris b) (fun e d' => exists N, links False b kb p [] N [] [] e d') (c_set_text_content p s d).
Proof.
  intro Hp. destruct (remove_children_good d k p G ltac:(lia)) as (b & E1 & Gb & Lb & _ & _).
  set (D := pres (length (nodes d)) k (k (Par p))) in *.
  exists b, (cut D k). split; auto. split; auto. split; auto.
  assert (He : cut D k (Par p) = []).
  { destruct (cut D k (Par p)) as [|y l] eqn:E; auto. exfalso.
    assert (H : In y (cut D k (Par p))) by (rewrite E; simpl; auto).
    apply cut_in in H as [H1 H2]. apply H2. unfold D. apply pres_in.
    exists y. split; auto. apply pre_self. apply (g_inv _ _ G). }
  split; auto. unfold c_set_text_content. eapply stq_pbind; [exact E1|].
  apply stq_bind.
  { intros d' I. destruct (a_text_element b s b (debris_refl b)) as [Q _]. rewrite Forall_forall in Q. auto. }
  intros [x d2] E2. destruct (text_made b _ Gb s x d2 E2) as [A Db].
  destruct (created b _ Gb d2 x False p A Db) as (Md & F & Bd & Nz).
  apply stq_try; auto.
  intros d' I. cbn in I. destruct I as [<-|[]]. right. eexists. split; [reflexivity|].
  assert (Es : set_text_content p s d = Ok (push_pchild (push_first d2 (p, x)) (p, x))).
  { unfold set_text_content. rewrite E1. cbn [bind]. rewrite s_text_element in E2. rewrite E2. reflexivity. }
  destruct (safe_inv _ _ _ _ (set_text_content_ok d k G p s Hp) Es) as (Le & Ge & _). fold D in Ge.
  assert (Hx : x = length (nodes d)).
  { destruct (new_facts b _ Gb d2 x A) as (_ & _ & _ & _ & _ & _ & Qn). congruence. }
  exists [x]. constructor.
  - exists d2, (floated (cut D k) x). split; auto. destruct d2; reflexivity.
  - eexists. split; [exact Ge|]. rewrite upk_eq. split; [now rewrite Hx|]. split; [|auto].
    intros q Hq Nq. now rewrite upk_neq by congruence.
  - split; [discriminate|]. intros c [<-|[]]. lia.
  - auto.
  - assert (LL : lnk (fun _ => True) (last [x] 0) (push_first d2 (p, x)) (push_pchild (push_first d2 (p, x)) (p, x))).
    { apply (lnk_parts _ _ _ [] [(p, x)]); auto.
      - cbn. now rewrite app_nil_r.
      - intros a [].
      - intros Q; now elim Q.
      - eapply inv_ordered. exact (g_inv _ _ Ge). }
    destruct LL as [Q1 Q2 Q3 Q4]. constructor; auto.
  - intros c _. reflexivity.
  - reflexivity.
  - intros c [].
Qed.

Theorem crash_main d k bl o d' : Good d k -> valid d bl o -> left_with bl o d d' ->
  exists b kb p, begun d o b /\ Good b kb /\ length (nodes b) = length (nodes d) /\
    ((pst b kb (html_call o) (edited d o) d' /\ (forall n s, o = SetText n s -> debris b d')) \/
     exists e A N Z gone, run bl o d = Ok e /\ p = edited d o /\ 1 <= p < length (nodes d) /\
       place o kb p A Z gone /\ links (html_call o) b kb p A N Z gone e d').
Proof.
  intros G V I. pose proof (inv_kw _ _ (g_inv _ _ G)) as W.
  assert (B0 : (forall n s, o <> SetText n s) ->
     (pst d k (html_call o) (edited d o) d' \/
     exists e A N Z gone, run bl o d = Ok e /\ 1 <= edited d o < length (nodes d) /\
       place o k (edited d o) A Z gone /\ links (html_call o) d k (edited d o) A N Z gone e d') ->
     exists b kb p, begun d o b /\ Good b kb /\ length (nodes b) = length (nodes d) /\
    ((pst b kb (html_call o) (edited d o) d' /\ (forall n s, o = SetText n s -> debris b d')) \/
     exists e A N Z gone, run bl o d = Ok e /\ p = edited d o /\ 1 <= p < length (nodes d) /\
       place o kb p A Z gone /\ links (html_call o) b kb p A N Z gone e d')).
  { intros Ns H. exists d, k, (edited d o). split.
    { destruct o as [| | | | | | | | | | |n0 s0| | | | | | | ]; try reflexivity. now elim (Ns n0 s0). }
    split; auto. split; auto. destruct H as [H|(e & A & N & Z & gone & H1 & H2 & H3 & H4)].
    - left. split; auto. intros n s E. now elim (Ns n s).
    - right. exists e, A, N, Z, gone. auto. }
  assert (RUN : forall (x : ab (nat * dom)) w e,
     c_run bl o d = (do* '(_, d) := x in a_ret d) -> snd x = Ok (w, e) -> run bl o d = Ok e).
  { intros x w e E1 E2. rewrite <- c_run_agrees, E1, snd_bind, E2. reflexivity. }
  assert (Hpar : forall n, attached d n -> exists l1 l2, k (Par (get_parent n d)) = l1 ++ n :: l2 /\
     1 <= get_parent n d < length (nodes d)).
  { intros n Hn. apply (attached_iff d k n (g_inv _ _ G)) in Hn as [p Hp].
    rewrite (get_parent_at (g_inv _ _ G) _ _ Hp). pose proof (kw_order _ _ W _ _ Hp). pose proof (kw_bound _ _ W _ _ Hp).
    apply in_split in Hp as (l1 & l2 & E). exists l1, l2. split; auto. lia. }
  unfold left_with in I. destruct o; cbn [c_run] in I, RUN; simpl in V; try (now destruct I);
    try (apply B0; [discriminate|]; cbn [html_call edited]).
  - destruct (j_append_doc d k G False p e V d' (in_last _ _ I)) as [?|([w r] & E & N & L)]; auto.
    right. exists r, (k (Par p)), N, [], []. split; [eapply RUN; eauto|]. split; [auto|]. split; [cbn; auto|auto].
  - destruct (j_append_text d k G False p s V d' (in_last _ _ I)) as [?|([w r] & E & N & L)]; auto.
    right. exists r, (k (Par p)), N, [], []. split; [eapply RUN; eauto|]. split; [auto|]. split; [cbn; auto|auto].
  - destruct V as [V Hn].
    destruct (append_html_j d k G bl p h V Hn d' (in_last _ _ I)) as [?|([w r] & E & N & L)]; auto.
    right. exists r, (k (Par p)), N, [], []. split; [eapply RUN; eauto|]. split; [auto|]. split; [cbn; auto|auto].
  - destruct (j_prepend_doc d k G False p e V d' (in_last _ _ I)) as [?|([w r] & E & N & L)]; auto.
    right. exists r, [], N, (k (Par p)), []. split; [eapply RUN; eauto|]. split; [auto|]. split; [cbn; auto|auto].
  - destruct (j_prepend_text d k G False p s V d' (in_last _ _ I)) as [?|([w r] & E & N & L)]; auto.
    right. exists r, [], N, (k (Par p)), []. split; [eapply RUN; eauto|]. split; [auto|]. split; [cbn; auto|auto].
  - destruct V as [V Hn].
    destruct (prepend_html_j d k G bl p h V Hn d' (in_last _ _ I)) as [?|([w r] & E & N & L)]; auto.
    right. exists r, [], N, (k (Par p)), []. split; [eapply RUN; eauto|]. split; [auto|]. split; [cbn; auto|auto].
  - left. left. destruct (Hpar _ V) as (l1 & l2 & Ek & _).
    pose proof (j_replace_doc d k G n e _ l1 l2 Ek) as Q. rewrite Forall_forall in Q. apply Q. now apply in_last.
  - left. left. destruct (Hpar _ V) as (l1 & l2 & Ek & _).
    pose proof (j_replace_text d k G n s _ l1 l2 Ek) as Q. rewrite Forall_forall in Q. apply Q. now apply in_last.
  - destruct V as (V & Hn & Hb). destruct (Hpar _ V) as (l1 & l2 & Ek & Hp).
    destruct (replace_html_j d k G bl n h _ l1 l2 Ek Hn) with (d' := d') as [?|([w r] & E & N & L)]; auto.
    { intros d1 E1. apply (Hb d1 (get_parent n d) l1 l2 E1). apply (kc d k); auto. }
    { now apply in_last. }
    right. exists r, l1, N, l2, [n]. split; [eapply RUN; eauto|]. split; [auto|]. split; [cbn; auto|auto].
  - destruct (set_text_j d k G n s V) as (b & kb & E1 & Gb & Lb & He & HQ).
    exists b, kb, n. split; [exact E1|]. split; auto. split; auto.
    destruct (HQ d' I) as [Q|(e & E & N & L)].
    + left. split; [left; auto|]. auto.
    + right. exists e, [], N, [], []. split.
      { rewrite <- c_run_agrees. exact E. }
      split; auto. split; auto. split; [cbn; auto|auto].
  - left. left. pose proof (a_add_bool_st d n b d (debris_refl d)) as Q. rewrite Forall_forall in Q. auto.
  - left. left. pose proof (a_add_property_st d n k0 v d (debris_refl d)) as Q. rewrite Forall_forall in Q. auto.
  - left. left. unfold c_set_property_value in I. apply in_last in I.
    apply in_bind in I as [I|(kid & _ & I)]; [destruct I|]. destruct (kid =? 0); [destruct I|].
    destruct (prop_idx n kid d); [|destruct I]. apply in_bind in I as [I|([vid y] & _ & I)].
    + destruct (a_intern_val d v d (debris_refl d)) as [Q _]. rewrite Forall_forall in Q. auto.
    + destruct (nth_error (props y) n0); destruct I.
  - left. left. unfold c_add_text_to_text_node in I.
    apply in_bind in I as [I|(x & _ & I)]; [destruct I|]. apply in_bind in I as [I|(old & _ & I)]; [destruct I|].
    cbn in I. destruct I as [<-|[]]. apply debris_refl.
  - left. left. pose proof (a_set_tag_st d tag n paired d (debris_refl d)) as Q. rewrite Forall_forall in Q. auto.
Qed.
