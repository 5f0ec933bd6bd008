(** * Queries on documents whose tables are only known to be in range. *)
From Coq Require Import List NArith Arith Bool Lia Permutation.
From Verif Require Import Base TrieModel DomModel ParserModel DomSpec MsiModel QueryModel QuerySpec
  Lemmas TrieProofs Tables Inv Surgery Attach RegProofs ParseTree MsiProofs UsetProofs QueryProofs QueryTotal CrashDebris.
Import ListNotations.
Local Open Scope nat_scope.

(** Nothing the search reads is out of range or runs in a circle. *)
Record searchable (d : dom) : Prop := {
  se_cap : (N.of_nat (length (nodes d)) <= 65535)%N;
  se_len : 0 < length (nodes d);
  se_ids : ids_ok d;
  se_zero : ~ is_element d 0;
  se_pc : forall p c, In (p, c) (pchilds d) -> c < length (nodes d) /\ (p <> 0 -> p < c);
  se_next : forall m, m <> 0 -> exists l, sibs d (get_next m d) l /\ length l <= length (nodes d) /\
     forall x, In x l -> x <> 0 /\ x < length (nodes d);
  se_tag : exists l, map_ok (tag_map d) l;
  se_bool : exists l, map_ok (bool_map d) l;
  se_key : exists l, map_ok (key_map d) l;
  se_val : exists l, map_ok (val_map d) l }.

Section Any.
  Context (lo : nat -> nat) (d : dom) (S : searchable d).
  Let LN : (N.of_nat (length (nodes d)) <= 65535)%N.
  Proof. exact (se_cap d S). Qed.

  (** Element [c] is listed as a child of [m]. *)
  Definition kid (m c : nat) : Prop := is_element d c /\ In (m, c) (pchilds d).
  Inductive undr (m : nat) : nat -> Prop :=
  | undr_kid c : kid m c -> undr m c
  | undr_up x c : kid m x -> undr x c -> undr m c.

  Lemma any_elem c : is_element d c -> c <> 0 /\ c < length (nodes d).
  Proof.
    intros H. split.
    - intros ->. now apply (se_zero d S).
    - apply (elem_node d) in H as (n & E & _). apply nth_error_Some. congruence.
  Qed.

  Lemma any_all fs s : holds 0 s (fun _ => False) ->
    exists s' ph', q_all lo fs d s = Ok s' /\
      holds ph' s' (fun x => 1 <= x < length (nodes d) /\ fmatch lo d x fs).
  Proof.
    intros H. pose proof (se_ids d S) as Id. pose proof (se_len d S) as Len.
    assert (EN : exists n0 rest, nodes d = n0 :: rest).
    { destruct (nodes d) as [|n0 rest]; [simpl in Len; lia|eauto]. }
    destruct EN as (n0 & rest & En).
    assert (Ln : length (nodes d) = 1 + length rest) by now rewrite En.
    assert (Eq : q_all lo fs d s = all_nodes_loop lo (n0 :: rest) fs d s) by (rewrite <- En; reflexivity).
    rewrite Eq. cbn [all_nodes_loop].
    assert (E0 : n_id n0 = 0). { apply Id. rewrite En. reflexivity. }
    rewrite E0.
    assert (S0 : exists s1 p1, insert_if lo 0 fs d s = Ok s1 /\ holds p1 s1 (fun _ => False)).
    { unfold insert_if. destruct (filter_node_ok lo d LN 0 fs) as (r & Er & _); [lia|]. rewrite Er. cbn [bind].
      destruct r; [|exists s, 0; auto].
      destruct H as [O E]. destruct (u_insert_zero s O) as (s1 & p1 & E1 & O1 & X1). rewrite E1. cbn [bind].
      exists s1, p1. split; [reflexivity|]. split; [exact O1|]. intros n. rewrite X1. apply E. }
    destruct S0 as (s1 & p1 & E1 & H1). rewrite E1. cbn [bind].
    destruct (all_loop_ok lo d LN fs rest p1 s1 _ 1 H1) as (s2 & p2 & E2 & _ & H2).
    - intros i x Hi. apply Id. rewrite En. exact Hi.
    - lia.
    - lia.
    - exists s2, p2. split; [exact E2|]. eapply holds_ext; [exact H2|]. intros x. cbv beta. rewrite Ln.
      simpl. tauto.
  Qed.

  Lemma any_adjacents limit fs l : (forall x, In x l -> x <> 0) ->
    forall ph s P, holds ph s P ->
    exists s' ph', adjacents_loop lo limit l fs d s = Ok s' /\ ph' <= ph /\ holds ph' s' (fun x => P x \/ fmatch lo d x fs /\ exists m, In m l /\ (if limit then get_next m d = x /\ x <> 0 else after d m x)).
  Proof.
    induction l as [|m l IH]; intros Z ph s P H; simpl.
    - exists s, ph. split; [reflexivity|]. split; [lia|]. eapply holds_ext; [exact H|].
      intros x. split; [auto|]. intros [|[_ (m & [] & _)]]; assumption.
    - destruct (se_next d S m) as (c & Sc & Lc & Bc); [apply Z; now left|].
      destruct (siblings_ok lo d LN limit fs _ c Sc Bc (Datatypes.S (length (nodes d))) ph s P ltac:(lia) H) as (s1 & p1 & E1 & L1 & H1).
      match goal with |- context [bind ?x _] => replace x with (Ok s1) by (symmetry; exact E1) end. cbn [bind].
      destruct (IH (fun x Hx => Z x (or_intror Hx)) p1 s1 _ H1) as (s2 & p2 & E2 & L2 & H2).
      exists s2, p2. split; [exact E2|]. split; [lia|]. eapply holds_ext; [exact H2|].
      assert (Q : forall x, (if limit then hd_error c = Some x else In x c) <->
                            (if limit then get_next m d = x /\ x <> 0 else after d m x)).
      { intros x. destruct limit; [|symmetry; now apply (after_in_chain d)].
        inversion Sc as [E|c0 l0 N0 S0 E]; subst; simpl.
        - split; [discriminate|]. intros [<- ?]. congruence.
        - split; [intros X; injection X as <-; auto|]. intros [-> ?]. reflexivity. }
      intros x. cbv beta. specialize (Q x). split.
      + intros [[|[F X]]|[F (m' & Hm & X)]]; [auto| |].
        * right. split; [exact F|]. exists m. split; [now left|]. now apply Q.
        * right. split; [exact F|]. exists m'. split; [now right|exact X].
      + intros [|[F (m' & [->|Hm] & X)]]; [auto| |].
        * left. right. split; [exact F|]. now apply Q.
        * right. split; [exact F|]. exists m'. auto.
  Qed.

  Lemma any_q_adjacents limit fs ph s P : holds ph s P ->
    exists s', q_adjacents lo limit fs d s = Ok s' /\ holds 0 s' (fun x => fmatch lo d x fs /\ exists m, P m /\ (if limit then get_next m d = x /\ x <> 0 else after d m x)).
  Proof.
    intros [O E]. unfold q_adjacents.
    destruct (any_adjacents limit fs (u_elems s) (fun x => elems_nz ph s x O) 0 (u_new start_exp) _
               (holds_new start_exp ltac:(unfold start_exp; lia))) as (s' & p' & E' & L' & H').
    assert (p' = 0) by lia. subst p'.
    exists s'. split; [exact E'|]. eapply holds_ext; [exact H'|]. intros x. cbv beta. split.
    - intros [[]|[F (m & Hm & X)]]. split; [exact F|]. exists m. rewrite <- E. auto.
    - intros [F (m & Hm & X)]. right. split; [exact F|]. exists m. rewrite E. auto.
  Qed.

  (** One pass over the parent table. *)
  Lemma any_pass fs filled F pf : holds pf filled F ->
    forall l, (forall e, In e l -> In e (pchilds d)) ->
    forall fill p1 A s p2 P, holds p1 fill A -> holds p2 s P ->
    exists fill' s' p1' p2', descend_pass lo l fs d filled fill s = Ok (fill', s') /\ p1' <= p1 /\ p2' <= p2 /\ holds p1' fill' (fun c => A c \/ is_element d c /\ exists p, F p /\ In (p, c) l) /\ holds p2' s' (fun c => P c \/ fmatch lo d c fs /\ is_element d c /\ exists p, F p /\ In (p, c) l).
  Proof.
    intros HF. induction l as [|[p c] l IH]; intros Hl fill p1 A s p2 P H1 H2.
    - exists fill, s, p1, p2. simpl. split; [reflexivity|]. split; [lia|]. split; [lia|].
      split; (eapply holds_ext; [eassumption|]); intros x; split; auto.
      + intros [|[_ (q & _ & [])]]; assumption.
      + intros [|(_ & _ & q & _ & [])]; assumption.
    - cbn [descend_pass].
      assert (Bc : c < length (nodes d)).
      { apply (se_pc d S p c (Hl _ (or_introl eq_refl))). }
      unfold get_node. destruct (nth_error (nodes d) c) as [n|] eqn:En; [|apply nth_error_None in En; lia].
      cbn [bind].
      destruct (u_wf_contains filled pf p (proj1 HF)) as (r & Er & R).
      assert (Go : exists go, (match n_type n with TDocument => u_contains p filled | _ => Ok false end) = Ok go /\ (go = true <-> is_element d c /\ F p)).
      { destruct (n_type n) eqn:T; try (exists false; split; [reflexivity|]; split; [discriminate|];
          intros [X _]; apply (elem_node d) in X as (n' & E' & T'); congruence).
        exists r. split; [exact Er|]. rewrite R, (proj2 HF p). split; [|tauto]. intros Fp. split; [|exact Fp].
        apply (elem_node d). eauto. }
      destruct Go as (go & Eg & Rg). rewrite Eg. cbn [bind].
      assert (Step : exists fill1 s1 q1 q2,
        (if go then let* '(_, fill) := u_insert c fill in
                    let* s := insert_if lo c fs d s in Ok (fill, s)
         else Ok (fill, s)) = Ok (fill1, s1) /\ q1 <= p1 /\ q2 <= p2 /\ holds q1 fill1 (fun x => A x \/ x = c /\ is_element d c /\ F p) /\ holds q2 s1 (fun x => P x \/ x = c /\ fmatch lo d c fs /\ is_element d c /\ F p)).
      { destruct go.
        - destruct (proj1 Rg eq_refl) as [Ec Fp]. destruct (any_elem c Ec) as [Nc _].
          destruct H1 as [O1 X1].
          destruct (u_insert_ok fill p1 c O1 Nc) as (b & fill1 & q1 & E1 & O1' & L1 & _ & Y1); [lia|].
          rewrite E1. cbn [bind].
          destruct (insert_if_ok lo d LN p2 s P c fs H2 Nc Bc) as (s1 & q2 & E2 & L2 & Y2).
          rewrite E2. cbn [bind]. exists fill1, s1, q1, q2. split; [reflexivity|]. split; [exact L1|].
          split; [exact L2|]. split.
          + split; [exact O1'|]. intros x. rewrite Y1, X1. tauto.
          + eapply holds_ext; [exact Y2|]. intros x. cbv beta. tauto.
        - assert (NF : ~ (is_element d c /\ F p)) by (intros X; apply Rg in X; discriminate).
          exists fill, s, p1, p2. split; [reflexivity|]. split; [lia|]. split; [lia|].
          split; (eapply holds_ext; [eassumption|]); intros x; tauto. }
      destruct Step as (fill1 & s1 & q1 & q2 & E1 & L1 & L2 & Y1 & Y2). rewrite E1. cbn [bind].
      destruct (IH (fun e He => Hl e (or_intror He)) fill1 q1 _ s1 q2 _ Y1 Y2)
        as (fill2 & s2 & r1 & r2 & E2 & M1 & M2 & Z1 & Z2).
      exists fill2, s2, r1, r2. split; [exact E2|]. split; [lia|]. split; [lia|]. split.
      + eapply holds_ext; [exact Z1|]. intros x. cbv beta. split.
        * intros [[|(-> & Ec & Fp)]|(Ex & q & Fq & Iq)]; [auto| |].
          -- right. split; [exact Ec|]. exists p. split; [exact Fp|now left].
          -- right. split; [exact Ex|]. exists q. split; [exact Fq|now right].
        * intros [|(Ex & q & Fq & [E|Iq])]; [auto| |].
          -- injection E as -> ->. left. right. auto.
          -- right. split; [exact Ex|]. exists q. auto.
      + eapply holds_ext; [exact Z2|]. intros x. cbv beta. split.
        * intros [[|(-> & Fm & Ec & Fp)]|(Fm & Ex & q & Fq & Iq)]; [auto| |].
          -- right. split; [exact Fm|]. split; [exact Ec|]. exists p. split; [exact Fp|now left].
          -- right. split; [exact Fm|]. split; [exact Ex|]. exists q. split; [exact Fq|now right].
        * intros [|(Fm & Ex & q & Fq & [E|Iq])]; [auto| |].
          -- injection E as -> ->. left. right. auto.
          -- right. split; [exact Fm|]. split; [exact Ex|]. exists q. auto.
  Qed.

  Lemma any_descend one fs fuel : forall j filled pf F fill s P,
    holds pf filled F -> (forall x, F x -> j <= x /\ x <> 0) ->
    length (nodes d) - j + 1 <= fuel ->
    holds 0 fill (fun _ => False) -> holds 0 s P ->
    exists s', descend_loop fuel lo one fs d filled fill s = Ok s' /\ holds 0 s' (fun c => P c \/ fmatch lo d c fs /\ exists m, F m /\ (if one then kid m c else undr m c)).
  Proof.
    induction fuel as [|f IH]; intros j filled pf F fill s P HF Fj Lf Hfill Hs; [lia|].
    cbn [descend_loop].
    destruct (0 <? m_len filled) eqn:Em.
    - destruct (any_pass fs filled F pf HF (pchilds d) (fun e H => H) fill 0 _ s 0 P Hfill Hs)
        as (fill1 & s1 & q1 & q2 & E1 & L1 & L2 & Y1 & Y2).
      rewrite E1. cbn [bind].
      assert (q1 = 0) by lia. assert (q2 = 0) by lia. subst q1 q2.
      destruct one.
      + exists s1. split; [reflexivity|]. eapply holds_ext; [exact Y2|]. intros x. cbv beta. unfold kid. split.
        * intros [|(Fm & Ex & m & Fx & Px)]; [auto|]. right. split; [exact Fm|]. exists m. auto.
        * intros [|(Fm & m & Fx & Ex & Px)]; [auto|]. right. split; [exact Fm|]. split; [exact Ex|]. exists m. auto.
      + assert (Y1' : holds 0 fill1 (fun c => exists m, F m /\ kid m c)).
        { eapply holds_ext; [exact Y1|]. intros x. cbv beta. unfold kid. split.
          - intros [[]|(Ex & m & Fm & Px)]. eauto.
          - intros (m & Fm & Ex & Px). right. eauto. }
        assert (Rew : forall s', holds 0 s' (fun c => (P c \/ fmatch lo d c fs /\ is_element d c /\ (exists p, F p /\ In (p, c) (pchilds d))) \/ fmatch lo d c fs /\ exists m, (exists m0, F m0 /\ kid m0 m) /\ undr m c) ->
                    holds 0 s' (fun c => P c \/ fmatch lo d c fs /\ exists m, F m /\ undr m c)).
        { intros s' H. eapply holds_ext; [exact H|]. intros c. cbv beta. split.
          - intros [[|(Fm & Ec & m & Fx & Px)]|(Fm & m & (m0 & F0 & P0) & U)]; [auto| |].
            + right. split; [exact Fm|]. exists m. split; [exact Fx|]. apply undr_kid. split; auto.
            + right. split; [exact Fm|]. exists m0. split; [exact F0|]. eapply undr_up; eauto.
          - intros [|(Fm & m & Fx & U)]; [auto|]. inversion U as [? [Ec Pc]|x ? K U']; subst.
            + left. right. split; [exact Fm|]. split; [exact Ec|]. exists m. auto.
            + right. split; [exact Fm|]. exists x. split; [|exact U']. exists m. auto. }
        assert (Hf : length (nodes d) - (1 + j) + 1 <= f \/ m_len fill1 = 0).
        { destruct (Nat.le_gt_cases (length (nodes d)) j) as [Big|Small]; [|left; lia].
          right. pose proof (uo_len _ _ (proj1 Y1')) as Ll.
          destruct (u_elems fill1) as [|y l1] eqn:E2; [simpl in Ll; lia|].
          assert (My : In y (u_elems fill1)) by (rewrite E2; now left).
          apply (proj2 Y1') in My as (m & Fm & Ey & Pm). destruct (Fj m Fm) as [Jm Nm].
          destruct (se_pc d S m y Pm) as [? Lt]. specialize (Lt Nm). lia. }
        destruct Hf as [Hf|Hf].
        * destruct (IH (1 + j) fill1 0 _ (u_reset filled) s1 (fun c => P c \/ fmatch lo d c fs /\ is_element d c /\ exists p, F p /\ In (p, c) (pchilds d)) Y1') as (s' & E' & H'); cycle 4.
          -- exists s'. split; [exact E'|]. apply Rew. exact H'.
          -- intros x (m & Fm & Ex & Pm). destruct (Fj m Fm) as [Jm Nm].
             destruct (se_pc d S m x Pm) as [? Lt]. specialize (Lt Nm). lia.
          -- exact Hf.
          -- eapply holds_reset; eauto.
          -- exact Y2.
        * exists s1. split; [destruct f; cbn [descend_loop]; rewrite Hf; reflexivity|].
          apply Rew. eapply holds_ext; [exact Y2|]. intros c. cbv beta. split; [auto|].
          intros [|(Fm & m & M & U)]; [auto|]. exfalso.
          apply (proj2 Y1') in M. pose proof (uo_len _ _ (proj1 Y1')) as Ll. rewrite Hf in Ll.
          destruct (u_elems fill1); [contradiction|simpl in Ll; lia].
    - exists s. split; [reflexivity|]. eapply holds_ext; [exact Hs|]. intros c. cbv beta. split; [auto|].
      intros [|(Fm & m & Fx & _)]; [assumption|]. exfalso.
      apply (proj2 HF) in Fx. pose proof (uo_len _ _ (proj1 HF)) as Ll. apply Nat.ltb_ge in Em.
      destruct (u_elems filled); [contradiction|simpl in Ll; lia].
  Qed.

  Lemma any_q_descendants one fs ph s P : holds ph s P ->
    exists s', q_descendants lo one fs d s = Ok s' /\ holds 0 s' (fun c => fmatch lo d c fs /\ exists m, P m /\ (if one then kid m c else undr m c)).
  Proof.
    intros H. unfold q_descendants, u_copy. pose proof H as [O E].
    destruct (any_descend one fs (Datatypes.S (Datatypes.S (length (nodes d)))) 1 s ph P (u_new (m_exp s)) (u_reset s) (fun _ => False) H)
      as (s' & E' & H').
    - intros x Px. apply E in Px. pose proof (elems_nz _ _ _ O Px). lia.
    - lia.
    - apply holds_new. apply (uo_exp _ _ O).
    - eapply holds_reset; eauto.
    - exists s'. split; [exact E'|]. eapply holds_ext; [exact H'|]. intros c. cbv beta. tauto.
  Qed.

  (** ** One step of a query *)
  Definition any_rel (c : comb) (P : nat -> Prop) (n : nat) : Prop :=
    match c with
    | CNone => 1 <= n < length (nodes d)
    | CAdjacent => exists m, P m /\ get_next m d = n /\ n <> 0
    | CChild => exists m, P m /\ kid m n
    | CSibling => exists m, P m /\ after d m n
    | CDescendant => exists m, P m /\ undr m n
    end.
  Lemma any_step c fs ph s P : holds ph s P -> (c = CNone -> ph = 0 /\ forall n, ~ P n) ->
    exists s' ph', q_step lo c fs d s = Ok s' /\ holds ph' s' (fun n => fmatch lo d n fs /\ any_rel c P n).
  Proof.
    intros H HN. destruct c; cbn [q_step any_rel].
    - destruct (HN eq_refl) as [-> NP].
      destruct (any_all fs s) as (s' & p' & E & H').
      + eapply holds_ext; [exact H|]. intros n. split; [apply NP|contradiction].
      + exists s', p'. split; [exact E|]. eapply holds_ext; [exact H'|]. intros n. tauto.
    - destruct (any_q_adjacents true fs ph s P H) as (s' & E & H'). exists s', 0. auto.
    - destruct (any_q_descendants true fs ph s P H) as (s' & E & H'). exists s', 0. auto.
    - destruct (any_q_adjacents false fs ph s P H) as (s' & E & H'). exists s', 0. auto.
    - destruct (any_q_descendants false fs ph s P H) as (s' & E & H'). exists s', 0. auto.
  Qed.
  Definition inside (P : nat -> Prop) : Prop := forall n, P n -> n <> 0 /\ n < length (nodes d).
  Lemma undr_elem m n : undr m n -> is_element d n.
  Proof. induction 1 as [? ? []|]; auto. Qed.
  Lemma any_rel_in c P : inside P -> inside (any_rel c P).
  Proof.
    intros HP n Hn. destruct c; cbn [any_rel] in Hn.
    - lia.
    - destruct Hn as (m & Pm & E & N0). destruct (HP m Pm) as [Nm _].
      destruct (se_next d S m Nm) as (l & Sl & _ & Bl).
      apply Bl. inversion Sl; [congruence|]. subst. now left.
    - destruct Hn as (m & _ & E & _). now apply any_elem.
    - destruct Hn as (m & Pm & A). destruct (HP m Pm) as [Nm _].
      destruct (se_next d S m Nm) as (l & Sl & _ & Bl). apply Bl.
      now apply (after_in_chain d m l Sl).
    - destruct Hn as (m & _ & U). apply any_elem. eapply undr_elem; eauto.
  Qed.
End Any.
