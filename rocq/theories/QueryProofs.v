(** * The query steps compute the relations they stand for. *)
From Coq Require Import List NArith Arith Bool Lia Permutation.
From Verif Require Import Base TrieModel DomModel ParserModel DomSpec MsiModel QueryModel QuerySpec
  Lemmas TrieProofs Tables Inv Surgery Attach RegProofs ParseTree MsiProofs UsetProofs.
Import ListNotations.
Local Open Scope nat_scope.

(** The hash set [s] stands for the set [P]. *)
Definition holds (ph : nat) (s : uset) (P : nat -> Prop) : Prop :=
  uset_ok s ph /\ forall n, In n (u_elems s) <-> P n.
Lemma holds_ext ph s P Q : holds ph s P -> (forall n, P n <-> Q n) -> holds ph s Q.
Proof. intros [H E] X. split; [exact H|]. intros n. rewrite E. apply X. Qed.
Lemma holds_new e : 7 <= e <= 18 -> holds 0 (u_new e) (fun _ => False).
Proof. intros H. destruct (uset_new e H) as [O E]. split; [exact O|]. intros n. rewrite E. reflexivity. Qed.
Lemma holds_reset ph s P : holds ph s P -> holds 0 (u_reset s) (fun _ => False).
Proof.
  intros [O _]. destruct (u_reset_ok s ph O) as [O' E]. split; [exact O'|]. intros n. rewrite E. reflexivity.
Qed.

Lemma nodup_tail {A} (l1 l2 : list A) : NoDup (l1 ++ l2) -> NoDup l2.
Proof. induction l1; simpl; [auto|]. intros H. inversion H. auto. Qed.

Section Steps.
  Context (lo : nat -> nat) (d : dom) (k : kids) (G : Good d k).
  Context (LN : (N.of_nat (length (nodes d)) <= 65535)%N).
  Let I : Inv d k := g_inv _ _ G.

  (** ** Filters on ids *)
  Definition fm1 (n : nat) (f : filt) : Prop :=
    match f with
    | FTag t => exists x, nth_error (nodes d) n = Some x /\ tag_view lo x = t
    | FAll => True
    | FBool b => In (n, b) (bprops d)
    | FProp a b => In (mkProp n a b) (props d)
    end.
  Fixpoint fmatch (n : nat) (fs : list filt) : Prop :=
    match fs with
    | [] => True
    | FAll :: _ => True
    | f :: fs' => fm1 n f /\ fmatch n fs'
    end.

  Lemma filter_node_ok n fs : n < length (nodes d) ->
    exists r, filter_node lo n fs d = Ok r /\ (r = true <-> fmatch n fs).
  Proof.
    intros L. induction fs as [|f fs IH]; simpl.
    - exists true. tauto.
    - destruct IH as (r & E & R). destruct f.
      + unfold get_node. destruct (nth_error (nodes d) n) as [x|] eqn:Ex;
          [|apply nth_error_None in Ex; lia].
        cbn [bind]. destruct (tag_view lo x =? tagID) eqn:T.
        * apply Nat.eqb_eq in T. exists r. split; [exact E|]. rewrite R. split; [|tauto].
          intros F. split; [|exact F]. exists x. auto.
        * apply Nat.eqb_neq in T. exists false. split; [reflexivity|]. split; [discriminate|].
          intros [(y & Ey & Ty) _]. congruence.
      + exists true. tauto.
      + match goal with |- context [if ?b then _ else _] => destruct b eqn:T end.
        * exists r. split; [exact E|]. rewrite R. split; [|tauto]. intros F. split; [|exact F].
          apply existsb_exists in T as ([a b] & Hin & C). simpl in C.
          apply andb_true_iff in C as [C1 C2]. apply Nat.eqb_eq in C1, C2. subst. exact Hin.
        * exists false. split; [reflexivity|]. split; [discriminate|]. intros [H _].
          assert (X : existsb (fun e => (fst e =? n) && (snd e =? propID)) (bprops d) = true).
          { apply existsb_exists. eexists; split; [exact H|]. simpl. now rewrite !Nat.eqb_refl. }
          congruence.
      + match goal with |- context [if ?b then _ else _] => destruct b eqn:T end.
        * exists r. split; [exact E|]. rewrite R. split; [|tauto]. intros F. split; [|exact F].
          apply existsb_exists in T as ([a b c] & Hin & C). simpl in C.
          apply andb_true_iff in C as [C C3]. apply andb_true_iff in C as [C1 C2].
          apply Nat.eqb_eq in C1, C2, C3. subst. exact Hin.
        * exists false. split; [reflexivity|]. split; [discriminate|]. intros [H _].
          assert (X : existsb (fun e => (p_node e =? n) && (p_key e =? keyID) && (p_val e =? valueID)) (props d) = true).
          { apply existsb_exists. eexists; split; [exact H|]. simpl. now rewrite !Nat.eqb_refl. }
          congruence.
  Qed.

  Lemma insert_if_ok ph s P n fs : holds ph s P -> n <> 0 -> n < length (nodes d) ->
    exists s' ph', insert_if lo n fs d s = Ok s' /\ ph' <= ph /\
      holds ph' s' (fun x => P x \/ x = n /\ fmatch n fs).
  Proof.
    intros [O E] N L. unfold insert_if.
    destruct (filter_node_ok n fs L) as (r & Er & R). rewrite Er. cbn [bind]. destruct r.
    - destruct (u_insert_ok s ph n O N) as (b & s' & ph' & E' & O' & Lp & _ & X); [lia|].
      rewrite E'. cbn [bind]. exists s', ph'. split; [reflexivity|]. split; [exact Lp|].
      split; [exact O'|]. intros x. rewrite X, E.
      assert (fmatch n fs) by now apply R. tauto.
    - exists s, ph. split; [reflexivity|]. split; [lia|]. split; [exact O|]. intros x. rewrite E.
      assert (~ fmatch n fs) by (intros F; apply R in F; discriminate). intuition.
  Qed.

  (** ** No combinator *)
  Lemma all_loop_ok fs l : forall ph s P a, holds ph s P ->
    (forall i x, nth_error l i = Some x -> n_id x = a + i) -> a <> 0 -> a + length l <= length (nodes d) ->
    exists s' ph', all_nodes_loop lo l fs d s = Ok s' /\ ph' <= ph /\
      holds ph' s' (fun x => P x \/ a <= x < a + length l /\ fmatch x fs).
  Proof.
    induction l as [|n l IH]; intros ph s P a H Id A L; simpl.
    - exists s, ph. split; [reflexivity|]. split; [lia|]. eapply holds_ext; [exact H|]. intros x. simpl.
      split; [tauto|]. intros [|[? _]]; [assumption|lia].
    - assert (En : n_id n = a) by (rewrite (Id 0 n eq_refl); lia). rewrite En. simpl in L.
      destruct (insert_if_ok ph s P a fs H A) as (s1 & p1 & E1 & Lp1 & H1); [lia|].
      rewrite E1. cbn [bind].
      destruct (IH p1 s1 _ (S a) H1) as (s2 & p2 & E2 & Lp2 & H2).
      + intros i x Hi. rewrite (Id (S i) x Hi). lia.
      + lia.
      + lia.
      + exists s2, p2. split; [exact E2|]. split; [lia|]. eapply holds_ext; [exact H2|]. cbv beta.
        intros x. split.
        * intros [[|[-> F]]|[B F]]; [tauto| |]; right; (split; [lia|assumption]).
        * intros [|[B F]]; [tauto|]. destruct (Nat.eq_dec x a) as [->|]; [tauto|].
          right. split; [lia|exact F].
  Qed.

  Lemma q_all_ok fs s : holds 0 s (fun _ => False) ->
    exists s' ph', q_all lo fs d s = Ok s' /\
      holds ph' s' (fun x => 1 <= x < length (nodes d) /\ fmatch x fs).
  Proof.
    intros H. pose proof (inv_ids _ _ I) as Id. pose proof (inv_len _ _ I) as Len.
    assert (EN : exists n0 rest, nodes d = n0 :: rest).
    { destruct (nodes d) as [|n0 rest]; [simpl in Len; lia|eauto]. }
    destruct EN as (n0 & rest & En).
    assert (Ln : length (nodes d) = S (length rest)) by now rewrite En.
    assert (Eq : q_all lo fs d s = all_nodes_loop lo (n0 :: rest) fs d s) by (rewrite <- En; reflexivity).
    rewrite Eq. cbn [all_nodes_loop].
    assert (E0 : n_id n0 = 0). { apply Id. rewrite En. reflexivity. }
    rewrite E0.
    assert (S0 : exists s1 p1, insert_if lo 0 fs d s = Ok s1 /\ holds p1 s1 (fun _ => False)).
    { unfold insert_if. destruct (filter_node_ok 0 fs) as (r & Er & _); [lia|]. rewrite Er. cbn [bind].
      destruct r; [|exists s, 0; auto].
      destruct H as [O E]. destruct (u_insert_zero s O) as (s1 & p1 & E1 & O1 & X1). rewrite E1. cbn [bind].
      exists s1, p1. split; [reflexivity|]. split; [exact O1|]. intros n. rewrite X1. apply E. }
    destruct S0 as (s1 & p1 & E1 & H1). rewrite E1. cbn [bind].
    destruct (all_loop_ok fs rest p1 s1 _ 1 H1) as (s2 & p2 & E2 & _ & H2).
    - intros i x Hi. rewrite (Id (S i) x); [reflexivity|]. rewrite En. exact Hi.
    - lia.
    - lia.
    - exists s2, p2. split; [exact E2|]. eapply holds_ext; [exact H2|]. intros x. cbv beta. rewrite Ln.
      simpl. tauto.
  Qed.

  (** ** Siblings *)
  Lemma next_chain m : m <> 0 -> exists l, sibs d (get_next m d) l /\ length l <= length (nodes d) /\ forall x, In x l -> x <> 0 /\ x < length (nodes d).
  Proof.
    intros M. destruct (next_idx m d) as [i|] eqn:E.
    - pose proof E as E'. unfold next_idx in E'. apply find_idx_some in E' as ([a b] & Hi & Ha & _).
      simpl in Ha. apply Nat.eqb_eq in Ha. subst a.
      destruct (inv_next _ _ I) as (T1 & _).
      destruct (T1 m b (nth_error_In _ _ Hi)) as [[? _]|[q A]]; [congruence|].
      apply adj_split in A as (l1 & l2 & Eq).
      assert (Eg : get_next m d = b).
      { rewrite (get_next_at I q l1 m (b :: l2) Eq). reflexivity. }
      rewrite Eg. exists (b :: l2).
      assert (W := inv_kw _ _ I).
      assert (Sub : forall x, In x (b :: l2) -> 2 <= x < length (nodes d)).
      { intros x Hx. apply (kw_bound _ _ W q). rewrite Eq. apply in_or_app. right. now right. }
      split; [|split].
      + assert (X : sibs d (hd 0 (b :: l2)) (b :: l2)).
        { apply (sibs_at d k q (l1 ++ [m])); [exact I|]. rewrite Eq, <- app_assoc. reflexivity. }
        exact X.
      + assert (ND : NoDup (b :: l2)).
        { pose proof (kw_nodup _ _ W q) as ND. rewrite Eq in ND.
          change (m :: b :: l2) with ([m] ++ b :: l2) in ND. rewrite app_assoc in ND.
          now apply nodup_tail in ND. }
        rewrite <- (seq_length (length (nodes d)) 0). apply NoDup_incl_length; [exact ND|].
        intros x Hx. apply in_seq. specialize (Sub x Hx). lia.
      + intros x Hx. specialize (Sub x Hx). lia.
    - exists []. unfold get_next. rewrite E. split; [constructor|]. simpl. split; [lia|contradiction].
  Qed.

  Lemma after_in_chain m l : sibs d (get_next m d) l -> forall n, after d m n <-> In n l.
  Proof.
    intros H n. split.
    - intros A. induction A as [n E N|p n A IH E N].
      + inversion H as [Z|c l' N' H' Ec]; [congruence|]. subst. now left.
      + clear A. revert H IH. generalize (get_next m d) as c. intros c H.
        induction H as [|c l Nc H IHs]; intros IH; [contradiction|].
        destruct IH as [->|IH]; [|right; now apply IHs].
        right. inversion H as [Z|c' l' N' H' Ec]; [congruence|]. subst. now left.
    - assert (X : forall c l, sibs d c l -> (c <> 0 -> after d m c) -> In n l -> after d m n).
      { intros c l0 S0. induction S0 as [|c l0 Nc S0 IHs]; intros A Hn; [contradiction|].
        destruct Hn as [<-|Hn]; [auto|]. apply IHs; [|exact Hn]. intros Nn.
        eapply after_step; [apply A, Nc|reflexivity|exact Nn]. }
      intros Hn. eapply X; eauto. intros N. now apply after_next.
  Qed.

  Lemma siblings_ok limit fs next l : sibs d next l ->
    (forall x, In x l -> x <> 0 /\ x < length (nodes d)) ->
    forall fuel ph s P, length l <= fuel -> holds ph s P ->
    exists s' ph', siblings_loop fuel lo limit next fs d s = Ok s' /\ ph' <= ph /\ holds ph' s' (fun x => P x \/ fmatch x fs /\ (if limit then hd_error l = Some x else In x l)).
  Proof.
    induction 1 as [|c l Nc H IH]; intros Hl fuel ph s P Lf Hs.
    - exists s, ph. destruct fuel; simpl; (split; [reflexivity|]; split; [lia|];
        eapply holds_ext; [exact Hs|]; intros x; destruct limit; simpl; intuition discriminate).
    - simpl in Lf. destruct fuel as [|f]; [lia|]. cbn [siblings_loop].
      replace (0 <? c) with true by (symmetry; apply Nat.ltb_lt; lia).
      destruct (Hl c) as [_ Lc]; [now left|].
      destruct (insert_if_ok ph s P c fs Hs Nc Lc) as (s1 & p1 & E1 & Lp1 & H1).
      rewrite E1. cbn [bind]. destruct limit.
      + exists s1, p1. split; [reflexivity|]. split; [exact Lp1|]. eapply holds_ext; [exact H1|].
        intros x. simpl. split.
        * intros [|[-> F]]; auto.
        * intros [|[F E]]; auto. injection E as ->. auto.
      + destruct (IH (fun x Hx => Hl x (or_intror Hx)) f p1 s1 _ ltac:(lia) H1) as (s2 & p2 & E2 & Lp2 & H2).
        exists s2, p2. split; [exact E2|]. split; [lia|]. eapply holds_ext; [exact H2|].
        intros x. simpl. split.
        * intros [[|[-> F]]|[F E]]; auto.
        * intros [|[F [->|E]]]; auto.
  Qed.

  Lemma adjacents_ok limit fs l : (forall x, In x l -> x <> 0) ->
    forall ph s P, holds ph s P ->
    exists s' ph', adjacents_loop lo limit l fs d s = Ok s' /\ ph' <= ph /\ holds ph' s' (fun x => P x \/ fmatch x fs /\ exists m, In m l /\ (if limit then get_next m d = x /\ x <> 0 else after d m x)).
  Proof.
    induction l as [|m l IH]; intros Z ph s P H; simpl.
    - exists s, ph. split; [reflexivity|]. split; [lia|]. eapply holds_ext; [exact H|].
      intros x. split; [auto|]. intros [|[_ (m & [] & _)]]; assumption.
    - destruct (next_chain m) as (c & Sc & Lc & Bc); [apply Z; now left|].
      destruct (siblings_ok limit fs _ c Sc Bc (S (length (nodes d))) ph s P ltac:(lia) H) as (s1 & p1 & E1 & L1 & H1).
      match goal with |- context [bind ?x _] => replace x with (Ok s1) by (symmetry; exact E1) end. cbn [bind].
      destruct (IH (fun x Hx => Z x (or_intror Hx)) p1 s1 _ H1) as (s2 & p2 & E2 & L2 & H2).
      exists s2, p2. split; [exact E2|]. split; [lia|]. eapply holds_ext; [exact H2|].
      assert (Q : forall x, (if limit then hd_error c = Some x else In x c) <->
                            (if limit then get_next m d = x /\ x <> 0 else after d m x)).
      { intros x. destruct limit; [|symmetry; now apply after_in_chain].
        inversion Sc as [E|c0 l0 N0 S0 E]; subst; simpl.
        - split; [discriminate|]. intros [<- ?]. congruence.
        - split; [intros X; injection X as <-; auto|]. intros [-> ?]. reflexivity. }
      intros x. cbv beta. specialize (Q x). split.
      + intros [[|[F X]]|[F (m' & Hm & X)]]; [auto| |].
        * right. split; [exact F|]. exists m. split; [now left|]. now apply Q.
        * right. split; [exact F|]. exists m'. split; [now right|exact X].
      + intros [|[F (m' & [->|Hm] & X)]]; [auto| |].
        * left. right. split; [exact F|]. now apply Q.
        * right. split; [exact F|]. exists m'. auto.
  Qed.

  Lemma elems_nz ph s x : uset_ok s ph -> In x (u_elems s) -> x <> 0.
  Proof. intros O X. apply (uo_val _ _ O _ X). Qed.

  Lemma q_adjacents_ok limit fs ph s P : holds ph s P ->
    exists s', q_adjacents lo limit fs d s = Ok s' /\ holds 0 s' (fun x => fmatch x fs /\ exists m, P m /\ (if limit then get_next m d = x /\ x <> 0 else after d m x)).
  Proof.
    intros [O E]. unfold q_adjacents.
    destruct (adjacents_ok limit fs (u_elems s) (fun x => elems_nz ph s x O) 0 (u_new start_exp) _
               (holds_new start_exp ltac:(unfold start_exp; lia))) as (s' & p' & E' & L' & H').
    assert (p' = 0) by lia. subst p'.
    exists s'. split; [exact E'|]. eapply holds_ext; [exact H'|]. intros x. cbv beta. split.
    - intros [[]|[F (m & Hm & X)]]. split; [exact F|]. exists m. rewrite <- E. auto.
    - intros [F (m & Hm & X)]. right. split; [exact F|]. exists m. rewrite E. auto.
  Qed.

  (** ** Descendants *)
  Lemma parent_entry p c : p <> 0 -> (In (p, c) (pchilds d) <-> get_parent c d = p).
  Proof.
    intros P. unfold get_parent. destruct (parent_idx c d) as [i|] eqn:E.
    - unfold parent_idx in E. apply find_idx_some in E as ([a b] & Hi & Hb & _). simpl in Hb.
      apply Nat.eqb_eq in Hb. subst b. rewrite (at_idx_nth _ _ _ Hi). simpl.
      apply nth_error_In in Hi. split.
      + intros H. exact (pc_fun _ _ _ (inv_pchild _ _ I) _ _ _ Hi H).
      + intros <-. exact Hi.
    - split; [|congruence]. intros H. unfold parent_idx in E. rewrite find_idx_none in E.
      specialize (E _ H). simpl in E. rewrite Nat.eqb_refl in E. discriminate.
  Qed.

  Lemma elem_node c : is_element d c <-> exists n, nth_error (nodes d) c = Some n /\ n_type n = TDocument.
  Proof.
    unfold is_element, kind. destruct (nth_error (nodes d) c) as [n|]; split.
    - intros H. injection H as H. eauto.
    - intros (m & E & T). injection E as ->. now rewrite T.
    - discriminate.
    - intros (m & E & _). discriminate.
  Qed.
  Lemma elem_nz c : is_element d c -> c <> 0 /\ c < length (nodes d).
  Proof.
    intros H. split.
    - intros ->. unfold is_element in H. rewrite (ty_zero _ _ (g_ty _ _ G)) in H. discriminate.
    - apply elem_node in H as (n & E & _). apply nth_error_Some. congruence.
  Qed.

  (** One pass over the parent table. *)
  Lemma pass_ok fs filled F pf : holds pf filled F ->
    forall l, (forall e, In e l -> In e (pchilds d)) ->
    forall fill p1 A s p2 P, holds p1 fill A -> holds p2 s P ->
    exists fill' s' p1' p2', descend_pass lo l fs d filled fill s = Ok (fill', s') /\ p1' <= p1 /\ p2' <= p2 /\ holds p1' fill' (fun c => A c \/ is_element d c /\ exists p, F p /\ In (p, c) l) /\ holds p2' s' (fun c => P c \/ fmatch c fs /\ is_element d c /\ exists p, F p /\ In (p, c) l).
  Proof.
    intros HF. induction l as [|[p c] l IH]; intros Hl fill p1 A s p2 P H1 H2.
    - exists fill, s, p1, p2. simpl. split; [reflexivity|]. split; [lia|]. split; [lia|].
      split; (eapply holds_ext; [eassumption|]); intros x; split; auto.
      + intros [|[_ (q & _ & [])]]; assumption.
      + intros [|(_ & _ & q & _ & [])]; assumption.
    - cbn [descend_pass].
      assert (Bc : c < length (nodes d)).
      { destruct (pc_nz _ _ _ (inv_pchild _ _ I) p c (Hl _ (or_introl eq_refl))) as [[_ ->]|H]; [|lia].
        pose proof (inv_len _ _ I). lia. }
      unfold get_node. destruct (nth_error (nodes d) c) as [n|] eqn:En; [|apply nth_error_None in En; lia].
      cbn [bind].
      destruct (u_wf_contains filled pf p (proj1 HF)) as (r & Er & R).
      assert (Go : exists go, (match n_type n with TDocument => u_contains p filled | _ => Ok false end) = Ok go /\ (go = true <-> is_element d c /\ F p)).
      { destruct (n_type n) eqn:T; try (exists false; split; [reflexivity|]; split; [discriminate|];
          intros [X _]; apply elem_node in X as (n' & E' & T'); congruence).
        exists r. split; [exact Er|]. rewrite R, (proj2 HF p). split; [|tauto]. intros Fp. split; [|exact Fp].
        apply elem_node. eauto. }
      destruct Go as (go & Eg & Rg). rewrite Eg. cbn [bind].
      assert (Step : exists fill1 s1 q1 q2,
        (if go then let* '(_, fill) := u_insert c fill in
                    let* s := insert_if lo c fs d s in Ok (fill, s)
         else Ok (fill, s)) = Ok (fill1, s1) /\ q1 <= p1 /\ q2 <= p2 /\ holds q1 fill1 (fun x => A x \/ x = c /\ is_element d c /\ F p) /\ holds q2 s1 (fun x => P x \/ x = c /\ fmatch c fs /\ is_element d c /\ F p)).
      { destruct go.
        - destruct (proj1 Rg eq_refl) as [Ec Fp]. destruct (elem_nz c Ec) as [Nc _].
          destruct H1 as [O1 X1].
          destruct (u_insert_ok fill p1 c O1 Nc) as (b & fill1 & q1 & E1 & O1' & L1 & _ & Y1); [lia|].
          rewrite E1. cbn [bind].
          destruct (insert_if_ok p2 s P c fs H2 Nc Bc) as (s1 & q2 & E2 & L2 & Y2).
          rewrite E2. cbn [bind]. exists fill1, s1, q1, q2. split; [reflexivity|]. split; [exact L1|].
          split; [exact L2|]. split.
          + split; [exact O1'|]. intros x. rewrite Y1, X1. tauto.
          + eapply holds_ext; [exact Y2|]. intros x. cbv beta. tauto.
        - assert (NF : ~ (is_element d c /\ F p)) by (intros X; apply Rg in X; discriminate).
          exists fill, s, p1, p2. split; [reflexivity|]. split; [lia|]. split; [lia|].
          split; (eapply holds_ext; [eassumption|]); intros x; tauto. }
      destruct Step as (fill1 & s1 & q1 & q2 & E1 & L1 & L2 & Y1 & Y2). rewrite E1. cbn [bind].
      destruct (IH (fun e He => Hl e (or_intror He)) fill1 q1 _ s1 q2 _ Y1 Y2)
        as (fill2 & s2 & r1 & r2 & E2 & M1 & M2 & Z1 & Z2).
      exists fill2, s2, r1, r2. split; [exact E2|]. split; [lia|]. split; [lia|]. split.
      + eapply holds_ext; [exact Z1|]. intros x. cbv beta. split.
        * intros [[|(-> & Ec & Fp)]|(Ex & q & Fq & Iq)]; [auto| |].
          -- right. split; [exact Ec|]. exists p. split; [exact Fp|now left].
          -- right. split; [exact Ex|]. exists q. split; [exact Fq|now right].
        * intros [|(Ex & q & Fq & [E|Iq])]; [auto| |].
          -- injection E as -> ->. left. right. auto.
          -- right. split; [exact Ex|]. exists q. auto.
      + eapply holds_ext; [exact Z2|]. intros x. cbv beta. split.
        * intros [[|(-> & Fm & Ec & Fp)]|(Fm & Ex & q & Fq & Iq)]; [auto| |].
          -- right. split; [exact Fm|]. split; [exact Ec|]. exists p. split; [exact Fp|now left].
          -- right. split; [exact Fm|]. split; [exact Ex|]. exists q. split; [exact Fq|now right].
        * intros [|(Fm & Ex & q & Fq & [E|Iq])]; [auto| |].
          -- injection E as -> ->. left. right. auto.
          -- right. split; [exact Fm|]. split; [exact Ex|]. exists q. auto.
  Qed.

  Lemma under_split m n : under d m n <->
    (is_element d n /\ get_parent n d = m) \/
    exists c, is_element d c /\ get_parent c d = m /\ under d c n.
  Proof.
    split.
    - induction 1 as [n E P|p n U IH E P]; [auto|]. right.
      destruct IH as [[Ep Pp]|(c & Ec & Pc & Uc)].
      + exists p. split; [exact Ep|]. split; [exact Pp|]. now apply under_child.
      + exists c. split; [exact Ec|]. split; [exact Pc|]. eapply under_step; eauto.
    - intros [[E P]|(c & E & P & U)]; [now apply under_child|].
      induction U as [n En Pn|p n U IH En Pn].
      + apply (under_step d m c n); [now apply under_child|exact En|exact Pn].
      + eapply under_step; eauto.
  Qed.

  Lemma child_gt c p : get_parent c d = p -> p <> 0 -> p < c.
  Proof.
    intros E N. apply (parent_entry p c N) in E.
    destruct (pc_nz _ _ _ (inv_pchild _ _ I) _ _ E) as [[? _]|H]; [congruence|lia].
  Qed.

  Lemma descend_ok one fs fuel : forall j filled pf F fill s P,
    holds pf filled F -> (forall x, F x -> j <= x /\ x <> 0) ->
    length (nodes d) - j + 1 <= fuel ->
    holds 0 fill (fun _ => False) -> holds 0 s P ->
    exists s', descend_loop fuel lo one fs d filled fill s = Ok s' /\ holds 0 s' (fun c => P c \/ fmatch c fs /\ exists m, F m /\ (if one then is_element d c /\ get_parent c d = m else under d m c)).
  Proof.
    induction fuel as [|f IH]; intros j filled pf F fill s P HF Fj Lf Hfill Hs; [lia|].
    cbn [descend_loop].
    destruct (0 <? m_len filled) eqn:Em.
    - destruct (pass_ok fs filled F pf HF (pchilds d) (fun e H => H) fill 0 _ s 0 P Hfill Hs)
        as (fill1 & s1 & q1 & q2 & E1 & L1 & L2 & Y1 & Y2).
      rewrite E1. cbn [bind].
      assert (q1 = 0) by lia. assert (q2 = 0) by lia. subst q1 q2.
      assert (Kid : forall c, (exists p, F p /\ In (p, c) (pchilds d)) <-> exists m, F m /\ get_parent c d = m).
      { intros c. split; intros (p & Fp & X); exists p; (split; [exact Fp|]); apply parent_entry;
          try exact X; apply (Fj p Fp). }
      destruct one.
      + exists s1. split; [reflexivity|]. eapply holds_ext; [exact Y2|]. intros x. cbv beta.
        rewrite Kid. split.
        * intros [|(Fm & Ex & m & Fx & Px)]; [auto|]. right. split; [exact Fm|]. exists m. auto.
        * intros [|(Fm & m & Fx & Ex & Px)]; [auto|]. right. split; [exact Fm|]. split; [exact Ex|]. exists m. auto.
      + assert (Y1' : holds 0 fill1 (fun c => is_element d c /\ exists m, F m /\ get_parent c d = m)).
        { eapply holds_ext; [exact Y1|]. intros x. cbv beta. rewrite Kid. tauto. }
        destruct (proj1 HF) as [Wf Xf Lnf _ _ Vf].
        assert (Gen : forall f', f' = f -> (length (nodes d) - S j + 1 <= f' \/ m_len fill1 = 0) ->
          exists s', descend_loop f' lo false fs d fill1 (u_reset filled) s1 = Ok s' /\ holds 0 s' (fun c => P c \/ fmatch c fs /\ exists m, F m /\ under d m c)).
        { intros f' -> Hf.
          assert (Rew : forall s', holds 0 s' (fun c => (P c \/ fmatch c fs /\ is_element d c /\ (exists p, F p /\ In (p, c) (pchilds d))) \/ fmatch c fs /\ exists m, (is_element d m /\ exists m0, F m0 /\ get_parent m d = m0) /\ under d m c) ->
                    holds 0 s' (fun c => P c \/ fmatch c fs /\ exists m, F m /\ under d m c)).
          { intros s' H. eapply holds_ext; [exact H|]. intros c. cbv beta. rewrite Kid. split.
            - intros [[|(Fm & Ec & m & Fx & Px)]|(Fm & m & (Em' & m0 & F0 & P0) & U)]; [auto| |].
              + right. split; [exact Fm|]. exists m. split; [exact Fx|]. now apply under_child.
              + right. split; [exact Fm|]. exists m0. split; [exact F0|]. apply under_split. right. exists m. auto.
            - intros [|(Fm & m & Fx & U)]; [auto|]. apply under_split in U as [[Ec Pc]|(x & Ex & Px & U)].
              + left. right. split; [exact Fm|]. split; [exact Ec|]. exists m. auto.
              + right. split; [exact Fm|]. exists x. split; [|exact U]. split; [exact Ex|]. exists m. auto. }
          destruct Hf as [Hf|Hf].
          - destruct (IH (S j) fill1 0 _ (u_reset filled) s1 (fun c => P c \/ fmatch c fs /\ is_element d c /\ exists p, F p /\ In (p, c) (pchilds d)) Y1') as (s' & E' & H'); cycle 4.
            + exists s'. split; [exact E'|]. now apply Rew.
            + intros x (Ex & m & Fm & Pm). destruct (Fj m Fm) as [Jm Nm].
              pose proof (child_gt x m Pm Nm). lia.
            + exact Hf.
            + eapply holds_reset; eauto.
            + exact Y2.
          - exists s1. split; [destruct f; cbn [descend_loop]; rewrite Hf; reflexivity|].
            apply Rew. eapply holds_ext; [exact Y2|]. intros c. cbv beta. split; [auto|].
            intros [|(Fm & m & M & U)]; [auto|]. exfalso.
            apply (proj2 Y1') in M. pose proof (uo_len _ _ (proj1 Y1')) as Ll. rewrite Hf in Ll.
            destruct (u_elems fill1); [contradiction|simpl in Ll; lia]. }
        apply (Gen f eq_refl).
        destruct (u_elems filled) as [|x0 l0] eqn:Ef.
        * right. pose proof (uo_len _ _ (proj1 Y1')) as Ll.
          destruct (u_elems fill1) as [|y l1] eqn:E2; [simpl in Ll; lia|].
          assert (M : In y (u_elems fill1)) by (rewrite E2; now left).
          apply (proj2 Y1') in M as (_ & m & Fm & _). apply (proj2 HF) in Fm. rewrite Ef in Fm. contradiction.
        * assert (M : In x0 (u_elems filled)) by (rewrite Ef; now left).
          apply (proj2 HF) in M. destruct (Fj _ M) as [J0 _].
          destruct (Nat.le_gt_cases (length (nodes d)) j) as [Big|Small]; [|left; lia].
          right. pose proof (uo_len _ _ (proj1 Y1')) as Ll.
          destruct (u_elems fill1) as [|y l1] eqn:E2; [simpl in Ll; lia|].
          assert (My : In y (u_elems fill1)) by (rewrite E2; now left).
          apply (proj2 Y1') in My as (Ey & m & Fm & Pm). destruct (Fj m Fm) as [Jm Nm].
          pose proof (child_gt y m Pm Nm). destruct (elem_nz y Ey). lia.
    - exists s. split; [reflexivity|]. eapply holds_ext; [exact Hs|]. intros c. cbv beta. split; [auto|].
      intros [|(Fm & m & Fx & _)]; [assumption|]. exfalso.
      apply (proj2 HF) in Fx. pose proof (uo_len _ _ (proj1 HF)) as Ll. apply Nat.ltb_ge in Em.
      destruct (u_elems filled); [contradiction|simpl in Ll; lia].
  Qed.

  Lemma q_descendants_ok one fs ph s P : holds ph s P ->
    exists s', q_descendants lo one fs d s = Ok s' /\ holds 0 s' (fun c => fmatch c fs /\ exists m, P m /\ (if one then is_element d c /\ get_parent c d = m else under d m c)).
  Proof.
    intros H. unfold q_descendants, u_copy. pose proof H as [O E].
    destruct (descend_ok one fs (S (S (length (nodes d)))) 1 s ph P (u_new (m_exp s)) (u_reset s) (fun _ => False) H)
      as (s' & E' & H').
    - intros x Px. apply E in Px. pose proof (elems_nz _ _ _ O Px). lia.
    - lia.
    - apply holds_new. apply (uo_exp _ _ O).
    - eapply holds_reset; eauto.
    - exists s'. split; [exact E'|]. eapply holds_ext; [exact H'|]. intros c. cbv beta. tauto.
  Qed.

  (** ** One step of a query *)
  Definition comb_rel (c : comb) (P : nat -> Prop) (n : nat) : Prop :=
    match c with
    | CNone => 1 <= n < length (nodes d)
    | CAdjacent => exists m, P m /\ related d NextSib m n
    | CChild => exists m, P m /\ related d Child m n
    | CSibling => exists m, P m /\ related d LaterSib m n
    | CDescendant => exists m, P m /\ related d Descendant m n
    end.
  Lemma q_step_ok c fs ph s P : holds ph s P -> (c = CNone -> ph = 0 /\ forall n, ~ P n) ->
    exists s' ph', q_step lo c fs d s = Ok s' /\ holds ph' s' (fun n => fmatch n fs /\ comb_rel c P n).
  Proof.
    intros H HN. destruct c; cbn [q_step comb_rel related].
    - destruct (HN eq_refl) as [-> NP].
      destruct (q_all_ok fs s) as (s' & p' & E & H').
      + eapply holds_ext; [exact H|]. intros n. split; [apply NP|contradiction].
      + exists s', p'. split; [exact E|]. eapply holds_ext; [exact H'|]. intros n. tauto.
    - destruct (q_adjacents_ok true fs ph s P H) as (s' & E & H'). exists s', 0. auto.
    - destruct (q_descendants_ok true fs ph s P H) as (s' & E & H'). exists s', 0. auto.
    - destruct (q_adjacents_ok false fs ph s P H) as (s' & E & H'). exists s', 0. auto.
    - destruct (q_descendants_ok false fs ph s P H) as (s' & E & H'). exists s', 0. auto.
  Qed.
End Steps.
