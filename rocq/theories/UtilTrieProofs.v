(** * Proofs about the tries of the utility library. *)
From Coq Require Import List NArith Arith Bool Lia Permutation.
From Verif Require Import Base Lemmas TrieModel TrieProofs MsiModel UtilTrieModel.
Import ListNotations.
Local Open Scope nat_scope.

Section Trie.
  Context {K V : Type} (eqk : K -> K -> bool) (eqk_spec : forall a b, eqk a b = true <-> a = b).
  Context (w : N) (W : (2 <= w)%N).

  (** Entries in the order of the iterator. *)
  Fixpoint elems (t : ptrie K V) : list (K * V) :=
    match t with
    | PNil => []
    | PNode k v c0 c1 c2 c3 => (k, v) :: elems c0 ++ elems c1 ++ elems c2 ++ elems c3
    end.

  (** The keys below a node are those whose hash leads there. *)
  Definition step (h : N) : N := N.modulo (N.shiftl h 2) (2 ^ w).
  Definition idx (h : N) : N := N.shiftr h (w - 2).
  Fixpoint placed (H : K -> N) (t : ptrie K V) : Prop :=
    match t with
    | PNil => True
    | PNode k v c0 c1 c2 c3 =>
        (forall e, In e (elems c0) -> fst e <> k /\ idx (H (fst e)) = 0%N) /\
        (forall e, In e (elems c1) -> fst e <> k /\ idx (H (fst e)) = 1%N) /\
        (forall e, In e (elems c2) -> fst e <> k /\ idx (H (fst e)) = 2%N) /\
        (forall e, In e (elems c3) -> fst e <> k /\ idx (H (fst e)) = 3%N) /\
        placed (fun x => step (H x)) c0 /\ placed (fun x => step (H x)) c1 /\
        placed (fun x => step (H x)) c2 /\ placed (fun x => step (H x)) c3
    end.

  Lemma idx_lt h : (h < 2 ^ w)%N -> (idx h < 4)%N.
  Proof.
    intros L. unfold idx. rewrite N.shiftr_div_pow2. apply N.div_lt_upper_bound; [apply N.pow_nonzero; lia|].
    replace (2 ^ (w - 2) * 4)%N with (2 ^ (w - 2) * 2 ^ 2)%N by reflexivity. rewrite <- N.pow_add_r.
    replace (w - 2 + 2)%N with w by lia. exact L.
  Qed.
  Lemma step_lt h : (step h < 2 ^ w)%N.
  Proof. apply N.mod_lt, N.pow_nonzero. lia. Qed.

  Lemma four i : (i < 4)%N -> i = 0%N \/ i = 1%N \/ i = 2%N \/ i = 3%N.
  Proof. lia. Qed.

  Lemma eqk_refl a : eqk a a = true.
  Proof. now apply eqk_spec. Qed.

  (** Insertion. *)
  Lemma pinsert_ok key v t : forall H, placed H t -> (forall x, (H x < 2 ^ w)%N) ->
    exists r t', pinsert eqk w (H key) key v t = Ok (r, t') /\ placed H t' /\
      match r with
      | Some u => t' = t /\ In (key, u) (elems t)
      | None => ~ In key (map fst (elems t)) /\ Permutation ((key, v) :: elems t) (elems t')
      end.
  Proof.
    induction t as [|k u c0 IH0 c1 IH1 c2 IH2 c3 IH3]; intros H P L.
    - exists None. eexists. split; [reflexivity|]. cbn. repeat split; auto; try (intros ? []); tauto.
    - cbn [pinsert]. destruct (eqk key k) eqn:E.
      + apply eqk_spec in E. subst. exists (Some u). eexists. split; [reflexivity|]. split; [exact P|]. split; [reflexivity|]. now left.
      + assert (Nk : key <> k) by (intros ->; rewrite eqk_refl in E; discriminate).
        cbn [placed] in P. destruct P as (A0 & A1 & A2 & A3 & P0 & P1 & P2 & P3).
        assert (Out : forall (c : ptrie K V) j, (forall e, In e (elems c) -> fst e <> k /\ idx (H (fst e)) = j) ->
                 In key (map fst (elems c)) -> idx (H key) = j).
        { intros c j A I. apply in_map_iff in I as (e & <- & I). now apply A. }
        fold (step (H key)). fold (idx (H key)).
        pose proof (fun x => step_lt (H x)) as L'.
        destruct (four _ (idx_lt _ (L key))) as [X|[X|[X|X]]]; rewrite X.
        * destruct (IH0 (fun x => step (H x)) P0 L') as (r & t' & E' & P' & R). rewrite E'. cbn [bind].
          exists r. eexists. split; [reflexivity|]. destruct r as [u'|].
          -- destruct R as [-> I]. split; [cbn [placed]; tauto|]. split; [reflexivity|]. cbn [elems]. right. apply in_or_app. now left.
          -- destruct R as [N Pm]. split.
             ++ cbn [placed]. split; [|tauto]. intros e I. apply (Permutation_in _ (Permutation_sym Pm)) in I.
                destruct I as [<-|I]; [now split|now apply A0].
             ++ split.
                ** cbn [elems map fst]. intros [Q|Q]; [congruence|]. rewrite !map_app, !in_app_iff in Q.
                   destruct Q as [Q|[Q|[Q|Q]]]; [tauto|apply (Out _ _ A1) in Q|apply (Out _ _ A2) in Q|apply (Out _ _ A3) in Q]; congruence.
                ** cbn [elems]. rewrite perm_swap. constructor. rewrite <- Pm. reflexivity.
        * destruct (IH1 (fun x => step (H x)) P1 L') as (r & t' & E' & P' & R). rewrite E'. cbn [bind].
          exists r. eexists. split; [reflexivity|]. destruct r as [u'|].
          -- destruct R as [-> I]. split; [cbn [placed]; tauto|]. split; [reflexivity|]. cbn [elems]. right. rewrite !in_app_iff. auto.
          -- destruct R as [N Pm]. split.
             ++ cbn [placed]. split; [exact A0|]. split; [|tauto]. intros e I. apply (Permutation_in _ (Permutation_sym Pm)) in I.
                destruct I as [<-|I]; [now split|now apply A1].
             ++ split.
                ** cbn [elems map fst]. intros [Q|Q]; [congruence|]. rewrite !map_app, !in_app_iff in Q.
                   destruct Q as [Q|[Q|[Q|Q]]]; [apply (Out _ _ A0) in Q|tauto|apply (Out _ _ A2) in Q|apply (Out _ _ A3) in Q]; congruence.
                ** cbn [elems]. rewrite perm_swap. constructor. rewrite <- Pm. cbn [app]. apply Permutation_middle.
        * destruct (IH2 (fun x => step (H x)) P2 L') as (r & t' & E' & P' & R). rewrite E'. cbn [bind].
          exists r. eexists. split; [reflexivity|]. destruct r as [u'|].
          -- destruct R as [-> I]. split; [cbn [placed]; tauto|]. split; [reflexivity|]. cbn [elems]. right. rewrite !in_app_iff. auto.
          -- destruct R as [N Pm]. split.
             ++ cbn [placed]. split; [exact A0|]. split; [exact A1|]. split; [|tauto]. intros e I. apply (Permutation_in _ (Permutation_sym Pm)) in I.
                destruct I as [<-|I]; [now split|now apply A2].
             ++ split.
                ** cbn [elems map fst]. intros [Q|Q]; [congruence|]. rewrite !map_app, !in_app_iff in Q.
                   destruct Q as [Q|[Q|[Q|Q]]]; [apply (Out _ _ A0) in Q|apply (Out _ _ A1) in Q|tauto|apply (Out _ _ A3) in Q]; congruence.
                ** cbn [elems]. rewrite perm_swap. constructor. rewrite <- Pm. rewrite !app_assoc. cbn [app].
                   rewrite <- app_assoc. cbn [app]. rewrite <- Permutation_middle. now rewrite !app_assoc.
        * destruct (IH3 (fun x => step (H x)) P3 L') as (r & t' & E' & P' & R). rewrite E'. cbn [bind].
          exists r. eexists. split; [reflexivity|]. destruct r as [u'|].
          -- destruct R as [-> I]. split; [cbn [placed]; tauto|]. split; [reflexivity|]. cbn [elems]. right. rewrite !in_app_iff. auto.
          -- destruct R as [N Pm]. split.
             ++ cbn [placed]. do 3 (split; [assumption|]). split; [|tauto]. intros e I. apply (Permutation_in _ (Permutation_sym Pm)) in I.
                destruct I as [<-|I]; [now split|now apply A3].
             ++ split.
                ** cbn [elems map fst]. intros [Q|Q]; [congruence|]. rewrite !map_app, !in_app_iff in Q.
                   destruct Q as [Q|[Q|[Q|Q]]]; [apply (Out _ _ A0) in Q|apply (Out _ _ A1) in Q|apply (Out _ _ A2) in Q|tauto]; congruence.
                ** cbn [elems]. rewrite perm_swap. constructor. rewrite <- Pm. rewrite !app_assoc. apply Permutation_middle.
  Qed.
End Trie.

Lemma djb2_step_lt h c : (djb2_step h c < 2 ^ 64)%N.
Proof. unfold djb2_step, two64. apply N.mod_lt. discriminate. Qed.
Lemma djb2_lt s : (djb2 s < 2 ^ 64)%N.
Proof.
  unfold djb2. destruct s as [|c s] using rev_ind; [reflexivity|]. rewrite fold_left_app. cbn [fold_left]. apply djb2_step_lt.
Qed.

(** ** Iterators *)
Section Iter.
  Context {K V : Type}.
  Implicit Type t : ptrie K V.

  Definition kids t (i : nat) : list (ptrie K V) :=
    match t with PNil => [] | PNode _ _ c0 c1 c2 c3 => skipn i [c0; c1; c2; c3] end.
  Definition todo (e : inode) : list (K * V) :=
    match snd e with
    | 0 => elems (fst e)
    | S i => flat_map elems (kids (fst e) i)
    end.
  Definition left_ (it : iter K V) : list (K * V) := flat_map todo (it_head it).
  Definition ok_node (e : @inode K V) : Prop := fst e <> PNil /\ snd e <= 5.
  Definition cost (e : @inode K V) : nat :=
    match snd e with
    | 0 => 6 * psize (fst e)
    | S i => 5 - i + 6 * list_sum (map psize (kids (fst e) i))
    end.
  Definition work (it : iter K V) : nat := list_sum (map cost (it_head it)).

  Lemma iter_next_ok : forall fuel it, Forall ok_node (it_head it) -> work it < fuel ->
    exists it', iter_next fuel it = Ok (hd_error (left_ it), it') /\ left_ it' = tl (left_ it) /\
      Forall ok_node (it_head it').
  Proof.
    induction fuel as [|f IH]; intros it F L; [lia|]. destruct it as [hd fr]. cbn [iter_next it_head it_free] in *.
    destruct hd as [|[t index] rest].
    - exists (mkIter [] fr). cbn. auto.
    - inversion F as [|? ? [Nt Ni] Fr]; subst. cbn [fst snd] in *. destruct t as [|k v c0 c1 c2 c3]; [congruence|].
      unfold work in L. cbn [it_head map list_sum fold_right] in L. change (fold_right Nat.add 0) with list_sum in L.
      destruct index as [|i].
      + cbn [Nat.eqb pdata bind]. eexists. split; [reflexivity|]. cbn [left_ it_head flat_map todo snd fst elems app tl kids skipn].
        split; [unfold left_; cbn; now rewrite app_nil_r, <- !app_assoc|]. constructor; [split; [discriminate|cbn; lia]|exact Fr].
      + cbn [Nat.eqb]. destruct (Nat.eqb_spec i 4) as [->|Ne].
        * destruct (IH (mkIter rest ((PNode k v c0 c1 c2 c3, 6) :: fr)) Fr) as (it' & E & R).
          { unfold work. cbn [it_head]. unfold cost in L at 1. cbn in L. lia. }
          exists it'. unfold left_ in *. cbn [it_head flat_map] in *. unfold todo at 1 3. cbn [snd fst kids skipn flat_map app]. auto.
        * replace (S i - 1) with i by lia.
          assert (C : exists c, pchild (PNode k v c0 c1 c2 c3) i = Ok c /\
                        kids (PNode k v c0 c1 c2 c3) i = c :: kids (PNode k v c0 c1 c2 c3) (S i)).
          { destruct i as [|[|[|[|i]]]]; cbn; eauto; lia. }
          destruct C as (c & Ec & Ek). rewrite Ec. cbn [bind].
          assert (Td : todo (PNode k v c0 c1 c2 c3, S i) = elems c ++ todo (PNode k v c0 c1 c2 c3, S (S i))).
          { unfold todo. cbn [snd fst]. now rewrite Ek. }
          assert (Cs : cost (PNode k v c0 c1 c2 c3, S i) = 1 + 6 * psize c + cost (PNode k v c0 c1 c2 c3, S (S i))).
          { unfold cost. cbn [snd fst]. rewrite Ek. cbn [map list_sum fold_right]. change (fold_right Nat.add 0) with list_sum. lia. }
          rewrite Cs in L.
          assert (Ok1 : ok_node (PNode k v c0 c1 c2 c3, S (S i))) by (split; [discriminate|cbn; lia]).
          unfold left_. cbn [it_head flat_map]. rewrite Td.
          destruct c as [|k' v' d0 d1 d2 d3].
          -- destruct (IH (mkIter ((PNode k v c0 c1 c2 c3, S (S i)) :: rest) fr)) as (it' & E & R).
             { constructor; auto. }
             { unfold work. cbn [it_head map list_sum fold_right]. change (fold_right Nat.add 0) with list_sum. lia. }
             exists it'. exact (conj E R).
          -- set (c := PNode k' v' d0 d1 d2 d3) in *. destruct fr as [|z fr].
             ++ destruct (IH (mkIter ((c, 0) :: (PNode k v c0 c1 c2 c3, S (S i)) :: rest) [])) as (it' & E & R).
                { constructor; [split; [discriminate|cbn; lia]|]. constructor; auto. }
                { unfold work. cbn [it_head map list_sum fold_right]. change (fold_right Nat.add 0) with list_sum.
                  unfold cost at 1. cbn [snd fst]. lia. }
                exists it'. rewrite <- app_assoc. exact (conj E R).
             ++ destruct (IH (mkIter ((c, 0) :: (PNode k v c0 c1 c2 c3, S (S i)) :: rest) fr)) as (it' & E & R).
                { constructor; [split; [discriminate|cbn; lia]|]. constructor; auto. }
                { unfold work. cbn [it_head map list_sum fold_right]. change (fold_right Nat.add 0) with list_sum.
                  unfold cost at 1. cbn [snd fst]. lia. }
                exists it'. rewrite <- app_assoc. exact (conj E R).
  Qed.

  Lemma cost_le e : ok_node e -> cost e <= 7 * psize (fst e).
  Proof.
    intros [N L]. destruct e as [[|k v c0 c1 c2 c3] i]; [cbn in N; congruence|]. unfold cost. cbn [fst snd] in *.
    destruct i as [|[|[|[|[|[|i]]]]]]; cbn [kids skipn map list_sum fold_right psize]; lia.
  Qed.
  Lemma iter_step_ok it : Forall ok_node (it_head it) ->
    exists it', iter_step it = Ok (hd_error (left_ it), it') /\ left_ it' = tl (left_ it) /\
      Forall ok_node (it_head it').
  Proof.
    intros F. apply iter_next_ok; [exact F|]. unfold iter_fuel, work. apply le_n_S.
    induction F as [|e l He _ IH]; [reflexivity|]. cbn [map list_sum fold_right].
    change (fold_right Nat.add 0) with list_sum. pose proof (cost_le e He). lia.
  Qed.
  Lemma iter_run_ok n : forall it, Forall ok_node (it_head it) ->
    iter_run n it = Ok (firstn n (map Some (left_ it) ++ repeat None n)).
  Proof.
    induction n as [|n IH]; intros it F; [reflexivity|]. cbn [iter_run].
    destruct (iter_step_ok it F) as (it' & E & L & F'). rewrite E. cbn [bind]. rewrite (IH it' F'), L. cbn [bind].
    f_equal. destruct (left_ it) as [|x l]; cbn [hd_error tl map app repeat firstn]; [reflexivity|]. f_equal.
    clear. revert n. assert (G : forall (l : list (option (K * V))) n m, n <= m -> firstn n (l ++ repeat None m) = firstn n (l ++ repeat None n)).
    { induction l0 as [|y l0 IHl]; intros n m Lm; cbn [app].
      - revert m Lm. induction n as [|n IHn]; intros m Lm; [reflexivity|]. destruct m as [|m]; [lia|]. cbn [repeat firstn].
        f_equal. rewrite IHn by lia. reflexivity.
      - destruct n as [|n]; [reflexivity|]. cbn [firstn]. f_equal. rewrite (IHl n m) by lia. symmetry. apply IHl. lia. }
    intros n. symmetry. apply (G (map Some l) n (S n)). lia.
  Qed.
  Lemma iter_new_ok t n : iter_run n (iter_new t) = Ok (firstn n (map Some (elems t) ++ repeat None n)).
  Proof.
    assert (F : Forall ok_node (it_head (iter_new t))).
    { destruct t; constructor; [|constructor]. split; [discriminate|cbn; lia]. }
    rewrite (iter_run_ok n _ F). destruct t; unfold left_; cbn [iter_new it_head flat_map todo snd fst]; now rewrite ?app_nil_r.
  Qed.
End Iter.

Lemma elems_chain l : forall v, elems (of_trie (chain l v)) = combine l (seq v (length l)).
Proof.
  induction l as [|k l IH]; intros v; [reflexivity|]. cbn [chain of_trie elems length seq combine]. now rewrite IH, !app_nil_r.
Qed.

(** ** Histories *)
Lemma lxor_lt a b n : (a < 2 ^ n -> b < 2 ^ n -> N.lxor a b < 2 ^ n)%N.
Proof.
  intros A B. destruct (N.eq_dec (N.lxor a b) 0) as [->|Z]; [apply N.neq_0_lt_0, N.pow_nonzero; discriminate|].
  apply N.log2_lt_pow2; [lia|]. pose proof (N.log2_lxor a b) as L.
  destruct (N.eq_dec a 0) as [->|Na]; destruct (N.eq_dec b 0) as [->|Nb]; rewrite ?N.lxor_0_l, ?N.lxor_0_r in *.
  - congruence.
  - apply N.log2_lt_pow2; lia.
  - apply N.log2_lt_pow2; lia.
  - apply N.log2_lt_pow2 in A; [|lia]. apply N.log2_lt_pow2 in B; [|lia]. lia.
Qed.
Lemma shiftr_lt a k n : (a < 2 ^ n -> N.shiftr a k < 2 ^ n)%N.
Proof.
  intros A. rewrite N.shiftr_div_pow2. eapply N.le_lt_trans; [|exact A].
  apply N.div_le_upper_bound; [apply N.pow_nonzero; discriminate|].
  rewrite <- (N.mul_1_l a) at 1. apply N.mul_le_mono_r. pose proof (N.pow_nonzero 2 k). lia.
Qed.
Lemma hash16_lt x : (hash16 x < 2 ^ 16)%N.
Proof.
  unfold hash16. assert (U : forall y, (u16 y < 2 ^ 16)%N) by (intros y; apply N.mod_lt; discriminate).
  apply lxor_lt; [|apply shiftr_lt]; apply U.
Qed.

Section Runs.
  Context {K V : Type} (eqk : K -> K -> bool) (eqk_spec : forall a b, eqk a b = true <-> a = b).
  Context (w : N) (W : (2 <= w)%N) (H : K -> N) (L : forall k, (H k < 2 ^ w)%N).

  Definition lookup_first (k : K) (p : list (K * V)) : option V :=
    match find (fun e => eqk (fst e) k) p with Some e => Some (snd e) | None => None end.
  Record rep (t : ptrie K V) (p : list (K * V)) : Prop := {
    rep_placed : placed w H t;
    rep_nodup : NoDup (map fst (elems t));
    rep_elems : forall k v, In (k, v) (elems t) <-> lookup_first k p = Some v }.

  Lemma lookup_none k p : lookup_first k p = None <-> ~ In k (map fst p).
  Proof.
    unfold lookup_first. destruct (find _ p) as [e|] eqn:F.
    - apply find_some in F as [I E]. apply eqk_spec in E. split; [discriminate|]. intros N. exfalso. apply N.
      subst k. now apply in_map.
    - split; [|reflexivity]. intros _ I. apply in_map_iff in I as (e & E & I). apply find_none with (x := e) in F; [|exact I].
      subst k. cbn in F. rewrite (proj2 (eqk_spec _ _) eq_refl) in F. discriminate.
  Qed.
  Lemma lookup_snoc k p e : lookup_first k (p ++ [e]) =
    match lookup_first k p with Some v => Some v | None => if eqk (fst e) k then Some (snd e) else None end.
  Proof.
    unfold lookup_first. induction p as [|x p IH]; cbn [find app]; [destruct (eqk (fst e) k); reflexivity|].
    destruct (eqk (fst x) k); [reflexivity|exact IH].
  Qed.

  Lemma rep_nil : rep PNil [].
  Proof. split; cbn; [exact I|constructor|]. intros k v. split; [tauto|discriminate]. Qed.

  Lemma insert_rep t p k v : rep t p -> exists t', pinsert eqk w (H k) k v t = Ok (lookup_first k p, t') /\ rep t' (p ++ [(k, v)]).
  Proof.
    intros [P D E]. destruct (pinsert_ok eqk eqk_spec w W k v t H P L) as (r & t' & Q & P' & R).
    destruct r as [u|].
    - destruct R as [-> I]. apply E in I. exists t. rewrite I. split; [exact Q|]. split; auto. intros k' v'.
      rewrite lookup_snoc, E. cbn [fst snd]. destruct (lookup_first k' p) as [x|] eqn:X; [tauto|].
      destruct (eqk k k') eqn:Y; [|tauto]. apply eqk_spec in Y. congruence.
    - destruct R as [N Pm].
      assert (X : lookup_first k p = None).
      { destruct (lookup_first k p) as [u|] eqn:Y; [|reflexivity]. apply E in Y. exfalso. apply N.
        apply in_map_iff. exists (k, u). auto. }
      exists t'. rewrite X. split; [exact Q|]. split; [exact P'| |].
      + apply (Permutation_NoDup (Permutation_map fst Pm)). cbn [map fst]. now constructor.
      + intros k' v'. rewrite lookup_snoc. cbn [fst snd]. split.
        * intros I. apply (Permutation_in _ (Permutation_sym Pm)) in I. destruct I as [[= <- <-]|I].
          -- now rewrite X, (proj2 (eqk_spec _ _) eq_refl).
          -- apply E in I. now rewrite I.
        * intros I. apply (Permutation_in _ Pm). destruct (lookup_first k' p) as [x|] eqn:Y.
          -- right. apply E. congruence.
          -- destruct (eqk k k') eqn:Z; [|discriminate]. apply eqk_spec in Z. left. congruence.
  Qed.

  (** Any fold of insertions that reports [out] of what was found. *)
  Fixpoint runs {R : Type} (out : option V -> R) (kvs : list (K * V)) (t : ptrie K V) : outcome (list R * ptrie K V) :=
    match kvs with
    | [] => Ok ([], t)
    | (k, v) :: kvs' =>
        let* '(r, t) := pinsert eqk w (H k) k v t in
        let* '(rs, t) := runs out kvs' t in Ok (out r :: rs, t)
    end.
  Lemma runs_ok {R} (out : option V -> R) : forall kvs t p, rep t p ->
    exists rs t', runs out kvs t = Ok (rs, t') /\ rep t' (p ++ kvs) /\ length rs = length kvs /\
      forall i k v, nth_error kvs i = Some (k, v) ->
        nth_error rs i = Some (out (lookup_first k (p ++ firstn i kvs))).
  Proof.
    induction kvs as [|[k v] kvs IH]; intros t p Rp; cbn [runs].
    - exists [], t. rewrite app_nil_r. repeat split; auto; try apply Rp. intros [|i]; discriminate.
    - destruct (insert_rep t p k v Rp) as (t1 & E & R1). rewrite E. cbn [bind].
      destruct (IH t1 _ R1) as (rs & t2 & E2 & R2 & Ln & Nt). rewrite E2. cbn [bind].
      eexists _, t2. split; [reflexivity|]. rewrite <- app_assoc in R2. split; [exact R2|]. split; [cbn; now rewrite Ln|].
      intros [|i] k' v' Hn; cbn [nth_error firstn] in *.
      + injection Hn as <- <-. now rewrite app_nil_r.
      + rewrite (Nt i k' v' Hn), <- app_assoc. reflexivity.
  Qed.
  Lemma rep_iter t p : rep t p -> exists l, Permutation l (elems t) /\ NoDup (map fst l) /\
    (forall k v, In (k, v) l <-> lookup_first k p = Some v) /\
    forall n, iter_run n (iter_new t) = Ok (firstn n (map Some l ++ repeat None n)).
  Proof.
    intros [P D E]. exists (elems t). split; [reflexivity|]. split; [exact D|]. split; [exact E|]. intros n. apply iter_new_ok.
  Qed.
End Runs.

Lemma string_set_runs ks t :
  string_set_run ks t = runs beq 64 djb2 (fun r => match r with None => true | Some _ => false end) (map (fun k => (k, tt)) ks) t.
Proof.
  revert t. induction ks as [|k ks IH]; intros t; [reflexivity|]. cbn [string_set_run map runs]. unfold string_set_insert.
  destruct (pinsert beq 64 (djb2 k) k tt t) as [[r t1]| | |]; cbn [bind]; [|reflexivity..]. now rewrite IH.
Qed.
Lemma uint16_set_runs ks t :
  uint16_set_run ks t = runs N.eqb 16 hash16 (fun r => match r with None => true | Some _ => false end) (map (fun k => (k, tt)) ks) t.
Proof.
  revert t. induction ks as [|k ks IH]; intros t; [reflexivity|]. cbn [uint16_set_run map runs]. unfold uint16_set_insert.
  destruct (pinsert N.eqb 16 (hash16 k) k tt t) as [[r t1]| | |]; cbn [bind]; [|reflexivity..]. now rewrite IH.
Qed.
Lemma string_map_runs ks t :
  string_map_run ks t = runs beq 64 djb2 (fun r => match r with None => 1%N | Some u => u end) ks t.
Proof.
  revert t. induction ks as [|[k v] ks IH]; intros t; [reflexivity|]. cbn [string_map_run runs]. unfold string_map_insert.
  destruct (pinsert beq 64 (djb2 k) k v t) as [[r t1]| | |]; cbn [bind]; [|reflexivity..]. now rewrite IH.
Qed.
