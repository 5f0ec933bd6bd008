(** * Properties of queries and of the hash sets (C39-C48, C61). *)
From Coq Require Import String List NArith Arith Bool Lia Permutation.
From Verif Require Import Base TrieModel DomModel ParserModel EditModel ReadModel DomSpec ApiSpec
  MsiModel QueryModel QuerySpec MsiProofs UsetProofs QueryRel QueryBad ReadUser Examples.
Import ListNotations.
Local Open Scope nat_scope.

(** ** C39: the id set is a set. *)
Lemma uset_inserts l : forall s ph, uset_ok s ph -> ph = 0 ->
  (forall v, In v l -> v <> 0 /\ (N.of_nat v < 65536)%N) ->
  exists s', insert_each l s = Ok s' /\ uset_ok s' 0 /\
    forall x, In x (u_elems s') <-> In x l \/ In x (u_elems s).
Proof.
  induction l as [|v l IH]; intros s ph O -> V.
  - exists s. split; [reflexivity|]. split; [exact O|]. simpl. tauto.
  - destruct (V v (or_introl eq_refl)) as [V1 V2].
    destruct (u_insert_ok s 0 v O V1 V2) as (r & s' & ph' & E & O' & L & _ & X).
    assert (ph' = 0) by lia. subst.
    destruct (IH s' 0 O' eq_refl) as (s2 & E2 & O2 & X2); [intros; apply V; now right|].
    exists s2. split; [cbn [insert_each]; rewrite E; exact E2|]. split; [exact O2|].
    intros x. rewrite X2, X. simpl. intuition congruence.
Qed.

Theorem C39_id_set : forall l v,
  (forall x, In x (v :: l) -> x <> 0 /\ (N.of_nat x < 65536)%N) ->
  exists s, insert_each l (u_new start_exp) = Ok s /\
    (exists b, u_contains v s = Ok b /\ (b = true <-> In v l)) /\
    (exists b s', u_insert v s = Ok (b, s') /\ (b = true <-> ~ In v l)) /\
    (exists a, u_to_array s = Ok a /\ NoDup a /\ forall x, In x a <-> In x l).
Proof.
  intros l v V. destruct (uset_new start_exp) as [O Em]; [unfold start_exp; lia|].
  destruct (uset_inserts l _ 0 O eq_refl) as (s & E & O' & X); [intros; apply V; now right|].
  assert (X' : forall x, In x (u_elems s) <-> In x l) by (intros x; rewrite X, Em; simpl; tauto).
  exists s. split; [exact E|]. destruct (V v (or_introl eq_refl)) as [V1 V2].
  split; [|split].
  - destruct (u_wf_contains s 0 v O') as (b & Eb & Q). exists b. now rewrite Q, X'.
  - destruct (u_insert_ok s 0 v O' V1 V2) as (b & s' & ph & Eb & _ & _ & Q & _).
    exists b, s'. now rewrite Q, X'.
  - exists (u_elems s). rewrite (u_array_ok s 0 O'). simpl. rewrite app_nil_r.
    split; [reflexivity|]. split; [apply u_nodup, (uo_wf _ _ O')|exact X'].
Qed.
Print Assumptions C39_id_set.
(** 300 insertions: the set grows from 128 to 1024 slots. *)
Example C39_ex : exists s, insert_each (seq 1 300) (u_new start_exp) = Ok s /\ m_exp s = 10 /\
  u_contains 300 s = Ok true /\ u_contains 301 s = Ok false.
Proof. eexists. split; [vm_compute; reflexivity|]. vm_compute. auto. Qed.

(** ** C61: the string set is a set. *)
Fixpoint string_inserts (l : list bytes) (s : sset) : outcome sset :=
  match l with
  | [] => Ok s
  | v :: l' => let* '(_, s) := s_insert v s in string_inserts l' s
  end.
Lemma s_inserts_ok l : forall s, swf s -> (forall v, In v l -> v <> []) ->
  m_len s = length (s_elems s) -> length l + length (s_elems s) + 1 < 2 ^ m_exp s ->
  exists s', string_inserts l s = Ok s' /\ swf s' /\ m_exp s' = m_exp s /\
    m_len s' = length (s_elems s') /\ length (s_elems s') <= length l + length (s_elems s) /\
    forall x, In x (s_elems s') <-> In x l \/ In x (s_elems s).
Proof.
  induction l as [|v l IH]; intros s W V L C.
  - exists s. split; [reflexivity|]. split; [exact W|]. split; [reflexivity|]. split; [exact L|]. split; [simpl; lia|]. intros x. simpl. tauto.
  - simpl in C. destruct (s_insert_ok s v W (V v (or_introl eq_refl)) ltac:(lia))
      as (r & s1 & E & W1 & X1 & R & T & F).
    assert (P : m_len s1 = length (s_elems s1) /\ length (s_elems s1) <= S (length (s_elems s)) /\
                forall x, In x (s_elems s1) <-> v = x \/ In x (s_elems s)).
    { destruct r.
      - destruct (T eq_refl) as [P M]. rewrite (Permutation_length P). simpl. repeat split; try lia.
        + intros H. apply (Permutation_in _ P) in H. exact H.
        + intros H. apply (Permutation_in _ (Permutation_sym P)). exact H.
      - rewrite (F eq_refl). repeat split; auto. intros [<-|H]; auto.
        destruct (in_dec (list_eq_dec N.eq_dec) v (s_elems s)); auto. apply R in n. discriminate. }
    destruct P as (P1 & P2 & P3).
    destruct (IH s1 W1) as (s2 & E2 & W2 & X2 & L2 & C2 & Q); [intros; apply V; now right|exact P1|rewrite X1; lia|].
    exists s2. split; [cbn [string_inserts]; rewrite E; exact E2|]. split; [exact W2|].
    split; [congruence|]. split; [exact L2|]. split; [simpl; lia|].
    intros x. rewrite Q, P3. simpl. tauto.
Qed.

Theorem C61_string_set : forall l v,
  (forall x, In x (v :: l) -> x <> []) -> length l <= 64 ->
  exists s, string_inserts l (s_new 7) = Ok s /\
    (exists b, s_contains v s = Ok b /\ (b = true <-> In v l)) /\
    (exists b s', s_insert v s = Ok (b, s') /\ (b = true <-> ~ In v l)) /\
    NoDup (s_elems s) /\ (forall x, In x (s_elems s) <-> In x l) /\ m_len s = length (s_elems s).
Proof.
  intros l v V L. destruct (sset_new 7) as (W & E0 & M0); [lia|].
  destruct (s_inserts_ok l (s_new 7) W) as (s & E & W' & X & M & C & Q).
  - intros; apply V; now right.
  - now rewrite E0.
  - rewrite E0. simpl. lia.
  - assert (Q' : forall x, In x (s_elems s) <-> In x l) by (intros x; rewrite Q, E0; simpl; tauto).
    exists s. split; [exact E|]. rewrite E0 in C. simpl in C, X.
    split; [|split; [|split; [apply s_nodup, W'|split; [exact Q'|exact M]]]].
    + destruct (s_contains_ok s v W' (V v (or_introl eq_refl))) as (b & Eb & R).
      exists b. now rewrite R, Q'.
    + destruct (s_insert_ok s v W' (V v (or_introl eq_refl))) as (b & s' & Eb & _ & _ & R & _).
      { rewrite X. simpl. lia. }
      exists b, s'. now rewrite R, Q'.
Qed.
Print Assumptions C61_string_set.
(** Equality of two such sets is extensional. *)
Theorem C61_string_set_equality : forall l1 l2 s1 s2,
  (forall x, In x (l1 ++ l2) -> x <> []) -> length l1 <= 64 -> length l2 <= 64 ->
  string_inserts l1 (s_new 7) = Ok s1 -> string_inserts l2 (s_new 7) = Ok s2 ->
  exists r, s_equals s1 s2 = Ok r /\ (r = HSuccess <-> forall x, In x l1 <-> In x l2).
Proof.
  intros l1 l2 s1 s2 V L1 L2 E1 E2. destruct (sset_new 7) as (W & E0 & M0); [lia|].
  assert (A : forall l, incl l (l1 ++ l2) -> length l <= 64 -> forall s, string_inserts l (s_new 7) = Ok s ->
     swf s /\ m_len s = length (s_elems s) /\ forall x, In x (s_elems s) <-> In x l).
  { intros l I L s E. destruct (s_inserts_ok l (s_new 7) W) as (s' & E' & W' & X & M & C & Q).
    - intros; apply V; auto.
    - now rewrite E0.
    - rewrite E0. simpl. lia.
    - rewrite E in E'. injection E' as <-. split; [exact W'|]. split; [exact M|].
      intros x. rewrite Q, E0. simpl. tauto. }
  destruct (A l1 (incl_appl _ (incl_refl _)) L1 s1 E1) as (W1 & M1 & Q1).
  destruct (A l2 (incl_appr _ (incl_refl _)) L2 s2 E2) as (W2 & M2 & Q2).
  destruct (s_equals_ok s1 s2 W1 W2) as (r & E & R). exists r. split; [exact E|]. rewrite R. split.
  - intros [_ H] x. rewrite <- Q1, <- Q2. apply H.
  - intros H. assert (H' : forall x, In x (s_elems s1) <-> In x (s_elems s2)) by (intros x; rewrite Q1, Q2; apply H).
    split; [|exact H']. rewrite M1, M2.
    apply Nat.le_antisymm; apply NoDup_incl_length; try (apply s_nodup; assumption); intros x; apply H'.
Qed.
Print Assumptions C61_string_set_equality.
Example C61_ex : exists s1 s2 s3, string_inserts [B "a"; B "b"; B "a"] (s_new 7) = Ok s1 /\
  string_inserts [B "b"; B "a"] (s_new 7) = Ok s2 /\ string_inserts [B "b"; B "c"] (s_new 7) = Ok s3 /\
  s_equals s1 s2 = Ok HSuccess /\ s_equals s1 s3 = Ok HContent.
Proof. do 3 eexists. repeat (split; [vm_compute; reflexivity|]). vm_compute. reflexivity. Qed.

(** ** C41: [querySelectorAll] returns the set the selector denotes. *)
Theorem C41_query_selector_all : forall d, reachable d -> forall lo l css,
  list_str l css -> (forall x, In x l -> known d x /\ small x) ->
  exists r, query_selector_all lo css d = Ok (QSuccess, r) /\ NoDup r /\
    forall n, In n r <-> exists x, In x l /\ selects lo d x n.
Proof. exact uq_query. Qed.
Print Assumptions C41_query_selector_all.

Lemma parsed_in_tree t d : create_dom t = Ok (Some d) ->
  forall n, 1 <= n < length (nodes d) -> below_eq d 1 n.
Proof.
  intros E n Hn. destruct (u_create_tree t d E) as [P _].
  destruct (u_preorder d (reach_create _ _ E) 1 ltac:(lia)) as (w & _ & _ & U & Bl).
  apply Bl. rewrite <- (U _ P). apply in_seq. lia.
Qed.
(** For a parsed document the meaning can be told from the tree alone. *)
Theorem C41_query_parsed : forall t d, create_dom t = Ok (Some d) -> forall lo l css,
  no_collision lo d -> list_str l css -> (forall x, In x l -> known d x /\ small x) ->
  exists r, query_selector_all lo css d = Ok (QSuccess, r) /\ NoDup r /\
    forall n, In n r <-> exists x, In x l /\ css_selects d x n.
Proof.
  intros t d E lo l css NC LS K. pose proof (reach_create _ _ E) as R.
  destruct (uq_query d R lo l css LS K) as (r & Q & ND & X). exists r. split; [exact Q|].
  split; [exact ND|]. intros n. rewrite X.
  assert (S : forall x m, selects lo d x m <-> css_selects d x m).
  { intros x m. unfold selects, css_selects.
    apply (select_css d R lo (snd x) NC (parsed_in_tree t d E)).
    - intros y. split; intros [H1 H2]; (split; [exact H1|]);
        apply (matches_css d R lo y (fst x) NC (parsed_in_tree t d E y H1)); exact H2.
    - intros y [H1 _]. exact (parsed_in_tree t d E y H1). }
  split; intros (x & I & H); exists x; (split; [exact I|]); apply S; exact H.
Qed.
Print Assumptions C41_query_parsed.

Ltac all_dec := repeat (apply Forall_cons || apply Forall_nil || (split; [reflexivity|]) || reflexivity || discriminate || split).
Ltac tok := do 2 eexists; split; [reflexivity|]; split; [reflexivity|]; all_dec.
Definition sel1 : selector :=
  ([Tag (B "body")], [(Descendant, [Tag (B "b")])]).
Definition sel2 : selector :=
  ([Tag (B "body"); Attr (B "hidden")], [(Child, [AttrIs (B "id") (B "x")])]).
Lemma sel1_str : selector_str sel1 (B "body b").
Proof.
  exists [], (B "body b"). split; [constructor|]. split; [|reflexivity].
  apply (ts_more _ (B "body") Descendant (B " ") [Tag (B "b")] [] (B "b")).
  - apply (cs_tag (B "body") [] []); [tok|constructor].
  - exists (B " "), []. repeat split; all_dec.
  - apply (ts_last _ (B "b") []); [|constructor]. apply ls_plain.
    apply (cs_tag (B "b") [] []); [tok|constructor].
Qed.
Lemma sel2_str : selector_str sel2 (B " body[hidden]> #x").
Proof.
  exists (B " "), (B "body[hidden]> #x"). split; [all_dec|]. split; [|reflexivity].
  apply (ts_more _ (B "body[hidden]") Child (B "> ") [AttrIs (B "id") (B "x")] [] (B "#x")).
  - apply (cs_tag (B "body") [Attr (B "hidden")] (B "[hidden]")); [tok|].
    apply (br_attr (B "hidden") [] []); [tok|constructor].
  - exists [], (B " "). repeat split; all_dec.
  - apply (ts_last _ (B "#x") []); [|constructor]. apply (ls_id1 (B "x")).
    split; [tok|all_dec].
Qed.
Ltac known_dec := intros ? ? ? ?; repeat match goal with
  | H : In _ (_ :: _) |- _ => destruct H as [<-|H]
  | H : In _ [] |- _ => destruct H
  | H : In _ (compounds _) |- _ => cbn [compounds map fst snd sel1 sel2] in H end;
  repeat match goal with |- _ /\ _ => split end.
Lemma sels_known : forall x, In x [sel1; sel2] -> known ex1 x /\ small x.
Proof.
  intros x [<-|[<-|[]]]; (split; [|intros c [<-|[<-|[]]]; simpl; lia]).
  - intros c s [<-|[<-|[]]] Hs.
    + destruct Hs as [<-|[]]. exists 3. split; [discriminate|reflexivity].
    + destruct Hs as [<-|[]]. exists 5. split; [discriminate|reflexivity].
  - intros c s [<-|[<-|[]]] Hs.
    + destruct Hs as [<-|[<-|[]]].
      * exists 3. split; [discriminate|reflexivity].
      * exists 2. split; [discriminate|reflexivity].
    + destruct Hs as [<-|[]]. split; [exists 2|exists 2]; (split; [discriminate|reflexivity]).
Qed.
Example C41_ex : create_dom (B src1) = Ok (Some ex1) /\ no_collision (fun _ => 0) ex1 /\
  list_str [sel1; sel2] (B "body b, body[hidden]> #x") /\
  (forall x, In x [sel1; sel2] -> known ex1 x /\ small x) /\
  query_selector_all (fun _ => 0) (B "body b, body[hidden]> #x") ex1 = Ok (QSuccess, [5; 7]).
Proof.
  split; [exact ex1_created|]. split; [intros n s _; now left|].
  split. { apply (li_more sel1 (B "body b") [sel2] (B " body[hidden]> #x")); [exact sel1_str|]. apply li_one, sel2_str. }
  split; [exact sels_known|]. vm_compute. reflexivity.
Qed.

(** ** C40: the combinators.  Extending a selector by one combinator and one
    compound gives exactly the nodes that match the compound and are related to
    a node selected before. *)
Lemma select_snoc lo d l r c : forall S n, select lo d S (l ++ [(r, c)]) n <->
  matches lo d n c /\ exists m, select lo d S l m /\ related d r m n.
Proof.
  induction l as [|[r0 c0] l IH]; intros S n; cbn [app select]; [tauto|]. apply IH.
Qed.
Theorem C40_combinators : forall d, reachable d -> forall lo x r c css css',
  list_str [x] css -> list_str [(fst x, snd x ++ [(r, c)])] css' ->
  known d (fst x, snd x ++ [(r, c)]) -> small (fst x, snd x ++ [(r, c)]) ->
  exists l l', query_selector_all lo css d = Ok (QSuccess, l) /\
    query_selector_all lo css' d = Ok (QSuccess, l') /\ NoDup l' /\
    forall n, In n l' <-> matches lo d n c /\ exists m, In m l /\ related d r m n.
Proof.
  intros d R lo x r c css css' L1 L2 K Sm.
  assert (I : incl (compounds x) (compounds (fst x, snd x ++ [(r, c)]))).
  { unfold compounds. cbn [fst snd]. rewrite map_app. intros y [<-|Hy]; [now left|right; apply in_or_app; now left]. }
  destruct (uq_query d R lo [x] css L1) as (l & E & _ & X).
  { intros y [<-|[]]. split; [intros a b Ha Hb; exact (K a b (I _ Ha) Hb)|intros a Ha; exact (Sm a (I _ Ha))]. }
  destruct (uq_query d R lo _ css' L2) as (l' & E' & ND & X').
  { intros y [<-|[]]. now split. }
  exists l, l'. split; [exact E|]. split; [exact E'|]. split; [exact ND|].
  intros n. rewrite X'. split.
  - intros (y & [<-|[]] & H). unfold selects in H. cbn [fst snd] in H. apply select_snoc in H as (H1 & m & H2 & H3).
    split; [exact H1|]. exists m. split; [|exact H3]. apply X. exists x. split; [now left|exact H2].
  - intros (H1 & m & H2 & H3). eexists. split; [left; reflexivity|]. unfold selects. cbn [fst snd]. apply select_snoc.
    split; [exact H1|]. exists m. split; [|exact H3]. apply X in H2 as (y & [<-|[]] & H2). exact H2.
Qed.
Print Assumptions C40_combinators.
(** In the tree, [related] is what CSS says: child elements, element descendants,
    the next sibling, the later siblings. *)
Theorem C40_related_in_tree : forall d, reachable d -> forall r m n,
  below_eq d 1 m -> below_eq d 1 n -> (related d r m n <-> tree_related d r m n).
Proof. exact rel_css. Qed.
Print Assumptions C40_related_in_tree.
(** What a compound asks of a node in the tree. *)
Theorem C40_matches_in_tree : forall d, reachable d -> forall lo n c,
  no_collision lo d -> below_eq d 1 n -> (matches lo d n c <-> css_matches d n c).
Proof. exact matches_css. Qed.
Print Assumptions C40_matches_in_tree.
Example C40_ex : reachable ex1 /\ list_str [([Tag (B "body")], [])] (B "body") /\
  list_str [sel1] (B "body b") /\ known ex1 sel1 /\ small sel1 /\
  query_selector_all (fun _ => 0) (B "body") ex1 = Ok (QSuccess, [4]) /\
  query_selector_all (fun _ => 0) (B "body b") ex1 = Ok (QSuccess, [7]) /\
  query_selector_all (fun _ => 0) (B "p~br") ex1 = Ok (QSuccess, [10]) /\
  query_selector_all (fun _ => 0) (B "p+br") ex1 = Ok (QSuccess, [10]) /\
  query_selector_all (fun _ => 0) (B "body > p") ex1 = Ok (QSuccess, [5]).
Proof.
  split; [exact ex1_reachable|]. split; [|split; [apply li_one, sel1_str|]].
  - apply li_one. exists [], (B "body"). split; [constructor|]. split; [|reflexivity].
    apply (ts_last _ (B "body") []); [|constructor]. apply ls_plain.
    apply (cs_tag (B "body") [] []); [tok|constructor].
  - destruct (sels_known sel1 (or_introl eq_refl)) as [K S]. split; [exact K|]. split; [exact S|].
    vm_compute. repeat split.
Qed.

(** ** C42: totality and safety.  [Ok] excludes every undefined behaviour
    (reading outside the selector, a ninth filter, ...), longjmp and
    non-termination. *)
Theorem C42_query_total : forall d, reachable d -> forall lo css,
  exists st r, query_selector_all lo css d = Ok (st, r) /\ NoDup r /\
    (st <> QSuccess -> r = []) /\ forall n, In n r -> node_id d n.
Proof. exact uq_total. Qed.
Print Assumptions C42_query_total.
(** More than eight filters for one element are reported. *)
Theorem C42_too_many_filters : forall d, reachable d -> forall lo l css,
  list_str l css -> (forall x, In x l -> known d x) -> (exists x, In x l /\ ~ small x) ->
  query_selector_all lo css d = Ok (QTooMany, []).
Proof. exact uq_many. Qed.
Print Assumptions C42_too_many_filters.
(** An attribute selector that is never closed is reported as invalid. *)
Theorem C42_unclosed_bracket : forall lo d tok,
  (forall c, In c tok -> c <> cCOMMA /\ c <> cEQ /\ c <> cRB /\ c <> cDOT /\ c <> cHASH) ->
  query_selector_all lo (cLB :: tok) d = Ok (QInvalid, []).
Proof. exact bad_query. Qed.
Print Assumptions C42_unclosed_bracket.
Example C42_bracket_ex : forall c, In c (B "hidden p") ->
  c <> cCOMMA /\ c <> cEQ /\ c <> cRB /\ c <> cDOT /\ c <> cHASH.
Proof. intros c Hc. simpl in Hc. repeat (destruct Hc as [<-|Hc]; [repeat split; discriminate|]). destruct Hc. Qed.
Example C42_ex : reachable ex1 /\
  query_selector_all (fun _ => 0) (B "[hidden][hidden][hidden][hidden][hidden][hidden][hidden][hidden][hidden]") ex1
    = Ok (QTooMany, []) /\
  query_selector_all (fun _ => 0) (B "  []]] > + ,,") ex1 = Ok (QInvalid, []) /\
  query_selector_all (fun _ => 0) (B ">") ex1 = Ok (QSuccess, []).
Proof. split; [exact ex1_reachable|]. vm_compute. auto. Qed.

(** ** C43: unknown names. *)
Theorem C43_unknown_names : forall d, reachable d -> forall lo l css,
  list_str l css -> (forall x, In x l -> small x) ->
  (exists x c s, In x l /\ In c (compounds x) /\ In s c /\ ~ known1 d s) ->
  query_selector_all lo css d = Ok (QNotSeen, []).
Proof. exact uq_unknown. Qed.
Print Assumptions C43_unknown_names.
(** ... and [querySelector] then leaves its result alone, and the edits through a
    selector do nothing. *)
Theorem C43_unknown_names_effect : forall lo css d, query_selector_all lo css d = Ok (QNotSeen, []) ->
  query_selector lo css d = Ok (QNotSeen, None) /\
  forall f, with_query lo css f d = Ok (0, d).
Proof.
  intros lo css d E. unfold with_query, query_selector. rewrite E. split; reflexivity.
Qed.
Print Assumptions C43_unknown_names_effect.
Example C43_ex : reachable ex1 /\ ~ known1 ex1 (Tag (B "nav")) /\
  query_selector_all (fun _ => 0) (B "body > nav") ex1 = Ok (QNotSeen, []).
Proof.
  split; [exact ex1_reachable|]. split; [|vm_compute; reflexivity].
  intros (i & _ & H). do 8 (destruct i as [|i]; [discriminate H|]). destruct i; discriminate H.
Qed.

(** ** C44: [querySelector].  [Some 0]: no match; [None]: [*result] is not written. *)
Theorem C44_query_selector_first : forall d, reachable d -> forall lo css r w,
  query_selector_all lo css d = Ok (QSuccess, r) -> preorder d 1 w ->
  match r with
  | [] => query_selector lo css d = Ok (QSuccess, Some 0)
  | _ => (exists a n b, w = a ++ n :: b /\ In n r /\ (forall x, In x a -> ~ In x r) /\
            query_selector lo css d = Ok (QSuccess, Some n)) \/
         ((forall x, In x w -> ~ In x r) /\ query_selector lo css d = Ok (QSuccess, None))
  end.
Proof. exact uq_first. Qed.
Print Assumptions C44_query_selector_first.
Example C44_ex : reachable ex1 /\ preorder ex1 1 ([1; 2; 3; 4] ++ 5 :: [6; 7; 8; 9; 10; 11]) /\
  query_selector_all (fun _ => 0) (B "b, p, br") ex1 = Ok (QSuccess, [10; 5; 7]) /\
  query_selector (fun _ => 0) (B "b, p, br") ex1 = Ok (QSuccess, Some 5) /\
  query_selector (fun _ => 0) (B "b > p") ex1 = Ok (QSuccess, Some 0).
Proof.
  split; [exact ex1_reachable|]. split; [simpl; pre_ord|]. vm_compute. auto.
Qed.

(** ** C45: removed nodes in queries. *)
Definition ex1_removed : dom := Eval vm_compute in
  match remove_node 5 ex1 with Ok d => d | _ => ex1 end.
(** The removed paragraph is still found through its attribute, and
    [querySelector] does not write its result. *)
Theorem C45_removed_nodes_refuted : exists d, reachable d /\
  (exists d0, reachable d0 /\ remove_node 5 d0 = Ok d) /\ kind d 5 = Some TRemoved /\
  query_selector_all (fun _ => 0) (B "#x") d = Ok (QSuccess, [5]) /\
  query_selector (fun _ => 0) (B "#x") d = Ok (QSuccess, None).
Proof.
  exists ex1_removed. assert (E : remove_node 5 ex1 = Ok ex1_removed) by (vm_compute; reflexivity).
  split; [|split; [exists ex1; split; [exact ex1_reachable|exact E]|vm_compute; auto]].
  apply (reach_step ex1 [] (Remove 5)); [exact ex1_reachable| |].
  - exists 4, [5; 10; 11]. split; [discriminate|]. split; [kids|]. simpl. auto.
  - exact E.
Qed.
Print Assumptions C45_removed_nodes_refuted.
(** What still holds: after a child or descendant combinator only elements are
    returned. *)
Theorem C45_after_combinator_elements : forall d, reachable d -> forall lo x r c css,
  r = Child \/ r = Descendant ->
  list_str [(fst x, snd x ++ [(r, c)])] css ->
  known d (fst x, snd x ++ [(r, c)]) -> small (fst x, snd x ++ [(r, c)]) ->
  exists l, query_selector_all lo css d = Ok (QSuccess, l) /\
    forall n, In n l -> kind d n = Some TDocument.
Proof.
  intros d R lo x r c css Hr L K S. destruct (uq_query d R lo _ css L) as (l & E & _ & X).
  { intros y [<-|[]]. now split. }
  exists l. split; [exact E|]. intros n Hn. apply X in Hn as (y & [<-|[]] & H).
  unfold selects in H. cbn [fst snd] in H. apply select_snoc in H as (_ & m & _ & H).
  destruct Hr as [-> | ->]; cbn [related] in H.
  - exact (proj1 H).
  - destruct H; assumption.
Qed.
Print Assumptions C45_after_combinator_elements.

(** ** C46: tag queries and text nodes. *)
Theorem C46_tag_query_refuted : exists lo, text_of ex1 9 = Some (B "three") /\
  query_selector_all lo (B "p") ex1 = Ok (QSuccess, [9; 5]).
Proof. exists (fun n => if n =? 9 then 4 else 0). vm_compute. auto. Qed.
Print Assumptions C46_tag_query_refuted.
Theorem C46_tag_query_no_collision : forall t d, create_dom t = Ok (Some d) -> forall lo name css,
  no_collision lo d -> list_str [([Tag name], [])] css -> known1 d (Tag name) ->
  exists r, query_selector_all lo css d = Ok (QSuccess, r) /\
    forall n, In n r <-> node_id d n /\ tag_name d n = Some name.
Proof.
  intros t d E lo name css NC L K.
  destruct (C41_query_parsed t d E lo _ css NC L) as (r & Q & _ & X).
  { intros x [<-|[]]. split.
    - intros c s [<-|[]] [<-|[]]. exact K.
    - intros c [<-|[]]. simpl. lia. }
  exists r. split; [exact Q|]. intros n. rewrite X. unfold css_selects, node_id. split.
  - intros (x & [<-|[]] & H). cbn [fst snd css_select] in H. destruct H as [H1 H2]. split; [lia|].
    exact (H2 (Tag name) (or_introl eq_refl)).
  - intros [H1 H2]. eexists. split; [left; reflexivity|]. cbn [fst snd css_select]. split; [lia|].
    intros s [<-|[]]. exact H2.
Qed.
Print Assumptions C46_tag_query_no_collision.
Example C46_ex : create_dom (B src1) = Ok (Some ex1) /\ no_collision (fun _ => 0) ex1 /\ known1 ex1 (Tag (B "p")) /\
  query_selector_all (fun _ => 0) (B "p") ex1 = Ok (QSuccess, [5]).
Proof.
  split; [exact ex1_created|]. split; [intros n s _; now left|]. split; [|vm_compute; reflexivity].
  exists 4. split; [discriminate|reflexivity].
Qed.

(** ** C47: universal and multi-part selectors. *)
(** "*" returns every node id: elements, text nodes, the root, removed nodes. *)
Theorem C47_star_exact : forall d, reachable d -> forall lo, exists r,
  query_selector_all lo [cSTAR] d = Ok (QSuccess, r) /\ NoDup r /\
  forall n, In n r <-> node_id d n.
Proof. exact uq_star. Qed.
Print Assumptions C47_star_exact.
Definition src2 : string :=
  "<div class=a><p class=b>x</p><i class=a>y</i></div><p class=b>z</p><p class=""a b"">w</p>".
Definition ex2 : dom := Eval vm_compute in the_dom src2.
(** 1 root; 2 div.a; 3 p.b; 4 "x"; 5 i.a; 6 "y"; 7 p.b; 8 "z"; 9 p with class "a b"; 10 "w" *)
Theorem C47_selectors_refuted : create_dom (B src2) = Ok (Some ex2) /\
  (* the filter of "*[..]" is ignored *)
  query_selector_all (fun _ => 0) (B "*.a") ex2 = query_selector_all (fun _ => 0) (B "*") ex2 /\
  (* "div > *" is "div" *)
  query_selector_all (fun _ => 0) (B "div > *") ex2 = Ok (QSuccess, [2]) /\
  (* ".a > p" is ".a" *)
  query_selector_all (fun _ => 0) (B ".a > p") ex2 = Ok (QSuccess, [2; 5]) /\
  (* ".a .b": both on the same element *)
  query_selector_all (fun _ => 0) (B ".a .b") ex2 = Ok (QSuccess, []) /\
  (* ".a.b" is an unknown class *)
  query_selector_all (fun _ => 0) (B ".a.b") ex2 = Ok (QNotSeen, []).
Proof. vm_compute. repeat split. Qed.
Print Assumptions C47_selectors_refuted.

(** ** C48: edits through a selector without match. *)
Theorem C48_no_match_edits_node_0 : forall lo css d f, query_selector_all lo css d = Ok (QSuccess, []) ->
  with_query lo css f d = f 0 d.
Proof. intros lo css d f E. unfold with_query, query_selector. rewrite E. reflexivity. Qed.
Print Assumptions C48_no_match_edits_node_0.
Theorem C48_no_match_refuted : exists d', reachable ex1 /\
  query_selector_all (fun _ => 0) (B "b > p") ex1 = Ok (QSuccess, []) /\
  with_query (fun _ => 0) (B "b > p") (fun p => append_text_node p (B "new")) ex1 = Ok (12, d') /\
  length (nodes ex1) = 12 /\ length (nodes d') = 13 /\ text_of d' 12 = Some (B "new") /\
  preorder d' 1 [1; 2; 3; 4; 5; 6; 7; 8; 9; 10; 11].
Proof.
  eexists. split; [exact ex1_reachable|]. split; [vm_compute; reflexivity|].
  split; [vm_compute; reflexivity|]. split; [reflexivity|]. split; [reflexivity|]. split; [reflexivity|].
  pre_ord.
Qed.
Print Assumptions C48_no_match_refuted.
