(** * What the read functions return on every reachable DOM. *)
From Coq Require Import List NArith Arith Bool Lia.
From Verif Require Import Base TrieModel DomModel ParserModel EditModel ReadModel DomSpec ApiSpec
  Lemmas TrieProofs Tables Inv Surgery Link RegProofs ParseSafe ParseTree ParseLoop Walk
  EditProofs EditOps AttrProofs ApiProofs NoJump EditUser Grow.
Import ListNotations.
Local Open Scope nat_scope.

(** ** The parser *)

Lemma create_safe t : safe (ends_quote t) (fun r => forall d, r = Some d -> reachable d) (create_dom t).
Proof.
  destruct (create_dom t) as [r| | |] eqn:E.
  - intros d ->. econstructor; eauto.
  - pose proof (parse_root_ok t) as H. unfold create_dom in E.
    destruct (parse_root t empty_dom); try discriminate; auto.
    + simpl in E. destruct a; discriminate.
    + simpl in E. injection E as <-. exact H.
  - exact I.
  - pose proof (parse_root_ok t) as H. unfold create_dom in E.
    destruct (parse_root t empty_dom); try discriminate; auto. simpl in E. destruct a; discriminate.
Qed.
Lemma u_create_terminates t : create_dom t <> NoFuel.
Proof. intros E. pose proof (create_safe t) as H. rewrite E in H. exact H. Qed.
Lemma u_create_ub t u : create_dom t = Undef u -> u = NegLen /\ ends_quote t.
Proof.
  intros E. pose proof (create_safe t) as H. rewrite E in H. destruct u; simpl in H; try easy.
Qed.
Lemma u_create_total t : (N.of_nat (length t) <= 65533)%N -> ~ ends_quote t ->
  exists r, create_dom t = Ok r.
Proof.
  intros L Q. pose proof (create_safe t) as H. pose proof (nj_create_dom t L) as J.
  destruct (create_dom t) as [r|u| |]; [eauto|destruct u; simpl in H; tauto|destruct J|destruct H].
Qed.

Lemma u_create_tree t d : create_dom t = Ok (Some d) ->
  preorder d 1 (seq 1 (length (nodes d) - 1)) /\ dom_walk d 1 (seq 2 (length (nodes d) - 2)).
Proof.
  intros E. destruct (create_good t d E) as [k P].
  pose proof (g_inv _ _ (pw_good _ _ _ _ _ _ P)) as HI. pose proof (pw_pre _ _ _ _ _ _ P) as HP.
  pose proof (pw_n _ _ _ _ _ _ P) as HN.
  split.
  - apply (preorder_iff d k); [exact HI|lia|].
    rewrite pre_eq by (apply (inv_kw _ _ HI) || lia). rewrite HP.
    replace (length (nodes d) - 1) with (S (length (nodes d) - 2)) by lia. reflexivity.
  - rewrite <- HP. apply traverse_dom_tree, HI.
Qed.
Lemma u_create_text t d n s : create_dom t = Ok (Some d) -> text_of d n = Some s -> normP s.
Proof.
  intros E H. destruct (create_good t d E) as [k P]. apply (pw_text _ _ _ _ _ _ P n s); [|exact H].
  destruct n as [|[|n]]; try lia.
  - pose proof (ty_zero _ _ (g_ty _ _ (pw_good _ _ _ _ _ _ P))) as Z. unfold kind, text_of in *.
    destruct (nth_error (nodes d) 0) as [[i ty pay]|]; [|discriminate]. injection Z as ->. discriminate.
  - pose proof (ty_one _ _ (g_ty _ _ (pw_good _ _ _ _ _ _ P))) as Z. unfold kind, text_of in *.
    destruct (nth_error (nodes d) 1) as [[i ty pay]|]; [|discriminate]. injection Z as ->. discriminate.
Qed.
Lemma u_create_leaf t d n tag : create_dom t = Ok (Some d) -> tag_name d n = Some tag ->
  leaf_tag tag -> children d n [].
Proof.
  intros E H L. destruct (create_good t d E) as [k P].
  pose proof (pw_good _ _ _ _ _ _ P) as G. apply (kc _ k); [exact G|].
  destruct (k (Par n)) eqn:K; [reflexivity|].
  destruct (le_lt_dec 2 n) as [H2|H2].
  - destruct (pw_leaf _ _ _ _ _ _ P n H2) as (tag' & T & NL); [rewrite K; discriminate|].
    rewrite H in T. injection T as <-. contradiction.
  - destruct n as [|[|n]]; try lia.
    + pose proof (ty_zero _ _ (g_ty _ _ G)) as Z. unfold kind, tag_name in *.
      destruct (nth_error (nodes d) 0) as [[i ty pay]|]; [|discriminate]. injection Z as ->. discriminate.
    + pose proof (ty_one _ _ (g_ty _ _ G)) as Z. unfold kind, tag_name in *.
      destruct (nth_error (nodes d) 1) as [[i ty pay]|]; [|discriminate]. injection Z as ->. discriminate.
Qed.
Lemma u_create_text_leaf t d n s : create_dom t = Ok (Some d) -> text_of d n = Some s -> children d n [].
Proof.
  intros E H. destruct (create_good t d E) as [k P].
  pose proof (pw_good _ _ _ _ _ _ P) as G. apply (kc _ k); [exact G|].
  destruct (k (Par n)) eqn:K; [reflexivity|].
  assert (2 <= n).
  { destruct n as [|[|n]]; try lia.
    - pose proof (ty_zero _ _ (g_ty _ _ G)) as Z. unfold kind, text_of in *.
      destruct (nth_error (nodes d) 0) as [[i ty pay]|]; [|discriminate]. injection Z as ->. discriminate.
    - pose proof (ty_one _ _ (g_ty _ _ G)) as Z. unfold kind, text_of in *.
      destruct (nth_error (nodes d) 1) as [[i ty pay]|]; [|discriminate]. injection Z as ->. discriminate. }
  destruct (pw_leaf _ _ _ _ _ _ P n) as (tag' & T & NL); [auto|rewrite K; discriminate|].
  unfold tag_name, text_of in *. destruct (nth_error (nodes d) n) as [[i [] []]|]; discriminate.
Qed.

(** ** Registries *)
Lemma reg_interns reg m : reg_ok reg m -> interns reg (fun s => map_contains s m).
Proof.
  intros R. split.
  - intros s. destruct (reg_find reg m s R) as (id & E & L & H). exists id. split; [exact E|]. split.
    + intros N. assert (F : nth id reg [] = s) by (apply (H id N L); reflexivity). rewrite <- F. now apply nth_error_nth'.
    + intros -> i Ni F. assert (i < length reg) by (apply nth_error_Some; congruence).
      apply (@nth_error_nth bytes _ _ _ []) in F. apply (H i Ni) in F; auto.
  - intros i Ni L. exists (nth i reg []). split; [apply nth_error_nth'; exact L|].
    destruct (reg_find reg m (nth i reg []) R) as (id & E & L' & H). rewrite E. f_equal. symmetry.
    apply (H i Ni L). reflexivity.
Qed.

Lemma later_reachable d d' : later d d' -> reachable d -> reachable d'.
Proof. induction 1; intros R; [exact R|]. apply IHlater. eapply reach_step; eauto. Qed.
Lemma later_grows d d' : later d d' -> grows d d'.
Proof.
  induction 1 as [|d bl o d1 d' V E L IH]; [apply grows_refl|]. eapply grows_trans; [|exact IH].
  pose proof (g_run bl o d) as G. rewrite E in G. exact G.
Qed.

Lemma interns_stable reg m reg' m' s id x : reg_ok reg m -> reg_ok reg' m' -> reg' = reg ++ x ->
  map_contains s m = Ok id -> id <> 0 -> map_contains s m' = Ok id /\ nth_error reg' id = Some s.
Proof.
  intros R R' -> E N. apply reg_interns in R. destruct (proj1 R s) as (id0 & E0 & F & _).
  rewrite E in E0. injection E0 as <-. specialize (F N).
  assert (F' : nth_error (reg ++ x) id = Some s).
  { rewrite nth_error_app1; [exact F|]. apply nth_error_Some. congruence. }
  split; [|exact F']. apply reg_interns in R'. destruct (proj2 R' id N) as (s' & Es & M).
  { apply nth_error_Some. congruence. }
  rewrite F' in Es. injection Es as <-. exact M.
Qed.

Section Reach.
  Context (d : dom) (R : reachable d).

  Lemma u_interns :
    interns (map t_name (tag_reg d)) (fun s => map_contains s (tag_map d)) /\
    interns (bool_reg d) (fun s => map_contains s (bool_map d)) /\
    interns (key_reg d) (fun s => map_contains s (key_map d)) /\
    interns (val_reg d) (fun s => map_contains s (val_map d)).
  Proof.
    destruct (reachable_good d R) as [k G]. pose proof (g_reg _ _ G) as RI. split; [|split; [|split]].
    all: first [apply (reg_interns _ _ (ri_tag _ RI))|apply (reg_interns _ _ (ri_bool _ RI))
               |apply (reg_interns _ _ (ri_key _ RI))|apply (reg_interns _ _ (ri_val _ RI))].
  Qed.

  Lemma u_stable d' s id : later d d' -> id <> 0 ->
    (map_contains s (tag_map d) = Ok id ->
       map_contains s (tag_map d') = Ok id /\ nth_error (map t_name (tag_reg d')) id = Some s) /\
    (map_contains s (bool_map d) = Ok id ->
       map_contains s (bool_map d') = Ok id /\ nth_error (bool_reg d') id = Some s) /\
    (map_contains s (key_map d) = Ok id ->
       map_contains s (key_map d') = Ok id /\ nth_error (key_reg d') id = Some s) /\
    (map_contains s (val_map d) = Ok id ->
       map_contains s (val_map d') = Ok id /\ nth_error (val_reg d') id = Some s).
  Proof.
    intros L N. destruct (reachable_good d R) as [k G].
    destruct (reachable_good d' (later_reachable _ _ L R)) as [k' G'].
    destruct (later_grows _ _ L) as [((x1 & E1) & (x2 & E2) & (x3 & E3) & (x4 & E4)) _].
    pose proof (g_reg _ _ G) as A. pose proof (g_reg _ _ G') as B.
    split; [|split; [|split]]; intros H.
    all: first
      [ apply (interns_stable _ _ _ _ s id (map t_name x1) (ri_tag _ A) (ri_tag _ B));
        [rewrite E1; apply map_app|exact H|exact N]
      | apply (interns_stable _ _ _ _ s id x2 (ri_bool _ A) (ri_bool _ B) E2 H N)
      | apply (interns_stable _ _ _ _ s id x3 (ri_key _ A) (ri_key _ B) E3 H N)
      | apply (interns_stable _ _ _ _ s id x4 (ri_val _ A) (ri_val _ B) E4 H N) ].
  Qed.

  Lemma u_limits :
    (N.of_nat (length (nodes d)) <= 65535)%N /\ (N.of_nat (length (tag_reg d)) <= 65536)%N /\
    (N.of_nat (length (bool_reg d)) <= 65536)%N /\ (N.of_nat (length (key_reg d)) <= 65536)%N /\
    (N.of_nat (length (val_reg d)) <= 65536)%N.
  Proof.
    destruct (reachable_good d R) as [k G]. pose proof (g_reg _ _ G) as A.
    destruct (reachable_small d R) as (H1 & H2 & H3 & H4 & H5).
    pose proof (reg_ident _ _ (ri_tag _ A)) as T1. rewrite map_length in T1.
    pose proof (reg_ident _ _ (ri_bool _ A)). pose proof (reg_ident _ _ (ri_key _ A)).
    pose proof (reg_ident _ _ (ri_val _ A)). repeat split; lia.
  Qed.
  Lemma u_ids i x : nth_error (nodes d) i = Some x -> n_id x = i.
  Proof. destruct (reachable_good d R) as [k G]. apply (inv_ids _ _ (g_inv _ _ G)). Qed.

  (** ** Navigation *)
  Lemma u_children p : exists l, children d p l /\ NoDup l /\
     (forall l', children d p l' -> l' = l) /\
     (forall c, In c l -> 1 <= p < c /\ c < length (nodes d) /\
        (kind d c = Some TDocument \/ kind d c = Some TText)) /\
     (forall c q m, In c l -> children d q m -> In c m -> q = p).
  Proof.
    destruct (reachable_good d R) as [k G]. pose proof (inv_kw _ _ (g_inv _ _ G)) as W.
    exists (k (Par p)). split; [now apply (kc _ k)|]. split; [apply (kw_nodup _ _ W)|]. split.
    { intros l' H. now apply (kc _ k) in H. }
    split.
    - intros c H. pose proof (kw_order _ _ W _ _ H). pose proof (kw_bound _ _ W _ _ H) as B.
      split; [lia|]. split; [lia|].
      destruct (nth_error (nodes d) c) as [x|] eqn:E.
      + destruct (ty_kids _ _ (g_ty _ _ G) _ _ _ H E) as [T|T]; unfold kind; rewrite E, T; auto.
      + apply nth_error_None in E. lia.
    - intros c q m H Hm I. apply (kc _ k) in Hm; [|exact G]. subst m.
      pose proof (kw_disj _ _ W _ _ _ H I) as X. injection X as ->. reflexivity.
  Qed.
  Lemma u_nav p l1 c l2 : children d p (l1 ++ c :: l2) ->
    get_parent c d = p /\ get_next c d = hd 0 l2 /\ get_previous c d = last l1 0 /\
    get_first_child p d = hd 0 (l1 ++ c :: l2) /\ get_last_next c d = Ok (last l2 c).
  Proof.
    intros H. destruct (reachable_good d R) as [k G]. pose proof (g_inv _ _ G) as HI.
    apply (kc _ k) in H; [|exact G]. symmetry in H.
    assert (Hc : In c (k (Par p))) by (rewrite H; apply in_elt).
    pose proof (kw_order _ _ (inv_kw _ _ HI) _ _ Hc) as O.
    split; [apply (get_parent_at HI _ _ Hc)|].
    split. { rewrite (get_next_at HI _ _ _ _ H). now destruct l2. }
    split. { rewrite (get_previous_at HI _ _ _ _ H). clear H Hc O.
      induction l1 as [|x l1 IH] using rev_ind; [reflexivity|].
      rewrite last_error_snoc, List.last_last. reflexivity. }
    split. { rewrite (get_first_child_at HI) by lia. rewrite H. destruct l1; reflexivity. }
    apply (get_last_next_at HI _ _ _ _ H).
  Qed.
  Lemma last_node_loop k (HI : Inv d k) q l2 : forall fuel l1 c a z i,
    k q = l1 ++ c :: l2 ++ [z] -> length l2 <= fuel -> a = last l2 c ->
    nth_error (nexts d) i = Some (c, hd z l2) ->
    exists j, last_next_node_loop fuel i d = Ok j /\ nth_error (nexts d) j = Some (a, z).
  Proof.
    induction l2 as [|b l2 IH]; intros fuel l1 c a z i E Hf -> Hi.
    - exists i. split; [|exact Hi]. simpl in *.
      pose proof (next_at HI q (l1 ++ [c]) z []) as H. rewrite <- app_assoc in H. specialize (H E). simpl in H.
      destruct fuel; simpl; rewrite (at_idx_nth _ _ _ Hi); cbn [snd]; now rewrite H.
    - simpl in *. destruct fuel as [|f]; [lia|].
      pose proof (next_at HI q (l1 ++ [c]) b (l2 ++ [z])) as H. rewrite <- app_assoc in H. specialize (H E).
      assert (HX : exists j, next_idx b d = Some j /\ nth_error (nexts d) j = Some (b, hd z l2)).
      { destruct l2; exact H. }
      destruct HX as (j & Ej & Nj). cbn [last_next_node_loop]. rewrite (at_idx_nth _ _ _ Hi). cbn [snd]. rewrite Ej.
      destruct (IH f (l1 ++ [c]) b (last l2 b) z j) as (j' & E1 & E2); auto; [now rewrite <- app_assoc|lia|].
      exists j'. split; auto. rewrite E2. f_equal. f_equal. destruct l2 as [|x l2]; auto.
      clear. revert x. induction l2; intros; simpl in *; auto.
  Qed.
  Lemma u_last_next_node p l1 z : children d p (l1 ++ [z]) ->
    get_last_next_node z d = Ok None /\
    (forall l0 a c, l1 = l0 ++ [a] -> In c l1 ->
       exists i, get_last_next_node c d = Ok (Some i) /\ nth_error (nexts d) i = Some (a, z)).
  Proof.
    intros H. destruct (reachable_good d R) as [k G]. pose proof (g_inv _ _ G) as HI.
    apply (kc _ k) in H; [|exact G]. symmetry in H. unfold get_last_next_node. split.
    { pose proof (next_at HI _ _ _ _ H) as Hx. simpl in Hx. now rewrite Hx. }
    intros l0 a c El Hc. apply in_split in Hc as (m1 & m2 & Em).
    assert (Hk : k (Par p) = m1 ++ c :: m2 ++ [z]).
    { rewrite H, Em, <- app_assoc. reflexivity. }
    assert (Ha : a = last m2 c).
    { rewrite El in Em. clear -Em. destruct m2 as [|y m2] using rev_ind.
      - apply app_inj_tail in Em as [_ ->]. reflexivity.
      - rewrite List.last_last. change (m1 ++ c :: m2 ++ [y]) with (m1 ++ (c :: m2) ++ [y]) in Em.
        rewrite app_assoc in Em. now apply app_inj_tail in Em as [_ ->]. }
    pose proof (next_at HI _ _ _ _ Hk) as Hx.
    assert (HX : exists j, next_idx c d = Some j /\ nth_error (nexts d) j = Some (c, hd z m2)).
    { destruct m2; exact Hx. }
    destruct HX as (i & -> & Hi).
    destruct (last_node_loop k HI (Par p) m2 (S (length (nexts d))) m1 c a z i Hk) as (j & -> & Ej); auto.
    { pose proof (chain_length HI (Par p)) as Hl. rewrite Hk in Hl. rewrite app_length in Hl. simpl in Hl.
      rewrite app_length in Hl. simpl in Hl. lia. }
    exists j. auto.
  Qed.
  Lemma u_parent_chain c : get_parent c d <> 0 -> get_parent c d < c.
  Proof.
    destruct (reachable_good d R) as [k G]. pose proof (inv_pchild _ _ (g_inv _ _ G)) as P.
    unfold get_parent. destruct (parent_idx c d) as [i|] eqn:E; [|congruence].
    unfold parent_idx in E. apply find_idx_some in E as (e & E1 & E2 & _).
    unfold at_idx. rewrite (nth_error_nth _ _ _ E1). destruct e as [a b]; cbn [fst snd] in *.
    apply Nat.eqb_eq in E2. subst b. apply nth_error_In in E1.
    destruct (pc_nz _ _ _ P _ _ E1) as [[-> ->]|]; lia.
  Qed.

  Lemma u_preorder c : c <> 0 -> exists l, preorder d c (c :: l) /\ NoDup (c :: l) /\
    (forall m, preorder d c m -> m = c :: l) /\
    (forall x, In x (c :: l) <-> below_eq d c x).
  Proof.
    intros N. destruct (reachable_good d R) as [k G]. pose proof (g_inv _ _ G) as HI.
    pose proof (inv_kw _ _ HI) as W.
    exists (pres (length (nodes d)) k (k (Par c))).
    assert (E : pre (length (nodes d)) k c = c :: pres (length (nodes d)) k (k (Par c))) by (apply pre_eq; exact W).
    rewrite <- E. split; [now apply (preorder_iff d k)|]. split; [now apply pre_nodup|]. split.
    { intros m H. now apply (preorder_iff d k) in H. }
    intros x. split.
    - clear N E. intros H.
      assert (X : forall m y, m = length (nodes d) - y -> In x (pre (length (nodes d)) k y) -> below_eq d y x).
      { induction m as [m IH] using lt_wf_ind. intros y -> Hy. rewrite pre_eq in Hy by exact W.
        destruct Hy as [->|Hy]; [constructor|]. apply pres_in in Hy as (z & Hz & Hx).
        pose proof (kw_order _ _ W _ _ Hz). pose proof (kw_bound _ _ W _ _ Hz).
        econstructor; [apply (kc _ k); [exact G|reflexivity]|exact Hz|].
        eapply IH; [|reflexivity|exact Hx]. lia. }
      eapply X; eauto.
    - intros H. induction H as [n|n a l x Hl Ha H IH]; [rewrite pre_eq by exact W; now left|].
      apply (kc _ k) in Hl; [|exact G]. subst l. rewrite pre_eq by exact W. right.
      apply pres_in. exists a. split; [exact Ha|]. apply IH.
      intros ->. now apply (zero_not_in d k (Par n)).
      apply pre_eq; exact W.
  Qed.

  Lemma u_traverse_dom l : preorder d 1 (1 :: l) -> dom_walk d 1 l.
  Proof.
    intros H. destruct (reachable_good d R) as [k G]. pose proof (g_inv _ _ G) as HI.
    apply (preorder_iff d k) in H; [|exact HI|lia].
    rewrite pre_eq in H by apply (inv_kw _ _ HI). injection H as ->. now apply traverse_dom_tree.
  Qed.
  Lemma u_traverse_node s l cs : s <> 0 -> preorder d s (s :: l) -> children d s cs ->
    cs <> [] \/ get_next s d = 0 -> node_walk d s s l.
  Proof.
    intros N H Hc X. destruct (reachable_good d R) as [k G]. pose proof (g_inv _ _ G) as HI.
    apply (preorder_iff d k) in H; [|exact HI|lia]. apply (kc _ k) in Hc; [|exact G]. subst cs.
    rewrite pre_eq in H by apply (inv_kw _ _ HI). injection H as ->. now apply traverse_node_tree.
  Qed.
  Lemma u_text_content s l cs : s <> 0 -> preorder d s (s :: l) -> children d s cs ->
    cs <> [] \/ get_next s d = 0 -> get_text_content s d = Ok (texts d l).
  Proof.
    intros N H Hc X. destruct (reachable_good d R) as [k G]. pose proof (g_inv _ _ G) as HI.
    apply (preorder_iff d k) in H; [|exact HI|lia]. apply (kc _ k) in Hc; [|exact G]. subst cs.
    rewrite pre_eq in H by apply (inv_kw _ _ HI). injection H as ->. now apply (text_content_tree d k).
  Qed.

  (** ** Attributes *)
  Lemma u_nodezero n : node_id d n -> n <> 0.
  Proof. unfold node_id. lia. Qed.
  Lemma u_reg : RegInv d.
  Proof. destruct (reachable_good d R) as [k G]. apply G. Qed.
  Lemma u_has_bool n b : n <> 0 -> exists r, has_bool_prop n b d = Ok r /\ (r = true <-> In b (bool_attrs d n)).
  Proof. intros. apply has_bool_prop_ok; auto. apply u_reg. Qed.
  Lemma u_has_key n b : n <> 0 -> exists r, has_prop_key n b d = Ok r /\ (r = true <-> In b (map fst (attrs d n))).
  Proof. intros. apply has_prop_key_ok; auto. apply u_reg. Qed.
  Lemma u_has_value n b : n <> 0 -> exists r, has_prop_value n b d = Ok r /\ (r = true <-> In b (map snd (attrs d n))).
  Proof. intros. apply has_prop_value_ok; auto. apply u_reg. Qed.
  Lemma u_has_property n k v : n <> 0 -> exists r, has_property n k v d = Ok r /\ (r = true <-> In (k, v) (attrs d n)).
  Proof. intros. apply has_property_ok; auto. apply u_reg. Qed.
  Lemma u_get_value n k : n <> 0 ->
    get_value n k d = Ok (match first_value k (attrs d n) with Some v => v | None => [] end).
  Proof. intros. apply get_value_ok; auto. apply u_reg. Qed.

  Lemma only_attrs_intro d' k n : Good d k -> Good d' k -> attrs_only d d' n -> only_attrs_of d d' n.
  Proof.
    intros G G' (A & B & C & D & E). repeat split; auto; intros H; apply (kc _ k); auto;
      apply (kc _ k) in H; auto.
  Qed.
  Lemma u_add_prop n key v : node_id d n ->
    gives d 1 (add_property n key v d) (fun d' => only_attrs_of d d' n /\
       attrs d' n = attrs d n ++ [(key, v)] /\ bool_attrs d' n = bool_attrs d n).
  Proof.
    intros [N1 N2]. destruct (reachable_good d R) as [k G]. apply (gives_safe d k 1); [exact G| |].
    - eapply safe_imp; [apply (add_property_user d k n key v G N2)|].
      intros d' (G' & A & B & C). split; [|auto]. eapply only_attrs_intro; eauto.
    - intros H. apply (nj_any (fun d' => room d' 0)). apply nj_add_property. exact H.
  Qed.
  Lemma u_add_bool n b : node_id d n ->
    gives d 1 (add_bool_property n b d) (fun d' => only_attrs_of d d' n /\
       bool_attrs d' n = bool_attrs d n ++ [b] /\ attrs d' n = attrs d n).
  Proof.
    intros [N1 N2]. destruct (reachable_good d R) as [k G]. apply (gives_safe d k 1); [exact G| |].
    - eapply safe_imp; [apply (add_bool_property_user d k n b G N2)|].
      intros d' (G' & A & B & C). split; [|auto]. eapply only_attrs_intro; eauto.
    - intros H. apply (nj_any (fun d' => room d' 0)). apply nj_add_bool. exact H.
  Qed.
  Lemma u_remove_prop n key : n <> 0 ->
    exists d', remove_property n key d = Ok d' /\ only_attrs_of d d' n /\
       attrs d' n = remove_first (fun kv => beq key (fst kv)) (attrs d n) /\
       bool_attrs d' n = bool_attrs d n.
  Proof.
    intros N. destruct (reachable_good d R) as [k G].
    destruct (remove_property_user d k n key G N) as (d' & E & G' & A & B & C).
    exists d'. split; [exact E|]. split; [|auto]. eapply only_attrs_intro; eauto.
  Qed.
  Lemma u_remove_bool n b : n <> 0 ->
    exists d', remove_bool_property n b d = Ok d' /\ only_attrs_of d d' n /\
       bool_attrs d' n = remove_first (beq b) (bool_attrs d n) /\ attrs d' n = attrs d n.
  Proof.
    intros N. destruct (reachable_good d R) as [k G].
    destruct (remove_bool_property_user d k n b G N) as (d' & E & G' & A & B & C).
    exists d'. split; [exact E|]. split; [|auto]. eapply only_attrs_intro; eauto.
  Qed.
  Lemma u_set_prop n key v : n <> 0 ->
    gives d 1 (set_property_value n key v d) (fun '(ok, d') =>
      (ok = true <-> In key (map fst (attrs d n))) /\
      (ok = false -> d' = d) /\
      (ok = true -> only_attrs_of d d' n /\ attrs d' n = set_first key v (attrs d n) /\
         bool_attrs d' n = bool_attrs d n /\ get_value n key d' = Ok v)).
  Proof.
    intros N. destruct (reachable_good d R) as [k G]. apply (gives_safe d k 1); [exact G| |].
    - eapply safe_imp; [apply (set_property_value_user d k n key v G N)|].
      intros [ok d'] (G' & A & B & C). split; [exact A|]. split; [exact B|]. intros H.
      destruct (C H) as (C1 & C2 & C3). split; [eapply only_attrs_intro; eauto|].
      split; [exact C2|]. split; [exact C3|].
      rewrite (get_value_ok d' n key (g_reg _ _ G') N), C2. apply A in H.
      clear -H. induction (attrs d n) as [|[k' v'] l IH]; [destruct H|]. simpl in *.
      destruct (beq key k') eqn:E; simpl; rewrite E; [reflexivity|]. apply IH.
      destruct H as [H|H]; [|exact H]. subst. now rewrite beq_refl in E.
    - intros H. pose proof (nj_run [] (SetProp n key v) d H) as J. simpl in J. now apply nj_inv in J.
  Qed.

  (** ** Histories *)
  Lemma u_run bl o : valid d bl o -> ~ ends_quote (fragment o) ->
    gives d (op_cost o) (run bl o d) reachable.
  Proof.
    intros V Q. destruct (reachable_good d R) as [k G].
    apply (gives_safe d k (op_cost o)); [exact G| |apply nj_run].
    pose proof (run_good d k bl o G V) as S. destruct (run bl o d) as [d'|u| |] eqn:E; simpl in *; auto.
    - eapply reach_step; eauto.
    - destruct u; auto.
  Qed.
  Lemma u_run_ub bl o u : valid d bl o -> run bl o d = Undef u -> u = NegLen /\ ends_quote (fragment o).
  Proof.
    intros V E. destruct (reachable_good d R) as [k G]. pose proof (run_good d k bl o G V) as S.
    rewrite E in S. destruct u; simpl in S; tauto.
  Qed.
  Lemma u_run_fuel bl o : valid d bl o -> run bl o d <> NoFuel.
  Proof.
    intros V E. destruct (reachable_good d R) as [k G]. pose proof (run_good d k bl o G V) as S.
    rewrite E in S. exact S.
  Qed.
End Reach.

(** [traverseNode] leaves the scope at a childless node with a next sibling. *)
Lemma u_traverse_node_leak d s b : get_first_child s d = 0 -> get_next s d = b -> b <> 0 -> b <> s ->
  traverse_node s s d = Ok b.
Proof.
  intros H1 H2 H3 H4. unfold traverse_node. rewrite H1, H2. simpl.
  destruct b; [congruence|]. simpl. destruct s; [reflexivity|]. simpl.
  destruct (b =? s) eqn:E; [apply Nat.eqb_eq in E; congruence|reflexivity].
Qed.
Lemma u_node_limit d ty : (N.of_nat (length (nodes d)) > 65534)%N -> create_node ty d = Longjmp NodeLimit.
Proof. intros H. unfold create_node. destruct (N.leb_spec (N.of_nat (length (nodes d))) 65534); [lia|reflexivity]. Qed.
