(** * The states in which linking new nodes into the tree can be abandoned. *)
From Coq Require Import List NArith Arith Bool Lia.
From Verif Require Import Base TrieModel DomModel ParserModel EditModel ReadModel DomSpec Lemmas TrieProofs
  Tables Inv Surgery Attach Replace Link RegProofs ParseSafe ParseTree Walk AttrProofs EditProofs
  Grow CrashSpec CrashModel CrashDebris CrashWalk CrashRead.
Import ListNotations.
Local Open Scope nat_scope.

(** The links of [d'] are those of the completed [e], except that nodes may have
    no parent yet, and node [l] neither parent nor next sibling. *)
Record lnk (V : nat -> Prop) (l : nat) (d' e : dom) : Prop := {
  ln_first : forall c, get_first_child c d' = get_first_child c e;
  ln_next : forall c, V c ->
     (get_next c d' = get_next c e /\ (get_parent c d' = get_parent c e \/ get_parent c d' = 0)) \/
     (c = l /\ get_next c d' = 0 /\ get_parent c d' = 0);
  ln_ord : ordered_pc d';
  ln_pch : forall a b, In (a, b) (pchilds d') -> In (a, b) (pchilds e) }.

Lemma lk_part g h c a b : lk g h c a = lk g h c (a ++ b) \/ lk g h c a = 0.
Proof.
  rewrite lk_app. destruct (existsb (fun e => g e =? c) a) eqn:E; auto. right. now apply lk_none.
Qed.

Lemma lnk_parts l d' e x y :
  firsts d' = firsts e -> nexts e = nexts d' ++ x -> pchilds e = pchilds d' ++ y ->
  (forall a, In a x -> fst a = l) -> (x <> [] -> get_parent l d' = 0) ->
  ordered_pc e -> lnk (fun _ => True) l d' e.
Proof.
  intros F Nx P Hx Hl O. constructor.
  - intro c. now rewrite !first_lk, F.
  - intros c _. rewrite !next_lk, !parent_lk, Nx, P.
    pose proof (lk_part snd fst c (pchilds d') y) as Q.
    destruct x as [|a x]; [rewrite app_nil_r; auto|].
    destruct (Nat.eq_dec c l) as [->|N].
    + assert (Z : get_parent l d' = 0) by (apply Hl; discriminate). rewrite parent_lk in Z.
      destruct (lk_part fst snd l (nexts d') (a :: x)) as [<-|Z2]; auto.
    + rewrite lk_app_skip; auto. intros u I U. apply Hx in I. congruence.
  - intros a b I. apply O. rewrite P. apply in_or_app. auto.
  - intros a b I. rewrite P. apply in_or_app. auto.
Qed.

Lemma conn_end p : forall fuel c d e, connect_others_loop fuel p c d = Ok e ->
  exists x, e = set_pchilds d (pchilds d ++ map (pair p) x).
Proof.
  induction fuel as [|f IH]; intros c d e H; cbn [connect_others_loop] in H.
  - destruct (0 <? c); [discriminate|]. injection H as <-. exists []. simpl. rewrite app_nil_r.
    now destruct d.
  - destruct (0 <? c); [|injection H as <-; exists []; simpl; rewrite app_nil_r; now destruct d].
    apply IH in H. destruct H as (x & ->). exists (c :: x). unfold push_pchild, set_pchilds. simpl.
    now rewrite <- app_assoc.
Qed.
Lemma conn_states fuel p : forall c d d' e,
  In d' (fst (c_connect_others_loop fuel p c d)) -> connect_others_loop fuel p c d = Ok e ->
  exists x y, d' = set_pchilds d (pchilds d ++ map (pair p) x) /\
    e = set_pchilds d (pchilds d ++ map (pair p) (x ++ y)) /\ y <> [].
Proof.
  induction fuel as [|f IH]; intros c d d' e H E; cbn [c_connect_others_loop connect_others_loop] in H, E.
  - destruct (0 <? c); [discriminate|]. destruct H.
  - destruct (0 <? c); [|destruct H]. unfold a_bind, may_jump in H. cbn [snd fst app] in H.
    destruct H as [<-|H].
    + apply conn_end in E. destruct E as (x & ->). exists [], (c :: x). simpl. rewrite app_nil_r.
      split; [now destruct d|]. split; [|discriminate]. unfold push_pchild, set_pchilds. simpl.
      now rewrite <- app_assoc.
    + destruct (IH _ _ _ _ H E) as (x & y & -> & -> & Y). exists (c :: x), y.
      unfold push_pchild, set_pchilds. simpl. rewrite <- !app_assoc. auto.
Qed.

Lemma inv_ordered d k : Inv d k -> ordered_pc d.
Proof. intros V a b I. destruct (pc_nz _ _ _ (inv_pchild _ _ V) _ _ I) as [?|(? & ? & ?)]; auto. Qed.

Lemma last_next_nexts d1 d2 : nexts d1 = nexts d2 -> forall c, get_last_next c d1 = get_last_next c d2.
Proof.
  intro E. assert (L : forall fuel c, last_next_loop fuel c d1 = last_next_loop fuel c d2).
  { induction fuel as [|f IH]; intro c; cbn [last_next_loop]; unfold next_idx; rewrite E;
      destruct (find_idx _ (nexts d2)); auto. }
  intro c. unfold get_last_next. rewrite E. apply L.
Qed.

Section Refs.
Context (d : dom) (k : kids) (V : Inv d k) (p f new : nat) (rest : list nat).
Context (Hm : k (Flo f) = new :: rest).

Lemma last_flo : get_last_next new d = Ok (last rest new) /\ get_parent (last rest new) d = 0.
Proof.
  split; [exact (get_last_next_at V (Flo f) [] new rest Hm)|].
  assert (In (last rest new) (k (Flo f))).
  { rewrite Hm. apply last_error_in. now apply last_last. }
  unfold get_parent. now rewrite (parent_flo V _ _ H).
Qed.

Lemma append_states e d' : append_refs p new d = Ok e -> ordered_pc e ->
  In d' (fst (c_append_refs p new d)) ->
  same_data d d' /\ (d' = d \/ lnk (fun _ => True) (last rest new) d' e).
Proof.
  unfold append_refs, c_append_refs. intros E O H. destruct (first_idx p d) as [i|].
  - apply bind_ok in E. destruct E as (l & El & E). rewrite El in H.
    unfold a_bind, pure, may_jump in H. cbn [fst snd app] in H.
    unfold connect_others, c_connect_others in *.
    destruct H as [<-|[<-|H]]; [split; [apply same_data_refl|auto]| |].
    + split; [reflexivity|]. right. apply conn_end in E. destruct E as (x & ->).
      eapply (lnk_parts _ _ _ []); simpl; try reflexivity; try tauto.
      * now rewrite app_nil_r.
      * now rewrite <- app_assoc.
    + destruct (conn_states _ _ _ _ _ _ H E) as (x & y & -> & -> & _).
      split; [reflexivity|]. right.
      eapply (lnk_parts _ _ _ []); simpl; try reflexivity; try tauto.
      * now rewrite app_nil_r.
      * rewrite map_app, app_assoc. reflexivity.
  - unfold a_bind, pure, may_jump in H. cbn [fst snd app] in H.
    unfold connect_others, c_connect_others in *.
    destruct H as [<-|[<-|H]]; [split; [apply same_data_refl|auto]| |].
    + split; [reflexivity|]. right. apply conn_end in E. destruct E as (x & ->).
      eapply (lnk_parts _ _ _ []); simpl; try reflexivity; try tauto.
      * now rewrite app_nil_r.
      * now rewrite <- app_assoc.
    + destruct (conn_states _ _ _ _ _ _ H E) as (x & y & -> & -> & _).
      split; [reflexivity|]. right.
      eapply (lnk_parts _ _ _ []); simpl; try reflexivity; try tauto.
      * now rewrite app_nil_r.
      * rewrite map_app, app_assoc. reflexivity.
Qed.

Lemma prepend_states e d' : prepend_refs p new d = Ok e -> ordered_pc e ->
  In d' (fst (c_prepend_refs p new d)) ->
  same_data d d' /\ (d' = d \/ lnk (fun _ => True) (last rest new) d' e).
Proof.
  unfold prepend_refs, c_prepend_refs. intros E O H. destruct (first_idx p d) as [i|].
  - destruct last_flo as [L1 L2]. rewrite (last_next_nexts _ d) in E, H by reflexivity.
    rewrite L1 in E, H. cbn [bind] in E.
    unfold a_bind, pure, may_jump in H. cbn [fst snd app] in H.
    unfold connect_others, c_connect_others in *.
    destruct H as [<-|[<-|H]].
    + split; [reflexivity|]. right. apply conn_end in E. destruct E as (x & ->).
      eapply (lnk_parts _ _ _ [_]); simpl; try reflexivity; try tauto.
      * now rewrite <- app_assoc.
      * intros a [<-|[]]. reflexivity.
    + split; [reflexivity|]. right. apply conn_end in E. destruct E as (x & ->).
      eapply (lnk_parts _ _ _ []); simpl; try reflexivity; try tauto.
      * now rewrite app_nil_r.
      * now rewrite <- app_assoc.
    + destruct (conn_states _ _ _ _ _ _ H E) as (x & y & -> & -> & _).
      split; [reflexivity|]. right.
      eapply (lnk_parts _ _ _ []); simpl; try reflexivity; try tauto.
      * now rewrite app_nil_r.
      * rewrite map_app, app_assoc. reflexivity.
  - unfold a_bind, pure, may_jump in H. cbn [fst snd app] in H.
    unfold connect_others, c_connect_others in *.
    destruct H as [<-|[<-|H]]; [split; [apply same_data_refl|auto]| |].
    + split; [reflexivity|]. right. apply conn_end in E. destruct E as (x & ->).
      eapply (lnk_parts _ _ _ []); simpl; try reflexivity; try tauto.
      * now rewrite app_nil_r.
      * now rewrite <- app_assoc.
    + destruct (conn_states _ _ _ _ _ _ H E) as (x & y & -> & -> & _).
      split; [reflexivity|]. right.
      eapply (lnk_parts _ _ _ []); simpl; try reflexivity; try tauto.
      * now rewrite app_nil_r.
      * rewrite map_app, app_assoc. reflexivity.
Qed.
End Refs.

Lemma lk_upd_other g h c t j e0 e1 : nth_error t j = Some e0 -> g e0 <> c -> g e1 <> c ->
  lk g h c (upd t j e1) = lk g h c t.
Proof.
  intros H1 H2 H3. destruct (upd_split t j e0 e1 H1) as (a & b & -> & _ & ->).
  rewrite !lk_app, !lk_cons. apply Nat.eqb_neq in H2, H3. now rewrite H2, H3.
Qed.

Lemma map_pair_inj (p : nat) : forall r m : list nat, map (pair p) r = map (pair p) m -> r = m.
Proof.
  induction r as [|a r IH]; intros [|b m] Q; simpl in *; try discriminate; auto.
  injection Q as -> Q. f_equal; auto.
Qed.

Lemma replace_states d k p f new rest old l1 l2 e d' :
  Inv d k -> k (Flo f) = new :: rest -> k (Par p) = l1 ++ old :: l2 -> p <> 0 ->
  replace_refs old new d = Ok e -> ordered_pc e ->
  In d' (fst (c_replace_refs old new d)) ->
  same_data d d' /\ lnk (fun c => c <> old) (last rest new) d' e /\ rest <> [] /\ get_next old d' = hd 0 l2.
Proof.
  intros V Hm Ek Hp E O H.
  pose proof (inv_kw _ _ V) as W. unfold replace_refs, c_replace_refs in *.
  destruct (get_node d old) as [nd| | |]; try discriminate.
  destruct (last_flo d k V f new rest Hm) as [L1 L2]. rewrite L1 in *. cbn [bind] in E.
  assert (Io : In old (k (Par p))) by (rewrite Ek; apply in_elt).
  assert (Fl : forall c, In c (new :: rest) -> ~ In c (k (Par p))).
  { intros c I I'. rewrite <- Hm in I. pose proof (kw_disj _ _ W _ _ _ I I'). discriminate. }
  destruct (parent_at V p old Io) as (i & Ei & Ni). rewrite Ei in *.
  set (l := last rest new) in *.
  assert (Il : In l (new :: rest)). { apply last_error_in. now apply last_last. }
  assert (Lo : l <> old). { intros ->. eapply Fl; eauto. }
  assert (Nl : get_next l d = 0).
  { assert (X : exists m, new :: rest = m ++ [l]).
    { apply last_error_some. now apply last_last. }
    destruct X as (m & X). rewrite X in Hm. exact (get_next_at V (Flo f) m l [] Hm). }
  remember (match prev_idx old d with
         | Some i0 => set_nexts d (upd (nexts d) i0 (fst (at_idx (nexts d) i0), new))
         | None => match first_idx (fst (at_idx (pchilds d) i)) d with
                   | Some k0 => set_firsts d (upd (firsts d) k0 (fst (at_idx (firsts d) k0), new))
                   | None => d
                   end
         end) as D1 eqn:ED.
  assert (S1 : same_data d D1 /\ pchilds D1 = pchilds d /\
     (forall c, c <> 0 -> ~ In c (k (Par p)) -> get_next c D1 = get_next c d) /\
     length (nexts D1) = length (nexts d) /\ get_next old D1 = get_next old d /\
     (forall j b, nth_error (nexts d) j = Some (old, b) -> nth_error (nexts D1) j = Some (old, b))).
  { subst D1. pose proof (prev_at V (Par p) l1 old l2 Ek) as P. destruct (last_error l1) as [a|] eqn:La.
    - destruct P as (iv & -> & Nv). rewrite (at_idx_nth _ _ _ Nv). cbn [fst].
      split; [reflexivity|]. split; [reflexivity|]. split; [|split; [|split]].
      + intros c _ Nc. rewrite !next_lk. simpl. eapply lk_upd_other; eauto; simpl; intros ->;
          apply Nc; rewrite Ek; apply in_or_app; left; now apply last_error_in.
      + simpl. apply upd_length.
      + assert (a <> old).
        { intros ->. pose proof (kw_nodup _ _ W (Par p)) as ND. rewrite Ek in ND. apply NoDup_remove_2 in ND. apply ND.
          apply in_or_app. left. now apply last_error_in. }
        rewrite !next_lk. simpl. eapply lk_upd_other; eauto.
      + intros j b Hj. simpl. rewrite upd_nth_neq; auto. intros ->. rewrite Nv in Hj. injection Hj as -> _.
        pose proof (kw_nodup _ _ W (Par p)) as ND. rewrite Ek in ND. apply NoDup_remove_2 in ND. apply ND.
        apply in_or_app. left. now apply last_error_in.
    - rewrite P. destruct (first_idx _ d); (split; [reflexivity || apply same_data_refl|]);
        (split; [reflexivity|]); (split; [reflexivity|]); (split; [reflexivity|]); (split; [reflexivity|]); auto. }
  destruct S1 as (S1 & S2 & S3 & S3l & S5 & S4). rewrite S2 in *. rewrite (at_idx_nth _ _ _ Ni) in *. cbn [fst] in *.
  set (D2 := set_pchilds D1 (upd (pchilds d) i (p, new))) in *.
  unfold replace_others, c_replace_others in *.
  apply bind_ok in E. destruct E as (D3 & E3 & E). injection E as <-.
  assert (H' : In d' (fst (c_connect_others_loop (S (length (nexts D2))) p (get_next new D2) D2))).
  { revert H. unfold a_bind, pure, a_ret. cbn [fst snd app].
    destruct (c_connect_others_loop (S (length (nexts D2))) p (get_next new D2) D2) as [ls o].
    cbn [fst snd]. destruct o; cbn [fst]; rewrite ?app_nil_r; auto. }
  clear H. rename H' into H.
  destruct (conn_states _ _ _ _ _ _ H E3) as (x & y & Ex & Ey & Ny).
  assert (XY : x ++ y = rest).
  { assert (Sb : sibs D2 (get_next new D2) rest).
    { assert (Nn : get_next new D2 = hd 0 rest).
      { change (get_next new D2) with (get_next new D1). rewrite S3.
        - rewrite (get_next_at V (Flo f) [] new rest Hm). now destruct rest.
        - apply (k_nz V (Flo f)). rewrite Hm. simpl; auto.
        - apply Fl. simpl; auto. }
      rewrite Nn. apply (sibs_in d).
      - apply (sibs_at d k (Flo f) [new]); auto.
      - intros c I. change (get_next c D2) with (get_next c D1). apply S3.
        + apply (k_nz V (Flo f)). rewrite Hm. simpl; auto.
        + apply Fl. simpl; auto. }
    rewrite (connect_loop D2 p _ rest) in E3; auto.
    - injection E3 as <-. apply (f_equal pchilds) in Ey. simpl in Ey. apply app_inv_head in Ey.
      symmetry. eapply map_pair_inj; eauto.
    - pose proof (chain_length V (Flo f)) as CL. rewrite Hm in CL. simpl in CL.
      change (nexts D2) with (nexts D1). lia. }
  assert (NDr : NoDup (new :: rest)) by (rewrite <- Hm; apply (kw_nodup _ _ W)).
  assert (Lx : l <> new /\ ~ In l x).
  { assert (Y : exists y0, y = y0 ++ [l]).
    { destruct (exists_last Ny) as (y0 & b & ->). exists y0. f_equal. f_equal. unfold l.
      rewrite <- XY, app_assoc. now rewrite List.last_last. }
    destruct Y as (y0 & ->). rewrite <- XY in NDr. split.
    - intros En. apply NoDup_cons_iff in NDr. destruct NDr as [Q _]. apply Q. rewrite <- En. apply in_or_app. right. apply in_or_app. simpl; auto.
    - intro I. apply NoDup_cons_iff in NDr. destruct NDr as [_ Q]. rewrite app_assoc in Q. apply NoDup_remove_2 in Q. apply Q.
      rewrite app_nil_r. apply in_or_app; auto. }
  destruct Lx as [Ln Lx].
  split.
  { rewrite Ex. unfold same_data in S1 |- *. unfold D2. clear -S1. destruct D1. simpl in *. injection S1 as ? ? ? ? ? ? ? ? ? ? ?.
    unfold set_pchilds. simpl. subst. reflexivity. }
  assert (Pl : get_parent l d' = 0).
  { rewrite parent_lk, Ex. simpl. apply lk_skip. intros u I. apply in_app_or in I. destruct I as [I|I].
    - apply in_upd in I. destruct I as [->|I]; simpl; auto. intros <-. destruct u as [a b].
      apply (pc_flo _ _ _ (inv_pchild _ _ V) f a b); auto. rewrite Hm. exact Il.
    - apply in_map_iff in I. destruct I as (c & <- & I). simpl. intros ->. auto. }
  assert (Nl' : get_next l d' = 0).
  { rewrite Ex. change (get_next l D1 = 0). rewrite S3; auto.
    - apply (k_nz V (Flo f)). now rewrite Hm. }
  assert (Fst : firsts d' = firsts D1) by now rewrite Ex.
  assert (Nxt : nexts d' = nexts D1) by now rewrite Ex.
  assert (Pch : pchilds D3 = pchilds d' ++ map (pair p) y).
  { rewrite Ex, Ey. simpl. now rewrite map_app, app_assoc. }
  assert (Nr : rest <> []).
  { intros ->. apply app_eq_nil in XY. destruct XY. auto. }
  assert (O' : ordered_pc d').
  { intros a b I. apply O. destruct (next_idx old d); simpl; rewrite Pch; apply in_or_app; auto. }
  assert (F3 : firsts D3 = firsts D1) by now rewrite Ey.
  assert (N3 : nexts D3 = nexts D1) by now rewrite Ey.
  assert (No : get_next old d' = hd 0 l2).
  { rewrite next_lk, Nxt, <- next_lk, S5. rewrite (get_next_at V (Par p) l1 old l2 Ek). now destruct l2. }
  split; [|split; [exact Nr|exact No]]. constructor; auto.
  - intro c. rewrite !first_lk. destruct (next_idx old d); simpl; now rewrite Fst, F3.
  - intros c Nc. destruct (Nat.eq_dec c l) as [->|Cl]; [right; auto|]. left.
    pose proof (next_at V (Par p) l1 old l2 Ek) as P.
    destruct (next_idx old d) as [j|] eqn:Ej.
    + destruct l2 as [|b l2]; [discriminate|]. destruct P as (j' & Q & Hj). injection Q as <-.
      apply S4 in Hj. split.
      * rewrite !next_lk. simpl. rewrite Nxt, N3. symmetry. rewrite (at_idx_nth _ _ _ Hj).
        eapply lk_upd_other; eauto; simpl; auto.
      * rewrite !parent_lk. simpl. rewrite Pch. apply lk_part.
    + split.
      * rewrite !next_lk. simpl. now rewrite Nxt, N3.
      * rewrite !parent_lk. simpl. rewrite Pch. apply lk_part.
  - intros a b I. destruct (next_idx old d); simpl; rewrite Pch; apply in_or_app; auto.
Qed.
