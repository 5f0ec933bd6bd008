(** * Where the calls that insert a parsed fragment can be abandoned. *)
From Coq Require Import List NArith Arith Bool Lia.
From Verif Require Import Base TrieModel DomModel ParserModel EditModel ReadModel DomSpec ApiSpec Lemmas TrieProofs
  Tables Inv Surgery Attach Replace Link RegProofs ParseSafe ParseTree ParseLoop Walk AttrProofs EditProofs EditOps EditHtml
  ApiProofs Grow CrashSpec CrashModel CrashAgree CrashDebris CrashWalk CrashRead CrashLink CrashOps.
Import ListNotations.
Local Open Scope nat_scope.

Lemma rest_cases (l : list nat) : l = [] \/ exists r l', l = r :: l'.
Proof. destruct l; eauto. Qed.

Section Html.
Context (d : dom) (k : kids) (G : Good d k).
Notation n := (length (nodes d)).
Notation P := (pst d k True).

Lemma midst_step p dm km d3 k3 : midst True p d k dm km -> Good d3 k3 ->
  length (nodes d3) = length (nodes dm) ->
  (forall q, q < n -> k3 (Par q) = km (Par q)) ->
  (forall i, 1 <= i < n -> same_content dm d3 i \/
     (In i (k (Par p)) /\ same_content d dm i /\ more_text dm d3 i)) ->
  midst True p d k d3 k3.
Proof.
  intros H G3 L K C. constructor; auto.
  - rewrite L. apply (md_len _ _ _ _ _ _ H).
  - rewrite L. apply (md_cap _ _ _ _ _ _ H).
  - intros q Hq. rewrite K by auto. now apply (md_kids _ _ _ _ _ _ H).
  - intros i Hi. destruct (C i Hi) as [E|(I & E & old & s & T & R)].
    + destruct (md_data _ _ _ _ _ _ H i Hi) as [E2|(_ & I & old & s & T & R)].
      * left. eapply same_content_trans; eauto.
      * right. split; auto. split; auto. exists old, s. split; auto.
        destruct R; [left|right]; eapply retexted_trans; eauto.
    + right. split; auto. split; auto. exists old, s. apply content_parts in E.
      destruct E as (E1 & E2 & E3 & E4 & E5). split; [congruence|].
      unfold retexted in *. rewrite E4, E5 in R. auto.
Qed.

Context (bl h : bytes) (Hn : has_nodes d bl h).

Lemma extra_st p d' : In d' (fst (c_parse_extra (Some bl) h d)) -> P p d'.
Proof.
  intro I. destruct (a_parse_extra d (Some bl) h d (debris_refl d)) as [Q _].
  rewrite Forall_forall in Q. left. auto.
Qed.
Lemma extra_made d1 : snd (c_parse_extra (Some bl) h d) = Ok (true, d1) ->
  debris d d1 /\ exists k1 rest, frag d k d1 k1 rest.
Proof.
  intro E. split.
  - destruct (a_parse_extra d (Some bl) h d (debris_refl d)) as [_ Q]. rewrite E in Q. exact Q.
  - rewrite s_parse_extra in E. eapply frag_ok; eauto.
Qed.

Section Frag.
Context (d1 : dom) (k1 : kids) (rest : list nat) (F : frag d k d1 k1 rest) (D : debris d d1).
Context (p : nat) (Hp : 1 <= p < n).
Let G1 := fr_good _ _ _ _ _ F.
Let Top := fr_top _ _ _ _ _ F.
Lemma f_mid : midst True p d k d1 k1.
Proof. apply midst_debris; auto. apply (fr_par _ _ _ _ _ F). Qed.
Lemma f_ge c : In c (n :: rest) -> n <= c.
Proof. intros [<-|I]; auto. apply (fr_gt _ _ _ _ _ F) in I. lia. Qed.
Lemma f_kp : k1 (Par p) = k (Par p).
Proof. apply (fr_par _ _ _ _ _ F). lia. Qed.
Lemma f_old c : In c (k1 (Par p)) -> c < n.
Proof.
  rewrite f_kp. intro I. apply (kw_bound _ _ (inv_kw _ _ (g_inv _ _ G))) in I. lia.
Qed.
Lemma f_d1 : P p d1. Proof. left. auto. Qed.

Lemma not_same t d3 o s : In t (k1 (Par p)) -> text_of d1 t = Some o ->
  retexted d1 d3 t (o ++ [cSP] ++ s) \/ retexted d1 d3 t (s ++ [cSP] ++ o) -> ~ same_content d d3 t.
Proof.
  intros It To R C. apply f_old in It as Lt.
  assert (C1 : same_content d d1 t) by (eapply dbr_content; eauto; destruct (text_of_kind _ _ _ To); lia).
  apply content_parts in C as (_ & _ & C & _). apply content_parts in C1 as (_ & _ & C1 & _).
  assert (Q : text_of d3 t = Some o) by congruence.
  destruct R as [(_ & T & _)|(_ & T & _)]; rewrite Q in T; injection T as T; apply (f_equal (@length N)) in T;
    rewrite ?app_length in T; cbn [length app] in T; rewrite ?app_length in T; cbn [length] in T; lia.
Qed.
Lemma seen_pst d3 km t : midst True p d k d3 km -> In t (k1 (Par p)) -> ~ same_content d d3 t -> P p d3.
Proof.
  intros Md It Ns. right. exists km. split; auto. intros U. elim Ns. apply U.
  apply f_old in It as Lt. split; auto. rewrite f_kp in It.
  apply (k_nz (g_inv _ _ G) (Par p)) in It. lia.
Qed.

Lemma f_merge l1 c l2 t s old b : n :: rest = l1 ++ c :: l2 -> In t (k1 (Par p)) ->
  text_of d1 c = Some s -> text_of d1 t = Some old ->
  exists y d3, try_merge t c b d1 = Ok (true, y) /\ Good y k1 /\ remove_node c y = Ok d3 /\
    midst True p d k d3 (upk k1 (Flo n) (l1 ++ l2)) /\ ~ same_content d d3 t.
Proof.
  intros E It Tc Tt.
  destruct (merge_top d1 k1 G1 n p rest Top Hp (fr_gt _ _ _ _ _ F) (fr_leaf _ _ _ _ _ F) f_old l1 c l2 t s old b E It Tc Tt)
    as (E1 & Gy & d3 & E3 & G3 & L3 & R3 & K3 & C3).
  eexists _, d3. split; [exact E1|]. split; [exact Gy|]. split; [exact E3|].
  split; [|apply (not_same t d3 old s); auto; destruct b; auto].
  eapply midst_step; [exact f_mid|exact G3|exact L3| |].
  - intros q _. now rewrite upk_neq by discriminate.
  - intros i Hi. destruct (Nat.eq_dec i t) as [->|Nt].
    + right. split; [now rewrite <- f_kp|]. split; [eapply dbr_content; eauto; lia|].
      exists old, s. split; auto. destruct b; auto.
    + left. apply C3. intros [<-|[<-|[]]]; [easy|].
      assert (n <= c); [|lia]. apply f_ge. rewrite E. apply in_elt.
Qed.

Lemma j_append_frag :
  stq (P p) (fun '(_, e) d' => exists N, links True d k p (k (Par p)) N [] [] e d')
   (let fc := get_first_child p d1 in
    let finish first_new d :=
      (do* d := c_append_refs p first_new d in a_ret (first_new, d)) in
    if 0 <? fc then
      do* last_new := pure (get_last_next n d1) in
      do* nd := pure (get_node d1 n) in
      if n <? last_new then
        if is_text nd then
          do* ln := pure (get_last_next fc d1) in
          do* '(m, d) := c_try_merge ln (n_id nd) true d1 in
          if (m : bool) then
            let second := get_next n d in
            do* d := pure (remove_node n d) in
            finish second d
          else finish n d
        else finish n d1
      else
        if is_text nd then
          do* ln := pure (get_last_next fc d1) in
          do* '(m, d) := c_try_merge ln (n_id nd) true d1 in
          if (m : bool) then
            do* d := pure (remove_node n d) in a_ret (ln, d)
          else finish n d
        else finish n d1
    else finish n d1).
Proof.
  cbv zeta.
  assert (Fin : stq (P p) (fun '(_, e) d' => exists N, links True d k p (k (Par p)) N [] [] e d')
     (a_bind (c_append_refs p n d1) (fun d => a_ret (n, d)))).
  { intros d' I. destruct (finish_append d k True p d1 k1 n n rest n f_mid f_d1 Top f_ge Hp d' I) as [?|([w e] & ? & ?)]; auto.
    right. exists (w, e). eauto. }
  assert (Mg : forall t s y b, try_merge t s true d1 = Ok (b, y) -> b = false -> y = d1).
  { intros t s y b E ->. eapply try_merge_false; eauto. }
  destruct (0 <? get_first_child p d1) eqn:Fc; auto.
  eapply stq_pbind; [exact (get_last_next_at (g_inv _ _ G1) (Flo n) [] n rest Top)|].
  destruct (frag_node d1 k1 G1 n p rest Top Hp (fr_gt _ _ _ _ _ F) (fr_leaf _ _ _ _ _ F) f_old n ltac:(simpl; auto)) as (nd & Em & Hid & Hty).
  eapply stq_pbind; [exact Em|]. rewrite Hid.
  destruct (is_text nd) eqn:Ty; [|destruct (n <? last rest n); auto].
  destruct (text_of d1 n) as [s|] eqn:Ts; [|discriminate].
  rewrite (get_first_child_at (g_inv _ _ G1)) in * by lia.
  destruct (k1 (Par p)) as [|c0 l] eqn:Ek; [discriminate|].
  assert (It : In (last l c0) (k1 (Par p))).
  { rewrite Ek. apply last_error_in. now apply last_last. }
  assert (X : forall w (f2 : nat -> dom -> ab (nat * dom)),
     (forall ln y d3, get_next n y = hd 0 rest -> remove_node n y = Ok d3 -> midst True p d k d3 (upk k1 (Flo n) rest) -> P p d3 ->
        stq (P p) (fun '(_, e) d' => exists N, links True d k p (k (Par p)) N [] [] e d') (f2 ln y)) ->
     stq (P p) (fun '(_, e) d' => exists N, links True d k p (k (Par p)) N [] [] e d')
       (do* ln := pure (get_last_next c0 d1) in
        do* '(m, d) := c_try_merge ln n true d1 in
        if (m : bool) then f2 ln d else (do* d := c_append_refs p n d in a_ret (w, d)))).
  { intros w f2 H2. eapply stq_pbind; [exact (get_last_next_at (g_inv _ _ G1) (Par p) [] c0 l Ek)|].
    apply stq_bind. { intros d' I. apply try_merge_st in I. subst. exact f_d1. }
    intros [b y] Ey. rewrite s_try_merge in Ey.
    destruct b.
    - assert (Tt : exists old, text_of d1 (last l c0) = Some old).
      { rewrite (try_merge_ok d1 k1 _ n true s G1) in Ey; auto.
        - destruct (text_of d1 (last l c0)); [eauto|discriminate].
        - apply (kw_bound _ _ (inv_kw _ _ (g_inv _ _ G1))) in It. lia. }
      destruct Tt as (old & Tt).
      destruct (f_merge [] n rest (last l c0) s old true eq_refl It Ts Tt) as (y' & d3 & E1 & Gy & E3 & M3 & Ns).
      rewrite Ey in E1. injection E1 as <-. apply (H2 _ y d3); [|exact E3|exact M3|eapply seen_pst; eauto].
      rewrite (get_next_at (g_inv _ _ Gy) (Flo n) [] n rest Top). now destruct rest.
    - apply try_merge_false in Ey. subst y.
      intros d' I. destruct (finish_append d k True p d1 k1 n n rest w f_mid f_d1 Top f_ge Hp d' I) as [?|([v e] & ? & ?)]; auto.
      right. exists (v, e). eauto. }
  rewrite (last_rest_ltb d1 k1 n rest Top (fr_gt _ _ _ _ _ F) (fr_leaf _ _ _ _ _ F)). 
  destruct (rest_cases rest) as [Er|(r & l' & Er)]; rewrite Er.
  - apply (X n (fun ln y => do* d := pure (remove_node n y) in a_ret (ln, d))).
    intros ln y d3 _ E3 _ _. eapply stq_pbind; [exact E3|]. apply stq_ret.
  - apply (X n (fun _ y => do* d3 := pure (remove_node n y) in
       (do* d4 := c_append_refs p (get_next n y) d3 in a_ret (get_next n y, d4)))).
    intros ln y d3 Ex E3 M3 Ps. eapply stq_pbind; [exact E3|]. rewrite Ex, Er. cbn [hd].
    intros d' I. destruct (finish_append d k True p d3 _ n r l' r M3 Ps) with (d' := d') as [?|([v e] & ? & ?)]; auto.
    { now rewrite upk_eq. }
    { intros c Ic. apply f_ge. rewrite Er. simpl; auto. }
    right. exists (v, e). eauto.
Qed.

Lemma j_prepend_frag :
  stq (P p) (fun '(_, e) d' => exists N, links True d k p [] N (k (Par p)) [] e d')
   (let fc := get_first_child p d1 in
    let finish d := (do* d := c_prepend_refs p n d in a_ret (n, d)) in
    if 0 <? fc then
      do* last_new := pure (get_last_next n d1) in
      if n <? last_new then
        do* nd := pure (get_node d1 last_new) in
        if is_text nd then
          do* '(m, d) := c_try_merge fc (n_id nd) false d1 in
          if (m : bool) then
            do* d := pure (remove_node last_new d) in finish d
          else finish d
        else finish d1
      else
        do* nd := pure (get_node d1 n) in
        if is_text nd then
          do* '(m, d) := c_try_merge fc (n_id nd) false d1 in
          if (m : bool) then
            do* d := pure (remove_node n d) in a_ret (fc, d)
          else finish d
        else finish d1
    else finish d1).
Proof.
  cbv zeta.
  set (Q := fun '(_, e) d' => exists N, links True d k p [] N (k (Par p)) [] e d').
  assert (Fin : stq (P p) Q (a_bind (c_prepend_refs p n d1) (fun d => a_ret (n, d)))).
  { intros d' I. destruct (finish_prepend d k True p d1 k1 n n rest n f_mid f_d1 Top f_ge Hp d' I) as [?|([w e] & ? & ?)]; auto.
    right. exists (w, e). unfold Q. eauto. }
  destruct (0 <? get_first_child p d1) eqn:Fc; auto.
  eapply stq_pbind; [exact (get_last_next_at (g_inv _ _ G1) (Flo n) [] n rest Top)|].
  rewrite (get_first_child_at (g_inv _ _ G1)) in * by lia.
  destruct (k1 (Par p)) as [|c0 l] eqn:Ek; [discriminate|]. cbn [hd].
  assert (It : In c0 (k1 (Par p))) by (rewrite Ek; simpl; auto).
  assert (X : forall l1 c l2 (f2 : dom -> ab (nat * dom)),
     n :: rest = l1 ++ c :: l2 ->
     (forall y d3, remove_node c y = Ok d3 -> midst True p d k d3 (upk k1 (Flo n) (l1 ++ l2)) -> P p d3 -> stq (P p) Q (f2 y)) ->
     stq (P p) Q
       (do* nd := pure (get_node d1 c) in
        if is_text nd then
          do* '(m, d) := c_try_merge c0 (n_id nd) false d1 in
          if (m : bool) then f2 d else (do* d := c_prepend_refs p n d in a_ret (n, d))
        else (do* d := c_prepend_refs p n d1 in a_ret (n, d)))).
  { intros l1 c l2 f2 El H2.
    assert (Ic : In c (n :: rest)) by (rewrite El; apply in_elt).
    destruct (frag_node d1 k1 G1 n p rest Top Hp (fr_gt _ _ _ _ _ F) (fr_leaf _ _ _ _ _ F) f_old c Ic) as (nd & Em & Hid & Hty).
    eapply stq_pbind; [exact Em|]. rewrite Hid. destruct (is_text nd); auto.
    destruct (text_of d1 c) as [s|] eqn:Ts; [|discriminate].
    apply stq_bind. { intros d' I. apply try_merge_st in I. subst. exact f_d1. }
    intros [b y] Ey. rewrite s_try_merge in Ey.
    destruct b.
    - assert (Tt : exists old, text_of d1 c0 = Some old).
      { rewrite (try_merge_ok d1 k1 _ c false s G1) in Ey; auto.
        - destruct (text_of d1 c0); [eauto|discriminate].
        - apply (kw_bound _ _ (inv_kw _ _ (g_inv _ _ G1))) in It. lia. }
      destruct Tt as (old & Tt).
      destruct (f_merge l1 c l2 c0 s old false El It Ts Tt) as (y' & d3 & E1 & Gy & E3 & M3 & Ns).
      rewrite Ey in E1. injection E1 as <-. apply (H2 y d3); [exact E3|exact M3|eapply seen_pst; eauto; rewrite Ek; simpl; auto].
    - apply try_merge_false in Ey. subst y. auto. }
  rewrite (last_rest_ltb d1 k1 n rest Top (fr_gt _ _ _ _ _ F) (fr_leaf _ _ _ _ _ F)). 
  destruct (rest_cases rest) as [Er|(r & l' & Er)]; rewrite Er.
  - apply (X [] n [] (fun y => do* d := pure (remove_node n y) in a_ret (c0, d))).
    { now rewrite Er. }
    intros y d3 E3 _ _. eapply stq_pbind; [exact E3|]. apply stq_ret.
  - rewrite last_cons.
    destruct (exists_last (l := r :: l') ltac:(discriminate)) as (m & z & Ez).
    assert (El : last l' r = z). { rewrite <- (last_cons l' r 0), Ez. apply List.last_last. }
    apply (X (n :: m) (last l' r) [] (fun y => do* d3 := pure (remove_node (last l' r) y) in
       (do* d4 := c_prepend_refs p n d3 in a_ret (n, d4)))).
    { rewrite Er, Ez, El. reflexivity. }
    intros y d3 E3 M3 Ps. eapply stq_pbind; [exact E3|].
    intros d' I. destruct (finish_prepend d k True p d3 _ n n m n M3 Ps) with (d' := d') as [?|([v e] & ? & ?)]; auto.
    { rewrite upk_eq. now rewrite app_nil_r. }
    { intros c [<-|Ic]; [auto|]. apply f_ge. rewrite Er, Ez. right. apply in_or_app; auto. }
    right. exists (v, e). unfold Q. eauto.
Qed.

Section Rep.
Context (old : nat) (l1 l2 : list nat) (Ek : k (Par p) = l1 ++ old :: l2).
Let Ek1 : k1 (Par p) = l1 ++ old :: l2.
Proof. now rewrite f_kp. Qed.
Let old_lt : old < n.
Proof. apply f_old. rewrite Ek1. apply in_elt. Qed.

Lemma f_rep1 d3 : Good d3 (upk k1 (Flo n) (T1 d1 n rest l1)) -> length (nodes d3) = length (nodes d1) ->
  merged (m_first d1 n l1) n d1 d3 -> keeps_but d1 d3 (touched (m_first d1 n l1) n) ->
  midst True p d k d3 (upk k1 (Flo n) (T1 d1 n rest l1)).
Proof.
  intros G3 L3 M3 C3. eapply midst_step; [exact f_mid|exact G3|exact L3| |].
  - intros q _. now rewrite upk_neq by discriminate.
  - intros i Hi. unfold merged, touched in *. destruct (m_first d1 n l1) as [[c x]|] eqn:Em.
    + destruct (Nat.eq_dec i c) as [->|Nc].
      * right. unfold m_first in Em. destruct (text_of d1 n) as [s|] eqn:Es; [|discriminate].
        destruct (text_merge_target d1 (last_error l1)) as [[c' o]|] eqn:Et; [|discriminate].
        injection Em as -> <-. apply tmt_in in Et as [Et To]. apply last_error_in in Et.
        split; [rewrite Ek; apply in_or_app; auto|]. split; [eapply dbr_content; eauto; lia|].
        exists o, s. split; auto. left. apply M3.
      * left. apply C3. intros [<-|[<-|[]]]; [easy|lia].
    + left. apply C3. intros [].
Qed.
Lemma f_rep1_same x d3 : m_first d1 n l1 = None ->
  (let* nd := get_node d1 n in
   if is_text nd then
     match prev_idx old d1 with
     | Some i =>
         let* '(m, d) := try_merge (fst (at_idx (nexts d1) i)) (n_id nd) true d1 in
         if (m : bool) then
           let second := get_next n d in
           let* d := remove_node n d in
           Ok (second, d)
         else Ok (n, d)
     | None => Ok (n, d1)
     end
   else Ok (n, d1)) = Ok (x, d3) -> d3 = d1.
Proof.
  intros Em E.
  destruct (frag_node d1 k1 G1 n p rest Top Hp (fr_gt _ _ _ _ _ F) (fr_leaf _ _ _ _ _ F) f_old n ltac:(simpl; auto)) as (nd & En & Hid & Hty).
  rewrite En in E. cbn [bind] in E. rewrite Hid, Hty in E. unfold m_first in Em.
  destruct (text_of d1 n) as [s|] eqn:Es; [|now injection E].
  pose proof (prev_at (g_inv _ _ G1) (Par p) l1 old l2 Ek1) as Pv.
  destruct (last_error l1) as [t|] eqn:El; [|rewrite Pv in E; now injection E].
  destruct Pv as (i & Ei & Hi). rewrite Ei, (at_idx_nth _ _ _ Hi) in E. cbn [fst] in E.
  assert (Hin : In t (k1 (Par p))) by (rewrite Ek1; apply in_or_app; left; now apply last_error_in).
  assert (Htl : t < length (nodes d1)).
  { apply (kw_bound _ _ (inv_kw _ _ (g_inv _ _ G1))) in Hin. lia. }
  cbn [text_merge_target] in Em.
  destruct (text_of d1 t) as [o|] eqn:Eo; [discriminate|].
  rewrite (try_merge_ok d1 k1 t n true s G1 Htl Es), Eo in E. cbn [bind] in E. now injection E.
Qed.
Lemma f_rep1_pst d3 : midst True p d k d3 (upk k1 (Flo n) (T1 d1 n rest l1)) ->
  merged (m_first d1 n l1) n d1 d3 -> (m_first d1 n l1 = None -> d3 = d1) -> P p d3.
Proof.
  intros Md M3 U. destruct (m_first d1 n l1) as [[c x]|] eqn:Em.
  - unfold m_first in Em. destruct (text_of d1 n) as [s|] eqn:Es; [|discriminate].
    destruct (text_merge_target d1 (last_error l1)) as [[c' o]|] eqn:Et; [|discriminate].
    injection Em as -> <-. apply tmt_in in Et as [Et To]. apply last_error_in in Et.
    assert (It : In c (k1 (Par p))) by (rewrite Ek1; apply in_or_app; auto).
    eapply seen_pst; [exact Md|exact It|]. apply (not_same c d3 o s); auto. left. apply M3.
  - rewrite (U eq_refl). exact f_d1.
Qed.
Lemma f_rep2 d3 d4 : rest <> [] -> midst True p d k d3 (upk k1 (Flo n) (T1 d1 n rest l1)) ->
  keeps_but d1 d3 (touched (m_first d1 n l1) n) ->
  length (nodes d3) = length (nodes d1) ->
  Good d4 (upk k1 (Flo n) (T2 d1 n rest l1 l2)) -> length (nodes d4) = length (nodes d1) ->
  merged (m_last d1 n rest l2) (last rest n) d1 d4 ->
  keeps_but d3 d4 (touched (m_last d1 n rest l2) (last rest n)) ->
  midst True p d k d4 (upk k1 (Flo n) (T2 d1 n rest l1 l2)).
Proof.
  intros Hr H C3 L3 G4 L4 M4 C4.
  assert (Hlast : n <= last rest n).
  { apply f_ge. destruct (rest_cases rest) as [->|(r & l' & ->)]; [easy|].
    rewrite last_cons. right. apply last_error_in. now apply last_last. }
  eapply midst_step; [exact H|exact G4|congruence| |].
  - intros q _. now rewrite !upk_neq by discriminate.
  - intros i Hi. unfold merged, touched in M4, C4. destruct (m_last d1 n rest l2) as [[c x]|] eqn:Em.
    + destruct (Nat.eq_dec i c) as [->|Nc].
      * right. unfold m_last in Em. destruct (text_of d1 (last rest n)) as [s|] eqn:Es; [|discriminate].
        destruct (text_merge_target d1 (hd_error l2)) as [[c' o]|] eqn:Et; [|discriminate].
        injection Em as -> <-. apply tmt_in in Et as [Et To]. apply hd_error_in in Et.
        assert (S13 : same_content d1 d3 c).
        { apply C3. unfold touched. destruct (m_first d1 n l1) as [[c1 x1]|] eqn:Em1; [|intros []].
          intros [->|[Q9|[]]]; [|lia].
          unfold m_first in Em1. destruct (text_of d1 n) as [s1|] eqn:Es1; [|discriminate].
          destruct (text_merge_target d1 (last_error l1)) as [[c'' o1]|] eqn:Et1; [|discriminate].
          injection Em1 as -> <-. apply tmt_in in Et1 as [Et1 _]. apply last_error_in in Et1.
          pose proof (kw_nodup _ _ (inv_kw _ _ (g_inv _ _ G)) (Par p)) as ND. rewrite Ek in ND.
          apply NoDup_remove_1 in ND. clear -ND Et Et1.
          induction l1 as [|a m IH]; [easy|]. simpl in ND. apply NoDup_cons_iff in ND as [N1 N2].
          destruct Et1 as [->|I]; auto. apply N1. apply in_or_app; auto. }
        assert (Sd : same_content d d3 c).
        { eapply same_content_trans; [|exact S13]. eapply dbr_content; eauto; lia. }
        split; [rewrite Ek; apply in_or_app; simpl; auto|]. split; auto.
        apply content_parts in S13 as (Q1 & Q2 & Q3 & Q4 & Q5).
        exists o, s. split; [congruence|]. right. unfold retexted in *. rewrite Q4, Q5. apply M4.
      * left. apply C4. intros [<-|[<-|[]]]; [easy|lia].
    + left. apply C4. intros [].
Qed.

Lemma j_replace_frag : replace_guard d1 n rest l1 l2 ->
  stq (P p) (fun '(_, e) d' => exists N, links True d k p l1 N l2 [old] e d')
   (do* last_new := pure (get_last_next n d1) in
    let pv := prev_idx old d1 in
    let finish fn d := (do* d := c_replace_refs old fn d in a_ret (fn, d)) in
    if n <? last_new then
      do* nd := pure (get_node d1 n) in
      do* '(fn, d) :=
        (if is_text nd then
           match pv with
           | Some i =>
               do* '(m, d) :=
                 c_try_merge (fst (at_idx (nexts d1) i)) (n_id nd) true d1 in
               if (m : bool) then
                 let second := get_next n d in
                 do* d := pure (remove_node n d) in
                 a_ret (second, d)
               else a_ret (n, d)
           | None => a_ret (n, d1)
           end
         else a_ret (n, d1)) in
      do* nd := pure (get_node d last_new) in
      do* d :=
        (if is_text nd then
           match next_idx old d with
           | Some j =>
               do* '(m, d) :=
                 c_try_merge (snd (at_idx (nexts d) j)) last_new false d in
               if (m : bool) then pure (remove_node last_new d) else a_ret d
           | None => a_ret d
           end
         else a_ret d) in
      finish fn d
    else
      do* '(m, d) := c_try_merge_both old n d1 in
      if (m : bool) then
        do* d := pure (remove_node n d) in
        do* d := pure (remove_node old d) in
        match pv with
        | Some i => a_ret (fst (at_idx (nexts d) i), d)
        | None => pure (Undef NullDeref)
        end
      else finish n d).
Proof.
  intros [_ Hg]. eapply stq_pbind; [exact (get_last_next_at (g_inv _ _ G1) (Flo n) [] n rest Top)|].
  cbv zeta. set (Q := fun '(_, e) d' => exists N, links True d k p l1 N l2 [old] e d').
  rewrite (last_rest_ltb d1 k1 n rest Top (fr_gt _ _ _ _ _ F) (fr_leaf _ _ _ _ _ F)). 
  destruct (rest_cases rest) as [Er|(r & l' & Er)].
  - rewrite Er. apply stq_bind. { intros d' I. apply both_st in I. subst. exact f_d1. }
    intros [b y] Ey. rewrite s_try_both in Ey. destruct b.
    + apply stq_bind; [easy|]. intros y2 _. apply stq_bind; [easy|]. intros y3 _.
      destruct (prev_idx old d1); [apply stq_ret|apply stq_pure].
    + apply both_false in Ey. subst y. apply stq_bind; [|intros; apply stq_ret].
      intros d' I. rewrite (replace_one d k G True p d1 k1 n n old l1 l2 f_mid) in I; auto; [destruct I|].
      rewrite Top, Er. reflexivity.
  - assert (Hr : rest <> []) by (rewrite Er; discriminate). specialize (Hg Hr).
    assert (Eb : (match rest with [] => false | _ :: _ => true end) = true) by now rewrite Er.
    rewrite Eb.
    destruct (rep_step1 d1 k1 G1 n p rest Top Hp (fr_gt _ _ _ _ _ F) (fr_leaf _ _ _ _ _ F) f_old old l1 l2 Ek1 Hr)
      as (d3 & E3 & G3 & L3 & M3 & C3).
    destruct (rep_step2 d1 k1 G1 n p rest Top Hp (fr_gt _ _ _ _ _ F) (fr_leaf _ _ _ _ _ F) f_old old l1 l2 Ek1 d3 Hr G3 L3 C3)
      as (d4 & E4 & G4 & L4 & M4 & C4).
    pose proof (f_rep1 d3 G3 L3 M3 C3) as Md3.
    pose proof (f_rep1_pst d3 Md3 M3 (fun U => f_rep1_same _ d3 U E3)) as Ps3.
    pose proof (f_rep2 d3 d4 Hr Md3 C3 L3 G4 L4 M4 C4) as Md4.
    apply bind_ok in E3 as (nd & En & E3). eapply stq_pbind; [exact En|].
    apply stq_bind.
    { intros d' I. destruct (is_text nd); [|destruct I]. destruct (prev_idx old d1); [|destruct I].
      apply in_bind in I as [I|([b y] & _ & I)].
      - apply try_merge_st in I. subst. exact f_d1.
      - destruct b; [|destruct I]. apply in_bind in I as [I|(? & _ & I)]; destruct I. }
    intros [fn y] Ey.
    assert (Efy : Ok (fn, y) = Ok (hd 0 (T1 d1 n rest l1), d3)).
    { rewrite <- Ey, <- E3. destruct (is_text nd); [|reflexivity]. destruct (prev_idx old d1); [|reflexivity].
      rewrite snd_bind, s_try_merge. apply bind_ext. intros [[] z]; [|reflexivity]. now rewrite snd_bind. }
    injection Efy as -> ->. clear Ey.
    apply bind_ok in E4 as (nd2 & En2 & E4). eapply stq_pbind; [exact En2|].
    apply stq_bind.
    { intros d' I. assert (d' = d3); [|subst; exact Ps3].
      destruct (is_text nd2); [|destruct I]. destruct (next_idx old d3); [|destruct I].
      apply in_bind in I as [I|([b y] & _ & I)].
      - now apply try_merge_st in I.
      - destruct b; destruct I. }
    intros y Ey.
    assert (Ok y = Ok d4).
    { rewrite <- Ey, <- E4. destruct (is_text nd2); [|reflexivity]. destruct (next_idx old d3); [|reflexivity].
      rewrite snd_bind, s_try_merge. apply bind_ext. intros [[] z]; reflexivity. }
    injection H as ->.
    assert (HT : exists b, T2 d1 n rest l1 l2 = hd 0 (T1 d1 n rest l1) :: b).
    { unfold T2 in *. destruct (m_last d1 n rest l2).
      - destruct (T1 d1 n rest l1) as [|a [|b T]]; simpl in *; try congruence. eauto.
      - destruct (T1 d1 n rest l1) as [|a T]; simpl in *; try congruence. eauto. }
    destruct HT as [b Hb].
    intros d' I. destruct (finish_replace d k G True p d4 _ n (hd 0 (T1 d1 n rest l1)) b old l1 l2 (hd 0 (T1 d1 n rest l1)) Md4)
      with (d' := d') as [?|([v e] & ? & ?)]; auto.
    { now rewrite upk_eq. }
    { rewrite <- Hb. intros c Ic. apply f_ge. unfold T2 in Ic.
      assert (In c (T1 d1 n rest l1)).
      { destruct (m_last d1 n rest l2); auto. destruct (T1 d1 n rest l1) as [|a T]; [destruct Ic|].
        rewrite (app_removelast_last 0) by discriminate. apply in_or_app. auto. }
      unfold T1 in H. destruct (m_first d1 n l1); simpl; auto. }
    right. exists (v, e). unfold Q. eauto.
Qed.
End Rep.
End Frag.
End Html.
