(** * The parent table under the editing calls other than prepend. *)
From Coq Require Import List NArith Arith Bool Lia.
From Verif Require Import Base TrieModel DomModel ParserModel EditModel DomSpec ApiSpec
  Lemmas TrieProofs Tables Inv Surgery Attach Replace Link RegProofs ParseSafe ParseTree Walk ParseLoop
  EditProofs EditOps EditHtml EditUser ApiProofs Grow SizeEdit Zeroed ParentTab Size LifeSpec.
Import ListNotations.
Local Open Scope nat_scope.

Definition PLs (m : nat) {A} (r : A * dom) : Prop := PL m (snd r).
Lemma okq_ret {A} (P : A -> Prop) x : P x -> okq P (Ok x). Proof. auto. Qed.
Lemma try_merge_false t s a d d' : try_merge t s a d = Ok (false, d') -> d' = d.
Proof.
  unfold try_merge. destruct (get_node d t) as [n| | |]; cbn; try discriminate. destruct (is_text n); [|congruence].
  destruct (get_node d s) as [m| | |]; cbn; try discriminate. destruct (node_text m) as [x| | |]; cbn; try discriminate.
  destruct (add_text_to_text_node _ _ _ _); cbn; discriminate.
Qed.
Lemma try_both_false o x d d' : try_merge_both o x d = Ok (false, d') -> d' = d.
Proof.
  unfold try_merge_both. destruct (get_node d x) as [n| | |]; cbn; try discriminate. destruct (is_text n); [|congruence].
  assert (T : forall d0 d'', match next_idx o d0 with Some j => try_merge (snd (at_idx (nexts d0) j)) (n_id n) false d0
       | None => Ok (false, d0) end = Ok (false, d'') -> d'' = d0).
  { intros d0 d''. destruct (next_idx o d0); [apply try_merge_false|congruence]. }
  destruct (prev_idx o d); [|apply T].
  destruct (try_merge _ _ _ d) as [[[] d1]| | |] eqn:E; cbn; try discriminate.
  apply try_merge_false in E. subst d1. apply T.
Qed.
Lemma pt_try_merge m t s a d : PL m d -> okq (fun r => PL m (snd r) /\ (fst r = false -> snd r = d)) (try_merge t s a d).
Proof.
  intros H. pose proof (fl_try_merge t s a d) as F. destruct (try_merge t s a d) as [[b d']| | |] eqn:E; cbn [bind okq fst snd] in *; auto.
  split; [eapply flat_PL; eauto|]. intros ->. eapply try_merge_false; eauto.
Qed.
Lemma pt_try_both m o x d : PL m d -> okq (fun r => PL m (snd r) /\ (fst r = false -> snd r = d)) (try_merge_both o x d).
Proof.
  intros H. pose proof (fl_try_both o x d) as F. destruct (try_merge_both o x d) as [[b d']| | |] eqn:E; cbn [bind okq fst snd] in *; auto.
  split; [eapply flat_PL; eauto|]. intros ->. eapply try_both_false; eauto.
Qed.

(** ** One new node *)
Section One.
  Context (d : dom) (k : kids) (G : Good d k) (d1 : dom) (x : nat) (A : added d d1 x) (m : nat) (H : PL m d1).
  Lemma one_append p : 1 <= p < length (nodes d) -> okq (PLs (S m)) (let* d := append_refs p x d1 in Ok (x, d)).
  Proof.
    intros Hp. destruct (new_facts d k G d1 x A) as (G1 & Hf & Hfree & Hx & Hk & Hl & Hxl).
    destruct (append_refs p x d1) as [d2| | |] eqn:E; cbn; auto.
    red. cbn. eapply (pl_append m d1 _ p x x []); eauto.
    all: try apply upk_eq.
    intros c [<-|[]]. lia.
  Qed.
  Lemma one_replace p old l1 l2 : k (Par p) = l1 ++ old :: l2 -> okq (PLs m) (let* d := replace_refs old x d1 in Ok (x, d)).
  Proof.
    intros Ek. destruct (new_facts d k G d1 x A) as (G1 & Hf & Hfree & Hx & Hk & Hl & Hxl).
    destruct (replace_refs old x d1) as [d2| | |] eqn:E; cbn; auto.
    assert (Hin : In old (k (Par p))) by (rewrite Ek; apply in_elt).
    pose proof (inv_kw _ _ (g_inv _ _ G)) as W.
    pose proof (kw_order _ _ W _ _ Hin). pose proof (kw_bound _ _ W _ _ Hin).
    red. cbn. eapply (pl_replace m d1 _ p x x [] old l1 l2); eauto.
    all: try apply upk_eq; try (unfold floated; rewrite upk_neq by discriminate; exact Ek).
    intros c [<-|[]]. lia.
  Qed.
End One.

Lemma pt_append_doc m d k p dn : Good d k -> PL m d -> 1 <= p < length (nodes d) -> okq (PLs (S m)) (append_document_node p dn d).
Proof.
  intros G H Hp. unfold append_document_node. pose proof (on_document_element dn d) as O.
  pose proof (parse_document_element_ok dn d (g_reg _ _ G)) as S.
  destruct (parse_document_element dn d) as [[x d1]| | |]; cbn [bind okq fst snd] in *; auto.
  apply elem_added_added in S. apply (one_PL m) in O; auto.
  destruct (x =? 0); [eapply PL_le; [exact O|lia]|]. eapply one_append; eauto.
Qed.
Lemma pt_replace_doc m d k p old l1 l2 dn : Good d k -> PL m d -> k (Par p) = l1 ++ old :: l2 -> okq (PLs (m)) (replace_with_document_node old dn d).
Proof.
  intros G H Hp. unfold replace_with_document_node. pose proof (on_document_element dn d) as O.
  pose proof (parse_document_element_ok dn d (g_reg _ _ G)) as S.
  destruct (parse_document_element dn d) as [[x d1]| | |]; cbn [bind okq fst snd] in *; auto.
  apply elem_added_added in S. apply (one_PL m) in O; auto.
  destruct (x =? 0); [eapply PL_le; [exact O|lia]|]. eapply one_replace; eauto.
Qed.
Lemma pt_append_text m d k p s : Good d k -> PL m d -> 1 <= p < length (nodes d) -> okq (PLs (S m)) (append_text_node p s d).
Proof.
  intros G H Hp. unfold append_text_node. pose proof (on_text_element s d) as O.
  pose proof (parse_text_element_ok s d) as S.
  destruct (parse_text_element s d) as [[x d1]| | |]; cbn [bind okq fst snd] in *; auto.
  apply text_added_added in S; [|apply G]. apply (one_PL m) in O; auto.
  destruct (x =? 0); [eapply PL_le; [exact O|lia]|]. destruct (0 <? _); [|eapply one_append; eauto].
  destruct (get_last_next _ d1) as [c| | |]; cbn [bind okq]; auto.
  pose proof (pt_try_merge m c x true d1 O) as T. destruct (try_merge c x true d1) as [[[] d2]| | |]; cbn [bind okq fst snd] in *; auto.
  - destruct T as [T _]. eapply okq_bind; [apply pl_remove; exact T|]. intros d3 H3. eapply PL_le; [exact H3|lia].
  - destruct T as [_ T]. rewrite (T eq_refl). eapply one_append; eauto.
Qed.
Lemma pt_replace_text m d k p old l1 l2 s : Good d k -> PL m d -> k (Par p) = l1 ++ old :: l2 -> okq (PLs (m)) (replace_with_text_node old s d).
Proof.
  intros G H Hp. unfold replace_with_text_node. pose proof (on_text_element s d) as O.
  pose proof (parse_text_element_ok s d) as S.
  destruct (parse_text_element s d) as [[x d1]| | |]; cbn [bind okq fst snd] in *; auto.
  apply text_added_added in S; [|apply G]. apply (one_PL m) in O; auto.
  destruct (x =? 0); [eapply PL_le; [exact O|lia]|].
  pose proof (pt_try_both m old x d1 O) as T. destruct (try_merge_both old x d1) as [[[] d2]| | |]; cbn [bind okq fst snd] in *; auto.
  - destruct T as [T _]. eapply okq_bind; [apply pl_remove; exact T|]. intros d3 H3.
    eapply okq_bind; [apply pl_remove; exact H3|]. intros d4 H4. exact H4.
  - destruct T as [_ T]. rewrite (T eq_refl). eapply one_replace; eauto.
Qed.
Lemma pt_set_text m d k p s : Good d k -> PL m d -> 1 <= p < length (nodes d) -> okq (PL (S m)) (set_text_content p s d).
Proof.
  intros G H Hp. unfold set_text_content.
  destruct (remove_children_good d k p G ltac:(lia)) as (d1 & E & G1 & _). rewrite E. cbn.
  pose proof (pl_remove_children m p d H) as H1. rewrite E in H1. cbn in H1.
  pose proof (on_text_element s d1) as O. destruct (parse_text_element s d1) as [[x d2]| | |]; cbn [bind okq fst snd] in *; auto.
  pose proof (one_PL _ _ _ _ O H1) as [[O2 U2 I2] LL]. destruct O as (Ex & L & P & N & _).
  split; [|cbn; rewrite app_length; cbn; lia]. constructor; cbn; [| |exact I2].
  - apply once_app; auto.
    + cbn. repeat constructor. auto.
    + intros a a' b Hb [X|[]]. injection X as <- <-. rewrite P in Hb. apply (Good_PTb _ _ G1) in Hb. lia.
  - intros a b B Hi K. apply in_app_or in Hi as [Hi|[X|[]]]; [exact (U2 a b B Hi K)|]. injection X as <- <-.
    change (kind d2 x = Some TRemoved) in K. apply N in K. unfold kind in K.
    destruct (nth_error (nodes d1) x) eqn:En; [|discriminate].
    assert (x < length (nodes d1)) by (apply nth_error_Some; congruence). lia.
Qed.

(** ** Fragments *)
Section Frag.
  Context (d : dom) (k : kids) (G : Good d k) (m : nat) (H : PL m d) (n0 p : nat) (rest : list nat).
  Context (Htop : k (Flo n0) = n0 :: rest).
  Context (Hp : 1 <= p < n0).
  Context (Hgt : forall c, In c rest -> n0 < c).
  Context (Hleaf : forall c s, In c (n0 :: rest) -> text_of d c = Some s -> k (Par c) = []).
  Context (Hold : forall c, In c (k (Par p)) -> c < n0).
  Let W := inv_kw _ _ (g_inv _ _ G).


  Lemma pf_chain c : In c (n0 :: rest) -> 1 <= p < c.
  Proof. intros [<-|Hc]; [lia|]. apply Hgt in Hc. lia. Qed.
  Lemma pf_plain : okq (PLs (S (length rest) + m)) (let* d := append_refs p n0 d in Ok (n0, d)).
  Proof.
    destruct (append_refs p n0 d) as [d2| | |] eqn:E; cbn; auto. red. cbn.
    exact (pl_append m d k p n0 n0 rest d2 G Htop pf_chain H E).
  Qed.
  Lemma pf_append :
    okq (PLs (S (length rest) + m))
     (let fc := get_first_child p d in
      let finish first_new d :=
        (let* d := append_refs p first_new d in Ok (first_new, d)) in
      if 0 <? fc then
        let* last_new := get_last_next n0 d in
        let* n := get_node d n0 in
        if n0 <? last_new then
          if is_text n then
            let* ln := get_last_next fc d in
            let* '(m, d) := try_merge ln (n_id n) true d in
            if (m : bool) then
              let second := get_next n0 d in
              let* d := remove_node n0 d in
              finish second d
            else finish n0 d
          else finish n0 d
        else
          if is_text n then
            let* ln := get_last_next fc d in
            let* '(m, d) := try_merge ln (n_id n) true d in
            if (m : bool) then
              let* d := remove_node n0 d in Ok (ln, d)
            else finish n0 d
          else finish n0 d
      else finish n0 d).
  Proof.
    cbv zeta. pose proof pf_plain as HPl. remember (S (length rest) + m) as B eqn:EB. rewrite (get_first_child_at (g_inv _ _ G) p) by lia.
    destruct (k (Par p)) as [|c0 l] eqn:Ek in |- *.
    - exact HPl.
    - assert (Hc0 : c0 <> 0) by (apply (k_nz (g_inv _ _ G) (Par p)); rewrite Ek; simpl; auto).
      destruct (Nat.ltb_spec 0 c0); [|lia].
      rewrite (get_last_next_at (g_inv _ _ G) (Flo n0) [] n0 rest Htop). cbn [bind].
      destruct (frag_node d k G n0 p rest Htop Hp Hgt Hleaf Hold n0 ltac:(simpl; auto)) as (mm & Em & Hid & Hty).
      rewrite Em. cbn [bind]. rewrite Hid, Hty, (last_rest_ltb d k n0 rest Htop Hgt Hleaf).
      rewrite (get_last_next_at (g_inv _ _ G) (Par p) [] c0 l Ek). cbn [bind].
      set (t := last l c0).
      assert (Hlast : last_error (c0 :: l) = Some t) by (apply last_last; auto).
      assert (Hin : In t (k (Par p))) by (rewrite Ek; apply last_error_in; auto).
      assert (Htl : t < length (nodes d)) by (apply (kw_bound _ _ W) in Hin; lia).
      destruct (text_of d n0) as [s|] eqn:Es.
      2:{ destruct rest in |- *; exact HPl. }
      destruct (text_of d t) as [old|] eqn:Eo.
      2:{ rewrite (try_merge_ok d k t n0 true s G Htl Es), Eo. cbn [bind].
          destruct rest in |- *; exact HPl. }
      destruct (merge_top d k G n0 p rest Htop Hp Hgt Hleaf Hold [] n0 rest t s old true eq_refl Hin Es Eo)
        as (E1 & G1 & d3 & E3 & G3 & L3 & T3 & R3 & C3).
      pose proof (fl_try_merge t n0 true d) as F. rewrite E1 in F |- *. cbn [bind okq] in F |- *. simpl app in G3.
      apply (flat_PL m) in F; [|exact H].
      pose proof (pl_remove m n0 _ F) as H3. rewrite E3 in H3. cbn [okq] in H3.
      destruct rest as [|r l'] eqn:Er in G3 |- *.
      + rewrite E3. eapply PL_le; [exact H3|lia].
      + rewrite (get_next_at (g_inv _ _ G1) (Flo n0) [] n0 (r :: l')) by (rewrite Htop, Er; reflexivity).
        rewrite E3. cbn [bind].
        destruct (append_refs p r d3) as [d4| | |] eqn:E4; cbn; auto. red. cbn.
        assert (X : PL (S (length l') + m) d4).
        { refine (pl_append m d3 _ p n0 r l' d4 G3 _ _ H3 E4); [apply upk_eq|].
          intros c Hc. apply pf_chain. right. now rewrite Er. }
        eapply PL_le; [exact X|]. rewrite EB, Er. cbn. lia.
  Qed.

  Context (old : nat) (l1 l2 : list nat) (Ek : k (Par p) = l1 ++ old :: l2).
  Lemma pf_rplain : okq (PLs (length rest + m)) (let* d := replace_refs old n0 d in Ok (n0, d)).
  Proof.
    destruct (replace_refs old n0 d) as [d2| | |] eqn:E; cbn; auto. red. cbn.
    exact (pl_replace m d k p n0 n0 rest old l1 l2 d2 G Htop pf_chain Ek H E).
  Qed.
  Lemma pf_replace : replace_guard d n0 rest l1 l2 ->
    okq (PLs (length rest + m))
     (let* last_new := get_last_next n0 d in
      let pv := prev_idx old d in
      let finish fn d := (let* d := replace_refs old fn d in Ok (fn, d)) in
      if n0 <? last_new then
        let* n := get_node d n0 in
        let* '(fn, d) :=
          (if is_text n then
             match pv with
             | Some i =>
                 let* '(m, d) :=
                   try_merge (fst (at_idx (nexts d) i)) (n_id n) true d in
                 if (m : bool) then
                   let second := get_next n0 d in
                   let* d := remove_node n0 d in
                   Ok (second, d)
                 else Ok (n0, d)
             | None => Ok (n0, d)
             end
           else Ok (n0, d)) in
        let* n := get_node d last_new in
        let* d :=
          (if is_text n then
             match next_idx old d with
             | Some j =>
                 let* '(m, d) :=
                   try_merge (snd (at_idx (nexts d) j)) last_new false d in
                 if (m : bool) then remove_node last_new d else Ok d
             | None => Ok d
             end
           else Ok d) in
        finish fn d
      else
        let* '(m, d) := try_merge_both old n0 d in
        if (m : bool) then
          let* d := remove_node n0 d in
          let* d := remove_node old d in
          match pv with
          | Some i => Ok (fst (at_idx (nexts d) i), d)
          | None => Undef NullDeref
          end
        else finish n0 d).
  Proof.
    intros [Hg1 Hg2]. pose proof pf_rplain as HPl. remember (length rest + m) as B eqn:EB.
    rewrite (get_last_next_at (g_inv _ _ G) (Flo n0) [] n0 rest Htop). cbn [bind]. cbv zeta.
    rewrite (last_rest_ltb d k n0 rest Htop Hgt Hleaf). set (lt := last rest n0).
    destruct rest as [|r l'] eqn:Er in |- *.
    - pose proof (pt_try_both m old n0 d H) as T.
      destruct (try_merge_both old n0 d) as [[[] d2]| | |]; cbn [bind okq fst snd] in T |- *; auto.
      + destruct T as [T _]. eapply okq_bind; [apply pl_remove; exact T|]. intros d3 H3.
        eapply okq_bind; [apply pl_remove; exact H3|]. intros d4 H4.
        destruct (prev_idx old d); [eapply PL_le; [exact H4|lia]|exact Logic.I].
      + destruct T as [_ T]. rewrite (T eq_refl). exact HPl.
    - assert (Hr : rest <> []) by (rewrite Er; discriminate).
      destruct (rep_step1 d k G n0 p rest Htop Hp Hgt Hleaf Hold old l1 l2 Ek Hr) as (d3 & E3 & G3 & L3 & M3 & K3).
      assert (H3 : PL m d3).
      { clear - E3 H. destruct (get_node d n0) as [n| | |]; cbn [bind] in E3; try discriminate.
        destruct (is_text n); [|injection E3 as _ <-; exact H].
        destruct (prev_idx old d) as [i|]; [|injection E3 as _ <-; exact H].
        pose proof (pt_try_merge m (fst (at_idx (nexts d) i)) (n_id n) true d H) as T.
        destruct (try_merge _ _ true d) as [[[] d2]| | |]; cbn [bind okq fst snd] in *; try discriminate; destruct T as [T T'].
        - pose proof (pl_remove m n0 d2 T) as R. destruct (remove_node n0 d2) as [d4| | |]; cbn in *; try discriminate.
          injection E3 as _ <-. exact R.
        - injection E3 as _ <-. exact T. }

      destruct (frag_node d k G n0 p rest Htop Hp Hgt Hleaf Hold n0 ltac:(simpl; auto)) as (mm & Em & Hid & Hty).
      rewrite Em in E3 |- *. cbn [bind] in E3 |- *. rewrite E3. cbn [bind].
      destruct (rep_step2 d k G n0 p rest Htop Hp Hgt Hleaf Hold old l1 l2 Ek d3 Hr G3 L3 K3) as (d4 & E4 & G4 & L4 & M4 & K4).
      fold lt in E4.
      assert (H4 : PL m d4).
      { clear - E4 H3. destruct (get_node d3 lt) as [n| | |]; cbn [bind] in E4; try discriminate.
        destruct (is_text n); [|injection E4 as <-; exact H3].
        destruct (next_idx old d3) as [i|]; [|injection E4 as <-; exact H3].
        pose proof (pt_try_merge m (snd (at_idx (nexts d3) i)) lt false d3 H3) as T.
        destruct (try_merge _ _ false d3) as [[[] d2]| | |]; cbn [bind okq fst snd] in *; try discriminate; destruct T as [T T'].
        - pose proof (pl_remove m lt d2 T) as R. rewrite E4 in R. exact R.
        - injection E4 as <-. exact T. }
      destruct (get_node d3 lt) as [m'| | |]; try discriminate. cbn [bind] in E4 |- *.
      rewrite E4. cbn [bind].
      assert (HT : exists b, T2 d n0 rest l1 l2 = hd 0 (T1 d n0 rest l1) :: b).
      { specialize (Hg2 Hr). unfold T2 in *. destruct (m_last _ _ _ _).
        - destruct (T1 d n0 rest l1) as [|a [|b T]]; simpl in *; try congruence. eauto.
        - destruct (T1 d n0 rest l1) as [|a T]; simpl in *; try congruence. eauto. }
      destruct HT as [b Hb].
      assert (HTin : forall c, In c (T2 d n0 rest l1 l2) -> In c (n0 :: rest)).
      { intros c Hc. apply (T1_incl d n0 rest l1). unfold T2 in Hc. destruct (m_last _ _ _ _); auto.
        destruct (T1 d n0 rest l1) as [|a T] eqn:ET; [destruct Hc|].
        rewrite (app_removelast_last 0) by discriminate. apply in_or_app. auto. }
      destruct (replace_refs old (hd 0 (T1 d n0 rest l1)) d4) as [d5| | |] eqn:E5; cbn; auto. red. cbn.
      assert (Lb : length b <= length rest).
      { assert (Lt : length (T2 d n0 rest l1 l2) <= S (length rest)).
        { assert (L1 : length (T1 d n0 rest l1) <= S (length rest)) by (unfold T1; destruct (m_first _ _ _); cbn; lia).
          unfold T2. destruct (m_last _ _ _ _); [|exact L1].
          destruct (T1 d n0 rest l1) as [|a T] eqn:ET; [cbn; lia|].
          assert (LR : length (a :: T) = length (removelast (a :: T) ++ [last (a :: T) 0])) by (rewrite <- app_removelast_last; [reflexivity|discriminate]).
          rewrite app_length in LR. cbn [length] in LR, L1 |- *. lia. }
        rewrite Hb in Lt. cbn in Lt. lia. }
      eapply PL_le with (m := length b + m); [|lia].
      refine (pl_replace m d4 _ p n0 _ b old l1 l2 d5 G4 _ _ _ H4 E5).
      + rewrite upk_eq. exact Hb.
      + rewrite <- Hb. intros c Hc. apply pf_chain. auto.
      + rewrite upk_neq by discriminate. exact Ek.
  Qed.
End Frag.


(** ** All calls but prepend *)
Definition PB (d : dom) : Prop := PL (length (nodes d) - 2) d.
Lemma okq_both {A} (P Q : A -> Prop) o : okq P o -> okq Q o -> okq (fun x => P x /\ Q x) o.
Proof. destruct o; cbn; auto. Qed.
Lemma flat_PB d d' : flat d d' -> PB d -> PB d'.
Proof. intros F H. unfold PB. destruct F as (A & B & C & D) eqn:EF. rewrite B. eapply flat_PL; eauto. Qed.
Lemma snd_PB m (Q : nat * dom -> Prop) (o : outcome (nat * dom)) :
  okq (PLs m) o -> okq Q o -> (forall x d', Q (x, d') -> m + 2 <= length (nodes d')) -> okq PB (let* '(_, d) := o in Ok d).
Proof.
  destruct o as [[x d']| | |]; cbn; auto. intros H1 H2 H. eapply PL_le; [exact H1|]. apply H in H2. lia.
Qed.
Lemma run_PB d k bl o : Good d k -> PB d -> valid d bl o -> ~ is_prepend o -> okq PB (run bl o d).
Proof.
  intros G H V N. pose proof (inv_kw _ _ (g_inv _ _ G)) as W. pose proof (inv_len _ _ (g_inv _ _ G)) as L2.
  assert (Hpar : forall n, attached d n -> exists p l1 l2, k (Par p) = l1 ++ n :: l2).
  { intros n Hn. apply (attached_iff d k n (g_inv _ _ G)) in Hn as [p Hp].
    apply in_split in Hp as (l1 & l2 & E). eauto. }
  assert (PX : forall h d1, parse_extra (Some bl) h d = Ok (false, d1) -> PB d1).
  { intros h d1 E. destruct (failed_ok d k bl h d1 G E) as (k1 & G1 & _).
    pose proof (pp_parse_extra (Some bl) h d) as P. rewrite E in P. cbn in P.
    destruct H as [H L]. split; [eapply pp_PT; [exact (Good_PTb _ _ G)|exact P|exact H]|].
    destruct P as (A & _ & _ & l & Ep & Nd & R). rewrite Ep, app_length.
    pose proof (nodup_range (map snd l) (length (nodes d)) (length (nodes d1)) Nd) as X. rewrite map_length in X.
    enough (length l <= length (nodes d1) - length (nodes d)) by lia. apply X. intros x Hx.
    apply in_map_iff in Hx as (e & <- & He). now apply R. }
  assert (PF : forall h d1 k1 rest, parse_extra (Some bl) h d = Ok (true, d1) -> frag d k d1 k1 rest ->
     exists m, PL m d1 /\ m + S (length rest) + 2 <= length (nodes d1)).
  { intros h d1 k1 rest E F. pose proof (pp_parse_extra (Some bl) h d) as P. rewrite E in P. cbn in P.
    destruct (pp_PL _ d k d1 k1 G (fr_good _ _ _ _ _ F) P H) as (m & Hm & B).
    - rewrite (fr_top _ _ _ _ _ F). intros c [<-|Hc]; [lia|]. apply (fr_gt _ _ _ _ _ F) in Hc. lia.
    - rewrite (fr_top _ _ _ _ _ F) in B. cbn [length] in B. exists m. split; [exact Hm|lia]. }
  destruct o; simpl in V; try (exfalso; exact (N Logic.I)); unfold run.
  - eapply snd_PB; [eapply (pt_append_doc _ d k); eauto|eapply okq_safe; apply (append_document_node_ok d k G p e V)|].
    intros x d' (_ & L & _). lia.
  - eapply snd_PB; [eapply (pt_append_text _ d k); eauto|eapply okq_safe; apply (append_text_node_ok d k G p s V)|].
    intros x d' (L & _). lia.
  - destruct V as [Hp Hn]. unfold append_html.
    destruct (parse_extra (Some bl) h d) as [[ok d1]| | |] eqn:E; cbn [bind okq]; auto.
    destruct ok; cbn [negb]; [|exact (PX _ _ E)].
    destruct (frag_ok d k bl h d1 G E (Hn d1 E)) as (k1 & rest & F).
    destruct (PF _ _ _ _ E F) as (m & Hm & B).
    pose proof (append_html_frag d k bl h d1 k1 rest p G E F Hp) as HA.
    unfold append_html in HA. rewrite E in HA. cbn [bind negb] in HA.
    destruct F.
    eapply snd_PB; [eapply (pf_append d1 k1 fr_good m Hm (length (nodes d)) p rest); auto|eapply okq_safe; exact HA|].
    + intros c Hc. rewrite fr_par in Hc by apply Hp. apply (kw_bound _ _ W) in Hc. lia.
    + intros x d' Q. unfold append_frag_post in Q.
      assert (length (nodes d') = length (nodes d1)) as ->; [|lia].
      destruct (text_merge_target d1 (last_error (k1 (Par p)))) as [[c old]|];
        [destruct (text_of d1 (length (nodes d)))|]; apply Q.
  - destruct (Hpar n V) as (p & l1 & l2 & Ek).
    eapply snd_PB; [eapply (pt_replace_doc _ d k); eauto|eapply okq_safe; apply (replace_with_document_node_ok d k G p n l1 l2 e Ek)|].
    intros x d' (_ & L & _). lia.
  - destruct (Hpar n V) as (p & l1 & l2 & Ek).
    eapply snd_PB; [eapply (pt_replace_text _ d k); eauto|eapply okq_safe; apply (replace_with_text_node_ok d k G p n l1 l2 s Ek)|].
    intros x d' (_ & L & _). lia.
  - destruct V as (Ha & Hn & Hg). destruct (Hpar n Ha) as (p & l1 & l2 & Ek).
    unfold replace_with_html.
    destruct (parse_extra (Some bl) h d) as [[ok d1]| | |] eqn:E; cbn [bind okq]; auto.
    destruct ok; cbn [negb]; [|exact (PX _ _ E)].
    destruct (frag_ok d k bl h d1 G E (Hn d1 E)) as (k1 & rest & F).
    destruct (PF _ _ _ _ E F) as (m & Hm & B).
    assert (Hgd : replace_guard d1 (length (nodes d)) rest l1 l2).
    { eapply guard_ok; eauto. apply (Hg d1 p l1 l2 eq_refl).
      apply (children_k d k p _ (g_inv _ _ G)). auto. }
    pose proof (replace_html_frag d k bl h d1 k1 rest p n l1 l2 G E F Ek Hgd) as HA.
    unfold replace_with_html in HA. rewrite E in HA. cbn [bind negb] in HA.
    assert (Hin : In n (k (Par p))) by (rewrite Ek; apply in_elt).
    pose proof (kw_order _ _ W _ _ Hin) as Ho. pose proof (kw_bound _ _ W _ _ Hin) as Hb.
    destruct F.
    eapply snd_PB; [eapply (pf_replace d1 k1 fr_good m Hm (length (nodes d)) p rest) with (l1 := l1) (l2 := l2); auto|eapply okq_safe; exact HA|].
    + lia.
    + intros c Hc. rewrite fr_par in Hc by lia. apply (kw_bound _ _ W) in Hc. lia.
    + rewrite fr_par by lia. auto.
    + intros x d' [Q _]. lia.
  - pose proof (pl_remove _ n _ H) as R. pose proof (l_remove_node n d) as L.
    destruct (remove_node n d); cbn in *; auto. unfold PB. now rewrite L.
  - pose proof (pl_remove_children _ n _ H) as R. pose proof (l_remove_children n d) as L.
    destruct (remove_children n d); cbn in *; auto. unfold PB. now rewrite L.
  - pose proof (pt_set_text _ d k n s G H V) as P. pose proof (set_text_content_ok d k G n s V) as Q. cbv zeta in Q.
    destruct (set_text_content n s d); cbn in *; auto. eapply PL_le; [exact P|]. destruct Q as [-> _]. lia.
  - eapply okq_imp; [apply fl_add_bool|]. intros d1 F. eapply flat_PB; eauto.
  - eapply okq_imp; [apply fl_add_property|]. intros d1 F. eapply flat_PB; eauto.
  - unfold remove_bool_property. eapply okq_bind; [apply okq_any|]. intros i _. destruct (0 <? i); [|exact H].
    destruct (bprop_idx _ _ _); [|exact H]. apply (flat_PB d); [apply flat_nodes; reflexivity|exact H].
  - unfold remove_property. eapply okq_bind; [apply okq_any|]. intros i _. destruct (0 <? i); [|exact H].
    destruct (prop_idx _ _ _); [|exact H]. apply (flat_PB d); [apply flat_nodes; reflexivity|exact H].
  - unfold set_property_value.
    destruct (map_contains k0 (key_map d)) as [i| | |]; cbn [bind okq]; auto. destruct (i =? 0); [exact H|].
    destruct (prop_idx _ _ _); [|exact H]. pose proof (fl_val v d) as F. destruct (intern_val v d) as [[y d1]| | |]; cbn [bind okq] in *; auto.
    destruct (nth_error _ _); cbn; auto. apply (flat_PB d); [|exact H]. eapply flat_trans; [exact F|]. apply flat_nodes; reflexivity.
  - unfold add_text_to_text_node. eapply okq_bind; [apply okq_any|]. intros m _. eapply okq_bind; [apply okq_any|]. intros x _.
    eapply okq_imp; [apply fl_set_pay|]. intros d1 F. eapply flat_PB; eauto.
  - eapply okq_imp; [apply fl_set_tag|]. intros d1 F. eapply flat_PB; eauto.
Qed.
Lemma empty_PB : PB empty_dom.
Proof.
  split; [|cbn; lia]. constructor.
  - intros i j a a' b _ E. destruct i; discriminate.
  - intros a b _ [].
  - intros [|[|[|i]]] n E; cbn in E; try discriminate; injection E as <-; reflexivity.
Qed.
Lemma create_PB t d : create_dom t = Ok (Some d) -> PB d.
Proof.
  intros E. unfold create_dom in E. apply bind_ok in E as ([ok d'] & E & X). destruct ok; [|discriminate].
  injection X as <-.

  assert (P : pp empty_dom d').
  { unfold parse_root, parse in E. apply bind_ok in E as (i & _ & E).
    match type of E with ?a = _ => assert (P : okq (fun '(_, d') => pp empty_dom d') a) by apply pp_loop end.
    rewrite E in P. exact P. }
  destruct empty_PB as [H L]. split.
  - eapply pp_PT; [|exact P|exact H]. intros a b [].
  - destruct P as (A & _ & _ & l & Ep & Nd & R). rewrite Ep.
    pose proof (nodup_range (map snd l) 2 (length (nodes d')) Nd) as X. rewrite map_length in X. cbn. apply X. intros x Hx.
    apply in_map_iff in Hx as (e & <- & He). now apply R.
Qed.
Lemma reachable_hist d os d' : reachable d -> history d os d' -> reachable d'.
Proof. intros R H. induction H as [|d bl o d1 os d' V E H IH]; auto. apply IH. eapply reach_step; eauto. Qed.
Lemma hist_PB d os d' : reachable d -> PB d -> history d os d' -> (forall o, In o os -> ~ is_prepend o) -> PB d'.
Proof.
  intros R H Hh. induction Hh as [|d bl o d1 os d' V E Hh IH]; intros N; auto.
  apply IH.
  - eapply reach_step; eauto.
  - destruct (reachable_good d R) as (k & G). pose proof (run_PB d k bl o G H V (N o (or_introl eq_refl))) as P. rewrite E in P. exact P.
  - intros o' Ho. apply N. now right.
Qed.

(** ** For the user *)
Section User.
  Context (t : bytes) (d0 : dom) (os : list op) (d : dom).
  Context (C : create_dom t = Ok (Some d0)) (Hh : history d0 os d) (N : forall o, In o os -> ~ is_prepend o).
  Lemma u_PB : PB d.
  Proof. eapply hist_PB; eauto; [eapply reach_create; eauto|eapply create_PB; eauto]. Qed.
  Lemma u_good : exists k, Good d k.
  Proof. apply reachable_good. eapply reachable_hist; eauto. eapply reach_create; eauto. Qed.
  Lemma u_pl_len : 2 + length (pchilds d) <= length (nodes d).
  Proof. destruct u_PB as [_ L]. destruct u_good as (k & G). pose proof (inv_len _ _ (g_inv _ _ G)). lia. Qed.
  Lemma u_free n p : kind d n = Some TRemoved -> ~ In (p, n) (pchilds d).
  Proof.
    intros K Hi. destruct u_PB as [[_ U _] _]. destruct u_good as (k & G).
    apply (U p n); auto. intros ->. rewrite (ty_zero _ _ (g_ty _ _ G)) in K. discriminate.
  Qed.
  Lemma u_parent n : kind d n = Some TRemoved -> get_parent n d = 0.
  Proof.
    intros K. unfold get_parent. destruct (parent_idx n d) as [i|] eqn:F; auto. exfalso.
    apply find_idx_some in F as ([a b] & Ex & Fx & _). cbn in Fx. apply Nat.eqb_eq in Fx. subst b.
    apply nth_error_In in Ex. exact (u_free _ _ K Ex).
  Qed.
  Lemma u_again n l D : kind d n = Some TRemoved -> children d n l -> preorders d l D ->
    exists d', remove_node n d = Ok d' /\ removed d' D /\ children d' n [] /\ ~ attached d' n /\
      same_children_but d d' (n :: D) /\ keeps_but d d' D /\ length (nodes d') = length (nodes d).
  Proof.
    intros K Hl HD. destruct u_good as (k & G). pose proof (inv_kw _ _ (g_inv _ _ G)) as W.
    pose proof (g_inv _ _ G) as I.
    assert (Hn0 : n <> 0) by (intros ->; rewrite (ty_zero _ _ (g_ty _ _ G)) in K; discriminate).
    assert (Hn1 : n <> 1) by (intros ->; rewrite (ty_one _ _ (g_ty _ _ G)) in K; discriminate).
    assert (Hnl : n < length (nodes d)).
    { unfold kind in K. destruct (nth_error (nodes d) n) eqn:E; [|discriminate]. apply nth_error_Some. congruence. }
    assert (Hf : forall q, ~ In n (k q)) by (intros q Hq; exact (live_not_removed _ _ _ _ G Hq K)).
    apply (kc _ _ _ _ G) in Hl. subst l.
    apply (psk _ _ _ _ G) in HD; [|intros; eapply k_nz; [apply G|eauto]]. subst D.
    destruct (remove_node_ok d k n I) as (d' & E & I' & M & Nc & _).
    { split; [lia|]. right. split; auto. intros p. now apply u_free. }
    exists d'. split; [exact E|].
    set (D := pres (length (nodes d)) k (k (Par n))) in *.
    assert (ED : pre (length (nodes d)) k n = n :: D) by (apply pre_eq; auto).
    rewrite ED in *.
    assert (HD : forall x, In x D -> 2 <= x < length (nodes d)).
    { intros x Hx. apply pres_in in Hx as (y & Hy & Hx).
      destruct (pre_parent _ _ _ _ W Hx) as [->|(p & Hp & _)].
      - apply (kw_bound _ _ W _ _ Hy).
      - apply (kw_bound _ _ W _ _ Hp). }
    assert (HnD : ~ In n D).
    { intros Hx. apply pres_in in Hx as (y & Hy & Hx).
      destruct (pre_parent _ _ _ _ W Hx) as [->|(p & Hp & _)]; [exact (Hf _ Hy)|exact (Hf _ Hp)]. }
    assert (G' : Good d' (cut (n :: D) k)).
    { eapply cut_good; eauto; intros [X|X]; try lia; apply HD in X; lia. }
    assert (CE : forall q, cut (n :: D) k q = cut D k q).
    { intros q. unfold cut. apply filter_ext_in. intros c Hc. unfold mem. cbn.
      destruct (Nat.eqb_spec c n) as [->|]; [exfalso; exact (Hf _ Hc)|reflexivity]. }
    assert (KR : forall x, In x (n :: D) -> kind d' x = Some TRemoved).
    { intros x Hx. eapply cut_removed; eauto. destruct Hx as [<-|Hx]; [lia|]. apply HD in Hx. lia. }
    split; [|split; [|split; [|split; [|split]]]].
    - eapply removed_intro; [exact G'| |]; [intros x Hx; apply KR; now right|]. intros x Hx.
      rewrite CE. split; [eapply call_inside; eauto|]. intros q Hq. rewrite CE in Hq. apply cut_in in Hq. tauto.
    - apply (kc _ _ _ _ G'). rewrite CE. symmetry. eapply call_parent; eauto.
    - intros Ha. apply (attached_iff _ _ _ (g_inv _ _ G')) in Ha as (q & Hq). apply cut_in in Hq as [_ Hq]. apply Hq. now left.
    - eapply same_but; eauto. intros q Hq. cbn in Hq. rewrite CE. apply (call_far _ k W n); [intros ->|]; tauto.
    - intros i Hi. destruct (Nat.eq_dec i n) as [->|Nn]; [|eapply cut_content; eauto; intros [X|X]; [congruence|tauto]].
      assert (Kn : kind d' n = Some TRemoved) by (apply KR; now left).
      red. unfold content. rewrite K, Kn. unfold kind in K, Kn. unfold tag_name, text_of.
      destruct (nth_error (nodes d) n) as [[i1 ty1 y1]|]; [|discriminate].
      destruct (nth_error (nodes d') n) as [[i2 ty2 y2]|]; [|discriminate].
      cbn in K, Kn. injection K as ->. injection Kn as ->. unfold bool_attrs, attrs.
      rewrite M. reflexivity.
    - apply Nc.
  Qed.
End User.

(** ** How much the parent table grows *)
Lemma u_prepend_len d p e l x d' : reachable d -> node_id d p -> children d p l ->
  prepend_document_node p e d = Ok (x, d') -> length (pchilds d') = length (pchilds d) + 1 + length l.
Proof.
  intros R Hp Hl E. destruct (reachable_good d R) as (k & G). apply (kc _ _ _ _ G) in Hl. subst l.
  unfold prepend_document_node in E. pose proof (on_document_element e d) as O.
  pose proof (parse_document_element_ok e d (g_reg _ _ G)) as S.
  destruct (parse_document_element e d) as [[y d1]| | |]; cbn [bind okq safe] in *; try discriminate.
  apply elem_added_added in S. destruct (new_facts d k G d1 y S) as (G1 & Hf & Hfree & Hx & Hk & Hl & Hxl).
  destruct (Nat.eqb_spec y 0); [lia|].
  destruct (prepend_refs_full d1 _ (g_inv _ _ G1) p y y []) as (d2 & E2 & _ & P & _).
  { apply upk_eq. }
  { unfold floated. rewrite upk_eq. intros c [<-|[]]. destruct Hp. lia. }
  rewrite E2 in E. cbn in E. injection E as _ <-. rewrite P, app_length, map_length, app_length.
  unfold floated. rewrite upk_eq, upk_neq by discriminate. destruct O as (_ & _ & -> & _). cbn. lia.
Qed.
Lemma u_append_len d p e x d' : reachable d -> node_id d p ->
  append_document_node p e d = Ok (x, d') -> length (pchilds d') = length (pchilds d) + 1.
Proof.
  intros R Hp E. destruct (reachable_good d R) as (k & G).
  unfold append_document_node in E. pose proof (on_document_element e d) as O.
  pose proof (parse_document_element_ok e d (g_reg _ _ G)) as S.
  destruct (parse_document_element e d) as [[y d1]| | |]; cbn [bind okq safe] in *; try discriminate.
  apply elem_added_added in S. destruct (new_facts d k G d1 y S) as (G1 & Hf & Hfree & Hx & Hk & Hl & Hxl).
  destruct (Nat.eqb_spec y 0); [lia|].
  destruct (append_refs_full d1 _ (g_inv _ _ G1) p y y []) as (d2 & E2 & _ & P & _).
  { apply upk_eq. }
  { unfold floated. rewrite upk_eq. intros c [<-|[]]. destruct Hp. lia. }
  rewrite E2 in E. cbn in E. injection E as _ <-. rewrite P, app_length, map_length.
  unfold floated. rewrite upk_eq. destruct O as (_ & _ & -> & _). cbn. lia.
Qed.
Lemma u_quadratic p es : forall d l d', reachable d -> node_id d p -> children d p l ->
  history d (map (PrependDoc p) es) d' ->
  2 * length (pchilds d') = 2 * length (pchilds d) + length es * (2 * length l + length es + 1) /\
  length (nodes d') = length (nodes d) + length es.
Proof.
  induction es as [|e es IH]; intros d l d' R Hp Hl H; cbn [map] in H.
  - inversion H; subst. cbn. lia.
  - inversion H as [|? bl o d1 os d2 V E H' X1 X2]; subst. pose proof E as E'. unfold run in E.
    destruct (prepend_document_node p e d) as [[x d3]| | |] eqn:E3; try discriminate. cbn in E. injection E as <-.
    pose proof (u_prepend_len d p e l x d3 R Hp Hl E3) as L.
    destruct (reachable_good d R) as (k & G). pose proof (proj1 (kc _ _ _ _ G) Hl) as El. 
    pose proof (safe_inv _ _ _ _ (prepend_document_node_ok d k G p e Hp) E3) as (_ & Ln & G' & _).
    destruct (IH d3 (length (nodes d) :: l) d') as [I1 I2]; auto.
    + eapply reach_step; eauto.
    + destruct Hp. split; lia.
    + apply (kc _ _ _ _ G'). now rewrite upk_eq, <- El.
    + cbn [length] in *. split; [|lia]. rewrite I1, L. ring_simplify. lia.
Qed.
