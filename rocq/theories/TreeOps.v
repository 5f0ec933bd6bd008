(** * Every editing call is a step of the tree machine (C84): calls without HTML. *)
From Coq Require Import List NArith Arith Bool Lia.
From Verif Require Import Base TrieModel DomModel ParserModel EditModel DomSpec ApiSpec GrammarSpec ReaderSpec
  TreeSpec TreeProofs TreeStep Lemmas EditUser ReadUser NodeUser ApiProofs Inv ParseTree EditHtml.
Import ListNotations.
Local Open Scope nat_scope.

Lemma gives_ok {A} d c (o : outcome A) Q a : gives d c o Q -> o = Ok a -> Q a.
Proof. intros (H & _) ->. exact H. Qed.
Lemma pair_ok {A} (o : outcome (A * dom)) d' : (let* '(_, d0) := o in Ok d0) = Ok d' -> exists x, o = Ok (x, d').
Proof. destruct o as [[x d0]| | |]; simpl; try discriminate. intros E. injection E as <-. eauto. Qed.

Section Ops.
  Context (d : dom) (R : reachable d) (T : vtree) (HT : view d T) (HV : vid T = 1) (d' : dom).
  Notation n := (length (nodes d)).

  Lemma kids_at p : exists l, children d p l.
  Proof. destruct (u_children d R p) as (l & H & _). eauto. Qed.

  Ltac q_tac := intros q Hq;
    match goal with B : forall q, In q (?p :: flat_map ids _) -> q < _, ND : NoDup (?p :: _) |- _ =>
      pose proof (B q (or_intror Hq)); apply NoDup_cons_iff in ND; destruct ND as (N1 & N2) end;
    (split; [lia|]); (split; [simpl; try lia; intuition; subst; auto; lia|simpl; intuition; subst; auto; lia]).

  (** A new childless node [x] next to all old children. *)
  Lemma new_kid p g lx l m : frame d d' [n] [p] -> p < n ->
    children d p l -> children d' p m -> view d' (V n lx []) ->
    (forall ks, Forall (view d) ks -> map vid ks = l -> map vid (g ks) = m /\
        forall v, In v (g ks) -> v = V n lx [] \/ In v ks) ->
    view d' (at_node p (with_kids g) T).
  Proof.
    intros F L Hl Hm Hn Hg. eapply (node_edit d R T HT HV); [exact F| | |].
    - simpl. intros x [[<-|[]]|[<-|[]]]; [now right|left; constructor].
    - intros [i ll ks]. auto.
    - intros ll ks Hv ND B. destruct (kids_of _ _ _ _ Hv) as (C & Fk). simpl.
      destruct (Hg ks Fk (kids_fun d R _ _ _ C Hl)) as (G1 & G2).
      eapply kept_node; [exact F|exact Hv|exact L|simpl; intuition; lia|now rewrite G1|].
      apply Forall_forall. intros v Hv'. destruct (G2 v Hv') as [->|Hk]; [exact Hn|].
      assert (K : Forall (view d') ks).
      { eapply kept_kids; eauto. q_tac. }
      rewrite Forall_forall in K. auto.
  Qed.

  Lemma s_append_doc bl p e : node_id d p -> run bl (AppendDoc p e) d = Ok d' ->
    view d' (step bl n (AppendDoc p e) T).
  Proof.
    intros Np E. apply pair_ok in E. destruct E as (x & E). destruct (kids_at p) as (l & Hl).
    pose proof (gives_ok _ _ _ _ _ (u_append_doc d R p e l Np Hl) E) as (-> & A & B & C & D & K).
    cbn [step]. eapply (new_kid p _ (elem_label e)); eauto; [now apply frame_but|apply Np| |].
    - constructor; [exact D|exact B|constructor].
    - intros ks Fk Em. split; [now rewrite map_app, Em|]. intros v Hv. apply in_app_or in Hv. simpl in Hv. intuition.
  Qed.
  Lemma s_prepend_doc bl p e : node_id d p -> run bl (PrependDoc p e) d = Ok d' ->
    view d' (step bl n (PrependDoc p e) T).
  Proof.
    intros Np E. apply pair_ok in E. destruct E as (x & E). destruct (kids_at p) as (l & Hl).
    pose proof (gives_ok _ _ _ _ _ (u_prepend_doc d R p e l Np Hl) E) as (-> & A & B & C & D & K).
    cbn [step]. eapply (new_kid p _ (elem_label e)); eauto; [now apply frame_but|apply Np| |].
    - constructor; [exact D|exact B|constructor].
    - intros ks Fk Em. split; [cbn; now rewrite Em|]. intros v Hv. simpl in Hv. intuition.
  Qed.

  Lemma nodup_mid {A B} (f : A -> list B) a k b q : NoDup (flat_map f (a ++ k :: b)) -> In q (flat_map f a) \/ In q (flat_map f b) ->
    ~ In q (f k).
  Proof.
    rewrite flat_map_app. cbn [flat_map]. intros ND [H|H] Hk.
    - apply (NoDup_app_disj _ _ _ ND H). apply in_or_app. auto.
    - apply NoDup_app_r in ND. apply (NoDup_app_disj _ _ _ ND Hk). exact H.
  Qed.

  (** One of the children of [p] is a text node that gets another text. *)
  Lemma retext_kid p g l c s a0 b0 old : frame d d' [c; n] [] -> p < n ->
    children d p l -> l = a0 ++ c :: b0 -> retexted d d' c s -> text_of d c = Some old ->
    (forall a k b, Forall (view d) (a ++ k :: b) -> map vid a = a0 -> vid k = c -> map vid b = b0 ->
        vtext k = Some old -> g (a ++ k :: b) = a ++ with_text s k :: b) ->
    view d' (at_node p (with_kids g) T).
  Proof.
    intros F L Hl El RT Et Hg. subst l.
    assert (Hc : In c (a0 ++ c :: b0)) by (apply in_or_app; simpl; auto).
    destruct (kid_bounds d R p _ c Hl Hc) as (Lc1 & Lc2).
    eapply (node_edit d R T HT HV); [exact F| | |].
    - simpl. intros x [[<-|[<-|[]]]|[]]; [left|now right]. econstructor; [exact Hl|exact Hc|constructor].
    - intros [i ll ks]. auto.
    - intros ll ks Hv ND B. destruct (kids_of _ _ _ _ Hv) as (C & Fk). cbn [with_kids].
      pose proof (kids_fun d R _ _ _ C Hl) as Em. apply map_eq_app in Em. destruct Em as (a & kb & -> & Ea & Ekb).
      destruct kb as [|k b]; [discriminate|]. injection Ekb as Ek Eb.
      assert (Vk : view d k) by (apply Forall_app in Fk; destruct Fk as (_ & Fk); now inversion Fk).
      assert (Tk : vtext k = Some old) by (rewrite <- (view_text d k Vk), Ek; exact Et).
      rewrite (Hg a k b); auto.
      apply NoDup_cons_iff in ND. destruct ND as (N1 & N2).
      assert (Hin : forall q, In q (flat_map ids a) \/ In q (flat_map ids b) -> In q (flat_map ids (a ++ k :: b))).
      { intros q Hq. rewrite flat_map_app. apply in_or_app. cbn [flat_map]. rewrite in_app_iff. tauto. }
      assert (Hq : forall q, In q (flat_map ids a) \/ In q (flat_map ids b) ->
                 q < n /\ ~ In q [c; n] /\ ~ In q []).
      { intros q Hq. assert (In q (flat_map ids (a ++ k :: b))) by auto.
        pose proof (B q (or_intror H)). split; [lia|]. split; [|simpl; auto].
        simpl. intros [<-|[<-|[]]]; [|lia]. eapply (nodup_mid ids a k b); eauto. rewrite <- Ek. apply in_ids_vid. }
      apply Forall_app in Fk. destruct Fk as (Fa & Fb). inversion Fb; subst.
      eapply kept_node; [exact F|exact Hv|exact L| | |].
      + simpl. intros [<-|[<-|[]]]; lia.
      + apply F; auto. rewrite map_app. cbn [map]. rewrite with_text_vid. exact Hl.
      + apply Forall_app. split; [|constructor].
        * eapply kept_kids; eauto.
        * eapply view_retext; eauto.
          -- eapply flat_nodup; [exact N2|]. apply in_or_app. simpl. auto.
          -- intros q Hk. assert (In q (flat_map ids (a ++ k :: b))) by (apply in_flat_map; exists k; split; auto; apply in_or_app; simpl; auto).
             pose proof (B q (or_intror H)). split; [lia|]. split; [simpl; auto|]. simpl. intuition. lia.
        * eapply kept_kids; eauto.
  Qed.

  Lemma s_append_text bl p s : node_id d p -> run bl (AppendText p s) d = Ok d' ->
    view d' (step bl n (AppendText p s) T).
  Proof.
    intros Np E. apply pair_ok in E. destruct E as (x & E). destruct (kids_at p) as (l & Hl). cbn [step].
    destruct (text_end_dec d l) as [(c & old & H)|H].
    - pose proof (gives_ok _ _ _ _ _ (u_append_text_merge d R p s l c old Np Hl H) E) as (-> & A & B & C & K).
      pose proof H as ((l0 & El) & Et).
      eapply (retext_kid p _ l c _ l0 [] old); eauto; [now apply frame_but|apply Np|].
      intros a k b Fk Ea Ek Eb Tk. destruct b; [|discriminate]. unfold put_after.
      rewrite last_text_app, Tk. cbn [first_text vtext vlabel text_label l_text tl]. rewrite retext_last_app, app_nil_r. reflexivity.
    - pose proof (gives_ok _ _ _ _ _ (u_append_text_new d R p s l Np Hl H) E) as (-> & A & B & C & D & K).
      eapply (new_kid p _ (text_label s)); eauto; [now apply frame_but|apply Np| |].
      + constructor; [exact D|exact B|constructor].
      + intros ks Fk Em. unfold put_after. rewrite (last_text_none d); auto; [|now rewrite Em].
        split; [now rewrite map_app, Em|]. intros v Hv. apply in_app_or in Hv. simpl in Hv. intuition.
  Qed.
  Lemma s_prepend_text bl p s : node_id d p -> run bl (PrependText p s) d = Ok d' ->
    view d' (step bl n (PrependText p s) T).
  Proof.
    intros Np E. apply pair_ok in E. destruct E as (x & E). destruct (kids_at p) as (l & Hl). cbn [step].
    destruct (text_start_dec d l) as [(c & old & H)|H].
    - pose proof (gives_ok _ _ _ _ _ (u_prepend_text_merge d R p s l c old Np Hl H) E) as (-> & A & B & C & K).
      pose proof H as ((l0 & El) & Et).
      eapply (retext_kid p _ l c _ [] l0 old); eauto; [now apply frame_but|apply Np|].
      intros a k b Fk Ea Ek Eb Tk. destruct a; [|discriminate]. unfold put_before.
      cbn [last_text first_text vtext vlabel text_label l_text app removelast retext_first]. rewrite Tk. reflexivity.
    - pose proof (gives_ok _ _ _ _ _ (u_prepend_text_new d R p s l Np Hl H) E) as (-> & A & B & C & D & K).
      eapply (new_kid p _ (text_label s)); eauto; [now apply frame_but|apply Np| |].
      + constructor; [exact D|exact B|constructor].
      + intros ks Fk Em. unfold put_before. rewrite (first_text_none d); auto; [|now rewrite Em].
        cbn [last_text vtext vlabel text_label l_text].
        split; [cbn; now rewrite Em|]. intros v Hv. simpl in Hv. intuition.
  Qed.

  Lemma s_remove bl c : attached d c -> run bl (Remove c) d = Ok d' -> view d' (step bl n (Remove c) T).
  Proof.
    intros (p & l & P0 & Hl & Hc) E. cbn [run] in E. apply in_split in Hc. destruct Hc as (l1 & l2 & ->).
    assert (Hc : In c (l1 ++ c :: l2)) by (apply in_or_app; simpl; auto).
    destruct (kid_bounds d R p _ c Hl Hc) as (Lc1 & Lc2).
    destruct (u_preorder d R c) as (m & PD & _ & _ & _); [lia|].
    destruct (u_remove d R p c l1 l2 (c :: m) Hl PD) as (d0 & E0 & A & B & C & K & _).
    rewrite E in E0. injection E0 as <-. remember (c :: m) as D eqn:ED.
    cbn [step]. pose proof (frame_but _ _ _ _ K C) as F.
    eapply (child_edit d R T HT HV); [exact Hl|exact F| |].
    - simpl. intros x [H|[<-|H]]; [|left; constructor|]; left; eapply below_pre; eauto.
    - intros ll a k b Hv ND Bd Ea Ek Eb. destruct (kids_of _ _ _ _ Hv) as (Ch & Fk).
      apply NoDup_cons_iff in ND. destruct ND as (N1 & N2).
      apply Forall_app in Fk. destruct Fk as (Fa & Fb). inversion Fb; subst x l.
      assert (Vk : view d k) by assumption. assert (Dk : D = ids k).
      { eapply Walk.preorder_fun; [exact PD|]. rewrite <- Ek. now apply view_preorder. }
      assert (Hin : forall q, In q (flat_map ids a) \/ In q (flat_map ids b) -> In q (flat_map ids (a ++ k :: b))).
      { intros q Hq. rewrite flat_map_app. apply in_or_app. cbn [flat_map]. rewrite in_app_iff. tauto. }
      assert (Hq : forall q, In q (flat_map ids a) \/ In q (flat_map ids b) ->
                 q < n /\ ~ In q D /\ ~ In q (p :: D)).
      { intros q Hq. assert (In q (flat_map ids (a ++ k :: b))) by auto.
        pose proof (Bd q (or_intror H)). assert (~ In q D) by (rewrite Dk; eapply (nodup_mid ids a k b); eauto).
        split; [lia|]. split; auto. simpl. intros [<-|X]; auto. }
      eapply kept_node; [exact F|exact Hv|lia| | |].
      + intros Hp. apply N1. rewrite Dk in Hp. apply in_flat_map. exists k. split; auto. apply in_or_app; simpl; auto.
      + rewrite map_app, Ea, Eb. exact A.
      + apply Forall_app. split; eapply kept_kids; eauto.
  Qed.

  Lemma pres_views ks : Forall (view d) ks -> preorders d (map vid ks) (flat_map ids ks).
  Proof. induction 1; simpl; constructor; auto. now apply view_preorder. Qed.

  Lemma s_remove_children bl p : p <> 0 -> run bl (RemoveChildren p) d = Ok d' ->
    view d' (step bl n (RemoveChildren p) T).
  Proof.
    intros P0 E. cbn [run] in E. destruct (kids_at p) as (l & Hl).
    destruct (u_preorder d R p P0) as (m & PD & ND0 & _ & BD). inversion PD; subst.
    assert (cs = l) by (eapply kids_fun; eauto). subst cs. assert (PM : preorders d l m) by assumption.
    destruct (u_remove_children d R p l m P0 Hl PM) as (d0 & E0 & A & B & C & K & _).
    rewrite E in E0. injection E0 as <-. pose proof (frame_but _ _ _ _ K C) as F.
    cbn [step]. eapply (node_edit d R T HT HV); [exact F| | |].
    - simpl. intros x [Hx|[<-|Hx]]; left; apply BD; simpl; auto.
    - intros [i ll ks]. auto.
    - intros ll ks Hv ND Bd. destruct (kids_of _ _ _ _ Hv) as (Ch & Fk). cbn [with_kids].
      eapply kept_node; [exact F|exact Hv|apply Bd; now left| |exact A|constructor].
      apply NoDup_cons_iff in ND0. tauto.
  Qed.
  Lemma s_set_text bl p s : node_id d p -> run bl (SetText p s) d = Ok d' ->
    view d' (step bl n (SetText p s) T).
  Proof.
    intros Np E. cbn [run] in E. destruct (kids_at p) as (l & Hl).
    destruct (u_preorder d R p) as (m & PD & ND0 & _ & BD); [destruct Np; lia|]. inversion PD; subst.
    assert (cs = l) by (eapply kids_fun; eauto). subst cs. assert (PM : preorders d l m) by assumption.
    pose proof (gives_ok _ _ _ _ _ (u_set_text d R p s l m Np Hl PM) E) as (A & A1 & A2 & B & C & K).
    pose proof (frame_but _ _ _ _ K C) as F.
    cbn [step]. eapply (node_edit d R T HT HV); [exact F| | |].
    - simpl. intros x [[<-|Hx]|[<-|Hx]]; [now right| | |]; left; apply BD; simpl; auto.
    - intros [i ll ks]. auto.
    - intros ll ks Hv ND Bd. destruct (kids_of _ _ _ _ Hv) as (Ch & Fk). cbn [with_kids].
      eapply kept_node; [exact F|exact Hv|apply Bd; now left| |exact A|constructor; [|constructor]].
      + apply NoDup_cons_iff in ND0. destruct Np. simpl. intros [<-|X]; [lia|tauto].
      + constructor; auto.
  Qed.

  (** ** Replacing *)
  Lemma s_replace_one p c l1 l2 lx (f : list vtree -> list vtree -> list vtree) :
    children d p (l1 ++ c :: l2) -> frame d d' [n; c] [p] ->
    children d' p (l1 ++ n :: l2) -> view d' (V n lx []) ->
    (forall a b, Forall (view d) a -> Forall (view d) b -> map vid a = l1 -> map vid b = l2 ->
       f a b = a ++ V n lx [] :: b) ->
    view d' (at_child c f T).
  Proof.
    intros Hl F A Hn Hf.
    assert (Hc : In c (l1 ++ c :: l2)) by (apply in_or_app; simpl; auto).
    destruct (kid_bounds d R p _ c Hl Hc) as (Lc1 & Lc2).
    eapply (child_edit d R T HT HV); [exact Hl|exact F| |].
    - simpl. intros x [[<-|[<-|[]]]|[<-|[]]]; [now right| |left; constructor]. left. econstructor; [exact Hl|exact Hc|constructor].
    - intros ll a k b Hv ND Bd Ea Ek Eb. destruct (kids_of _ _ _ _ Hv) as (Ch & Fk).
      apply NoDup_cons_iff in ND. destruct ND as (N1 & N2).
      apply Forall_app in Fk. destruct Fk as (Fa & Fb). inversion Fb; subst x l.
      assert (Hq : forall q, In q (flat_map ids a) \/ In q (flat_map ids b) ->
                 q < n /\ ~ In q [n; c] /\ ~ In q [p]).
      { intros q Hq. assert (In q (flat_map ids (a ++ k :: b))).
        { rewrite flat_map_app. apply in_or_app. cbn [flat_map]. rewrite in_app_iff. tauto. }
        pose proof (Bd q (or_intror H)). split; [lia|]. split.
        - simpl. intros [<-|[<-|[]]]; [lia|]. eapply (nodup_mid ids a k b); eauto. rewrite <- Ek. apply in_ids_vid.
        - simpl. intros [<-|[]]. auto. }
      rewrite Hf by auto.
      eapply kept_node; [exact F|exact Hv|lia| | |].
      + simpl. intros [<-|[<-|[]]]; lia.
      + rewrite map_app. cbn [map vid]. rewrite Ea, Eb. exact A.
      + apply Forall_app. split; [eapply kept_kids; eauto|constructor; auto]. eapply kept_kids; eauto.
  Qed.

  Lemma s_replace_doc bl c e : attached d c -> run bl (ReplaceDoc c e) d = Ok d' ->
    view d' (step bl n (ReplaceDoc c e) T).
  Proof.
    intros (p & l & P0 & Hl & Hc) E. apply pair_ok in E. destruct E as (x & E). apply in_split in Hc. destruct Hc as (l1 & l2 & ->).
    pose proof (gives_ok _ _ _ _ _ (u_replace_doc d R p c l1 l2 e Hl) E) as (-> & A & B & C & D & _ & _ & K).
    cbn [step]. eapply (s_replace_one p c l1 l2 (elem_label e)); [exact Hl| |exact A| |].
    - now apply frame_but.
    - constructor; [exact D|exact B|constructor].
    - reflexivity.
  Qed.

  (** The replaced child disappears and a neighbouring text node gets another text. *)
  Lemma s_replace_merge p c l1 l2 D f t s' X : children d p (l1 ++ c :: l2) -> preorder d c D ->
    frame d d' (t :: X ++ D) (p :: D) -> (forall x, In x X -> n <= x) ->
    children d' p (l1 ++ l2) -> retexted d d' t s' ->
    (forall a b, Forall (view d) a -> Forall (view d) b -> map vid a = l1 -> map vid b = l2 ->
       exists u k v old, a ++ b = u ++ k :: v /\ vid k = t /\ vtext k = Some old /\ f a b = u ++ with_text s' k :: v) ->
    In t (l1 ++ l2) ->
    view d' (at_child c f T).
  Proof.
    intros Hl PD F HX A RT Hf Ht.
    assert (Hc : In c (l1 ++ c :: l2)) by (apply in_or_app; simpl; auto).
    destruct (kid_bounds d R p _ c Hl Hc) as (Lc1 & Lc2).
    assert (Ht' : In t (l1 ++ c :: l2)) by (rewrite in_app_iff in *; simpl; tauto).
    destruct (kid_bounds d R p _ t Hl Ht') as (Lt1 & Lt2).
    eapply (child_edit d R T HT HV); [exact Hl|exact F| |].
    - simpl. intros x [[<-|H]|[<-|H]]; [|apply in_app_or in H; destruct H as [H|H]|left; constructor|].
      + left. econstructor; [exact Hl|exact Ht'|constructor].
      + right. auto.
      + left. eapply below_pre; eauto.
      + left. eapply below_pre; eauto.
    - intros ll a kc b Hv ND Bd Ea Ek Eb. destruct (kids_of _ _ _ _ Hv) as (Ch & Fk).
      apply NoDup_cons_iff in ND. destruct ND as (N1 & N2).
      apply Forall_app in Fk. destruct Fk as (Fa & Fb). inversion Fb; subst x l.
      assert (Vk : view d kc) by assumption. assert (Dk : D = ids kc).
      { eapply Walk.preorder_fun; [exact PD|]. rewrite <- Ek. now apply view_preorder. }
      assert (N3 : NoDup (flat_map ids (a ++ b))).
      { rewrite flat_map_app in *. cbn [flat_map] in N2. clear -N2. induction (flat_map ids a); simpl in *.
        - eapply NoDup_app_r; eauto.
        - rewrite NoDup_cons_iff in *. destruct N2 as (X & Y). split; auto. intros Z. apply X.
          rewrite !in_app_iff in *. tauto. }
      assert (Hq : forall q, In q (flat_map ids (a ++ b)) ->
                 q < n /\ ~ In q D /\ q <> p).
      { intros q Hq. assert (In q (flat_map ids (a ++ kc :: b))).
        { rewrite flat_map_app in *. rewrite in_app_iff in *. cbn [flat_map]. rewrite in_app_iff. tauto. }
        pose proof (Bd q (or_intror H)). split; [lia|]. split.
        - rewrite Dk. eapply (nodup_mid ids a kc b); eauto. rewrite flat_map_app, in_app_iff in Hq. exact Hq.
        - intros ->. auto. }
      assert (Fab : Forall (view d) (a ++ b)) by (apply Forall_app; auto).
      destruct (Hf a b) as (u & k & v & old & E1 & E2 & E3 & E4); auto.
      rewrite E4. rewrite E1 in Hq, Fab, N3. apply Forall_app in Fab. destruct Fab as (Fu & Fv). inversion Fv; subst x l.
      assert (Hm : map vid (u ++ with_text s' k :: v) = l1 ++ l2).
      { rewrite <- Ea, <- Eb, <- map_app, E1, !map_app. cbn [map]. now rewrite with_text_vid. }
      assert (NX : forall q, q < n -> ~ In q X) by (intros q Lq Hx; specialize (HX q Hx); lia).
      eapply kept_node; [exact F|exact Hv|lia| | |].
      + simpl. rewrite in_app_iff. intros [<-|[Hx|Hx]]; [lia|apply (NX p); auto; lia|]. apply N1. rewrite Dk in Hx.
        apply in_flat_map. exists kc. split; auto. apply in_or_app; simpl; auto.
      + now rewrite Hm.
      + assert (Huv : forall q, In q (flat_map ids u) \/ In q (flat_map ids v) -> q < n /\ ~ In q (t :: X ++ D) /\ ~ In q (p :: D)).
        { intros q Hi. assert (Hj : In q (flat_map ids (u ++ k :: v))).
          { rewrite flat_map_app. apply in_or_app. cbn [flat_map]. rewrite in_app_iff. tauto. }
          destruct (Hq q Hj) as (A1 & A2 & A3). split; [exact A1|]. simpl. rewrite in_app_iff. split.
          - intros [<-|[Hx|Hx]]; [|now apply (NX q)|auto]. eapply (nodup_mid ids u k v); eauto. rewrite <- E2. apply in_ids_vid.
          - intros [Hx|Hx]; [now apply A3|auto]. }
        apply Forall_app. split; [|constructor].
        * eapply kept_kids; eauto.
        * eapply view_retext; eauto.
          -- now rewrite E2.
          -- eapply flat_nodup; [exact N3|]. apply in_or_app. simpl. auto.
          -- intros q Hi. assert (Hj : In q (flat_map ids (u ++ k :: v))) by (apply in_flat_map; exists k; split; auto; apply in_or_app; simpl; auto).
             destruct (Hq q Hj) as (A1 & A2 & A3). split; [exact A1|]. split.
             ++ simpl. intros [Hx|Hx]; [now apply A3|auto].
             ++ simpl. rewrite in_app_iff. intros Nq [Hx|[Hx|Hx]]; [congruence|now apply (NX q)|auto].
        * eapply kept_kids; eauto.
  Qed.

  (** What [put_between] does with a single text. *)
  Lemma between_merge l1 l2 s t s' x : merges_into d l1 l2 s t s' ->
    forall a b, Forall (view d) a -> Forall (view d) b -> map vid a = l1 -> map vid b = l2 ->
       exists u k v old, a ++ b = u ++ k :: v /\ vid k = t /\ vtext k = Some old /\
         put_between a [V x (text_label s) []] b = u ++ with_text s' k :: v.
  Proof.
    intros M a b Fa Fb Ea Eb. unfold put_between. destruct M as [(old & H & ->)|(H0 & old & H & ->)].
    - rewrite <- Ea in H. destruct (last_text_some d a t old Fa H) as (a0 & k & -> & E1 & E2 & E3).
      rewrite E3. exists a0, k, b, old. split; [now rewrite <- app_assoc|]. split; auto. split; auto.
      unfold put_after. rewrite E3. cbn [first_text vtext vlabel text_label l_text tl].
      rewrite retext_last_app, <- !app_assoc. reflexivity.
    - rewrite <- Ea in H0. rewrite (last_text_none d a Fa H0). rewrite <- Eb in H.
      destruct (first_text_some d b t old Fb H) as (k & b0 & -> & E1 & E2 & E3).
      exists a, k, b0, old. split; [reflexivity|]. split; auto. split; auto.
      unfold put_before. rewrite E3. cbn [last_text vtext vlabel text_label l_text removelast app retext_first]. reflexivity.
  Qed.
  Lemma between_new l1 l2 s x : no_text_end d l1 -> no_text_start d l2 ->
    forall a b, Forall (view d) a -> Forall (view d) b -> map vid a = l1 -> map vid b = l2 ->
       put_between a [V x (text_label s) []] b = a ++ V x (text_label s) [] :: b.
  Proof.
    intros H1 H2 a b Fa Fb Ea Eb. unfold put_between, put_before.
    rewrite (last_text_none d a), (first_text_none d b); auto; rewrite ?Ea, ?Eb; auto.
  Qed.
  Lemma merges_dec l1 l2 s : (exists t s', merges_into d l1 l2 s t s') \/ (no_text_end d l1 /\ no_text_start d l2).
  Proof.
    destruct (text_end_dec d l1) as [(c & old & H)|H].
    - left. exists c, (old ++ [cSP] ++ s). left. eauto.
    - destruct (text_start_dec d l2) as [(c & old & H')|H'].
      + left. exists c, (s ++ [cSP] ++ old). right. eauto.
      + auto.
  Qed.
  Lemma merges_in l1 l2 s t s' : merges_into d l1 l2 s t s' -> In t (l1 ++ l2).
  Proof.
    intros [(old & ((l0 & ->) & _) & _)|(_ & old & ((l0 & ->) & _) & _)].
    - rewrite <- app_assoc. apply in_or_app. simpl. auto.
    - apply in_or_app. simpl. auto.
  Qed.

  Lemma s_replace_text bl c s : attached d c -> run bl (ReplaceText c s) d = Ok d' ->
    view d' (step bl n (ReplaceText c s) T).
  Proof.
    intros (p & l & P0 & Hl & Hc) E. apply pair_ok in E. destruct E as (x & E). apply in_split in Hc. destruct Hc as (l1 & l2 & ->).
    assert (Hc : In c (l1 ++ c :: l2)) by (apply in_or_app; simpl; auto).
    destruct (kid_bounds d R p _ c Hl Hc) as (Lc1 & Lc2).
    cbn [step]. destruct (merges_dec l1 l2 s) as [(t & s' & M)|(H1 & H2)].
    - destruct (u_preorder d R c) as (m & PD & _ & _ & _); [lia|].
      pose proof (gives_ok _ _ _ _ _ (u_replace_text_merge d R p c l1 l2 s t s' (c :: m) Hl M PD) E) as (-> & A & B & C & D & K).
      eapply (s_replace_merge p c l1 l2 (c :: m) _ t s' [n]); eauto.
      + now apply frame_but.
      + intros q [<-|[]]. lia.
      + intros a b. now apply between_merge.
      + eapply merges_in; eauto.
    - pose proof (gives_ok _ _ _ _ _ (u_replace_text_new d R p c l1 l2 s Hl H1 H2) E) as (-> & A & B & C & D & _ & _ & K).
      eapply (s_replace_one p c l1 l2 (text_label s)); [exact Hl| |exact A| |].
      + now apply frame_but.
      + constructor; [exact D|exact B|constructor].
      + intros a b. now apply between_new.
  Qed.

  (** ** Attributes *)
  Lemma s_attr p g : 0 < p < n -> only_attrs_of d d' p ->
    (forall l ks, vid (g (V p l ks)) = p) ->
    (forall l ks, content d p = (Some (l_kind l), l_tag l, l_text l, l_bools l, l_props l) ->
       exists l', g (V p l ks) = V p l' ks /\ content d' p = (Some (l_kind l'), l_tag l', l_text l', l_bools l', l_props l')) ->
    view d' (at_node p g T).
  Proof.
    intros Np (O1 & O2 & O3 & O4 & O5) Hv Hg.
    assert (K : forall q, In q (ids T) -> q <> p -> content d' q = content d q).
    { intros q Hq N. apply O5; auto. pose proof (T_bound d R T HT HV q Hq). lia. }
    eapply view_at_node; eauto.
    - intros [i l ks] S Vt ND E. simpl in E. subst i. split; [|apply Hv].
      destruct (view_inv _ _ _ _ Vt) as (E & C & Fk). destruct (Hg l ks E) as (l' & -> & E').
      constructor; auto; [now apply O4|]. simpl in ND. apply NoDup_cons_iff in ND. destruct ND as (N1 & N2).
      rewrite Forall_forall in *. intros k Hk. apply (view_keep d); auto.
      + intros q Hq. apply K.
        * eapply sub_ids; [exact S|]. right. apply in_flat_map. eauto.
        * intros ->. apply N1. apply in_flat_map. eauto.
      + intros q m _ H. now apply O4.
    - intros q Hq NB. split; [apply K; auto; intros ->; apply NB; constructor|]. intros m H. now apply O4.
  Qed.
  Lemma bools_after p f : only_attrs_of d d' p -> bool_attrs d' p = f (bool_attrs d p) -> attrs d' p = attrs d p ->
    forall l ks, content d p = (Some (l_kind l), l_tag l, l_text l, l_bools l, l_props l) ->
       exists l', with_bools f (V p l ks) = V p l' ks /\ content d' p = (Some (l_kind l'), l_tag l', l_text l', l_bools l', l_props l').
  Proof.
    intros (O1 & O2 & O3 & _) B A l ks E. eexists. split; [reflexivity|]. cbn [l_kind l_tag l_text l_bools l_props].
    unfold content in *. rewrite O1, O2, O3, B, A. assert (X : bool_attrs d p = l_bools l) by congruence. rewrite <- X. congruence.
  Qed.
  Lemma props_after p f : only_attrs_of d d' p -> attrs d' p = f (attrs d p) -> bool_attrs d' p = bool_attrs d p ->
    forall l ks, content d p = (Some (l_kind l), l_tag l, l_text l, l_bools l, l_props l) ->
       exists l', with_props f (V p l ks) = V p l' ks /\ content d' p = (Some (l_kind l'), l_tag l', l_text l', l_bools l', l_props l').
  Proof.
    intros (O1 & O2 & O3 & _) B A l ks E. eexists. split; [reflexivity|]. cbn [l_kind l_tag l_text l_bools l_props].
    unfold content in *. rewrite O1, O2, O3, B, A. assert (X : attrs d p = l_props l) by congruence. rewrite <- X. congruence.
  Qed.
  Lemma set_first_none k w : forall l, ~ In k (map fst l) -> set_first k w l = l.
  Proof.
    induction l as [|[k' v'] l IH]; [reflexivity|]. simpl. intros N. destruct (beq k k') eqn:E.
    - exfalso. apply N. left. symmetry. now apply beq_eq.
    - f_equal. tauto.
  Qed.

  Lemma s_add_bool bl p b : node_id d p -> run bl (AddBool p b) d = Ok d' -> view d' (step bl n (AddBool p b) T).
  Proof.
    intros Np E. pose proof (gives_ok _ _ _ _ _ (u_add_bool d R p b Np) E) as (A & B & C).
    cbn [step]. apply s_attr; auto. eapply bools_after; eauto.
  Qed.
  Lemma s_add_prop bl p k w : node_id d p -> run bl (AddProp p k w) d = Ok d' -> view d' (step bl n (AddProp p k w) T).
  Proof.
    intros Np E. pose proof (gives_ok _ _ _ _ _ (u_add_prop d R p k w Np) E) as (A & B & C).
    cbn [step]. apply s_attr; auto. eapply props_after; eauto.
  Qed.
  Lemma s_remove_bool bl p b : node_id d p -> run bl (RemoveBool p b) d = Ok d' -> view d' (step bl n (RemoveBool p b) T).
  Proof.
    intros Np E. destruct (u_remove_bool d R p b) as (d0 & E0 & A & B & C); [destruct Np; lia|].
    cbn [run] in E. rewrite E in E0. injection E0 as <-.
    cbn [step]. apply s_attr; auto. eapply bools_after; eauto.
  Qed.
  Lemma s_remove_prop bl p k : node_id d p -> run bl (RemoveProp p k) d = Ok d' -> view d' (step bl n (RemoveProp p k) T).
  Proof.
    intros Np E. destruct (u_remove_prop d R p k) as (d0 & E0 & A & B & C); [destruct Np; lia|].
    cbn [run] in E. rewrite E in E0. injection E0 as <-.
    cbn [step]. apply s_attr; auto. eapply props_after; eauto.
  Qed.
  Lemma s_set_prop bl p k w : node_id d p -> run bl (SetProp p k w) d = Ok d' -> view d' (step bl n (SetProp p k w) T).
  Proof.
    intros Np E. apply pair_ok in E. destruct E as (ok & E).
    assert (P0 : p <> 0) by (destruct Np; lia).
    pose proof (gives_ok _ _ _ _ _ (u_set_prop d R p k w P0) E) as (A & B & C).
    cbn [step]. destruct ok.
    - destruct (C eq_refl) as (C1 & C2 & C3 & _).
      apply s_attr; auto. eapply props_after; eauto.
    - pose proof (B eq_refl) as Ed. assert (O : only_attrs_of d d' p) by (rewrite Ed; repeat split; auto).
      assert (NI : ~ In k (map fst (attrs d p))). { intros X. apply A in X. discriminate. }
      apply s_attr; auto. apply props_after; auto; rewrite Ed; [|reflexivity].
      symmetry. now apply set_first_none.
  Qed.

  Lemma s_label p g : 0 < p < n -> (forall m, m <> p -> same_content d d' m) ->
    (forall q m, children d' q m <-> children d q m) ->
    (forall l ks, vid (g (V p l ks)) = p) ->
    (forall l ks, content d p = (Some (l_kind l), l_tag l, l_text l, l_bools l, l_props l) ->
       exists l', g (V p l ks) = V p l' ks /\ content d' p = (Some (l_kind l'), l_tag l', l_text l', l_bools l', l_props l')) ->
    view d' (at_node p g T).
  Proof.
    intros Np O5 O4 Hv Hg.
    assert (K : forall q, In q (ids T) -> q <> p -> content d' q = content d q).
    { intros q Hq N. now apply O5. }
    eapply view_at_node; eauto.
    - intros [i l ks] S Vt ND E. simpl in E. subst i. split; [|apply Hv].
      destruct (view_inv _ _ _ _ Vt) as (E & C & Fk). destruct (Hg l ks E) as (l' & -> & E').
      constructor; auto; [now apply O4|]. simpl in ND. apply NoDup_cons_iff in ND. destruct ND as (N1 & N2).
      rewrite Forall_forall in *. intros k Hk. apply (view_keep d); auto.
      + intros q Hq. apply K.
        * eapply sub_ids; [exact S|]. right. apply in_flat_map. eauto.
        * intros ->. apply N1. apply in_flat_map. eauto.
      + intros q m _ H. now apply O4.
    - intros q Hq NB. split; [apply K; auto; intros ->; apply NB; constructor|]. intros m H. now apply O4.
  Qed.
  Lemma kind_node p ty : ty <> TError -> kind d p = Some ty -> 0 < p < n.
  Proof.
    intros Ht K. destruct (reachable_good d R) as [k G]. unfold kind in K. split.
    - destruct p; [|lia]. pose proof (ty_zero _ _ (g_ty _ _ G)) as Z. unfold kind in Z.
      destruct (nth_error (nodes d) 0); congruence.
    - apply nth_error_Some. destruct (nth_error (nodes d) p); discriminate.
  Qed.
  Lemma s_add_text bl p s app : kind d p = Some TText -> run bl (AddText p s app) d = Ok d' ->
    view d' (step bl n (AddText p s app) T).
  Proof.
    intros K E. destruct (u_add_text d R p s app K) as (old & d0 & O & E0 & (A1 & A2 & A3 & A4) & B & C & L & _).
    cbn [run] in E. rewrite E in E0. injection E0 as <-.
    cbn [step]. apply s_label; auto.
    - apply (kind_node p TText); auto; discriminate.
    - intros l ks. unfold more_text_at. simpl. destruct (l_text l); reflexivity.
    - intros l ks Ec. unfold content in Ec.
      assert (El : l_text l = Some old) by congruence. assert (Ek : l_kind l = TText) by congruence.
      eexists. split; [unfold more_text_at; cbn [vlabel]; rewrite El; cbn [with_text]; reflexivity|].
      cbn [l_kind l_tag l_text l_bools l_props]. unfold content. rewrite A1, A2, A3, A4, Ek.
      assert (tag_name d' p = None).
      { unfold tag_name. unfold kind in A1. destruct (nth_error (nodes d') p) as [[i ty pay]|]; auto.
        injection A1 as A1. simpl in A1. subst. destruct pay; reflexivity. }
      assert (tag_name d p = None).
      { unfold tag_name. unfold kind in K. destruct (nth_error (nodes d) p) as [[i ty pay]|]; auto.
        injection K as K. simpl in K. subst. destruct pay; reflexivity. }
      repeat f_equal; congruence.
  Qed.
  Lemma s_set_tag bl p tag pr : kind d p = Some TDocument -> run bl (SetTag p tag pr) d = Ok d' ->
    view d' (step bl n (SetTag p tag pr) T).
  Proof.
    intros K E. pose proof (gives_ok _ _ _ _ _ (u_set_tag d R p tag pr K) E) as ((A1 & A2 & A3 & A4) & B & C & L).
    cbn [step]. apply s_label; auto.
    - apply (kind_node p TDocument); auto; discriminate.
    - intros l ks Ec. unfold content in Ec. eexists. split; [reflexivity|].
      cbn [l_kind l_tag l_text l_bools l_props]. unfold content. rewrite A1, A2, A3, A4.
      assert (text_of d' p = None).
      { unfold text_of. unfold kind in A1. destruct (nth_error (nodes d') p) as [[i ty pay]|]; auto.
        injection A1 as A1. simpl in A1. subst. destruct pay; reflexivity. }
      assert (text_of d p = None).
      { unfold text_of. unfold kind in K. destruct (nth_error (nodes d) p) as [[i ty pay]|]; auto.
        injection K as K. simpl in K. subst. destruct pay; reflexivity. }
      repeat f_equal; congruence.
  Qed.
End Ops.
