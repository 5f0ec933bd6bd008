(** * Proofs about printing. *)
From Coq Require Import String List NArith Arith Bool Lia.
From Verif Require Import Base TrieModel DomModel ParserModel EditModel ReadModel DomSpec ApiSpec
  Lemmas Inv RegProofs ParseTree ApiProofs ReadUser QueryRel CompareModel CompareSpec CompareProofs DuplicateProofs
  LogModel LogSpec LogProofs PrintModel PrintSpec.
Import ListNotations.
Local Open Scope nat_scope.

Lemma print_bools_ok d n : forall l, (forall e, In e l -> snd e < length (bool_reg d)) ->
  exists ps, print_bools l n d = Ok ps /\
    concat ps = flat_map (fun b => lit " " ++ b)
      (map (fun e => nth (snd e) (bool_reg d) []) (filter (fun e => fst e =? n) l)).
Proof.
  induction l as [|e l IH]; intros H; cbn [print_bools filter map flat_map].
  - exists []. auto.
  - destruct (IH (fun e' He => H e' (or_intror He))) as (ps & E & C).
    destruct (fst e =? n); [|eauto]. unfold reg_at.
    destruct (nth_error (bool_reg d) (snd e)) as [b|] eqn:Q.
    2:{ apply nth_error_None in Q. specialize (H e (or_introl eq_refl)). lia. }
    cbn [bind]. rewrite E. cbn [bind]. eexists. split; [reflexivity|]. cbn [concat map flat_map].
    pose proof (nth_error_nth _ _ [] Q) as Q'. unfold bytes in *. rewrite Q', C, <- app_assoc. reflexivity.
Qed.
Lemma print_props_ok d n : forall l, (forall e, In e l -> p_key e < length (key_reg d) /\ p_val e < length (val_reg d)) ->
  exists ps, print_props l n d = Ok ps /\
    concat ps = flat_map attr_text
      (map (fun e => (nth (p_key e) (key_reg d) [], nth (p_val e) (val_reg d) [])) (filter (fun e => p_node e =? n) l)).
Proof.
  induction l as [|e l IH]; intros H; cbn [print_props filter map flat_map].
  - exists []. auto.
  - destruct (IH (fun e' He => H e' (or_intror He))) as (ps & E & C).
    destruct (p_node e =? n); [|eauto]. unfold reg_at. destruct (H e (or_introl eq_refl)) as [H1 H2].
    destruct (nth_error (key_reg d) (p_key e)) as [k|] eqn:Qk; [|apply nth_error_None in Qk; lia].
    destruct (nth_error (val_reg d) (p_val e)) as [v|] eqn:Qv; [|apply nth_error_None in Qv; lia].
    cbn [bind]. rewrite E. cbn [bind]. eexists. split; [reflexivity|]. cbn [concat map flat_map].
    pose proof (nth_error_nth _ _ [] Qk) as Qk'. pose proof (nth_error_nth _ _ [] Qv) as Qv'. unfold bytes in *.
    rewrite Qk', Qv', C. unfold attr_text. cbn [fst snd].
    rewrite <- !app_assoc. reflexivity.
Qed.

Section Print.
  Context (d : dom) (R : reachable d).

  Definition node_prints (n : nat) (w : list nat) : Prop := live d n -> forall f, 2 * length w <= f ->
    exists ps, print_node f n d = Ok ps /\ prints d n (concat ps).
  Definition list_prints (l w : list nat) : Prop := (forall c, In c l -> live d c) ->
    forall c f, sibs d c l -> 2 * length w < f ->
    exists ps, print_children f c d = Ok ps /\ prints_all d l (concat ps).

  Lemma print_pre n w : preorder d n w -> node_prints n w.
  Proof.
    apply (preorder_mut d node_prints list_prints).
    - intros p cs l C _ IH Lp f F. destruct f as [|f]; [cbn [length] in F; lia|]. cbn [length] in F.
      destruct (IH (fun c => child_live d R p cs c C) _ f C ltac:(lia)) as (ps & E & P).
      destruct (node_at d p (proj1 Lp)) as [x Ex]. cbn [print_node]. unfold get_node. rewrite Ex. cbn [bind].
      destruct (reachable_good d R) as [k G].
      pose proof (ty_pay _ _ (g_ty _ _ G) p x Ex) as Px. pose proof (u_ids d R p x Ex) as Ix.
      pose proof (ri_tags _ (u_reg d R) p x) as Tx. destruct Lp as [Np Kp]. unfold kind in Kp. rewrite Ex in Kp.
      destruct x as [i t y]. cbn [n_id n_type n_pay] in *. subst i. unfold pay_ok in Px. cbn [n_type n_pay] in Px.
      destruct t; try (exfalso; intuition congruence).
      + exists ps. split; [exact E|]. apply (prints_root d p cs); auto. unfold kind. now rewrite Ex.
      + destruct Px as (a & -> & Ha). specialize (Tx a Ex eq_refl). unfold reg_of. cbn [n_pay].
        destruct (nth_error (tag_reg d) a) as [r|] eqn:X; [|apply nth_error_None in X; lia]. cbn [bind].
        assert (Tn : tag_name d p = Some (t_name r)) by (unfold tag_name; now rewrite Ex, X).
        assert (Tp : paired d p = Some (t_paired r)) by (unfold paired; now rewrite Ex, X).
        destruct (print_bools_ok d p (bprops d)) as (bs & Eb & Cb).
        { intros e He. apply (ri_bprops _ (u_reg d R) e He). }
        destruct (print_props_ok d p (props d)) as (qs & Eq & Cq).
        { intros e He. destruct (ri_props _ (u_reg d R) e He) as (_ & ? & ? & _). auto. }
        rewrite Eb, Eq. cbn [bind].
        assert (Op : concat ([lit "<"; t_name r] ++ bs ++ qs) = open_text d p (t_name r)).
        { rewrite !concat_app, Cb, Cq. unfold open_text, bool_attrs, attrs. cbn [concat]. now rewrite app_nil_r, <- !app_assoc. }
        destruct (t_paired r) eqn:Pr; cbn [negb].
        * rewrite E. cbn [bind]. eexists. split; [reflexivity|]. rewrite concat_app, Op, !concat_app. cbn [concat].
          rewrite !app_nil_r. apply (prints_paired d p (t_name r) cs); auto.
        * eexists. split; [reflexivity|]. rewrite concat_app, Op. cbn [concat]. rewrite app_nil_r.
          destruct (beq (t_name r) (lit "!DOCTYPE")) eqn:B.
          -- apply beq_spec in B. rewrite B in *. apply prints_doctype; auto.
          -- apply prints_single; auto. intros Q. apply beq_spec in Q. congruence.
      + destruct Px as (s & ->). unfold node_text. cbn [n_pay bind]. eexists. split; [reflexivity|].
        cbn [concat]. rewrite app_nil_r. apply prints_text. unfold text_of. now rewrite Ex.
    - intros _ c f S F. destruct f as [|f]; [lia|]. cbn [print_children]. inversion S; subst.
      cbn [Nat.eqb]. exists []. split; [reflexivity|constructor].
    - intros c cs l ls Hp IHc _ IHs L c' f S F. destruct f as [|f]; [lia|]. cbn [print_children].
      inversion S; subst. destruct (Nat.eqb_spec c 0) as [?|_]; [congruence|]. rewrite app_length in F.
      destruct (IHc (L c (or_introl eq_refl)) f ltac:(lia)) as (ps & E & P). rewrite E. cbn [bind].
      destruct l as [|z l]; [exfalso; inversion Hp|]. cbn [length] in F.
      destruct (IHs (fun x H => L x (or_intror H)) (get_next c d) f ltac:(assumption) ltac:(lia)) as (qs & E' & P').
      rewrite E'. cbn [bind]. eexists. split; [reflexivity|]. rewrite concat_app. now constructor.
  Qed.

  Scheme prints_mut := Minimality for prints Sort Prop
    with prints_all_mut := Minimality for prints_all Sort Prop.

  Lemma text_kind n s : text_of d n = Some s -> kind d n = Some TText.
  Proof. unfold text_of, kind. destruct (nth_error (nodes d) n) as [[i [] []]|]; try discriminate; reflexivity. Qed.
  Lemma tag_kind n s : tag_name d n = Some s -> kind d n = Some TDocument.
  Proof. unfold tag_name, kind. destruct (nth_error (nodes d) n) as [[i [] []]|]; try discriminate; reflexivity. Qed.

  (** The printed form is unique. *)
  Lemma prints_unique n s : prints d n s -> forall s', prints d n s' -> s = s'.
  Proof.
    assert (Inv : forall n s, prints d n s ->
      (text_of d n = Some s) \/
      (kind d n = Some TRoot /\ exists l, children d n l /\ prints_all d l s) \/
      (exists tag, tag_name d n = Some tag /\ paired d n = Some false /\
         s = open_text d n tag ++ (if beq tag (lit "!DOCTYPE") then lit ">" else lit "/>")) \/
      (exists tag l t, tag_name d n = Some tag /\ paired d n = Some true /\ children d n l /\ prints_all d l t /\
         s = open_text d n tag ++ lit ">" ++ t ++ lit "</" ++ tag ++ lit ">")).
    { intros m t P. inversion P as [m' ? T'|m' l' ? K' C' A|m' T' K'|m' tag T' Ne K'|m' tag l' t' T' K' C' A]; subst.
      - now left.
      - right. left. eauto.
      - do 2 right. left. exists (lit "!DOCTYPE"). rewrite (proj2 (beq_spec _ _) eq_refl). auto.
      - do 2 right. left. exists tag. destruct (beq tag (lit "!DOCTYPE")) eqn:B; [apply beq_spec in B; congruence|auto].
      - do 3 right. exists tag, l', t'. auto. }
    apply (prints_mut d (fun n s => forall s', prints d n s' -> s = s') (fun l s => forall s', prints_all d l s' -> s = s')).
    - intros m t T s' P. pose proof (text_kind _ _ T) as Tk.
      destruct (Inv _ _ P) as [T'|[(K & _)|[(tag & T' & _)|(tag & l & t' & T' & _)]]]; try congruence; apply tag_kind in T'; congruence.
    - intros m l t K C _ IH s' P.
      destruct (Inv _ _ P) as [T'|[(K' & l' & C' & A)|[(tag & T' & _)|(tag & l' & t' & T' & _)]]];
        [apply text_kind in T'; congruence| |apply tag_kind in T'; congruence|apply tag_kind in T'; congruence].
      apply IH. now rewrite (kids_unique d R m l l' C C').
    - intros m T K s' P. pose proof (tag_kind _ _ T) as Tk.
      destruct (Inv _ _ P) as [T'|[(K' & _)|[(tag & T' & K' & ->)|(tag & l' & t' & T' & K' & _)]]];
        [apply text_kind in T'; congruence|congruence| |congruence].
      assert (tag = lit "!DOCTYPE") as -> by congruence. now rewrite (proj2 (beq_spec _ _) eq_refl).
    - intros m tag T Ne K s' P. pose proof (tag_kind _ _ T) as Tk.
      destruct (Inv _ _ P) as [T'|[(K' & _)|[(tag' & T' & K' & ->)|(tag' & l' & t' & T' & K' & _)]]];
        [apply text_kind in T'; congruence|congruence| |congruence].
      assert (tag' = tag) as -> by congruence. destruct (beq tag (lit "!DOCTYPE")) eqn:B; [apply beq_spec in B; congruence|reflexivity].
    - intros m tag l t T K C _ IH s' P. pose proof (tag_kind _ _ T) as Tk.
      destruct (Inv _ _ P) as [T'|[(K' & _)|[(tag' & T' & K' & ->)|(tag' & l' & t' & T' & K' & C' & A & ->)]]];
        [apply text_kind in T'; congruence|congruence|congruence|].
      rewrite (kids_unique d R m l' l C' C) in A. rewrite (IH _ A). assert (tag' = tag) as -> by congruence. reflexivity.
    - intros s' P. inversion P. reflexivity.
    - intros c cs t ss _ IH1 _ IH2 s' P. inversion P as [|c' cs' t' ss' A B]; subst. now rewrite (IH1 _ A), (IH2 _ B).
  Qed.

  Lemma print_dom_ok : exists ps, print_dom d = Ok ps /\ prints d 1 (concat ps).
  Proof.
    destruct (u_preorder d R 1 ltac:(lia)) as (w & P & ND & _ & B).
    assert (Live1 : live d 1).
    { destruct (reachable_good d R) as [k G]. pose proof (inv_len _ _ (g_inv _ _ G)).
      split; [unfold node_id; lia|]. left. apply (ty_one _ _ (g_ty _ _ G)). }
    assert (LE : length (1 :: w) <= length (nodes d)).
    { rewrite <- (seq_length (length (nodes d)) 0). apply NoDup_incl_length; [exact ND|].
      intros y Hy. apply in_seq. apply B in Hy. destruct (below_last _ _ _ Hy) as [->|(p & l & _ & C & I)].
      - pose proof (proj1 Live1). unfold node_id in *. lia.
      - pose proof (proj1 (child_live d R p l y C I)). unfold node_id in *. lia. }
    destruct (print_pre 1 _ P Live1 (2 * length (nodes d) + 2) ltac:(lia)) as (ps & E & Pr).
    unfold print_dom. cbn [print_loop Nat.eqb]. rewrite E. cbn [bind].
    rewrite (root_no_next d R). cbn [Nat.eqb bind]. exists ps. rewrite app_nil_r. auto.
  Qed.
End Print.

Lemma concat_wapp l : concat (map wop_text (map (fun s => WApp s false false) l)) = concat l.
Proof. induction l as [|s l IH]; [reflexivity|]. cbn [map concat wop_text newline]. now rewrite app_nil_r, IH. Qed.
