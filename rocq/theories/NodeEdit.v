(** * [addTextToTextNode] and [setTagOnDocumentNode] called directly. *)
From Coq Require Import List NArith Arith Bool Lia.
From Verif Require Import Base TrieModel DomModel ParserModel EditModel ReadModel DomSpec ApiSpec
  Lemmas TrieProofs Tables Inv Surgery Attach Link RegProofs ParseSafe ParseTree EditProofs EditHtml.
Import ListNotations.
Local Open Scope nat_scope.

Lemma kind_text_of d k n : Good d k -> kind d n = Some TText -> exists old, text_of d n = Some old.
Proof.
  intros G H. unfold kind in H. destruct (nth_error (nodes d) n) as [x|] eqn:E; [|discriminate].
  pose proof (ty_pay _ _ (g_ty _ _ G) n x E) as P. unfold pay_ok in P. injection H as H. rewrite H in P.
  destruct P as [s P]. exists s. unfold text_of. rewrite E. destruct x as [i ty pay]. simpl in *. now subst.
Qed.
Lemma add_text_eq d k n s app old : Good d k -> text_of d n = Some old ->
  add_text_to_text_node n s app d = Ok (text_set d n (if app then old ++ [cSP] ++ s else s ++ [cSP] ++ old)).
Proof.
  intros G H. destruct (text_of_kind _ _ _ H) as [_ L].
  destruct (nth_error (nodes d) n) as [x|] eqn:E; [|apply nth_error_None in E; lia].
  destruct (node_text_of d k n x old G E H) as (T & Id & Ty).
  unfold add_text_to_text_node, set_pay, get_node. rewrite E. cbn [bind]. rewrite T. cbn [bind]. rewrite Id.
  unfold text_set. unfold is_text in Ty. destruct (n_type x); try discriminate. reflexivity.
Qed.

Lemma set_tag_good d k n tag p : Good d k -> kind d n = Some TDocument ->
  safe False (fun d' => Good d' k /\ retagged d d' n tag /\ (forall m, m <> n -> same_content d d' m) /\
                        length (nodes d') = length (nodes d)) (set_tag tag n p d).
Proof.
  intros G K. unfold kind in K. destruct (nth_error (nodes d) n) as [x|] eqn:E; [|discriminate].
  injection K as K. eapply safe_imp; [apply (set_tag_ok tag n p d x (g_reg _ _ G) E)|].
  intros d' (R' & (T1 & T2 & T3) & X & B & P & t & r & N & Hr & Hn & T0).
  assert (BA : forall m, bool_attrs d' m = bool_attrs d m).
  { intros m. rewrite (bool_attrs_app d d' m [] (g_reg _ _ G) X); [apply app_nil_r|now rewrite app_nil_r]. }
  assert (PA : forall m, attrs d' m = attrs d m).
  { intros m. rewrite (attrs_app d d' m [] (g_reg _ _ G) X); [apply app_nil_r|now rewrite app_nil_r]. }
  pose proof (inv_ids _ _ (g_inv _ _ G) n x E) as Id.
  assert (L : n < length (nodes d)) by (apply nth_error_Some; congruence).
  split; [|split; [|split]].
  - pose proof (g_inv _ _ G) as HI. pose proof (g_ty _ _ G) as HT. constructor.
    + destruct HI. constructor; rewrite ?T1, ?T2, ?T3, ?N, ?upd_length; auto.
      intros i m Hi. rewrite upd_nth in Hi. destruct (Nat.eqb_spec i n) as [->|]; [|eauto].
      rewrite E in Hi. injection Hi as <-. exact Id.
    + exact R'.
    + clear Id. destruct HT. unfold kind in *. constructor; unfold kind; rewrite N.
      * intros i m Hi. rewrite upd_nth in Hi. destruct (Nat.eqb_spec i n) as [->|]; [|eauto].
        rewrite E in Hi. injection Hi as <-. red. simpl. rewrite K. eauto.
      * rewrite upd_nth_neq; auto. intros E0. subst n. rewrite E in ty_zero. congruence.
      * rewrite upd_nth_neq; auto. intros E0. subst n. rewrite E in ty_one. congruence.
      * intros i m Hi0 Hi. rewrite upd_nth in Hi. destruct (Nat.eqb_spec i n) as [->|]; [|eauto].
        rewrite E in Hi. injection Hi as <-. left. left. exact K.
      * intros q c m Hc Hi. rewrite upd_nth in Hi. destruct (Nat.eqb_spec c n) as [->|]; [|eauto].
        rewrite E in Hi. injection Hi as <-. left. exact K.
  - unfold retagged, kind, tag_name. rewrite N, upd_nth_eq by auto. cbn [n_type]. rewrite K, Hr, Hn. auto.
  - intros m Hm. unfold same_content, content. rewrite BA, PA.
    unfold kind, tag_name, text_of. rewrite N, upd_nth_neq by auto.
    destruct (nth_error (nodes d) m) as [[i ty [tm|s|]]|] eqn:Em; auto.
    destruct ty; auto. destruct X as ((y & ->) & _).
    pose proof (ri_tags _ (g_reg _ _ G) m _ tm Em eq_refl) as Lt. now rewrite nth_error_app1 by exact Lt.
  - now rewrite N, upd_length.
Qed.
