(** * Printing after an abandoned call: proofs. *)
From Coq Require Import String List NArith Arith Bool Lia.
From Verif Require Import Base TrieModel DomModel ParserModel EditModel ReadModel DomSpec ApiSpec Lemmas TrieProofs
  Tables Inv Surgery Attach Replace Link RegProofs ParseSafe ParseTree ParseLoop Walk AttrProofs EditProofs EditOps EditHtml EditUser
  ApiProofs ReadUser QueryRel CompareModel CompareSpec LogModel LogSpec PrintModel PrintSpec PrintProofs
  CrashSpec CrashModel CrashAgree CrashDebris CrashWalk CrashRead CrashLink CrashOps CrashFacts CrashUser CompareProofs.
Import ListNotations.
Local Open Scope nat_scope.

Lemma print_bools_own d n : forall l, (forall e, In e l -> fst e = n -> snd e < length (bool_reg d)) ->
  exists ps, print_bools l n d = Ok ps /\
    concat ps = flat_map (fun b => lit " " ++ b)
      (map (fun e => nth (snd e) (bool_reg d) []) (filter (fun e => fst e =? n) l)).
Proof.
  induction l as [|e l IH]; intros H; cbn [print_bools filter map flat_map].
  - exists []. auto.
  - destruct (IH (fun e' He => H e' (or_intror He))) as (ps & E & C).
    destruct (Nat.eqb_spec (fst e) n) as [En|_]; [|eauto]. unfold reg_at.
    destruct (nth_error (bool_reg d) (snd e)) as [b|] eqn:Q.
    2:{ apply nth_error_None in Q. specialize (H e (or_introl eq_refl) En). lia. }
    cbn [bind]. rewrite E. cbn [bind]. eexists. split; [reflexivity|]. cbn [concat map flat_map].
    pose proof (nth_error_nth _ _ [] Q) as Q'. unfold bytes in *. rewrite Q', C, <- app_assoc. reflexivity.
Qed.
Lemma print_props_own d n : forall l,
  (forall e, In e l -> p_node e = n -> p_key e < length (key_reg d) /\ p_val e < length (val_reg d)) ->
  exists ps, print_props l n d = Ok ps /\
    concat ps = flat_map attr_text
      (map (fun e => (nth (p_key e) (key_reg d) [], nth (p_val e) (val_reg d) [])) (filter (fun e => p_node e =? n) l)).
Proof.
  induction l as [|e l IH]; intros H; cbn [print_props filter map flat_map].
  - exists []. auto.
  - destruct (IH (fun e' He => H e' (or_intror He))) as (ps & E & C).
    destruct (Nat.eqb_spec (p_node e) n) as [En|_]; [|eauto]. unfold reg_at. destruct (H e (or_introl eq_refl) En) as [H1 H2].
    destruct (nth_error (key_reg d) (p_key e)) as [k|] eqn:Qk; [|apply nth_error_None in Qk; lia].
    destruct (nth_error (val_reg d) (p_val e)) as [v|] eqn:Qv; [|apply nth_error_None in Qv; lia].
    cbn [bind]. rewrite E. cbn [bind]. eexists. split; [reflexivity|]. cbn [concat map flat_map].
    pose proof (nth_error_nth _ _ [] Qk) as Qk'. pose proof (nth_error_nth _ _ [] Qv) as Qv'. unfold bytes in *.
    rewrite Qk', Qv', C. unfold attr_text. cbn [fst snd].
    rewrite <- !app_assoc. reflexivity.
Qed.

Scheme pre_by := Minimality for preorder Sort Prop
  with pres_by := Minimality for preorders Sort Prop.

(** What printing one node needs. *)
Record fine (d : dom) (x : nat) : Prop := {
  fi_node : exists nd, nth_error (nodes d) x = Some nd /\ n_id nd = x /\
     (n_type nd = TRoot \/ (n_type nd = TText /\ exists s, n_pay nd = PText s) \/
      (n_type nd = TDocument /\ exists a, n_pay nd = PTag a /\ a < length (tag_reg d)));
  fi_bools : forall e, In e (bprops d) -> fst e = x -> snd e < length (bool_reg d);
  fi_props : forall e, In e (props d) -> p_node e = x -> p_key e < length (key_reg d) /\ p_val e < length (val_reg d) }.

Section Print.
Context (d : dom).
Definition node_prints' (n : nat) (w : list nat) : Prop := (forall x, In x w -> fine d x) -> forall f, 2 * length w <= f ->
    exists ps, print_node f n d = Ok ps /\ prints d n (concat ps).
Definition list_prints' (l w : list nat) : Prop := (forall x, In x w -> fine d x) ->
    forall c f, sibs d c l -> 2 * length w < f ->
    exists ps, print_children f c d = Ok ps /\ prints_all d l (concat ps).

Lemma print_pre' n w : preorder d n w -> node_prints' n w.
Proof.
  apply (pre_by d node_prints' list_prints').
  - intros p cs l C _ IH Fp f F. destruct f as [|f]; [cbn [length] in F; lia|]. cbn [length] in F.
    destruct (IH (fun x H => Fp x (or_intror H)) _ f C ltac:(lia)) as (ps & E & P).
    destruct (Fp p (or_introl eq_refl)) as [(x & Ex & Ix & Tx) FB FP]. cbn [print_node]. unfold get_node. rewrite Ex. cbn [bind].
    destruct x as [i t y]. cbn [n_id n_type n_pay] in *. subst i.
    destruct Tx as [->|[(-> & s & ->)|(-> & a & -> & Ha)]].
    + exists ps. split; [exact E|]. apply (prints_root d p cs); auto. unfold kind. now rewrite Ex.
    + unfold node_text. cbn [n_pay bind]. eexists. split; [reflexivity|].
      cbn [concat]. rewrite app_nil_r. apply prints_text. unfold text_of. now rewrite Ex.
    + unfold reg_of. cbn [n_pay].
      destruct (nth_error (tag_reg d) a) as [r|] eqn:X; [|apply nth_error_None in X; lia]. cbn [bind].
      assert (Tn : tag_name d p = Some (t_name r)) by (unfold tag_name; now rewrite Ex, X).
      assert (Tp : paired d p = Some (t_paired r)) by (unfold paired; now rewrite Ex, X).
      destruct (print_bools_own d p (bprops d) FB) as (bs & Eb & Cb).
      destruct (print_props_own d p (props d) FP) as (qs & Eq & Cq).
      rewrite Eb, Eq. cbn [bind].
      assert (Op : concat ([lit "<"; t_name r] ++ bs ++ qs) = open_text d p (t_name r)).
      { rewrite !concat_app, Cb, Cq. unfold open_text, bool_attrs, attrs. cbn [concat]. now rewrite app_nil_r, <- !app_assoc. }
      destruct (t_paired r) eqn:Pr; cbn [negb].
      * rewrite E. cbn [bind]. eexists. split; [reflexivity|]. rewrite concat_app, Op, !concat_app. cbn [concat].
        rewrite !app_nil_r. apply (prints_paired d p (t_name r) cs); auto.
      * eexists. split; [reflexivity|]. rewrite concat_app, Op. cbn [concat]. rewrite app_nil_r.
        destruct (beq (t_name r) (lit "!DOCTYPE")) eqn:B.
        -- apply beq_spec in B. rewrite B in *. apply prints_doctype; auto.
        -- apply prints_single; auto. intros Q. apply beq_spec in Q. congruence.
  - intros _ c f S F. destruct f as [|f]; [lia|]. cbn [print_children]. inversion S; subst.
    cbn [Nat.eqb]. exists []. split; [reflexivity|constructor].
  - intros c cs l ls Hp IHc _ IHs L c' f S F. destruct f as [|f]; [lia|]. cbn [print_children].
    inversion S; subst. destruct (Nat.eqb_spec c 0) as [?|_]; [congruence|]. rewrite app_length in F.
    destruct (IHc (fun x H => L x (in_or_app _ _ _ (or_introl H))) f ltac:(lia)) as (ps & E & P). rewrite E. cbn [bind].
    destruct l as [|z l]; [exfalso; inversion Hp|]. cbn [length] in F.
    destruct (IHs (fun x H => L x (in_or_app _ _ _ (or_intror H))) (get_next c d) f ltac:(assumption) ltac:(lia)) as (qs & E' & P').
    rewrite E'. cbn [bind]. eexists. split; [reflexivity|]. rewrite concat_app. now constructor.
Qed.

(** The printed form is unique in every document. *)
Lemma prints_once n s : prints d n s -> forall s', prints d n s' -> s = s'.
Proof.
  assert (KU : forall m l l', children d m l -> children d m l' -> l = l').
  { intros m l l'. apply sibs_fun. }
  assert (Inv : forall n s, prints d n s ->
    (text_of d n = Some s) \/
    (kind d n = Some TRoot /\ exists l, children d n l /\ prints_all d l s) \/
    (exists tag, tag_name d n = Some tag /\ paired d n = Some false /\
       s = open_text d n tag ++ (if beq tag (lit "!DOCTYPE") then lit ">" else lit "/>")) \/
    (exists tag l t, tag_name d n = Some tag /\ paired d n = Some true /\ children d n l /\ prints_all d l t /\
       s = open_text d n tag ++ lit ">" ++ t ++ lit "</" ++ tag ++ lit ">")).
  { intros m t P. inversion P as [m' ? T'|m' l' ? K' C' A|m' T' K'|m' tag T' Ne K'|m' tag l' t' T' K' C' A]; subst.
    - now left.
    - right. left. eauto.
    - do 2 right. left. exists (lit "!DOCTYPE"). rewrite (proj2 (beq_spec _ _) eq_refl). auto.
    - do 2 right. left. exists tag. destruct (beq tag (lit "!DOCTYPE")) eqn:B; [apply beq_spec in B; congruence|auto].
    - do 3 right. exists tag, l', t'. auto. }
  apply (prints_mut d (fun n s => forall s', prints d n s' -> s = s') (fun l s => forall s', prints_all d l s' -> s = s')).
  - intros m t T s' P. pose proof (text_kind d _ _ T) as Tk.
    destruct (Inv _ _ P) as [T'|[(K & _)|[(tag & T' & _)|(tag & l & t' & T' & _)]]]; try congruence; apply tag_kind in T'; congruence.
  - intros m l t K C _ IH s' P.
    destruct (Inv _ _ P) as [T'|[(K' & l' & C' & A)|[(tag & T' & _)|(tag & l' & t' & T' & _)]]];
      [apply text_kind in T'; congruence| |apply tag_kind in T'; congruence|apply tag_kind in T'; congruence].
    apply IH. now rewrite (KU m l l' C C').
  - intros m T K s' P. pose proof (tag_kind d _ _ T) as Tk.
    destruct (Inv _ _ P) as [T'|[(K' & _)|[(tag & T' & K' & ->)|(tag & l' & t' & T' & K' & _)]]];
      [apply text_kind in T'; congruence|congruence| |congruence].
    assert (tag = lit "!DOCTYPE") as -> by congruence. now rewrite (proj2 (beq_spec _ _) eq_refl).
  - intros m tag T Ne K s' P. pose proof (tag_kind d _ _ T) as Tk.
    destruct (Inv _ _ P) as [T'|[(K' & _)|[(tag' & T' & K' & ->)|(tag' & l' & t' & T' & K' & _)]]];
      [apply text_kind in T'; congruence|congruence| |congruence].
    assert (tag' = tag) as -> by congruence. destruct (beq tag (lit "!DOCTYPE")) eqn:B; [apply beq_spec in B; congruence|reflexivity].
  - intros m tag l t T K C _ IH s' P. pose proof (tag_kind d _ _ T) as Tk.
    destruct (Inv _ _ P) as [T'|[(K' & _)|[(tag' & T' & K' & ->)|(tag' & l' & t' & T' & K' & C' & A & ->)]]];
      [apply text_kind in T'; congruence|congruence|congruence|].
    rewrite (KU m l' l C' C) in A. rewrite (IH _ A). assert (tag' = tag) as -> by congruence. reflexivity.
  - intros s' P. inversion P. reflexivity.
  - intros c cs t ss _ IH1 _ IH2 s' P. inversion P as [|c' cs' t' ss' A B]; subst. now rewrite (IH1 _ A), (IH2 _ B).
Qed.

Lemma print_dom_fine w : preorder d 1 w -> (forall x, In x w -> fine d x) -> length w <= length (nodes d) ->
  get_next 1 d = 0 -> exists ps, print_dom d = Ok ps /\ prints d 1 (concat ps).
Proof.
  intros P F L N1. destruct (print_pre' 1 _ P F (2 * length (nodes d) + 2) ltac:(lia)) as (ps & E & Pr).
  unfold print_dom. cbn [print_loop Nat.eqb]. rewrite E. cbn [bind].
  rewrite N1. cbn [Nat.eqb bind]. exists ps. rewrite app_nil_r. auto.
Qed.
End Print.

Lemma live_fine d k x : Good d k -> x = 1 \/ (exists q, In x (k q)) -> fine d x.
Proof.
  intros G H. pose proof (inv_kw _ _ (g_inv _ _ G)) as W. pose proof (g_reg _ _ G) as Rg.
  assert (Hx : x < length (nodes d)).
  { destruct H as [->|(q & I)]; [pose proof (inv_len _ _ (g_inv _ _ G)); lia|]. now apply (kw_bound _ _ W) in I. }
  constructor.
  - destruct (nth_error (nodes d) x) as [nd|] eqn:E; [|apply nth_error_None in E; lia].
    exists nd. split; auto. split; [apply (inv_ids _ _ (g_inv _ _ G) _ _ E)|].
    pose proof (ty_pay _ _ (g_ty _ _ G) x nd E) as P. unfold pay_ok in P.
    destruct H as [->|(q & I)].
    + left. pose proof (ty_one _ _ (g_ty _ _ G)) as Q. unfold kind in Q. rewrite E in Q. congruence.
    + right. destruct (ty_kids _ _ (g_ty _ _ G) q x nd I E) as [T|T]; rewrite T in P.
      * right. destruct P as (t & Pt & _). split; auto. exists t. split; auto. now apply (ri_tags _ Rg x nd).
      * left. auto.
  - intros e I _. apply (ri_bprops _ Rg e I).
  - intros e I _. destruct (ri_props _ Rg e I) as (_ & ? & ? & _). auto.
Qed.

Lemma in_pre_live d k x : Good d k -> In x (pre (length (nodes d)) k 1) -> x = 1 \/ (exists q, In x (k q)).
Proof.
  intros G I. destruct (pre_parent _ _ _ _ (inv_kw _ _ (g_inv _ _ G)) I) as [->|(q & Iq & _)]; eauto.
Qed.
Lemma pre_small d k : Good d k -> length (pre (length (nodes d)) k 1) <= length (nodes d).
Proof.
  intros G. pose proof (inv_kw _ _ (g_inv _ _ G)) as W. apply (Nat.le_trans _ (length (seq 0 (length (nodes d))))); [|rewrite seq_length; lia].
  apply NoDup_incl_length; [now apply pre_nodup|]. intros y I. apply in_seq.
  destruct (in_pre_live d k y G I) as [->|(q & Iq)]; [pose proof (inv_len _ _ (g_inv _ _ G)); lia|].
  apply (kw_bound _ _ W) in Iq. lia.
Qed.
Lemma next_one d k : Good d k -> get_next 1 d = 0.
Proof. intros G. pose proof (g_inv _ _ G) as I1. rewrite (get_next_none I1 1); auto. intros q. apply (one_not_in d k q I1). Qed.

Lemma print_good d k : Good d k -> exists ps, print_dom d = Ok ps /\ prints d 1 (concat ps).
Proof.
  intros G. apply (print_dom_fine d (pre (length (nodes d)) k 1)).
  - apply (preorder_iff d k); auto. apply G.
  - intros x I. apply (live_fine d k); auto. eapply in_pre_live; eauto.
  - now apply pre_small.
  - now apply (next_one d k).
Qed.

(** ** Debris *)
Section Debris.
Context (b d' : dom) (D : debris b d') (k : kids) (G : Good b k).
Notation n := (length (nodes b)).

Lemma dbr_fine x : x < n -> fine b x -> fine d' x.
Proof.
  intros Hx [(nd & E & Ei & T) FB FP]. destruct (db_regs _ _ D) as ((t1 & R1) & (t2 & R2) & (t3 & R3) & (t4 & R4)).
  constructor.
  - exists nd. split; [now rewrite (dbr_node b d' D x Hx)|]. split; auto.
    destruct T as [?|[?|(T & a & P & La)]]; auto. right. right. split; auto. exists a. split; auto.
    rewrite R1, app_length. lia.
  - destruct (db_bprops _ _ D) as (y & -> & Y). rewrite Forall_forall in Y. intros e I Ee. rewrite R2, app_length.
    apply in_app_or in I as [I|I]; [specialize (FB e I Ee); unfold bytes in *; lia|]. specialize (Y e I). cbv beta in Y. lia.
  - destruct (db_props _ _ D) as (y & -> & Y). rewrite Forall_forall in Y. intros e I Ee. rewrite R3, R4, !app_length.
    apply in_app_or in I as [I|I]; [specialize (FP e I Ee); unfold bytes in *; lia|]. specialize (Y e I). cbv beta in Y. lia.
Qed.

Lemma dbr_pre : forall c w, preorder b c w -> (forall x, In x w -> x < n) -> preorder d' c w.
Proof.
  apply (pre_by b (fun c w => (forall x, In x w -> x < n) -> preorder d' c w)
    (fun l w => (forall x, In x w -> x < n) -> preorders d' l w)).
  - intros p cs l C _ IH H. econstructor.
    + apply (dbr_children b d' D k G); [apply H; now left|exact C].
    + apply IH. intros x I. apply H. now right.
  - constructor.
  - intros c cs l ls _ IH1 _ IH2 H. constructor; [apply IH1|apply IH2]; intros x I; apply H; apply in_or_app; auto.
Qed.

Lemma print_debris : exists ps, print_dom d' = Ok ps /\ prints d' 1 (concat ps).
Proof.
  pose proof (inv_kw _ _ (g_inv _ _ G)) as W. pose proof (inv_len _ _ (g_inv _ _ G)) as L2.
  assert (HB : forall x, In x (pre n k 1) -> x < n).
  { intros x I. destruct (in_pre_live b k x G I) as [->|(q & Iq)]; [lia|]. now apply (kw_bound _ _ W) in Iq. }
  apply (print_dom_fine d' (pre n k 1)).
  - apply dbr_pre; auto. apply (preorder_iff b k); auto. apply G.
  - intros x I. apply dbr_fine; auto. apply (live_fine b k); auto. eapply in_pre_live; eauto.
  - pose proof (pre_small b k G). pose proof (debris_len b d' D). lia.
  - rewrite (dbr_next b d' D) by lia. now apply (next_one b k).
Qed.

(** The printed form is that of [b]. *)
Lemma dbr_paired x : x < n -> paired d' x = paired b x \/ paired b x = None.
Proof.
  intros Hx. unfold paired. rewrite (dbr_node b d' D x Hx).
  destruct (nth_error (nodes b) x) as [[i [] [a| |]]|]; auto.
  destruct (nth_error (tag_reg b) a) as [r|] eqn:E; auto. left.
  destruct (db_regs _ _ D) as ((t1 & ->) & _). rewrite nth_error_app1; [now rewrite E|]. apply nth_error_Some. congruence.
Qed.
Lemma dbr_prints : forall c s, prints b c s -> c < n -> prints d' c s.
Proof.
  pose proof (inv_kw _ _ (g_inv _ _ G)) as W.
  assert (HO : forall x tag, x < n -> open_text d' x tag = open_text b x tag).
  { intros x tag Hx. pose proof (dbr_content b d' D k G x Hx) as C. unfold same_content, content in C.
    unfold open_text. injection C as _ _ _ Cb Ca. now rewrite Cb, Ca. }
  assert (HP : forall x v, x < n -> paired b x = Some v -> paired d' x = Some v).
  { intros x v Hx E. destruct (dbr_paired x Hx); congruence. }
  assert (HT : forall x v, x < n -> tag_name b x = Some v -> tag_name d' x = Some v).
  { intros x v Hx E. pose proof (dbr_content b d' D k G x Hx) as C. unfold same_content, content in C. congruence. }
  assert (HC : forall x l y, children b x l -> In y l -> y < n).
  { intros x l y C I. apply (kc b k) in C; auto. subst l. now apply (kw_bound _ _ W) in I. }
  apply (prints_mut b (fun c s => c < n -> prints d' c s) (fun l s => (forall x, In x l -> x < n) -> prints_all d' l s)).
  - intros m t T Hm. apply prints_text. pose proof (dbr_content b d' D k G m Hm) as C. unfold same_content, content in C. congruence.
  - intros m l t K C _ IH Hm. apply (prints_root d' m l).
    + pose proof (dbr_content b d' D k G m Hm) as C'. unfold same_content, content in C'. congruence.
    + now apply (dbr_children b d' D k G).
    + apply IH. intros x. now apply (HC m).
  - intros m T K Hm. rewrite <- HO by auto. apply prints_doctype; auto.
  - intros m tag T Ne K Hm. rewrite <- HO by auto. apply prints_single; auto.
  - intros m tag l t T K C _ IH Hm. rewrite <- HO by auto. apply (prints_paired d' m tag l); auto.
    + now apply (dbr_children b d' D k G).
    + apply IH. intros x. now apply (HC m).
  - constructor.
  - intros c cs t ss _ IH1 _ IH2 H. constructor; [apply IH1; apply H; now left|apply IH2; intros x I; apply H; now right].
Qed.
End Debris.

(** ** Half-made links *)
Section L.
Context (M : Prop) (d : dom) (k : kids) (G : Good d k) (p : nat) (A N Z gone : list nat) (e d' : dom)
  (H : links M d k p A N Z gone e d').

Lemma lk_pre ke : Good e ke -> (forall q c, In c (ke q) -> ~ In c gone) -> forall c,
  exists w, preorder d' c w /\ incl w (pre (length (nodes e)) ke c) /\ length w <= length (pre (length (nodes e)) ke c).
Proof.
  intros Ge Kg c. pose proof (inv_kw _ _ (g_inv _ _ Ge)) as W.
  pattern c. apply (kids_ind (length (nodes e)) ke); auto. clear c. intros c IH.
  assert (C : children e c (ke (Par c))) by (apply (kc e ke); auto).
  assert (C' : exists m r, children d' c m /\ ke (Par c) = m ++ r).
  { unfold children in *. rewrite (lk_first M d k p A N Z gone e d' H).
    destruct (cut_sibs M d k p A N Z gone e d' H _ _ C) as [S|(m1 & m2 & E & S)].
    - intros x I. now apply (Kg (Par c)).
    - exists (ke (Par c)), []. now rewrite app_nil_r.
    - exists (m1 ++ [last N 0]), m2. split; auto. now rewrite <- app_assoc. }
  destruct C' as (m & r & C' & E). rewrite pre_eq by auto.
  assert (X : exists v, preorders d' m v /\ incl v (pres (length (nodes e)) ke m) /\ length v <= length (pres (length (nodes e)) ke m)).
  { assert (IHm : forall x, In x m -> exists w, preorder d' x w /\ incl w (pre (length (nodes e)) ke x) /\ length w <= length (pre (length (nodes e)) ke x)).
    { intros x I. apply IH. rewrite E. apply in_or_app; auto. }
    clear -IHm. induction m as [|x m IHl].
    - exists []. split; [constructor|]. split; [apply incl_refl|]. simpl; lia.
    - destruct (IHm x (or_introl eq_refl)) as (w & P & I & L).
      destruct IHl as (v & Pv & Iv & Lv). { intros y Iy. apply IHm. now right. }
      exists (w ++ v). split; [now constructor|]. unfold pres in *. cbn [flat_map]. split.
      + apply incl_app; [now apply incl_appl|now apply incl_appr].
      + rewrite !app_length. lia. }
  destruct X as (v & Pv & Iv & Lv). exists (c :: v). rewrite E. unfold pres in *. rewrite flat_map_app. split; [econstructor; eauto|]. split.
  - intros y [<-|Iy]; [now left|]. right. apply in_or_app. left. now apply Iv.
  - cbn [length]. rewrite app_length. lia.
Qed.

Lemma print_links : exists ps, print_dom d' = Ok ps /\ prints d' 1 (concat ps).
Proof.
  destruct (li_end _ _ _ _ _ _ _ _ _ _ H) as (ke & Ge & Kp & Kq & Kg).
  destruct (li_mid _ _ _ _ _ _ _ _ _ _ H) as (dm & km & Md & Sd).
  pose proof (md_good _ _ _ _ _ _ Md) as Gm. pose proof (inv_kw _ _ (g_inv _ _ Ge)) as W.
  destruct (lk_pre ke Ge Kg 1) as (w & P & I & L).
  apply (print_dom_fine d' w); auto.
  - intros x Ix. apply I in Ix. pose proof (in_pre_live e ke x Ge Ix) as Lx.
    assert (Ng : ~ In x gone). { destruct Lx as [->|(q & Iq)]; [apply (li_one _ _ _ _ _ _ _ _ _ _ H)|now apply (Kg q)]. }
    destruct (live_fine e ke x Ge Lx) as [(nd & E & Ei & T) _ _].
    pose proof (li_kind _ _ _ _ _ _ _ _ _ _ H x Ng) as K. pose proof (g_reg _ _ Gm) as Rg.
    assert (En : nodes d' = nodes dm) by now rewrite Sd.
    unfold kind in K. rewrite E, En in K. destruct (nth_error (nodes dm) x) as [nm|] eqn:Em; [|discriminate].
    injection K as K. pose proof (ty_pay _ _ (g_ty _ _ Gm) x nm Em) as Pm. unfold pay_ok in Pm.
    rewrite Sd. constructor; cbn [nodes bprops props tag_reg bool_reg key_reg val_reg].
    + exists nm. split; auto. split; [apply (inv_ids _ _ (g_inv _ _ Gm) _ _ Em)|].
      rewrite K in *. destruct T as [T|[(T & _)|(T & _)]]; rewrite T in *; auto.
      right. right. split; auto. destruct Pm as (t & Pt & _). exists t. split; auto. now apply (ri_tags _ Rg x nm).
    + intros z Iz _. apply (ri_bprops _ Rg z Iz).
    + intros z Iz _. destruct (ri_props _ Rg z Iz) as (_ & ? & ? & _). auto.
  - rewrite (li_size _ _ _ _ _ _ _ _ _ _ H). pose proof (pre_small e ke Ge). lia.
  - pose proof (next_one e ke Ge) as N1. destruct (ln_next _ _ _ _ (li_lnk _ _ _ _ _ _ _ _ _ _ H) 1) as [[-> _]|(_ & -> & _)]; auto.
    apply (li_one _ _ _ _ _ _ _ _ _ _ H).
Qed.
End L.

Lemma abandoned_prints d bl o d' : reachable d -> valid d bl o -> left_with bl o d d' ->
  exists ps, print_dom d' = Ok ps /\ prints d' 1 (concat ps) /\ forall s, prints d' 1 s -> s = concat ps.
Proof.
  intros R V L. destruct (reachable_good d R) as [k G].
  assert (X : exists ps, print_dom d' = Ok ps /\ prints d' 1 (concat ps)).
  { destruct (crash_main d k bl o d' G V L) as (b & kb & p & _ & Gb & _ & [[[D|(km & Md & _)] _]|(e & A & N & Z & gone & _ & _ & _ & _ & H)]).
    - eapply print_debris; eauto.
    - eapply print_good. apply (md_good _ _ _ _ _ _ Md).
    - eapply print_links; eauto. }
  destruct X as (ps & E & P). exists ps. split; auto. split; auto. intros s Ps. eapply prints_once; eauto.
Qed.

Lemma one_step_debris d k bl o d' : Good d k -> valid d bl o -> left_with bl o d d' -> one_step o -> debris d d'.
Proof.
  intros G V I OS. pose proof (inv_kw _ _ (g_inv _ _ G)) as W.
  assert (Hpar : forall n, attached d n -> exists l1 l2, k (Par (get_parent n d)) = l1 ++ n :: l2).
  { intros n Hn. apply (attached_iff d k n (g_inv _ _ G)) in Hn as [p Hp].
    rewrite (get_parent_at (g_inv _ _ G) _ _ Hp). apply in_split in Hp as (l1 & l2 & E). eauto. }
  unfold left_with in I. destruct o; cbn [c_run] in I; simpl in V; try (now destruct I); try (now elim OS).
  - destruct (Hpar _ V) as (l1 & l2 & Ek).
    pose proof (j_replace_doc d k G n e _ l1 l2 Ek) as Q. rewrite Forall_forall in Q. apply Q. now apply in_last.
  - destruct (Hpar _ V) as (l1 & l2 & Ek).
    pose proof (j_replace_text d k G n s _ l1 l2 Ek) as Q. rewrite Forall_forall in Q. apply Q. now apply in_last.
  - pose proof (a_add_bool_st d n b d (debris_refl d)) as Q. rewrite Forall_forall in Q. auto.
  - pose proof (a_add_property_st d n k0 v d (debris_refl d)) as Q. rewrite Forall_forall in Q. auto.
  - unfold c_set_property_value in I. apply in_last in I.
    apply in_bind in I as [I|(kid & _ & I)]; [destruct I|]. destruct (kid =? 0); [destruct I|].
    destruct (prop_idx n kid d); [|destruct I]. apply in_bind in I as [I|([vid y] & _ & I)].
    + destruct (a_intern_val d v d (debris_refl d)) as [Q _]. rewrite Forall_forall in Q. auto.
    + destruct (nth_error (props y) n0); destruct I.
  - unfold c_add_text_to_text_node in I.
    apply in_bind in I as [I|(x & _ & I)]; [destruct I|]. apply in_bind in I as [I|(old & _ & I)]; [destruct I|].
    cbn in I. destruct I as [<-|[]]. apply debris_refl.
  - pose proof (a_set_tag_st d tag n paired d (debris_refl d)) as Q. rewrite Forall_forall in Q. auto.
Qed.

Lemma one_step_prints d bl o d' ps : reachable d -> valid d bl o -> left_with bl o d d' -> one_step o ->
  print_dom d = Ok ps -> exists ps', print_dom d' = Ok ps' /\ concat ps' = concat ps.
Proof.
  intros R V L OS E. destruct (reachable_good d R) as [k G].
  destruct (abandoned_prints d bl o d' R V L) as (ps' & E' & P' & U). exists ps'. split; auto.
  destruct (print_dom_ok d R) as (qs & Eq & Pq). assert (qs = ps) as -> by congruence.
  symmetry. apply U. apply (dbr_prints d d' (one_step_debris d k bl o d' G V L OS) k G); auto.
  pose proof (inv_len _ _ (g_inv _ _ G)). lia.
Qed.
