(** * Registries: interning, attributes and tags. *)
From Coq Require Import List NArith Arith Bool Lia.
From Verif Require Import Base TrieModel DomModel ParserModel EditModel DomSpec
  Lemmas TrieProofs Tables Inv Surgery.
Import ListNotations.
Local Open Scope nat_scope.

Definition reg_ok (reg : list bytes) (m : amap) : Prop :=
  exists l, reg = [] :: l /\ map_ok m l.

Record RegInv (d : dom) : Prop := {
  ri_tag : reg_ok (map t_name (tag_reg d)) (tag_map d);
  ri_bool : reg_ok (bool_reg d) (bool_map d);
  ri_key : reg_ok (key_reg d) (key_map d);
  ri_val : reg_ok (val_reg d) (val_map d);
  ri_bprops : forall e, In e (bprops d) ->
      fst e < length (nodes d) /\ snd e < length (bool_reg d) /\
      (fst e <> 0 -> snd e <> 0);
  ri_props : forall e, In e (props d) ->
      p_node e < length (nodes d) /\ p_key e < length (key_reg d) /\
      p_val e < length (val_reg d) /\
      (p_node e <> 0 -> p_key e <> 0 /\ p_val e <> 0);
  ri_tags : forall i n t, nth_error (nodes d) i = Some n -> n_pay n = PTag t ->
      t < length (tag_reg d) }.

(** Registries only grow. *)
Definition regs_ext (d d' : dom) : Prop :=
  (exists x, tag_reg d' = tag_reg d ++ x) /\ (exists x, bool_reg d' = bool_reg d ++ x) /\
  (exists x, key_reg d' = key_reg d ++ x) /\ (exists x, val_reg d' = val_reg d ++ x).

Lemma regs_ext_refl d : regs_ext d d.
Proof. repeat split; exists []; now rewrite app_nil_r. Qed.

Lemma regs_ext_trans a b c : regs_ext a b -> regs_ext b c -> regs_ext a c.
Proof.
  intros ((x1 & E1) & (x2 & E2) & (x3 & E3) & (x4 & E4))
         ((y1 & F1) & (y2 & F2) & (y3 & F3) & (y4 & F4)).
  unfold regs_ext. rewrite F1, F2, F3, F4, E1, E2, E3, E4, <- !app_assoc. eauto 10.
Qed.

(** Outcome of interning one string. *)
Lemma intern_reg (s : bytes) (reg : list bytes) (m : amap) :
  reg_ok reg m ->
  safe False (fun r => let '(ins, id, m') := r in
     let reg' := if (ins : bool) then reg ++ [s] else reg in
     reg_ok reg' m' /\ nth_error reg' id = Some s /\ id <> 0 /\
     (ins = true -> ~ In s (tl reg)))
   (map_insert s m).
Proof.
  intros (l & -> & Hm). destruct (in_dec bytes_dec s l) as [Hin|Hin].
  - rewrite (map_insert_old s m l Hm Hin). simpl.
    apply lookup_in in Hin as Hl. destruct (lookup s l) as [|i] eqn:E; [congruence|].
    split; [exists l; auto|]. split; [simpl; apply lookup_nth; auto|].
    split; [auto|discriminate].
  - destruct (map_insert_new s m l Hm Hin) as [[_ ->]|(_ & -> & Hok)]; simpl; auto.
    split; [exists (l ++ [s]); auto|]. split; [|auto].
    simpl. rewrite nth_error_app2, Nat.sub_diag; auto.
Qed.

Lemma nth_ext {A} (l x : list A) i dflt : i < length l -> nth i (l ++ x) dflt = nth i l dflt.
Proof. intros. apply app_nth1; auto. Qed.

(** The parts of a DOM that interning leaves alone. *)
Definition core_eq (d d' : dom) : Prop :=
  nodes d' = nodes d /\ firsts d' = firsts d /\ pchilds d' = pchilds d /\
  nexts d' = nexts d /\ bprops d' = bprops d /\ props d' = props d.

Lemma intern_bool_ok s d :
  RegInv d ->
  safe False (fun r => let '(id, d') := r in
    RegInv d' /\ core_eq d d' /\ regs_ext d d' /\
    nth_error (bool_reg d') id = Some s /\ id <> 0) (intern_bool s d).
Proof.
  intros R. unfold intern_bool.
  eapply safe_bind; [apply intern_reg, (ri_bool _ R)|].
  intros [[ins id] m'] (H1 & H2 & H3 & _). simpl.
  assert (Hx : exists x, (if ins then bool_reg d ++ [s] else bool_reg d) = bool_reg d ++ x).
  { destruct ins; [exists [s]; auto|exists []; now rewrite app_nil_r]. }
  split; [|split; [|split; [|split]]]; auto.
  - destruct R. constructor; simpl; auto. intros e He.
    destruct (ri_bprops0 e He). destruct Hx as [x ->]. rewrite app_length. lia.
  - repeat split.
  - unfold regs_ext. simpl. repeat split; auto; exists []; now rewrite app_nil_r.
Qed.

Lemma intern_key_ok s d :
  RegInv d ->
  safe False (fun r => let '(id, d') := r in
    RegInv d' /\ core_eq d d' /\ regs_ext d d' /\
    nth_error (key_reg d') id = Some s /\ id <> 0 /\ val_reg d' = val_reg d)
    (intern_key s d).
Proof.
  intros R. unfold intern_key.
  eapply safe_bind; [apply intern_reg, (ri_key _ R)|].
  intros [[ins id] m'] (H1 & H2 & H3 & _). simpl.
  assert (Hx : exists x, (if ins then key_reg d ++ [s] else key_reg d) = key_reg d ++ x).
  { destruct ins; [exists [s]; auto|exists []; now rewrite app_nil_r]. }
  split; [|split; [|split; [|split]]]; auto.
  - destruct R. constructor; simpl; auto. intros e He.
    destruct (ri_props0 e He) as (? & ? & ?). destruct Hx as [x ->].
    rewrite app_length. lia.
  - repeat split.
  - unfold regs_ext. simpl. repeat split; auto; exists []; now rewrite app_nil_r.
Qed.

Lemma intern_val_ok s d :
  RegInv d ->
  safe False (fun r => let '(id, d') := r in
    RegInv d' /\ core_eq d d' /\ regs_ext d d' /\
    nth_error (val_reg d') id = Some s /\ id <> 0 /\ key_reg d' = key_reg d)
    (intern_val s d).
Proof.
  intros R. unfold intern_val.
  eapply safe_bind; [apply intern_reg, (ri_val _ R)|].
  intros [[ins id] m'] (H1 & H2 & H3 & _). simpl.
  assert (Hx : exists x, (if ins then val_reg d ++ [s] else val_reg d) = val_reg d ++ x).
  { destruct ins; [exists [s]; auto|exists []; now rewrite app_nil_r]. }
  split; [|split; [|split; [|split]]]; auto.
  - destruct R. constructor; simpl; auto. intros e He.
    destruct (ri_props0 e He) as (? & ? & ?). destruct Hx as [x ->].
    rewrite app_length. lia.
  - repeat split.
  - unfold regs_ext. simpl. repeat split; auto; exists []; now rewrite app_nil_r.
Qed.

(** Navigation part untouched. *)
Definition nav_eq (d d' : dom) : Prop :=
  nodes d' = nodes d /\ firsts d' = firsts d /\ pchilds d' = pchilds d /\
  nexts d' = nexts d.

Lemma nav_eq_refl d : nav_eq d d.
Proof. repeat split. Qed.
Lemma nav_eq_trans a b c : nav_eq a b -> nav_eq b c -> nav_eq a c.
Proof.
  intros (A1 & A2 & A3 & A4) (B1 & B2 & B3 & B4).
  repeat split; congruence.
Qed.

Lemma Inv_nav d d' k : nav_eq d d' -> Inv d k -> Inv d' k.
Proof.
  intros (E1 & E2 & E3 & E4) [H1 H2 H3 H4 H5 H6].
  constructor; rewrite ?E1, ?E2, ?E3, ?E4; auto.
Qed.

(** Reading attributes is stable under registry extension. *)
Definition rd_bool (d : dom) (e : nat * nat) : bytes := nth (snd e) (bool_reg d) [].
Definition rd_prop (d : dom) (e : prop) : bytes * bytes :=
  (nth (p_key e) (key_reg d) [], nth (p_val e) (val_reg d) []).

Lemma rd_bool_ext d d' e :
  regs_ext d d' -> snd e < length (bool_reg d) -> rd_bool d' e = rd_bool d e.
Proof. intros (_ & (x & E) & _) H. unfold rd_bool. now rewrite E, nth_ext. Qed.
Lemma rd_prop_ext d d' e :
  regs_ext d d' -> p_key e < length (key_reg d) -> p_val e < length (val_reg d) ->
  rd_prop d' e = rd_prop d e.
Proof.
  intros (_ & _ & (x & E) & (y & F)) H H'. unfold rd_prop. now rewrite E, F, !nth_ext.
Qed.

Lemma bool_attrs_app d d' n x :
  RegInv d -> regs_ext d d' -> bprops d' = bprops d ++ x ->
  bool_attrs d' n = bool_attrs d n ++ map (rd_bool d') (filter (fun e => fst e =? n) x).
Proof.
  intros R Hx E. unfold bool_attrs. rewrite E, filter_app, map_app. f_equal.
  apply map_ext_in. intros e He. apply filter_In in He as [He _].
  apply (rd_bool_ext d d' e Hx). now apply (ri_bprops _ R).
Qed.

Lemma attrs_app d d' n x :
  RegInv d -> regs_ext d d' -> props d' = props d ++ x ->
  attrs d' n = attrs d n ++ map (rd_prop d') (filter (fun e => p_node e =? n) x).
Proof.
  intros R Hx E. unfold attrs. rewrite E, filter_app, map_app. f_equal.
  apply map_ext_in. intros e He. apply filter_In in He as [He _].
  destruct (ri_props _ R e He) as (_ & ? & ?). now apply (rd_prop_ext d d' e Hx).
Qed.

Lemma attrs_fresh d n : RegInv d -> length (nodes d) <= n ->
  attrs d n = [] /\ bool_attrs d n = [].
Proof.
  intros R Hn. unfold attrs, bool_attrs. split.
  - destruct (filter (fun e => p_node e =? n) (props d)) as [|e l] eqn:E; auto.
    exfalso. assert (H : In e (filter (fun e => p_node e =? n) (props d)))
      by (rewrite E; simpl; auto).
    apply filter_In in H as [H He]. apply Nat.eqb_eq in He.
    destruct (ri_props _ R e H). lia.
  - destruct (filter (fun e => fst e =? n) (bprops d)) as [|e l] eqn:E; auto.
    exfalso. assert (H : In e (filter (fun e => fst e =? n) (bprops d)))
      by (rewrite E; simpl; auto).
    apply filter_In in H as [H He]. apply Nat.eqb_eq in He.
    destruct (ri_bprops _ R e H). lia.
Qed.

(** [addPropertyToNode] *)
Definition prop_added (d d' : dom) (id : nat) (k v : bytes) : Prop :=
  RegInv d' /\ nav_eq d d' /\ regs_ext d d' /\ bprops d' = bprops d /\
  exists e, props d' = props d ++ [e] /\ p_node e = id /\ rd_prop d' e = (k, v).

Lemma add_property_ok id k v d :
  RegInv d -> id < length (nodes d) ->
  safe False (fun d' => prop_added d d' id k v) (add_property id k v d).
Proof.
  intros R Hid. unfold add_property.
  eapply safe_bind; [apply intern_key_ok; auto|].
  intros [kid d1] (R1 & (C1 & C2 & C3 & C4 & C5 & C6) & X1 & N1 & Z1 & V1).
  eapply safe_bind; [apply intern_val_ok; auto|].
  intros [vid d2] (R2 & (D1 & D2 & D3 & D4 & D5 & D6) & X2 & N2 & Z2 & K2). simpl.
  assert (Hk : kid < length (key_reg d2)).
  { rewrite K2. apply nth_error_Some. congruence. }
  assert (Hv : vid < length (val_reg d2)) by (apply nth_error_Some; congruence).
  split; [|split; [|split; [|split]]].
  - destruct R2. constructor; simpl; auto. intros e He.
    apply in_app_or in He as [He|[<-|[]]]; auto. simpl. rewrite D1, C1. auto.
  - repeat split; simpl; congruence.
  - eapply regs_ext_trans; [exact X1|]. exact X2.
  - simpl. congruence.
  - exists (mkProp id kid vid). split; [simpl; congruence|]. split; auto.
    unfold rd_prop. simpl. f_equal.
    + rewrite K2. now apply nth_error_nth.
    + now apply nth_error_nth.
Qed.

Definition bool_added (d d' : dom) (id : nat) (b : bytes) : Prop :=
  RegInv d' /\ nav_eq d d' /\ regs_ext d d' /\ props d' = props d /\
  exists e, bprops d' = bprops d ++ [e] /\ fst e = id /\ rd_bool d' e = b.

Lemma add_bool_property_ok id b d :
  RegInv d -> id < length (nodes d) ->
  safe False (fun d' => bool_added d d' id b) (add_bool_property id b d).
Proof.
  intros R Hid. unfold add_bool_property.
  eapply safe_bind; [apply intern_bool_ok; auto|].
  intros [bid d1] (R1 & (C1 & C2 & C3 & C4 & C5 & C6) & X1 & N1 & Z1). simpl.
  assert (Hk : bid < length (bool_reg d1)) by (apply nth_error_Some; congruence).
  split; [|split; [|split; [|split]]].
  - destruct R1. constructor; simpl; auto. intros e He.
    apply in_app_or in He as [He|[<-|[]]]; auto. simpl. rewrite C1. auto.
  - repeat split; simpl; congruence.
  - exact X1.
  - simpl. congruence.
  - exists (id, bid). split; [simpl; congruence|]. split; auto.
    unfold rd_bool. simpl. now apply nth_error_nth.
Qed.

(** Accumulated attributes of one node. *)
Definition attrs_added (d d' : dom) (id : nat) (bs : list bytes)
           (ps : list (bytes * bytes)) : Prop :=
  RegInv d' /\ nav_eq d d' /\ regs_ext d d' /\
  exists be pe, bprops d' = bprops d ++ be /\ props d' = props d ++ pe /\
    (forall e, In e be -> fst e = id) /\ (forall e, In e pe -> p_node e = id) /\
    map (rd_bool d') be = bs /\ map (rd_prop d') pe = ps.

Lemma attrs_added_refl d id : RegInv d -> attrs_added d d id [] [].
Proof.
  intros R. split; [auto|]. split; [apply nav_eq_refl|]. split; [apply regs_ext_refl|].
  exists [], []. rewrite !app_nil_r. repeat split; auto; intros e [].
Qed.

Lemma attrs_added_in_range d d' be pe :
  RegInv d' -> bprops d' = bprops d ++ be -> props d' = props d ++ pe ->
  (forall e, In e be -> snd e < length (bool_reg d')) /\
  (forall e, In e pe -> p_key e < length (key_reg d') /\ p_val e < length (val_reg d')).
Proof.
  intros R E F. split.
  - intros e He. apply (ri_bprops _ R). rewrite E. apply in_or_app; auto.
  - intros e He. destruct (ri_props _ R e) as (_ & ? & ? & _); auto.
    rewrite F. apply in_or_app; auto.
Qed.

Lemma attrs_added_bool d d1 d2 id bs ps b :
  attrs_added d d1 id bs ps -> bool_added d1 d2 id b ->
  attrs_added d d2 id (bs ++ [b]) ps.
Proof.
  intros (R1 & N1 & X1 & be & pe & E1 & E2 & E3 & E4 & E5 & E6)
         (R2 & N2 & X2 & P2 & e & F1 & F2 & F3).
  destruct (attrs_added_in_range d d1 be pe R1 E1 E2) as (G1 & G2).
  split; [auto|]. split; [eapply nav_eq_trans; eauto|].
  split; [eapply regs_ext_trans; eauto|].
  exists (be ++ [e]), pe. rewrite F1, E1, P2, <- app_assoc.
  split; [auto|]. split; [auto|]. split; [|split; [auto|split]].
  - intros x Hx. apply in_app_or in Hx as [Hx|[<-|[]]]; auto.
  - rewrite map_app. simpl. rewrite F3, <- E5. f_equal.
    apply map_ext_in. intros x Hx. apply rd_bool_ext; auto.
  - rewrite <- E6. apply map_ext_in. intros x Hx. destruct (G2 x Hx).
    apply rd_prop_ext; auto.
Qed.

Lemma attrs_added_prop d d1 d2 id bs ps k v :
  attrs_added d d1 id bs ps -> prop_added d1 d2 id k v ->
  attrs_added d d2 id bs (ps ++ [(k, v)]).
Proof.
  intros (R1 & N1 & X1 & be & pe & E1 & E2 & E3 & E4 & E5 & E6)
         (R2 & N2 & X2 & P2 & e & F1 & F2 & F3).
  destruct (attrs_added_in_range d d1 be pe R1 E1 E2) as (G1 & G2).
  split; [auto|]. split; [eapply nav_eq_trans; eauto|].
  split; [eapply regs_ext_trans; eauto|].
  exists be, (pe ++ [e]). rewrite F1, E2, P2, <- app_assoc.
  split; [auto|]. split; [auto|]. split; [auto|split; [|split]].
  - intros x Hx. apply in_app_or in Hx as [Hx|[<-|[]]]; auto.
  - rewrite <- E5. apply map_ext_in. intros x Hx. apply rd_bool_ext; auto.
  - rewrite map_app. simpl. rewrite F3, <- E6. f_equal.
    apply map_ext_in. intros x Hx. destruct (G2 x Hx). apply rd_prop_ext; auto.
Qed.

Lemma attrs_added_len d d' id bs ps :
  attrs_added d d' id bs ps -> length (nodes d') = length (nodes d).
Proof. intros (_ & (E & _) & _). now rewrite E. Qed.

Lemma add_bools_ok id l d d0 bs ps :
  attrs_added d0 d id bs ps -> id < length (nodes d0) ->
  safe False (fun d' => attrs_added d0 d' id (bs ++ l) ps) (add_bools id l d).
Proof.
  revert d bs; induction l as [|b l IH]; intros d bs H Hid.
  - simpl. now rewrite app_nil_r.
  - simpl. eapply safe_bind.
    + apply add_bool_property_ok; [apply H|].
      rewrite (attrs_added_len _ _ _ _ _ H). auto.
    + intros d1 H1. pose proof (attrs_added_bool _ _ _ _ _ _ _ H H1) as H2.
      eapply safe_imp; [apply (IH d1 (bs ++ [b])); auto|].
      intros d' Hd'. now rewrite <- app_assoc in Hd'.
Qed.

Lemma add_props_ok id l d d0 bs ps :
  attrs_added d0 d id bs ps -> id < length (nodes d0) ->
  safe False (fun d' => attrs_added d0 d' id bs (ps ++ l)) (add_props id l d).
Proof.
  revert d ps; induction l as [|[k v] l IH]; intros d ps H Hid.
  - simpl. now rewrite app_nil_r.
  - simpl. eapply safe_bind.
    + apply add_property_ok; [apply H|].
      rewrite (attrs_added_len _ _ _ _ _ H). auto.
    + intros d1 H1. pose proof (attrs_added_prop _ _ _ _ _ _ _ _ H H1) as H2.
      eapply safe_imp; [apply (IH d1 (ps ++ [(k, v)])); auto|].
      intros d' Hd'. now rewrite <- app_assoc in Hd'.
Qed.

(** ** Tags *)
Definition tabs_eq (d d' : dom) : Prop :=
  firsts d' = firsts d /\ pchilds d' = pchilds d /\ nexts d' = nexts d.

Lemma set_tag_ok tag id paired d n :
  RegInv d -> nth_error (nodes d) id = Some n ->
  safe False (fun d' => RegInv d' /\ tabs_eq d d' /\ regs_ext d d' /\
      bprops d' = bprops d /\ props d' = props d /\
      exists t r, nodes d' = upd (nodes d) id (mkNode (n_id n) (n_type n) (PTag t)) /\
        nth_error (tag_reg d') t = Some r /\ t_name r = tag /\ t <> 0)
    (set_tag tag id paired d).
Proof.
  intros R Hn. unfold set_tag.
  eapply safe_bind; [apply intern_reg, (ri_tag _ R)|].
  intros [[ins t] m'] (H1 & H2 & H3 & _). unfold set_pay, get_node. simpl.
  rewrite Hn. simpl.
  assert (HN : map t_name (if ins then tag_reg d ++ [mkTag tag paired] else tag_reg d)
               = if ins then map t_name (tag_reg d) ++ [tag] else map t_name (tag_reg d)).
  { destruct ins; auto. rewrite map_app. reflexivity. }
  rewrite <- HN in H1, H2. rewrite nth_error_map in H2.
  destruct (nth_error (if ins then tag_reg d ++ [mkTag tag paired] else tag_reg d) t)
    as [r|] eqn:Er; [|discriminate]. simpl in H2. injection H2 as H2.
  assert (Hlen : length (tag_reg d) <=
           length (if ins then tag_reg d ++ [mkTag tag paired] else tag_reg d)).
  { destruct ins; rewrite ?app_length; lia. }
  split; [|split; [|split; [|split; [|split]]]]; auto.
  - destruct R. constructor; simpl; auto; try (rewrite upd_length; auto).
    intros i m t' Hi Ht. rewrite upd_nth in Hi.
    destruct (Nat.eqb_spec i id) as [->|].
    + rewrite Hn in Hi. injection Hi as <-. simpl in Ht. injection Ht as <-.
      apply nth_error_Some. congruence.
    + specialize (ri_tags0 _ _ _ Hi Ht). lia.
  - repeat split.
  - unfold regs_ext. simpl. split; [destruct ins; [eexists; reflexivity|exists []; now rewrite app_nil_r]|].
    repeat split; exists []; now rewrite app_nil_r.
  - exists t, r. auto.
Qed.

(** ** Creating nodes *)
Lemma RegInv_push d n :
  RegInv d -> (forall t, n_pay n = PTag t -> t < length (tag_reg d)) ->
  RegInv (push_node d n).
Proof.
  intros R Hn. destruct R. constructor; simpl; auto; rewrite ?app_length.
  - intros e He. destruct (ri_bprops0 e He). lia.
  - intros e He. destruct (ri_props0 e He) as (? & ? & ?). lia.
  - intros i m t Hi Ht. destruct (Nat.lt_ge_cases i (length (nodes d))).
    + rewrite nth_error_app1 in Hi by auto. eauto.
    + rewrite nth_error_app2 in Hi by auto.
      destruct (i - length (nodes d)) as [|j]; simpl in Hi.
      * injection Hi as <-. auto.
      * destruct j; discriminate.
Qed.

Lemma upd_last {A} (l : list A) x y : upd (l ++ [x]) (length l) y = l ++ [y].
Proof. induction l; simpl; auto. now rewrite IHl. Qed.

(** A new element node with its tag and attributes, not linked anywhere. *)
Definition elem_added (d d' : dom) (id : nat) (tag : bytes) (bs : list bytes)
           (ps : list (bytes * bytes)) : Prop :=
  id = length (nodes d) /\ RegInv d' /\ tabs_eq d d' /\ regs_ext d d' /\
  (exists t r, nodes d' = nodes d ++ [mkNode id TDocument (PTag t)] /\
     nth_error (tag_reg d') t = Some r /\ t_name r = tag /\ t <> 0) /\
  exists be pe, bprops d' = bprops d ++ be /\ props d' = props d ++ pe /\
    (forall e, In e be -> fst e = id) /\ (forall e, In e pe -> p_node e = id) /\
    map (rd_bool d') be = bs /\ map (rd_prop d') pe = ps.

Definition text_added (d d' : dom) (id : nat) (s : bytes) : Prop :=
  id = length (nodes d) /\ d' = push_node d (mkNode id TText (PText s)).

Lemma create_node_ok ty d :
  safe False (fun r => r = (length (nodes d), push_node d (mkNode (length (nodes d)) ty PNone))
                       /\ (N.of_nat (length (nodes d)) <= 65534)%N)
       (create_node ty d).
Proof.
  unfold create_node. destruct (N.leb_spec (N.of_nat (length (nodes d))) 65534); simpl; auto.
Qed.

Lemma parse_text_element_ok s d :
  safe False (fun r => let '(id, d') := r in text_added d d' id s) (parse_text_element s d).
Proof.
  unfold parse_text_element. eapply safe_bind; [apply create_node_ok|].
  intros [id d1] [E _]. injection E as -> ->.
  unfold set_pay, get_node. simpl. rewrite nth_error_app2, Nat.sub_diag by auto. simpl.
  split; auto. unfold push_node, set_nodes. simpl. now rewrite upd_last.
Qed.

Lemma parse_document_element_ok dn d :
  RegInv d ->
  safe False (fun r => let '(id, d') := r in
      elem_added d d' id (dn_tag dn) (dn_bools dn) (dn_props dn))
    (parse_document_element dn d).
Proof.
  intros R. unfold parse_document_element.
  eapply safe_bind; [apply create_node_ok|].
  intros [id d1] [E _]. injection E as -> ->.
  set (id := length (nodes d)). set (d1 := push_node d (mkNode id TDocument PNone)).
  assert (R1 : RegInv d1) by (apply RegInv_push; auto; discriminate).
  assert (Hn : nth_error (nodes d1) id = Some (mkNode id TDocument PNone)).
  { unfold d1. simpl. unfold id. rewrite nth_error_app2, Nat.sub_diag; auto. }
  eapply safe_bind; [apply (set_tag_ok _ id _ d1 _ R1 Hn)|].
  intros d2 (R2 & T2 & X2 & B2 & P2 & t & r & N2 & E2 & F2 & Z2). simpl in N2.
  unfold d1 in N2. simpl in N2. unfold id in N2. rewrite upd_last in N2. fold id in N2.
  assert (Hid : id < length (nodes d2)).
  { rewrite N2, app_length. simpl. unfold id. lia. }
  eapply safe_bind; [apply (add_bools_ok id (dn_bools dn) d2 d2 [] []);
                     [apply attrs_added_refl; auto|auto]|].
  intros d3 A3. simpl in A3.
  eapply safe_bind; [apply (add_props_ok id (dn_props dn) d3 d2 _ [] A3); auto|].
  intros d4 A4. simpl in A4 |- *.
  destruct A4 as (R4 & (V1 & V2 & V3 & V4) & X4 & be & pe & G1 & G2 & G3 & G4 & G5 & G6).
  destruct T2 as (T21 & T22 & T23).
  split; [reflexivity|]. split; [auto|]. split.
  { repeat split; [rewrite V2, T21|rewrite V3, T22|rewrite V4, T23]; reflexivity. }
  split. { eapply regs_ext_trans; [|exact X4]. exact X2. }
  split.
  - exists t, r. split; [rewrite V1, N2; reflexivity|]. split; [|auto].
    destruct X4 as ((x & ->) & _). rewrite nth_error_app1; auto.
    apply nth_error_Some. congruence.
  - exists be, pe. rewrite G1, G2, B2, P2. repeat split; auto.
Qed.

(** Consequences of [elem_added] in terms of contents. *)
Lemma content_old d d' n :
  RegInv d -> regs_ext d d' -> n < length (nodes d) ->
  nth_error (nodes d') n = nth_error (nodes d) n ->
  (exists be, bprops d' = bprops d ++ be /\ forall e, In e be -> fst e <> n) ->
  (exists pe, props d' = props d ++ pe /\ forall e, In e pe -> p_node e <> n) ->
  same_content d d' n.
Proof.
  intros R X Hn E (be & E1 & E2) (pe & F1 & F2). unfold same_content, content.
  rewrite (bool_attrs_app d d' n be R X E1), (attrs_app d d' n pe R X F1).
  assert (G1 : filter (fun e => fst e =? n) be = []).
  { clear -E2. induction be as [|e be IH]; simpl; auto.
    destruct (Nat.eqb_spec (fst e) n) as [H|H].
    - destruct (E2 e); simpl; auto.
    - apply IH. intros x Hx. apply E2. simpl; auto. }
  assert (G2 : filter (fun e => p_node e =? n) pe = []).
  { clear -F2. induction pe as [|e pe IH]; simpl; auto.
    destruct (Nat.eqb_spec (p_node e) n) as [H|H].
    - destruct (F2 e); simpl; auto.
    - apply IH. intros x Hx. apply F2. simpl; auto. }
  rewrite G1, G2. simpl. rewrite !app_nil_r.
  unfold kind, tag_name, text_of. rewrite E.
  destruct (nth_error (nodes d) n) as [[i ty pay]|] eqn:En; auto.
  destruct ty; auto. destruct pay as [t| |]; auto.
  assert (Ht : t < length (tag_reg d)) by (eapply (ri_tags _ R); [exact En|reflexivity]).
  destruct X as ((x & ->) & _). rewrite nth_error_app1; auto.
Qed.
