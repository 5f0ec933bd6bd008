(** * Making an abandoned call again. *)
From Coq Require Import List NArith Arith Bool Lia.
From Verif Require Import Base TrieModel DomModel ParserModel EditModel ReadModel DomSpec ApiSpec CrashSpec CrashModel
  Lemmas TrieProofs Tables Inv RegProofs ParseTree ApiProofs CrashAgree CrashOps CrashThms.
Import ListNotations.
Local Open Scope nat_scope.

Lemma insert_again s m l ins id m' : map_ok m l -> map_insert s m = Ok (ins, id, m') ->
  map_insert s m' = Ok (false, id, m') /\ map_contains s m' = Ok id /\
  (ins = true -> ~ In s l /\ id = S (length l)) /\ (ins = false -> m' = m /\ map_contains s m = Ok id).
Proof.
  intros H E. destruct (in_dec (list_eq_dec N.eq_dec) s l) as [I|I].
  - rewrite (map_insert_old s m l H I) in E. inversion E; subst. split; [now apply map_insert_old|].
    split; [now apply map_contains_ok|]. split; [discriminate|]. intros _. split; auto. now apply map_contains_ok.
  - destruct (map_insert_new s m l H I) as [(_ & Q)|(_ & Q & K)]; [congruence|]. rewrite Q in E. injection E as <- <- <-.
    assert (L : lookup s (l ++ [s]) = S (length l)).
    { apply nth_lookup; [apply K|]. rewrite nth_error_app2, Nat.sub_diag by lia. reflexivity. }
    split; [|split; [|split; [auto|discriminate]]].
    + rewrite (map_insert_old s _ (l ++ [s]) K) by (apply in_or_app; simpl; auto). now rewrite L.
    + rewrite (map_contains_ok s _ (l ++ [s]) K). now rewrite L.
Qed.

Lemma intern_key_once k d ins kid m : map_insert k (key_map d) = Ok (ins, kid, m) ->
  snd (c_intern_key k d) = Ok (kid, set_keys d (if ins then key_reg d ++ [k] else key_reg d) m).
Proof. intros E. unfold c_intern_key, c_map_insert. rewrite E. destruct ins; reflexivity. Qed.

Lemma retry_bad d n k v bl e0 : reachable d -> node_id d n -> has_prop_key n k d = Ok false ->
  ~ In v (tl (val_reg d)) -> run bl (AddProp n k v) d = Ok e0 ->
  exists d' e, left_with bl (AddProp n k v) d d' /\ run bl (AddProp n k v) d' = Ok e /\ get_value n k e = Undef OobRead.
Proof.
  intros R Hn Hk Hv E. destruct (reachable_good d R) as [kd G]. pose proof (g_reg _ _ G) as Rg.
  destruct (ri_key _ Rg) as (lk & Ek & Mk). destruct (ri_val _ Rg) as (lv & Ev & Mv). rewrite Ev in Hv. cbn [tl] in Hv.
  cbn [run] in E. unfold add_property, intern_key, intern_val in E.
  destruct (map_insert k (key_map d)) as [[[ik kid] mk]| | |] eqn:E1; cbn [bind] in E; try discriminate.
  cbn [val_map set_keys] in E.
  destruct (map_insert v (val_map d)) as [[[iv vid] mv]| | |] eqn:E2; cbn [bind] in E; try discriminate.
  clear E. destruct (insert_again k _ lk ik kid mk Mk E1) as (K1 & K2 & K3 & K4).
  destruct (insert_again v _ lv iv vid mv Mv E2) as (V1 & V2 & V3 & V4).
  assert (iv = true) as ->.
  { destruct iv; auto. exfalso. destruct (V4 eq_refl) as [_ Q]. rewrite (map_contains_ok v _ lv Mv) in Q. injection Q as Q.
    destruct (map_insert_new v _ lv Mv Hv) as [(_ & Z)|(_ & Z & _)]; rewrite Z in E2; discriminate. }
  destruct (V3 eq_refl) as [_ Vid].
  set (reg := if ik then key_reg d ++ [k] else key_reg d).
  exists (set_vals (set_keys d reg mk) (val_reg d) mv).
  assert (Run : run bl (AddProp n k v) (set_vals (set_keys d reg mk) (val_reg d) mv) =
    Ok (push_prop (set_vals (set_keys d reg mk) (val_reg d) mv) (mkProp n kid vid))).
  { cbn [run]. unfold add_property, intern_key, intern_val. cbn [key_map set_vals set_keys val_map].
    rewrite K1. cbn [bind]. cbn [val_map set_keys set_vals]. rewrite V1. reflexivity. }
  eexists. split; [|split; [exact Run|]].
  - unfold left_with. cbn [c_run]. unfold c_add_property. eapply in_bind_r; [exact (intern_key_once k d ik kid mk E1)|].
    cbv beta iota. apply in_bind_l. unfold c_intern_val, c_map_insert. cbn [val_map set_keys]. rewrite E2.
    cbn. right. left. reflexivity.
  - unfold get_value, push_prop. cbn [key_map set_props set_vals set_keys props val_reg]. rewrite K2. cbn [bind].
    assert (Kz : kid <> 0).
    { rewrite (map_contains_ok k _ lk Mk) in *. destruct ik; [destruct (K3 eq_refl); lia|].
      destruct (K4 eq_refl) as [-> Q]. injection Q as Q. intros ->.
      destruct (in_dec (list_eq_dec N.eq_dec) k lk) as [I|I]; [now apply lookup_in in I|].
      destruct (map_insert_new k _ lk Mk I) as [(_ & Z)|(_ & Z & _)]; rewrite Z in E1; discriminate. }
    destruct (Nat.eqb_spec kid 0) as [Z0|_]; [contradiction|].
    assert (Nf : find (fun e => (p_node e =? n) && (p_key e =? kid)) (props d) = None).
    { destruct (find _ (props d)) as [e|] eqn:Ef; auto. exfalso. pose proof (find_some _ _ Ef) as [Ie He].
      destruct ik.
      - destruct (K3 eq_refl) as [_ Kid]. apply andb_true_iff in He as [_ He]. apply Nat.eqb_eq in He.
        destruct (ri_props _ Rg e Ie) as (_ & Q & _). rewrite Ek in Q. cbn [length] in Q. lia.
      - destruct (K4 eq_refl) as [_ Q]. unfold has_prop_key in Hk. rewrite Q in Hk. cbn [bind] in Hk.
        destruct (Nat.eqb_spec kid 0) as [Z0|_]; [contradiction|]. injection Hk as Hk.
        assert (Z : existsb (fun e => (p_node e =? n) && (p_key e =? kid)) (props d) = true) by (apply existsb_exists; eauto).
        congruence. }
    assert (Fa : find (fun e => (p_node e =? n) && (p_key e =? kid)) (props d ++ [mkProp n kid vid]) = Some (mkProp n kid vid)).
    { clear -Nf. induction (props d) as [|a l IH]; simpl in *; [now rewrite !Nat.eqb_refl|]. destruct (_ && _); [discriminate|auto]. }
    rewrite Fa. cbn [p_val].
    assert (nth_error (val_reg d) vid = None) as -> by (apply nth_error_None; rewrite Ev, Vid; cbn [length]; lia). reflexivity.
Qed.

Lemma known_bool d k b bl n d' : Good d k -> In b (tl (bool_reg d)) -> left_with bl (AddBool n b) d d' -> d' = d.
Proof.
  intros G Hb L. pose proof (g_reg _ _ G) as Rg. destruct (ri_bool _ Rg) as (l & E & M). rewrite E in Hb. cbn [tl] in Hb.
  unfold left_with in L. cbn [c_run] in L. unfold c_add_bool_property, c_intern_bool, c_map_insert in L.
  rewrite (map_insert_old b _ l M Hb) in L. cbn in L. destruct L as [<-|[]]. destruct d; reflexivity.
Qed.
Lemma known_prop d g k v bl n d' : Good d g -> In k (tl (key_reg d)) -> In v (tl (val_reg d)) -> left_with bl (AddProp n k v) d d' -> d' = d.
Proof.
  intros G Hk Hv L. pose proof (g_reg _ _ G) as Rg. destruct (ri_key _ Rg) as (lk & Ek & Mk). destruct (ri_val _ Rg) as (lv & Ev & Mv).
  rewrite Ek in Hk. rewrite Ev in Hv. cbn [tl] in *.
  unfold left_with in L. cbn [c_run] in L. unfold c_add_property, c_intern_key, c_intern_val, c_map_insert in L.
  rewrite (map_insert_old k _ lk Mk Hk) in L. cbn in L. cbn [val_map set_keys] in L. rewrite (map_insert_old v _ lv Mv Hv) in L.
  cbn in L. destruct L as [<-|[]]. destruct d; reflexivity.
Qed.
Lemma known_set d g k v bl n d' : Good d g -> In v (tl (val_reg d)) -> left_with bl (SetProp n k v) d d' -> False.
Proof.
  intros G Hv L. pose proof (g_reg _ _ G) as Rg. destruct (ri_val _ Rg) as (lv & Ev & Mv).
  rewrite Ev in Hv. cbn [tl] in *.
  unfold left_with in L. cbn [c_run] in L. apply in_bind in L as [L|([? ?] & _ & [])]. unfold c_set_property_value in L.
  apply in_bind in L as [L|(kid & _ & L)]; [destruct L|]. destruct (kid =? 0); [destruct L|].
  destruct (prop_idx n kid d); [|destruct L]. apply in_bind in L as [L|([vid y] & _ & L)].
  - unfold c_intern_val, c_map_insert in L. rewrite (map_insert_old v _ lv Mv Hv) in L. destruct L.
  - destruct (nth_error (props y) n0); destruct L.
Qed.
Lemma known_untouched d bl o d' : reachable d -> left_with bl o d d' ->
  match o with
  | AddBool _ b => In b (tl (bool_reg d))
  | AddProp _ k v => In k (tl (key_reg d)) /\ In v (tl (val_reg d))
  | SetProp _ _ v => In v (tl (val_reg d))
  | _ => False
  end -> d' = d.
Proof.
  intros R L H. destruct (reachable_good d R) as [g G]. destruct o; try easy.
  - eapply known_bool; eauto.
  - destruct H. eapply known_prop; eauto.
  - exfalso. eapply known_set; eauto.
Qed.
