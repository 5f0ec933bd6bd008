(** * The recorded parser computes what the plain one computes, and its record is the
    growth of the tables. *)
From Coq Require Import List NArith ZArith Arith Bool Lia.
From Verif Require Import Base TrieModel DomModel ParserModel MemModel Lemmas RegProofs TraceModel.
Import ListNotations.
Local Open Scope nat_scope.

Lemma snd_bind {A B} (x : tr A) (f : A -> tr B) :
  snd (t_bind x f) = bind (snd x) (fun a => snd (f a)).
Proof. unfold t_bind. now destruct (snd x). Qed.
Lemma bind_ext2 {A B} (x y : outcome A) (f g : A -> outcome B) :
  x = y -> (forall a, f a = g a) -> bind x f = bind y g.
Proof. intros -> H. destruct y; simpl; auto. Qed.
Lemma bind_assoc {A B C} (x : outcome A) (f : A -> outcome B) (g : B -> outcome C) :
  bind (bind x f) g = bind x (fun a => bind (f a) g).
Proof. now destruct x. Qed.
Ltac sb := rewrite snd_bind; apply bind_ext2; [|intros].

Lemma s_create ty d : snd (t_create_node ty d) = create_node ty d.
Proof. unfold t_create_node, create_node. now destruct (_ <=? _)%N. Qed.
Lemma s_insert s m : snd (t_map_insert s m) = map_insert s m.
Proof. unfold t_map_insert. rewrite snd_bind. cbn [snd lift]. destruct (map_insert s m) as [[[[|] id] m']| | |]; reflexivity. Qed.
Lemma s_intern_bool s d : snd (t_intern_bool s d) = intern_bool s d.
Proof. unfold t_intern_bool, intern_bool. sb. apply s_insert. now destruct a as [[[|] id] m]. Qed.
Lemma s_intern_key s d : snd (t_intern_key s d) = intern_key s d.
Proof. unfold t_intern_key, intern_key. sb. apply s_insert. now destruct a as [[[|] id] m]. Qed.
Lemma s_intern_val s d : snd (t_intern_val s d) = intern_val s d.
Proof. unfold t_intern_val, intern_val. sb. apply s_insert. now destruct a as [[[|] id] m]. Qed.
Lemma s_add_property id k v d : snd (t_add_property id k v d) = add_property id k v d.
Proof.
  unfold t_add_property, add_property. sb. apply s_intern_key. destruct a as [kid d1].
  sb. apply s_intern_val. now destruct a as [vid d2].
Qed.
Lemma s_add_bool id b d : snd (t_add_bool_property id b d) = add_bool_property id b d.
Proof. unfold t_add_bool_property, add_bool_property. sb. apply s_intern_bool. now destruct a. Qed.
Lemma s_set_tag tag id p d : snd (t_set_tag tag id p d) = set_tag tag id p d.
Proof.
  unfold t_set_tag, set_tag. sb. apply s_insert. destruct a as [[[|] t] m]; [|reflexivity].
  rewrite snd_bind. reflexivity.
Qed.
Lemma s_update_refs n p s d : snd (t_update_refs n p s d) = Ok (update_refs n p s d).
Proof.
  unfold t_update_refs, update_refs. destruct (_ && _); [|reflexivity].
  destruct s as [|[q t] s]; [reflexivity|]. rewrite snd_bind. cbn [snd emit bind]. now destruct (q =? p).
Qed.
Lemma s_text_loop fuel t sp tag : forall raw i, snd (t_text_loop fuel t sp tag raw i) = text_loop fuel t sp tag raw i.
Proof.
  induction fuel as [|f IH]; intros raw i; cbn [t_text_loop text_loop];
    (destruct (i <? length t); [|reflexivity]); sb; try reflexivity; sb; try reflexivity;
    (destruct a0; [reflexivity|]); [reflexivity|].
  sb. reflexivity. sb.
  - destruct a0; [sb; reflexivity|]. sb. reflexivity. destruct a0 as [s j]. destruct raw; reflexivity.
  - destruct a1 as [raw' j]. sb. reflexivity. apply IH.
Qed.
Lemma s_text_node t i tag d : snd (t_parse_text_node t i tag d) = parse_text_node t i tag d.
Proof.
  unfold t_parse_text_node, parse_text_node. sb. apply s_create. destruct a as [id d1].
  rewrite snd_bind. cbn [snd emit bind]. sb. apply s_text_loop. destruct a as [raw j]. sb; reflexivity.
Qed.
Lemma s_attr_loop fuel t id : forall can i d,
  snd (t_attr_loop fuel t id can i d) = attr_loop fuel t id can i d.
Proof.
  induction fuel as [|f IH]; intros can i d; cbn [t_attr_loop attr_loop];
    (destruct (i <? length t); [|reflexivity]); sb; try reflexivity;
    (destruct (a =? cGT)%N; [reflexivity|]); [reflexivity|].
  sb.
  - destruct (a =? cSLASH)%N; [reflexivity|]. destruct (negb (is_blank a)); [|reflexivity].
    sb. reflexivity. destruct a0 as [key j]. destruct (current_char t j =? cEQ)%N.
    + sb. reflexivity. destruct a0 as [v j']. sb. apply s_add_property. reflexivity.
    + sb. apply s_add_bool. reflexivity.
  - destruct a0 as [[can' j] d1]. sb. reflexivity. apply IH.
Qed.
Lemma s_document_node t i ex d :
  snd (t_parse_document_node t i ex d) = parse_document_node t i ex d.
Proof.
  unfold t_parse_document_node, parse_document_node. sb. apply s_create. destruct a as [id d1].
  sb. reflexivity. sb. reflexivity. sb. reflexivity. destruct a1 as [can size].
  sb. reflexivity. sb. reflexivity. sb. apply s_attr_loop. destruct a3 as [[can' j] d2].
  sb. apply s_set_tag. reflexivity.
Qed.
Lemma s_step bl t st i prev s d : snd (t_parse_step bl t st i prev s d) = parse_step bl t st i prev s d.
Proof.
  assert (X : forall i, snd (do+ '(id, j, d) := t_parse_text_node t i (containing_tag s) d in
    do+ d := t_update_refs id prev s d in t_ret (Some (j, id, s), d)) =
    (let* '(id, j, d) := parse_text_node t i (containing_tag s) d in
     Ok (Some (j, id, s), update_refs id prev s d))).
  { intro i'. sb. apply s_text_node. destruct a as [[id j] d1].
    rewrite snd_bind, s_update_refs. reflexivity. }
  unfold t_parse_step, parse_step. sb. reflexivity. destruct (a =? cLT)%N; [|apply X].
  sb. reflexivity. destruct a0. { sb; reflexivity. }
  sb. reflexivity. sb. reflexivity. destruct a1.
  - destruct (if st <? length s then _ else _) as [pr st']. sb; reflexivity.
  - destruct (_ || _); [|apply X]. sb. apply s_document_node. destruct a1 as [[[[id can] tag] j] d1].
    rewrite snd_bind, s_update_refs. cbn [bind]. destruct can; [|reflexivity].
    now destruct (max_depth <=? length s).
Qed.
Lemma s_loop fuel bl t st : forall i prev s d,
  snd (t_parse_loop fuel bl t st i prev s d) = parse_loop fuel bl t st i prev s d.
Proof.
  induction fuel as [|f IH]; intros; cbn [t_parse_loop parse_loop];
    (destruct (i <? length t); [|reflexivity]); [reflexivity|].
  sb. apply s_step. destruct a as [[[[i' p'] s']|] d1]; [|reflexivity].
  sb. reflexivity. apply IH.
Qed.
Theorem s_create_dom t : snd (t_create_dom t) = create_dom t.
Proof.
  unfold t_create_dom, create_dom, parse_root, parse. rewrite snd_bind. cbn [snd bind]. rewrite bind_assoc.
  sb. reflexivity. sb. apply s_loop. now destruct a0.
Qed.

(** ** The record *)

(** Pieces come directly after the creation of their text ([b]: only pieces since a
    text was created). *)
Fixpoint wfe (b : bool) (l : list ev) : Prop :=
  match l with
  | [] => True
  | EText :: l => wfe true l
  | EPiece _ :: l => b = true /\ wfe true l
  | _ :: l => wfe false l
  end.
Definition closed (l : list ev) : Prop := forall b, wfe b l.
Lemma wfe_mono l : forall b, wfe false l -> wfe b l.
Proof. induction l as [|[] l IH]; intros b H; cbn in *; auto. destruct H. discriminate. Qed.
Lemma closed_false l : wfe false l -> closed l.
Proof. intros H b. now apply wfe_mono. Qed.
Lemma wfe_app l l' : forall b, wfe b l -> closed l' -> wfe b (l ++ l').
Proof. induction l as [|[] l IH]; intros b H C; cbn in *; auto. destruct H. auto. Qed.
Lemma closed_app l l' : closed l -> closed l' -> closed (l ++ l').
Proof. intros H H' b. apply wfe_app; auto. Qed.
Lemma closed_nil : closed [].
Proof. intros b. exact I. Qed.

Fixpoint pieces (l : list ev) : bytes :=
  match l with EPiece s :: l => s ++ pieces l | _ => [] end.
Fixpoint ev_texts (l : list ev) : list bytes :=
  match l with
  | [] => []
  | EText :: l => pieces l :: ev_texts l
  | _ :: l => ev_texts l
  end.
Lemma pieces_closed l l' : closed l' -> pieces (l ++ l') = pieces l.
Proof.
  intros C. induction l as [|[] l IH]; cbn; auto; [|now rewrite IH].
  destruct l' as [|[] l']; cbn; auto. destruct (C false). discriminate.
Qed.
Lemma ev_texts_app l l' : closed l' -> ev_texts (l ++ l') = ev_texts l ++ ev_texts l'.
Proof.
  intros C. induction l as [|[] l IH]; cbn; auto. now rewrite IH, (pieces_closed l l' C).
Qed.

Definition e_nodes (l : list ev) := flat_map (fun e => match e with ENode i t => [(i, t)] | _ => [] end) l.
Definition e_firsts (l : list ev) := flat_map (fun e => match e with EFirst p => [p] | _ => [] end) l.
Definition e_pchilds (l : list ev) := flat_map (fun e => match e with EPchild p => [p] | _ => [] end) l.
Definition e_nexts (l : list ev) := flat_map (fun e => match e with ENext p => [p] | _ => [] end) l.
Definition e_bprops (l : list ev) := flat_map (fun e => match e with EBprop p => [p] | _ => [] end) l.
Definition e_props (l : list ev) := flat_map (fun e => match e with EProp p => [p] | _ => [] end) l.
Definition e_tags (l : list ev) := flat_map (fun e => match e with ETag => [tt] | _ => [] end) l.
Definition e_bools (l : list ev) := flat_map (fun e => match e with EBool => [tt] | _ => [] end) l.
Definition e_keys (l : list ev) := flat_map (fun e => match e with EKey => [tt] | _ => [] end) l.
Definition e_vals (l : list ev) := flat_map (fun e => match e with EVal => [tt] | _ => [] end) l.
Definition e_tries (l : list ev) := flat_map (fun e => match e with ETrie => [tt] | _ => [] end) l.

Definition nkey (n : node) := (n_id n, n_type n).
Definition ntexts (ns : list node) : list bytes :=
  flat_map (fun n => match n_pay n with PText s => [s] | _ => [] end) ns.

(** The record [l] is what was added to [d] to get [d']. *)
Record tracks (l : list ev) (d d' : dom) : Prop := {
  tk_closed : closed l;
  tk_nodes : map nkey (nodes d') = map nkey (nodes d) ++ e_nodes l;
  tk_firsts : firsts d' = firsts d ++ e_firsts l;
  tk_pchilds : pchilds d' = pchilds d ++ e_pchilds l;
  tk_nexts : nexts d' = nexts d ++ e_nexts l;
  tk_bprops : bprops d' = bprops d ++ e_bprops l;
  tk_props : props d' = props d ++ e_props l;
  tk_tags : length (tag_reg d') = length (tag_reg d) + length (e_tags l);
  tk_bools : length (bool_reg d') = length (bool_reg d) + length (e_bools l);
  tk_keys : length (key_reg d') = length (key_reg d) + length (e_keys l);
  tk_vals : length (val_reg d') = length (val_reg d) + length (e_vals l);
  tk_tries : length (e_tries l) = length (e_tags l) + length (e_bools l) + length (e_keys l) + length (e_vals l);
  tk_texts : ntexts (nodes d') = ntexts (nodes d) ++ ev_texts l }.

Ltac evs := unfold e_nodes, e_firsts, e_pchilds, e_nexts, e_bprops, e_props, e_tags, e_bools, e_keys, e_vals, e_tries in *.

Lemma tracks_nil d : tracks [] d d.
Proof. constructor; cbn; rewrite ?app_nil_r; auto using closed_nil. Qed.
Lemma tracks_app l l' a b c : tracks l a b -> tracks l' b c -> tracks (l ++ l') a c.
Proof.
  intros [A1 A2 A3 A4 A5 A6 A7 A8 A9 A10 A11 A12 A13] [B1 B2 B3 B4 B5 B6 B7 B8 B9 B10 B11 B12 B13].
  evs. constructor; evs; rewrite ?flat_map_app, ?app_length.
  - now apply closed_app.
  - now rewrite B2, A2, app_assoc.
  - now rewrite B3, A3, app_assoc.
  - now rewrite B4, A4, app_assoc.
  - now rewrite B5, A5, app_assoc.
  - now rewrite B6, A6, app_assoc.
  - now rewrite B7, A7, app_assoc.
  - lia.
  - lia.
  - lia.
  - lia.
  - lia.
  - now rewrite B13, A13, ev_texts_app, app_assoc.
Qed.

Definition trq {A} (Q : list ev -> A -> Prop) (x : tr A) : Prop :=
  match snd x with Ok a => Q (fst x) a | _ => True end.
Lemma trq_bind {A B} (P : list ev -> A -> Prop) (Q : list ev -> B -> Prop) x f :
  trq P x -> (forall l a, P l a -> trq (fun l' b => Q (l ++ l') b) (f a)) -> trq Q (t_bind x f).
Proof.
  unfold trq, t_bind. destruct (snd x) as [a| | |] eqn:E; cbn [snd fst]; auto. intros H K. apply (K _ _ H).
Qed.
Lemma trq_lift {A B} (Q : list ev -> B -> Prop) (o : outcome A) f :
  (forall a, o = Ok a -> trq Q (f a)) -> trq Q (t_bind (lift o) f).
Proof.
  intros H. apply (trq_bind (fun l a => l = [] /\ o = Ok a)).
  - unfold trq, lift. cbn. destruct o; auto.
  - intros l a [-> E]. exact (H a E).
Qed.
Lemma trq_note {B} (Q : list ev -> B -> Prop) e (f : unit -> tr B) :
  trq (fun l b => Q (e :: l) b) (f tt) -> trq Q (t_bind (emit e) f).
Proof. intros H. apply (trq_bind (fun l a => l = [e])); [reflexivity|]. intros l [] ->. exact H. Qed.
Lemma trq_imp {A} (P Q : list ev -> A -> Prop) x : trq P x -> (forall l a, P l a -> Q l a) -> trq Q x.
Proof. unfold trq. destruct (snd x); auto. Qed.

(** Tables and maps only; the nodes are untouched. *)
Ltac tk := constructor; cbn; evs; cbn; rewrite ?app_nil_r, ?app_length; cbn; auto; try lia; try (intros ?; cbn; auto).

Lemma k_intern_bool s d : trq (fun l '(_, d') => tracks l d d' /\ nodes d' = nodes d) (t_intern_bool s d).
Proof.
  unfold t_intern_bool, t_map_insert, trq, t_bind, lift, emit, t_ret. cbn.
  destruct (map_insert s (bool_map d)) as [[[[|] id] m]| | |]; cbn; auto; (split; [tk|reflexivity]).
Qed.
Lemma k_intern_key s d : trq (fun l '(_, d') => tracks l d d' /\ nodes d' = nodes d) (t_intern_key s d).
Proof.
  unfold t_intern_key, t_map_insert, trq, t_bind, lift, emit, t_ret. cbn.
  destruct (map_insert s (key_map d)) as [[[[|] id] m]| | |]; cbn; auto; (split; [tk|reflexivity]).
Qed.
Lemma k_intern_val s d : trq (fun l '(_, d') => tracks l d d' /\ nodes d' = nodes d) (t_intern_val s d).
Proof.
  unfold t_intern_val, t_map_insert, trq, t_bind, lift, emit, t_ret. cbn.
  destruct (map_insert s (val_map d)) as [[[[|] id] m]| | |]; cbn; auto; (split; [tk|reflexivity]).
Qed.
Lemma k_add_property id k v d : trq (fun l d' => tracks l d d' /\ nodes d' = nodes d) (t_add_property id k v d).
Proof.
  unfold t_add_property. eapply trq_bind; [apply k_intern_key|]. intros l [kid d1] [T1 N1].
  eapply trq_bind; [apply k_intern_val|]. intros l' [vid d2] [T2 N2]. apply trq_note. cbn.
  split; [|congruence]. eapply tracks_app; [exact T1|]. eapply tracks_app; [exact T2|]. tk.
Qed.
Lemma k_add_bool id b d : trq (fun l d' => tracks l d d' /\ nodes d' = nodes d) (t_add_bool_property id b d).
Proof.
  unfold t_add_bool_property. eapply trq_bind; [apply k_intern_bool|]. intros l [bid d1] [T1 N1]. apply trq_note. cbn.
  split; [|congruence]. eapply tracks_app; [exact T1|]. tk.
Qed.
Lemma k_attr_loop fuel t id : forall can i d,
  trq (fun l '(_, _, d') => tracks l d d' /\ nodes d' = nodes d) (t_attr_loop fuel t id can i d).
Proof.
  assert (Fin : forall (can : bool) (i : nat) d, trq (fun l '(_, _, d') => tracks l d d' /\ nodes d' = nodes d) (t_ret (can, i, d))).
  { intros. cbn. split; [apply tracks_nil|reflexivity]. }
  induction fuel as [|f IH]; intros can i d; cbn [t_attr_loop]; (destruct (i <? length t); [|apply Fin]);
    apply trq_lift; intros c _; (destruct (c =? cGT)%N; [apply Fin|]); [exact I|].
  eapply (trq_bind (fun l '(_, _, d') => tracks l d d' /\ nodes d' = nodes d)).
  - destruct (c =? cSLASH)%N; [apply Fin|]. destruct (negb (is_blank c)); [|apply Fin].
    apply trq_lift. intros [key j] _. destruct (current_char t j =? cEQ)%N.
    + apply trq_lift. intros [v j'] _. eapply trq_bind; [apply k_add_property|]. intros l d1 H. cbn. now rewrite app_nil_r.
    + eapply trq_bind; [apply k_add_bool|]. intros l d1 H. cbn. now rewrite app_nil_r.
  - intros l [[can' j] d1] [T1 N1]. apply trq_lift. intros j' _. eapply trq_imp; [apply IH|].
    intros l' [[can'' j''] d2] [T2 N2]. split; [|congruence]. eapply tracks_app; eauto.
Qed.

Lemma nkey_upd ns n p : map nkey (upd (ns ++ [n]) (length ns) (mkNode (n_id n) (n_type n) p)) = map nkey (ns ++ [n]).
Proof. rewrite upd_last, !map_app. reflexivity. Qed.

(** The node is pushed first and its union is written last. *)
Lemma k_set_tag tag paired id ty d d1 : nodes d1 = nodes (push_node d (mkNode (length (nodes d)) ty PNone)) ->
  id = length (nodes d) ->
  trq (fun l d' => tracks l d1 d') (t_set_tag tag id paired d1).
Proof.
  intros E ->. unfold t_set_tag, t_map_insert, trq, t_bind, lift, emit, t_ret. cbn.
  destruct (map_insert tag (tag_map d1)) as [[[[|] tid] m]| | |]; cbn; auto;
    unfold set_pay, get_node; cbn [nodes set_tags]; rewrite E; unfold push_node; cbn [nodes set_nodes];
    rewrite nth_error_app2, Nat.sub_diag by auto; cbn [bind nth_error];
    (constructor; cbn; evs; cbn; rewrite ?app_nil_r, ?app_length; cbn; auto; try lia;
     [intros ?; cbn; auto|rewrite E; cbn; apply (nkey_upd _ (mkNode (length (nodes d)) ty PNone))|
      rewrite E; cbn; rewrite upd_last; unfold ntexts; rewrite !flat_map_app; reflexivity]).
Qed.
Lemma k_create ty d : trq (fun l '(id, d') => l = [ENode id ty] /\ id = length (nodes d) /\ tracks l d d' /\
   d' = push_node d (mkNode id ty PNone)) (t_create_node ty d).
Proof.
  unfold t_create_node. destruct (_ <=? _)%N; [|exact I]. cbn. split; [reflexivity|]. split; [reflexivity|]. split; [|reflexivity].
  constructor; cbn; evs; cbn; rewrite ?app_nil_r, ?app_length; cbn; auto; try lia.
  - intros ?; cbn; auto.
  - rewrite map_app. reflexivity.
  - unfold ntexts. rewrite flat_map_app. cbn; now rewrite app_nil_r.
Qed.
Lemma k_document_node t i ex d : trq (fun l '(_, _, _, _, d') => tracks l d d') (t_parse_document_node t i ex d).
Proof.
  unfold t_parse_document_node. eapply trq_bind; [apply k_create|]. intros l [id d1] (_ & -> & T1 & ->).
  apply trq_lift. intros j _. apply trq_lift. intros sl _. apply trq_lift. intros [can size] _. apply trq_lift. intros tag _.
  apply trq_lift. intros j2 _. eapply trq_bind; [apply k_attr_loop|]. intros l2 [[can2 j3] d2] [T2 N2].
  eapply trq_bind; [apply (k_set_tag _ _ _ TDocument d d2 N2); reflexivity|]. intros l3 d3 T3. cbn. rewrite app_nil_r.
  eapply tracks_app; [exact T1|]. eapply tracks_app; eassumption.
Qed.

Definition only_pieces (l : list ev) : Prop := Forall (fun e => exists s, e = EPiece s) l.
Lemma only_wfe l : only_pieces l -> wfe true l.
Proof. induction 1 as [|e l [s ->] H IH]; cbn; auto. Qed.
Lemma k_text_loop fuel t sp tag : forall raw i,
  trq (fun l '(r, _) => only_pieces l /\ r = match raw with Some r => r | None => [] end ++ pieces l)
      (t_text_loop fuel t sp tag raw i).
Proof.
  assert (Fin : forall raw (i : nat), trq (fun l '(r, _) => only_pieces l /\ r = match raw with Some r => r | None => [] end ++ pieces l)
     (t_ret (match raw with Some r => r | None => [] end, i))).
  { intros. cbn. split; [constructor|now rewrite app_nil_r]. }
  induction fuel as [|f IH]; intros raw i; cbn [t_text_loop]; (destruct (i <? length t); [|apply Fin]);
    apply trq_lift; intros c _; apply trq_lift; intros stop _; (destruct stop; [apply Fin|]); [exact I|].
  apply trq_lift. intros cm _.
  eapply (trq_bind (fun l '(raw', _) => only_pieces l /\ match raw' with Some r => r | None => [] end = match raw with Some r => r | None => [] end ++ pieces l)).
  - destruct cm.
    + apply trq_lift. intros j _. cbn. split; [constructor|now rewrite app_nil_r].
    + apply trq_lift. intros [s j] _. destruct raw as [r|].
      * apply trq_note, trq_note. cbn. split; [repeat constructor; eauto|now rewrite app_nil_r].
      * apply trq_note. cbn. split; [repeat constructor; eauto|now rewrite app_nil_r].
  - intros l [raw' j] [O E]. apply trq_lift. intros j' _. eapply trq_imp; [apply IH|].
    intros l' [r j''] [O' E']. split; [now apply Forall_app|]. rewrite E', E, <- app_assoc. f_equal.
    clear - O. induction O as [|e l [s ->] H IH]; cbn; auto. now rewrite <- app_assoc, IH.
Qed.
Lemma only_sel {A} (f : ev -> list A) l : only_pieces l -> (forall s, f (EPiece s) = []) -> flat_map f l = [].
Proof. induction 1 as [|e l [s ->] H IH]; intros F; cbn; auto. now rewrite F, IH. Qed.
Lemma only_texts l : only_pieces l -> ev_texts l = [].
Proof. induction 1 as [|e l [s ->] H IH]; cbn; auto. Qed.
Lemma k_text_node t i tag d : trq (fun l '(_, _, d') => tracks l d d') (t_parse_text_node t i tag d).
Proof.
  unfold t_parse_text_node. eapply trq_bind; [apply k_create|]. intros l [id d1] (-> & -> & T1 & ->).
  apply trq_note. eapply trq_bind; [apply k_text_loop|]. intros l' [r j] [O ->]. apply trq_lift. intros d' E. cbn.
  unfold set_pay, get_node, push_node in E. cbn [nodes set_nodes] in E.
  rewrite nth_error_app2, Nat.sub_diag in E by auto. cbn [bind nth_error] in E. injection E as <-.
  rewrite app_nil_r. change (ENode ?x ?y :: ?z) with ([ENode x y] ++ z).
  constructor; cbn -[app]; evs; cbn -[app]; rewrite ?flat_map_app; cbn; rewrite ?(only_sel _ _ O), ?app_nil_r by auto; auto.
  - intros b. cbn. now apply only_wfe.
  - rewrite upd_last, map_app. reflexivity.
  - rewrite upd_last. unfold ntexts. rewrite flat_map_app. cbn. now rewrite (only_texts _ O).
Qed.
Lemma k_update_refs new prev s d : trq (fun l d' => tracks l d d') (t_update_refs new prev s d).
Proof.
  unfold t_update_refs. destruct (_ && _); [|apply tracks_nil]. destruct s as [|[par tag] s].
  - apply trq_note. cbn. tk.
  - apply trq_note. destruct (par =? prev); apply trq_note; cbn; tk.
Qed.
Lemma k_step bl t st i prev s d : trq (fun l '(_, d') => tracks l d d') (t_parse_step bl t st i prev s d).
Proof.
  assert (X : forall i, trq (fun l '(_, d') => tracks l d d') (do+ '(id, j, d) := t_parse_text_node t i (containing_tag s) d in
    do+ d := t_update_refs id prev s d in t_ret (Some (j, id, s), d))).
  { intro i'. eapply trq_bind; [apply k_text_node|]. intros l [[id j] d1] T. eapply trq_bind; [apply k_update_refs|].
    intros l' d2 T'. cbn. rewrite app_nil_r. eapply tracks_app; eassumption. }
  unfold t_parse_step. apply trq_lift. intros c _. destruct (c =? cLT)%N; [|apply X].
  apply trq_lift. intros cm _. destruct cm. { apply trq_lift. intros j _. apply tracks_nil. }
  apply trq_lift. intros tt _. apply trq_lift. intros e _. destruct e.
  - destruct (if st <? length s then _ else _) as [pr st']. apply trq_lift. intros j _. apply tracks_nil.
  - destruct (_ || _); [|apply X]. eapply trq_bind; [apply k_document_node|]. intros l [[[[id can] tag] j] d1] T.
    eapply trq_bind; [apply k_update_refs|]. intros l' d2 T'.
    assert (Tf : tracks (l ++ l') d d2) by (eapply tracks_app; eassumption).
    destruct can; [destruct (max_depth <=? length s)|]; cbn; now rewrite app_nil_r.
Qed.
Lemma k_loop fuel bl t st : forall i prev s d, trq (fun l '(_, d') => tracks l d d') (t_parse_loop fuel bl t st i prev s d).
Proof.
  induction fuel as [|f IH]; intros; cbn [t_parse_loop]; (destruct (i <? length t); [|apply tracks_nil]); [exact I|].
  eapply trq_bind; [apply k_step|]. intros l [[[[i' p'] s']|] d1] T; [|cbn; now rewrite app_nil_r].
  apply trq_lift. intros j _. eapply trq_imp; [apply IH|]. intros l' [b d2] T'. eapply tracks_app; eassumption.
Qed.
Lemma trq_snd {A} (Q : list ev -> A -> Prop) x : trq Q x -> trq (fun l a => Q l a /\ snd x = Ok a) x.
Proof. unfold trq. destruct (snd x) eqn:E; auto. Qed.
Lemma k_create_dom t : trq (fun l r => exists l' b d, l = first_pushes ++ l' /\ tracks l' empty_dom d /\
   parse_root t empty_dom = Ok (b, d) /\ r = if (b : bool) then Some d else None) (t_create_dom t).
Proof.
  unfold t_create_dom. apply (trq_bind (fun l _ => l = first_pushes)); [reflexivity|]. intros l [] ->.
  apply trq_lift. intros i Ei. eapply trq_bind; [apply trq_snd, k_loop|]. intros l' [b d] [T E]. cbn.
  exists l', b, d. rewrite s_loop in E. split; [now rewrite app_nil_r|]. split; [exact T|]. split; [|reflexivity].
  unfold parse_root, parse. rewrite Ei. exact E.
Qed.
