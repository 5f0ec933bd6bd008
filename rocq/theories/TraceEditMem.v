(** * The record of an edit as a program on memory. *)
From Coq Require Import List NArith ZArith Arith Bool Lia.
From Verif Require Import Base TrieModel DomModel ParserModel EditModel ApiSpec MemModel MemSpec Lemmas RegProofs MemProofs MemCost
  TraceModel TraceProofs TraceMem TraceEditModel TraceEditProofs.
Import ListNotations.
Local Open Scope nat_scope.

Definition lens (d : dom) : list nat :=
  [length (nodes d); length (firsts d); length (pchilds d); length (nexts d); length (bprops d); length (props d)].
Definition x_lens1 (e : xev) (l : list nat) : list nat := match e with XB e => ev_lens e l | _ => l end.
Fixpoint x_lens (l : list xev) (ls : list nat) : list nat :=
  match l with [] => ls | e :: l => x_lens l (x_lens1 e ls) end.
Definition x_new1 (e : xev) : nat := match e with XB e => ev_new e | XText _ => 1 | _ => 0 end.
Fixpoint x_new (l : list xev) : nat := match l with [] => 0 | e :: l => x_new1 e + x_new l end.
(** Map nodes, and bytes of text, among the objects. *)
Definition x_try1 (e : xev) : nat := match e with XB ETrie => 1 | _ => 0 end.
Definition x_tries (l : list xev) : nat := list_sum (map x_try1 l).
Definition x_byt1 (e : xev) : nat := match e with XB (EPiece s) => length s | XText s => length s | _ => 0 end.
Definition x_bytes (l : list xev) : nat := list_sum (map x_byt1 l).
Definition regs (d : dom) : nat := length (tag_reg d) + length (bool_reg d) + length (key_reg d) + length (val_reg d).
Definition x_cost (l : list xev) : Z := (238 * Z.of_nat (x_tries l) + 18 * Z.of_nat (x_bytes l))%Z.

Definition dcells (d : dom) (ex : list aarr) : list aarr :=
  cells (map nkey (nodes d)) (firsts d) (pchilds d) (nexts d) (bprops d) (props d)
    (length (tag_reg d)) (length (bool_reg d)) (length (key_reg d)) (length (val_reg d)) ex.

Definition text_incl (d d' : dom) (more : list aarr) : Prop :=
  forall s, In s (ntexts (nodes d')) -> In s (ntexts (nodes d)) \/ In (singles s) (texts_in more).

Record xmem (l : list xev) (d d' : dom) (ex more : list aarr) (p : list mop) : Prop := {
  xm_prog : xprog (lens d) (11 + length ex) l = Some p;
  xm_ops : aops (dcells d ex) p (dcells d' (ex ++ more));
  xm_align : Forall (align_le 8) p;
  xm_new : length more = x_new l;
  xm_cost : demand 8 more = x_cost l;
  xm_text : text_incl d d' more }.
Definition xtracks (l : list xev) (d d' : dom) : Prop :=
  lens d' = x_lens l (lens d) /\ regs d' = regs d + x_tries l /\ forall ex, exists more p, xmem l d d' ex more p.

Lemma x_lens_app l l' ls : x_lens (l ++ l') ls = x_lens l' (x_lens l ls).
Proof. revert ls. induction l as [|e l IH]; intros; cbn [app x_lens]; auto. Qed.
Lemma x_new_app l l' : x_new (l ++ l') = x_new l + x_new l'.
Proof. induction l as [|e l IH]; cbn [app x_new]; [auto|lia]. Qed.
Lemma x_tries_app l l' : x_tries (l ++ l') = x_tries l + x_tries l'.
Proof. unfold x_tries. now rewrite map_app, list_sum_app. Qed.
Lemma x_bytes_app l l' : x_bytes (l ++ l') = x_bytes l + x_bytes l'.
Proof. unfold x_bytes. now rewrite map_app, list_sum_app. Qed.
Lemma x_cost_app l l' : x_cost (l ++ l') = (x_cost l + x_cost l')%Z.
Proof. unfold x_cost. rewrite x_tries_app, x_bytes_app. lia. Qed.
Lemma xprog_app l l' : forall ls n p, xprog ls n l = Some p ->
  xprog ls n (l ++ l') = option_map (app p) (xprog (x_lens l ls) (n + x_new l) l').
Proof.
  assert (M : forall A B C (f : B -> C) (g : A -> B) o, option_map f (option_map g o) = option_map (fun x => f (g x)) o) by (now intros; destruct o).
  induction l as [|e l IH]; intros ls n p E.
  - injection E as <-. cbn [app x_lens x_new]. rewrite Nat.add_0_r. destruct (xprog ls n l'); reflexivity.
  - cbn [app]. destruct e as [e|tab k g x|tab k g|s]; cbn [xprog x_lens x_new x_lens1 x_new1] in *.
    + destruct (xprog (ev_lens e ls) (n + ev_new e) l) as [q|] eqn:Eq; [|discriminate]. injection E as <-.
      rewrite (IH _ _ _ Eq), M, Nat.add_assoc. destruct (xprog _ _ l'); [|reflexivity]. cbn [option_map]. now rewrite app_assoc.
    + destruct (fresh tab g ls); [|discriminate]. destruct (xprog ls n l) as [q|] eqn:Eq; [|discriminate]. injection E as <-.
      rewrite (IH _ _ _ Eq), M. destruct (xprog _ _ l'); reflexivity.
    + destruct (fresh tab g ls); [|discriminate]. now apply IH.
    + destruct (xprog ls (S n) l) as [q|] eqn:Eq; [|discriminate]. injection E as <-.
      rewrite (IH _ _ _ Eq), M. replace (S n + x_new l) with (n + (1 + x_new l)) by lia. destruct (xprog _ _ l'); reflexivity.
Qed.

Lemma xtracks_app l l' a b c : xtracks l a b -> xtracks l' b c -> xtracks (l ++ l') a c.
Proof.
  intros (L1 & R1 & H1) (L2 & R2 & H2). split. { now rewrite x_lens_app, <- L1. } split. { rewrite x_tries_app. lia. }
  intros ex. destruct (H1 ex) as (m1 & p1 & [A1 A2 A3 A4 A5 A6]). destruct (H2 (ex ++ m1)) as (m2 & p2 & [B1 B2 B3 B4 B5 B6]).
  exists (m1 ++ m2), (p1 ++ p2). constructor.
  - rewrite (xprog_app _ _ _ _ _ A1), <- L1, <- A4. rewrite app_length, Nat.add_assoc in B1. rewrite B1. reflexivity.
  - rewrite app_assoc. eapply aops_app; eassumption.
  - now apply Forall_app.
  - rewrite app_length, x_new_app. lia.
  - rewrite demand_app, x_cost_app. lia.
  - intros s Hs. rewrite texts_in_app. destruct (B6 s Hs) as [H|H]; [destruct (A6 s H) as [H'|H']|]; auto; right; apply in_app_iff; auto.
Qed.
Lemma incl_refl_t d : text_incl d d [].
Proof. now left. Qed.
Lemma xtracks_nil d : xtracks [] d d.
Proof.
  split; [reflexivity|]. split; [cbn; lia|]. intros ex. exists [], []. constructor; cbn; auto.
  - rewrite app_nil_r. constructor.
  - apply incl_refl_t.
Qed.

(** ** Events of TraceModel *)
Lemma xprog_emb l : forall ls n, xprog ls n (map XB l) = Some (prog n l).
Proof.
  induction l as [|e l IH]; intros ls n; [reflexivity|]. cbn [map xprog]. rewrite IH. cbn [option_map]. f_equal.
  destruct e; cbn [prog ev_new app]; rewrite ?Nat.add_0_r, ?Nat.add_1_r; reflexivity.
Qed.
Lemma x_lens_emb l : forall a b c d e f, x_lens (map XB l) [a; b; c; d; e; f] =
  [a + length (e_nodes l); b + length (e_firsts l); c + length (e_pchilds l); d + length (e_nexts l);
   e + length (e_bprops l); f + length (e_props l)].
Proof.
  induction l as [|x l IH]; intros; evs; cbn [map x_lens x_lens1 flat_map length]; [now rewrite !Nat.add_0_r|].
  destruct x; cbn [ev_lens bump upd nth app length]; rewrite IH; rewrite ?Nat.add_succ_r; cbn [Nat.add]; reflexivity.
Qed.
Lemma x_new_emb l : x_new (map XB l) = list_sum (map ev_new l).
Proof. induction l as [|e l IH]; [reflexivity|]. cbn [map x_new x_new1]. rewrite IH. reflexivity. Qed.
Lemma x_tries_emb l : x_tries (map XB l) = length (e_tries l).
Proof.
  induction l as [|e l IH]; [reflexivity|]. unfold x_tries, e_tries in *. cbn [map flat_map].
  change (list_sum (?a :: ?b)) with (a + list_sum b). rewrite IH, app_length. destruct e; reflexivity.
Qed.
Lemma x_bytes_emb l : x_bytes (map XB l) = list_sum (map piece_len l).
Proof. unfold x_bytes. rewrite map_map. reflexivity. Qed.
Lemma x_cost_emb l : x_cost (map XB l) = (238 * Z.of_nat (length (e_tries l)) + 18 * Z.of_nat (list_sum (map piece_len l)))%Z.
Proof. unfold x_cost. now rewrite x_tries_emb, x_bytes_emb. Qed.
Lemma extras_more l :
  (forall ex, wfe false l -> exists more, extras l ex = ex ++ more /\ length more = list_sum (map ev_new l)) /\
  (forall ex ys, wfe true l -> exists zs more, extras l (ex ++ [(1, ys)]) = ex ++ (1, zs) :: more /\ length more = list_sum (map ev_new l)).
Proof.
  induction l as [|e l [IH1 IH2]].
  - split; intros ex; [exists []; cbn; now rewrite app_nil_r|]. intros ys _. exists ys, []. split; reflexivity.
  - split.
    + intros ex H. destruct e; cbn [wfe] in H; try (exact (IH1 ex H)).
      * destruct (IH1 (ex ++ [(56, [zeros 56])]) H) as (m & E & L). exists ((56, [zeros 56]) :: m). split; [|exact (f_equal S L)].
        change (extras (ETrie :: l) ex) with (extras l (ex ++ [(56, [zeros 56])])). now rewrite E, <- app_assoc.
      * destruct (IH2 ex [] H) as (zs & m & E & L). exists ((1, zs) :: m). split; [exact E|exact (f_equal S L)].
      * destruct H. discriminate.
    + intros ex ys H. destruct e; cbn [wfe] in H;
        try (destruct (IH1 (ex ++ [(1, ys)]) H) as (m & E & L); exists ys, m; split; [|exact L];
             etransitivity; [exact E|]; now rewrite <- app_assoc).
      * destruct (IH1 ((ex ++ [(1, ys)]) ++ [(56, [zeros 56])]) H) as (m & E & L). exists ys, ((56, [zeros 56]) :: m).
        split; [|exact (f_equal S L)]. etransitivity; [exact E|]. now rewrite <- !app_assoc.
      * destruct (IH2 (ex ++ [(1, ys)]) [] H) as (zs & m & E & L). exists ys, ((1, zs) :: m).
        split; [|exact (f_equal S L)]. etransitivity; [exact E|]. now rewrite <- !app_assoc.
      * destruct H as [_ H]. destruct (IH2 ex (ys ++ singles data) H) as (zs & m & E & L). exists zs, m. split; [|exact L].
        cbn [extras fold_left ex_step]. rewrite nth_end, upd_end. exact E.
Qed.

(** All of [tracks] except what it says about texts. *)
Record tabs (l : list ev) (d d' : dom) : Prop := {
  tb_closed : closed l;
  tb_nodes : map nkey (nodes d') = map nkey (nodes d) ++ e_nodes l;
  tb_firsts : firsts d' = firsts d ++ e_firsts l;
  tb_pchilds : pchilds d' = pchilds d ++ e_pchilds l;
  tb_nexts : nexts d' = nexts d ++ e_nexts l;
  tb_bprops : bprops d' = bprops d ++ e_bprops l;
  tb_props : props d' = props d ++ e_props l;
  tb_tags : length (tag_reg d') = length (tag_reg d) + length (e_tags l);
  tb_bools : length (bool_reg d') = length (bool_reg d) + length (e_bools l);
  tb_keys : length (key_reg d') = length (key_reg d) + length (e_keys l);
  tb_vals : length (val_reg d') = length (val_reg d) + length (e_vals l);
  tb_tries : length (e_tries l) = length (e_tags l) + length (e_bools l) + length (e_keys l) + length (e_vals l);
  tb_texts : forall s, In s (ntexts (nodes d')) -> In s (ntexts (nodes d)) \/ In s (ev_texts l) }.
Lemma tracks_tabs l d d' : tracks l d d' -> tabs l d d'.
Proof. intros [T1 T2 T3 T4 T5 T6 T7 T8 T9 T10 T11 T12 T13]. constructor; auto. intros s. rewrite T13, in_app_iff. auto. Qed.
Lemma tabs_x l d d' : tabs l d d' -> xtracks (map XB l) d d'.
Proof.
  intros [T1 T2 T3 T4 T5 T6 T7 T8 T9 T10 T11 T12 T13]. split.
  { unfold lens at 2. rewrite x_lens_emb. unfold lens. rewrite T3, T4, T5, T6, T7, !app_length.
    f_equal. rewrite <- (map_length nkey (nodes d')), T2, app_length, map_length. reflexivity. }
  split. { unfold regs. rewrite x_tries_emb. lia. }
  intros ex. destruct (proj1 (extras_more l) ex (T1 false)) as (more & E & L). exists more, (prog (11 + length ex) l).
  assert (Nb : false = true -> exists (ex0 : list aarr) ys, ex = ex0 ++ [(1, ys)]) by discriminate.
  constructor.
  - apply xprog_emb.
  - pose proof (prog_aops l false (map nkey (nodes d)) (firsts d) (pchilds d) (nexts d) (bprops d) (props d)
      (length (tag_reg d)) (length (bool_reg d)) (length (key_reg d)) (length (val_reg d)) ex (T1 false) Nb) as Q.
    unfold dcells. rewrite T2, T3, T4, T5, T6, T7, T8, T9, T10, T11, <- E. exact Q.
  - apply prog_align.
  - now rewrite x_new_emb.
  - pose proof (extras_demand l false ex (T1 false) Nb) as D. rewrite E, demand_app in D. rewrite x_cost_emb. lia.
  - intros s Hs. destruct (T13 s Hs) as [H|H]; [auto|right].
    pose proof (proj1 (extras_texts l) ex (T1 false)) as X. rewrite E, texts_in_app in X. apply app_inv_head in X. rewrite X.
    now apply in_map.
Qed.

Definition xq {A} (Q : list xev -> A -> Prop) (x : xtr A) : Prop :=
  match snd x with Ok a => Q (fst x) a | _ => True end.
Lemma xq_bind {A B} (P : list xev -> A -> Prop) (Q : list xev -> B -> Prop) x f :
  xq P x -> (forall l a, P l a -> xq (fun l' b => Q (l ++ l') b) (f a)) -> xq Q (x_bind x f).
Proof. unfold xq, x_bind. destruct (snd x) as [a| | |] eqn:E; cbn [snd fst]; auto. intros H K. apply (K _ _ H). Qed.
Lemma xq_lift {A B} (Q : list xev -> B -> Prop) (o : outcome A) f :
  (forall a, o = Ok a -> xq Q (f a)) -> xq Q (x_bind (xlift o) f).
Proof.
  intros H. apply (xq_bind (fun l a => l = [] /\ o = Ok a)).
  - unfold xq, xlift. cbn. destruct o; auto.
  - intros l a [-> E]. exact (H a E).
Qed.
Lemma xq_imp {A} (P Q : list xev -> A -> Prop) x : xq P x -> (forall l a, P l a -> Q l a) -> xq Q x.
Proof. unfold xq. destruct (snd x); auto. Qed.
Lemma xq_emb {A} (P : list ev -> A -> Prop) (Q : list xev -> A -> Prop) x :
  trq P x -> (forall l a, P l a -> Q (map XB l) a) -> xq Q (emb x).
Proof. unfold trq, xq, emb. cbn [snd fst]. destruct (snd x); auto. Qed.

(** A computation on [d], after [pre] brought [d0] to [d]. *)
Definition go (d0 : dom) (l : list xev) (d' : dom) : Prop := xtracks l d0 d'.
Definition gos {A} (d0 : dom) (l : list xev) (r : A * dom) : Prop := xtracks l d0 (snd r).
(** The same, with the lengths of the tables kept. *)
Definition keep (d0 : dom) (l : list xev) (d' : dom) : Prop := xtracks l d0 d' /\ lens d' = lens d0.
Definition keeps {A} (d0 : dom) (l : list xev) (r : A * dom) : Prop := keep d0 l (snd r).

Lemma xq_go {A} (Q : list xev -> A -> Prop) (P : list xev -> dom -> Prop) d x f :
  xq P x -> (forall l d', P l d' -> xtracks l d d') ->
  (forall l d', P l d' -> xq (fun l' b => Q (l ++ l') b) (f d')) -> xq Q (x_bind x f).
Proof. intros H _ K. eapply xq_bind; [exact H|]. exact K. Qed.

(** ** Single events *)
Lemma fresh_ok tab d : (1 <=? tab) && (tab <=? 6) = true -> fresh tab (nth (tab - 1) (lens d) 0) (lens d) = true.
Proof. do 7 (destruct tab as [|tab]; [try discriminate; intros _; apply Nat.eqb_refl|]). discriminate. Qed.
Lemma one_load tab k g d : (1 <=? tab) && (tab <=? 6) = true -> g = nth (tab - 1) (lens d) 0 -> xtracks [XLoad tab k g] d d.
Proof.
  intros B ->. split; [reflexivity|]. split; [cbn; lia|]. intros ex. exists [], []. constructor; cbn [xprog x_new x_new1 length demand]; auto.
  - now rewrite fresh_ok.
  - rewrite app_nil_r. constructor.
  - apply incl_refl_t.
Qed.
Lemma one_store tab k sz xs x d d' : (1 <=? tab) && (tab <=? 6) = true ->
  (forall ex, nth_error (dcells d ex) tab = Some (sz, xs)) -> k < length xs -> length x = sz ->
  (forall ex, upd (dcells d ex) tab (sz, upd xs k x) = dcells d' ex) -> lens d' = lens d -> regs d' = regs d ->
  (forall s, In s (ntexts (nodes d')) -> In s (ntexts (nodes d))) ->
  xtracks [XStore tab k (nth (tab - 1) (lens d) 0) x] d d'.
Proof.
  intros B N K L U E R T. split; [exact E|]. split; [cbn; lia|]. intros ex. exists [], [Store tab k x]. constructor; cbn [xprog x_new x_new1 length demand]; auto.
  - now rewrite fresh_ok.
  - rewrite app_nil_r. eapply as_cons; [|apply as_nil]. rewrite <- U. now apply a_store.
  - repeat constructor.
  - intros s H. auto.
Qed.
Lemma k_st_next k g e d : g = length (nexts d) -> k < length (nexts d) -> xq (keep d) (st_next k g e d).
Proof.
  intros -> H. cbn. split; [|unfold lens; cbn; now rewrite upd_length].
  apply (one_store 4 k 4 (map enc_pair (nexts d)) (enc_pair e)); try reflexivity; auto.
  - now rewrite map_length.
  - intros ex. unfold dcells, cells. cbn -[enc_pair enc_prop]. now rewrite <- map_upd.
  - unfold lens. cbn. now rewrite upd_length.
Qed.
Lemma k_st_first k g e d : g = length (firsts d) -> k < length (firsts d) -> xq (keep d) (st_first k g e d).
Proof.
  intros -> H. cbn. split; [|unfold lens; cbn; now rewrite upd_length].
  apply (one_store 2 k 4 (map enc_pair (firsts d)) (enc_pair e)); try reflexivity; auto.
  - now rewrite map_length.
  - intros ex. unfold dcells, cells. cbn -[enc_pair enc_prop]. now rewrite <- map_upd.
  - unfold lens. cbn. now rewrite upd_length.
Qed.
Lemma k_st_pchild k g e d : g = length (pchilds d) -> k < length (pchilds d) -> xq (keep d) (st_pchild k g e d).
Proof.
  intros -> H. cbn. split; [|unfold lens; cbn; now rewrite upd_length].
  apply (one_store 3 k 4 (map enc_pair (pchilds d)) (enc_pair e)); try reflexivity; auto.
  - now rewrite map_length.
  - intros ex. unfold dcells, cells. cbn -[enc_pair enc_prop]. now rewrite <- map_upd.
  - unfold lens. cbn. now rewrite upd_length.
Qed.
Lemma k_st_bprop k g e d : g = length (bprops d) -> k < length (bprops d) -> xq (keep d) (st_bprop k g e d).
Proof.
  intros -> H. cbn. split; [|unfold lens; cbn; now rewrite upd_length].
  apply (one_store 5 k 4 (map enc_pair (bprops d)) (enc_pair e)); try reflexivity; auto.
  - now rewrite map_length.
  - intros ex. unfold dcells, cells. cbn -[enc_pair enc_prop]. now rewrite <- map_upd.
  - unfold lens. cbn. now rewrite upd_length.
Qed.
Lemma k_st_prop k g e d : g = length (props d) -> k < length (props d) -> xq (keep d) (st_prop k g e d).
Proof.
  intros -> H. cbn. split; [|unfold lens; cbn; now rewrite upd_length].
  apply (one_store 6 k 6 (map enc_prop (props d)) (enc_prop e)); try reflexivity; auto.
  - now rewrite map_length.
  - intros ex. unfold dcells, cells. cbn -[enc_pair enc_prop]. now rewrite <- map_upd.
  - unfold lens. cbn. now rewrite upd_length.
Qed.
Lemma ntexts_upd ns : forall i n s, In s (ntexts (upd ns i n)) -> In s (ntexts ns) \/ n_pay n = PText s.
Proof.
  induction ns as [|m ns IH]; intros i n s; [destruct i; auto|].
  destruct i as [|i]; cbn [upd]; unfold ntexts in *; cbn [flat_map]; rewrite !in_app_iff; intros [H|H]; auto.
  - right. destruct (n_pay n); cbn in H; try contradiction. destruct H as [->|[]]; auto.
  - destruct (IH i n s H); auto.
Qed.
Lemma k_st_node k g n m d : g = length (nodes d) -> nth_error (nodes d) k = Some m ->
  (n_pay n = n_pay m \/ n_pay n = PTag 0) -> xq (keep d) (st_node k g n d).
Proof.
  intros -> H P. cbn. split; [|unfold lens; cbn; now rewrite upd_length].
  apply (one_store 1 k 24 (map (fun '(i, t) => enc_node i t) (map nkey (nodes d))) (enc_node (n_id n) (n_type n))); try reflexivity; auto.
  - rewrite !map_length. apply nth_error_Some. congruence.
  - intros ex. unfold dcells, cells. cbn -[enc_node]. do 3 f_equal. change (enc_node (n_id n) (n_type n)) with ((fun '(i, t) => enc_node i t) (nkey n)).
    now rewrite <- map_upd, <- map_upd.
  - unfold lens. cbn. now rewrite upd_length.
  - intros s Hs. cbn in Hs. destruct (ntexts_upd _ _ _ _ Hs) as [|E]; [auto|]. destruct P as [P|P]; [|congruence].
    unfold ntexts. apply in_flat_map. exists m. split; [eapply nth_error_In; eauto|]. rewrite <- P, E. now left.
Qed.

Lemma k_p_first e d : xq (fun l d' => xtracks l d d' /\ d' = push_first d e) (p_first e d).
Proof. cbn. split; [|reflexivity]. apply (tabs_x [EFirst e]). constructor; evs; cbn; rewrite ?app_nil_r; auto. intros b; exact I. Qed.
Lemma k_p_pchild e d : xq (fun l d' => xtracks l d d' /\ d' = push_pchild d e) (p_pchild e d).
Proof. cbn. split; [|reflexivity]. apply (tabs_x [EPchild e]). constructor; evs; cbn; rewrite ?app_nil_r; auto. intros b; exact I. Qed.
Lemma k_p_next e d : xq (fun l d' => xtracks l d d' /\ d' = push_next d e) (p_next e d).
Proof. cbn. split; [|reflexivity]. apply (tabs_x [ENext e]). constructor; evs; cbn; rewrite ?app_nil_r; auto. intros b; exact I. Qed.

Lemma set_pay_parts d id p d' : set_pay d id p = Ok d' -> exists n, nth_error (nodes d) id = Some n /\
  d' = set_nodes d (upd (nodes d) id (mkNode (n_id n) (n_type n) p)).
Proof.
  unfold set_pay, get_node. destruct (nth_error (nodes d) id) as [n|]; [|discriminate]. cbn. intros E. injection E as <-. eauto.
Qed.
Lemma nkeys_upd ns id n p : nth_error ns id = Some n -> map nkey (upd ns id (mkNode (n_id n) (n_type n) p)) = map nkey ns.
Proof. intros H. rewrite map_upd. apply upd_same. now rewrite nth_error_map, H. Qed.

Lemma k_set_text id s d : xq (keep d) (x_set_text id s d).
Proof.
  unfold x_set_text, xq, x_bind, x_emit, xlift. cbn [snd fst app]. destruct (set_pay d id (PText s)) as [d'| | |] eqn:E; auto.
  destruct (set_pay_parts _ _ _ _ E) as (n & N & ->).
  assert (L : lens (set_nodes d (upd (nodes d) id (mkNode (n_id n) (n_type n) (PText s)))) = lens d) by (unfold lens; cbn; now rewrite upd_length).
  split; [|exact L]. split; [exact L|]. split; [unfold regs; cbn; lia|]. intros ex.
  set (d' := set_nodes d (upd (nodes d) id (mkNode (n_id n) (n_type n) (PText s)))) in *.
  exists [(1, singles s)], [match s with [] => NewArr 1 1 | _ => Raw 1 1 (map (fun b => [b]) s) end].
  assert (D : forall e, dcells d' e = dcells d e). { intros e. unfold dcells. cbn. now rewrite nkeys_upd. }
  constructor; cbn [xprog x_new x_new1 length option_map]; auto.
  - eapply as_cons; [|apply as_nil]. rewrite D. change (dcells d (ex ++ [(1, singles s)])) with (dcells d ex ++ [(1, singles s)]).
    destruct s as [|c s]; [apply a_new; [lia|apply pow2_one]|].
    apply a_raw; [lia|apply pow2_one|discriminate|]. exact (Forall_singles (c :: s)).
  - repeat constructor. destruct s; cbn; lia.
  - unfold x_cost, x_tries, x_bytes. cbn [demand map x_try1 x_byt1]. change (list_sum [?a]) with (a + 0). unfold singles. rewrite map_length. lia.
  - intros x Hx. cbn in Hx. destruct (ntexts_upd _ _ _ _ Hx) as [|X]; [auto|]. cbn in X. injection X as ->. right. now left.
Qed.
Lemma k_set_tag_any tag id paired d : trq (fun l d' => tabs l d d' /\ lens d' = lens d) (t_set_tag tag id paired d).
Proof.
  unfold t_set_tag, t_map_insert, trq, t_bind, lift, emit, t_ret. cbn.
  destruct (map_insert tag (tag_map d)) as [[[[|] tid] m]| | |]; cbn; auto;
    match goal with |- match ?x with _ => _ end => destruct x as [d'| | |] eqn:E end; auto;
    destruct (set_pay_parts _ _ _ _ E) as (n & N & ->); cbn in N;
    (split; [|unfold lens; cbn; now rewrite upd_length]);
    (constructor; cbn; evs; cbn; rewrite ?app_nil_r, ?app_length, ?nkeys_upd by exact N; cbn; auto; try lia;
      [intros b; cbn; auto|intros s Hs; destruct (ntexts_upd _ _ _ _ Hs) as [|X]; [auto|discriminate X]]).
Qed.
