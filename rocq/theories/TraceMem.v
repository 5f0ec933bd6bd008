(** * The record of a parse as a program on memory. *)
From Coq Require Import List NArith ZArith Arith Bool Lia.
From Verif Require Import Base TrieModel DomModel ParserModel SizeSpec MemModel MemSpec Lemmas MemProofs MemCost
  Grow Size TraceModel TraceProofs.
Import ListNotations.
Local Open Scope nat_scope.

Definition singles (s : bytes) : list bytes := map (fun b => [b]) s.

Definition ex_step (ex : list aarr) (e : ev) : list aarr :=
  match e with
  | ETrie => ex ++ [(56, [zeros 56])]
  | EText => ex ++ [(1, [])]
  | EPiece s =>
      match nth_error ex (length ex - 1) with
      | Some (_, xs) => upd ex (length ex - 1) (1, xs ++ singles s)
      | None => ex
      end
  | _ => ex
  end.
Definition extras (l : list ev) (ex : list aarr) : list aarr := fold_left ex_step l ex.

Definition cells (ns : list (nat * ntype)) (fs ps xs bs : list (nat * nat)) (pr : list prop)
    (nt nb nk nv : nat) (ex : list aarr) : list aarr :=
  (304, [zeros 304]) :: (24, map (fun '(i, t) => enc_node i t) ns) :: (4, map enc_pair fs) :: (4, map enc_pair ps) ::
  (4, map enc_pair xs) :: (4, map enc_pair bs) :: (6, map enc_prop pr) :: (24, repeat (zeros 24) nt) ::
  (16, repeat (zeros 16) nb) :: (16, repeat (zeros 16) nk) :: (16, repeat (zeros 16) nv) :: ex.

Lemma pow8 : pow2 8. Proof. exists 3%Z. split; [lia|reflexivity]. Qed.
Lemma pow2' : pow2 2. Proof. exists 1%Z. split; [lia|reflexivity]. Qed.

Lemma repeat_snoc {A} (x : A) n : repeat x n ++ [x] = repeat x (S n).
Proof. change [x] with (repeat x 1). rewrite <- repeat_app. f_equal. lia. Qed.

Lemma upd_end {A} (l : list A) x y : upd (l ++ [x]) (length (l ++ [x]) - 1) y = l ++ [y].
Proof. rewrite app_length. cbn. replace (length l + 1 - 1) with (length l) by lia. apply RegProofs.upd_last. Qed.
Lemma nth_end {A} (l : list A) x : nth_error (l ++ [x]) (length (l ++ [x]) - 1) = Some x.
Proof. rewrite app_length. cbn. replace (length l + 1 - 1) with (length l) by lia. rewrite nth_error_app2, Nat.sub_diag by auto. reflexivity. Qed.

Lemma prog_aops l : forall b ns fs ps xs bs pr nt nb nk nv ex, wfe b l ->
  (b = true -> exists ex0 ys, ex = ex0 ++ [(1, ys)]) ->
  aops (cells ns fs ps xs bs pr nt nb nk nv ex) (prog (11 + length ex) l)
       (cells (ns ++ e_nodes l) (fs ++ e_firsts l) (ps ++ e_pchilds l) (xs ++ e_nexts l) (bs ++ e_bprops l) (pr ++ e_props l)
          (nt + length (e_tags l)) (nb + length (e_bools l)) (nk + length (e_keys l)) (nv + length (e_vals l)) (extras l ex)).
Proof.
  induction l as [|e l IH]; intros b ns fs ps xs bs pr nt nb nk nv ex H Hb.
  { evs. cbn [flat_map length prog]. rewrite !app_nil_r, !Nat.add_0_r. apply as_nil. }
  assert (Nb : forall ex' : list aarr, false = true -> exists ex0 ys, ex' = ex0 ++ [(1, ys)]) by discriminate.
  destruct e; cbn [prog]; evs; cbn [flat_map app length] in *; fold (e_nodes l) (e_firsts l) (e_pchilds l) (e_nexts l) (e_bprops l) (e_props l) (e_tags l) (e_bools l) (e_keys l) (e_vals l) in *.
  - eapply as_cons. { apply (a_push _ 1); [reflexivity|reflexivity]. }
    cbn [upd cells]. specialize (IH false (ns ++ [(id, ty)]) fs ps xs bs pr nt nb nk nv ex H (Nb _)).
    unfold cells in *. rewrite map_app, <- app_assoc in IH. exact IH.
  - eapply as_cons. { apply (a_push _ 2); [reflexivity|reflexivity]. }
    cbn [upd cells]. specialize (IH false ns (fs ++ [e]) ps xs bs pr nt nb nk nv ex H (Nb _)).
    unfold cells in *. rewrite map_app, <- (app_assoc fs) in IH. exact IH.
  - eapply as_cons. { apply (a_push _ 3); [reflexivity|reflexivity]. }
    cbn [upd cells]. specialize (IH false ns fs (ps ++ [e]) xs bs pr nt nb nk nv ex H (Nb _)).
    unfold cells in *. rewrite map_app, <- (app_assoc ps) in IH. exact IH.
  - eapply as_cons. { apply (a_push _ 4); [reflexivity|reflexivity]. }
    cbn [upd cells]. specialize (IH false ns fs ps (xs ++ [e]) bs pr nt nb nk nv ex H (Nb _)).
    unfold cells in *. rewrite map_app, <- (app_assoc xs) in IH. exact IH.
  - eapply as_cons. { apply (a_push _ 5); [reflexivity|reflexivity]. }
    cbn [upd cells]. specialize (IH false ns fs ps xs (bs ++ [e]) pr nt nb nk nv ex H (Nb _)).
    unfold cells in *. rewrite map_app, <- (app_assoc bs) in IH. exact IH.
  - eapply as_cons. { apply (a_push _ 6); [reflexivity|reflexivity]. }
    cbn [upd cells]. specialize (IH false ns fs ps xs bs (pr ++ [p]) nt nb nk nv ex H (Nb _)).
    unfold cells in *. rewrite map_app, <- (app_assoc pr) in IH. exact IH.
  - eapply as_cons. { apply (a_push _ 7); [reflexivity|apply repeat_length]. }
    cbn [upd cells]. specialize (IH false ns fs ps xs bs pr (S nt) nb nk nv ex H (Nb _)).
    unfold cells in *. rewrite repeat_snoc, Nat.add_succ_r. exact IH.
  - eapply as_cons. { apply (a_push _ 8); [reflexivity|apply repeat_length]. }
    cbn [upd cells]. specialize (IH false ns fs ps xs bs pr nt (S nb) nk nv ex H (Nb _)).
    unfold cells in *. rewrite repeat_snoc, Nat.add_succ_r. exact IH.
  - eapply as_cons. { apply (a_push _ 9); [reflexivity|apply repeat_length]. }
    cbn [upd cells]. specialize (IH false ns fs ps xs bs pr nt nb (S nk) nv ex H (Nb _)).
    unfold cells in *. rewrite repeat_snoc, Nat.add_succ_r. exact IH.
  - eapply as_cons. { apply (a_push _ 10); [reflexivity|apply repeat_length]. }
    cbn [upd cells]. specialize (IH false ns fs ps xs bs pr nt nb nk (S nv) ex H (Nb _)).
    unfold cells in *. rewrite repeat_snoc, Nat.add_succ_r. exact IH.
  - eapply as_cons. { apply a_raw; [lia|apply pow8|discriminate|repeat constructor]. }
    specialize (IH false ns fs ps xs bs pr nt nb nk nv (ex ++ [(56, [zeros 56])]) H (Nb _)).
    rewrite app_length, Nat.add_1_r, Nat.add_succ_r in IH. exact IH.
  - eapply as_cons. { apply a_new; [lia|apply pow2_one]. }
    specialize (IH true ns fs ps xs bs pr nt nb nk nv (ex ++ [(1, [])]) H ltac:(eauto)).
    rewrite app_length, Nat.add_1_r, Nat.add_succ_r in IH. exact IH.
  - destruct H as [-> H]. destruct (Hb eq_refl) as (ex0 & ys & ->).
    assert (E11 : 11 + length (ex0 ++ [(1, ys)]) - 1 = 11 + length ex0) by (rewrite app_length; cbn; lia).
    rewrite E11. eapply as_cons.
    { apply (a_append _ (11 + length ex0) ys). unfold cells. cbn [nth_error Nat.add].
      rewrite nth_error_app2, Nat.sub_diag by auto. reflexivity. }
    specialize (IH true ns fs ps xs bs pr nt nb nk nv (ex0 ++ [(1, ys ++ singles data)]) H ltac:(eauto)).
    cbn [extras fold_left ex_step]. rewrite nth_end, upd_end.
    unfold cells in *. cbn [upd Nat.add]. rewrite RegProofs.upd_last.
    replace (length (ex0 ++ [(1, ys)])) with (length (ex0 ++ [(1, ys ++ singles data)])) by (rewrite !app_length; reflexivity).
    exact IH.
Qed.

(** The texts among the other objects. *)
Definition texts_in (ex : list aarr) : list (list bytes) := map snd (filter (fun a => fst a =? 1) ex).
Lemma texts_in_app a b : texts_in (a ++ b) = texts_in a ++ texts_in b.
Proof. unfold texts_in. now rewrite filter_app, map_app. Qed.

Lemma extras_texts l :
  (forall ex, wfe false l -> texts_in (extras l ex) = texts_in ex ++ map singles (ev_texts l)) /\
  (forall ex ys, wfe true l -> texts_in (extras l (ex ++ [(1, ys)])) =
     texts_in ex ++ [ys ++ singles (pieces l)] ++ map singles (ev_texts l)).
Proof.
  induction l as [|e l [IH1 IH2]].
  - split; intros; cbn [extras fold_left ev_texts map pieces singles]; rewrite ?texts_in_app, !app_nil_r; reflexivity.
  - split.
    + intros ex H. destruct e; cbn [wfe ev_texts] in *; try (exact (IH1 ex H)).
      * etransitivity; [exact (IH1 (ex ++ [(56, [zeros 56])]) H)|]. rewrite texts_in_app. cbn. now rewrite app_nil_r.
      * exact (IH2 ex [] H).
      * destruct H. discriminate.
    + intros ex ys H. destruct e; cbn [wfe ev_texts pieces] in *;
        try (etransitivity; [exact (IH1 (ex ++ [(1, ys)]) H)|]; rewrite texts_in_app, <- app_assoc; cbn; now rewrite app_nil_r).
      * etransitivity; [exact (IH1 ((ex ++ [(1, ys)]) ++ [(56, [zeros 56])]) H)|].
        rewrite !texts_in_app, <- !app_assoc. cbn. now rewrite app_nil_r.
      * etransitivity; [exact (IH2 (ex ++ [(1, ys)]) [] H)|]. rewrite texts_in_app, <- app_assoc. cbn. now rewrite app_nil_r.
      * destruct H as [_ H]. cbn [extras fold_left ex_step]. rewrite nth_end, upd_end.
        etransitivity; [exact (IH2 ex (ys ++ singles data) H)|]. unfold singles. now rewrite map_app, <- app_assoc.
Qed.

(** The space of the other objects. *)
Definition piece_len (e : ev) : nat := match e with EPiece s => length s | _ => 0 end.
Lemma extras_demand l : forall b ex, wfe b l -> (b = true -> exists ex0 ys, ex = ex0 ++ [(1, ys)]) ->
  (demand 8 (extras l ex) = demand 8 ex + 238 * Z.of_nat (length (e_tries l)) +
     18 * Z.of_nat (list_sum (map piece_len l)))%Z.
Proof.
  induction l as [|e l IH]; intros b ex H Hb; [cbn; lia|].
  assert (Nb : forall ex' : list aarr, false = true -> exists ex0 ys, ex' = ex0 ++ [(1, ys)]) by discriminate.
  destruct e; try (exact (IH false ex H (Nb _))).
  - etransitivity; [exact (IH false (ex ++ [(56, [zeros 56])]) H (Nb _))|]. rewrite demand_app. unfold e_tries.
    cbn [flat_map app length map demand piece_len list_sum fold_right]. unfold list_sum. lia.
  - etransitivity; [exact (IH true (ex ++ [(1, [])]) H ltac:(eauto))|]. rewrite demand_app. unfold e_tries.
    cbn [flat_map app length map demand piece_len list_sum fold_right]. unfold list_sum. lia.
  - destruct H as [-> H]. destruct (Hb eq_refl) as (ex0 & ys & ->). cbn [extras fold_left ex_step]. rewrite nth_end, upd_end.
    etransitivity; [exact (IH true (ex0 ++ [(1, ys ++ singles data)]) H ltac:(eauto))|]. rewrite !demand_app.
    unfold e_tries, singles. cbn [flat_map app length map demand piece_len list_sum fold_right].
    rewrite app_length, map_length. unfold list_sum. lia.
Qed.
Lemma pieces_sum l : forall b, wfe b l ->
  list_sum (map piece_len l) = (if b then length (pieces l) else 0) + list_sum (map (@length N) (ev_texts l)).
Proof.
  induction l as [|e l IH]; intros b H; [destruct b; reflexivity|].
  destruct e; cbn [wfe ev_texts pieces] in *; cbn [map list_sum fold_right piece_len];
    try (specialize (IH _ H); unfold list_sum in *; destruct b; cbn in *; lia).
  destruct H as [-> H]. specialize (IH _ H). unfold list_sum in *. rewrite app_length. cbn in *. lia.
Qed.

Lemma dom_arrays_aops : aops [] dom_arrays (cells [] [] [] [] [] [] 0 0 0 0 []).
Proof.
  unfold dom_arrays. eapply as_cons. { apply a_raw; [lia|apply pow8|discriminate|repeat constructor]. }
  repeat (eapply as_cons; [apply a_new; [lia|first [apply pow8|apply pow2']]|]). apply as_nil.
Qed.
Lemma aops_app cs l1 cs1 l2 cs2 : aops cs l1 cs1 -> aops cs1 l2 cs2 -> aops cs (l1 ++ l2) cs2.
Proof. induction 1; cbn; auto. intros. eapply as_cons; eauto. Qed.
Lemma prog_align l : forall n, Forall (align_le 8) (prog n l).
Proof. induction l as [|[] l IH]; intros n; cbn [prog]; constructor; auto; cbn; lia. Qed.
Lemma dom_arrays_align : Forall (align_le 8) dom_arrays.
Proof. unfold dom_arrays. repeat constructor; cbn; lia. Qed.

Lemma texts_ntexts ns : list_sum (map text_len ns) = list_sum (map (@length N) (ntexts ns)).
Proof.
  induction ns as [|n ns IH]; [reflexivity|]. change (ntexts (n :: ns)) with (match n_pay n with PText s => [s] | _ => [] end ++ ntexts ns).
  rewrite map_app, list_sum_app.
  change (list_sum (map text_len (n :: ns))) with (text_len n + list_sum (map text_len ns)). rewrite IH.
  match goal with |- _ + ?x = _ + ?y => change y with x end. unfold text_len. destruct (n_pay n); cbn; lia.
Qed.

(** Everything about a parse that returns. *)
Lemma create_mem t l r : t_create_dom t = (l, Ok r) ->
  exists d b ex, parse_root t empty_dom = Ok (b, d) /\ r = (if (b : bool) then Some d else None) /\
    aops [] (dom_arrays ++ prog 11 l)
      (cells (map nkey (nodes d)) (firsts d) (pchilds d) (nexts d) (bprops d) (props d)
         (length (tag_reg d)) (length (bool_reg d)) (length (key_reg d)) (length (val_reg d)) ex) /\
    Forall (align_le 8) (dom_arrays ++ prog 11 l) /\
    texts_in ex = map singles (ntexts (nodes d)) /\
    (demand 8 ex <= 238 * Z.of_nat (length (tag_reg d) + length (bool_reg d) + length (key_reg d) + length (val_reg d)) +
       18 * Z.of_nat (texts d))%Z.
Proof.
  intros E. pose proof (k_create_dom t) as K. unfold trq in K. rewrite E in K. cbn [fst snd] in K.
  destruct K as (l' & b & d & -> & T & P & ->). destruct T as [T1 T2 T3 T4 T5 T6 T7 T8 T9 T10 T11 T12 T13].
  exists d, b, (extras (first_pushes ++ l') []).
  assert (C : wfe false (first_pushes ++ l')). { apply wfe_app; [cbn; auto|exact T1]. }
  assert (Nb : false = true -> exists (ex0 : list aarr) ys, @nil aarr = ex0 ++ [(1, ys)]) by discriminate.
  split; [exact P|]. split; [reflexivity|]. split; [|split; [|split]].
  - eapply aops_app; [apply dom_arrays_aops|].
    pose proof (prog_aops (first_pushes ++ l') false [] [] [] [] [] [] 0 0 0 0 [] C Nb) as Q.
    revert Q. unfold first_pushes. evs. cbn [app flat_map length Nat.add]. rewrite T2, T3, T4, T5, T6, T7, T8, T9, T10, T11. evs. auto.
  - apply Forall_app. split; [apply dom_arrays_align|apply prog_align].
  - rewrite (proj1 (extras_texts _) [] C). cbn [texts_in filter map app]. f_equal. rewrite T13.
    change (ntexts (nodes empty_dom)) with (@nil bytes). unfold first_pushes. cbn [app ev_texts]. reflexivity.
  - eapply Z.le_trans; [apply Z.eq_le_incl; exact (extras_demand (first_pushes ++ l') false [] C Nb)|]. rewrite (pieces_sum _ _ C). unfold texts. rewrite texts_ntexts, T13.
    unfold first_pushes. evs. cbn [app flat_map ev_texts demand]. change (ntexts (nodes empty_dom)) with (@nil bytes).
    cbn [app] in *. cbn in T8, T9, T10, T11. rewrite T12, T8, T9, T10, T11. lia.
Qed.
