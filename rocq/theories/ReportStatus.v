(** * [flo_html_printDomStatus]: proofs. *)
From Coq Require Import String List NArith ZArith Arith Bool Lia.
From Verif Require Import Base TrieModel DomModel ParserModel EditModel ReadModel DomSpec ApiSpec MsiModel
  Lemmas TrieProofs Tables Inv RegProofs ParseTree ApiProofs EditProofs EditUser ReadUser CompareModel CompareSpec
  LogModel LogSpec LogProofs PropsLog PrintModel UtilTrieModel UtilTrieProofs ReportModel ReportSpec ReportEach ReportDiff.
Import ListNotations.
Local Open Scope nat_scope.

(** Calls that end with a flush: everything reaches the file. *)
Lemma outputs k ops o w : progresses k -> Forall wop_small (ops ++ [o]) -> wop_flushes o ->
  length (w_buf w) <= w_cap w -> 0 < w_cap w ->
  exists fuel, forall fuel', fuel <= fuel' ->
    exists w', wruns fuel' k (ops ++ [o]) w = Ok w' /\ w_buf w' = [] /\
      w_out w' = w_out w ++ w_buf w ++ written (ops ++ [o]).
Proof.
  intros P Sm F L C. destruct (C54_output_returns k _ w P Sm L C) as (fuel & H). exists fuel. intros fuel' G.
  destruct (H fuel' G) as (w' & E). exists w'. split; [exact E|].
  apply (C54_flush_empties k fuel' ops o w w'); auto. now apply progresses_never.
Qed.

(** One part of a report. *)
Definition gives_text (o : outcome (list wop)) (s : bytes) : Prop :=
  exists ops, o = Ok ops /\ Forall wop_small ops /\ written ops = s.

Lemma b64 n : (N.of_nat n < 2 ^ 63)%N -> (N.of_nat n < 2 ^ 64)%N.
Proof. intros H. eapply N.lt_trans; [exact H|]. reflexivity. Qed.

Lemma flat_numbered {A B} (g : A -> list B) l : forall s, flat_map (fun e => g (snd e)) (combine (seq s (length l)) l) = flat_map g l.
Proof. induction l as [|x l IH]; intros s; cbn [flat_map length seq combine]; [reflexivity|]. now rewrite IH. Qed.

Section Status.
  Context (dec : nat -> bytes) (D : writes_decimal dec).

  Lemma num_ok n : (N.of_nat n < 2 ^ 64)%N -> uint64_text (N.of_nat n) = Ok (dec n).
  Proof.
    intros H. destruct (uint64_ok _ H) as (s & E & Q). rewrite E. f_equal. eapply C55_decimal_unique; [exact Q|]. now apply D.
  Qed.
  Lemma long_ok n : (N.of_nat n < 2 ^ 63)%N -> ptrdiff_text (Z.of_nat n) = Ok (dec n).
  Proof.
    intros H. destruct (ptrdiff_text_ok (Z.of_nat n)) as (s & E & Q); [lia|]. rewrite E.
    replace (Z.of_nat n <? 0)%Z with false by (symmetry; apply Z.ltb_ge; lia). cbn [app]. f_equal.
    eapply C55_decimal_unique; [exact Q|]. replace (Z.to_N (Z.abs (Z.of_nat n))) with (N.of_nat n) by lia. apply D. lia.
  Qed.
  Lemma dec_small n : (N.of_nat n < 2 ^ 64)%N -> (N.of_nat (length (dec n)) < 2 ^ 32)%N.
  Proof.
    intros H. pose proof (decimal_length (dec n) (N.of_nat n) 20 (D n H)) as L.
    assert (Q : length (dec n) <= 20).
    { apply L; [|lia]. eapply N.lt_trans; [exact H|]. vm_compute. reflexivity. }
    clear -Q. lia.
  Qed.
  Lemma min_text s m nlf : wop_text (WMin s (N.of_nat m) nlf false) = wide m s ++ newline nlf.
  Proof. cbn [wop_text]. unfold wide. rewrite Nat2N.id. now rewrite app_assoc. Qed.

  Lemma rows_ok {A} (f : nat -> A -> outcome (list wop)) (g : nat * A -> bytes) l : forall s,
    (forall i x, In (i, x) (combine (seq s (length l)) l) -> gives_text (f i x) (g (i, x))) ->
    gives_text (rows_from f s l) (flat_map g (combine (seq s (length l)) l)).
  Proof.
    induction l as [|x l IH]; intros s H; cbn [rows_from length seq combine flat_map].
    - exists []. repeat split; constructor.
    - destruct (H s x) as (a & E & Sm & W); [now left|]. rewrite E. cbn [bind].
      destruct (IH (S s)) as (b & E' & S' & W').
      { intros i y I. apply H. now right. }
      rewrite E'. cbn [bind]. exists (a ++ b). split; [reflexivity|]. split; [now apply Forall_app|].
      rewrite written_app. now rewrite W, W'.
  Qed.
  Lemma numbered_in {A} (l : list A) i x : In (i, x) (combine (seq 0 (length l)) l) -> i < length l /\ nth_error l i = Some x.
  Proof.
    assert (G : forall l s i, In (i, x) (combine (seq s (length l)) l) -> s <= i < s + length l /\ nth_error l (i - s) = Some x).
    { clear. induction l as [|y l IH]; intros s i; cbn [length seq combine]; intros [].
      - injection H as <- <-. rewrite Nat.sub_diag. split; [lia|reflexivity].
      - destruct (IH (S s) i H) as [B N]. split; [lia|]. replace (i - s) with (S (i - S s)) by lia. exact N. }
    intros H. destruct (G l 0 i H) as [B N]. rewrite Nat.sub_0_r in N. split; [lia|exact N].
  Qed.

  Lemma table_ok {A} title total (f : nat -> A -> outcome (list wop)) (row : nat * A -> bytes) l fin e :
    (N.of_nat (length l) < 2 ^ 63)%N -> fin = endl ++ e ->
    (forall i x, i < length l -> nth_error l i = Some x -> gives_text (f i x) (ln (row (i, x)))) ->
    gives_text (table title total f l fin) (table_part dec title total row l ++ e).
  Proof.
    intros L -> H. unfold table, long_ln. rewrite (long_ok _ L). cbn [bind].
    destruct (rows_ok f (fun e => ln (row e)) l 0) as (r & E & Sm & W).
    { intros i x I. destruct (numbered_in l i x I). now apply H. }
    unfold rows. rewrite E. cbn [bind]. eexists. split; [reflexivity|]. split.
    - repeat (apply Forall_app; split); auto; repeat constructor.
    - rewrite !written_app, W. unfold table_part, numbered. unfold ln. repeat rewrite <- app_assoc. wr.
  Qed.

  Lemma row_ok (l : list wop) s : Forall wop_small l -> written l = s -> gives_text (Ok l) s.
  Proof. intros Sm W. exists l. auto. Qed.

  Lemma map_ok reg m title : reg_ok reg m ->
    Forall (fun s => (N.of_nat (length s) < 2 ^ 32)%N) reg -> (N.of_nat (length reg) < 2 ^ 63)%N ->
    exists ops, print_map m = Ok ops /\ Forall wop_small ops /\ ln title ++ written ops = map_part dec title reg.
  Proof.
    intros (l & -> & Q & _ & _) Sm L. unfold print_map, each_interned. rewrite Q, for_each_ok, elems_chain.
    rewrite upto_all; [|intros [k v] I; cbn [snd]; apply Nat.eqb_neq; apply in_combine_r in I; apply in_seq in I; lia].
    cbn [bind]. set (c := combine l (seq 1 (length l))).
    destruct (rows_ok (fun (_ : nat) (e : bytes * nat) => let* v := num_ln (snd e) in
                Ok [say (lit "string = "); WMin (fst e) 30 false false; say (lit " with id = "); v])
                (fun e => ln (lit "string = " ++ wide 30 (fst (snd e)) ++ lit " with id = " ++ dec (snd (snd e)))) c 0)
      as (r & E & Sr & W).
    { intros i [k v] I. apply in_combine_r in I. cbn [fst snd].
      pose proof (in_combine_l _ _ _ _ I) as Ik. pose proof (in_combine_r _ _ _ _ I) as Iv. apply in_seq in Iv.
      assert (Lv : (N.of_nat v < 2 ^ 63)%N).
      { eapply N.le_lt_trans; [|exact L]. destruct Iv as [_ Iv]. apply Nat.lt_le_incl in Iv. rewrite <- N2Nat.id at 1. rewrite !Nat2N.id.
        apply (proj1 (N.compare_le_iff _ _)). rewrite <- Nat2N.inj_compare. apply Nat.compare_le_iff. exact Iv. }
      unfold num_ln. rewrite num_ok by (apply b64, Lv). cbn [bind]. apply row_ok.
      - repeat constructor. cbn. rewrite Forall_forall in Sm. apply Sm. now right.
      - unfold written. cbn [map concat say sayln]. change 30%N with (N.of_nat 30). rewrite min_text. wr. }
    unfold rows. match goal with |- context [rows_from ?f 0 ?x] => replace (rows_from f 0 x) with (Ok r : outcome (list wop)) by (symmetry; exact E) end. cbn [bind]. eexists. split; [reflexivity|]. split.
    { apply Forall_app. split; [exact Sr|repeat constructor]. }
    rewrite written_app, W. unfold map_part. cbn [tl length]. rewrite Nat.sub_succ, Nat.sub_0_r. fold c.
    replace (flat_map _ (combine (seq 0 (length c)) c)) with
      (flat_map (fun e => ln (lit "string = " ++ wide 30 (fst e) ++ lit " with id = " ++ dec (snd e))) c).
    - reflexivity.
    - clearbody c. symmetry. apply (flat_numbered (fun e => ln (lit "string = " ++ wide 30 (fst e) ++ lit " with id = " ++ dec (snd e)))).
  Qed.
  Lemma registry_ok name reg : (N.of_nat (length reg) < 2 ^ 63)%N ->
    gives_text (print_registry name reg) (registry_part dec name reg).
  Proof.
    intros L. unfold print_registry, long_ln. rewrite (long_ok _ L). cbn [bind].
    destruct (rows_ok (fun i s => let* v := long_min i 3 in Ok [say (lit "ID: "); v; say (lit " value: "); sayln s])
                (fun e => ln (lit "ID: " ++ wide 3 (dec (fst e)) ++ lit " value: " ++ snd e)) reg 0) as (r & E & Sm & W).
    { intros i x I. destruct (numbered_in reg i x I) as [B _]. unfold long_min. rewrite long_ok by lia. cbn [bind fst snd].
      apply row_ok.
      - repeat constructor. cbn. apply dec_small, b64. lia.
      - unfold written. cbn [map concat say sayln]. change 3%N with (N.of_nat 3). rewrite min_text. wr. }
    unfold rows. rewrite E. cbn [bind]. eexists. split; [reflexivity|]. split.
    - repeat (apply Forall_app; split); auto; repeat constructor.
    - rewrite !written_app, W. unfold registry_part, numbered. unfold ln. repeat rewrite <- app_assoc. wr.
  Qed.

  Context (d : dom) (R : reachable d) (Ad : addressable d).

  Lemma link_bounds e : In e (firsts d) \/ In e (pchilds d) \/ In e (nexts d) ->
    fst e < length (nodes d) /\ snd e < length (nodes d).
  Proof.
    destruct (reachable_good d R) as [k [I _ _]]. pose proof (inv_len _ _ I) as L. pose proof (inv_kw _ _ I) as W.
    assert (O : forall p c, In c (k (Par p)) -> p < length (nodes d) /\ c < length (nodes d)).
    { intros p c H. pose proof (kw_bound _ _ W _ _ H). pose proof (kw_order _ _ W _ _ H). lia. }
    destruct e as [a b]. cbn [fst snd]. intros [H|[H|H]].
    - apply (proj1 (inv_first _ _ I)) in H as [[-> ->]|H]; [lia|]. unfold Rf in H.
      apply O. destruct (k (Par a)); [discriminate|]. injection H as ->. now left.
    - apply (pc_nz _ _ _ (inv_pchild _ _ I)) in H. lia.
    - apply (proj1 (inv_next _ _ I)) in H as [[-> ->]|H]; [lia|]. destruct H as [q H].
      pose proof (adj_in _ _ _ H) as Q.
      destruct Q as [Qa Qb]. pose proof (kw_bound _ _ W _ _ Qa). pose proof (kw_bound _ _ W _ _ Qb). lia.
  Qed.

  Lemma link_ok a b i e : fst e < length (nodes d) /\ snd e < length (nodes d) ->
    gives_text (link_row a b i e) (ln (link_line dec a b (i, e))).
  Proof.
    intros [L1 L2]. destruct Ad as [F _]. apply Forall_inv in F.
    unfold link_row, num_min. rewrite !num_ok by (apply b64; lia). cbn [bind]. apply row_ok.
    - repeat constructor; cbn; apply dec_small, b64; lia.
    - unfold link_line. cbn [fst snd]. unfold written. cbn [map concat say]. change 5%N with (N.of_nat 5). rewrite !min_text. wr.
  Qed.

  Lemma status_ok : exists ops, dom_status d = Ok (ops ++ [WFlush]) /\ Forall wop_small (ops ++ [WFlush]) /\
    written (ops ++ [WFlush]) = status_text dec d.
  Proof.
    pose proof (u_reg d R) as G. destruct Ad as [F Sm].
    apply Forall_app in Sm as [St Sm]. apply Forall_app in Sm as [Sb Sm]. apply Forall_app in Sm as [Sk Sv].
    repeat match goal with H : Forall _ (_ :: _) |- _ => apply Forall_cons_iff in H as [? H] end. clear F.
    unfold dom_status.
    destruct (map_ok _ _ (lit "printing keys...") (ri_key _ G) Sk ltac:(assumption)) as (o1 & E1 & S1 & W1). rewrite E1. cbn [bind].
    destruct (map_ok _ _ (lit "printing values...") (ri_val _ G) Sv ltac:(assumption)) as (o2 & E2 & S2 & W2). rewrite E2. cbn [bind].
    destruct (map_ok _ _ (lit "printing bool property status...") (ri_bool _ G) Sb ltac:(assumption)) as (o3 & E3 & S3 & W3). rewrite E3. cbn [bind].
    destruct (map_ok _ _ (lit "printing tags status...") (ri_tag _ G) St ltac:(rewrite map_length; assumption)) as (o4 & E4 & S4 & W4).
    rewrite E4. cbn [bind].
    destruct (table_ok (lit "Nodes inside DOM...") (lit "Total number of nodes: ") node_row (node_line dec) (nodes d) nl [] ltac:(assumption) eq_refl)
      as (o5 & E5 & S5 & W5).
    { intros i x L E. unfold node_row, num_min. rewrite (u_ids d R i x E). rewrite num_ok by (apply b64; lia). cbn [bind].
      destruct (reachable_good d R) as [k Gd]. pose proof (ty_pay _ _ (g_ty _ _ Gd) i x E) as P. unfold pay_ok in P.
      unfold node_line. cbn [fst snd].
      destruct (n_type x) eqn:T;
        try (apply row_ok; [repeat constructor; cbn; try (apply dec_small, b64; lia); reflexivity
            |unfold written; cbn [map concat say]; change 5%N with (N.of_nat 5); change 10%N with (N.of_nat 10); rewrite !min_text; wr]).
      destruct P as (t & P & _). rewrite P. pose proof (ri_tags _ G i x t E P) as Lt.
      unfold num_ln. rewrite num_ok by (apply b64; lia). cbn [bind]. apply row_ok.
      - repeat constructor; cbn; try (apply dec_small, b64; lia); reflexivity.
      - unfold written. cbn [map concat say sayln]. change 5%N with (N.of_nat 5). change 10%N with (N.of_nat 10). rewrite !min_text. wr. }
    rewrite E5. cbn [bind].
    destruct (table_ok (lit "tag registration nodes inside DOM...") (lit "total number of tag registration nodes: ") tag_row (tag_line dec)
                (tag_reg d) nl [] ltac:(assumption) eq_refl) as (o6 & E6 & S6 & W6).
    { intros i x L E. unfold tag_row, num_min. rewrite num_ok by (apply b64; lia). cbn [bind]. apply row_ok.
      - repeat constructor; cbn; try (apply dec_small, b64; lia). rewrite Forall_forall in St. apply St. apply in_map. eapply nth_error_In; eauto.
      - unfold tag_line. cbn [fst snd]. unfold written. cbn [map concat say sayln]. change 5%N with (N.of_nat 5). change 20%N with (N.of_nat 20).
        rewrite !min_text. replace (bool_text (t_paired x)) with (if t_paired x then lit "true" else lit "false") by (now destruct (t_paired x)). wr. }
    rewrite E6. cbn [bind].
    destruct (registry_ok (lit "bool props") (bool_reg d) ltac:(assumption)) as (o7 & E7 & S7 & W7). rewrite E7. cbn [bind].
    destruct (registry_ok (lit "key props") (key_reg d) ltac:(assumption)) as (o8 & E8 & S8 & W8). rewrite E8. cbn [bind].
    destruct (registry_ok (lit "value props") (val_reg d) ltac:(assumption)) as (o9 & E9 & S9 & W9). rewrite E9. cbn [bind].
    destruct (table_ok (lit "boolean property nodes inside DOM...") (lit "total number of boolean properties: ") bprop_row
      (fun e => lit "node ID: " ++ wide 3 (dec (fst (snd e))) ++ lit " prop ID: " ++ dec (snd (snd e))) (bprops d) nl [] ltac:(assumption) eq_refl)
      as (o10 & E10 & S10 & W10).
    { intros i e L E. apply nth_error_In in E. destruct (ri_bprops _ G e E) as (B1 & B2 & _).
      unfold bprop_row, long_min, num_ln. rewrite long_ok by lia; rewrite num_ok by (apply b64; lia). cbn [bind]. apply row_ok.
      - repeat constructor; cbn; apply dec_small, b64; lia.
      - cbn [fst snd]. unfold written. cbn [map concat say sayln]. change 3%N with (N.of_nat 3). rewrite !min_text. wr. }
    rewrite E10. cbn [bind].
    destruct (table_ok (lit "key-value property nodes inside DOM...") (lit "total number of key-value properties: ") prop_row
      (fun e => lit "node ID: " ++ wide 3 (dec (p_node (snd e))) ++ lit " key ID: " ++ wide 3 (dec (p_key (snd e))) ++
                lit " value ID: " ++ dec (p_val (snd e))) (props d) nl [] ltac:(assumption) eq_refl) as (o11 & E11 & S11 & W11).
    { intros i e L E. apply nth_error_In in E. destruct (ri_props _ G e E) as (B1 & B2 & B3 & _).
      unfold prop_row, long_min, num_ln. rewrite !long_ok by lia; rewrite num_ok by (apply b64; lia). cbn [bind]. apply row_ok.
      - repeat constructor; cbn; apply dec_small, b64; lia.
      - cbn [fst snd]. unfold written. cbn [map concat say sayln]. change 3%N with (N.of_nat 3). rewrite !min_text. wr. }
    rewrite E11. cbn [bind].
    destruct (table_ok (lit "parent-first-child inside DOM...") (lit "total number of parent-first-child: ")
      (link_row (lit "parent node ID: ") (lit " first child node ID: "))
      (link_line dec (lit "parent node ID: ") (lit " first child node ID: ")) (firsts d) nl [] ltac:(assumption) eq_refl) as (o12 & E12 & S12 & W12).
    { intros i e L E. apply nth_error_In in E. apply link_ok, link_bounds. auto. }
    rewrite E12. cbn [bind].
    destruct (table_ok (lit "parent-child inside DOM...") (lit "total number of parent-child: ")
      (link_row (lit "parent: ") (lit " child: "))
      (link_line dec (lit "parent: ") (lit " child: ")) (pchilds d) nl [] ltac:(assumption) eq_refl) as (o13 & E13 & S13 & W13).
    { intros i e L E. apply nth_error_In in E. apply link_ok, link_bounds. auto. }
    rewrite E13. cbn [bind].
    destruct (table_ok (lit "next nodes inside DOM...") (lit "total number of next nodes: ")
      (link_row (lit "current node: ") (lit " next node: "))
      (link_line dec (lit "current node: ") (lit " next node: ")) (nexts d) (nl ++ nl) nl ltac:(assumption) eq_refl) as (o14 & E14 & S14 & W14).
    { intros i e L E. apply nth_error_In in E. apply link_ok, link_bounds. auto. }
    rewrite E14. cbn [bind].
    match goal with |- exists ops, Ok ?l = _ /\ _ => assert (Q : exists ops, l = ops ++ [WFlush]) end.
    { eexists. rewrite !app_assoc. reflexivity. }
    destruct Q as [ops Q]. exists ops. rewrite <- Q. split; [reflexivity|]. clear Q. split.
    - repeat (apply Forall_app; split); auto; repeat constructor.
    - unfold status_text. rewrite <- W1, <- W2, <- W3, <- W4.
      rewrite app_nil_r in W5, W6, W10, W11, W12, W13.
      rewrite <- W5, <- W6, <- W7, <- W8, <- W9, <- W10, <- W11, <- W12, <- W13.
      rewrite !written_app, W14. unfold ln. repeat rewrite <- app_assoc. wr.
  Qed.
End Status.
