(** * Queries in memory: safety. *)
From Coq Require Import List NArith ZArith Arith Bool Lia.
From Verif Require Import Base TrieModel DomModel MsiModel QueryModel ParserModel EditModel ApiSpec ArenaSpec MemModel MemSpec Lemmas MemProofs
  RegProofs ApiProofs TraceModel TraceProofs TraceMem TraceUser TraceEditModel TraceEditProofs TraceEditMem TraceEditUser DupMem QueryMemModel AskSpec QueryMemProofs.
Import ListNotations.
Local Open Scope Z_scope.

Definition top (s : mem) : Z := a_beg (m_arena s) + padding (a_beg (m_arena s)) 2.
Lemma pow2_two : pow2 2.
Proof. exists 1. split; [lia|reflexivity]. Qed.
Lemma two_alloc n s p s' : alloc1 2 2 n s = Ok (p, s') -> p = top s /\ a_beg (m_arena s') = top s + 2 * n /\ a_end (m_arena s') = a_end (m_arena s) /\ m_cont s' = m_cont s.
Proof.
  unfold alloc1, alloc. destruct (_ <? _); cbn [bind]; intros H; [discriminate|]. injection H as <- <-. cbn [m_arena m_cont a_beg a_end]. auto.
Qed.
Lemma top_ge s : a_beg (m_arena s) <= top s.
Proof. unfold top. pose proof (pad_bounds (a_beg (m_arena s)) 2 pow2_two). lia. Qed.

Lemma new_sets_safe l : forall s, a_beg (m_arena s) <= a_end (m_arena s) ->
  safe_m (fun s1 => a_end (m_arena s1) = a_end (m_arena s) /\ m_cont s1 = m_cont s /\
  a_beg (m_arena s) <= a_beg (m_arena s1) /\ a_beg (m_arena s1) <= a_end (m_arena s1) /\
  Forall (fun e => top s + 2 * Z.of_nat (2 ^ e) <= a_beg (m_arena s1)) l) (new_sets l s).
Proof.
  induction l as [|e l IH]; intros s I; cbn [new_sets].
  - cbn [safe_m]. split; [reflexivity|]. split; [reflexivity|]. split; [lia|]. split; [lia|constructor].
  - destruct (31 <=? e)%nat; [exact Logic.I|].
    assert (Nz : (2 ^ e)%nat <> 0%nat) by (apply Nat.pow_nonzero; discriminate).
    destruct (alloc1_safe 2 2 (Z.of_nat (2 ^ e)) s) as [(p & s0 & E)|E]; rewrite E; cbn [bind safe_m]; [|exact Logic.I].
    assert (Pz : 0 < Z.of_nat (2 ^ e)) by (generalize dependent (2 ^ e)%nat; intros; lia).
    pose proof (alloc1_ok 2 2 _ _ _ _ Z.lt_0_2 pow2_two Pz E) as (_ & _ & _ & A4 & _).
    apply two_alloc in E. destruct E as (-> & B1 & B2 & B3). specialize (IH s0 A4). pose proof (top_ge s) as T0. pose proof (top_ge s0) as T1.
    set (k := Z.of_nat (2 ^ e)) in *.
    destruct (new_sets l s0) as [s1| | |]; cbn [safe_m] in IH |- *; try exact IH. destruct IH as (C1 & C2 & C3 & C4 & C5).
    split; [congruence|]. split; [congruence|]. split; [lia|]. split; [lia|].
    constructor; [fold k; lia|]. eapply Forall_impl; [|exact C5]. cbn beta. intros a Ha. lia.
Qed.

Lemma le16s (l : list nat) : Forall (fun x : bytes => length x = 2%nat) (map le16 l).
Proof. induction l; constructor; [reflexivity|assumption]. Qed.
Lemma le16_len l : length (concat (map le16 l)) = (2 * length l)%nat.
Proof. rewrite (concat_len 2 _ (le16s l)), map_length. reflexivity. Qed.

Lemma rd_wr' m p data n : length data = n -> rd (wr m p data) p n = data.
Proof. intros <-. apply rd_wr. Qed.

(** What a query does to the memory. *)
Record asked (s s' : mem) (q : Z) (l : list nat) : Prop := {
  as_beg : a_beg (m_arena s) <= a_beg (m_arena s');
  as_in : a_beg (m_arena s') <= a_end (m_arena s');
  as_end : a_end (m_arena s') = a_end (m_arena s);
  as_out : forall a, a < a_beg (m_arena s) \/ a_end (m_arena s) <= a -> m_cont s' a = m_cont s a;
  as_res : l <> [] -> q mod 2 = 0 /\ a_beg (m_arena s) <= q /\ q + 2 * Z.of_nat (length l) <= a_beg (m_arena s') /\
     rd (m_cont s') q (2 * length l) = concat (map le16 l) }.

Lemma query_safe lo sets css d st l s : query_selector_all lo css d = Ok (st, l) -> a_beg (m_arena s) <= a_end (m_arena s) ->
  safe_m (fun '(st', q, n, s') => st' = st /\ n = length l /\ asked s s' q l) (query_in lo sets css d s).
Proof.
  intros H I. unfold query_selector_all in H. unfold query_in.
  pose proof (v_parts lo css d (S (length css)) 0 (u_new start_exp) (u_new start_exp)) as V.
  destruct (parts_loop (S (length css)) lo css d 0 (u_new start_exp) (u_new start_exp)) as [[st0 res]| | |] eqn:E; try discriminate. cbn [bind] in H.
  pose proof (parts_grown lo css d _ _ _ _ _ _ E) as G.
  destruct (m_parts_loop (S (length css)) lo css d 0 (u_new start_exp) (u_new start_exp)) as [evs r]. cbn [snd fst] in *. subst r.
  destruct G as [[_ RL] RI]; [split; [apply repeat_length|cbn; lia]|]. change (m_exp (u_new start_exp)) with start_exp in RI.
  pose proof (new_sets_safe ([start_exp; start_exp] ++ evs) s I) as W.
  destruct (new_sets ([start_exp; start_exp] ++ evs) s) as [s1| | |]; cbn [safe_m bind] in W |- *; try exact W.
  destruct W as (A1 & A2 & A3 & A4 & A5). pose proof (top_ge s) as T0.
  set (m1 := fun a : Z => if _ && _ then sets a else m_cont s1 a).
  assert (M1 : forall a, a < a_beg (m_arena s) \/ a_end (m_arena s) <= a -> m1 a = m_cont s a).
  { intros a Ha. unfold m1. rewrite A2. destruct (Z.leb_spec (a_beg (m_arena s)) a), (Z.ltb_spec a (a_beg (m_arena s1))); cbn; auto. lia. }
  assert (Bad : st0 <> QSuccess -> safe_m (fun '(st', q, n, s') => st' = st /\ n = length l /\ asked s s' q l)
     (Ok (st0, 0, 0%nat, mkMem (m_arena s) m1))).
  { intros N. assert (st = st0 /\ l = []) as [-> ->] by (destruct st0; try congruence; injection H as <- <-; auto).
    cbn [safe_m]. split; [reflexivity|]. split; [reflexivity|]. constructor; cbn [m_arena m_cont]; auto; [lia|congruence]. }
  destruct st0; try (apply Bad; discriminate). clear Bad.
  destruct (u_to_array res) as [l0| | |] eqn:El; try discriminate. cbn [bind] in H. injection H as <- ->.
  assert (LL : length l = m_len res).
  { unfold u_to_array in El. destruct (Nat.leb_spec (length (u_elems res)) (m_len res)); [|discriminate]. injection El as <-. rewrite app_length, repeat_length. lia. }
  assert (Gap : top s + 2 * Z.of_nat (length l) <= a_beg (m_arena s1)).
  { rewrite Forall_forall in A5. specialize (A5 (m_exp res) ltac:(cbn [app]; right; exact RI)). cbn beta in A5. rewrite LL.
    generalize dependent (2 ^ m_exp res)%nat. intros; lia. }
  destruct (alloc1_safe 2 2 (Z.of_nat (m_len res)) (mkMem (m_arena s1) m1)) as [(p & s2 & E2)|E2]; rewrite E2; cbn [bind safe_m]; [|exact Logic.I].
  assert (In2 : l <> [] -> a_beg (m_arena s2) <= a_end (m_arena s2)).
  { intros Nl. apply (alloc1_ok 2 2 (Z.of_nat (m_len res)) (mkMem (m_arena s1) m1) p s2 Z.lt_0_2 pow2_two); [|exact E2]. destruct l; [congruence|cbn [length] in LL; lia]. }
  apply two_alloc in E2. destruct E2 as (-> & B1 & B2 & B3). cbn [m_arena m_cont] in B2, B3.
  pose proof (top_ge (mkMem (m_arena s1) m1)) as T1. cbn [m_arena] in T1. set (p := top (mkMem (m_arena s1) m1)) in *.
  set (m2 := wr (m_cont s2) p (concat (map le16 l))).
  destruct (alloc1_safe 2 2 (Z.of_nat (length l)) (mkMem (m_arena s) m2)) as [(q & s3 & E3)|E3]; rewrite E3; cbn [bind safe_m]; [|exact Logic.I].
  assert (Mod : l <> [] -> q mod 2 = 0).
  { intros Nl. apply (alloc1_ok 2 2 (Z.of_nat (length l)) (mkMem (m_arena s) m2) q s3 Z.lt_0_2 pow2_two); [|exact E3]. destruct l; [congruence|cbn [length]; lia]. }
  apply two_alloc in E3. destruct E3 as (-> & D1 & D2 & D3). change (top (mkMem (m_arena s) m2)) with (top s) in *. cbn [m_arena m_cont] in D2, D3.
  unfold memcpy. replace (top s + 2 * Z.of_nat (length l) <=? p) with true by (symmetry; apply Z.leb_le; lia). cbn [orb bind safe_m].
  split; [reflexivity|]. split; [reflexivity|]. replace (Z.to_nat (2 * Z.of_nat (length l))) with (2 * length l)%nat by lia.
  constructor; cbn [m_arena m_cont].
  - lia.
  - lia.
  - exact D2.
  - intros a Ha. destruct l as [|x l].
    + rewrite wr_out by (rewrite rd_length; cbn [length Nat.mul]; lia). rewrite D3. unfold m2. rewrite wr_out by (cbn [map concat length]; lia). rewrite B3. apply M1, Ha.
    + specialize (In2 ltac:(discriminate)). rewrite wr_out by (rewrite rd_length; lia). rewrite D3. unfold m2.
      rewrite wr_out by (rewrite le16_len; lia). rewrite B3. apply M1, Ha.
  - intros Nl. split; [exact (Mod Nl)|]. split; [lia|]. split; [lia|].
    rewrite rd_wr' by apply rd_length. rewrite D3. unfold m2. apply rd_wr', le16_len.
Qed.

(** ** What the arrays of the document know *)
Lemma keep_mem lo s s' ds cs : ok_mem lo s ds cs -> a_beg (m_arena s) <= a_beg (m_arena s') ->
  (forall a, a < a_beg (m_arena s) -> m_cont s' a = m_cont s a) -> ok_mem lo s' ds cs.
Proof.
  intros [[A B C D] E] L M. split; [|exact E]. constructor; auto; [|lia].
  intros i d c Hd Hc. specialize (B i d c Hd Hc). apply (arr_keep lo s s'); auto. intros b Hb a Ha.
  pose proof (ao_buf _ _ _ _ B) as Q. rewrite Hb in Q. apply M. lia.
Qed.
Definition result_cell (l : list nat) : list aarr := match l with [] => [] | _ => [(2%nat, map le16 l)] end.
Lemma asked_mem lo s s' q l ds cs : ok_mem lo s ds cs -> asked s s' q l ->
  ok_mem lo s' (ds ++ result_obj q (length l)) (cs ++ result_cell l).
Proof.
  intros O [A1 A2 A3 A4 A5]. destruct l as [|x l].
  - cbn [length result_obj result_cell]. rewrite !app_nil_r. eapply keep_mem; eauto.
  - destruct (A5 ltac:(discriminate)) as (Q1 & Q2 & Q3 & Q4). pose proof O as [O1 O2]. pose proof (oa_lo _ _ _ _ O1) as Lo. cbn [result_cell].
    set (xs := x :: l) in *. change (result_obj q (length xs)) with [mkArr 2 2 (Some q) (length xs) (length xs)].
    split; [|rewrite !map_app, O2; reflexivity]. rewrite map_app. cbn [map snd].
    apply (add_all lo s); auto.
    + constructor; cbn [d_size d_align d_buf d_len d_cap]; [lia|exact pow2_two|now rewrite map_length|apply le16s|].
      split; [lia|]. split; [unfold xs; cbn; lia|]. split; [exact Q1|]. split; [lia|]. split; [lia|exact Q4].
    + unfold block. cbn [d_buf d_size d_cap]. intros y Hy. injection Hy as <-. cbn [fst]. exact Q2.
Qed.
Lemma result_texts l : texts_in (result_cell l) = [].
Proof. destruct l; reflexivity. Qed.

(** ** An object whose contents do not change stays where it is *)
Lemma step_obj cs o cs' ds s ds' s' i sz xs zs : aop cs o cs' -> mrun o ds s = Ok (ds', s') -> nth_error cs i = Some (sz, xs) ->
  nth_error cs' i = Some (sz, zs) -> length zs = length xs -> sz <> 1%nat -> length ds = length cs -> nth_error ds' i = nth_error ds i.
Proof.
  intros A R N N' Lz Sz L. assert (Li : (i < length cs)%nat) by (apply nth_error_Some; rewrite N; discriminate).
  assert (End : forall x, nth_error (ds ++ [x]) i = nth_error ds i) by (intros; apply nth_error_app1; lia).
  destruct A as [cs sz0 al Hs Ha|cs j sz0 ys x H Hx|cs j k sz0 ys x H Hk Hx|cs j sz0 ys H Hn|cs j ys data H|cs sz0 al data Hs Ha Hn Hf]; cbn [mrun] in R.
  - injection R as <- <-. apply End.
  - destruct (Nat.eq_dec j i) as [->|Ne].
    + exfalso. rewrite upd_nth_eq in N' by exact Li. pose proof (eq_trans (eq_sym N) H) as Q. injection Q as -> ->. injection N' as N'.
      apply (f_equal (@length bytes)) in N'. rewrite app_length in N'. cbn in N'. lia.
    + destruct (nth_error ds j) as [d|]; [|discriminate]. destruct (push d x s) as [[d' s1]| | |]; try discriminate. cbn [bind] in R.
      injection R as <- <-. now apply upd_nth_neq.
  - destruct (nth_error ds j) as [d|]; [|discriminate]. destruct (put d k x s) as [s1| | |]; try discriminate. cbn [bind] in R. now injection R as <- <-.
  - destruct (nth_error ds j) as [d|]; [|discriminate]. destruct (copy_array d s) as [[d' s1]| | |]; try discriminate. cbn [bind] in R. injection R as <- <-. apply End.
  - destruct (Nat.eq_dec j i) as [->|Ne]; [pose proof (eq_trans (eq_sym N) H) as Q; injection Q as -> _; congruence|].
    destruct (nth_error ds j) as [d|]; [|discriminate]. destruct (add_raw d data s) as [[d' s1]| | |]; try discriminate. cbn [bind] in R.
    injection R as <- <-. now apply upd_nth_neq.
  - destruct (alloc1 _ _ _ s) as [[p s1]| | |]; try discriminate. cbn [bind] in R. injection R as <- <-. apply End.
Qed.
Lemma ok_len lo s ds cs : ok_mem lo s ds cs -> length ds = length cs.
Proof. intros [[A _ _ _] _]. now rewrite map_length in A. Qed.
Lemma runs_obj lo p : forall cs cs' ds s ds' s' i sz xs zs, aops cs p cs' -> mruns p ds s = Ok (ds', s') -> ok_mem lo s ds cs -> a_beg (m_arena s) <= a_end (m_arena s) ->
  nth_error cs i = Some (sz, xs) -> nth_error cs' i = Some (sz, zs) -> length zs = length xs -> sz <> 1%nat -> nth_error ds' i = nth_error ds i.
Proof.
  induction p as [|o p IH]; intros cs cs' ds s ds' s' i sz xs zs A R O I N N' Lz Sz; inversion A as [|? ? cs1 ? ? H1 H2]; subst; cbn [mruns] in R.
  - now injection R as <- <-.
  - pose proof (mrun_safe lo s ds cs o cs1 O H1 I) as W. destruct (mrun o ds s) as [[ds1 s1]| | |] eqn:E; try discriminate. cbn [bind safe_m] in R, W. destruct W as [O1 F1].
    destruct (aop_mono cs o cs1 i sz xs H1 N) as (ys & Ny & Ly). destruct (aops_mono cs1 p cs' i sz ys H2 Ny) as (zs' & Nz & Lz').
    pose proof (eq_trans (eq_sym N') Nz) as Q. injection Q as <-.
    rewrite (IH cs1 cs' ds1 s1 ds' s' i sz ys zs H2 R O1 (fr_in _ _ _ F1) Ny N' ltac:(lia) Sz).
    exact (step_obj cs o cs1 ds s ds1 s1 i sz xs ys H1 E N Ny ltac:(lia) Sz (ok_len _ _ _ _ O)).
Qed.

(** ** Calls *)
Definition stays (arrs arrs' : list darr) (ex ex' : list aarr) : Prop :=
  forall i o xs, nth_error arrs (11 + i) = Some o -> nth_error ex i = Some (2%nat, xs) ->
    nth_error arrs' (11 + i) = Some o /\ nth_error ex' i = Some (2%nat, xs).
Lemma stays_trans a b c x y z : stays a b x y -> stays b c y z -> stays a c x z.
Proof. intros H K i o xs A B. destruct (H i o xs A B) as [C D]. exact (K i o xs C D). Qed.
Lemma cells_ex d ex i : nth_error (dcells d ex) (11 + i) = nth_error ex i.
Proof. reflexivity. Qed.
Definition kept (s : mem) (r : qstatus * Z * nat) (a : qstatus * list nat) : Prop :=
  let '(st, q, n) := r in st = fst a /\ n = length (snd a) /\ rd (m_cont s) q (2 * n) = concat (map le16 (snd a)).

(** The query of an edit at the node found: everything it takes is given back. *)
Lemma select_safe lo sets css d r s : target lo css d = Ok r -> a_beg (m_arena s) <= a_end (m_arena s) ->
  safe_m (fun '(r', s') => r' = r /\ m_arena s' = m_arena s /\
    forall a, a < a_beg (m_arena s) \/ a_end (m_arena s) <= a -> m_cont s' a = m_cont s a) (select_in lo sets css d s).
Proof.
  intros H I. unfold select_in. destruct (alloc1_safe 16 8 1 s) as [(p & s0 & E)|E]; rewrite E; cbn [bind safe_m]; [|exact Logic.I].
  destruct (alloc1_ok 16 8 1 s p s0 ltac:(lia) pow8 ltac:(lia) E) as (A1 & _ & A3 & A4 & A5 & A6).
  set (m0 := fun a : Z => if _ && _ then sets a else m_cont s0 a).
  assert (M0 : forall a, a < a_beg (m_arena s) \/ a_end (m_arena s) <= a -> m0 a = m_cont s a).
  { intros a Ha. unfold m0. rewrite A6. destruct (Z.leb_spec (a_beg (m_arena s)) a), (Z.ltb_spec a (a_beg (m_arena s0))); cbn; auto. lia. }
  assert (Q : exists st l, query_selector_all lo css d = Ok (st, l)).
  { unfold target, query_selector in H. destruct (query_selector_all lo css d) as [[st l]| | |]; try discriminate. eauto. }
  destruct Q as (st & l & Q). pose proof (query_safe lo sets css d st l (mkMem (m_arena s0) m0) Q A4) as W.
  destruct (query_in lo sets css d (mkMem (m_arena s0) m0)) as [[[[st' q] n] s1]| | |]; cbn [safe_m bind] in W |- *; try exact W.
  destruct W as (_ & _ & [_ _ _ As _]). rewrite H. cbn [bind safe_m m_arena m_cont] in *. split; [reflexivity|]. split; [reflexivity|].
  intros a Ha. rewrite As by lia. apply M0, Ha.
Qed.

Definition safe_calls (lo : Z) (d' : dom) (ans : list (qstatus * list nat)) (s : mem) (arrs : list darr) (ex : list aarr)
  (o : outcome (dom * list darr * list (qstatus * Z * nat) * mem)) : Prop :=
  safe_m (fun '(d1, arrs', res, s') => d1 = d' /\ frame lo s s' /\ Forall2 (kept s') res ans /\
     exists ex', ok_mem lo s' arrs' (dcells d' ex') /\ texts_ok d' ex' /\ stays arrs arrs' ex ex') o.

Lemma calls_safe lo cs : forall d d' ans s arrs ex, ok_mem lo s arrs (dcells d ex) -> a_beg (m_arena s) <= a_end (m_arena s) -> texts_ok d ex ->
  runs (edits_of cs d) d = Ok d' -> answers cs d = Ok ans -> safe_calls lo d' ans s arrs ex (calls_in cs d arrs s).
Proof.
  induction cs as [|c cs IH]; intros d d' ans s arrs ex O I Tx R An.
  { cbn [edits_of runs answers calls_in] in *.
    injection R as <-. injection An as <-. cbn [safe_calls safe_m]. split; [reflexivity|]. split; [constructor; auto; lia|]. split; [constructor|].
    exists ex. split; [exact O|]. split; [exact Tx|]. intros i o xs A B. auto. }
  assert (Ed : forall bl o d1 s, ok_mem lo s arrs (dcells d ex) -> a_beg (m_arena s) <= a_end (m_arena s) -> run bl o d = Ok d1 ->
     runs (edits_of cs d1) d1 = Ok d' -> answers cs d1 = Ok ans ->
     safe_calls lo d' ans s arrs ex (let* '(d, arrs, s) := edit_in bl o d arrs s in calls_in cs d arrs s)).
  { clear s O I R An. intros bl o d1 s O I E1 R An.
    destruct (edit_step lo s arrs d ex bl o d1 O E1) as (l & more & p & M & -> & _).
    pose proof (mruns_safe lo p s arrs _ _ O (xm_ops _ _ _ _ _ _ M) I) as W.
    destruct (mruns p arrs s) as [[arrs1 s1]| | |] eqn:Em; cbn [safe_m bind] in W |- *; try exact W. destruct W as [O1 F1].
    specialize (IH d1 d' ans s1 arrs1 (ex ++ more) O1 (fr_in _ _ _ F1) (texts_ok_step _ _ _ _ _ _ Tx M) R An). unfold safe_calls in IH |- *.
    destruct (calls_in cs d1 arrs1 s1) as [[[[d2 arrs2] res] s2]| | |]; cbn [safe_m] in IH |- *; try exact IH.
    destruct IH as (-> & F2 & K & ex' & O' & Tx' & St). split; [reflexivity|]. split; [|split; [exact K|]].
    + destruct F1 as [A1 A2 A3 A4], F2 as [B1 B2 B3 B4]. constructor; [lia|lia|lia|]. intros a Ha. rewrite B4, A4; auto. rewrite A2. exact Ha.
    + exists ex'. split; [exact O'|]. split; [exact Tx'|]. eapply stays_trans; [|exact St]. intros i ob xs A B.
      assert (B' : nth_error (ex ++ more) i = Some (2%nat, xs)) by (rewrite nth_error_app1; [exact B|apply nth_error_Some; unfold aarr in *; congruence]).
      split; [|exact B'].
      rewrite (runs_obj lo p _ _ arrs s arrs1 s1 (11 + i) 2 xs xs (xm_ops _ _ _ _ _ _ M) Em O I); auto; rewrite cells_ex; assumption. }
  destruct c as [bl o|lo0 sets css|lo0 sets css bl o]; cbn [edits_of runs answers calls_in] in *.
  - cbn [runs] in R. destruct (run bl o d) as [d1| | |] eqn:E1; try discriminate. cbn [bind] in R, An.
    apply (Ed bl o d1 s); auto.
  - clear Ed. destruct (query_selector_all lo0 css d) as [[st l]| | |] eqn:Eq; try discriminate. cbn [bind] in An.
    destruct (answers cs d) as [ans1| | |] eqn:Ea; try discriminate. cbn [bind] in An. injection An as <-.
    pose proof (query_safe lo0 sets css d st l s Eq I) as W. unfold safe_calls in IH |- *.
    destruct (query_in lo0 sets css d s) as [[[[st' q] n] s1]| | |]; cbn [safe_m bind] in W |- *; try exact W. destruct W as (-> & -> & As).
    pose proof (asked_mem lo s s1 q l _ _ O As) as O1. change (dcells d ex ++ result_cell l) with (dcells d (ex ++ result_cell l)) in O1.
    assert (Tx1 : texts_ok d (ex ++ result_cell l)) by (intros x Hx; rewrite texts_in_app, result_texts, app_nil_r; now apply Tx).
    pose proof (IH d d' ans1 s1 _ _ O1 (as_in _ _ _ _ As) Tx1 R Ea) as V.
    destruct (calls_in cs d (arrs ++ result_obj q (length l)) s1) as [[[[d2 arrs2] res] s2]| | |]; cbn [safe_m bind] in V |- *; try exact V.
    destruct V as (-> & F2 & K & ex' & O' & Tx' & St). split; [reflexivity|]. split; [|split].
    + destruct As as [A1 A2 A3 A4 _], F2 as [B1 B2 B3 B4]. pose proof (oa_lo _ _ _ _ (proj1 O)) as Lo. constructor; [lia|lia|lia|].
      intros a Ha. rewrite B4 by (rewrite A3; exact Ha). apply A4. lia.
    + constructor; [|exact K]. split; [reflexivity|]. split; [reflexivity|]. cbn [snd]. destruct l as [|x l]; [reflexivity|].
      pose proof (ok_len _ _ _ _ O) as Ln. rewrite dcells_len in Ln.
      destruct (St (length ex) (mkArr 2 2 (Some q) (length (x :: l)) (length (x :: l))) (map le16 (x :: l))) as [S1 S2].
      * rewrite nth_error_app2 by lia. rewrite Ln, Nat.sub_diag. reflexivity.
      * rewrite nth_error_app2 by lia. rewrite Nat.sub_diag. reflexivity.
      * rewrite <- (cells_ex d') in S2. destruct (ok_nth _ _ _ _ _ _ _ O' S2) as (ob & No & _ & Ao).
        assert (ob = mkArr 2 2 (Some q) (length (x :: l)) (length (x :: l))) by congruence. subst ob.
        pose proof (ao_buf _ _ _ _ Ao) as Q. cbn [d_buf d_size d_len d_cap] in Q. apply Q.
    + exists ex'. split; [exact O'|]. split; [exact Tx'|]. intros i ob xs A B. apply St.
      * rewrite nth_error_app1; [exact A|apply nth_error_Some; congruence].
      * rewrite nth_error_app1; [exact B|apply nth_error_Some; unfold aarr in *; congruence].
  - destruct (query_selector lo0 css d) as [[st r]| | |] eqn:Eq; try discriminate. cbn [bind] in An.
    pose proof (select_safe lo0 sets css d (match st with QSuccess => Some (match r with Some n => n | None => 0%nat end) | _ => None end) s) as W.
    unfold target in W. rewrite Eq in W. specialize (W eq_refl I). unfold safe_calls in IH, Ed |- *.
    destruct (select_in lo0 sets css d s) as [[r' s1]| | |]; cbn [safe_m bind] in W |- *; try exact W. destruct W as (-> & Ar & Out).
    pose proof (oa_lo _ _ _ _ (proj1 O)) as Lo.
    assert (O1 : ok_mem lo s1 arrs (dcells d ex)) by (apply (keep_mem lo s); [exact O|rewrite Ar; lia|intros; apply Out; lia]).
    assert (Fin : forall x, safe_calls lo d' ans s1 arrs ex x -> safe_calls lo d' ans s arrs ex x).
    { clear - Ar Out Lo. intros [[[[d2 arrs2] res] s2]| | |] X; try exact X. cbn [safe_calls safe_m] in X |- *.
      destruct X as (-> & [B1 B2 B3 B4] & Y). rewrite Ar in *. split; [reflexivity|]. split; [|exact Y]. constructor; [lia|lia|lia|].
      intros a Ha. rewrite B4 by (rewrite ?Ar; exact Ha). apply Out. lia. }
    apply Fin. clear Fin.
    assert (Bad : st <> QSuccess -> safe_calls lo d' ans s1 arrs ex (calls_in cs d arrs s1)).
    { intros N. apply (IH d d' ans s1 arrs ex O1); auto; [rewrite Ar; lia|destruct st; try congruence; exact R|destruct st; try congruence; exact An]. }
    destruct st; try (apply Bad; discriminate). set (n := match r with Some n => n | None => 0%nat end) in *. cbn [runs] in R.
    destruct (run bl (o n) d) as [d1| | |] eqn:E1; try discriminate. cbn [bind] in R, An.
    apply (Ed bl (o n) d1 s1 O1); auto. rewrite Ar; lia.
Qed.

Lemma nth_le16 l : forall k x, nth_error l k = Some x ->
  nth_error (concat (map le16 l)) (2 * k) = Some (N.of_nat x mod 256)%N /\ nth_error (concat (map le16 l)) (2 * k + 1) = Some (N.of_nat x / 256 mod 256)%N.
Proof.
  induction l as [|y l IH]; intros [|k] x H; cbn [nth_error] in H; try discriminate.
  - injection H as ->. split; reflexivity.
  - replace (2 * S k)%nat with (S (S (2 * k))) by lia. replace (S (S (2 * k)) + 1)%nat with (S (S (2 * k + 1))) by lia. exact (IH k x H).
Qed.
Lemma nth_rd m q n k : (k < n)%nat -> nth_error (rd m q n) k = Some (m (q + Z.of_nat k)).
Proof.
  intros H. unfold rd. erewrite map_nth_error; [reflexivity|]. rewrite (nth_error_nth' _ 0%nat) by (now rewrite seq_length). now rewrite seq_nth.
Qed.
Lemma kept_answer s r a : kept s r a -> answer_kept s r a.
Proof.
  destruct r as [[st q] n]. intros (H1 & H2 & H3). split; [exact H1|]. split; [exact H2|]. intros k x Hk.
  assert (Lk : (k < length (snd a))%nat) by (apply nth_error_Some; congruence).
  destruct (nth_le16 _ k x Hk) as [K1 K2]. rewrite <- H3 in K1, K2. rewrite nth_rd in K1, K2 by lia. injection K1 as K1. injection K2 as K2.
  split; [rewrite <- K1; f_equal; lia|rewrite <- K2; f_equal; lia].
Qed.

Lemma talk_safe s t cs d0 d ans : a_beg (m_arena s) <= a_end (m_arena s) -> create_dom t = Ok (Some d0) -> all_valid (edits_of cs d0) d0 ->
  runs (edits_of cs d0) d0 = Ok d -> answers cs d0 = Ok ans ->
  safe_m (fun r => exists arrs res s', r = Some (d, arrs, res, s') /\ frame (a_beg (m_arena s)) s s' /\ holds s' arrs d /\
     Forall2 (answer_kept s') res ans) (talk_in s t cs).
Proof.
  intros I E V R An. unfold talk_in. pose proof (session_start s t _ I E) as W.
  destruct (create_dom_in s t) as [[[r arrs] s1]| | |]; cbn [safe_m bind] in W |- *; try exact W. destruct W as (-> & F1 & W).
  destruct (W d0 eq_refl) as (ex & O & Tx).
  pose proof (calls_safe _ cs d0 d ans s1 arrs ex O (fr_in _ _ _ F1) Tx R An) as X.
  destruct (calls_in cs d0 arrs s1) as [[[[d1 arrs2] res] s2]| | |]; cbn [safe_m bind] in X |- *; try exact X.
  destruct X as (-> & F2 & K & ex' & O' & Tx' & _). exists arrs2, res, s2. split; [reflexivity|]. split; [|split].
  - destruct F1 as [A1 A2 A3 A4], F2 as [B1 B2 B3 B4]. constructor; [lia|lia|lia|]. intros a Ha. rewrite B4, A4; auto. rewrite A2. exact Ha.
  - apply (shows_holds s2 arrs2 d ex'); [|exact (ok_shows _ _ _ _ O')|exact Tx'].
    apply reachable_fits. eapply runs_reachable; [eapply reach_create; exact E|exact V|exact R].
  - clear - K. induction K; constructor; [now apply kept_answer|assumption].
Qed.
