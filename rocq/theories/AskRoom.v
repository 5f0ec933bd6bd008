(** * Edits and queries: how much room is enough. *)
From Coq Require Import List NArith ZArith Arith Bool Lia.
From Verif Require Import Base TrieModel DomModel MsiModel QueryModel ParserModel EditModel ApiSpec SizeSpec ArenaSpec MemModel MemSpec Lemmas MemProofs MemCost
  RegProofs Inv ParseTree ApiProofs Size SizeEdit TraceModel TraceProofs TraceMem TraceUser TraceEditModel TraceEditProofs TraceEditMem TraceEditOps TraceEditText
  TraceEditUser DupMem DupProofs DupRoom QueryMemModel AskSpec ReadUser QueryTotal QueryRel QueryMemProofs QueryMemSafe QueryRoom.
Import ListNotations.
Local Open Scope Z_scope.

Lemma alloc2_fits n s : 0 <= n -> top s + 2 * n <= a_end (m_arena s) -> exists p s', alloc1 2 2 n s = Ok (p, s').
Proof.
  intros N H. unfold top in H. unfold alloc1, alloc. set (pad := padding _ _) in *.
  destruct (Z.ltb_spec (Z.quot (a_end (m_arena s) - a_beg (m_arena s) - pad) 2) n) as [X|X]; cbn [bind]; [|eauto].
  exfalso. pose proof (Z.quot_le_lower_bound (a_end (m_arena s) - a_beg (m_arena s) - pad) 2 n ltac:(lia) ltac:(lia)). lia.
Qed.
Lemma top_next s s' n : a_beg (m_arena s') = top s + 2 * n -> top s' = top s + 2 * n.
Proof.
  intros H. unfold top at 1. rewrite H. pose proof (pad_aligned (a_beg (m_arena s)) 2 pow2_two) as A. fold (top s) in A.
  pose proof (pad_aligned (top s + 2 * n) 2 pow2_two) as B. pose proof (pad_bounds (top s + 2 * n) 2 pow2_two) as C.
  set (pad := padding (top s + 2 * n) 2) in *.
  assert (pad = 0); [|lia]. assert (P : pad mod 2 = 0).
  { replace pad with ((top s + 2 * n + pad) - (top s + 2 * n)) by lia. rewrite Zminus_mod, B.
    rewrite (Z.mul_comm 2 n), Z_mod_plus_full, A. reflexivity. }
  rewrite Z.mod_small in P by lia. exact P.
Qed.
Lemma new_sets_fits l : forall s, Forall (fun e => (e < 31)%nat) l -> top s + 2 * Z.of_nat (tot l) <= a_end (m_arena s) ->
  exists s1, new_sets l s = Ok s1 /\ top s1 = top s + 2 * Z.of_nat (tot l) /\ a_end (m_arena s1) = a_end (m_arena s).
Proof.
  induction l as [|e l IH]; intros s F H; cbn [new_sets tot] in *.
  - exists s. split; [reflexivity|]. split; [lia|reflexivity].
  - inversion F as [|? ? F1 F2]; subst. destruct (Nat.leb_spec 31 e) as [X|_]; [lia|].
    set (k := (2 ^ e)%nat) in *. clearbody k.
    destruct (alloc2_fits (Z.of_nat k) s) as (p & s0 & E); [lia|lia|]. rewrite E. cbn [bind].
    apply two_alloc in E. destruct E as (_ & B1 & B2 & _). pose proof (top_next s s0 _ B1) as T.
    destruct (IH s0 F2) as (s1 & -> & T1 & E1); [lia|]. exists s1. split; [reflexivity|]. split; [lia|congruence].
Qed.

Lemma small_exp d e : (N.of_nat (length (nodes d)) <= 65535)%N -> (2 ^ e <= cap d)%nat -> (e < 31)%nat.
Proof.
  intros L H. unfold cap in H. destruct (Nat.lt_ge_cases e 31) as [X|X]; [exact X|exfalso].
  pose proof (Nat.pow_le_mono_r 2 31 e ltac:(lia) X) as P. apply Nat2Z.inj_le in P. apply Nat2Z.inj_le in H.
  rewrite Nat2Z.inj_pow in P. change (Z.of_nat 2 ^ Z.of_nat 31) with 2147483648 in P. lia.
Qed.

Lemma tot_in e l : In e l -> (2 ^ e <= tot l)%nat.
Proof. induction l as [|x l IH]; intros []; cbn [tot]; [subst; lia|]. specialize (IH H). lia. Qed.

(** ** One query *)
Lemma query_fits lo sets css d s : reachable d -> a_beg (m_arena s) + Z.of_nat (query_bytes (length (nodes d)) (length css)) <= a_end (m_arena s) ->
  exists st q n s', query_in lo sets css d s = Ok (st, q, n, s') /\ a_beg (m_arena s') <= a_beg (m_arena s) + 1 + 2 * Z.of_nat n /\
    a_beg (m_arena s) <= a_beg (m_arena s').
Proof.
  intros R Rm. destruct (uq_total d R lo css) as (st & l & Eq & _).
  destruct (reachable_good d R) as [k G]. pose proof (proj1 (u_limits d R)) as LN.
  pose proof (sp_parts lo d k G LN css (S (length css)) 0 (u_new start_exp) (u_new start_exp) (tidy_start d LN) (ex_intro _ 0%nat (tidy_start d LN))) as Sp.
  unfold query_selector_all in Eq. unfold query_in.
  pose proof (v_parts lo css d (S (length css)) 0 (u_new start_exp) (u_new start_exp)) as V.
  destruct (parts_loop (S (length css)) lo css d 0 (u_new start_exp) (u_new start_exp)) as [[st0 res]| | |] eqn:E; try discriminate. cbn [bind] in Eq.
  pose proof (parts_grown lo css d _ _ _ _ _ _ E) as Gr. specialize (Sp _ V). destruct (m_parts_loop (S (length css)) lo css d 0 (u_new start_exp) (u_new start_exp)) as [evs r]. cbn [snd fst] in *. subst r.
  destruct Sp as (F & Ne & P). pose proof (neat_phi d LN res Ne) as C. pose proof (neat_len d k G LN res Ne) as Ln.
  unfold phi at 1 in P. change (m_exp (u_new start_exp)) with start_exp in P. change (2 ^ start_exp)%nat with 128%nat in P. rewrite Nat.sub_0_r in P.
  assert (T : (tot ([start_exp; start_exp] ++ evs) <= 2 * cap d + 6 * cap d * length css)%nat).
  { cbn [app tot]. change (2 ^ start_exp)%nat with 128%nat. lia. }
  assert (Q : Z.of_nat (query_bytes (length (nodes d)) (length css)) = 2 * Z.of_nat (2 * cap d + 6 * cap d * length css) + 2 * Z.of_nat (length (nodes d)) + 1).
  { unfold query_bytes, cap. lia. }
  pose proof (pad_bounds (a_beg (m_arena s)) 2 pow2_two) as Pb. assert (Tp : top s <= a_beg (m_arena s) + 1) by (unfold top; lia).
  destruct (new_sets_fits ([start_exp; start_exp] ++ evs) s) as (s1 & -> & T1 & E1).
  { apply Forall_app. split; [repeat constructor; unfold start_exp; lia|]. eapply Forall_impl; [|exact F]. intros e He. exact (small_exp d e LN He). }
  { lia. }
  cbn [bind].
  set (m1 := fun a : Z => if _ && _ then sets a else m_cont s1 a).
  destruct st0; try (do 4 eexists; split; [reflexivity|]; cbn [m_arena]; lia).
  destruct (u_to_array res) as [l0| | |] eqn:El; try discriminate. cbn [bind] in Eq. injection Eq as <- ->.
  assert (LL : length l = m_len res).
  { unfold u_to_array in El. destruct (Nat.leb_spec (length (u_elems res)) (m_len res)); [|discriminate]. injection El as <-. rewrite app_length, repeat_length. lia. }
  destruct (alloc2_fits (Z.of_nat (m_len res)) (mkMem (m_arena s1) m1)) as (p & s2 & E2); [lia| |].
  { change (top (mkMem (m_arena s1) m1)) with (top s1). cbn [m_arena]. lia. }
  rewrite E2. cbn [bind].
  set (m2 := wr (m_cont s2) p (concat (map le16 l))).
  destruct (alloc2_fits (Z.of_nat (length l)) (mkMem (m_arena s) m2)) as (q & s3 & E3); [lia| |].
  { change (top (mkMem (m_arena s) m2)) with (top s). cbn [m_arena]. lia. }
  rewrite E3. cbn [bind]. apply two_alloc in E2. destruct E2 as (-> & _). apply two_alloc in E3. destruct E3 as (-> & D1 & D2 & D3).
  change (top (mkMem (m_arena s) m2)) with (top s) in *. change (top (mkMem (m_arena s1) m1)) with (top s1) in *.
  unfold memcpy. replace (top s + 2 * Z.of_nat (length l) <=? top s1) with true.
  2:{ symmetry. apply Z.leb_le. rewrite T1.
      assert (m_len res <= tot ([start_exp; start_exp] ++ evs))%nat; [|lia].
      destruct Gr as [[_ RL] RI]; [split; [apply repeat_length|cbn; lia]|].
      change (m_exp (u_new start_exp)) with start_exp in RI. pose proof (tot_in (m_exp res) ([start_exp; start_exp] ++ evs) ltac:(cbn [app]; right; exact RI)). lia. }
  cbn [orb bind]. do 4 eexists. split; [reflexivity|]. cbn [m_arena]. pose proof (top_ge s). lia.
Qed.

(** ** Calls *)
Lemma ok_drop lo s a b c e : ok_mem lo s (a ++ b) (c ++ e) -> length a = length c -> ok_mem lo s b e.
Proof.
  intros [[A B C D] F] L. assert (L2 : length b = length e) by (rewrite !app_length, map_length, app_length in A; lia).
  rewrite !map_app in F. apply app_inj_len in F; [|now rewrite !map_length]. destruct F as [_ F]. split; [|exact F].
  rewrite map_app in *. constructor; [rewrite map_length; exact L2| | |exact D].
  - intros i d x Hd Hx. apply (B (length a + i)%nat); [now rewrite nth_plus|]. replace (length a) with (length (map snd c)) by (rewrite map_length; now symmetry). rewrite nth_plus. exact Hx.
  - intros i j d f x y Ne Hi Hj. apply (C (length a + i)%nat (length a + j)%nat); [lia|now rewrite nth_plus|now rewrite nth_plus].
Qed.
(** A byte that is skipped for alignment, as an object of the arena. *)
Definition pad_arr (p : Z) : darr := mkArr 1 1 (Some p) 1 1.
Lemma pad_mem lo s s' ds cs : ok_mem lo s ds cs -> a_beg (m_arena s') = a_beg (m_arena s) + 1 ->
  (forall a, a < a_beg (m_arena s) -> m_cont s' a = m_cont s a) ->
  ok_mem lo s' (ds ++ [pad_arr (a_beg (m_arena s))]) (cs ++ [(1%nat, [[m_cont s' (a_beg (m_arena s))]])]).
Proof.
  intros O L M. pose proof O as [O1 O2]. pose proof (oa_lo _ _ _ _ O1) as Lo.
  split; [|rewrite !map_app, O2; reflexivity]. rewrite map_app. cbn [map snd]. apply (add_all lo s); auto; [|lia|].
  - constructor; cbn [pad_arr d_size d_align d_buf d_len d_cap]; [lia|apply pow2_one|reflexivity|repeat constructor|].
    split; [lia|]. split; [lia|]. split; [apply Z.mod_1_r|]. split; [lia|]. split; [lia|].
    cbn. rewrite Z.add_0_r. reflexivity.
  - intros x Hx. cbn in Hx. injection Hx as <-. cbn [fst]. lia.
Qed.

Lemma select_fits lo sets css d r s : reachable d -> target lo css d = Ok r ->
  a_beg (m_arena s) + 23 + Z.of_nat (query_bytes (length (nodes d)) (length css)) <= a_end (m_arena s) ->
  exists s', select_in lo sets css d s = Ok (r, s').
Proof.
  intros R T Rm. unfold select_in. destruct (alloc1_fits 16 8 1 s 8 ltac:(lia) pow8 ltac:(lia) ltac:(lia)) as (p & s0 & -> & B & Ee); [lia|]. cbn [bind].
  set (m0 := fun a : Z => if _ && _ then sets a else m_cont s0 a).
  destruct (query_fits lo sets css d (mkMem (m_arena s0) m0) R) as (st & q & n & s1 & -> & _); [cbn [m_arena]; lia|]. cbn [bind]. rewrite T. cbn [bind]. eauto.
Qed.

Lemma calls_fits lo cs : forall d d' ans s a1 c1 arrs ex, length a1 = length c1 -> ok_mem lo s (a1 ++ arrs) (c1 ++ dcells d ex) -> thrifty lo s (a1 ++ arrs) ->
  reachable d -> all_valid (edits_of cs d) d -> runs (edits_of cs d) d = Ok d' -> answers cs d = Ok ans ->
  lo + demand 8 c1 + cost ex d d' (edits_of cs d) + 22 * Z.of_nat (ids_in ans) + 18 * Z.of_nat (length ans) + Z.of_nat (ask_room cs d) <= a_end (m_arena s) ->
  exists x, calls_in cs d arrs s = Ok x.
Proof.
  induction cs as [|c cs IH]; intros d d' ans s a1 c1 arrs ex L1 O Th Rc V R An Rm.
  { cbn [calls_in]. eauto. }
  assert (Ed : forall bl o d1 s, ok_mem lo s (a1 ++ arrs) (c1 ++ dcells d ex) -> thrifty lo s (a1 ++ arrs) -> valid d bl o -> run bl o d = Ok d1 ->
     all_valid (edits_of cs d1) d1 -> runs (edits_of cs d1) d1 = Ok d' -> answers cs d1 = Ok ans ->
     lo + demand 8 c1 + cost ex d d' ((bl, o) :: edits_of cs d1) + 22 * Z.of_nat (ids_in ans) + 18 * Z.of_nat (length ans) + Z.of_nat (ask_room cs d1) <= a_end (m_arena s) ->
     exists x, (let* '(d, arrs, s) := edit_in bl o d arrs s in calls_in cs d arrs s) = Ok x).
  { clear s O Th V R An Rm. intros bl o d1 s O Th V1 E1 V2 R An Rm.
    destruct (edit_step lo s arrs d ex bl o d1 (ok_drop _ _ _ _ _ _ O L1) E1) as (l & more & p & M & -> & Rg & By).
    pose proof (cost_step l d d1 d' ex more p bl o (edits_of cs d1) M E1 Rg By) as Cs. pose proof (cost_now d1 d' (edits_of cs d1) (ex ++ more) R) as Cn.
    pose proof (aops_shift c1 _ _ _ (xm_ops _ _ _ _ _ _ M)) as A'. rewrite <- L1 in A'. destruct Th as (Ln & W & I).
    destruct (mruns_fits' 8 lo _ ltac:(lia) s _ _ _ O A' (align_shift _ _ (xm_align _ _ _ _ _ _ M)) Ln W I) as (ds' & s' & E & O2 & L2 & W2 & I2 & T2).
    { rewrite demand_app. lia. }
    rewrite mruns_shift in E. destruct (mruns p arrs s) as [[x s1]| | |]; try discriminate. cbn [bind] in E |- *. injection E as <- <-.
    apply (IH d1 d' ans s1 a1 c1 x (ex ++ more)); auto; [split; auto|eapply reach_step; eauto|lia]. }
  destruct c as [bl o|lo0 sets css|lo0 sets css bl o]; cbn [edits_of runs all_valid answers calls_in ask_room] in *.
  - cbn [runs all_valid] in R, V. destruct V as [V1 V2]. destruct (run bl o d) as [d1| | |] eqn:E1; try discriminate. cbn [bind] in R, An.
    apply (Ed bl o d1 s); auto.
  - destruct (query_selector_all lo0 css d) as [[st l]| | |] eqn:Eq; try discriminate. cbn [bind] in An.
    destruct (answers cs d) as [ans1| | |] eqn:Ea; try discriminate. cbn [bind] in An. injection An as <-.
    assert (Ids : ids_in ((st, l) :: ans1) = (length l + ids_in ans1)%nat) by (unfold ids_in; cbn [map snd concat]; apply app_length).
    rewrite Ids in Rm. cbn [length] in Rm. pose proof (cost_now d d' (edits_of cs d) ex R) as Cn.
    destruct Th as (Ln & W & I). pose proof (budget_demand 8 lo s _ _ ltac:(lia) O Ln) as BD. rewrite demand_app in BD. unfold within in W.
    destruct (query_fits lo0 sets css d s Rc) as (st1 & q & n & s1 & E & Bg & Bl); [lia|].
    pose proof (query_safe lo0 sets css d st l s Eq I) as S. rewrite E in S |- *. cbn [safe_m bind] in S |- *. destruct S as (-> & -> & As).
    assert (X : exists a2 c2, length a2 = length c2 /\ ok_mem lo s1 (a2 ++ arrs ++ result_obj q (length l)) (c2 ++ dcells d (ex ++ result_cell l)) /\
       Forall (lean 8) (a2 ++ arrs ++ result_obj q (length l)) /\ a_beg (m_arena s1) <= lo + budget 8 (a2 ++ arrs ++ result_obj q (length l)) /\
       demand 8 c2 <= demand 8 c1 + 18).
    { destruct l as [|y l].
      - cbn [length result_obj result_cell]. rewrite !app_nil_r. cbn [length] in Bg.
        assert (Keep : forall a, a < a_beg (m_arena s) -> m_cont s1 a = m_cont s a) by (intros a Ha; apply (as_out _ _ _ _ As); lia).
        destruct (Z.eq_dec (a_beg (m_arena s1)) (a_beg (m_arena s))) as [Ez|Nz].
        + exists a1, c1. split; [exact L1|]. split; [eapply keep_mem; eauto|]. split; [exact Ln|]. split; [lia|lia].
        + exists (a1 ++ [pad_arr (a_beg (m_arena s))]), (c1 ++ [(1%nat, [[m_cont s1 (a_beg (m_arena s))]])]).
          split; [rewrite !app_length; cbn [length]; lia|]. split; [|split; [|split]].
          * pose proof (pad_mem lo s s1 _ _ (ok_swap _ _ _ _ _ _ O L1) ltac:(lia) Keep) as Q. rewrite <- !app_assoc in Q.
            apply ok_swap in Q; [exact Q|]. pose proof (ok_len _ _ _ _ O) as LL. rewrite !app_length in LL. lia.
          * rewrite <- app_assoc. apply Forall_app in Ln. destruct Ln as [Ln1 Ln2]. apply Forall_app. split; [exact Ln1|]. constructor; [split; cbn; lia|exact Ln2].
          * rewrite !budget_app in *. cbn [budget pad_arr d_size d_cap]. lia.
          * rewrite demand_app. cbn [demand length]. lia.
      - exists a1, c1. split; [exact L1|]. pose proof (asked_mem lo s s1 q (y :: l) _ _ O As) as Q. rewrite <- !app_assoc in Q.
        split; [exact Q|]. rewrite app_assoc. split; [|split; [|lia]].
        + apply Forall_app. split; [exact Ln|]. cbn [length result_obj]. constructor; [split; cbn [d_cap d_len d_align]; lia|constructor].
        + rewrite budget_app. cbn [length result_obj budget d_size d_cap]. cbn [length] in Bg. lia. }
    destruct X as (a2 & c2 & L2 & O2 & Ln2 & W2 & D2).
    assert (Cx : cost (ex ++ result_cell l) d d' (edits_of cs d) = cost ex d d' (edits_of cs d) + 22 * Z.of_nat (length l)).
    { unfold cost. rewrite demand_app. destruct l as [|y l]; cbn [result_cell demand]; [cbn [length]; lia|]. rewrite map_length. lia. }
    destruct (IH d d' ans1 s1 a2 c2 (arrs ++ result_obj q (length l)) (ex ++ result_cell l) L2 O2) as (x & ->); auto.
    + split; [exact Ln2|]. split; [exact W2|]. apply (as_in _ _ _ _ As).
    + rewrite (as_end _ _ _ _ As), Cx. lia.
    + destruct x as [[[d2 arrs2] res] s2]. cbn [bind]. eauto.
  - destruct (query_selector lo0 css d) as [[st r]| | |] eqn:Eq; try discriminate. cbn [bind] in An.
    destruct Th as (Ln & W & I). pose proof (budget_demand 8 lo s _ _ ltac:(lia) O Ln) as BD. rewrite demand_app in BD. unfold within in W.
    set (n := match r with Some n => n | None => 0%nat end) in *.
    assert (Rn : runs (match st with QSuccess => (bl, o n) :: match run bl (o n) d with Ok d1 => edits_of cs d1 | _ => [] end | _ => edits_of cs d end) d = Ok d') by exact R.
    pose proof (cost_now d d' _ ex Rn) as Cn.
    destruct (select_fits lo0 sets css d (match st with QSuccess => Some n | _ => None end) s Rc) as (s1 & E).
    { unfold target. rewrite Eq. reflexivity. }
    { lia. }
    pose proof (select_safe lo0 sets css d (match st with QSuccess => Some n | _ => None end) s) as S. unfold target in S. rewrite Eq in S. specialize (S eq_refl I).
    rewrite E in S |- *. cbn [safe_m bind] in S |- *. destruct S as (_ & Ar & Out).
    assert (O1 : ok_mem lo s1 (a1 ++ arrs) (c1 ++ dcells d ex)) by (apply (keep_mem lo s); [exact O|rewrite Ar; lia|intros; apply Out; lia]).
    assert (Th1 : thrifty lo s1 (a1 ++ arrs)) by (split; [exact Ln|]; unfold within; rewrite Ar; auto).
    assert (Bad : st <> QSuccess -> exists x, calls_in cs d arrs s1 = Ok x).
    { intros N. apply (IH d d' ans s1 a1 c1 arrs ex); auto; try (destruct st; try congruence; assumption).
      rewrite Ar. destruct st; try congruence; lia. }
    destruct st; try (apply Bad; discriminate). clear Bad. cbn [runs all_valid] in R, V. destruct V as [V1 V2].
    destruct (run bl (o n) d) as [d1| | |] eqn:E1; try discriminate. cbn [bind] in R, An.
    apply (Ed bl (o n) d1 s1); auto. rewrite Ar. lia.
Qed.

Lemma talk_fits s t cs d0 d ans : create_dom t = Ok (Some d0) -> all_valid (edits_of cs d0) d0 -> runs (edits_of cs d0) d0 = Ok d -> answers cs d0 = Ok ans ->
  a_beg (m_arena s) + Z.of_nat (talk_bytes t cs d0 d ans) <= a_end (m_arena s) -> exists x, talk_in s t cs = Ok (Some x).
Proof.
  intros E V R An Rm. unfold talk_bytes in Rm. unfold talk_in, create_dom_in. pose proof (s_create_dom t) as S. destruct (t_create_dom t) as [l o] eqn:Et.
  cbn [snd] in S. subst o. rewrite E in Et. destruct (create_mem t l _ Et) as (d1 & b & ex & P & Rr & A & Al & Tx & Dm).
  destruct b; [|discriminate]. injection Rr as <-.
  assert (Tt : (texts d0 <= length t)%nat).
  { pose proof (u_create t d0 E) as G. destruct G as [_ G _ _ _ _ _ _ _]. change (texts empty_dom) with 0%nat in G. lia. }
  pose proof (cost_now d0 d (edits_of cs d0) ex R) as Cn.
  assert (Dm' : demand 8 ex <= 238 * Z.of_nat (regs d0) + 18 * Z.of_nat (texts d0)) by exact Dm.
  assert (Cc : cost ex d0 d (edits_of cs d0) <= Z.of_nat (table_bytes d + 18 * (length t + text_bytes (edits_of cs d0) d0))) by (unfold cost; lia).
  destruct (mruns_fits' 8 (a_beg (m_arena s)) _ ltac:(lia) s [] [] _ (ok_fresh s) A Al) as (arrs & s1 & Em & O & L & W & I1 & T1).
  - constructor.
  - unfold within. cbn. lia.
  - lia.
  - change (cells _ _ _ _ _ _ _ _ _ _ ex) with (dcells d0 ex). lia.
  - rewrite Em. cbn [bind]. rewrite E. cbn [bind].
    destruct (calls_fits (a_beg (m_arena s)) cs d0 d ans s1 [] [] arrs ex eq_refl O (conj L (conj W I1)) (reach_create _ _ E) V R An) as (x & ->); [cbn [demand]; lia|].
    cbn [bind]. eauto.
Qed.
