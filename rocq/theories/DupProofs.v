(** * A document and its duplicate in one arena. *)
From Coq Require Import List NArith ZArith Arith Bool Lia.
From Verif Require Import Base TrieModel DomModel ParserModel EditModel DuplicateModel ApiSpec SizeSpec ArenaSpec SessionSpec MemModel MemSpec Lemmas Surgery MemProofs
  Inv Tables RegProofs ParseTree ApiProofs TraceModel TraceProofs TraceMem TraceUser TraceEditModel TraceEditProofs TraceEditMem TraceEditOps TraceEditText TraceEditUser
  DuplicateProofs DupMemModel DupMem.
Import ListNotations.
Local Open Scope Z_scope.

(** Everything but the end of the arena. *)
Record wframe (lo : Z) (s s' : mem) : Prop := {
  wf_beg : a_beg (m_arena s) <= a_beg (m_arena s');
  wf_end : a_end (m_arena s') = a_end (m_arena s);
  wf_mem : forall a, a < lo \/ a_end (m_arena s) <= a -> m_cont s' a = m_cont s a }.
Lemma wf_trans lo s s1 s2 : wframe lo s s1 -> wframe lo s1 s2 -> wframe lo s s2.
Proof. intros [A B C] [D E F]. constructor; [lia|congruence|]. intros a Ha. rewrite F, C; auto. rewrite B. exact Ha. Qed.
Lemma wf_of lo s s' : frame lo s s' -> wframe lo s s'.
Proof. intros [A B C D]. now constructor. Qed.
Lemma wf_in lo s s' : wframe lo s s' -> a_beg (m_arena s') <= a_end (m_arena s') -> frame lo s s'.
Proof. intros [A B C] H. now constructor. Qed.

(** One array copied. *)
Lemma copy_step lo s ds cs i d sz xs : ok_mem lo s ds cs -> nth_error ds i = Some d -> nth_error cs i = Some (sz, xs) -> sz <> 1%nat ->
  safe_m (fun '(d', s') => exists n', ghost d' n' /\ ok_mem lo s' (ds ++ [n']) (cs ++ [(sz, xs)]) /\ wframe lo s s' /\
    (xs <> [] -> a_beg (m_arena s') <= a_end (m_arena s')) /\ (hollow d' <-> xs = [])) (copy_array d s).
Proof.
  intros O Nd H Sz. pose proof O as [O1 O2]. pose proof (oa_lo _ _ _ _ O1) as Lo.
  destruct (ok_nth _ _ _ _ _ _ _ O H) as (d0 & Nd0 & Sd & Od). assert (d0 = d) by congruence. subst d0.
  unfold copy_array. destruct Od as [A B C D E].
  destruct xs as [|x xs].
  - cbn in C. rewrite C, Nat.mul_0_r. unfold alloc1, alloc.
    destruct (Z.quot _ _ <? _); cbn [bind safe_m]; [exact Logic.I|].
    set (p := a_beg (m_arena s) + padding (a_beg (m_arena s)) (d_align d)).
    pose proof (pad_bounds (a_beg (m_arena s)) (d_align d) B) as Pb.
    assert (G : ghost (mkArr (d_size d) (d_align d) (Some p) 0 0) (mkArr (d_size d) (d_align d) None 0 0)).
    { right. split; [repeat split; discriminate|]. split; [cbn; congruence|reflexivity]. }
    assert (K : safe_m (fun '(d', s') => exists n', ghost d' n' /\ ok_mem lo s' (ds ++ [n']) (cs ++ [(sz, [])]) /\ wframe lo s s' /\
      (@nil bytes <> [] -> a_beg (m_arena s') <= a_end (m_arena s')) /\ (hollow d' <-> @nil bytes = []))
      (Ok (mkArr (d_size d) (d_align d) (Some p) 0 0, mkMem (mkArena (p + Z.of_nat (d_size d) * Z.of_nat 0) (a_end (m_arena s))) (wr (m_cont s) p [])))).
    { cbn [safe_m]. eexists. split; [exact G|]. split; [|split; [|split; [intros X; now destruct X|split; [reflexivity|intros _; repeat split; discriminate]]]].
      - split; [|rewrite !map_app, O2; cbn; rewrite Sd; reflexivity]. rewrite map_app. cbn [map snd].
        apply (add_all lo s); auto; cbn [m_arena m_cont a_beg]; [|lia|discriminate|intros a Ha; apply wr_out; cbn; unfold p; lia].
        constructor; cbn; auto.
      - constructor; cbn [m_arena m_cont a_beg a_end]; [lia|reflexivity|intros a Ha; apply wr_out; cbn; lia]. }
    destruct (d_buf d); exact K.
  - assert (0 < d_len d)%nat by (cbn in C; lia).
    destruct (alloc1_safe (Z.of_nat (d_size d)) (d_align d) (Z.of_nat (d_len d)) s) as [(p & s' & F)|F]; rewrite F; cbn [bind safe_m]; [|exact Logic.I].
    apply alloc1_ok in F; [|lia|exact B|lia]. destruct F as (F1 & F2 & F3 & F4 & F5 & F6).
    destruct (d_buf d) as [b|] eqn:Eb; [|destruct E; lia]. cbn [bind safe_m m_arena].
    destruct E as (E1 & E2 & E3 & E4 & E5 & E6).
    exists (mkArr (d_size d) (d_align d) (Some p) (d_len d) (d_len d)). split; [now left|]. split; [|split; [|split; [intros _; exact F4|]]].
    + split; [|rewrite !map_app, O2; cbn; rewrite Sd; reflexivity].
      rewrite map_app. cbn [map snd]. rewrite F6, E6.
      apply (add_all lo s); auto; cbn [m_arena m_cont]; [| nia| |].
      * constructor; cbn [d_size d_align d_buf d_len d_cap m_arena m_cont]; auto.
        split; [lia|]. split; [lia|]. split; [exact F2|]. split; [lia|]. split; [nia|].
        rewrite C, <- (concat_len _ _ D). apply rd_wr.
      * unfold block; cbn [d_size d_buf d_cap]. intros y Hy. injection Hy as <-. cbn [fst]. lia.
      * intros a Ha. apply wr_out. lia.
    + constructor; cbn [m_arena m_cont]; auto; try nia. rewrite F6. intros a Ha. apply wr_out. rewrite rd_length. nia.
    + split; [intros (_ & X & _); cbn in X; lia|discriminate].
Qed.

Definition src (a1 : list darr) (c1 : list aarr) (d : darr) (c : aarr) : Prop :=
  exists i, nth_error a1 i = Some d /\ nth_error c1 i = Some c /\ fst c <> 1%nat.

Lemma copies_safe lo a1 c1 : length a1 = length c1 -> forall l cl, Forall2 (src a1 c1) l cl -> forall out ns cs s,
  ok_mem lo s (a1 ++ ns) (c1 ++ cs) -> Forall2 ghost out ns -> Forall2 (fun d c => hollow d <-> snd c = []) out cs ->
  safe_m (fun '(out', s') => exists ns', ok_mem lo s' (a1 ++ ns') (c1 ++ cs ++ cl) /\ Forall2 ghost out' ns' /\
     Forall2 (fun d c => hollow d <-> snd c = []) out' (cs ++ cl) /\ wframe lo s s' /\ (cl = [] -> s' = s) /\
     (forall cl0 c, cl = cl0 ++ [c] -> snd c <> [] -> a_beg (m_arena s') <= a_end (m_arena s'))) (copies l out s).
Proof.
  intros L1 l cl H. induction H as [|d [sz xs] l cl (i & Nd & Nc & Sz) H IH]; intros out ns cs s O G Hl; cbn [copies].
  - cbn. exists ns. rewrite app_nil_r. split; [exact O|]. split; [exact G|]. split; [exact Hl|]. split; [constructor; auto; lia|]. split; [reflexivity|].
    intros [|? ?] ? X; discriminate.
  - pose proof (copy_step lo s (a1 ++ ns) (c1 ++ cs) i d sz xs O) as W.
    specialize (W ltac:(rewrite nth_error_app1; [exact Nd|apply nth_error_Some; congruence]) ltac:(rewrite nth_error_app1; [exact Nc|apply nth_error_Some; unfold aarr in *; congruence]) Sz).
    destruct (copy_array d s) as [[d' s1]| | |]; cbn [safe_m bind] in W |- *; try exact W.
    destruct W as (n' & G1 & O1 & F1 & I1 & Hh). rewrite <- !app_assoc in O1.
    assert (V1 : Forall2 ghost (out ++ [d']) (ns ++ [n'])) by (apply Forall2_app; [exact G|constructor; [exact G1|constructor]]).
    assert (V2 : Forall2 (fun (d : darr) (c : nat * list bytes) => hollow d <-> snd c = []) (out ++ [d']) (cs ++ [(sz, xs)]))
      by (apply Forall2_app; [exact Hl|constructor; [exact Hh|constructor]]).
    pose proof (IH (out ++ [d']) (ns ++ [n']) (cs ++ [(sz, xs)]) s1 O1 V1 V2) as V.
    destruct (copies l (out ++ [d']) s1) as [[out' s2]| | |]; cbn [safe_m bind] in V |- *; try exact V.
    destruct V as (ns' & O2 & G2 & H2 & F2 & Z2 & I2). exists ns'. rewrite <- !app_assoc in *. split; [exact O2|]. split; [exact G2|]. split; [exact H2|].
    split; [eapply wf_trans; eauto|]. split; [discriminate|]. intros cl0 c E Ec. destruct cl0 as [|c0 cl0]; cbn in E.
    + injection E as <- ->. rewrite (Z2 eq_refl). now apply I1.
    + injection E as _ E. eapply I2; eauto.
Qed.

(** The nodes of the maps. *)
Lemma s_ins l : forall m, snd (t_insert_strings l m) = insert_strings l m.
Proof.
  induction l as [|x l IH]; intros m; cbn [t_insert_strings insert_strings]; [reflexivity|].
  pose proof (s_insert x m) as H. unfold t_bind. destruct (t_map_insert x m) as [e o]; cbn [snd fst] in *. subst o.
  destruct (map_insert x m) as [[[b n] m']| | |]; cbn [bind snd]; auto.
Qed.
Lemma s_dup d : snd (t_duplicate_maps d) = duplicate_dom d.
Proof.
  unfold t_duplicate_maps, duplicate_dom, rebuild.
  repeat match goal with |- snd (t_bind ?x _) = bind ?y _ =>
    let H := fresh in assert (H : snd x = y) by apply s_ins; unfold t_bind at 1; destruct x as [? ?]; cbn [snd fst] in *; subst;
    destruct y; cbn [bind snd]; try reflexivity end.
Qed.
Definition tries_only (l : list ev) : Prop := Forall (fun e => e = ETrie) l.
Lemma tries_bind {A B} (x : tr A) (f : A -> tr B) : tries_only (fst x) -> (forall a, tries_only (fst (f a))) -> tries_only (fst (t_bind x f)).
Proof.
  intros H K. unfold t_bind. destruct (snd x); cbn [fst]; auto. apply Forall_app. split; [exact H|apply K].
Qed.
Lemma tries_ins l : forall m, tries_only (fst (t_insert_strings l m)).
Proof.
  induction l as [|x l IH]; intros m; cbn [t_insert_strings]; [constructor|]. apply tries_bind; [|intros [[b n] m']; apply IH].
  unfold t_map_insert. apply tries_bind; [constructor|]. intros [[b n] m']. destruct b; repeat constructor.
Qed.
Lemma tries_dup d : tries_only (fst (t_duplicate_maps d)).
Proof. unfold t_duplicate_maps. do 4 (apply tries_bind; [apply tries_ins|intros]). constructor. Qed.
Lemma tries_ops l : tries_only l -> forall n cs, aops cs (prog n l) (cs ++ repeat (56%nat, [zeros 56]) (length l)).
Proof.
  induction 1 as [|e l -> H IH]; intros n cs; cbn [prog length repeat]; [rewrite app_nil_r; constructor|].
  eapply as_cons; [apply a_raw; [lia|exact pow8|discriminate|repeat constructor]|].
  change (?c :: repeat ?c ?n) with ([c] ++ repeat c n). rewrite app_assoc. apply IH.
Qed.

(** ** The duplicate *)
Definition holl (d : dom) (i : nat) : Prop := (2 <= i <= 6)%nat /\ table_len i d = 0%nat.
Record good_dom (d : dom) : Prop := {
  gd_nodes : nodes d <> []; gd_tag : tag_reg d <> []; gd_bool : bool_reg d <> []; gd_key : key_reg d <> []; gd_val : val_reg d <> [];
  gd_dup : duplicate_dom d = Ok d; gd_fits : fits16 d }.
Lemma reachable_gd d : reachable d -> good_dom d.
Proof.
  intros R. destruct (reachable_good d R) as (k & [I G T]). destruct G as [G1 G2 G3 G4 _ _ _].
  assert (N : forall l m, reg_ok l m -> l <> []) by (intros l m (x & -> & _); discriminate).
  constructor; eauto; [| |now apply u_duplicate|now apply reachable_fits].
  - destruct I as [_ I2 _ _ _ _]. intros X. rewrite X in *. cbn in *. lia.
  - intros X. apply N in G1. rewrite X in G1. now apply G1.
Qed.

Lemma Forall2_len {A B} (R : A -> B -> Prop) l l' : Forall2 R l l' -> length l = length l'.
Proof. induction 1; cbn; congruence. Qed.
Lemma hollow_nil l (cs : list aarr) i sz xs : Forall2 (fun (d : darr) (c : nat * list bytes) => hollow d <-> snd c = []) l cs -> nth_error cs i = Some (sz, xs) -> (gh l i <-> xs = []).
Proof.
  intros H N. destruct (Forall2_nth_r _ _ _ _ _ H N) as (d & Nd & E). cbn in E. unfold gh. split.
  - intros (d' & Nd' & Hd). assert (d' = d) by congruence. subst. now apply E.
  - intros X. exists d. split; [exact Nd|now apply E].
Qed.

Record both (lo : Z) (d0 d1 d2 : dom) (a1 a2 : list darr) (s : mem) (e1 e2 : list aarr) (n2 : list darr) : Prop := {
  bo_gh : Forall2 ghost a2 n2;
  bo_ok : ok_mem lo s (a1 ++ n2) (dcells d1 e1 ++ dcells d2 e2);
  bo_len : length a1 = (11 + length e1)%nat;
  bo_t1 : texts_ok d1 e1;
  bo_t2 : texts_ok d2 (e1 ++ e2);
  bo_holl : forall i, gh a2 i <-> holl d0 i }.

Lemma srcs d arrs ex : length arrs = (11 + length ex)%nat ->
  Forall2 (src arrs (dcells d ex)) (firstn 10 (skipn 1 arrs)) (firstn 10 (skipn 1 (dcells d ex))).
Proof.
  intros Ln.
  
    assert (X : forall i, (i < 11)%nat -> exists a, nth_error arrs i = Some a).
    { intros i Hi. destruct (nth_error arrs i) eqn:E; [eauto|]. apply nth_error_None in E. lia. }
    destruct arrs as [|b0 [|b1 [|b2 [|b3 [|b4 [|b5 [|b6 [|b7 [|b8 [|b9 [|b10 arrs]]]]]]]]]]]; cbn in Ln; try lia.
    unfold dcells, cells. cbn [skipn firstn].
    repeat (apply Forall2_cons; [eexists|]); [..|apply Forall2_nil].
    { instantiate (1 := 1%nat). repeat split; discriminate. }
    { instantiate (1 := 2%nat). repeat split; discriminate. }
    { instantiate (1 := 3%nat). repeat split; discriminate. }
    { instantiate (1 := 4%nat). repeat split; discriminate. }
    { instantiate (1 := 5%nat). repeat split; discriminate. }
    { instantiate (1 := 6%nat). repeat split; discriminate. }
    { instantiate (1 := 7%nat). repeat split; discriminate. }
    { instantiate (1 := 8%nat). repeat split; discriminate. }
    { instantiate (1 := 9%nat). repeat split; discriminate. }
    instantiate (1 := 10%nat). repeat split; discriminate.
Qed.
Lemma copies_hollow d out : good_dom d -> Forall2 (fun (d : darr) (c : nat * list bytes) => hollow d <-> snd c = []) out (dcells d []) ->
  forall i, gh out i <-> holl d i.
Proof.
  intros GD H2. intros i. unfold holl. 
    assert (RE : forall {A} (x : A) n, n <> 0%nat -> repeat x n <> []) by (intros ? ? [|?] ?; [congruence|discriminate]).
    assert (LN : forall {A} (l : list A), l <> [] -> length l <> 0%nat) by (intros ? [|? ?] ?; [congruence|discriminate]).
    assert (MN : forall {A B} (f : A -> B) l, map f l = [] <-> length l = 0%nat) by (intros ? ? ? [|? ?]; cbn; split; congruence).
    destruct GD as [N1 N2 N3 N4 N5 _ _].
    do 11 (destruct i as [|i]; [match goal with |- gh _ ?n <-> _ =>
       let X := fresh in pose proof (fun sz xs => hollow_nil _ _ n sz xs H2) as X; rewrite (X _ _ eq_refl); clear X end;
       cbn [table_len];
       first [ rewrite MN; (split; [intros; split; [lia|assumption]|tauto])
             | split; [intros X; exfalso; revert X; first [discriminate | apply RE, LN; assumption
                       | intros X; apply MN in X; rewrite map_length in X; revert X; apply LN; assumption]
                      |intros [? _]; lia]]|]).
    split; [|intros [? _]; lia]. intros (e & Ne & _). apply Forall2_len in H2. rewrite dcells_len in H2. cbn in H2.
    assert (i + 11 < length out)%nat; [|lia]. apply nth_error_Some. replace (i + 11)%nat with (11 + i)%nat by lia. cbn [plus]. congruence.
Qed.

Lemma dup_safe lo d arrs s ex : ok_mem lo s arrs (dcells d ex) -> a_beg (m_arena s) <= a_end (m_arena s) -> texts_ok d ex -> good_dom d ->
  safe_m (fun '(d2, arrs2, s2) => d2 = d /\ frame lo s s2 /\ exists e2 n2, both lo d d d arrs arrs2 s2 ex e2 n2) (duplicate_in d arrs s).
Proof.
  intros O I Tx GD. unfold duplicate_in. destruct (mem_lens _ _ _ _ _ O) as [_ Ln]. pose proof (s_dup d) as Sd. rewrite (gd_dup d GD) in Sd.
  pose proof (tries_dup d) as Tr. destruct (t_duplicate_maps d) as [evs r]. cbn [snd fst] in *. subst r.
  assert (O0 : ok_mem lo s (arrs ++ []) (dcells d ex ++ [])) by now rewrite !app_nil_r.
  pose proof (group_step lo s arrs [] (dcells d ex) [] _ _ O0 Ln (a_raw [] 304 8 [zeros 304] ltac:(lia) pow8 ltac:(discriminate) ltac:(repeat constructor)) I) as W0.
  cbn [mrun app] in W0 |- *. destruct (alloc1 _ _ _ s) as [[p s0]| | |]; cbn in W0 |- *; try exact W0. destruct W0 as [O1 F1].
  set (r0 := mkArr 304 8 (Some p) 1 1) in *. set (s1 := mkMem _ _) in *.
  set (cl := firstn 10 (skipn 1 (dcells d ex))).
  assert (SR : Forall2 (src arrs (dcells d ex)) (firstn 10 (skipn 1 arrs)) cl) by exact (srcs d arrs ex Ln).
  assert (H0 : Forall2 (fun (d : darr) (c : nat * list bytes) => hollow d <-> snd c = []) [r0] [(304%nat, [zeros 304])]).
  { constructor; [|constructor]. split; [intros (_ & _ & X); discriminate|discriminate]. }
  pose proof (copies_safe lo arrs (dcells d ex) Ln _ _ SR [r0] [r0] [(304%nat, [zeros 304])] s1 O1 (Forall2_cons _ _ (or_introl eq_refl) (Forall2_nil _)) H0) as W1.
  destruct (copies _ [r0] s1) as [[out s2]| | |]; cbn in W1 |- *; try exact W1.
  destruct W1 as (ns & O2 & G2 & H2 & F2 & _ & I2).
  assert (I2' : a_beg (m_arena s2) <= a_end (m_arena s2)).
  { apply (I2 (firstn 9 cl) (16%nat, repeat (zeros 16) (length (val_reg d)))); [reflexivity|]. cbn [snd]. destruct (val_reg d) eqn:E; [|discriminate]. now destruct (gd_val d GD). }
  assert (EQ : (304%nat, [zeros 304]) :: cl = dcells d []) by reflexivity.
  change (ok_mem lo s2 (arrs ++ ns) (dcells d ex ++ dcells d [])) in O2.
  change (Forall2 (fun (d : darr) (c : nat * list bytes) => hollow d <-> snd c = []) out (dcells d [])) in H2. clear EQ.
  pose proof (tries_ops evs Tr 11 (dcells d [])) as A.
  pose proof (copies_hollow d out GD H2) as GH.
  pose proof (gh_runs lo arrs (dcells d ex) Ln (prog 11 evs) s2 out ns _ _ G2 O2 A I2') as W3.
  match type of W3 with ?Q -> _ => assert (P3 : Q) end.
  { intros i Hi. apply GH in Hi. destruct Hi as [B Z].
    do 7 (destruct i as [|i]; [try lia; cbn [table_len] in Z; apply length_zero_iff_nil in Z; eexists; cbn; rewrite Z; reflexivity|]). lia. }
  specialize (W3 P3). destruct (mruns (prog 11 evs) out s2) as [[out3 s3]| | |]; cbn in W3 |- *; try exact W3.
  destruct W3 as (n3 & G3 & O3 & F3 & Q3). split; [reflexivity|]. split.
  - apply wf_in with (lo := lo); [|exact (fr_in _ _ _ F3)]. eapply wf_trans; [exact (wf_of _ _ _ F1)|]. eapply wf_trans; [exact F2|exact (wf_of _ _ _ F3)].
  - eexists _, n3. constructor; [exact G3|exact O3|exact Ln|exact Tx| |].
    + intros x Hx. rewrite texts_in_app, in_app_iff. left. now apply Tx.
    + intros i. rewrite Q3. apply GH.
Qed.
