(** * How much of the arena a program with arrays uses. *)
From Coq Require Import List NArith ZArith Arith Bool Lia.
From Verif Require Import Base Lemmas MemModel MemSpec MemProofs.
Import ListNotations.
Local Open Scope Z_scope.

Fixpoint budget (A : Z) (ds : list darr) : Z :=
  match ds with
  | [] => 0
  | d :: l => (2 * Z.of_nat (d_size d) + (A - 1)) * Z.of_nat (d_cap d) + budget A l
  end.

Lemma budget_app A l l' : budget A (l ++ l') = budget A l + budget A l'.
Proof. induction l as [|d l IH]; cbn [app budget]; [lia|]. rewrite IH. lia. Qed.
Lemma budget_upd A l : forall i d d', nth_error l i = Some d ->
  budget A (upd l i d') = budget A l - (2 * Z.of_nat (d_size d) + (A - 1)) * Z.of_nat (d_cap d)
    + (2 * Z.of_nat (d_size d') + (A - 1)) * Z.of_nat (d_cap d').
Proof.
  induction l as [|e l IH]; intros [|i] d d' H; cbn in H; try discriminate; cbn [upd budget].
  - injection H as ->. lia.
  - rewrite (IH i d d' H). lia.
Qed.
Lemma demand_app A l l' : demand A (l ++ l') = demand A l + demand A l'.
Proof. induction l as [|[sz xs] l IH]; cbn [app demand]; [lia|]. rewrite IH. lia. Qed.
Lemma demand_upd A l : forall i sz xs sz' xs', nth_error l i = Some (sz, xs) ->
  demand A (upd l i (sz', xs')) = demand A l - (4 * Z.of_nat sz + 2 * (A - 1)) * Z.of_nat (length xs)
    + (4 * Z.of_nat sz' + 2 * (A - 1)) * Z.of_nat (length xs').
Proof.
  induction l as [|[z ys] l IH]; intros [|i] sz xs sz' xs' H; cbn in H; try discriminate; cbn [upd demand].
  - injection H as -> ->. lia.
  - rewrite (IH i sz xs sz' xs' H). lia.
Qed.
Lemma demand_mono1 A cs o cs' : 1 <= A -> aop cs o cs' -> demand A cs <= demand A cs'.
Proof.
  intros P H. destruct H as [cs sz al|cs i sz xs x H|cs i k sz xs x H Hk|cs i sz xs H|cs i xs data H|cs sz al data].
  - rewrite demand_app. cbn. lia.
  - rewrite (demand_upd A _ _ _ _ sz (xs ++ [x]) H), app_length. cbn [length]. nia.
  - rewrite (demand_upd A _ _ _ _ sz (upd xs k x) H), upd_length. lia.
  - rewrite demand_app. cbn [demand]. nia.
  - rewrite (demand_upd A _ _ _ _ 1%nat (xs ++ map (fun b => [b]) data) H), app_length. nia.
  - rewrite demand_app. cbn [demand]. nia.
Qed.
Lemma demand_mono A cs l cs' : 1 <= A -> aops cs l cs' -> demand A cs <= demand A cs'.
Proof.
  intros P H. induction H as [|cs o cs1 l cs2 H _ IH]; [lia|]. pose proof (demand_mono1 A _ _ _ P H). lia.
Qed.

(** Capacities are at most twice the lengths, alignments at most [A]. *)
Definition lean (A : Z) (d : darr) : Prop := (d_cap d <= 2 * d_len d)%nat /\ d_align d <= A.

Lemma budget_demand A lo s ds cs : 1 <= A -> ok_mem lo s ds cs -> Forall (lean A) ds -> budget A ds <= demand A cs.
Proof.
  intros P O F. assert (G : Forall2 (fun d c => d_size d = fst c /\ d_len d = length (snd c)) ds cs).
  { pose proof (ok_shows _ _ _ _ O) as H. clear - H. induction H as [|d c ds cs H _ IH]; constructor; auto.
    destruct H as (H1 & H2 & _). auto. }
  clear O. revert F. induction G as [|d [sz xs] ds cs [G1 G2] _ IH]; intros F; cbn [budget demand]; [lia|].
  inversion F as [|? ? [F1 F2] F3]; subst. cbn [fst snd] in *. specialize (IH F3). subst sz. rewrite G2 in F1. nia.
Qed.

(** The same without one of the arrays. *)
Lemma budget_demand_but A lo s ds cs i d sz xs : 1 <= A -> ok_mem lo s ds cs -> Forall (lean A) ds ->
  nth_error ds i = Some d -> nth_error cs i = Some (sz, xs) -> d_size d = sz ->
  budget A ds - (2 * Z.of_nat sz + (A - 1)) * Z.of_nat (d_cap d) <=
  demand A cs - (4 * Z.of_nat sz + 2 * (A - 1)) * Z.of_nat (length xs).
Proof.
  intros A1 O F Nd H Sd.
  assert (BU : budget A (upd ds i (mkArr (d_size d) (d_align d) None 0 0)) <= demand A (upd cs i (sz, @nil bytes))).
  { pose proof (ok_shows _ _ _ _ O) as S2.
    assert (G : Forall2 (fun d c => d_size d = fst c /\ d_len d = length (snd c)) ds cs).
    { clear - S2. induction S2 as [|d c ds cs H _ IH]; constructor; auto.
      destruct H as (H1 & H2 & _). auto. }
    clear O S2 Sd. revert i Nd H F. induction G as [|e [z ys] ds cs [G1 G2] G IH]; intros i Nd H F; [destruct i; discriminate|].
    inversion F as [|? ? [F1 F2] F3]; subst. cbn [fst snd] in *.
    assert (BD : budget A ds <= demand A cs).
    { clear - A1 G F3. induction G as [|d [sz xs] ds cs [G1 G2] _ IH]; cbn [budget demand]; [lia|].
      inversion F3 as [|? ? [F1 F2] F4]; subst. cbn [fst snd] in *. specialize (IH F4). subst sz. rewrite G2 in F1. nia. }
    destruct i as [|i]; cbn [upd budget demand d_size d_cap length] in *.
    - lia.
    - cbn [nth_error] in Nd, H. specialize (IH i Nd H F3). subst z. rewrite G2 in F1. nia. }
  rewrite (budget_upd A _ _ _ _ Nd) in BU. pose proof (demand_upd A _ _ _ _ sz (@nil bytes) H) as DU.
  unfold aarr in *. rewrite DU in BU. cbn [d_size d_cap length] in BU. rewrite Sd in *. lia.
Qed.

(** Allocation succeeds if the block and the largest padding fit. *)
Lemma alloc1_fits size align count s A : 0 < size -> pow2 align -> align <= A -> 0 < count ->
  a_beg (m_arena s) + (A - 1) + size * count <= a_end (m_arena s) ->
  exists p s', alloc1 size align count s = Ok (p, s') /\
    a_beg (m_arena s') <= a_beg (m_arena s) + (A - 1) + size * count /\
    a_end (m_arena s') = a_end (m_arena s).
Proof.
  intros S P LA C F. unfold alloc1, alloc. pose proof (pad_bounds (a_beg (m_arena s)) align P) as B.
  set (pad := padding (a_beg (m_arena s)) align) in *.
  destruct (Z.ltb_spec (Z.quot (a_end (m_arena s) - a_beg (m_arena s) - pad) size) count) as [L|L]; cbn [bind].
  - exfalso. set (r := a_end (m_arena s) - a_beg (m_arena s) - pad) in *.
    assert (Hr : size * count <= r) by lia.
    pose proof (Z.quot_le_mono (size * count) r size ltac:(lia) Hr) as Q.
    rewrite (Z.mul_comm size count), Z.quot_mul in Q by lia. lia.
  - do 2 eexists. split; [reflexivity|]. cbn [m_arena a_beg a_end]. lia.
Qed.

(** The part of the arena in use before the program is not counted: [used]. *)
Section Cost.
Context (A lo : Z) (A1 : 1 <= A).

Definition within (s : mem) (b : Z) : Prop := a_beg (m_arena s) <= lo + b.

Lemma grow_fits s d xs rest top : arr_ok lo s d xs -> lean A d -> d_cap d = d_len d ->
  within s ((2 * Z.of_nat (d_size d) + (A - 1)) * Z.of_nat (d_cap d) + rest) ->
  lo + (4 * Z.of_nat (d_size d) + 2 * (A - 1)) * Z.of_nat (S (d_len d)) + rest <= top -> a_end (m_arena s) = top ->
  exists d' s', grow d s = Ok (d', s') /\ d_size d' = d_size d /\ d_align d' = d_align d /\ d_len d' = d_len d /\
    (d_cap d' <= 2 * S (d_len d))%nat /\
    within s' ((2 * Z.of_nat (d_size d) + (A - 1)) * Z.of_nat (d_cap d') + rest) /\ a_end (m_arena s') = top.
Proof.
  intros [Q1 Q2 Q3 Q4 Q5] [L1 L2] Cp W T Te. unfold grow, within in *. set (sz := Z.of_nat (d_size d)) in *.
  assert (Sz : 0 < sz) by (unfold sz; lia).
  destruct (d_buf d) as [b|].
  - destruct Q5 as (E1 & E2 & _). destruct (_ =? _).
    + destruct (alloc1_fits sz 1 (Z.of_nat (d_cap d)) s 1) as (p & s' & E & F1 & F2); [exact Sz|apply pow2_one|lia|lia| |].
      { rewrite Te. nia. }
      rewrite E. cbn [bind]. do 2 eexists. split; [reflexivity|]. cbn [d_size d_align d_len d_cap].
      repeat split; auto; try lia; nia.
    + destruct (alloc1_fits (2 * sz) (d_align d) (Z.of_nat (d_cap d)) s A) as (p & s' & E & F1 & F2); [lia|exact Q2|lia|lia| |].
      { rewrite Te. nia. }
      rewrite E. cbn [bind]. do 2 eexists. split; [reflexivity|]. cbn [d_size d_align d_len d_cap m_arena].
      repeat split; auto; try lia; nia.
  - destruct Q5 as (E1 & E2).
    destruct (alloc1_fits (2 * sz) (d_align d) 1 s A) as (p & s' & E & F1 & F2); [lia|exact Q2|lia|lia| |].
    { rewrite Te. nia. }
    rewrite E. cbn [bind]. do 2 eexists. split; [reflexivity|]. cbn [d_size d_align d_len d_cap m_arena].
    repeat split; auto; try lia; nia.
Qed.

Lemma mrun_fits s ds cs o cs' : ok_mem lo s ds cs -> aop cs o cs' -> align_le A o -> Forall (lean A) ds ->
  within s (budget A ds) -> lo + demand A cs' <= a_end (m_arena s) ->
  exists ds' s', mrun o ds s = Ok (ds', s') /\ Forall (lean A) ds' /\ within s' (budget A ds') /\
    a_end (m_arena s') = a_end (m_arena s).
Proof.
  intros O H Al F W T. pose proof (budget_demand A lo s ds cs A1 O F) as BD. pose proof O as [O1 O2].
  assert (Fi : forall i d, nth_error ds i = Some d -> lean A d) by (rewrite Forall_forall in F; eauto using nth_error_In).
  destruct H as [cs sz al Hs Ha|cs i sz xs x H Hx|cs i k sz xs x H Hk Hx|cs i sz xs H Hn|cs i xs data H|cs sz al data Hs Ha Hn Hf]; cbn [mrun].
  - do 2 eexists. split; [reflexivity|]. split; [apply Forall_app; split; [exact F|]; constructor; [|constructor]; split; cbn; [lia|exact Al]|].
    split; [|reflexivity]. unfold within in *. rewrite budget_app. cbn [budget d_size d_cap]. lia.
  - destruct (ok_nth _ _ _ _ _ _ _ O H) as (d & Nd & Sd & Od). rewrite Nd. unfold push. specialize (Fi i d Nd).
    rewrite (demand_upd A _ _ _ _ sz (xs ++ [x]) H), app_length in T. cbn [length] in T.
    pose proof (ao_len _ _ _ _ Od) as Ln.
    set (rest := budget A ds - (2 * Z.of_nat (d_size d) + (A - 1)) * Z.of_nat (d_cap d)).
    assert (HR : exists d1 s1, (if (d_cap d <=? d_len d)%nat then grow d s else Ok (d, s)) = Ok (d1, s1) /\
        d_size d1 = d_size d /\ d_align d1 = d_align d /\ d_len d1 = d_len d /\ (d_cap d1 <= 2 * S (d_len d))%nat /\
        within s1 ((2 * Z.of_nat (d_size d) + (A - 1)) * Z.of_nat (d_cap d1) + rest) /\
        a_end (m_arena s1) = a_end (m_arena s)).
    { destruct (Nat.leb_spec (d_cap d) (d_len d)) as [L|L].
      - destruct (grow_fits s d xs rest (a_end (m_arena s))) as (d1 & s1 & G); auto.
        + pose proof (ao_buf _ _ _ _ Od). destruct (d_buf d); [destruct H0; lia|lia].
        + unfold within, rest in *. lia.
        + 
          destruct (Fi) as [F1 F2]. unfold rest. rewrite Ln in F1.
          assert ((2 * Z.of_nat (d_size d) + (A - 1)) * Z.of_nat (d_cap d) <=
                  (4 * Z.of_nat (d_size d) + 2 * (A - 1)) * Z.of_nat (length xs)) by nia.
          pose proof (budget_demand_but A lo s ds cs i d sz xs A1 O F Nd H Sd) as R.
          rewrite Ln, Sd in *. lia.
        + exists d1, s1. exact G.
      - exists d, s. destruct Fi as [F1 F2]. repeat split; auto; [lia|]. unfold within, rest in *. lia. }
    destruct HR as (d1 & s1 & E & G1 & G2 & G3 & G4 & G5 & G6). rewrite E. cbn [bind].
    assert (P : exists s2, put d1 (d_len d1) x s1 = Ok s2 /\ m_arena s2 = m_arena s1).
    { pose proof (push_safe lo s d xs x Od (oa_lo _ _ _ _ O1) ltac:(congruence)) as PS. unfold push in PS. rewrite E in PS. cbn [bind] in PS.
      destruct (put d1 (d_len d1) x s1) as [s2| |[]|] eqn:Pt; cbn in PS; try contradiction.
      - exists s2. split; [reflexivity|]. unfold put in Pt. destruct (d_buf d1); [|discriminate]. destruct (_ <? _)%nat; [|discriminate].
        injection Pt as <-. reflexivity.
      - unfold put in Pt. destruct (d_buf d1); [|discriminate]. destruct (_ <? _)%nat; discriminate. }
    destruct P as (s2 & P1 & P2). rewrite P1. cbn [bind]. do 2 eexists. split; [reflexivity|].
    split; [|split; [|rewrite P2; exact G6]].
    + apply Forall_upd; [exact F|]. destruct Fi as [F1 F2]. split; cbn [d_cap d_len d_align]; [lia|congruence].
    + unfold within in *. rewrite P2, (budget_upd A _ _ _ _ Nd). cbn [d_size d_cap]. unfold rest in G5. rewrite G1. lia.
  - destruct (ok_nth _ _ _ _ _ _ _ O H) as (d & Nd & Sd & Od). rewrite Nd.
    destruct (put_safe lo s d xs k x Od Hk) as (s' & E & Od' & S'); [congruence|]. rewrite E. cbn [bind].
    assert (P : m_arena s' = m_arena s).
    { unfold put in E. destruct (d_buf d); [|discriminate]. destruct (_ <? _)%nat; [|discriminate]. injection E as <-. reflexivity. }
    do 2 eexists. split; [reflexivity|]. unfold within. rewrite P. auto.
  - destruct (ok_nth _ _ _ _ _ _ _ O H) as (d & Nd & Sd & Od). rewrite Nd. unfold copy_array.
    rewrite demand_app in T. cbn [demand] in T. unfold within in *.
    destruct Od as [Q1 Q2 Q3 Q4 Q5]. assert (0 < d_len d)%nat by (destruct xs; [congruence|cbn in Q3; lia]).
    destruct (alloc1_fits (Z.of_nat (d_size d)) (d_align d) (Z.of_nat (d_len d)) s A) as (p & s' & E & F1 & F2);
      [lia|exact Q2|apply (Fi i d Nd)|lia|rewrite Q3, Sd in *; nia|].
    rewrite E. cbn [bind]. destruct (d_buf d) as [b|] eqn:Eb; [|destruct Q5; lia]. cbn [bind].
    do 2 eexists. split; [reflexivity|]. cbn [m_arena]. split; [|split; [|exact F2]].
    + apply Forall_app. split; [exact F|]. constructor; [|constructor]. split; cbn [d_cap d_len d_align]; [lia|apply (Fi i d Nd)].
    + rewrite budget_app. cbn [budget d_size d_cap]. nia.
  - destruct (ok_nth _ _ _ _ _ _ _ O H) as (d & Nd & Sd & Od). rewrite Nd. unfold add_raw. specialize (Fi i d Nd).
    rewrite (demand_upd A _ _ _ _ 1%nat (xs ++ map (fun b => [b]) data) H), app_length, map_length in T.
    pose proof (ao_len _ _ _ _ Od) as Ln. pose proof (budget_demand_but A lo s ds cs i d _ _ A1 O F Nd H Sd) as R.
    destruct Fi as [F1 F2]. pose proof (ao_align _ _ _ _ Od) as Q2. pose proof (ao_buf _ _ _ _ Od) as Q5. rewrite Sd in *.
    change (Z.of_nat 1) with 1 in *. unfold within in *. rewrite <- Ln in *.
    destruct (Nat.ltb_spec (d_cap d) (d_len d + length data)) as [L|L].
    + destruct (alloc1_fits 1 (d_align d) (Z.of_nat ((d_len d + length data) * 2)) s A) as (p & s' & E & G1 & G2);
        [lia|exact Q2|exact F2|lia|nia|].
      rewrite E. cbn [bind].
      assert (HE : forall b, a_end (m_arena s) =? b - Z.of_nat (d_cap d) = true -> d_buf d = Some b -> False).
      { intros b Hb Eb. apply Z.eqb_eq in Hb. rewrite Eb in Q5. destruct Q5 as (_ & _ & _ & _ & E5 & _).
        rewrite Nat.mul_1_l in E5. nia. }
      assert (Fin : forall m, exists ds' s'', (let* '(d0, s0) := Ok (mkArr 1 (d_align d) (Some p) (d_len d) ((d_len d + length data) * 2), mkMem (m_arena s') m) in
         let* '(d1, s1) := (let* s1 := (match d_buf d0, data with
             | Some b, _ => Ok (mkMem (m_arena s0) (wr (m_cont s0) (b + Z.of_nat (d_len d0)) data))
             | None, [] => Ok s0
             | None, _ => Undef NullDeref
             end) in Ok (mkArr (d_size d0) (d_align d0) (d_buf d0) (d_len d + length data) (d_cap d0), s1)) in
         Ok (upd ds i d1, s1)) = Ok (ds', s'') /\
         Forall (lean A) ds' /\ a_beg (m_arena s'') <= lo + budget A ds' /\ a_end (m_arena s'') = a_end (m_arena s)).
      { intros m. cbn [bind d_buf d_size d_align d_len d_cap m_arena m_cont]. do 2 eexists. split; [reflexivity|]. cbn [m_arena].
        split; [|split; [|exact G2]].
        - apply Forall_upd; [exact F|]. split; cbn [d_cap d_len d_align]; [lia|exact F2].
        - rewrite (budget_upd A _ _ _ _ Nd). cbn [d_size d_cap]. rewrite Sd. change (Z.of_nat 1) with 1. nia. }
      destruct (d_buf d) as [b|] eqn:Eb.
      * destruct (a_end (m_arena s) =? b - Z.of_nat (d_cap d)) eqn:Q; [destruct (HE b Q eq_refl)|]. cbn [bind].
        exact (Fin (wr (m_cont s') p (rd (m_cont s') b (d_len d)))).
      * cbn [bind]. destruct s' as [a' m']. exact (Fin m').
    + cbn [bind].
      assert (Fin : forall m, exists ds' s'', Ok (upd ds i (mkArr (d_size d) (d_align d) (d_buf d) (d_len d + length data) (d_cap d)), mkMem (m_arena s) m) = Ok (ds', s'') /\
         Forall (lean A) ds' /\ a_beg (m_arena s'') <= lo + budget A ds' /\ a_end (m_arena s'') = a_end (m_arena s)).
      { intros m. do 2 eexists. split; [reflexivity|]. cbn [m_arena]. split; [|split; [|reflexivity]].
        - apply Forall_upd; [exact F|]. split; cbn [d_cap d_len d_align]; [lia|exact F2].
        - rewrite (budget_upd A _ _ _ _ Nd). cbn [d_size d_cap]. lia. }
      rewrite Sd in Fin. destruct (d_buf d) as [b|] eqn:Eb; cbn [bind].
      * rewrite Sd. apply Fin.
      * destruct Q5. destruct data; [|cbn [length] in L; lia]. cbn [bind]. rewrite Sd. destruct s as [a m]. apply Fin.
  - unfold within in *. rewrite demand_app in T. cbn [demand] in T. cbn [align_le] in Al.
    unfold bytes in *. assert (0 < length data)%nat by (destruct data; [congruence|cbn; lia]).
    destruct (alloc1_fits (Z.of_nat sz) al (Z.of_nat (length data)) s A) as (p & s' & E & F1 & F2); [lia|exact Ha|exact Al|lia|nia|].
    rewrite E. cbn [bind]. do 2 eexists. split; [reflexivity|]. cbn [m_arena]. split; [|split; [|exact F2]].
    + apply Forall_app. split; [exact F|]. constructor; [|constructor]. split; cbn [d_cap d_len d_align]; [lia|exact Al].
    + rewrite budget_app. cbn [budget d_size d_cap]. nia.
Qed.
End Cost.

Lemma mruns_fits A lo l : 1 <= A -> forall s ds cs cs', ok_mem lo s ds cs -> aops cs l cs' ->
  Forall (align_le A) l -> Forall (lean A) ds -> within lo s (budget A ds) ->
  a_beg (m_arena s) <= a_end (m_arena s) -> lo + demand A cs' <= a_end (m_arena s) ->
  exists ds' s', mruns l ds s = Ok (ds', s').
Proof.
  intros A1. induction l as [|o l IH]; intros s ds cs cs' O H Al F W I T; inversion H as [|? ? cs1 ? ? H1 H2]; subst; cbn [mruns].
  - eauto.
  - inversion Al as [|? ? Al1 Al2]; subst. pose proof (demand_mono A _ _ _ A1 H2) as M.
    destruct (mrun_fits A lo A1 s ds cs o cs1 O H1 Al1 F W ltac:(lia)) as (ds1 & s1 & E & F1 & W1 & T1).
    rewrite E. cbn [bind]. pose proof (mrun_safe lo s ds cs o cs1 O H1 I) as S. rewrite E in S. cbn [safe_m] in S.
    destruct S as [O1 Fr]. eapply IH; eauto; [apply (fr_in _ _ _ Fr)|lia].
Qed.
