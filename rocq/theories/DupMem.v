(** * Groups of arrays in one arena, and arrays of capacity 0. *)
From Coq Require Import List NArith ZArith Arith Bool Lia.
From Verif Require Import Base MemModel MemSpec Lemmas Surgery MemProofs.
Import ListNotations.
Local Open Scope Z_scope.

(** ** A program that works on one group of arrays leaves the other group alone *)
Definition shift (n : nat) (o : mop) : mop :=
  match o with
  | Push i x => Push (n + i) x
  | Store i k x => Store (n + i) k x
  | Copy i => Copy (n + i)
  | Append i x => Append (n + i) x
  | o => o
  end.
Lemma nth_plus {A} (l l' : list A) i : nth_error (l ++ l') (length l + i) = nth_error l' i.
Proof. rewrite nth_error_app2 by lia. f_equal. lia. Qed.
Lemma upd_plus {A} (l l' : list A) i x : upd (l ++ l') (length l + i) x = l ++ upd l' i x.
Proof. induction l; cbn; [reflexivity|f_equal; assumption]. Qed.
Lemma mrun_shift a1 a2 o s : mrun (shift (length a1) o) (a1 ++ a2) s = let* '(x, s') := mrun o a2 s in Ok (a1 ++ x, s').
Proof.
  destruct o; cbn [mrun shift bind]; rewrite ?nth_plus, ?app_assoc.
  - reflexivity.
  - destruct (nth_error a2 i); [|reflexivity]. destruct (push _ _ _) as [[d' s']| | |]; cbn [bind]; try reflexivity. now rewrite upd_plus.
  - destruct (nth_error a2 i); [|reflexivity]. destruct (put _ _ _ _); reflexivity.
  - destruct (nth_error a2 i); [|reflexivity]. destruct (copy_array _ _) as [[d' s']| | |]; cbn [bind]; try reflexivity. now rewrite app_assoc.
  - destruct (nth_error a2 i); [|reflexivity]. destruct (add_raw _ _ _) as [[d' s']| | |]; cbn [bind]; try reflexivity. now rewrite upd_plus.
  - destruct (alloc1 _ _ _ _) as [[p s']| | |]; cbn [bind]; try reflexivity. now rewrite app_assoc.
Qed.
Lemma aop_shift c1 cs o cs' : aop cs o cs' -> aop (c1 ++ cs) (shift (length c1) o) (c1 ++ cs').
Proof.
  intros H. destruct H; cbn [shift]; rewrite ?app_assoc, <- ?upd_plus.
  - now apply a_new.
  - apply a_push; [now rewrite nth_plus|assumption].
  - apply a_store; [now rewrite nth_plus|assumption|assumption].
  - apply a_copy; [now rewrite nth_plus|assumption].
  - apply a_append. now rewrite nth_plus.
  - now apply a_raw.
Qed.
Lemma group_step lo s a1 a2 c1 c2 o c2' : ok_mem lo s (a1 ++ a2) (c1 ++ c2) -> length a1 = length c1 -> aop c2 o c2' ->
  a_beg (m_arena s) <= a_end (m_arena s) ->
  safe_m (fun '(x, s') => ok_mem lo s' (a1 ++ x) (c1 ++ c2') /\ frame lo s s') (mrun o a2 s).
Proof.
  intros O L H I. pose proof (mrun_safe lo s _ _ _ _ O (aop_shift c1 _ _ _ H) I) as W.
  rewrite <- L, mrun_shift in W. destruct (mrun o a2 s) as [[x s']| | |]; cbn in W |- *; exact W.
Qed.
Lemma app_nth {A} (a b : list A) i x : nth_error (b ++ a) i = Some x ->
  (i < length b)%nat /\ nth_error (a ++ b) (length a + i) = Some x \/
  (length b <= i < length b + length a)%nat /\ nth_error (a ++ b) (i - length b) = Some x.
Proof.
  intros H. destruct (Nat.lt_ge_cases i (length b)) as [C|C].
  - left. split; [exact C|]. rewrite nth_plus. rewrite nth_error_app1 in H by exact C. exact H.
  - right. rewrite nth_error_app2 in H by exact C. assert (i - length b < length a)%nat by (apply nth_error_Some; congruence).
    split; [lia|]. now rewrite nth_error_app1.
Qed.
Lemma ok_swap lo s a b c e : ok_mem lo s (a ++ b) (c ++ e) -> length a = length c -> ok_mem lo s (b ++ a) (e ++ c).
Proof.
  intros [[A B C D] F] L. assert (L2 : length b = length e).
  { rewrite !app_length, map_length, app_length in A. lia. }
  split.
  2:{ rewrite !map_app in *. apply app_inj_len in F; [|now rewrite !map_length]. destruct F as [-> ->]. reflexivity. }
  rewrite map_app in *. constructor.
  - rewrite !app_length, !map_length in *. lia.
  - intros i d x Hd Hx. apply app_nth in Hd. apply app_nth in Hx. rewrite !map_length in Hx.
    destruct Hd as [[P Hd]|[P Hd]], Hx as [[Q Hx]|[Q Hx]]; try lia; rewrite <- L in Hx || rewrite <- L2 in Hx; eapply B; eauto.
  - intros i j d f x y Ne Hi Hj. apply app_nth in Hi. apply app_nth in Hj.
    destruct Hi as [[P Hi]|[P Hi]], Hj as [[Q Hj]|[Q Hj]]; refine (C _ _ _ _ _ _ _ Hi Hj); lia.
  - exact D.
Qed.

(** ** Arrays without room *)

(** [a] is the copy of an empty array, and [n] the same array without its block; or both
    are the same array. *)
Definition hollow (d : darr) : Prop := d_buf d <> None /\ d_len d = 0%nat /\ d_cap d = 0%nat.
Definition ghost (a n : darr) : Prop :=
  a = n \/ hollow a /\ d_size a <> 1%nat /\ n = mkArr (d_size a) (d_align a) None 0 0.
Definition gh (l : list darr) (i : nat) : Prop := exists d, nth_error l i = Some d /\ hollow d.

Lemma Forall2_nth_l {A B} (R : A -> B -> Prop) l l' i a : Forall2 R l l' -> nth_error l i = Some a -> exists b, nth_error l' i = Some b /\ R a b.
Proof. intros H. revert i. induction H as [|x y l l' H _ IH]; intros [|i]; cbn; try discriminate; [intros E; injection E as <-; eauto|apply IH]. Qed.
Lemma Forall2_nth_r {A B} (R : A -> B -> Prop) l l' i b : Forall2 R l l' -> nth_error l' i = Some b -> exists a, nth_error l i = Some a /\ R a b.
Proof. intros H. revert i. induction H as [|x y l l' H _ IH]; intros [|i]; cbn; try discriminate; [intros E; injection E as <-; eauto|apply IH]. Qed.
Lemma Forall2_upd {A B} (R : A -> B -> Prop) l l' i a b : Forall2 R l l' -> R a b -> Forall2 R (upd l i a) (upd l' i b).
Proof. intros H Hr. revert i. induction H; intros [|i]; cbn; constructor; auto. Qed.

Lemma push_hollow d x s : hollow d -> push d x s = Undef OobWrite \/ push d x s = Longjmp ArenaFull.
Proof.
  intros (C3 & C2 & C1). destruct (d_buf d) as [b|] eqn:Eb; [|congruence]. unfold push. rewrite C1, C2. cbn [Nat.leb]. unfold grow. rewrite Eb, C1.
  destruct (_ =? _).
  - destruct (alloc1_safe (Z.of_nat (d_size d)) 1 (Z.of_nat 0) s) as [(q & s3 & F)|F]; rewrite F; cbn [bind]; [now left|now right].
  - destruct (alloc1_safe (2 * Z.of_nat (d_size d)) (d_align d) (Z.of_nat 0) s) as [(q & s3 & F)|F]; rewrite F; cbn [bind]; [now left|now right].
Qed.

(** Arrays never shrink. *)
Lemma aop_mono cs o cs' i sz xs : aop cs o cs' -> nth_error cs i = Some (sz, xs) ->
  exists ys, nth_error cs' i = Some (sz, ys) /\ (length xs <= length ys)%nat.
Proof.
  intros H N. assert (Lt : (i < length cs)%nat) by (apply nth_error_Some; congruence).
  assert (U : forall j sz' zs ys, nth_error cs j = Some (sz', zs) -> (length zs <= length ys)%nat ->
     exists ys', nth_error (upd cs j (sz', ys)) i = Some (sz, ys') /\ (length xs <= length ys')%nat).
  { intros j sz' zs ys Hj Hl. destruct (Nat.eq_dec j i) as [->|Ne].
    - rewrite upd_nth_eq by exact Lt. assert (Q : Some (sz', zs) = Some (sz, xs)) by congruence. injection Q as -> ->. eauto.
    - rewrite upd_nth_neq by exact Ne. eauto. }
  destruct H; try (rewrite nth_error_app1 by exact Lt; eauto); eapply U; eauto; rewrite ?app_length, ?upd_length; lia.
Qed.
Lemma aops_mono cs p cs' i sz xs : aops cs p cs' -> nth_error cs i = Some (sz, xs) ->
  exists ys, nth_error cs' i = Some (sz, ys) /\ (length xs <= length ys)%nat.
Proof.
  intros H. revert xs. induction H as [|cs o c l c' H1 H2 IH]; intros xs N; [eauto|].
  destruct (aop_mono _ _ _ _ _ _ H1 N) as (ys & Ny & L). destruct (IH _ Ny) as (zs & Nz & L'). exists zs. split; [exact Nz|lia].
Qed.

Section Group.
Context (lo : Z) (a1 : list darr) (c1 : list aarr) (L1 : length a1 = length c1).

Lemma ok_group s ns cs i sz xs : ok_mem lo s (a1 ++ ns) (c1 ++ cs) -> nth_error cs i = Some (sz, xs) ->
  exists d, nth_error ns i = Some d /\ d_size d = sz /\ arr_ok lo s d xs.
Proof.
  intros O H. destruct (ok_nth lo s _ _ (length c1 + i) sz xs O) as (d & X & Y); [rewrite nth_plus; exact H|].
  exists d. rewrite <- L1, nth_plus in X. auto.
Qed.
Lemma ok_not_hollow s ns cs i d : ok_mem lo s (a1 ++ ns) (c1 ++ cs) -> nth_error ns i = Some d -> ~ hollow d.
Proof.
  intros O H (B & _ & C). destruct O as [[A Q _ _] _].
  assert (H' : nth_error (a1 ++ ns) (length a1 + i) = Some d) by now rewrite nth_plus.
  destruct (nth_error (map snd (c1 ++ cs)) (length a1 + i)) as [x|] eqn:E.
  - pose proof (ao_buf _ _ _ _ (Q _ _ _ H' E)) as W. destruct (d_buf d); [lia|congruence].
  - apply nth_error_None in E. rewrite <- A in E. assert (length a1 + i < length (a1 ++ ns))%nat by (apply nth_error_Some; congruence). lia.
Qed.

(** An operation that pushes to no array without room does the same with the array as
    without its (empty) block. *)
Definition alike (Q : list darr -> list darr -> mem -> Prop) (x y : outcome (list darr * mem)) : Prop :=
  match y with
  | Ok (ns', s') => exists rs', x = Ok (rs', s') /\ Q rs' ns' s'
  | Longjmp ArenaFull => x = Longjmp ArenaFull
  | _ => False
  end.
Lemma gh_step' s rs ns cs o cs' : Forall2 ghost rs ns -> ok_mem lo s (a1 ++ ns) (c1 ++ cs) -> aop cs o cs' ->
  a_beg (m_arena s) <= a_end (m_arena s) -> (forall i x, o = Push i x -> ~ gh rs i) ->
  alike (fun rs' ns' s' => Forall2 ghost rs' ns' /\ ok_mem lo s' (a1 ++ ns') (c1 ++ cs') /\ frame lo s s' /\
      forall i, gh rs' i <-> gh rs i) (mrun o rs s) (mrun o ns s).
Proof.
  intros F O H I NP. pose proof (group_step lo s a1 ns c1 cs o cs' O L1 H I) as W.
  assert (Upd : forall i d d', nth_error rs i = Some d -> ~ hollow d -> ~ hollow d' -> forall j, gh (upd rs i d') j <-> gh rs j).
  { intros i d d' Hi N1 N2 j. unfold gh. destruct (Nat.eq_dec i j) as [<-|Ne].
    - rewrite upd_nth_eq by (apply nth_error_Some; congruence). split; intros (e & He & Hh); exfalso; congruence.
    - rewrite upd_nth_neq by exact Ne. tauto. }
  assert (End : forall d', ~ hollow d' -> forall j, gh (rs ++ [d']) j <-> gh rs j).
  { intros d' N2 j. unfold gh. split; intros (e & He & Hh); exists e; (split; [|exact Hh]).
    - destruct (Nat.lt_ge_cases j (length rs)) as [Hl|Hl]; [now rewrite nth_error_app1 in He|].
      rewrite nth_error_app2 in He by exact Hl. destruct (j - length rs)%nat; cbn in He; [injection He as <-; contradiction|].
      destruct n; discriminate.
    - rewrite nth_error_app1; [exact He|]. apply nth_error_Some. congruence. }
  assert (Last : forall s' d', ok_mem lo s' (a1 ++ ns ++ [d']) (c1 ++ cs') -> ~ hollow d').
  { intros s' d' O'. apply (ok_not_hollow s' (ns ++ [d']) cs' (length ns) d' O'). rewrite nth_error_app2, Nat.sub_diag by lia. reflexivity. }
  assert (Mid : forall s' i d', (i < length ns)%nat -> ok_mem lo s' (a1 ++ upd ns i d') (c1 ++ cs') -> ~ hollow d').
  { intros s' i d' Hi O'. apply (ok_not_hollow s' (upd ns i d') cs' i d' O'). now apply upd_nth_eq. }
  assert (Same : forall i d, nth_error ns i = Some d -> ~ gh rs i \/ d_len d <> 0%nat \/ d_size d = 1%nat -> nth_error rs i = Some d).
  { intros i d Hn Q. destruct (Forall2_nth_r _ _ _ _ _ F Hn) as (a & Ha & [->|(Hh & Sz & En)]); [exact Ha|]. exfalso.
    destruct Q as [Q|[Q|Q]]; [apply Q; exists a; auto| |]; rewrite En in Q; cbn in Q; contradiction. }
  destruct H as [cs sz al Hs Ha|cs i sz xs x H Hx|cs i k sz xs x H Hk Hx|cs i sz xs H Hn|cs i xs data H|cs sz al data Hs Ha Hn Hf]; cbn [mrun] in W |- *.
  - cbn in W |- *. destruct W as [W Fr]. eexists. split; [reflexivity|]. split; [apply Forall2_app; [exact F|repeat constructor]|]. split; [exact W|]. split; [exact Fr|].
    apply End. intros (X & _). apply X. reflexivity.
  - destruct (ok_group _ _ _ _ _ _ O H) as (d & Nd & Sd & Od). pose proof (Same i d Nd (or_introl (NP i x eq_refl))) as Na.
    assert (Lt : (i < length ns)%nat) by (apply nth_error_Some; congruence).
    rewrite Nd in W |- *. rewrite Na. destruct (push d x s) as [[d' s']| |[]|]; cbn in W |- *; try exact W; [|reflexivity]. destruct W as [W Fr].
    exists (upd rs i d'). split; [reflexivity|]. split; [apply Forall2_upd; [exact F|now left]|]. split; [exact W|]. split; [exact Fr|].
    apply (Upd i d); [exact Na|exact (ok_not_hollow _ _ _ _ _ O Nd)|exact (Mid s' i d' Lt W)].
  - destruct (ok_group _ _ _ _ _ _ O H) as (d & Nd & Sd & Od). pose proof (ao_len _ _ _ _ Od) as Ln.
    assert (Na : nth_error rs i = Some d) by (apply Same; [exact Nd|right; left; lia]).
    rewrite Nd in W |- *. rewrite Na. destruct (put d k x s) as [s'| |[]|]; cbn in W |- *; try exact W; [|reflexivity]. destruct W as [W Fr].
    exists rs. split; [reflexivity|]. split; [exact F|]. split; [exact W|]. split; [exact Fr|]. intros; tauto.
  - destruct (ok_group _ _ _ _ _ _ O H) as (d & Nd & Sd & Od). pose proof (ao_len _ _ _ _ Od) as Ln.
    assert (Na : nth_error rs i = Some d) by (apply Same; [exact Nd|right; left; destruct xs; [congruence|cbn in Ln; lia]]).
    rewrite Nd in W |- *. rewrite Na. destruct (copy_array d s) as [[d' s']| |[]|]; cbn in W |- *; try exact W; [|reflexivity]. destruct W as [W Fr].
    exists (rs ++ [d']). split; [reflexivity|]. split; [apply Forall2_app; [exact F|constructor; [now left|constructor]]|]. split; [exact W|]. split; [exact Fr|].
    apply End. exact (Last s' d' W).
  - destruct (ok_group _ _ _ _ _ _ O H) as (d & Nd & Sd & Od).
    assert (Na : nth_error rs i = Some d) by (apply Same; [exact Nd|right; right; exact Sd]).
    assert (Lt : (i < length ns)%nat) by (apply nth_error_Some; congruence).
    rewrite Nd in W |- *. rewrite Na. destruct (add_raw d data s) as [[d' s']| |[]|]; cbn in W |- *; try exact W; [|reflexivity]. destruct W as [W Fr].
    exists (upd rs i d'). split; [reflexivity|]. split; [apply Forall2_upd; [exact F|now left]|]. split; [exact W|]. split; [exact Fr|].
    apply (Upd i d); [exact Na|exact (ok_not_hollow _ _ _ _ _ O Nd)|exact (Mid s' i d' Lt W)].
  - destruct (alloc1 _ _ _ s) as [[p s']| |[]|]; cbn in W |- *; try exact W; [|reflexivity]. destruct W as [W Fr].
    eexists. split; [reflexivity|]. split; [apply Forall2_app; [exact F|constructor; [now left|constructor]]|]. split; [exact W|]. split; [exact Fr|].
    apply End. exact (Last _ _ W).
Qed.
Lemma alike_safe (Q : list darr -> list darr -> mem -> Prop) x y : alike Q x y -> safe_m (fun '(rs', s') => exists ns', Q rs' ns' s') x.
Proof. destruct y as [[ns' s']| |[]|]; cbn; try contradiction; [|intros ->; exact Logic.I]. intros (rs' & -> & H). cbn. eauto. Qed.
Lemma gh_step s rs ns cs o cs' : Forall2 ghost rs ns -> ok_mem lo s (a1 ++ ns) (c1 ++ cs) -> aop cs o cs' ->
  a_beg (m_arena s) <= a_end (m_arena s) -> (forall i x, o = Push i x -> ~ gh rs i) ->
  safe_m (fun '(rs', s') => exists ns', Forall2 ghost rs' ns' /\ ok_mem lo s' (a1 ++ ns') (c1 ++ cs') /\ frame lo s s' /\
      forall i, gh rs' i <-> gh rs i) (mrun o rs s).
Proof. intros F O H I NP. exact (alike_safe _ _ _ (gh_step' s rs ns cs o cs' F O H I NP)). Qed.

(** An operation that pushes to an array without room: nothing good. *)
Lemma gh_bad rs i x s : gh rs i -> mrun (Push i x) rs s = Undef OobWrite \/ mrun (Push i x) rs s = Longjmp ArenaFull.
Proof.
  intros (d & N & H). cbn [mrun]. rewrite N. destruct (push_hollow d x s H) as [->| ->]; cbn; auto.
Qed.

Lemma gh_runs' p : forall s rs ns cs cs', Forall2 ghost rs ns -> ok_mem lo s (a1 ++ ns) (c1 ++ cs) -> aops cs p cs' ->
  a_beg (m_arena s) <= a_end (m_arena s) -> (forall i, gh rs i -> exists sz, nth_error cs' i = Some (sz, [])) ->
  alike (fun rs' ns' s' => Forall2 ghost rs' ns' /\ ok_mem lo s' (a1 ++ ns') (c1 ++ cs') /\ frame lo s s' /\
      forall i, gh rs' i <-> gh rs i) (mruns p rs s) (mruns p ns s).
Proof.
  induction p as [|o p IH]; intros s rs ns cs cs' F O H I G; inversion H as [|? ? cs1 ? ? H1 H2]; subst; cbn [mruns].
  - cbn. exists rs. split; [reflexivity|]. split; [exact F|]. split; [exact O|]. split; [constructor; auto; lia|tauto].
  - assert (NP : forall i x, o = Push i x -> ~ gh rs i).
    { intros i x -> Hg. destruct (G i Hg) as (sz & Nz). inversion H1; subst.
      match goal with X : nth_error cs i = Some (?a, ?b) |- _ =>
        destruct (aops_mono _ _ _ i a (b ++ [x]) H2) as (ys & Ny & Ly); [apply upd_nth_eq, nth_error_Some; unfold aarr in *; congruence|] end.
      rewrite app_length in Ly. cbn in Ly. assert (Q : Some (sz, @nil bytes) = Some (length x, ys)) by congruence. injection Q as _ <-. cbn in Ly. lia. }
    pose proof (gh_step' s rs ns cs o cs1 F O H1 I NP) as W. destruct (mrun o ns s) as [[ns1 s1]| |[]|]; cbn [alike bind] in W |- *; try exact W; [|rewrite W; reflexivity].
    destruct W as (rs1 & -> & F1 & O1 & Fr1 & G1). cbn [bind].
    pose proof (IH s1 rs1 ns1 cs1 cs' F1 O1 H2 (fr_in _ _ _ Fr1)) as V. specialize (V ltac:(intros i Hi; apply G; now apply G1)).
    destruct (mruns p ns1 s1) as [[ns2 s2]| |[]|]; cbn [alike] in V |- *; try exact V.
    destruct V as (rs2 & -> & F2 & O2 & Fr2 & G2). exists rs2. split; [reflexivity|]. split; [exact F2|]. split; [exact O2|]. split.
    + destruct Fr1 as [A1 A2 A3 A4], Fr2 as [B1 B2 B3 B4]. constructor; [lia|lia|lia|]. intros a Ha. rewrite B4, A4; auto. rewrite A2. exact Ha.
    + intros i. rewrite G2. apply G1.
Qed.
Lemma gh_runs p s rs ns cs cs' : Forall2 ghost rs ns -> ok_mem lo s (a1 ++ ns) (c1 ++ cs) -> aops cs p cs' ->
  a_beg (m_arena s) <= a_end (m_arena s) -> (forall i, gh rs i -> exists sz, nth_error cs' i = Some (sz, [])) ->
  safe_m (fun '(rs', s') => exists ns', Forall2 ghost rs' ns' /\ ok_mem lo s' (a1 ++ ns') (c1 ++ cs') /\ frame lo s s' /\
      forall i, gh rs' i <-> gh rs i) (mruns p rs s).
Proof. intros F O H I G. exact (alike_safe _ _ _ (gh_runs' p s rs ns cs cs' F O H I G)). Qed.
Lemma gh_runs_bad p : forall s rs ns cs cs' i sz xs, Forall2 ghost rs ns -> ok_mem lo s (a1 ++ ns) (c1 ++ cs) -> aops cs p cs' ->
  a_beg (m_arena s) <= a_end (m_arena s) -> gh rs i -> nth_error cs' i = Some (sz, xs) -> xs <> [] ->
  mruns p rs s = Undef OobWrite \/ mruns p rs s = Longjmp ArenaFull.
Proof.
  induction p as [|o p IH]; intros s rs ns cs cs' i sz xs F O H I G N X; inversion H as [|? ? cs1 ? ? H1 H2]; subst; cbn [mruns].
  - exfalso. destruct G as (d & Nd & Hd). destruct (ok_group _ _ _ _ _ _ O N) as (n & Nn & _ & Ok').
    destruct (Forall2_nth_l _ _ _ _ _ F Nd) as (n' & Nn' & Gh). assert (n' = n) by congruence. subst n'.
    destruct Gh as [->|(_ & _ & En)]; [exact (ok_not_hollow _ _ _ _ _ O Nn Hd)|].
    pose proof (ao_len _ _ _ _ Ok') as L. rewrite En in L. destruct xs; [contradiction|discriminate].
  - assert (D : (exists j x, o = Push j x /\ gh rs j) \/ (forall j x, o = Push j x -> ~ gh rs j)).
    { destruct o as [| j x | | | |]; try (right; intros; discriminate).
      destruct (nth_error rs j) as [d|] eqn:E.
      - destruct (d_buf d) as [b|] eqn:Eb; [destruct (Nat.eq_dec (d_len d) 0), (Nat.eq_dec (d_cap d) 0)|];
          try (right; intros j' x' Q (d' & Hd' & (Y1 & Y2 & Y3)); injection Q as <- <-; congruence).
        left. exists j, x. split; [reflexivity|]. exists d. split; [exact E|]. repeat split; congruence.
      - right. intros j' x' Q (d' & Hd' & _). injection Q as <- <-. congruence. }
    destruct D as [(j & x & -> & Gj)|NP].
    + destruct (gh_bad rs j x s Gj) as [->| ->]; cbn; auto.
    + pose proof (gh_step s rs ns cs o cs1 F O H1 I NP) as W. destruct (mrun o rs s) as [[rs1 s1]| |[]|]; cbn in W |- *; try contradiction; [|now right].
      destruct W as (ns1 & F1 & O1 & Fr1 & G1). eapply IH; eauto; [exact (fr_in _ _ _ Fr1)|now apply G1].
Qed.
End Group.
