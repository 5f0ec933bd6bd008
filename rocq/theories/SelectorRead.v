(** * The query parser reads what the reference reader reads. *)
From Coq Require Import List NArith Arith Bool Lia.
From Verif Require Import Base TrieModel DomModel ParserModel DomSpec ApiSpec MsiModel QueryModel QuerySpec
  SelectorSpec Lemmas TrieProofs Inv RegProofs ParseTree QueryParse QueryTotal.
Import ListNotations.
Local Open Scope nat_scope.

Definition att (t : bytes) (i : nat) (s : bytes) : Prop := exists pre, t = pre ++ s /\ length pre = i.
Lemma att_0 t : att t 0 t.
Proof. now exists []. Qed.
Lemma att_len t i s : att t i s -> length t = i + length s.
Proof. intros (pre & -> & <-). apply app_length. Qed.
Lemma att_lt t i s : att t i s -> (i <? length t) = match s with [] => false | _ => true end.
Proof.
  intros H. rewrite (att_len _ _ _ H). destruct s; simpl; [apply Nat.ltb_ge|apply Nat.ltb_lt]; lia.
Qed.
Lemma att_char t i c s : att t i (c :: s) -> get_char t i = Ok c /\ current_char t i = c.
Proof. intros (pre & -> & <-). split; [apply get_char_app|apply current_char_app]. Qed.
Lemma att_end t i : att t i [] -> current_char t i = 0%N.
Proof.
  intros (pre & -> & <-). unfold current_char. rewrite app_nil_r.
  replace (nth_error pre (length pre)) with (@None N); [reflexivity|]. symmetry. now apply nth_error_None.
Qed.
Lemma att_next t i c s : att t i (c :: s) -> att t (S i) s.
Proof. intros (pre & -> & <-). exists (pre ++ [c]). rewrite <- app_assoc, app_length. simpl. split; [reflexivity|lia]. Qed.
Lemma att_app t i a s : att t i (a ++ s) -> att t (i + length a) s.
Proof. intros (pre & -> & <-). exists (pre ++ a). rewrite <- app_assoc, app_length. auto. Qed.
Lemma att_slice t i a s : att t i (a ++ s) -> read_slice t i (length a) = Ok a.
Proof. intros (pre & -> & <-). apply read_slice_app. Qed.

Lemma until_split p s : s = fst (until p s) ++ snd (until p s).
Proof. induction s as [|c s IH]; [reflexivity|]. simpl. destruct (p c); [reflexivity|]. simpl. now rewrite <- IH. Qed.
Lemma until_pre p s : Forall (fun c => p c = false) (fst (until p s)).
Proof. induction s as [|c s IH]; [constructor|]. simpl. destruct (p c) eqn:E; [constructor|]. now constructor. Qed.
Lemma until_post p s : match snd (until p s) with [] => True | c :: _ => p c = true end.
Proof. induction s as [|c s IH]; [exact I|]. simpl. destruct (p c) eqn:E; [exact E|exact IH]. Qed.
Lemma from_le p s : length (from p s) <= length s.
Proof. unfold from. rewrite (until_split p s) at 2. rewrite app_length. lia. Qed.

Lemma att_scan t i s p : att t i s -> exists j, scan t p i = Ok j /\ att t j (from p s) /\
  read_slice t i (j - i) = Ok (fst (until p s)) /\ i <= j.
Proof.
  intros H. exists (i + length (fst (until p s))). rewrite (until_split p s) in H.
  split.
  - destruct H as (pre & -> & <-). apply scan_exact; [apply until_pre|apply until_post].
  - split; [exact (att_app _ _ _ _ H)|]. split; [|lia].
    replace (i + _ - i) with (length (fst (until p s))) by lia. exact (att_slice _ _ _ _ H).
Qed.

Lemma att_name t i s : att t i s -> exists j0 j,
  scan t is_tag_start i = Ok j0 /\
  parse_token t j0 = Ok (fst (name_at s), j) /\ att t j (snd (name_at s)).
Proof.
  intros H. destruct (att_scan t i s is_tag_start H) as (j0 & E0 & H0 & _).
  set (p := fun c => is_blank c || (c =? cEQ)%N || (c =? cRB)%N).
  set (q := fun c => (c =? cEQ)%N || (c =? cRB)%N || (c =? cDOT)%N || (c =? cHASH)%N).
  destruct (att_scan t j0 _ p H0) as (j1 & E1 & H1 & S1 & L1).
  destruct (att_scan t j1 _ q H1) as (j2 & E2 & H2 & _ & L2).
  exists j0, j2. split; [exact E0|]. split; [|exact H2].
  unfold parse_token. fold p q. rewrite E1. cbn [bind]. rewrite S1. cbn [bind]. rewrite E2. reflexivity.
Qed.
Lemma att_close t j r : att t j r ->
  att t (if (current_char t j =? cRB)%N then S j else j) (skip_close r).
Proof.
  intros H. destruct r as [|c r].
  - rewrite (att_end _ _ H). exact H.
  - rewrite (proj2 (att_char _ _ _ _ H)). simpl. destruct (c =? cRB)%N; [exact (att_next _ _ _ _ H)|exact H].
Qed.

Lemma name_le s : length (snd (name_at s)) <= length s.
Proof. unfold name_at. cbn [snd]. rewrite !from_le. lia. Qed.
Lemma close_le s : length (skip_close s) <= length s.
Proof. destruct s as [|c s]; [simpl; lia|]. simpl. destruct (c =? cRB)%N; simpl; lia. Qed.
Lemma filter_lt c s : opens_filter c = true -> length (snd (filter_at c (c :: s))) <= length s.
Proof.
  intros O. unfold filter_at.
  assert (L : length (snd (name_at (c :: s))) <= length s).
  { unfold name_at. cbn [snd]. etransitivity; [apply from_le|]. etransitivity; [apply from_le|]. unfold from. simpl.
    replace (is_tag_start c) with false; [apply from_le|].
    unfold opens_filter in O. rewrite !orb_true_iff, !N.eqb_eq in O. destruct O as [[->| ->]| ->]; reflexivity. }
  destruct (name_at (c :: s)) as [nm r] eqn:E. cbn [snd] in L.
  destruct (c =? cDOT)%N; [cbn [snd]; rewrite close_le; exact L|].
  destruct (c =? cHASH)%N; [cbn [snd]; rewrite close_le; exact L|].
  destruct r as [|x r]; [cbn [snd]; exact L|]. simpl in L.
  destruct (x =? cRB)%N; [cbn [snd]; lia|].
  destruct (x =? cEQ)%N; [|cbn [snd]; simpl; lia].
  pose proof (name_le r) as Q. destruct (name_at r) as [v r2]. cbn [snd] in *. rewrite close_le. lia.
Qed.
Lemma head_le s : length (snd (head_at s)) <= length s.
Proof.
  destruct s as [|c s]; [simpl; lia|]. unfold head_at.
  destruct (is_tag_start c); [apply from_le|]. destruct (c =? cSTAR)%N; [apply from_le|cbn [snd]; lia].
Qed.
Lemma head_lt c s : fst (head_at (c :: s)) <> [] -> length (snd (head_at (c :: s))) <= length s.
Proof.
  unfold head_at. assert (X : is_tag_start c = true \/ c = cSTAR -> end_of_filter c = false).
  { intros [K| ->]; [|reflexivity]. destruct (end_of_filter c) eqn:Hc; [exfalso|reflexivity]. revert Hc K.
    unfold end_of_filter, is_spec_comb, is_fmt, is_tag_start. rewrite !orb_true_iff, !N.eqb_eq. intros Hc.
    destruct (is_alpha c) eqn:A.
    - intros _. repeat destruct Hc as [Hc|Hc]; subst; discriminate.
    - intros [X|X]; [discriminate|]. subst c. repeat destruct Hc as [Hc|Hc]; discriminate. }
  destruct (is_tag_start c) eqn:T.
  - intros _. cbn [snd]. unfold from. simpl. rewrite X by auto. apply from_le.
  - destruct (c =? cSTAR)%N eqn:T'; [|cbn [fst]; congruence]. apply N.eqb_eq in T'.
    intros _. cbn [snd]. unfold from. simpl. rewrite X by auto. apply from_le.
Qed.
Lemma filters_le fuel : forall n s, length (snd (filters_at fuel n s)) <= length s /\
  (fst (fst (filters_at fuel n s)) <> [] -> length (snd (filters_at fuel n s)) < length s).
Proof.
  induction fuel as [|f IH]; intros n s; destruct s as [|c s]; cbn [filters_at fst snd]; try (split; [lia|congruence]).
  destruct (opens_filter c) eqn:O; [|cbn [fst snd]; split; [lia|congruence]].
  destruct (8 <=? n); [cbn [fst snd]; split; [lia|congruence]|].
  pose proof (filter_lt c s O) as L. destruct (filter_at c (c :: s)) as [x r]. cbn [snd] in L.
  destruct (IH (n + length (opt_cond x)) r) as [A _].
  destruct (filters_at f _ r) as [[cs many] r']. cbn [fst snd] in *. simpl. split; [lia|]. intros _. lia.
Qed.
Lemma comb_le s : forall r, length (snd (comb_at r s)) <= length s.
Proof.
  induction s as [|c s IH]; intros r; [simpl; lia|]. cbn [comb_at].
  destruct (_ || _); [cbn [snd]; lia|]. rewrite IH. simpl. lia.
Qed.

Section Read.
  Context (d : dom) (k : kids) (G : Good d k).
  Let RI : RegInv d := g_reg _ _ G.

  Lemma att_filter t i c s : opens_filter c = true -> att t i (c :: s) -> exists j,
    att t j (snd (filter_at c (c :: s))) /\
    parse_filter t d i c =
      match fst (filter_at c (c :: s)) with
      | None => Ok (inr (None, j))
      | Some x => match res1 d x with None => Ok (inl QNotSeen) | Some f => Ok (inr (Some f, j)) end
      end.
  Proof.
    intros O H. destruct (att_name t i _ H) as (j0 & j & E0 & E1 & H1).
    unfold parse_filter, filter_at. rewrite E0. cbn [bind]. rewrite E1. cbn [bind].
    destruct (name_at (c :: s)) as [nm r]. cbn [fst snd] in *.
    pose proof (att_close t j r H1) as HC.
    assert (CL : forall key, exists j', att t j' (skip_close r) /\
       (let* k0 := map_contains key (key_map d) in
        if k0 =? 0 then Ok (inl QNotSeen)
        else let* v := map_contains nm (val_map d) in
          if v =? 0 then Ok (inl QNotSeen)
          else Ok (inr (Some (FProp k0 v), if (current_char t j =? cRB)%N then S j else j))) =
       match res1 d (AttrIs key nm) with None => Ok (inl QNotSeen) | Some f => Ok (inr (Some f, j')) end).
    { intros key. eexists. split; [exact HC|]. rewrite (ident_ok _ _ key (ri_key _ RI)). cbn [bind res1].
      destruct (ident (key_map d) key =? 0); [reflexivity|].
      rewrite (ident_ok _ _ nm (ri_val _ RI)). cbn [bind]. destruct (ident (val_map d) nm =? 0); reflexivity. }
    destruct (c =? cDOT)%N; [destruct (CL s_class) as (j' & A & B); exists j'; split; [exact A|exact B]|].
    destruct (c =? cHASH)%N; [destruct (CL s_id) as (j' & A & B); exists j'; split; [exact A|exact B]|].
    cbn [orb]. destruct r as [|x r].
    - rewrite (att_end _ _ H1). cbn. exists j. split; [exact H1|reflexivity].
    - rewrite (proj2 (att_char _ _ _ _ H1)). destruct (x =? cRB)%N.
      + exists (S j). split; [exact (att_next _ _ _ _ H1)|].
        rewrite (ident_ok _ _ nm (ri_bool _ RI)). cbn [bind fst res1].
        destruct (ident (bool_map d) nm =? 0); reflexivity.
      + destruct (x =? cEQ)%N; [|exists j; split; [exact H1|reflexivity]].
        destruct (att_name t (S j) r (att_next _ _ _ _ H1)) as (j2 & j3 & E2 & E3 & H3).
        rewrite E2. cbn [bind]. rewrite E3. cbn [bind].
        destruct (name_at r) as [v r2]. cbn [fst snd] in *.
        eexists. split; [exact (att_close _ _ _ H3)|].
        rewrite (ident_ok _ _ nm (ri_key _ RI)). cbn [bind fst res1].
        destruct (ident (key_map d) nm =? 0); [reflexivity|].
        rewrite (ident_ok _ _ v (ri_val _ RI)). cbn [bind].
        destruct (ident (val_map d) v =? 0); reflexivity.
  Qed.

  Definition resc (x : cond) : option filt := match x with Any => Some FAll | Is x => res1 d x end.
  Fixpoint comp (cs : list cond) : option (list filt) :=
    match cs with
    | [] => Some []
    | x :: cs' => match resc x, comp cs' with Some f, Some fs => Some (f :: fs) | _, _ => None end
    end.
  Lemma comp_len cs fs : comp cs = Some fs -> length fs = length cs.
  Proof.
    revert fs. induction cs as [|x cs IH]; intros fs; simpl; [intros [= <-]; reflexivity|].
    destruct (resc x); [|discriminate]. destruct (comp cs); [|discriminate]. intros [= <-]. simpl. now rewrite (IH l).
  Qed.

  Lemma att_filters t : forall f fuel i s (fs : list filt), att t i s -> length s <= f -> length s < fuel ->
    length fs <= max_filters ->
    let '(cs, many, r) := filters_at f (length fs) s in
    length fs + length cs <= max_filters /\
    exists j, att t j r /\
    filters_loop fuel t d i fs =
      match comp cs with
      | None => Ok (inl QNotSeen)
      | Some fs' => if many : bool then Ok (inl QTooMany) else Ok (inr (fs ++ fs', j))
      end.
  Proof.
    induction f as [|f IH]; intros fuel i s fs H L1 L2 M.
    - destruct s; [|simpl in L1; lia]. cbn [filters_at]. split; [simpl; lia|].
      exists i. split; [exact H|]. destruct fuel; [simpl in L2; lia|]. cbn [filters_loop comp].
      rewrite (att_lt _ _ _ H). cbn. now rewrite app_nil_r.
    - destruct fuel as [|fuel]; [lia|]. destruct s as [|c s].
      + cbn [filters_at]. split; [simpl; lia|].
        exists i. split; [exact H|]. cbn [filters_loop comp]. rewrite (att_lt _ _ _ H). now rewrite app_nil_r.
      + cbn [filters_at filters_loop]. rewrite (att_lt _ _ _ H), (proj1 (att_char _ _ _ _ H)). cbn [bind].
        fold (opens_filter c). destruct (opens_filter c) eqn:O.
        * change max_filters with 8 in *. destruct (8 <=? length fs) eqn:M8.
          { split; [simpl; lia|]. exists i. split; [exact H|reflexivity]. }
          apply Nat.leb_gt in M8.
          destruct (att_filter t i c s O H) as (j & Hj & E). pose proof (filter_lt c s O) as LT.
          rewrite E. destruct (filter_at c (c :: s)) as [x r]. cbn [fst snd] in *. simpl in L1, L2.
          destruct x as [x|]; cbn [opt_cond length].
          -- destruct (res1 d x) as [g|] eqn:EX; cbn [bind].
             ++ unfold push_filter. change max_filters with 8.
                replace (length fs <? 8) with true by (symmetry; now apply Nat.ltb_lt). cbn [bind].
                specialize (IH fuel j r (fs ++ [g]) Hj ltac:(lia) ltac:(lia)).
                rewrite app_length in IH. cbn [length] in IH. specialize (IH ltac:(lia)).
                destruct (filters_at f (length fs + 1) r) as [[cs many] r'].
                destruct IH as (A & j' & B & C).
                split; [simpl; lia|]. exists j'. split; [exact B|]. rewrite C. cbn [app comp resc]. rewrite EX.
                destruct (comp cs); [|reflexivity]. destruct many; [reflexivity|]. now rewrite <- app_assoc.
             ++ (* unknown name *)
                assert (K : let '(cs, _, r') := filters_at f (length fs + 1) r in
                   length fs + 1 + length cs <= 8 /\ exists j', att t j' r').
                { specialize (IH fuel j r (fs ++ [FAll]) Hj ltac:(lia) ltac:(lia)).
                  rewrite app_length in IH. cbn [length] in IH. specialize (IH ltac:(lia)).
                  destruct (filters_at f (length fs + 1) r) as [[cs many] r'].
                  destruct IH as (A & j' & B & _). split; [lia|eauto]. }
                destruct (filters_at f (length fs + 1) r) as [[cs many] r']. destruct K as (A & j' & B).
                split; [simpl; lia|]. exists j'. split; [exact B|].
                cbn [app comp resc]. now rewrite EX.
          -- cbn [bind]. rewrite Nat.add_0_r.
             specialize (IH fuel j r fs Hj ltac:(lia) ltac:(lia) M).
             destruct (filters_at f (length fs) r) as [[cs many] r'].
             destruct IH as (A & j' & B & C). split; [exact A|]. exists j'. split; [exact B|]. exact C.
        * split; [simpl; lia|]. exists i. split; [exact H|]. cbn [comp]. now rewrite app_nil_r.
  Qed.

  Lemma att_head t i c s : att t i (c :: s) -> exists j,
    att t j (snd (head_at (c :: s))) /\ length (fst (head_at (c :: s))) <= 1 /\
    parse_head t d i [] =
      match comp (fst (head_at (c :: s))) with
      | None => Ok (inl QNotSeen) | Some fs => Ok (inr (fs, j)) end.
  Proof.
    intros H. unfold parse_head, head_at. rewrite (proj2 (att_char _ _ _ _ H)).
    destruct (att_scan t i (c :: s) end_of_filter H) as (j & E & Hj & Sl & _).
    destruct (is_tag_start c).
    - cbn [length max_filters Nat.leb]. exists j. split; [exact Hj|]. split; [simpl; lia|].
      rewrite E. cbn [bind]. rewrite Sl. cbn [bind]. rewrite (ident_ok _ _ _ (ri_tag _ RI)). cbn [bind fst comp resc res1].
      destruct (ident (tag_map d) _ =? 0); reflexivity.
    - destruct (c =? cSTAR)%N.
      + exists j. split; [exact Hj|]. split; [simpl; lia|]. cbn [length max_filters Nat.leb]. rewrite E. reflexivity.
      + exists i. split; [exact H|]. split; [simpl; lia|reflexivity].
  Qed.

  Lemma att_comb t : forall s i fuel r, att t i s -> length s <= fuel ->
    exists j, att t j (snd (comb_at r s)) /\
      comb_loop fuel t i (comb_of r) = Ok (comb_of (fst (comb_at r s)), j).
  Proof.
    induction s as [|c s IH]; intros i fuel r H L; destruct fuel as [|fuel]; cbn [comb_loop comb_at];
      rewrite (att_lt _ _ _ H).
    - exists i. split; [exact H|reflexivity].
    - exists i. split; [exact H|reflexivity].
    - simpl in L. lia.
    - rewrite (proj1 (att_char _ _ _ _ H)). cbn [bind].
      destruct (is_elem_start c || (c =? cLB)%N); [exists i; split; [exact H|reflexivity]|].
      simpl in L.
      destruct (IH (S i) fuel (if (c =? cGT)%N then Child else if (c =? cPLUS)%N then NextSib
                    else if (c =? cTILDE)%N then LaterSib else r) (att_next _ _ _ _ H) ltac:(lia)) as (j & A & B).
      exists j. split; [exact A|]. rewrite <- B. f_equal.
      destruct (c =? cGT)%N; [reflexivity|]. destruct (c =? cPLUS)%N; [reflexivity|].
      destruct (c =? cTILDE)%N; reflexivity.
  Qed.
End Read.
