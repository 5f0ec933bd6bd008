(** * From the parsed query to the nodes it denotes. *)
From Coq Require Import List NArith Arith Bool Lia Permutation.
From Verif Require Import Base TrieModel DomModel ParserModel EditModel ReadModel DomSpec ApiSpec MsiModel QueryModel QuerySpec
  Lemmas TrieProofs Tables Inv Attach RegProofs ParseTree MsiProofs UsetProofs QueryProofs AttrProofs
  QueryTotal QueryParse ApiProofs ReadUser.
Import ListNotations.
Local Open Scope nat_scope.

Section User.
  Context (lo : nat -> nat) (d : dom) (k : kids) (G : Good d k).
  Context (LN : (N.of_nat (length (nodes d)) <= 65535)%N).
  Let R : RegInv d := g_reg _ _ G.

  (** ** Names and ids *)
  Lemma ident_nth reg m s i : reg_ok reg m -> i <> 0 -> (nth_error reg i = Some s <-> ident m s = i).
  Proof.
    intros H N. destruct (reg_interns reg m H) as [I1 I2]. destruct (I1 s) as (id & E & A & B).
    unfold ident. rewrite E. split.
    - intros F. destruct (Nat.eq_dec id 0) as [Z|Z]; [now destruct (B Z i N)|].
      assert (L : i < length reg) by (apply nth_error_Some; congruence).
      destruct (I2 i N L) as (s' & F' & L'). congruence.
    - intros <-. auto.
  Qed.
  Lemma known_ident reg m s : reg_ok reg m -> ((exists i, i <> 0 /\ nth_error reg i = Some s) <-> ident m s <> 0).
  Proof.
    intros H. split.
    - intros (i & N & F). apply (ident_nth reg m s i H N) in F. congruence.
    - intros N. exists (ident m s). split; [exact N|]. now apply (ident_nth reg m s _ H N).
  Qed.
  Lemma known_res x : known1 d x <-> exists f, res1 d x = Some f.
  Proof.
    destruct x as [n|n|a v]; cbn [known1 res1].
    - rewrite (known_ident _ _ n (ri_tag _ R)). destruct (Nat.eqb_spec (ident (tag_map d) n) 0) as [E|E].
      + split; [congruence|]. intros [f F]. discriminate.
      + split; [eauto|auto].
    - rewrite (known_ident _ _ n (ri_bool _ R)). destruct (Nat.eqb_spec (ident (bool_map d) n) 0) as [E|E].
      + split; [congruence|]. intros [f F]. discriminate.
      + split; [eauto|auto].
    - rewrite (known_ident _ _ a (ri_key _ R)), (known_ident _ _ v (ri_val _ R)).
      destruct (Nat.eqb_spec (ident (key_map d) a) 0) as [E|E].
      + split; [intros [? _]; congruence|]. intros [f F]. discriminate.
      + destruct (Nat.eqb_spec (ident (val_map d) v) 0) as [E'|E'].
        * split; [intros [_ ?]; congruence|]. intros [f F]. discriminate.
        * split; [eauto|auto].
  Qed.

  Lemma nth_nth_err {A} (l : list A) i x dflt : i < length l -> (nth i l dflt = x <-> nth_error l i = Some x).
  Proof.
    intros L. split.
    - intros <-. now apply nth_error_nth'.
    - intros E. now apply nth_nth_error.
  Qed.

  Lemma res_match x f n : res1 d x = Some f -> n <> 0 -> (fm1 lo d n f <-> matches1 lo d n x).
  Proof.
    intros E N. destruct x as [t|b|a v]; cbn [res1 matches1] in *.
    - destruct (Nat.eqb_spec (ident (tag_map d) t) 0) as [Z|Z]; [discriminate|]. injection E as <-.
      cbn [fm1]. unfold seen_tag. split.
      + intros (y & Ey & T). exists y, (ident (tag_map d) t). split; [exact Ey|]. split; [|split; [exact Z|]].
        * unfold tag_view in T. pose proof (inv_ids _ _ (g_inv _ _ G) n y Ey) as Id. rewrite Id in T.
          destruct (n_pay y); [left; congruence|right; split; [eauto|congruence]|congruence].
        * now apply (ident_nth _ _ t _ (ri_tag _ R) Z).
      + intros (y & t' & Ey & P & Nt & F). exists y. split; [exact Ey|].
        apply (ident_nth _ _ t _ (ri_tag _ R) Nt) in F. rewrite F.
        unfold tag_view. pose proof (inv_ids _ _ (g_inv _ _ G) n y Ey) as Id. rewrite Id.
        destruct P as [-> |[(s & ->) ->]]; reflexivity.
    - destruct (Nat.eqb_spec (ident (bool_map d) b) 0) as [Z|Z]; [discriminate|]. injection E as <-.
      cbn [fm1]. unfold bool_attrs. rewrite in_map_iff. split.
      + intros H. exists (n, ident (bool_map d) b). split.
        * apply (nth_nth_error). simpl. now apply (ident_nth _ _ b _ (ri_bool _ R) Z).
        * apply filter_In. split; [exact H|]. apply Nat.eqb_refl.
      + intros ([n' i] & F & H). apply filter_In in H as [H Q]. simpl in *. apply Nat.eqb_eq in Q. subst n'.
        destruct (ri_bprops _ R _ H) as (_ & L & NZ). simpl in *. specialize (NZ N).
        apply (nth_nth_err _ _ _ _ L) in F. apply (ident_nth _ _ b _ (ri_bool _ R) NZ) in F. now rewrite F.
    - destruct (Nat.eqb_spec (ident (key_map d) a) 0) as [Z|Z]; [discriminate|].
      destruct (Nat.eqb_spec (ident (val_map d) v) 0) as [Z'|Z']; [discriminate|]. injection E as <-.
      cbn [fm1]. unfold attrs. rewrite in_map_iff. split.
      + intros H. eexists. split; [|apply filter_In; split; [exact H|]; apply Nat.eqb_refl]. simpl. f_equal.
        * apply nth_nth_error. now apply (ident_nth _ _ a _ (ri_key _ R) Z).
        * apply nth_nth_error. now apply (ident_nth _ _ v _ (ri_val _ R) Z').
      + intros ([n' i j] & F & H). apply filter_In in H as [H Q]. simpl in *. apply Nat.eqb_eq in Q. subst n'.
        destruct (ri_props _ R _ H) as (_ & L & L' & NZ). simpl in *. destruct (NZ N) as [NZ1 NZ2].
        injection F as F1 F2.
        apply (nth_nth_err _ _ _ _ L) in F1. apply (ident_nth _ _ a _ (ri_key _ R) NZ1) in F1.
        apply (nth_nth_err _ _ _ _ L') in F2. apply (ident_nth _ _ v _ (ri_val _ R) NZ2) in F2.
        now rewrite F1, F2.
  Qed.

  (** ** Compounds *)
  Lemma compile_ok c : forall acc, (forall x, In x c -> known1 d x) -> length acc + length c <= max_filters ->
    exists fs, compile d c acc = inr (acc ++ fs) /\ forall n, n <> 0 -> (fmatch lo d n fs <-> matches lo d n c).
  Proof.
    induction c as [|x c IH]; intros acc K L; cbn [compile].
    - exists []. rewrite app_nil_r. split; [reflexivity|]. intros n _. simpl. unfold matches. simpl. tauto.
    - simpl in L. replace (max_filters <=? length acc) with false by (symmetry; apply Nat.leb_gt; lia).
      destruct (proj1 (known_res x) (K x (or_introl eq_refl))) as [f E]. rewrite E.
      destruct (IH (acc ++ [f])) as (fs & Ec & H).
      + intros y Hy. apply K. now right.
      + rewrite app_length. simpl. lia.
      + exists (f :: fs). split; [rewrite Ec, <- app_assoc; reflexivity|].
        intros n N. pose proof (res_match x f n E N) as RM. specialize (H n N).
        assert (X : fmatch lo d n (f :: fs) <-> fm1 lo d n f /\ fmatch lo d n fs).
        { destruct f; try (simpl; tauto). exfalso. destruct x; simpl in E;
            repeat match type of E with context [if ?b then _ else _] => destruct b end; discriminate. }
        rewrite X, RM, H. unfold matches. split.
        * intros [A B] s [<-|Hs]; auto.
        * intros A. split; [apply A; now left|]. intros s Hs. apply A. now right.
  Qed.
  Lemma compile_unknown c : forall acc, (exists x, In x c /\ ~ known1 d x) -> length acc + length c <= max_filters ->
    compile d c acc = inl QNotSeen.
  Proof.
    induction c as [|x c IH]; intros acc (y & Hy & Ny) L; [contradiction|]. cbn [compile]. simpl in L.
    replace (max_filters <=? length acc) with false by (symmetry; apply Nat.leb_gt; lia).
    destruct (res1 d x) as [f|] eqn:E; [|reflexivity].
    apply IH; [|rewrite app_length; simpl; lia]. exists y. split; [|exact Ny].
    destruct Hy as [<-|Hy]; [|exact Hy]. exfalso. apply Ny, known_res. eauto.
  Qed.
  Lemma compile_many c : forall acc, (forall x, In x c -> known1 d x) -> max_filters < length acc + length c ->
    c <> [] -> compile d c acc = inl QTooMany.
  Proof.
    induction c as [|x c IH]; intros acc K L NE; [congruence|]. cbn [compile]. simpl in L.
    destruct (max_filters <=? length acc) eqn:M; [reflexivity|]. apply Nat.leb_gt in M.
    destruct (proj1 (known_res x) (K x (or_introl eq_refl))) as [f E]. rewrite E.
    destruct c as [|y c]; [simpl in L; lia|].
    apply IH; [|rewrite app_length; simpl in *; lia|discriminate]. intros z Hz. apply K. now right.
  Qed.

  (** ** Steps *)
  Definition inside (P : nat -> Prop) : Prop := forall n, P n -> n <> 0 /\ n < length (nodes d).
  Lemma comb_rel_inside c P : inside P -> inside (comb_rel d c P).
  Proof.
    intros HP n Hn. destruct c; cbn [comb_rel related] in Hn.
    - lia.
    - destruct Hn as (m & Pm & E & N0). destruct (HP m Pm) as [Nm _].
      destruct (next_chain d k G LN m Nm) as (l & Sl & _ & Bl).
      apply Bl. inversion Sl; [congruence|]. subst. now left.
    - destruct Hn as (m & _ & E & _). eapply elem_nz; eauto.
    - destruct Hn as (m & Pm & A). destruct (HP m Pm) as [Nm _].
      destruct (next_chain d k G LN m Nm) as (l & Sl & _ & Bl). apply Bl.
      now apply (after_in_chain d m l Sl).
    - destruct Hn as (m & _ & U). destruct U; eapply elem_nz; eauto.
  Qed.
  Lemma select_ext l : forall S S' : nat -> Prop, (forall n, S n <-> S' n) ->
    forall n, select lo d S l n <-> select lo d S' l n.
  Proof.
    induction l as [|[r c] l IH]; intros S S' H n; simpl; [apply H|]. apply IH. intros m.
    split; intros (A & p & Sp & B); (split; [exact A|]); exists p; (split; [now apply H|exact B]).
  Qed.
  Lemma comb_of_rel r P n : comb_rel d (comb_of r) P n <-> exists m, P m /\ related d r m n.
  Proof. destruct r; reflexivity. Qed.

  Lemma step_ok cb fs c ph s P : (forall n, n <> 0 -> (fmatch lo d n fs <-> matches lo d n c)) ->
    holds ph s P -> (cb = CNone -> ph = 0 /\ forall n, ~ P n) -> inside P ->
    exists s' ph', q_step lo cb fs d s = Ok s' /\
      holds ph' s' (fun n => matches lo d n c /\ comb_rel d cb P n) /\ inside (fun n => matches lo d n c /\ comb_rel d cb P n).
  Proof.
    intros M H HC HP. destruct (q_step_ok lo d k G LN cb fs ph s P H HC) as (s' & p' & E & H').
    exists s', p'. split; [exact E|]. split.
    - eapply holds_ext; [exact H'|]. intros n. cbv beta. split.
      + intros [F C]. split; [|exact C]. apply M; [|exact F]. now apply (comb_rel_inside cb P HP).
      + intros [F C]. split; [|exact C]. apply M; [|exact F]. now apply (comb_rel_inside cb P HP).
    - intros n [_ C]. now apply (comb_rel_inside cb P HP).
  Qed.

  Lemma eval_ok l : forall c cb ph s P,
    (forall c' x, In c' (c :: map snd l) -> In x c' -> known1 d x) ->
    (forall c', In c' (c :: map snd l) -> length c' <= 8) ->
    holds ph s P -> (cb = CNone -> ph = 0 /\ forall n, ~ P n) -> inside P ->
    exists s' ph' Q, eval lo d c l cb s = Ok (QSuccess, s') /\ holds ph' s' Q /\ inside Q /\
      forall n, Q n <-> select lo d (fun n => matches lo d n c /\ comb_rel d cb P n) l n.
  Proof.
    induction l as [|[r c'] l IH]; intros c cb ph s P K S H HC HP; cbn [eval].
    - destruct (compile_ok c [] (fun x Hx => K c x (or_introl eq_refl) Hx)) as (fs & E & M);
        [apply (S c); now left|]. rewrite E. cbn [app].
      destruct (step_ok cb fs c ph s P M H HC HP) as (s' & p' & E' & H' & I').
      rewrite E'. cbn [bind]. exists s', p', (fun n => matches lo d n c /\ comb_rel d cb P n). split; [reflexivity|]. split; [exact H'|]. split; [exact I'|].
      intros n. reflexivity.
    - destruct (compile_ok c [] (fun x Hx => K c x (or_introl eq_refl) Hx)) as (fs & E & M);
        [apply (S c); now left|]. rewrite E. cbn [app].
      destruct (step_ok cb fs c ph s P M H HC HP) as (s' & p' & E' & H' & I').
      rewrite E'. cbn [bind].
      destruct (IH c' (comb_of r) p' s' _ (fun a x Ha => K a x (or_intror Ha)) (fun a Ha => S a (or_intror Ha)) H')
        as (s2 & p2 & Q & E2 & H2 & I2 & X2).
      + intros Z. destruct r; discriminate.
      + exact I'.
      + exists s2, p2, Q. split; [exact E2|]. split; [exact H2|]. split; [exact I2|].
        intros n. rewrite X2. cbn [select]. apply select_ext. intros m. rewrite comb_of_rel. reflexivity.
  Qed.
  Lemma eval_fail st l : forall c cb ph s P,
    (forall c', In c' (c :: map snd l) -> compile d c' [] = inl st \/ exists fs, compile d c' [] = inr fs) ->
    (exists c', In c' (c :: map snd l) /\ compile d c' [] = inl st) ->
    holds ph s P -> (cb = CNone -> ph = 0 /\ forall n, ~ P n) -> inside P ->
    exists s', eval lo d c l cb s = Ok (st, s').
  Proof.
    induction l as [|[r c1] l IH]; intros c cb ph s P A (c' & Hc & B) H HC HP; cbn [eval].
    - destruct Hc as [<-|[]]. rewrite B. eauto.
    - destruct (A c (or_introl eq_refl)) as [E|[fs E]]; rewrite E; [eauto|].
      destruct (q_step_ok lo d k G LN cb fs ph s P H HC) as (s' & p' & E' & H').
      rewrite E'. cbn [bind].
      eapply (IH c1 (comb_of r) p' s' _ (fun a Ha => A a (or_intror Ha))); [|exact H'| |].
      + destruct Hc as [<-|Hc]; [congruence|exists c'; split; [exact Hc|exact B]].
      + intros Z. destruct r; discriminate.
      + intros n [_ C]. now apply (comb_rel_inside cb P HP).
  Qed.

  (** ** Comma-separated lists *)
  Fixpoint evals (l : list selector) (set res : uset) : outcome (qstatus * uset) :=
    match l with
    | [] => Ok (QSuccess, res)
    | x :: l' =>
        let* '(st, set) := eval lo d (fst x) (snd x) CNone set in
        match st with
        | QSuccess => let* res := insert_each (u_elems set) res in evals l' (u_reset set) res
        | _ => Ok (st, res)
        end
    end.
  Definition nocomma (s : bytes) : Prop := Forall (fun c => (c =? cCOMMA)%N = false) s.
  Lemma blanks_nocomma b : blanks b -> nocomma b.
  Proof.
    intros B. eapply Forall_impl; [|exact B]. intros c E. cbv beta in *.
    unfold is_blank, is_fmt in E. rewrite !orb_true_iff, !N.eqb_eq in E.
    destruct E as [->|[[->| ->]| ->]]; reflexivity.
  Qed.
  Lemma start_nocomma c : is_tag_start c = true -> (c =? cCOMMA)%N = false.
  Proof. intros T. destruct (N.eqb_spec c cCOMMA) as [->|]; [discriminate|reflexivity]. Qed.
  Lemma attr_nocomma s : attr_token s -> nocomma s.
  Proof.
    intros (c & r & -> & T & F). constructor; [now apply start_nocomma|].
    eapply Forall_impl; [|exact F]. intros x (_ & _ & _ & X). now apply N.eqb_neq.
  Qed.
  Lemma tag_nocomma s : tag_token s -> nocomma s.
  Proof.
    intros (c & r & -> & T & F). constructor; [now apply start_nocomma|].
    eapply Forall_impl; [|exact F]. intros x (_ & X). now apply N.eqb_neq.
  Qed.
  Ltac nc := repeat first [apply Forall_app; split|apply Forall_cons; [reflexivity|]|apply Forall_nil].
  Lemma brackets_nocomma c s : brackets c s -> nocomma s.
  Proof.
    induction 1 as [|n c s A B IH|a v c s A V B IH]; unfold nocomma in *; nc;
      first [exact IH|apply attr_nocomma; assumption].
  Qed.
  Lemma compound_nocomma c s : compound_str c s -> nocomma s.
  Proof.
    intros [n c' s' T B|c' s' B _]; [apply Forall_app; split|];
      first [apply tag_nocomma; assumption|eapply brackets_nocomma; eassumption].
  Qed.
  Lemma last_nocomma c s : last_str c s -> nocomma s.
  Proof.
    intros [c0 s0 H|c0 s0 v H [V _]|c0 s0 v H [V _]|v [V _]|v [V _]]; unfold nocomma; nc;
      try (eapply compound_nocomma; eassumption); now apply attr_nocomma.
  Qed.
  Lemma tail_nocomma c l s : tail_str c l s -> nocomma s.
  Proof.
    induction 1 as [c s b H B|c s r g c' l s' H (a & b & A & B & -> & _) T IH]; unfold nocomma in *.
    - apply Forall_app; split; [eapply last_nocomma; eauto|now apply blanks_nocomma].
    - apply Forall_app; split; [eapply compound_nocomma; eauto|]. apply Forall_app; split; [|exact IH].
      apply Forall_app; split; [now apply blanks_nocomma|]. apply Forall_app; split; [|now apply blanks_nocomma].
      destruct r; cbn [rel_char]; nc.
  Qed.
  Lemma selector_nocomma x s : selector_str x s -> nocomma s /\ s <> [].
  Proof.
    intros (b & r & B & T & ->). split.
    - apply Forall_app; split; [now apply blanks_nocomma|]. eapply tail_nocomma; eauto.
    - destruct (tail_starts _ _ _ T) as (c & q & -> & _). now destruct b.
  Qed.

  Lemma parts_exact l s : list_str l s -> forall pre css fuel set res, css = pre ++ s -> length s < fuel ->
    parts_loop fuel lo css d (length pre) set res = evals l set res.
  Proof.
    assert (Step : forall x s rest, selector_str x s -> (rest = [] \/ exists q, rest = cCOMMA :: q) ->
      forall pre css f set res, css = pre ++ s ++ rest ->
      parts_loop (S f) lo css d (length pre) set res =
      (let* '(st, set) := eval lo d (fst x) (snd x) CNone set in
        match st with
        | QSuccess => let* res := insert_each (u_elems set) res in
                      parts_loop f lo css d (length pre + length s + 1) (u_reset set) res
        | _ => Ok (st, res)
        end)).
    { intros x s0 rest H Hr pre css f set res Ec. destruct (selector_nocomma x s0 H) as [NC NE].
      cbn [parts_loop]. replace (length pre <? length css) with true
        by (symmetry; apply Nat.ltb_lt; rewrite Ec, !app_length; destruct s0; [congruence|simpl; lia]).
      assert (Sc : scan css (fun c => (c =? cCOMMA)%N) (length pre) = Ok (length pre + length s0)).
      { rewrite Ec. apply scan_exact; [exact NC|]. destruct Hr as [->|(q & ->)]; [exact I|reflexivity]. }
      rewrite Sc. cbn [bind]. replace (length pre + length s0 - length pre) with (length s0) by lia.
      rewrite Ec at 1. rewrite read_slice_app. cbn [bind].
      rewrite (results_exact lo d k G LN x s0 set H). reflexivity. }
    induction 1 as [x s H|x s l s' H T IH]; intros pre css fuel set res Ec Lf.
    - destruct fuel as [|f]; [lia|]. rewrite (Step x s [] H (or_introl eq_refl) pre) by (rewrite app_nil_r; exact Ec).
      cbn [evals]. destruct (eval _ _ _ _ _ _) as [[st set']| | |]; try reflexivity. cbn [bind].
      destruct st; try reflexivity. destruct (insert_each _ _) as [res'| | |]; try reflexivity. cbn [bind].
      destruct f; cbn [parts_loop]; (replace (length pre + length s + 1 <? length css) with false
        by (symmetry; apply Nat.ltb_ge; rewrite Ec, app_length; lia)); reflexivity.
    - destruct fuel as [|f]; [lia|].
      rewrite (Step x s ([cCOMMA] ++ s') H (or_intror (ex_intro _ s' eq_refl)) pre) by exact Ec.
      cbn [evals]. destruct (eval _ _ _ _ _ _) as [[st set']| | |]; try reflexivity. cbn [bind].
      destruct st; try reflexivity. destruct (insert_each _ _) as [res'| | |]; try reflexivity. cbn [bind].
      replace (length pre + length s + 1) with (length (pre ++ s ++ [cCOMMA])) by (rewrite !app_length; simpl; lia).
      apply IH.
      + rewrite Ec, <- !app_assoc. reflexivity.
      + revert Lf. rewrite !app_length. simpl. lia.
  Qed.

  Lemma selects_eq x n : selects lo d x n <->
    select lo d (fun n => matches lo d n (fst x) /\ comb_rel d CNone (fun _ => False) n) (snd x) n.
  Proof. unfold selects. apply select_ext. intros m. cbn [comb_rel]. tauto. Qed.

  Lemma evals_ok l : (forall x, In x l -> known d x /\ small x) -> forall set res P,
    holds 0 set (fun _ => False) -> holds 0 res P -> inside P ->
    exists res', evals l set res = Ok (QSuccess, res') /\
      holds 0 res' (fun n => P n \/ exists x, In x l /\ selects lo d x n).
  Proof.
    induction l as [|x l IH]; intros K set res P Hs Hr HP; cbn [evals].
    - exists res. split; [reflexivity|]. eapply holds_ext; [exact Hr|]. intros n. split; [auto|].
      intros [|(x & [] & _)]; assumption.
    - destruct (K x (or_introl eq_refl)) as [Kx Sx].
      destruct (eval_ok (snd x) (fst x) CNone 0 set (fun _ => False) Kx Sx Hs) as (s' & p' & Q & E & HQ & IQ & X);
        [auto|intros ? []|]. rewrite E. cbn [bind].
      destruct (insert_each_ok lo d LN (u_elems s') 0 res P Hr) as (r' & p2 & E2 & L2 & H2).
      + intros y Hy. apply IQ. now apply (proj2 HQ).
      + rewrite E2. cbn [bind]. assert (p2 = 0) by lia. subst p2.
        destruct (IH (fun y Hy => K y (or_intror Hy)) (u_reset s') r' _ (holds_reset _ _ _ HQ) H2)
          as (r3 & E3 & H3).
        * intros n [Pn|Hn]; [auto|]. apply IQ. now apply (proj2 HQ).
        * exists r3. split; [exact E3|]. eapply holds_ext; [exact H3|]. intros n. cbv beta.
          rewrite (proj2 HQ n), X, <- selects_eq. split.
          -- intros [[|S]|(y & Hy & S)]; [auto| |].
             ++ right. exists x. split; [now left|exact S].
             ++ right. exists y. split; [now right|exact S].
          -- intros [|(y & [<-|Hy] & S)]; [auto|auto|]. right. exists y. auto.
  Qed.

  Lemma evals_fail st l : st <> QSuccess ->
    (forall x, In x l -> (exists c, In c (compounds x) /\ compile d c [] = inl st) /\
          (forall c, In c (compounds x) -> compile d c [] = inl st \/ exists fs, compile d c [] = inr fs) \/
       known d x /\ small x) ->
    (exists x c, In x l /\ In c (compounds x) /\ compile d c [] = inl st) ->
    forall set res P, holds 0 set (fun _ => False) -> holds 0 res P -> inside P ->
    exists res', evals l set res = Ok (st, res').
  Proof.
    intros Ns. induction l as [|x l IH]; intros A (y & c & Hy & Hc & B) set res P Hs Hr HP; [contradiction|].
    cbn [evals]. destruct (A x (or_introl eq_refl)) as [[B' C']|[Kx Sx]].
    - destruct (eval_fail st (snd x) (fst x) CNone 0 set (fun _ => False) C' B' Hs) as (s' & E); [auto|intros ? []|].
      rewrite E. cbn [bind]. destruct st; try congruence; eauto.
    - destruct (eval_ok (snd x) (fst x) CNone 0 set (fun _ => False) Kx Sx Hs) as (s' & p' & Q & E & HQ & IQ & X);
        [auto|intros ? []|]. rewrite E. cbn [bind].
      destruct (insert_each_ok lo d LN (u_elems s') 0 res P Hr) as (r' & p2 & E2 & L2 & H2).
      + intros z Hz. apply IQ. now apply (proj2 HQ).
      + rewrite E2. cbn [bind]. assert (p2 = 0) by lia. subst p2.
        eapply IH; [intros z Hz; apply A; now right| |eapply holds_reset; exact HQ|exact H2|].
        * exists y, c. destruct Hy as [<-|Hy]; [|auto]. exfalso.
          destruct (compile_ok c [] (fun z Hz => Kx c z Hc Hz) (Sx c Hc)) as (fs & F & _). congruence.
        * intros n [Pn|Hn]; [auto|]. apply IQ. now apply (proj2 HQ).
  Qed.

  Lemma all_exact l css : list_str l css ->
    query_selector_all lo css d =
    (let* '(st, res) := evals l (u_new start_exp) (u_new start_exp) in
     match st with QSuccess => let* l := u_to_array res in Ok (QSuccess, l) | _ => Ok (st, []) end).
  Proof.
    intros H. unfold query_selector_all.
    pose proof (parts_exact l css H [] css (S (length css)) (u_new start_exp) (u_new start_exp) eq_refl ltac:(lia)) as E.
    cbn [length] in E. rewrite E. reflexivity.
  Qed.
  Lemma new_holds : holds 0 (u_new start_exp) (fun _ => False).
  Proof. apply holds_new. unfold start_exp. lia. Qed.

  Lemma k_query l css : list_str l css -> (forall x, In x l -> known d x /\ small x) ->
    exists r, query_selector_all lo css d = Ok (QSuccess, r) /\ NoDup r /\
      forall n, In n r <-> exists x, In x l /\ selects lo d x n.
  Proof.
    intros H K. rewrite (all_exact l css H).
    destruct (evals_ok l K _ _ _ new_holds new_holds) as (res & E & O & X); [intros ? []|].
    rewrite E. cbn [bind]. rewrite (u_array_ok res 0 O). cbn [bind repeat]. rewrite app_nil_r.
    exists (u_elems res). split; [reflexivity|]. split; [apply u_nodup, (uo_wf _ _ O)|].
    intros n. rewrite X. tauto.
  Qed.
  Lemma k_unknown l css : list_str l css -> (forall x, In x l -> small x) ->
    (exists x c s, In x l /\ In c (compounds x) /\ In s c /\ ~ known1 d s) ->
    query_selector_all lo css d = Ok (QNotSeen, []).
  Proof.
    intros H S (x & c & s & Hx & Hc & Hs & Ns). rewrite (all_exact l css H).
    assert (D : forall s, known1 d s \/ ~ known1 d s).
    { intros s0. destruct (res1 d s0) eqn:E; [left; apply known_res; eauto|right].
      intros X. apply known_res in X as [f F]. congruence. }
    assert (DC : forall c, (forall s, In s c -> known1 d s) \/ exists s, In s c /\ ~ known1 d s).
    { induction c0 as [|a c0 [IH|(z & Hz & Nz)]]; [left; intros ? []| |right; exists z; split; [now right|exact Nz]].
      destruct (D a) as [Ka|Na]; [left; intros z [<-|Hz]; auto|right; exists a; split; [now left|exact Na]]. }
    assert (CC : forall y c, In y l -> In c (compounds y) ->
       compile d c [] = inl QNotSeen /\ (exists s, In s c /\ ~ known1 d s) \/
       (exists fs, compile d c [] = inr fs) /\ forall s, In s c -> known1 d s).
    { intros y c0 Hy Hc0. destruct (DC c0) as [Kc|Nc].
      - right. split; [|exact Kc]. destruct (compile_ok c0 [] Kc (S y Hy c0 Hc0)) as (fs & F & _). eauto.
      - left. split; [|exact Nc]. apply compile_unknown; [exact Nc|]. exact (S y Hy c0 Hc0). }
    destruct (evals_fail QNotSeen l ltac:(discriminate)) with (set := u_new start_exp) (res := u_new start_exp) (P := fun _ : nat => False)
      as (res & E); try apply new_holds; try (intros ? []).
    - intros x0 Hy.
      assert (DK : (exists c, In c (compounds x0) /\ compile d c [] = inl QNotSeen) \/ known d x0).
      { assert (G0 : forall cs, (forall c, In c cs -> In c (compounds x0)) ->
          (exists c, In c cs /\ compile d c [] = inl QNotSeen) \/ forall c s, In c cs -> In s c -> known1 d s).
        { induction cs as [|a cs IH]; intros Sub; [right; intros ? ? []|].
          destruct (CC x0 a Hy (Sub a (or_introl eq_refl))) as [[Ca _]|[_ Ka]]; [left; exists a; split; [now left|exact Ca]|].
          destruct (IH (fun z Hz => Sub z (or_intror Hz))) as [(z & Hz & Cz)|Kz].
          - left. exists z. split; [now right|exact Cz].
          - right. intros z w [<-|Hz] Hw; eauto. }
        destruct (G0 (compounds x0) (fun z Hz => Hz)) as [L|Rr]; [left; exact L|right; exact Rr]. }
      destruct DK as [B|Kn]; [left|right; split; [exact Kn|exact (S x0 Hy)]].
      split; [exact B|]. intros c0 Hc0. destruct (CC x0 c0 Hy Hc0) as [[Cc _]|[Cc _]]; auto.
    - exists x, c. split; [exact Hx|]. split; [exact Hc|].
      destruct (CC x c Hx Hc) as [[Cc _]|[_ Kc]]; [exact Cc|]. now apply Kc in Hs.
    - rewrite E. reflexivity.
  Qed.
  Lemma k_many l css : list_str l css -> (forall x, In x l -> known d x) ->
    (exists x, In x l /\ ~ small x) ->
    query_selector_all lo css d = Ok (QTooMany, []).
  Proof.
    intros H K (x & Hx & Nx). rewrite (all_exact l css H).
    assert (CC : forall y c, In y l -> In c (compounds y) ->
       compile d c [] = inl QTooMany /\ 8 < length c \/
       (exists fs, compile d c [] = inr fs) /\ length c <= 8).
    { intros y c0 Hy Hc0. destruct (Nat.le_gt_cases (length c0) 8) as [Le|Gt].
      - right. split; [|exact Le]. destruct (compile_ok c0 [] (fun z Hz => K y Hy c0 z Hc0 Hz) Le) as (fs & F & _). eauto.
      - left. split; [|exact Gt]. apply compile_many; [exact (fun z Hz => K y Hy c0 z Hc0 Hz)|exact Gt|].
        intros ->. simpl in Gt. lia. }
    assert (DK : forall x0, In x0 l -> (exists c, In c (compounds x0) /\ compile d c [] = inl QTooMany) \/ small x0).
    { intros x0 Hy. assert (G0 : forall cs, (forall c, In c cs -> In c (compounds x0)) ->
          (exists c, In c cs /\ compile d c [] = inl QTooMany) \/ forall c, In c cs -> length c <= 8).
        { induction cs as [|a cs IH]; intros Sub; [right; intros ? []|].
          destruct (CC x0 a Hy (Sub a (or_introl eq_refl))) as [[Ca _]|[_ Ka]]; [left; exists a; split; [now left|exact Ca]|].
          destruct (IH (fun z Hz => Sub z (or_intror Hz))) as [(z & Hz & Cz)|Kz].
          - left. exists z. split; [now right|exact Cz].
          - right. intros z [<-|Hz]; eauto. }
        destruct (G0 (compounds x0) (fun z Hz => Hz)) as [L|Rr]; [left; exact L|right; exact Rr]. }
    destruct (evals_fail QTooMany l ltac:(discriminate)) with (set := u_new start_exp) (res := u_new start_exp) (P := fun _ : nat => False)
      as (res & E); try apply new_holds; try (intros ? []).
    - intros x0 Hy. destruct (DK x0 Hy) as [B|Sm]; [left|right; split; [exact (K x0 Hy)|exact Sm]].
      split; [exact B|]. intros c0 Hc0. destruct (CC x0 c0 Hy Hc0) as [[Cc _]|[Cc _]]; auto.
    - destruct (DK x Hx) as [(c & Hc & B)|Sm]; [|contradiction]. exists x, c. auto.
    - rewrite E. reflexivity.
  Qed.
End User.
