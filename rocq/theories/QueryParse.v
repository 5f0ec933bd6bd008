(** * On the concrete selector syntax the query parser finds the selector. *)
From Coq Require Import List NArith Arith Bool Lia Permutation.
From Verif Require Import Base TrieModel DomModel ParserModel DomSpec ApiSpec MsiModel QueryModel QuerySpec
  Lemmas TrieProofs Tables Inv RegProofs ParseTree MsiProofs UsetProofs QueryProofs AttrProofs
  QueryTotal ReadUser.
Import ListNotations.
Local Open Scope nat_scope.

Section Parse.
  Context (lo : nat -> nat) (d : dom) (k : kids) (G : Good d k).
  Context (LN : (N.of_nat (length (nodes d)) <= 65535)%N).
  Let R : RegInv d := g_reg _ _ G.

  (** ** Looking names up *)
  Definition ident (m : amap) (s : bytes) : nat :=
    match map_contains s m with Ok i => i | _ => 0 end.
  Lemma ident_ok reg m s : reg_ok reg m -> map_contains s m = Ok (ident m s).
  Proof. intros (l & _ & H). unfold ident. now rewrite (map_contains_ok s m l H). Qed.

  Definition res1 (x : simple) : option filt :=
    match x with
    | Tag n => let i := ident (tag_map d) n in if i =? 0 then None else Some (FTag i)
    | Attr n => let i := ident (bool_map d) n in if i =? 0 then None else Some (FBool i)
    | AttrIs a v =>
        let i := ident (key_map d) a in
        let j := ident (val_map d) v in
        if i =? 0 then None else if j =? 0 then None else Some (FProp i j)
    end.
  Fixpoint compile (c : compound) (fs : list filt) : qstatus + list filt :=
    match c with
    | [] => inr fs
    | x :: c' => if max_filters <=? length fs then inl QTooMany
                 else match res1 x with
                      | None => inl QNotSeen
                      | Some f => compile c' (fs ++ [f])
                      end
    end.
  Lemma compile_app c c' fs : compile (c ++ c') fs =
    match compile c fs with inl st => inl st | inr fs' => compile c' fs' end.
  Proof.
    revert fs. induction c as [|x c IH]; intros fs; [reflexivity|]. cbn [compile app].
    destruct (max_filters <=? length fs); [reflexivity|]. destruct (res1 x); [apply IH|reflexivity].
  Qed.

  (** ** Tokens *)
  Definition tokc (c : N) : Prop := is_blank c = false /\ c <> cEQ /\ c <> cRB.
  Lemma attr_token_chars s : attr_token s -> exists c r, s = c :: r /\ is_tag_start c = true /\ Forall tokc s.
  Proof.
    intros (c & r & -> & T & F). exists c, r. split; [reflexivity|]. split; [exact T|]. constructor.
    - unfold is_tag_start in T. unfold tokc. destruct (is_blank c) eqn:E.
      + exfalso. unfold is_blank, is_fmt in E. rewrite !orb_true_iff, !N.eqb_eq in E.
        destruct E as [->|[[->| ->]| ->]]; discriminate.
      + split; [reflexivity|]. split; intros ->; discriminate.
    - eapply Forall_impl; [|exact F]. intros x (A & B & C & _). split; auto.
  Qed.

  Lemma token_exact pre s post : Forall tokc s ->
    (post = [] \/ exists c q, post = c :: q /\ (c = cEQ \/ c = cRB)) ->
    parse_token (pre ++ s ++ post) (length pre) = Ok (s, length pre + length s).
  Proof.
    intros F P. unfold parse_token.
    rewrite scan_exact.
    - cbn [bind]. replace (length pre + length s - length pre) with (length s) by lia.
      rewrite read_slice_app. cbn [bind].
      rewrite app_assoc. rewrite <- app_length.
      pose proof (scan_exact (pre ++ s) [] post (fun c => (c =? cEQ)%N || (c =? cRB)%N || (c =? cDOT)%N || (c =? cHASH)%N)) as S.
      cbn [length app] in S. rewrite Nat.add_0_r in S. rewrite S; [reflexivity|constructor|].
      destruct P as [->|(c & q & -> & [-> | ->])]; reflexivity || exact I.
    - eapply Forall_impl; [|exact F]. intros c (A & B & C). cbv beta. rewrite A.
      apply N.eqb_neq in B, C. now rewrite B, C.
    - destruct P as [->|(c & q & -> & [-> | ->])]; reflexivity || exact I.
  Qed.
  (** A class or id name at the end. *)
  Lemma token_last pre s b : Forall tokc s -> blanks b ->
    parse_token (pre ++ s ++ b) (length pre) = Ok (s, length (pre ++ s ++ b)).
  Proof.
    intros F P. unfold parse_token.
    rewrite scan_exact.
    - cbn [bind]. replace (length pre + length s - length pre) with (length s) by lia.
      rewrite read_slice_app. cbn [bind].
      rewrite app_assoc. rewrite <- app_length.
      pose proof (scan_exact (pre ++ s) b [] (fun c => (c =? cEQ)%N || (c =? cRB)%N || (c =? cDOT)%N || (c =? cHASH)%N)) as S.
      rewrite app_nil_r in S. rewrite S; [cbn [bind]; rewrite <- app_length; reflexivity| |exact I].
      eapply Forall_impl; [|exact P]. intros c E. cbv beta in *.
      unfold is_blank, is_fmt in E. rewrite !orb_true_iff, !N.eqb_eq in E.
      destruct E as [->|[[->| ->]| ->]]; reflexivity.
    - eapply Forall_impl; [|exact F]. intros c (A & B & C). cbv beta. rewrite A.
      apply N.eqb_neq in B, C. now rewrite B, C.
    - destruct b as [|c b]; [exact I|]. inversion P as [|? ? E]. now rewrite E.
  Qed.
  (** The opening '[', '.' or '#' is skipped. *)
  Lemma open_exact pre x s post c r : s = c :: r -> is_tag_start c = true -> is_tag_start x = false ->
    scan (pre ++ x :: s ++ post) is_tag_start (length pre) = Ok (S (length pre)).
  Proof.
    intros -> T X. change (x :: (c :: r) ++ post) with ([x] ++ (c :: r ++ post)).
    rewrite scan_exact; [simpl; f_equal; lia| |exact T]. constructor; [exact X|constructor].
  Qed.

  (** ** One filter *)
  Definition one (x : simple) (p : nat) : outcome (qstatus + (option filt * nat)) :=
    match res1 x with
    | None => Ok (inl QNotSeen)
    | Some f => Ok (inr (Some f, p))
    end.
  Lemma filter_attr pre n post : attr_token n ->
    parse_filter (pre ++ [cLB] ++ n ++ [cRB] ++ post) d (length pre) cLB
    = one (Attr n) (length pre + length ([cLB] ++ n ++ [cRB])).
  Proof.
    intros A. destruct (attr_token_chars n A) as (c & r & E & T & F). unfold parse_filter.
    change ([cLB] ++ n ++ [cRB] ++ post) with (cLB :: n ++ (cRB :: post)).
    rewrite (open_exact pre cLB n (cRB :: post) c r E T eq_refl). cbn [bind].
    replace (pre ++ cLB :: n ++ cRB :: post) with ((pre ++ [cLB]) ++ n ++ cRB :: post) by (rewrite <- app_assoc; reflexivity).
    replace (S (length pre)) with (length (pre ++ [cLB])) by (rewrite app_length; simpl; lia).
    rewrite token_exact; [|exact F|right; exists cRB, post; auto]. cbn [bind].
    rewrite (app_assoc (pre ++ [cLB])). rewrite <- app_length, current_char_app.
    cbn [N.eqb orb cLB cDOT cHASH cRB Pos.eqb].
    rewrite (ident_ok _ _ n (ri_bool _ R)). cbn [bind]. unfold one, res1.
    destruct (ident (bool_map d) n =? 0); [reflexivity|]. f_equal. f_equal. f_equal.
    rewrite !app_length. simpl. lia.
  Qed.
  Lemma filter_is pre a v post : attr_token a -> attr_token v ->
    parse_filter (pre ++ [cLB] ++ a ++ [cEQ] ++ v ++ [cRB] ++ post) d (length pre) cLB
    = one (AttrIs a v) (length pre + length ([cLB] ++ a ++ [cEQ] ++ v ++ [cRB])).
  Proof.
    intros A V. destruct (attr_token_chars a A) as (c & r & E & T & F).
    destruct (attr_token_chars v V) as (c' & r' & E' & T' & F'). unfold parse_filter.
    change ([cLB] ++ a ++ [cEQ] ++ v ++ [cRB] ++ post) with (cLB :: a ++ (cEQ :: v ++ cRB :: post)).
    rewrite (open_exact pre cLB a (cEQ :: v ++ cRB :: post) c r E T eq_refl). cbn [bind].
    set (p1 := pre ++ [cLB]).
    replace (pre ++ cLB :: a ++ cEQ :: v ++ cRB :: post) with (p1 ++ a ++ cEQ :: v ++ cRB :: post)
      by (unfold p1; rewrite <- app_assoc; reflexivity).
    replace (S (length pre)) with (length p1) by (unfold p1; rewrite app_length; simpl; lia).
    rewrite token_exact; [|exact F|right; exists cEQ, (v ++ cRB :: post); auto]. cbn [bind].
    rewrite (app_assoc p1). rewrite <- app_length, current_char_app.
    cbn [N.eqb orb cLB cDOT cHASH cRB cEQ Pos.eqb].
    rewrite (ident_ok _ _ a (ri_key _ R)). cbn [bind]. unfold one, res1.
    destruct (ident (key_map d) a =? 0); [reflexivity|].
    set (p2 := (p1 ++ a) ++ [cEQ]).
    replace ((p1 ++ a) ++ cEQ :: v ++ cRB :: post) with (p2 ++ v ++ cRB :: post)
      by (unfold p2; rewrite <- app_assoc; reflexivity).
    replace (S (length (p1 ++ a))) with (length p2) by (unfold p2; rewrite app_length; simpl; lia).
    assert (S0 : scan (p2 ++ v ++ cRB :: post) is_tag_start (length p2) = Ok (length p2)).
    { pose proof (scan_exact p2 [] (v ++ cRB :: post) is_tag_start) as S. cbn [length app] in S.
      rewrite Nat.add_0_r in S. apply S; [constructor|]. rewrite E'. exact T'. }
    rewrite S0. cbn [bind].
    rewrite token_exact; [|exact F'|right; exists cRB, post; auto]. cbn [bind].
    rewrite (ident_ok _ _ v (ri_val _ R)). cbn [bind].
    destruct (ident (val_map d) v =? 0); [reflexivity|].
    rewrite (app_assoc p2). rewrite <- app_length, current_char_app. cbn [N.eqb cRB Pos.eqb].
    f_equal. f_equal. f_equal. unfold p2, p1. rewrite !app_length. simpl. lia.
  Qed.
  Lemma filter_class pre x v b : (x = cDOT \/ x = cHASH) -> class_token v -> blanks b ->
    parse_filter (pre ++ [x] ++ v ++ b) d (length pre) x
    = one (AttrIs (if (x =? cDOT)%N then s_class else s_id) v) (length (pre ++ [x] ++ v ++ b)).
  Proof.
    intros X [A _] B. destruct (attr_token_chars v A) as (c & r & E & T & F). unfold parse_filter.
    change ([x] ++ v ++ b) with (x :: v ++ b).
    rewrite (open_exact pre x v b c r E T); [|destruct X as [-> | ->]; reflexivity]. cbn [bind].
    replace (pre ++ x :: v ++ b) with ((pre ++ [x]) ++ v ++ b) by (rewrite <- app_assoc; reflexivity).
    replace (S (length pre)) with (length (pre ++ [x])) by (rewrite app_length; simpl; lia).
    rewrite token_last; [|exact F|exact B]. cbn [bind].
    replace ((x =? cDOT)%N || (x =? cHASH)%N) with true by (destruct X as [-> | ->]; reflexivity).
    rewrite (ident_ok _ _ _ (ri_key _ R)). cbn [bind]. unfold one, res1.
    destruct (ident (key_map d) _ =? 0); [reflexivity|].
    rewrite (ident_ok _ _ v (ri_val _ R)). cbn [bind].
    destruct (ident (val_map d) v =? 0); [reflexivity|].
    assert (Z : current_char ((pre ++ [x]) ++ v ++ b) (length ((pre ++ [x]) ++ v ++ b)) = 0%N).
    { unfold current_char. destruct (nth_error _ _) eqn:N; [|reflexivity].
      assert (length ((pre ++ [x]) ++ v ++ b) < length ((pre ++ [x]) ++ v ++ b)); [|lia].
      apply nth_error_Some. congruence. }
    rewrite Z. reflexivity.
  Qed.

  (** ** All filters of an element *)
  Lemma filters_brackets c s : brackets c s -> forall pre post t fuel fs (K : list filt -> outcome (qstatus + (list filt * nat))),
    t = pre ++ s ++ post -> length (s ++ post) < fuel ->
    (forall f fs', length post < f -> filters_loop f t d (length pre + length s) fs' = K fs') ->
    filters_loop fuel t d (length pre) fs =
    match compile c fs with inl st => Ok (inl st) | inr fs' => K fs' end.
  Proof.
    assert (Loop : forall pre rest f fs, filters_loop (S f) (pre ++ cLB :: rest) d (length pre) fs =
      if max_filters <=? length fs then Ok (inl QTooMany)
      else let* r := parse_filter (pre ++ cLB :: rest) d (length pre) cLB in
           match r with
           | inl st => Ok (inl st)
           | inr (None, j) => filters_loop f (pre ++ cLB :: rest) d j fs
           | inr (Some x, j) => let* fs := push_filter fs x in filters_loop f (pre ++ cLB :: rest) d j fs
           end).
    { intros. cbn [filters_loop]. replace (length pre <? length (pre ++ cLB :: rest)) with true
        by (symmetry; apply Nat.ltb_lt; rewrite app_length; simpl; lia).
      rewrite get_char_app. reflexivity. }
    induction 1 as [|n c s A B IH|a v c s A V B IH]; intros pre post t fuel fs K Et Lf HK.
    - simpl. specialize (HK fuel fs). rewrite Nat.add_0_r in HK. apply HK. exact Lf.
    - destruct fuel as [|f]; [lia|].
      assert (Et' : t = pre ++ cLB :: n ++ [cRB] ++ s ++ post)
        by (rewrite Et; simpl; rewrite <- !app_assoc; reflexivity).
      rewrite Et' at 1. rewrite Loop. rewrite <- Et'. cbn [compile].
      destruct (max_filters <=? length fs) eqn:M; [reflexivity|].
      rewrite Et' at 1. pose proof (filter_attr pre n (s ++ post) A) as FA.
      cbn [app] in FA. cbn [app]. rewrite FA. unfold one. destruct (res1 (Attr n)) as [x|]; [|reflexivity].
      cbn [bind]. apply Nat.leb_gt in M. unfold push_filter.
      replace (length fs <? max_filters) with true by (symmetry; now apply Nat.ltb_lt). cbn [bind].
      specialize (IH (pre ++ cLB :: n ++ [cRB]) post t f (fs ++ [x]) K).
      rewrite <- app_length.
      apply IH.
      + rewrite Et. simpl. rewrite <- !app_assoc. simpl. rewrite <- !app_assoc. reflexivity.
      + revert Lf. rewrite !app_length. simpl. rewrite ?app_length. simpl. lia.
      + intros f' fs' Lf'. rewrite <- (HK f' fs' Lf'). f_equal. rewrite !app_length. simpl. rewrite !app_length. simpl. lia.
    - destruct fuel as [|f]; [lia|].
      assert (Et' : t = pre ++ cLB :: a ++ [cEQ] ++ v ++ [cRB] ++ s ++ post)
        by (rewrite Et; simpl; rewrite <- !app_assoc; simpl; rewrite <- !app_assoc; reflexivity).
      rewrite Et' at 1. rewrite Loop. rewrite <- Et'. cbn [compile].
      destruct (max_filters <=? length fs) eqn:M; [reflexivity|].
      rewrite Et' at 1. pose proof (filter_is pre a v (s ++ post) A V) as FA.
      cbn [app] in FA. cbn [app]. rewrite FA. unfold one. destruct (res1 (AttrIs a v)) as [x|]; [|reflexivity].
      cbn [bind]. apply Nat.leb_gt in M. unfold push_filter.
      replace (length fs <? max_filters) with true by (symmetry; now apply Nat.ltb_lt). cbn [bind].
      specialize (IH (pre ++ cLB :: a ++ cEQ :: v ++ [cRB]) post t f (fs ++ [x]) K).
      rewrite <- app_length.
      apply IH.
      + rewrite Et'. simpl. rewrite <- !app_assoc. simpl. rewrite <- !app_assoc. simpl. rewrite <- !app_assoc. reflexivity.
      + revert Lf. rewrite !app_length. simpl. rewrite ?app_length. simpl. rewrite ?app_length. simpl. lia.
      + intros f' fs' Lf'. rewrite <- (HK f' fs' Lf'). f_equal. rewrite !app_length. simpl. rewrite !app_length. simpl. rewrite !app_length. simpl. lia.
  Qed.

  (** What may follow the filters of an element. *)
  Definition stops (post : bytes) : Prop :=
    match post with [] => True | c :: _ => end_of_filter c = true /\ c <> cLB /\ c <> cDOT /\ c <> cHASH end.
  Lemma filters_stop pre post : stops post -> forall f fs, length post < f ->
    filters_loop f (pre ++ post) d (length pre) fs = Ok (inr (fs, length pre)).
  Proof.
    intros S f fs L. destruct f as [|f]; [lia|]. cbn [filters_loop]. destruct post as [|c post].
    - rewrite app_nil_r, Nat.ltb_irrefl. reflexivity.
    - replace (length pre <? length (pre ++ c :: post)) with true
        by (symmetry; apply Nat.ltb_lt; rewrite app_length; simpl; lia).
      rewrite get_char_app. cbn [bind]. destruct S as (_ & A & B & C).
      apply N.eqb_neq in A, B, C. rewrite A, B, C. reflexivity.
  Qed.
  Lemma filters_class pre x v b : (x = cDOT \/ x = cHASH) -> class_token v -> blanks b ->
    forall f fs, length ([x] ++ v ++ b) < f ->
    filters_loop f (pre ++ [x] ++ v ++ b) d (length pre) fs =
    match compile [AttrIs (if (x =? cDOT)%N then s_class else s_id) v] fs with
    | inl st => Ok (inl st) | inr fs' => Ok (inr (fs', length (pre ++ [x] ++ v ++ b))) end.
  Proof.
    intros X V B f fs L. destruct f as [|f]; [lia|]. cbn [filters_loop].
    replace (length pre <? length (pre ++ [x] ++ v ++ b)) with true
      by (symmetry; apply Nat.ltb_lt; rewrite app_length; simpl; lia).
    change (pre ++ [x] ++ v ++ b) with (pre ++ x :: v ++ b) at 1. rewrite get_char_app. cbn [bind].
    replace ((x =? cLB)%N || (x =? cDOT)%N || (x =? cHASH)%N) with true by (destruct X as [-> | ->]; reflexivity).
    cbn [compile]. destruct (max_filters <=? length fs) eqn:M; [reflexivity|].
    rewrite (filter_class pre x v b X V B). unfold one. destruct (res1 _) as [y|]; [|reflexivity].
    cbn [bind]. apply Nat.leb_gt in M. unfold push_filter.
    replace (length fs <? max_filters) with true by (symmetry; now apply Nat.ltb_lt). cbn [bind].
    assert (Lb : length b < f) by (revert L; rewrite !app_length; simpl; lia).
    pose proof (filters_stop (pre ++ [x] ++ v ++ b) [] I f (fs ++ [y])) as S. rewrite app_nil_r in S.
    apply S. simpl. lia.
  Qed.

  Lemma tag_token_chars s : tag_token s -> exists c r, s = c :: r /\ is_tag_start c = true /\ Forall (fun c => end_of_filter c = false) s.
  Proof.
    intros (c & r & -> & T & F). exists c, r. split; [reflexivity|]. split; [exact T|]. constructor.
    - destruct (end_of_filter c) eqn:E; [|reflexivity]. exfalso. revert T E.
      unfold end_of_filter, is_spec_comb, is_fmt. rewrite !orb_true_iff, !N.eqb_eq. intros T Hc.
      repeat destruct Hc as [Hc|Hc]; subst; discriminate.
    - eapply Forall_impl; [|exact F]. intros y [Y _]. exact Y.
  Qed.

  (** The parser on one element: tag and filters. *)
  Definition element (t : bytes) (i : nat) : outcome (qstatus + (list filt * nat)) :=
    let* r := parse_head t d i [] in
    match r with
    | inl st => Ok (inl st)
    | inr (fs, i) => filters_loop (S (length t)) t d i fs
    end.
  Definition eoc (c : N) : Prop := end_of_filter c = true.

  Lemma brackets_first c s : brackets c s -> s = [] /\ c = [] \/ exists r, s = cLB :: r.
  Proof. intros H. destruct H; [left; auto|right|right]; simpl; eauto. Qed.

  Lemma element_gen c s : compound_str c s -> forall pre post t K, t = pre ++ s ++ post ->
    match post with [] => True | x :: _ => end_of_filter x = true end ->
    (forall f fs, length post < f -> filters_loop f t d (length pre + length s) fs = K fs) ->
    element t (length pre) = match compile c [] with inl st => Ok (inl st) | inr fs => K fs end.
  Proof.
    intros H pre post t K Et Hp HK. unfold element. destruct H as [n c s T B|c s B NE].
    - destruct (tag_token_chars n T) as (x & r & En & Tx & F).
      assert (Et' : t = pre ++ n ++ (s ++ post)) by (rewrite Et, <- app_assoc; reflexivity).
      unfold parse_head.
      assert (C : current_char t (length pre) = x) by (rewrite Et', En; cbn [app]; apply current_char_app).
      rewrite C, Tx. cbn [length max_filters Nat.leb].
      assert (Sc : scan t end_of_filter (length pre) = Ok (length pre + length n)).
      { rewrite Et'. apply scan_exact; [exact F|].
        destruct (brackets_first c s B) as [[-> _]|(r' & ->)]; [exact Hp|reflexivity]. }
      rewrite Sc. cbn [bind]. replace (length pre + length n - length pre) with (length n) by lia.
      rewrite Et' at 1. rewrite read_slice_app. cbn [bind].
      rewrite (ident_ok _ _ n (ri_tag _ R)). cbn [bind compile res1 length max_filters Nat.leb].
      destruct (ident (tag_map d) n =? 0); [reflexivity|]. cbn [push_filter length max_filters Nat.ltb Nat.leb bind app].
      rewrite <- app_length. eapply (filters_brackets c s B (pre ++ n) post).
      + rewrite Et', <- app_assoc. reflexivity.
      + rewrite Et', !app_length. lia.
      + intros f fs' L. rewrite <- (HK f fs' L). f_equal. rewrite !app_length. lia.
    - destruct (brackets_first c s B) as [[_ ->]|(r' & Es)]; [congruence|].
      unfold parse_head.
      assert (C : current_char t (length pre) = cLB) by (rewrite Et, Es; cbn [app]; apply current_char_app).
      rewrite C. cbn [is_tag_start]. change (is_tag_start cLB) with false. change (cLB =? cSTAR)%N with false.
      cbn [bind]. eapply (filters_brackets c s B pre post); [exact Et| |exact HK].
      rewrite Et, !app_length. lia.
  Qed.

  Lemma element_plain c s pre post t : compound_str c s -> t = pre ++ s ++ post -> stops post ->
    element t (length pre) = match compile c [] with inl st => Ok (inl st)
                             | inr fs => Ok (inr (fs, length pre + length s)) end.
  Proof.
    intros H Et S. eapply element_gen; [exact H|exact Et| |].
    - destruct post; [exact I|]. apply S.
    - intros f fs L. rewrite Et, app_assoc, <- app_length. now apply filters_stop.
  Qed.

  Lemma blanks_stops b : blanks b -> stops b.
  Proof.
    destruct b as [|c b]; [intros; exact I|]. intros H. inversion H as [|? ? E ?]. subst. cbn [stops].
    unfold is_blank, is_fmt in E. rewrite !orb_true_iff, !N.eqb_eq in E.
    destruct E as [->|[[->| ->]| ->]]; (split; [reflexivity|]); repeat split; discriminate.
  Qed.

  (** The last element of a selector; afterwards only blanks are left. *)
  Lemma element_last c s b pre t : last_str c s -> blanks b -> t = pre ++ s ++ b ->
    exists p, (p = length pre + length s \/ p = length t) /\
    element t (length pre) = match compile c [] with inl st => Ok (inl st)
                             | inr fs => Ok (inr (fs, p)) end.
  Proof.
    intros H B Et.
    assert (Cls : forall c s x v, compound_str c s -> (x = cDOT \/ x = cHASH) -> class_token v ->
      t = pre ++ (s ++ [x] ++ v) ++ b ->
      element t (length pre) = match compile (c ++ [AttrIs (if (x =? cDOT)%N then s_class else s_id) v]) [] with
        inl st => Ok (inl st) | inr fs => Ok (inr (fs, length t)) end).
    { clear c s H Et. intros c s x v H X V Et. rewrite compile_app.
      assert (Et' : t = pre ++ s ++ ([x] ++ v ++ b)) by (rewrite Et, <- !app_assoc; reflexivity).
      rewrite (element_gen c s H pre ([x] ++ v ++ b) t
        (fun fs => match compile [AttrIs (if (x =? cDOT)%N then s_class else s_id) v] fs with
           inl st => Ok (inl st) | inr fs' => Ok (inr (fs', length t)) end) Et').
      - destruct (compile c []); reflexivity.
      - destruct X as [-> | ->]; reflexivity.
      - intros f fs L. rewrite Et', app_assoc, <- app_length. apply filters_class; auto. }
    assert (Cls1 : forall x v, (x = cDOT \/ x = cHASH) -> class_token v -> t = pre ++ ([x] ++ v) ++ b ->
      element t (length pre) = match compile [AttrIs (if (x =? cDOT)%N then s_class else s_id) v] [] with
        inl st => Ok (inl st) | inr fs => Ok (inr (fs, length t)) end).
    { clear c s H Et Cls. intros x v X V Et. unfold element, parse_head.
      assert (Et' : t = pre ++ [x] ++ v ++ b) by (rewrite Et, <- !app_assoc; reflexivity).
      assert (C : current_char t (length pre) = x) by (rewrite Et'; cbn [app]; apply current_char_app).
      rewrite C. replace (is_tag_start x) with false by (destruct X as [-> | ->]; reflexivity).
      replace (x =? cSTAR)%N with false by (destruct X as [-> | ->]; reflexivity). cbn [bind].
      rewrite Et' at 2. rewrite (filters_class pre x v b X V B); [rewrite <- Et'; reflexivity|].
      rewrite Et', !app_length. lia. }
    destruct H as [c s H|c s v H V|c s v H V|v V|v V].
    - exists (length pre + length s). split; [auto|]. eapply element_plain; eauto. now apply blanks_stops.
    - exists (length t). split; [auto|]. apply (Cls c s cDOT v); auto.
    - exists (length t). split; [auto|]. apply (Cls c s cHASH v); auto.
    - exists (length t). split; [auto|]. apply (Cls1 cDOT v); auto.
    - exists (length t). split; [auto|]. apply (Cls1 cHASH v); auto.
  Qed.

  (** ** Combinators *)
  Definition comb_of (r : rel) : comb :=
    match r with Child => CChild | Descendant => CDescendant | NextSib => CAdjacent | LaterSib => CSibling end.
  Lemma comb_blanks b : blanks b -> forall pre post f c, length b <= f ->
    comb_loop f (pre ++ b ++ post) (length pre) c = comb_loop (f - length b) (pre ++ b ++ post) (length pre + length b) c.
  Proof.
    induction b as [|x b IH]; intros B pre post f c L.
    - simpl. rewrite Nat.add_0_r, Nat.sub_0_r. reflexivity.
    - inversion B as [|? ? E B']. subst. simpl in L. destruct f as [|f]; [lia|].
      cbn [comb_loop].
      replace (length pre <? length (pre ++ (x :: b) ++ post)) with true
        by (symmetry; apply Nat.ltb_lt; rewrite app_length; simpl; lia).
      change (pre ++ (x :: b) ++ post) with (pre ++ x :: b ++ post). rewrite get_char_app. cbn [bind].
      assert (X : is_elem_start x || (x =? cLB)%N = false /\ (x =? cGT)%N = false /\ (x =? cPLUS)%N = false /\ (x =? cTILDE)%N = false).
      { unfold is_blank, is_fmt in E. rewrite !orb_true_iff, !N.eqb_eq in E.
        destruct E as [->|[[->| ->]| ->]]; repeat split; reflexivity. }
      destruct X as (X1 & -> & -> & ->). rewrite X1.
      specialize (IH B' (pre ++ [x]) post f c ltac:(lia)).
      rewrite <- app_assoc in IH. cbn [app] in IH. rewrite app_length in IH. cbn [length] in IH.
      replace (length pre + 1) with (S (length pre)) in IH by lia. rewrite IH.
      cbn [length Nat.sub]. f_equal. lia.
  Qed.
  Definition starts_elem (s : bytes) : Prop :=
    exists c r, s = c :: r /\ (is_elem_start c || (c =? cLB)%N) = true.
  Lemma comb_char t p x q f c r : rel_char r = [x] -> t = p ++ x :: q ->
    comb_loop (S f) t (length p) c = comb_loop f t (S (length p)) (comb_of r).
  Proof.
    intros E ->. cbn [comb_loop].
    replace (length p <? length (p ++ x :: q)) with true
      by (symmetry; apply Nat.ltb_lt; rewrite app_length; simpl; lia).
    rewrite get_char_app. cbn [bind]. destruct r; try discriminate; injection E as <-; reflexivity.
  Qed.
  Lemma comb_exact r g pre post f : rel_str r g -> starts_elem post -> length g <= f ->
    comb_loop f (pre ++ g ++ post) (length pre) CDescendant = Ok (comb_of r, length pre + length g).
  Proof.
    intros (a & b & A & B & Eg & _) (x & q & Ep & X) L. set (t := pre ++ g ++ post).
    assert (Stop : forall f' c, comb_loop f' t (length pre + length g) c = Ok (c, length pre + length g)).
    { intros f' c. unfold t. rewrite app_assoc, <- app_length, Ep.
      destruct f'; cbn [comb_loop]; (replace (length (pre ++ g) <? length ((pre ++ g) ++ x :: q)) with true
        by (symmetry; apply Nat.ltb_lt; rewrite (app_length (pre ++ g)); simpl; lia));
        rewrite get_char_app; cbn [bind]; rewrite X; reflexivity. }
    assert (Lg : length g = length a + length (rel_char r) + length b) by (rewrite Eg, !app_length; lia).
    assert (Fin : forall p f' c, t = p ++ b ++ post -> length b <= f' ->
       comb_loop f' t (length p) c = Ok (c, length pre + length g)).
    { intros p f' c E Lb. rewrite E, (comb_blanks b B p post f' c Lb), <- E.
      replace (length p + length b) with (length pre + length g); [apply Stop|].
      apply (f_equal (@length N)) in E. unfold t in E. rewrite !app_length in E. lia. }
    assert (Et : t = pre ++ a ++ (rel_char r ++ b ++ post)) by (unfold t; rewrite Eg, <- !app_assoc; reflexivity).
    rewrite Et, (comb_blanks a A pre _ f) by lia. rewrite <- Et, <- app_length.
    destruct (rel_char r) as [|y [|]] eqn:Er.
    - destruct r; try discriminate. cbn [comb_of]. apply Fin; [|simpl in Lg; lia].
      rewrite Et, app_assoc. reflexivity.
    - simpl in Lg. destruct (f - length a) as [|f'] eqn:Ef; [lia|].
      rewrite (comb_char t (pre ++ a) y (b ++ post) f' _ r Er) by (rewrite Et, app_assoc; reflexivity).
      replace (S (length (pre ++ a))) with (length ((pre ++ a) ++ [y])) by (rewrite app_length; simpl; lia).
      apply Fin; [|lia]. rewrite Et, <- !app_assoc. reflexivity.
    - destruct r; discriminate.
  Qed.

  (** ** A whole selector *)
  Fixpoint eval (c : compound) (l : list (rel * compound)) (cb : comb) (s : uset)
    : outcome (qstatus * uset) :=
    match compile c [] with
    | inl st => Ok (st, s)
    | inr fs =>
        let* s := q_step lo cb fs d s in
        match l with
        | [] => Ok (QSuccess, s)
        | (r, c') :: l' => eval c' l' (comb_of r) s
        end
    end.
  Lemma compound_nonempty c s : compound_str c s -> c <> [] /\ starts_elem s.
  Proof.
    intros [n c' s' T B|c' s' B NE].
    - split; [discriminate|]. destruct T as (x & r & -> & T & _). exists x, (r ++ s'). split; [reflexivity|].
      unfold is_elem_start. now rewrite T.
    - split; [exact NE|]. destruct (brackets_first _ _ B) as [[_ ->]|(r & ->)]; [congruence|].
      exists cLB, r. split; reflexivity.
  Qed.
  Lemma last_nonempty c s : last_str c s -> c <> [] /\ starts_elem s.
  Proof.
    intros [c0 s0 H|c0 s0 v H V|c0 s0 v H V|v V|v V].
    - now apply (compound_nonempty c0 s0).
    - destruct (compound_nonempty _ _ H) as [_ (x & r & -> & X)]. split; [now destruct c0|].
      exists x, (r ++ [cDOT] ++ v). auto.
    - destruct (compound_nonempty _ _ H) as [_ (x & r & -> & X)]. split; [now destruct c0|].
      exists x, (r ++ [cHASH] ++ v). auto.
    - split; [discriminate|]. exists cDOT, v. auto.
    - split; [discriminate|]. exists cHASH, v. auto.
  Qed.
  Lemma tail_starts c l s : tail_str c l s -> starts_elem s.
  Proof.
    intros [c0 s0 b H B|c0 s0 r g c' l' s' H R' T].
    - destruct (last_nonempty _ _ H) as [_ (x & q & -> & X)]. exists x, (q ++ b). auto.
    - destruct (compound_nonempty _ _ H) as [_ (x & q & -> & X)]. exists x, (q ++ g ++ s'). auto.
  Qed.
  Lemma rel_stops r g post : rel_str r g -> stops (g ++ post).
  Proof.
    intros (a & b & A & B & -> & NE). destruct a as [|x a].
    - destruct r; cbn [rel_char app].
      + cbn. repeat split; discriminate.
      + destruct b as [|x b]; [contradiction|]. pose proof (blanks_stops _ B) as S. exact S.
      + cbn. repeat split; discriminate.
      + cbn. repeat split; discriminate.
    - pose proof (blanks_stops _ A) as S. exact S.
  Qed.
  Lemma compile_ne c fs fs' : compile c fs = inr fs' -> c <> [] -> fs' <> [].
  Proof.
    assert (X : forall c fs fs', compile c fs = inr fs' -> length fs' = length fs + length c).
    { clear. induction c as [|x c IH]; intros fs fs'; cbn [compile].
      - intros E. injection E as ->. simpl. lia.
      - destruct (max_filters <=? length fs); [discriminate|]. destruct (res1 x); [|discriminate].
        intros E. apply IH in E. rewrite app_length in E. simpl in *. lia. }
    intros E N ->. apply X in E. destruct c; [congruence|]. simpl in E. lia.
  Qed.
  Lemma query_step t i f cb s c p : element t i = match compile c [] with inl st => Ok (inl st)
        | inr fs => Ok (inr (fs, p)) end -> c <> [] -> i < length t ->
    query_loop (S f) lo t d i cb s =
    match compile c [] with
    | inl st => Ok (st, s)
    | inr fs => let* s := q_step lo cb fs d s in
                let* '(c, i) := comb_loop (length t) t p CDescendant in
                query_loop f lo t d i c s
    end.
  Proof.
    intros E NE L. cbn [query_loop]. replace (i <? length t) with true by (symmetry; now apply Nat.ltb_lt).
    unfold element in E. destruct (parse_head t d i []) as [[st|[fs j]]| | |]; cbn [bind] in *;
      try (destruct (compile c []); discriminate).
    - destruct (compile c []) as [st'|]; [|discriminate]. injection E as ->. reflexivity.
    - rewrite E. destruct (compile c []) as [st'|fs'] eqn:C; cbn [bind]; [reflexivity|].
      pose proof (compile_ne _ _ _ C NE). destruct fs' as [|y fs']; [congruence|]. reflexivity.
  Qed.

  Lemma query_exact c l s : tail_str c l s -> forall pre t fuel cb st, t = pre ++ s -> length s <= fuel ->
    query_loop (S fuel) lo t d (length pre) cb st = eval c l cb st.
  Proof.
    induction 1 as [c s b H B|c s r g c' l s' H Rg T IH]; intros pre t fuel cb st Et Lf.
    - destruct (last_nonempty _ _ H) as [NE (x & q & Es & X)].
      destruct (element_last c s b pre t H B Et) as (p & Hp & E).
      rewrite (query_step t (length pre) fuel cb st c p E NE) by (rewrite Et, Es, !app_length; simpl; lia).
      cbn [eval]. destruct (compile c []) as [q1|fs]; [reflexivity|].
      destruct (q_step lo cb fs d st) as [s1| | |]; try reflexivity. cbn [bind].
      assert (C : comb_loop (length t) t p CDescendant = Ok (CDescendant, length t)).
      { assert (End : forall f, comb_loop f t (length t) CDescendant = Ok (CDescendant, length t)).
        { intros [|f]; cbn [comb_loop]; now rewrite Nat.ltb_irrefl. }
        destruct Hp as [-> | ->]; [|apply End].
        rewrite <- app_length. pose proof (comb_blanks b B (pre ++ s) [] (length t) CDescendant) as CB.
        rewrite app_nil_r in CB. replace ((pre ++ s) ++ b) with t in CB by (rewrite Et, app_assoc; reflexivity).
        rewrite CB by (rewrite Et, !app_length; lia).
        replace (length (pre ++ s) + length b) with (length t) by (rewrite Et, !app_length; lia). apply End. }
      rewrite C. cbn [bind]. destruct fuel; cbn [query_loop]; now rewrite Nat.ltb_irrefl.
    - destruct (compound_nonempty _ _ H) as [NE (x & q & Es & X)].
      pose proof (tail_starts _ _ _ T) as St.
      assert (E : element t (length pre) = match compile c [] with inl st => Ok (inl st)
        | inr fs => Ok (inr (fs, length pre + length s)) end).
      { eapply element_plain; [exact H|exact Et|]. eapply rel_stops; eauto. }
      rewrite (query_step t (length pre) fuel cb st c _ E NE) by (rewrite Et, Es, !app_length; simpl; lia).
      cbn [eval]. destruct (compile c []) as [q1|fs]; [reflexivity|].
      destruct (q_step lo cb fs d st) as [s1| | |]; try reflexivity. cbn [bind].
      rewrite <- app_length.
      assert (Et' : t = (pre ++ s) ++ g ++ s') by (rewrite Et, <- app_assoc; reflexivity).
      rewrite Et' at 2. rewrite (comb_exact r g (pre ++ s) s' (length t) Rg St) by (rewrite Et', !app_length; lia).
      cbn [bind]. rewrite <- app_length. destruct fuel as [|fuel]; [rewrite Es in Lf; simpl in Lf; lia|].
      apply IH; [rewrite Et', app_assoc; reflexivity|]. rewrite Es, !app_length in Lf. simpl in Lf. lia.
  Qed.

  Lemma results_exact x s st : selector_str x s ->
    query_results lo s d st = eval (fst x) (snd x) CNone st.
  Proof.
    intros (b & r & B & T & ->). unfold query_results.
    pose proof (tail_starts _ _ _ T) as (y & q & Er & Y).
    pose proof (scan_exact [] b r (fun c => is_elem_start c || (c =? cLB)%N || (c =? cSTAR)%N)) as S.
    cbn [length app plus] in S. rewrite S; cbn [bind].
    - apply (query_exact _ _ _ T b); [reflexivity|]. rewrite app_length. lia.
    - eapply Forall_impl; [|exact B]. intros c E. cbv beta in *.
      unfold is_blank, is_fmt in E. rewrite !orb_true_iff, !N.eqb_eq in E.
      destruct E as [->|[[->| ->]| ->]]; reflexivity.
    - rewrite Er, Y. reflexivity.
  Qed.
End Parse.
