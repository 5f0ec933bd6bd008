(** * What every selector string denotes. *)
From Coq Require Import List NArith Arith Bool Lia.
From Verif Require Import Base TrieModel DomModel ParserModel EditModel DomSpec ApiSpec MsiModel QueryModel QuerySpec
  SelectorSpec Lemmas TrieProofs Inv RegProofs ParseTree MsiProofs UsetProofs QueryProofs QueryTotal QueryParse
  QueryUser SelectorRead ApiProofs ReadUser EditUser QueryRel.
Import ListNotations.
Local Open Scope nat_scope.

Lemma parts_cons c s : parts (c :: s) =
  fst (until (fun c => (c =? cCOMMA)%N) (c :: s)) :: parts (tl (from (fun c => (c =? cCOMMA)%N) (c :: s))).
Proof.
  revert c. induction s as [|c' s IH]; intros c.
  - unfold from. cbn. destruct (c =? cCOMMA)%N; reflexivity.
  - assert (P : parts (c :: c' :: s) = if (c =? cCOMMA)%N then [] :: parts (c' :: s)
      else match parts (c' :: s) with [] => [[c]] | p :: ps => (c :: p) :: ps end) by reflexivity.
    rewrite P. unfold from in *. change (until ?p (c :: ?l)) with
      (if p c then ([], c :: l) else (c :: fst (until p l), snd (until p l))). cbv beta.
    destruct (c =? cCOMMA)%N eqn:E; [reflexivity|]. rewrite (IH c'). reflexivity.
Qed.

Section User.
  Context (lo : nat -> nat) (d : dom) (k : kids) (G : Good d k).
  Context (LN : (N.of_nat (length (nodes d)) <= 65535)%N).

  Definition names_known (cs : list cond) : Prop := forall x, In (Is x) cs -> known1 d x.
  Lemma comp_known cs : (exists fs, comp d cs = Some fs) <-> names_known cs.
  Proof.
    unfold names_known. induction cs as [|x cs IH]; cbn [comp].
    - split; [intros _ x []|eauto].
    - assert (R1 : (exists f, resc d x = Some f) <-> (forall y, x = Is y -> known1 d y)).
      { destruct x as [x|]; cbn [resc].
        - rewrite <- (known_res d k G x). split; [intros H y [= <-]; exact H|auto].
        - split; [discriminate|eauto]. }
      destruct (resc d x) as [f|].
      + destruct (comp d cs) as [fs|].
        * split; [|eauto]. intros _ y [->|Hy]; [now apply R1; eauto|]. apply IH; eauto.
        * split; [intros (? & H); discriminate|]. intros H. exfalso.
          destruct (proj2 IH) as (? & F); [|discriminate]. intros y Hy. apply H. now right.
      + split; [intros (? & H); discriminate|]. intros H. exfalso.
        destruct (proj2 R1) as (? & F); [|discriminate]. intros y ->. apply H. now left.
  Qed.
  Lemma comp_match cs : forall fs n, comp d cs = Some fs -> n <> 0 -> (fmatch lo d n fs <-> meets lo d n cs).
  Proof.
    induction cs as [|x cs IH]; intros fs n E N; cbn [comp] in E; [injection E as <-; simpl; tauto|].
    destruct (resc d x) as [f|] eqn:EX; [|discriminate]. destruct (comp d cs) as [fs'|]; [|discriminate].
    injection E as <-. destruct x as [x|]; cbn [resc meets] in *.
    - pose proof (res_match lo d k G x f n EX N) as RM.
      assert (X : fmatch lo d n (f :: fs') <-> fm1 lo d n f /\ fmatch lo d n fs').
      { destruct f; try (simpl; tauto). exfalso. destruct x; simpl in EX;
          repeat match type of EX with context [if ?b then _ else _] => destruct b end; discriminate. }
      rewrite X, RM, (IH fs' n eq_refl N). tauto.
    - injection EX as <-. simpl. tauto.
  Qed.
  Lemma comp_app a b : comp d (a ++ b) =
    match comp d a, comp d b with Some x, Some y => Some (x ++ y) | _, _ => None end.
  Proof.
    induction a as [|x a IH]; cbn [app comp].
    - destruct (comp d b); reflexivity.
    - destruct (resc d x); [|reflexivity]. rewrite IH. destruct (comp d a); [|reflexivity]. destruct (comp d b); reflexivity.
  Qed.

  Definition rc (r : option rel) : comb := match r with None => CNone | Some r => comb_of r end.
  Lemma pick_comb r cs fs P : comp d cs = Some fs -> inside d P -> forall n,
    (fmatch lo d n fs /\ comb_rel d (rc r) P n <-> pick lo d P (r, cs) n).
  Proof.
    intros E I n. unfold pick. cbn [fst snd].
    assert (X : comb_rel d (rc r) P n <-> match r with None => node_id d n | Some r => exists m, P m /\ related d r m n end).
    { destruct r as [r|]; cbn [rc]; [apply comb_of_rel|reflexivity]. }
    rewrite <- X. split; intros [A B]; (split; [|exact B]);
      apply (comp_match cs fs n E); auto; apply (comb_rel_inside d k G LN (rc r) P I n B).
  Qed.
  Lemma all_known_cons r cs l : all_known d ((r, cs) :: l) <-> names_known cs /\ all_known d l.
  Proof.
    unfold all_known, names_known. split.
    - intros H. split; [intros x Hx; apply (H r cs); [now left|exact Hx]|]. intros r' c' x H1 H2. apply (H r' c'); [now right|exact H2].
    - intros [A B] r' c' x [[= -> ->]|H1] H2; [auto|]. now apply (B r' c').
  Qed.
  Lemma all_known_dec l : all_known d l \/ ~ all_known d l.
  Proof.
    induction l as [|[r cs] l IH]; [left; intros ? ? ? []|]. rewrite all_known_cons. destruct (comp d cs) as [fs|] eqn:E.
    - assert (names_known cs) by (apply comp_known; eauto). destruct IH; tauto.
    - right. intros [H _]. apply comp_known in H as (? & ?). congruence.
  Qed.

  Definition said (e : ending) : qstatus :=
    match e with Complete => QSuccess | NoCondition => QInvalid | TooMany => QTooMany end.

  Lemma query_read t : forall f fuel s i r ph st P, att t i s -> length s <= f -> length s < fuel ->
    holds ph st P -> (r = None -> ph = 0 /\ forall n, ~ P n) -> inside d P ->
    let '(l, e) := elements_at f r s in
    exists q st', query_loop fuel lo t d i (rc r) st = Ok (q, st') /\
      (all_known d l -> q = said e) /\ (~ all_known d l -> q = QNotSeen) /\
      (q = QSuccess -> exists ph', holds ph' st' (fold_left (pick lo d) l P) /\
          inside d (fold_left (pick lo d) l P)).
  Proof.
    assert (EMP : all_known d []) by (intros ? ? ? []).
    induction f as [|f IH]; intros fuel s i r ph st P H L1 L2 Hs HN HP.
    - destruct s; [|simpl in L1; lia]. destruct fuel; [simpl in L2; lia|]. cbn [elements_at query_loop].
      rewrite (att_lt _ _ _ H). exists QSuccess, st. split; [reflexivity|]. split; [reflexivity|]. split; [tauto|]. intros _. eauto.
    - destruct fuel as [|fuel]; [lia|]. destruct s as [|c s].
      + cbn [elements_at query_loop]. rewrite (att_lt _ _ _ H). exists QSuccess, st.
        split; [reflexivity|]. split; [reflexivity|]. split; [tauto|]. intros _. eauto.
      + cbn [elements_at query_loop]. rewrite (att_lt _ _ _ H).
        destruct (att_head d k G t i c s H) as (j & Hj & Lh & Eh). rewrite Eh. clear Eh.
        pose proof (head_le (c :: s)) as HL. pose proof (head_lt c s) as HLt.
        destruct (head_at (c :: s)) as [h s1]. cbn [fst snd] in *.
        pose proof (filters_le (length s1) (length h) s1) as FL.
        destruct (comp d h) as [fh|] eqn:Eh; cbn [bind].
        * pose proof (comp_len d h fh Eh) as Lfh.
          pose proof (att_filters d k G t (length s1) (S (length t)) j s1 fh Hj (le_n _)) as AF.
          specialize (AF ltac:(rewrite (att_len _ _ _ Hj); lia) ltac:(unfold max_filters; lia)).
          rewrite Lfh in AF. destruct (filters_at (length s1) (length h) s1) as [[cs many] s2]. cbn [fst snd] in *.
          destruct AF as (_ & j2 & Hj2 & Ef). rewrite Ef. clear Ef.
          assert (NK : comp d cs = None -> ~ names_known (h ++ cs)).
          { intros E K. apply comp_known in K as (? & K). rewrite comp_app, Eh, E in K. discriminate. }
          destruct (comp d cs) as [fc|] eqn:Ec; cbn [bind].
          -- assert (KN : names_known (h ++ cs)) by (apply comp_known; rewrite comp_app, Eh, Ec; eauto).
             destruct many; cbn [bind].
             ++ exists QTooMany, st. split; [reflexivity|]. split; [reflexivity|]. rewrite all_known_cons.
                split; [tauto|discriminate].
             ++ assert (Ehc : comp d (h ++ cs) = Some (fh ++ fc)) by (rewrite comp_app, Eh, Ec; reflexivity).
                pose proof (comp_len _ _ _ Ehc) as Lf.
                destruct (h ++ cs) as [|x0 rest] eqn:Ehcs.
                ** destruct (fh ++ fc); [|discriminate]. exists QInvalid, st. split; [reflexivity|]. split; [reflexivity|].
                   split; [tauto|discriminate].
                ** destruct (fh ++ fc) as [|g0 fr] eqn:Efs; [discriminate|].
                   assert (S2 : length s2 <= length s).
                   { destruct FL as [F1 F2]. destruct h as [|y h]; [|specialize (HLt ltac:(discriminate)); lia].
                     simpl in Ehcs. rewrite Ehcs in F2. specialize (F2 ltac:(discriminate)). simpl in HL. lia. }
                   destruct (q_step_ok lo d k G LN (rc r) (g0 :: fr) ph st P Hs) as (st1 & p1 & E1 & H1).
                   { destruct r as [[]|]; cbn; try discriminate. intros _. now apply HN. }
                   rewrite E1. cbn [bind].
                   destruct (att_comb t s2 j2 (length t) Descendant Hj2) as (j3 & Hj3 & E3).
                   { rewrite (att_len _ _ _ Hj2). lia. }
                   cbn [comb_of] in E3. rewrite E3. cbn [bind].
                   pose proof (comb_le s2 Descendant) as L3.
                   destruct (comb_at Descendant s2) as [r' s3]. cbn [fst snd] in *. simpl in L1, L2.
                   pose proof (pick_comb r (x0 :: rest) (g0 :: fr) P Ehc HP) as PC.
                   assert (IN : inside d (pick lo d P (r, x0 :: rest))).
                   { intros n Hn. apply PC in Hn as [_ Hn]. exact (comb_rel_inside d k G LN (rc r) P HP n Hn). }
                   specialize (IH fuel s3 j3 (Some r') p1 st1 (pick lo d P (r, x0 :: rest)) Hj3 ltac:(lia) ltac:(lia)).
                   specialize (IH (holds_ext _ _ _ _ H1 PC) ltac:(discriminate) IN).
                   destruct (elements_at f (Some r') s3) as [l e].
                   destruct IH as (q & st' & Q1 & Q2 & Q3 & Q4). exists q, st'. split; [exact Q1|].
                   rewrite all_known_cons. split; [tauto|]. split; [tauto|]. exact Q4.
          -- match goal with |- let '(_, _) := ?T in _ => assert (X : exists l e, T = ((r, h ++ cs) :: l, e)) end.
             { destruct many; [eauto|]. destruct (h ++ cs) as [|x0 rest] eqn:E0.
               - exfalso. apply NK; [reflexivity|]. intros x [].
               - destruct (comb_at Descendant s2) as [r' s3]. destruct (elements_at f (Some r') s3). eauto. }
             destruct X as (l & e & ->). exists QNotSeen, st. split; [reflexivity|]. rewrite all_known_cons.
             specialize (NK eq_refl). split; [tauto|]. split; [reflexivity|discriminate].
        * assert (NK : forall cs, ~ names_known (h ++ cs)).
          { intros cs K. apply comp_known in K as (? & K). rewrite comp_app, Eh in K. discriminate. }
          destruct (filters_at (length s1) (length h) s1) as [[cs many] s2].
          match goal with |- let '(_, _) := ?T in _ => assert (X : exists l e, T = ((r, h ++ cs) :: l, e)) end.
             { destruct many; [eauto|]. specialize (NK cs). destruct (h ++ cs) as [|x0 rest] eqn:E0.
               - exfalso. apply NK. intros x [].
               - destruct (comb_at Descendant s2) as [r' s3]. destruct (elements_at f (Some r') s3). eauto. }
             destruct X as (l & e & ->). exists QNotSeen, st. split; [reflexivity|]. rewrite all_known_cons.
             specialize (NK cs). split; [tauto|]. split; [reflexivity|discriminate].
  Qed.

  Lemma results_read s st : holds 0 st (fun _ => False) ->
    exists q st', query_results lo s d st = Ok (q, st') /\
      (all_known d (fst (read_part s)) -> q = said (snd (read_part s))) /\
      (~ all_known d (fst (read_part s)) -> q = QNotSeen) /\
      (q = QSuccess -> exists ph', holds ph' st' (picks lo d (fst (read_part s))) /\
          inside d (picks lo d (fst (read_part s)))).
  Proof.
    intros H. unfold query_results, read_part.
    destruct (att_scan s 0 s (fun c => is_elem_start c || (c =? cLB)%N || (c =? cSTAR)%N) (att_0 s)) as (i & E & Hi & _).
    rewrite E. cbn [bind]. set (r := from _ s) in *.
    pose proof (query_read s (length r) (S (length s)) r i None 0 st (fun _ => False) Hi (le_n _)) as Q.
    specialize (Q ltac:(pose proof (att_len _ _ _ Hi); lia) H ltac:(auto) ltac:(intros n [])).
    destruct (elements_at (length r) None r) as [l e]. exact Q.
  Qed.

  Lemma results_accepted s st : holds 0 st (fun _ => False) -> accepted d (read_part s) ->
    exists st' ph', query_results lo s d st = Ok (QSuccess, st') /\
      holds ph' st' (picks lo d (fst (read_part s))) /\ inside d (picks lo d (fst (read_part s))).
  Proof.
    intros H [A B]. destruct (results_read s st H) as (q & st' & E & K & _ & S). specialize (K A). rewrite B in K. subst q.
    destruct (S eq_refl) as (ph & H1 & H2). eauto.
  Qed.
  Lemma results_refused s st q : holds 0 st (fun _ => False) -> refused d (read_part s) q ->
    q <> QSuccess /\ exists st', query_results lo s d st = Ok (q, st').
  Proof.
    intros H Rf. destruct (results_read s st H) as (q' & st' & E & K & NK & _).
    destruct Rf as [[A ->]|[A [[B ->]|[B ->]]]].
    - split; [discriminate|]. rewrite (NK A) in E. eauto.
    - split; [discriminate|]. rewrite (K A), B in E. eauto.
    - split; [discriminate|]. rewrite (K A), B in E. eauto.
  Qed.

  Lemma parts_read css : forall f s i set res P, att css i s -> length s < f ->
    holds 0 set (fun _ => False) -> holds 0 res P -> inside d P ->
    ((forall p, In p (parts s) -> accepted d (read_part p)) ->
     exists res', parts_loop f lo css d i set res = Ok (QSuccess, res') /\
       holds 0 res' (fun n => P n \/ exists p, In p (parts s) /\ picks lo d (fst (read_part p)) n)) /\
    (forall a p b q, parts s = a ++ p :: b -> (forall p, In p a -> accepted d (read_part p)) ->
       refused d (read_part p) q ->
       exists res', parts_loop f lo css d i set res = Ok (q, res')).
  Proof.
    induction f as [|f IH]; intros s i set res P H L Hs Hr HP; [lia|]. cbn [parts_loop].
    rewrite (att_lt _ _ _ H). destruct s as [|c s].
    - split.
      + intros _. exists res. split; [reflexivity|]. eapply holds_ext; [exact Hr|]. intros n. simpl. firstorder.
      + intros a p b q E. destruct a; discriminate.
    - destruct (att_scan css i (c :: s) (fun c => (c =? cCOMMA)%N) H) as (j & E & Hj & Sl & Lj).
      rewrite E. cbn [bind]. rewrite Sl. cbn [bind]. rewrite parts_cons.
      set (p0 := fst (until (fun c => (c =? cCOMMA)%N) (c :: s))) in *.
      set (rest := from (fun c => (c =? cCOMMA)%N) (c :: s)) in *.
      assert (J : j = i + length p0).
      { pose proof (att_len _ _ _ H) as A1. pose proof (att_len _ _ _ Hj) as A2.
        pose proof (until_split (fun c => (c =? cCOMMA)%N) (c :: s)) as A3.
        apply (f_equal (@length N)) in A3. rewrite app_length in A3. unfold p0, rest, from in *. lia. }
      assert (LR : length (tl rest) <= length s).
      { pose proof (from_le (fun c => (c =? cCOMMA)%N) (c :: s)) as A. fold rest in A.
        destruct rest; simpl in *; lia. }
      simpl in L.
      assert (Next : rest = [] /\ (forall set res, parts_loop f lo css d (i + length p0 + 1) set res = Ok (QSuccess, res)) \/
                     att css (i + length p0 + 1) (tl rest)).
      { destruct rest as [|x rest'] eqn:ER.
        - left. split; [reflexivity|]. intros set' res'. destruct f as [|f']; cbn [parts_loop];
            pose proof (att_len _ _ _ Hj) as A; simpl in A;
            replace (i + length p0 + 1 <? length css) with false by (symmetry; apply Nat.ltb_ge; lia); reflexivity.
        - right. simpl. replace (i + length p0 + 1) with (S j) by lia. exact (att_next _ _ _ _ Hj). }
      assert (Step : accepted d (read_part p0) -> exists set1 res1,
        (let* '(st, set) := query_results lo p0 d set in
         match st with
         | QSuccess => let* res := insert_each (u_elems set) res in
             parts_loop f lo css d (i + length p0 + 1) (u_reset set) res
         | _ => Ok (st, res) end) = parts_loop f lo css d (i + length p0 + 1) set1 res1 /\
        holds 0 set1 (fun _ => False) /\
        holds 0 res1 (fun n => P n \/ picks lo d (fst (read_part p0)) n) /\
        inside d (fun n => P n \/ picks lo d (fst (read_part p0)) n)).
      { intros A0. destruct (results_accepted p0 set Hs A0) as (set' & ph & E1 & H1 & I1). rewrite E1. cbn [bind].
        destruct (insert_each_ok lo d LN (u_elems set') 0 res P Hr) as (r' & p' & E2 & Lp & H').
        { intros x Hx. apply I1. now apply (proj2 H1). }
        rewrite E2. cbn [bind]. assert (p' = 0) by lia. subst p'.
        exists (u_reset set'), r'. split; [reflexivity|]. split; [eapply holds_reset; exact H1|]. split.
        - eapply holds_ext; [exact H'|]. intros n. cbv beta. now rewrite (proj2 H1 n).
        - intros n [Hn|Hn]; auto. }
      split.
      + intros A. destruct (Step (A p0 (or_introl eq_refl))) as (set1 & res1 & -> & S1 & S2 & S3).
        destruct Next as [[N1 N2]|Nx].
        * rewrite N2. exists res1. split; [reflexivity|]. rewrite N1. eapply holds_ext; [exact S2|].
          intros n. simpl. split; [intros [Q|Q]; eauto|]. intros [Q|(p & [<-|[]] & Q)]; auto.
        * destruct (IH (tl rest) _ set1 res1 _ Nx ltac:(lia) S1 S2 S3) as [IH1 _].
          destruct IH1 as (res' & E' & H'); [intros p Hp; apply A; now right|].
          exists res'. split; [exact E'|]. eapply holds_ext; [exact H'|]. intros n. simpl. split.
          -- intros [[Q|Q]|(p & Hp & Q)]; eauto.
          -- intros [Q|(p & [<-|Hp] & Q)]; eauto.
      + intros a p b q Ep Aa Rp. destruct a as [|p1 a]; simpl in Ep; injection Ep as <- Ep.
        * destruct (results_refused p0 set q Hs Rp) as (Nq & set' & E1). rewrite E1. cbn [bind].
          destruct q; [congruence| | |]; eauto.
        * destruct (Step (Aa p0 (or_introl eq_refl))) as (set1 & res1 & -> & S1 & S2 & S3).
          destruct Next as [[N1 N2]|Nx].
          -- rewrite N1 in Ep. destruct a; discriminate.
          -- destruct (IH (tl rest) _ set1 res1 _ Nx ltac:(lia) S1 S2 S3) as [_ IH2].
             apply (IH2 a p b q Ep); [|exact Rp]. intros p' Hp'. apply Aa. now right.
  Qed.

  Lemma g_accepted css : (forall p, In p (parts css) -> accepted d (read_part p)) ->
    exists r, query_selector_all lo css d = Ok (QSuccess, r) /\ NoDup r /\
      forall n, In n r <-> exists p, In p (parts css) /\ picks lo d (fst (read_part p)) n.
  Proof.
    intros A. pose proof (new_holds d LN) as NH.
    destruct (parts_read css (S (length css)) css 0 (u_new start_exp) (u_new start_exp) (fun _ => False)
      (att_0 css) ltac:(lia) NH NH ltac:(intros n [])) as [Q _].
    destruct (Q A) as (res & E & [O X]). unfold query_selector_all. rewrite E. cbn [bind].
    rewrite (u_array_ok res 0 O). cbn [bind repeat]. rewrite app_nil_r.
    eexists. split; [reflexivity|]. split; [apply u_nodup, (uo_wf _ _ O)|].
    intros n. rewrite X. split; [intros [[]|?]; auto|auto].
  Qed.
  Lemma g_refused css a p b q : parts css = a ++ p :: b -> (forall p, In p a -> accepted d (read_part p)) ->
    refused d (read_part p) q -> query_selector_all lo css d = Ok (q, []).
  Proof.
    intros Ep Aa Rp. pose proof (new_holds d LN) as NH.
    destruct (parts_read css (S (length css)) css 0 (u_new start_exp) (u_new start_exp) (fun _ => False)
      (att_0 css) ltac:(lia) NH NH ltac:(intros n [])) as [_ Q].
    destruct (Q a p b q Ep Aa Rp) as (res & E). unfold query_selector_all. rewrite E. cbn [bind].
    destruct (results_refused p _ q NH Rp) as [Nq _]. destruct q; congruence.
  Qed.
  Lemma g_decided p : accepted d p \/ exists q, refused d p q.
  Proof.
    unfold accepted, refused. destruct p as [l e]. cbn [fst snd]. destruct (all_known_dec l) as [K|K].
    - destruct e; [left; auto|right; exists QInvalid; auto|right; exists QTooMany; auto].
    - right. exists QNotSeen. auto.
  Qed.
End User.

Section Reach.
  Context (d : dom) (R : reachable d).
  Let LN : (N.of_nat (length (nodes d)) <= 65535)%N := proj1 (u_limits d R).
  Lemma sel_accepted lo css : (forall p, In p (parts css) -> accepted d (read_part p)) ->
    exists r, query_selector_all lo css d = Ok (QSuccess, r) /\ NoDup r /\
      forall n, In n r <-> exists p, In p (parts css) /\ picks lo d (fst (read_part p)) n.
  Proof. destruct (reachable_good d R) as [k G]. apply (g_accepted lo d k G LN). Qed.
  Lemma sel_refused lo css a p b q : parts css = a ++ p :: b -> (forall p, In p a -> accepted d (read_part p)) ->
    refused d (read_part p) q -> query_selector_all lo css d = Ok (q, []).
  Proof. destruct (reachable_good d R) as [k G]. apply (g_refused lo d k G LN). Qed.
  Lemma sel_decided css : (forall p, In p (parts css) -> accepted d (read_part p)) \/
    exists a p b q, parts css = a ++ p :: b /\ (forall p, In p a -> accepted d (read_part p)) /\ refused d (read_part p) q.
  Proof.
    destruct (reachable_good d R) as [k G]. induction (parts css) as [|x l IH]; [left; intros p []|].
    destruct (g_decided d k G (read_part x)) as [A|(q & A)].
    - destruct IH as [IH|(a & p & b & q & E & H1 & H2)].
      + left. intros p [<-|Hp]; auto.
      + right. exists (x :: a), p, b, q. split; [simpl; now rewrite E|]. split; [|exact H2].
        intros y [<-|Hy]; auto.
    - right. exists [], x, l, q. split; [reflexivity|]. split; [intros y []|exact A].
  Qed.
End Reach.
