(** * Operations that insert an HTML fragment. *)
From Coq Require Import List NArith Arith Bool Lia.
From Verif Require Import Base TrieModel DomModel ParserModel EditModel DomSpec
  Lemmas TrieProofs Tables Inv Surgery Attach Replace Link RegProofs ParseSafe ParseTree
  ParseLoop Walk EditProofs EditOps Zeroed.
Import ListNotations.
Local Open Scope nat_scope.

(** ** Chains *)
Lemma splice_in k f p L q c :
  In c (splice k f p L q) -> In c L \/ (q <> Flo f /\ In c (k q)).
Proof.
  unfold splice. intros H. apply upk_in in H as [H|H]; auto.
  unfold upk in H. destruct (key_dec (Flo f) q) as [<-|Hq]; [destruct H|].
  right. split; auto.
Qed.

Lemma chain_append d k p f new rest :
  Good d k -> k (Flo f) = new :: rest -> (forall c, In c (new :: rest) -> 1 <= p < c) ->
  exists d2, append_refs p new d = Ok d2 /\ same_data d d2 /\
    Good d2 (splice k f p (k (Par p) ++ new :: rest)).
Proof.
  intros G E Hp.
  destruct (append_refs_ok d k (g_inv _ _ G) p f new rest E) as (d2 & E2 & D & I2).
  { rewrite E. exact Hp. }
  rewrite E in I2. exists d2. split; auto. split; auto.
  eapply Good_data; eauto. intros q c Hc. apply splice_in in Hc as [Hc|[_ Hc]]; eauto.
  apply in_app_or in Hc as [Hc|Hc]; eauto. exists (Flo f). now rewrite E.
Qed.

Lemma chain_prepend d k p f new rest :
  Good d k -> k (Flo f) = new :: rest -> (forall c, In c (new :: rest) -> 1 <= p < c) ->
  exists d2, prepend_refs p new d = Ok d2 /\ same_data d d2 /\
    Good d2 (splice k f p ((new :: rest) ++ k (Par p))).
Proof.
  intros G E Hp.
  destruct (prepend_refs_ok d k (g_inv _ _ G) p f new rest E) as (d2 & E2 & D & I2).
  { rewrite E. exact Hp. }
  rewrite E in I2. exists d2. split; auto. split; auto.
  eapply Good_data; eauto. intros q c Hc. apply splice_in in Hc as [Hc|[_ Hc]]; eauto.
  apply in_app_or in Hc as [Hc|Hc]; eauto. exists (Flo f). now rewrite E.
Qed.

Lemma chain_replace d k p f new rest old l1 l2 :
  Good d k -> k (Flo f) = new :: rest -> (forall c, In c (new :: rest) -> 1 <= p < c) ->
  k (Par p) = l1 ++ old :: l2 ->
  exists d2, replace_refs old new d = Ok d2 /\ length (nodes d2) = length (nodes d) /\
    Good d2 (splice k f p (l1 ++ (new :: rest) ++ l2)) /\
    kind d2 old = Some TRemoved /\ (forall i, i <> old -> same_content d d2 i).
Proof.
  intros G E Hp Ek. pose proof (inv_kw _ _ (g_inv _ _ G)) as W.
  assert (Hin : In old (k (Par p))) by (rewrite Ek; apply in_elt).
  pose proof (kw_bound _ _ W _ _ Hin) as Hb.
  destruct (nth_error (nodes d) old) as [m|] eqn:Em.
  2:{ apply nth_error_None in Em. lia. }
  assert (HR : exists d', replace_refs old new d = Ok d' /\ same_meta d d' /\
      nodes d' = upd (nodes d) old (mkNode old TRemoved (n_pay m)) /\
      Inv d' (splice k f p (l1 ++ k (Flo f) ++ l2))).
  { eapply replace_refs_ok; eauto; try apply (g_inv _ _ G). rewrite E. exact Hp. }
  destruct HR as (d2 & E2 & Mt & Nn & I2). rewrite E in I2.
  exists d2. split; auto. split; [rewrite Nn, upd_length; auto|]. split; [|split].
  - eapply (replaced_good d d2 k _ old m); auto; try lia.
    pose proof (kw_nodup _ _ W (Par p)) as Nd. rewrite Ek in Nd.
    apply nodup_mid in Nd as Nm.
    assert (Hold : forall q, In old (k q) -> q = Par p).
    { intros q Hq. eapply (kw_disj _ _ W); eauto. }
    intros q c Hc. unfold splice in Hc. unfold upk at 1 in Hc.
    destruct (key_dec (Par p) q) as [<-|Hq].
    + apply in_app_or in Hc as [Hc|Hc]; [|apply in_app_or in Hc as [Hc|Hc]].
      * split; [intros ->; apply Nm, in_or_app; auto|]. exists (Par p). rewrite Ek.
        apply in_or_app; auto.
      * assert (Hf : In c (k (Flo f))) by (rewrite E; auto).
        split; [|eauto]. intros ->. apply Hold in Hf. discriminate.
      * split; [intros ->; apply Nm, in_or_app; auto|]. exists (Par p). rewrite Ek.
        apply in_or_app; simpl; auto.
    + unfold upk in Hc. destruct (key_dec (Flo f) q) as [<-|]; [destruct Hc|].
      split; [|eauto]. intros ->. apply Hold in Hc. congruence.
  - eapply (replaced_content d d2 old m 0); eauto.
  - intros i Hi. apply (replaced_content d d2 old m i); auto.
Qed.

Lemma drop_top d k f l1 c l2 :
  Good d k -> k (Flo f) = l1 ++ c :: l2 -> k (Par c) = [] ->
  exists d3, remove_node c d = Ok d3 /\ Good d3 (upk k (Flo f) (l1 ++ l2)) /\
    length (nodes d3) = length (nodes d) /\
    (forall i, i <> c -> same_content d d3 i) /\ kind d3 c = Some TRemoved.
Proof.
  intros G E Hl. pose proof (inv_kw _ _ (g_inv _ _ G)) as W.
  destruct (remove_node_good d k c G) as (d3 & E3 & G3 & L3 & C3 & R3).
  { exists (Flo f). rewrite E. apply in_elt. }
  rewrite pre_leaf in * by auto.
  exists d3. split; auto. split; [|split; [auto|split]].
  - eapply Good_ext; [|exact G3]. intros q. rewrite cut_one_filter. unfold upk.
    pose proof (kw_nodup _ _ W (Flo f)) as Nd. rewrite E in Nd.
    apply nodup_mid in Nd as [_ Nm].
    destruct (key_dec (Flo f) q) as [<-|Hq].
    + rewrite E. unfold without. rewrite filter_app. simpl. rewrite Nat.eqb_refl. simpl.
      rewrite <- filter_app. apply without_none. exact Nm.
    + apply without_none. intros Hc. apply Hq. eapply (kw_disj _ _ W); eauto.
      rewrite E. apply in_elt.
  - intros i Hi. apply C3. intros [<-|[]]. congruence.
  - apply R3. simpl; auto.
Qed.

Lemma splice_upk k f p L l : kext (splice (upk k (Flo f) l) f p L) (splice k f p L).
Proof.
  intros q. unfold splice, upk.
  destruct (key_dec (Par p) q); auto. destruct (key_dec (Flo f) q); auto.
Qed.

Lemma keeps_same d d' : same_data d d' -> keeps_but d d' [].
Proof. intros D i _. now apply same_data_content. Qed.

Lemma retexted_set d t s : t < length (nodes d) -> retexted d (text_set d t s) t s.
Proof.
  intros H. destruct (text_set_self d t s H) as (T1 & T2 & T3 & T4 & T5). red. auto.
Qed.

Lemma retexted_trans d d' d'' t s :
  retexted d d' t s -> same_content d' d'' t -> retexted d d'' t s.
Proof.
  intros (A1 & A2 & A3 & A4) H. apply content_parts in H as (B1 & B2 & B3 & B4 & B5).
  red. rewrite B1, B3, B4, B5. auto.
Qed.

(** ** After the fragment was parsed *)
Section Frag.
  Context (d : dom) (k : kids) (G : Good d k) (n0 p : nat) (rest : list nat).
  Context (Htop : k (Flo n0) = n0 :: rest).
  Context (Hp : 1 <= p < n0).
  Context (Hgt : forall c, In c rest -> n0 < c).
  Context (Hleaf : forall c s, In c (n0 :: rest) -> text_of d c = Some s -> k (Par c) = []).
  Context (Hold : forall c, In c (k (Par p)) -> c < n0).

  Let W := inv_kw _ _ (g_inv _ _ G).

  Lemma frag_in c : In c (n0 :: rest) -> n0 <= c < length (nodes d).
  Proof.
    intros H. assert (Hk : In c (k (Flo n0))) by (rewrite Htop; auto).
    apply (kw_bound _ _ W) in Hk. destruct H as [->|H]; [lia|]. apply Hgt in H. lia.
  Qed.

  Lemma frag_node c : In c (n0 :: rest) ->
    exists m, get_node d c = Ok m /\ n_id m = c /\
      (is_text m = match text_of d c with Some _ => true | None => false end).
  Proof.
    intros H. apply frag_in in H. unfold get_node.
    destruct (nth_error (nodes d) c) as [m|] eqn:E.
    2:{ apply nth_error_None in E. lia. }
    exists m. split; auto. split; [apply (inv_ids _ _ (g_inv _ _ G) c m E)|].
    pose proof (is_text_of d k c m G E) as Hi.
    destruct (text_of d c) as [s|]; destruct (is_text m); auto.
    - apply Hi. eauto.
    - destruct (proj1 Hi eq_refl). discriminate.
  Qed.

  Lemma frag_chain c : In c (n0 :: rest) -> 1 <= p < c.
  Proof. intros H. apply frag_in in H. lia. Qed.

  Lemma last_rest_gt : rest <> [] -> n0 < last rest n0.
  Proof.
    intros H. apply Hgt. destruct rest as [|r l]; [congruence|].
    clear. revert r. induction l as [|a l IH]; intros r; [simpl; auto|].
    change (last (r :: a :: l) n0) with (last (a :: l) n0). right. apply IH.
  Qed.

  Lemma last_rest_ltb : (n0 <? last rest n0) = match rest with [] => false | _ => true end.
  Proof.
    pose proof last_rest_gt as H. destruct rest in H |- *.
    - simpl. apply Nat.ltb_irrefl.
    - apply Nat.ltb_lt. apply H. discriminate.
  Qed.

  Definition frag_done (l : list nat) (d' : dom) : Prop :=
    length (nodes d') = length (nodes d) /\ Good d' (splice k n0 p l).

  (** *** append *)
  Definition append_frag_post (r : nat * dom) : Prop :=
    let '(x, d') := r in
    match text_merge_target d (last_error (k (Par p))), text_of d n0 with
    | Some (c, old), Some s =>
        frag_done (k (Par p) ++ rest) d' /\ retexted d d' c (old ++ [cSP] ++ s) /\
        kind d' n0 = Some TRemoved /\ keeps_but d d' [c; n0] /\
        x = match rest with [] => c | r :: _ => r end
    | _, _ => frag_done (k (Par p) ++ n0 :: rest) d' /\ keeps_but d d' [] /\ x = n0
    end.

  Lemma append_plain :
    exists d', append_refs p n0 d = Ok d' /\
      frag_done (k (Par p) ++ n0 :: rest) d' /\ keeps_but d d' [].
  Proof.
    destruct (chain_append d k p n0 n0 rest G Htop frag_chain) as (d2 & E & D & G2).
    exists d2. split; auto. split; [split; auto|].
    - now rewrite (same_data_nodes _ _ D).
    - now apply keeps_same.
  Qed.

  (** Merging a top-level text node [c] of the fragment into [t] and removing it. *)
  Lemma merge_top l1 c l2 t s old b :
    n0 :: rest = l1 ++ c :: l2 -> In t (k (Par p)) ->
    text_of d c = Some s -> text_of d t = Some old ->
    let s' := if b : bool then old ++ [cSP] ++ s else s ++ [cSP] ++ old in
    try_merge t c b d = Ok (true, text_set d t s') /\
    Good (text_set d t s') k /\
    exists d3, remove_node c (text_set d t s') = Ok d3 /\
      Good d3 (upk k (Flo n0) (l1 ++ l2)) /\
      length (nodes d3) = length (nodes d) /\ retexted d d3 t s' /\
      kind d3 c = Some TRemoved /\ keeps_but d d3 [t; c].
  Proof.
    intros El Ht Hs Ho s'.
    assert (Hc : In c (n0 :: rest)) by (rewrite El; apply in_elt).
    pose proof (frag_in c Hc) as Hcb. pose proof (Hold t Ht) as Htb.
    destruct (text_of_kind _ _ _ Ho) as [Hkt Htl].
    split; [|split].
    - rewrite (try_merge_ok d k t c b s G Htl Hs), Ho. reflexivity.
    - now apply text_set_good.
    - destruct (drop_top (text_set d t s') k n0 l1 c l2) as (d3 & E3 & G3 & L3 & C3 & R3).
      + now apply text_set_good.
      + congruence.
      + eauto.
      + exists d3. split; auto. split; auto. split; [|split; [|split; auto]].
        * rewrite L3. unfold text_set. simpl. apply upd_length.
        * eapply retexted_trans; [apply retexted_set; auto|]. apply C3. lia.
        * intros i Hi. simpl in Hi.
          eapply same_content_trans; [apply text_set_content|apply C3]; intros ->; tauto.
  Qed.

  Lemma rest_chain_append d3 r l :
    rest = r :: l -> Good d3 (upk k (Flo n0) rest) -> length (nodes d3) = length (nodes d) ->
    exists d4, append_refs p r d3 = Ok d4 /\ frag_done (k (Par p) ++ rest) d4 /\
      same_data d3 d4.
  Proof.
    intros Er G3 L3.
    destruct (chain_append d3 (upk k (Flo n0) rest) p n0 r l G3) as (d4 & E4 & D4 & G4).
    - rewrite upk_eq. auto.
    - rewrite <- Er. intros c Hc. apply frag_chain. simpl; auto.
    - exists d4. split; auto. split; auto. split.
      + rewrite (same_data_nodes _ _ D4). auto.
      + rewrite upk_neq, <- Er in G4 by discriminate.
        eapply Good_ext; [apply splice_upk|exact G4].
  Qed.

  Lemma upk_nil_splice d3 : Good d3 (upk k (Flo n0) []) ->
    Good d3 (splice k n0 p (k (Par p))).
  Proof.
    intros H. eapply Good_ext; [|exact H]. intros q. unfold splice, upk.
    destruct (key_dec (Par p) q) as [<-|]; auto.
  Qed.

  Lemma append_frag_ok :
    safe False append_frag_post
     (let fc := get_first_child p d in
      let finish first_new d :=
        (let* d := append_refs p first_new d in Ok (first_new, d)) in
      if 0 <? fc then
        let* last_new := get_last_next n0 d in
        let* n := get_node d n0 in
        if n0 <? last_new then
          if is_text n then
            let* ln := get_last_next fc d in
            let* '(m, d) := try_merge ln (n_id n) true d in
            if (m : bool) then
              let second := get_next n0 d in
              let* d := remove_node n0 d in
              finish second d
            else finish n0 d
          else finish n0 d
        else
          if is_text n then
            let* ln := get_last_next fc d in
            let* '(m, d) := try_merge ln (n_id n) true d in
            if (m : bool) then
              let* d := remove_node n0 d in Ok (ln, d)
            else finish n0 d
          else finish n0 d
      else finish n0 d).
  Proof.
    cbv zeta. rewrite (get_first_child_at (g_inv _ _ G) p) by lia.
    assert (Hplain : (forall c old s, text_merge_target d (last_error (k (Par p))) = Some (c, old) ->
                        text_of d n0 = Some s -> False) ->
      safe False append_frag_post (let* d := append_refs p n0 d in Ok (n0, d))).
    { intros Hno. destruct append_plain as (d' & -> & F & K). simpl.
      destruct (text_merge_target d (last_error (k (Par p)))) as [[c old]|]; auto.
      destruct (text_of d n0) as [s|]; auto. exfalso. eauto. }
    destruct (k (Par p)) as [|c0 l] eqn:Ek in Hplain |- *.
    - simpl. rewrite Nat.ltb_irrefl || idtac. apply Hplain. intros c old s H. discriminate.
    - assert (Hc0 : c0 <> 0) by (apply (k_nz (g_inv _ _ G) (Par p)); rewrite Ek; simpl; auto).
      destruct (Nat.ltb_spec 0 c0); [|lia].
      rewrite (get_last_next_at (g_inv _ _ G) (Flo n0) [] n0 rest Htop). cbn [bind].
      destruct (frag_node n0 ltac:(simpl; auto)) as (m & Em & Hid & Hty).
      rewrite Em. cbn [bind]. rewrite Hid, Hty, last_rest_ltb.
      rewrite (get_last_next_at (g_inv _ _ G) (Par p) [] c0 l Ek). cbn [bind].
      set (t := last l c0).
      assert (Hlast : last_error (c0 :: l) = Some t) by (apply last_last; auto).
      assert (Hin : In t (k (Par p))) by (rewrite Ek; apply last_error_in; auto).
      assert (Htl : t < length (nodes d)) by (apply (kw_bound _ _ W) in Hin; lia).
      destruct (text_of d n0) as [s|] eqn:Es.
      2:{ destruct rest in |- *; apply Hplain; discriminate. }
      destruct (text_of d t) as [old|] eqn:Eo.
      2:{ rewrite (try_merge_ok d k t n0 true s G Htl Es), Eo. cbn [bind].
          assert (Hno : forall c old s0, text_merge_target d (last_error (c0 :: l)) = Some (c, old) ->
              Some s = Some s0 -> False).
          { intros c old s0 H1. rewrite Hlast in H1. simpl in H1. rewrite Eo in H1. discriminate. }
          destruct rest in |- *; apply Hplain; exact Hno. }
      destruct (merge_top [] n0 rest t s old true eq_refl Hin Es Eo)
        as (E1 & G1 & d3 & E3 & G3 & L3 & T3 & R3 & C3).
      rewrite E1. cbn [bind]. simpl app in G3.
      assert (HX : text_merge_target d (last_error (c0 :: l)) = Some (t, old)).
      { rewrite Hlast. simpl. now rewrite Eo. }
      destruct rest as [|r l'] eqn:Er in G3 |- *.
      + rewrite E3. simpl. rewrite Ek, HX, Es, Er. split; [split; auto|auto].
        rewrite app_nil_r. rewrite <- Ek. now apply upk_nil_splice.
      + rewrite (get_next_at (g_inv _ _ G1) (Flo n0) [] n0 (r :: l')) by (rewrite Htop, Er; reflexivity).
        rewrite E3. cbn [bind].
        destruct (rest_chain_append d3 r l') as (d4 & E4 & F4 & D4); auto; [now rewrite Er|].
        rewrite E4. simpl. rewrite Ek, HX, Es, Er.
        split; [rewrite <- Ek; rewrite Er in F4; exact F4|].
        split; [eapply retexted_trans; [exact T3|now apply same_data_content]|].
        split; [|split; auto].
        * rewrite <- R3. apply (content_parts d3 d4 n0). now apply same_data_content.
        * intros i Hi. eapply same_content_trans; [now apply C3|now apply same_data_content].
  Qed.

  (** *** prepend *)
  Definition prepend_frag_post (r : nat * dom) : Prop :=
    let '(x, d') := r in
    let lt := last rest n0 in
    match text_merge_target d (hd_error (k (Par p))), text_of d lt with
    | Some (c, old), Some s =>
        frag_done (removelast (n0 :: rest) ++ k (Par p)) d' /\
        retexted d d' c (s ++ [cSP] ++ old) /\
        kind d' lt = Some TRemoved /\ keeps_but d d' [c; lt] /\
        x = match rest with [] => c | _ => n0 end
    | _, _ => frag_done ((n0 :: rest) ++ k (Par p)) d' /\ keeps_but d d' [] /\ x = n0
    end.

  Lemma prepend_plain :
    exists d', prepend_refs p n0 d = Ok d' /\
      frag_done ((n0 :: rest) ++ k (Par p)) d' /\ keeps_but d d' [].
  Proof.
    destruct (chain_prepend d k p n0 n0 rest G Htop frag_chain) as (d2 & E & D & G2).
    exists d2. split; auto. split; [split; auto|].
    - now rewrite (same_data_nodes _ _ D).
    - now apply keeps_same.
  Qed.

  Lemma last_in : In (last rest n0) (n0 :: rest).
  Proof.
    clear. induction rest as [|r l IH]; simpl; auto. destruct l; simpl in *; auto.
    destruct IH; auto.
  Qed.

  Lemma split_last : n0 :: rest = removelast (n0 :: rest) ++ last rest n0 :: [].
  Proof.
    rewrite (app_removelast_last n0) at 1 by discriminate. f_equal.
    f_equal. simpl. destruct rest; auto.
  Qed.

  Lemma prepend_frag_ok :
    safe False prepend_frag_post
     (let fc := get_first_child p d in
      let finish d := (let* d := prepend_refs p n0 d in Ok (n0, d)) in
      if 0 <? fc then
        let* last_new := get_last_next n0 d in
        if n0 <? last_new then
          let* n := get_node d last_new in
          if is_text n then
            let* '(m, d) := try_merge fc (n_id n) false d in
            if (m : bool) then
              let* d := remove_node last_new d in finish d
            else finish d
          else finish d
        else
          let* n := get_node d n0 in
          if is_text n then
            let* '(m, d) := try_merge fc (n_id n) false d in
            if (m : bool) then
              let* d := remove_node n0 d in Ok (fc, d)
            else finish d
          else finish d
      else finish d).
  Proof.
    cbv zeta. rewrite (get_first_child_at (g_inv _ _ G) p) by lia.
    set (lt := last rest n0).
    assert (Hplain : (forall c old s, text_merge_target d (hd_error (k (Par p))) = Some (c, old) ->
                        text_of d lt = Some s -> False) ->
      safe False prepend_frag_post (let* d := prepend_refs p n0 d in Ok (n0, d))).
    { intros Hno. destruct prepend_plain as (d' & -> & F & K). simpl. fold lt.
      destruct (text_merge_target d (hd_error (k (Par p)))) as [[c old]|]; auto.
      destruct (text_of d lt) as [s|]; auto. exfalso. eauto. }
    destruct (k (Par p)) as [|t l] eqn:Ek in Hplain |- *.
    - simpl. apply Hplain. intros c old s H. discriminate.
    - assert (Ht0 : t <> 0) by (apply (k_nz (g_inv _ _ G) (Par p)); rewrite Ek; simpl; auto).
      destruct (Nat.ltb_spec 0 t); [|lia].
      rewrite (get_last_next_at (g_inv _ _ G) (Flo n0) [] n0 rest Htop). cbn [bind].
      fold lt. pose proof last_rest_ltb as HL. fold lt in HL. rewrite HL.
      assert (Hin : In t (k (Par p))) by (rewrite Ek; simpl; auto).
      assert (Htl : t < length (nodes d)) by (apply (kw_bound _ _ W) in Hin; lia).
      simpl hd_error in *.
      assert (Hsame : forall (f : nat -> outcome (nat * dom)) g,
         (rest = [] -> g = f n0) ->
         (if match rest with [] => false | _ => true end then f lt else g) = f lt).
      { intros f g Hg. destruct rest as [|r0 l0] eqn:Er in Hg |- *; auto.
        unfold lt. rewrite Er. simpl. now apply Hg. }
      destruct (frag_node lt last_in) as (m & Em & Hid & Hty).
      assert (Hno_text : text_of d lt = None \/ text_of d t = None ->
         safe False prepend_frag_post
           (let* n := get_node d lt in
            if is_text n then
              let* '(m, d) := try_merge t (n_id n) false d in
              if (m : bool) then let* d := remove_node lt d in
                  (let* d := prepend_refs p n0 d in Ok (n0, d))
              else (let* d := prepend_refs p n0 d in Ok (n0, d))
            else (let* d := prepend_refs p n0 d in Ok (n0, d))) /\
         safe False prepend_frag_post
           (let* n := get_node d lt in
            if is_text n then
              let* '(m, d) := try_merge t (n_id n) false d in
              if (m : bool) then let* d := remove_node lt d in Ok (t, d)
              else (let* d := prepend_refs p n0 d in Ok (n0, d))
            else (let* d := prepend_refs p n0 d in Ok (n0, d)))).
      { intros Hor. rewrite Em. cbn [bind]. rewrite Hid, Hty.
        destruct (text_of d lt) as [s|] eqn:Es.
        - destruct Hor as [Hor|Hor]; [discriminate|].
          rewrite (try_merge_ok d k t lt false s G Htl Es), Hor. cbn [bind].
          assert (Hn : forall c old s0, text_merge_target d (Some t) = Some (c, old) ->
              Some s = Some s0 -> False).
          { intros c old s0 H1. simpl in H1. rewrite Hor in H1. discriminate. }
          split; apply Hplain; exact Hn.
        - split; apply Hplain; discriminate. }
      assert (Hlt0 : rest = [] -> lt = n0) by (intros E; unfold lt; rewrite E; reflexivity).
      destruct (text_of d lt) as [s|] eqn:Es.
      2:{ destruct Hno_text as [N1 N2]; auto.
          destruct rest as [|r0 l0] eqn:Er in |- *; auto.
          rewrite Hlt0 in N2 by exact Er. exact N2. }
      destruct (text_of d t) as [old|] eqn:Eo.
      2:{ destruct Hno_text as [N1 N2]; auto.
          destruct rest as [|r0 l0] eqn:Er in |- *; auto.
          rewrite Hlt0 in N2 by exact Er. exact N2. }
      destruct (merge_top (removelast (n0 :: rest)) lt [] t s old false split_last Hin Es Eo)
        as (E1 & G1 & d3 & E3 & G3 & L3 & T3 & R3 & C3).
      rewrite app_nil_r in G3.
      assert (HX : text_merge_target d (Some t) = Some (t, old)) by (simpl; now rewrite Eo).
      destruct rest as [|r l'] eqn:Er in |- *.
      + rewrite Hlt0 in * by exact Er.
        rewrite Em. cbn [bind]. rewrite Hid, Hty, E1. cbn [bind]. rewrite E3. simpl.
        fold lt. rewrite Hlt0 by exact Er. rewrite Ek, Er, Es. simpl hd_error. rewrite HX.
        split; [split; auto|auto].
        rewrite <- Ek. rewrite Er in G3. simpl in *. now apply upk_nil_splice.
      + rewrite Em. cbn [bind]. rewrite Hid, Hty, E1. cbn [bind]. rewrite E3. cbn [bind].
        assert (Erl : removelast (n0 :: rest) = n0 :: removelast rest) by (rewrite Er; reflexivity).
        destruct (chain_prepend d3 (upk k (Flo n0) (removelast (n0 :: rest))) p n0 n0
                    (removelast rest) G3) as (d4 & E4 & D4 & G4).
        * rewrite upk_eq. auto.
        * intros c Hc. apply frag_chain. rewrite <- Erl in Hc.
          pose proof split_last as Hs. rewrite Hs. apply in_or_app; auto.
        * rewrite E4. cbn [bind safe]. unfold prepend_frag_post. cbv zeta. fold lt.
          rewrite Ek. cbn [hd_error]. rewrite HX, Es.
          rewrite upk_neq in G4 by discriminate.
          split; [|split; [|split; [|split]]].
          -- split; [rewrite (same_data_nodes _ _ D4); auto|].
             rewrite <- Ek, Erl.
             eapply Good_ext; [apply splice_upk|exact G4].
          -- eapply retexted_trans; [exact T3|now apply same_data_content].
          -- rewrite <- R3. apply (content_parts d3 d4 lt). now apply same_data_content.
          -- intros i Hi. eapply same_content_trans; [now apply C3|now apply same_data_content].
          -- now rewrite Er.
  Qed.

  (** *** replace *)
  Context (old : nat) (l1 l2 : list nat) (Ek : k (Par p) = l1 ++ old :: l2).

  Lemma rep_in c : In c l1 \/ In c l2 \/ c = old -> In c (k (Par p)).
  Proof.
    intros H. rewrite Ek. apply in_or_app. simpl.
    destruct H as [H|[H| ->]]; auto.
  Qed.

  Lemma rep_nd : ~ In old (l1 ++ l2) /\ (forall c, In c l1 -> In c l2 -> False).
  Proof.
    pose proof (kw_nodup _ _ W (Par p)) as Nd. rewrite Ek in Nd.
    apply nodup_mid in Nd as [Nd Nm]. split; auto.
    intros c H1 H2. apply in_split in H1 as (a & b & ->). rewrite <- app_assoc in Nd.
    simpl in Nd. apply nodup_mid in Nd as [_ Nd]. apply Nd.
    apply in_or_app. right. apply in_or_app. auto.
  Qed.

  Definition m_first : option (nat * bytes) :=
    match text_of d n0 with
    | Some s => match text_merge_target d (last_error l1) with
                | Some (c, o) => Some (c, o ++ [cSP] ++ s)
                | None => None
                end
    | None => None
    end.
  Definition m_last : option (nat * bytes) :=
    match text_of d (last rest n0) with
    | Some s => match text_merge_target d (hd_error l2) with
                | Some (c, o) => Some (c, s ++ [cSP] ++ o)
                | None => None
                end
    | None => None
    end.
  Definition T1 : list nat := match m_first with Some _ => rest | None => n0 :: rest end.
  Definition T2 : list nat := match m_last with Some _ => removelast T1 | None => T1 end.
  Definition merged (m : option (nat * bytes)) (src : nat) (d d' : dom) : Prop :=
    match m with
    | Some (c, s') => retexted d d' c s' /\ kind d' src = Some TRemoved
    | None => True
    end.
  Definition touched (m : option (nat * bytes)) (src : nat) : list nat :=
    match m with Some (c, _) => [c; src] | None => [] end.

  Lemma tmt_in o c x : text_merge_target d o = Some (c, x) -> o = Some c /\ text_of d c = Some x.
  Proof.
    unfold text_merge_target. destruct o as [c'|]; [|discriminate].
    destruct (text_of d c') eqn:E; [|discriminate]. intros H. injection H as <- <-. auto.
  Qed.

  Lemma upk_same l : k (Flo n0) = l -> kext k (upk k (Flo n0) l).
  Proof. intros <- q. unfold upk. destruct (key_dec (Flo n0) q) as [<-|]; auto. Qed.

  Lemma rep_step1 :
    rest <> [] ->
    exists d3,
      (let* n := get_node d n0 in
       if is_text n then
         match prev_idx old d with
         | Some i =>
             let* '(m, d) := try_merge (fst (at_idx (nexts d) i)) (n_id n) true d in
             if (m : bool) then
               let second := get_next n0 d in
               let* d := remove_node n0 d in
               Ok (second, d)
             else Ok (n0, d)
         | None => Ok (n0, d)
         end
       else Ok (n0, d)) = Ok (hd 0 T1, d3) /\
      Good d3 (upk k (Flo n0) T1) /\ length (nodes d3) = length (nodes d) /\
      merged m_first n0 d d3 /\ keeps_but d d3 (touched m_first n0).
  Proof.
    intros Hr. destruct (frag_node n0 ltac:(simpl; auto)) as (m & Em & Hid & Hty).
    rewrite Em. cbn [bind]. rewrite Hid, Hty. unfold T1, m_first.
    assert (Hsame : Good d (upk k (Flo n0) (n0 :: rest)) /\ length (nodes d) = length (nodes d) /\
       merged None n0 d d /\ keeps_but d d (touched None n0)).
    { split; [eapply Good_ext; [|exact G]; now apply upk_same|]. split; auto.
      split; [exact Logic.I|]. intros i _. reflexivity. }
    pose proof (prev_at (g_inv _ _ G) (Par p) l1 old l2 Ek) as Pv.
    destruct (text_of d n0) as [s|] eqn:Es; [|exists d; split; auto].
    destruct (last_error l1) as [t|] eqn:El.
    2:{ rewrite Pv. exists d. simpl. split; auto. }
    destruct Pv as (i & -> & Hi). rewrite (at_idx_nth _ _ _ Hi). cbn [fst].
    assert (Hin : In t (k (Par p))) by (apply rep_in; left; now apply last_error_in).
    assert (Htl : t < length (nodes d)) by (apply (kw_bound _ _ W) in Hin; lia).
    cbn [text_merge_target]. destruct (text_of d t) as [o|] eqn:Eo.
    2:{ rewrite (try_merge_ok d k t n0 true s G Htl Es), Eo. cbn [bind].
        exists d. split; auto. }
    destruct (merge_top [] n0 rest t s o true eq_refl Hin Es Eo)
      as (E1 & G1 & d3 & E3 & G3 & L3 & T3 & R3 & C3).
    rewrite E1. cbn [bind]. cbv zeta.
    rewrite (get_next_at (g_inv _ _ G1) (Flo n0) [] n0 rest Htop).
    rewrite E3. cbn [bind]. exists d3. simpl in G3. split.
    - destruct rest in Hr |- *; [congruence|reflexivity].
    - split; auto. split; auto. split; [split; auto|]. exact C3.
  Qed.

  Lemma T1_last : rest <> [] -> exists a, T1 = a ++ [last rest n0].
  Proof.
    intros Hr. unfold T1. destruct m_first.
    - exists (removelast rest). pose proof (app_removelast_last n0 Hr). auto.
    - eexists. apply split_last.
  Qed.

  Lemma T1_incl c : In c T1 -> In c (n0 :: rest).
  Proof. unfold T1. destruct m_first; simpl; auto. Qed.

  Lemma rep_step2 d3 :
    rest <> [] -> Good d3 (upk k (Flo n0) T1) -> length (nodes d3) = length (nodes d) ->
    keeps_but d d3 (touched m_first n0) ->
    exists d4,
      (let* n := get_node d3 (last rest n0) in
       if is_text n then
         match next_idx old d3 with
         | Some j =>
             let* '(m, d) :=
               try_merge (snd (at_idx (nexts d3) j)) (last rest n0) false d3 in
             if (m : bool) then remove_node (last rest n0) d else Ok d
         | None => Ok d3
         end
       else Ok d3) = Ok d4 /\
      Good d4 (upk k (Flo n0) T2) /\ length (nodes d4) = length (nodes d) /\
      merged m_last (last rest n0) d d4 /\ keeps_but d3 d4 (touched m_last (last rest n0)).
  Proof.
    intros Hr G3 L3 C3. set (lt := last rest n0).
    pose proof (last_rest_gt Hr) as Hlt. fold lt in Hlt.
    pose proof (frag_in lt last_in) as Hlb.
    destruct rep_nd as [Hno Hnd].
    assert (Hm1 : forall c x, m_first = Some (c, x) -> In c l1).
    { intros c x. unfold m_first. destruct (text_of d n0); [|discriminate].
      destruct (text_merge_target d (last_error l1)) as [[c' o']|] eqn:E; [|discriminate].
      intros H. injection H as <- _. apply tmt_in in E as [E _]. now apply last_error_in. }
    assert (Hkeep : forall i, i <> n0 -> ~ In i l1 -> same_content d d3 i).
    { intros i Hi Hl. apply C3. unfold touched. destruct m_first as [[c x]|] eqn:E; [|intros []].
      intros [<-|[<-|[]]]; [|congruence]. apply Hl. eapply Hm1; eauto. }
    assert (Hl1 : forall i, In i l1 -> i < n0) by (intros i Hi; apply Hold, rep_in; auto).
    assert (Hlt3 : same_content d d3 lt) by (apply Hkeep; [lia|intros H; apply Hl1 in H; lia]).
    destruct (T1_last Hr) as [a Ea]. fold lt in Ea.
    assert (Hkf : upk k (Flo n0) T1 (Flo n0) = a ++ lt :: []) by (rewrite upk_eq; exact Ea).
    assert (Hkp : upk k (Flo n0) T1 (Par p) = l1 ++ old :: l2) by (rewrite upk_neq; [auto|discriminate]).
    unfold get_node. destruct (nth_error (nodes d3) lt) as [m|] eqn:Em.
    2:{ apply nth_error_None in Em. lia. }
    cbn [bind]. pose proof (is_text_of _ _ _ _ G3 Em) as Hty.
    apply content_parts in Hlt3 as (A1 & A2 & A3 & A4 & A5). rewrite A3 in Hty.
    assert (Hsame : m_last = None -> Good d3 (upk k (Flo n0) T2) /\
       length (nodes d3) = length (nodes d) /\
       merged m_last lt d d3 /\ keeps_but d3 d3 (touched m_last lt)).
    { intros E. unfold T2. rewrite E. split; auto. split; auto.
      split; [exact Logic.I|]. intros i _. reflexivity. }
    assert (HF : m_last = None \/ exists s t o, text_of d lt = Some s /\ hd_error l2 = Some t /\
       text_of d t = Some o /\ m_last = Some (t, s ++ [cSP] ++ o)).
    { unfold m_last. fold lt. destruct (text_of d lt) as [s|]; auto.
      destruct (text_merge_target d (hd_error l2)) as [[c' o']|] eqn:E; auto.
      apply tmt_in in E as [E1 E2]. right. exists s, c', o'. auto. }
    pose proof (next_at (g_inv _ _ G3) (Par p) l1 old l2 Hkp) as Nx.
    destruct HF as [HF|(s & t & o & F1 & F2 & F3 & F4)].
    - destruct (is_text m) eqn:Ei; [|exists d3; split; auto].
      destruct (proj1 Hty eq_refl) as [s Hs].
      destruct l2 as [|t l2'] eqn:El2 in Nx |- *.
      + rewrite Nx. exists d3. split; auto.
      + destruct Nx as (j & -> & Hj). rewrite (at_idx_nth _ _ _ Hj). cbn [snd].
        assert (Hin : In t (k (Par p))) by (apply rep_in; rewrite El2; simpl; auto).
        assert (Htl : t < length (nodes d3)) by (apply (kw_bound _ _ W) in Hin; lia).
        assert (Ht3 : text_of d3 t = None).
        { assert (Hc : same_content d d3 t).
          { apply Hkeep; [apply Hold in Hin; lia|]. intros H. apply (Hnd t H). rewrite El2; simpl; auto. }
          apply content_parts in Hc as (_ & _ & Hc & _). rewrite Hc.
          unfold m_last in HF. fold lt in HF. rewrite Hs, El2 in HF. simpl in HF.
          destruct (text_of d t); [discriminate|reflexivity]. }
        rewrite (try_merge_ok d3 _ t lt false s G3 Htl), Ht3 by congruence. cbn [bind].
        exists d3. split; auto.
    - assert (Hin2 : In t l2) by now apply hd_error_in.
      assert (Hin : In t (k (Par p))) by (apply rep_in; auto).
      assert (Htl : t < length (nodes d3)) by (apply (kw_bound _ _ W) in Hin; lia).
      assert (Hc : same_content d d3 t).
      { apply Hkeep; [apply Hold in Hin; lia|]. intros H. apply (Hnd t H). auto. }
      pose proof (content_parts _ _ _ Hc) as (B1 & B2 & B3 & B4 & B5).
      assert (Ei : is_text m = true) by (apply Hty; eauto). rewrite Ei.
      destruct l2 as [|t' l2'] eqn:El2 in Nx, F2 |- *; [discriminate|].
      injection F2 as ->.
      destruct Nx as (j & -> & Hj). rewrite (at_idx_nth _ _ _ Hj). cbn [snd].
      rewrite (try_merge_ok d3 _ t lt false s G3 Htl) by congruence.
      rewrite B3, F3. cbn [bind].
      assert (Hkl : k (Par lt) = []) by (eapply Hleaf; [apply last_in|eauto]).
      destruct (drop_top (text_set d3 t (s ++ [cSP] ++ o)) _ n0 a lt []
                  ltac:(apply text_set_good; [exact G3|];
                        rewrite B1; apply (text_of_kind _ _ _ F3)) Hkf)
        as (d4 & E4 & G4 & L4 & C4 & R4).
      { rewrite upk_neq by discriminate. auto. }
      rewrite E4. exists d4. split; auto.
      assert (Htlt : t <> lt) by (apply Hold in Hin; lia).
      rewrite F4. unfold T2. rewrite F4. split; [|split; [|split]].
      + eapply Good_ext; [|exact G4]. intros q. rewrite Ea, removelast_last, app_nil_r.
        unfold upk. destruct (key_dec (Flo n0) q); auto.
      + rewrite L4. unfold text_set. simpl. rewrite upd_length. auto.
      + split; auto. destruct (retexted_set d3 t (s ++ [cSP] ++ o) Htl) as (U1 & U2 & U3 & U4).
        pose proof (content_parts _ _ _ (C4 t Htlt)) as (V1 & V2 & V3 & V4 & V5).
        red. rewrite V1, V3, V4, V5, U1, U2, U3, U4, B4, B5. auto.
      + intros i Hi. simpl in Hi.
        eapply same_content_trans; [apply text_set_content|apply C4]; intros ->; tauto.
  Qed.

  Lemma try_merge_both_frag s :
    text_of d n0 = Some s ->
    try_merge_both old n0 d
    = match replace_target d l1 l2 s with
      | Some (c, s') => Ok (true, text_set d c s')
      | None => Ok (false, d)
      end /\
    (forall c s', replace_target d l1 l2 s = Some (c, s') ->
        In c (k (Par p)) /\ c <> old /\ exists o, text_of d c = Some o).
  Proof.
    intros Es. destruct rep_nd as [Nm _].
    destruct (frag_node n0 ltac:(simpl; auto)) as (m & Em & Hid & Hty).
    unfold try_merge_both. rewrite Em. cbn [bind]. rewrite Hty, Hid, Es.
    assert (HT : forall c, In c (k (Par p)) ->
        forall b, try_merge c n0 b d = match text_of d c with
           | Some o => Ok (true, text_set d c (if b then o ++ [cSP] ++ s else s ++ [cSP] ++ o))
           | None => Ok (false, d) end).
    { intros c Hc b. rewrite (try_merge_ok d k c n0 b s G); auto.
      apply (kw_bound _ _ W) in Hc. lia. }
    pose proof (prev_at (g_inv _ _ G) (Par p) l1 old l2 Ek) as HPv.
    pose proof (next_at (g_inv _ _ G) (Par p) l1 old l2 Ek) as HNx.
    assert (Hnx : (match next_idx old d with
       | Some j => try_merge (snd (at_idx (nexts d) j)) n0 false d
       | None => Ok (false, d)
       end) = match text_merge_target d (hd_error l2) with
              | Some (c, o) => Ok (true, text_set d c (s ++ [cSP] ++ o))
              | None => Ok (false, d) end).
    { destruct l2 as [|b2 l2'] eqn:El2 in HNx |- *.
      - rewrite HNx. reflexivity.
      - destruct HNx as (j & -> & Hj). rewrite (at_idx_nth _ _ _ Hj). simpl.
        rewrite HT by (apply rep_in; rewrite El2; simpl; auto).
        destruct (text_of d b2); reflexivity. }
    unfold replace_target. split.
    - destruct (last_error l1) as [a|] eqn:El.
      + destruct HPv as (i & -> & Hi). rewrite (at_idx_nth _ _ _ Hi). simpl fst.
        apply last_error_in in El.
        rewrite HT by (apply rep_in; auto).
        simpl text_merge_target at 1.
        destruct (text_of d a) as [o|]; cbn [bind]; [reflexivity|].
        rewrite Hnx. destruct (text_merge_target d (hd_error l2)) as [[c o]|]; reflexivity.
      + rewrite HPv. simpl text_merge_target at 1.
        rewrite Hnx. destruct (text_merge_target d (hd_error l2)) as [[c o]|]; reflexivity.
    - intros c s' H.
      assert (HC : (last_error l1 = Some c \/ hd_error l2 = Some c) /\
                   exists o, text_of d c = Some o).
      { destruct (text_merge_target d (last_error l1)) as [[c1 o1]|] eqn:E1.
        - injection H as <- _. apply tmt_in in E1 as [? ?]. eauto.
        - destruct (text_merge_target d (hd_error l2)) as [[c2 o2]|] eqn:E2; [|discriminate].
          injection H as <- _. apply tmt_in in E2 as [? ?]. eauto. }
      destruct HC as [[Hc|Hc] Ho].
      + apply last_error_in in Hc. split; [apply rep_in; auto|].
        split; auto. intros ->. apply Nm. apply in_or_app; auto.
      + apply hd_error_in in Hc. split; [apply rep_in; auto|].
        split; auto. intros ->. apply Nm. apply in_or_app; auto.
  Qed.

  Definition single_merge : option (nat * bytes) :=
    match rest with
    | [] => match text_of d n0 with
            | Some s => replace_target d l1 l2 s
            | None => None
            end
    | _ => None
    end.

  Definition replace_frag_post (r : nat * dom) : Prop :=
    let '(x, d') := r in
    length (nodes d') = length (nodes d) /\
    match single_merge with
    | Some (c, s') =>
        let D := pre (length (nodes d)) k old in
        Good d' (cut D (upk k (Flo n0) [])) /\ retexted d d' c s' /\
        kind d' n0 = Some TRemoved /\ (forall i, In i D -> kind d' i = Some TRemoved) /\
        keeps_but d d' (c :: n0 :: D)
    | None =>
        (rest = [] -> Good d' (splice k n0 p (l1 ++ [n0] ++ l2)) /\ keeps_but d d' [old] /\ x = n0) /\
        (rest <> [] -> Good d' (splice k n0 p (l1 ++ T2 ++ l2)) /\
               merged m_first n0 d d' /\ merged m_last (last rest n0) d d' /\
               keeps_but d d' (old :: touched m_first n0 ++ touched m_last (last rest n0)) /\
               x = hd 0 T2) /\
        kind d' old = Some TRemoved
    end.

  (** The inputs for which the C code is well defined and links live nodes only. *)
  Definition replace_guard : Prop :=
    (single_merge <> None -> l1 <> []) /\ (rest <> [] -> T2 <> []).

  Lemma replace_plain_single :
    rest = [] ->
    exists d', replace_refs old n0 d = Ok d' /\ length (nodes d') = length (nodes d) /\
      Good d' (splice k n0 p (l1 ++ [n0] ++ l2)) /\ keeps_but d d' [old] /\
      kind d' old = Some TRemoved.
  Proof.
    intros Hr.
    destruct (chain_replace d k p n0 n0 rest old l1 l2 G Htop frag_chain Ek)
      as (d2 & E2 & L2 & G2 & R2 & C2).
    rewrite Hr in G2. exists d2. split; auto. split; auto. split; auto. split; auto.
    intros i Hi. apply C2. intros ->. apply Hi. simpl; auto.
  Qed.

  Lemma replace_frag_ok :
    replace_guard ->
    safe False replace_frag_post
     (let* last_new := get_last_next n0 d in
      let pv := prev_idx old d in
      let finish fn d := (let* d := replace_refs old fn d in Ok (fn, d)) in
      if n0 <? last_new then
        let* n := get_node d n0 in
        let* '(fn, d) :=
          (if is_text n then
             match pv with
             | Some i =>
                 let* '(m, d) :=
                   try_merge (fst (at_idx (nexts d) i)) (n_id n) true d in
                 if (m : bool) then
                   let second := get_next n0 d in
                   let* d := remove_node n0 d in
                   Ok (second, d)
                 else Ok (n0, d)
             | None => Ok (n0, d)
             end
           else Ok (n0, d)) in
        let* n := get_node d last_new in
        let* d :=
          (if is_text n then
             match next_idx old d with
             | Some j =>
                 let* '(m, d) :=
                   try_merge (snd (at_idx (nexts d) j)) last_new false d in
                 if (m : bool) then remove_node last_new d else Ok d
             | None => Ok d
             end
           else Ok d) in
        finish fn d
      else
        let* '(m, d) := try_merge_both old n0 d in
        if (m : bool) then
          let* d := remove_node n0 d in
          let* d := remove_node old d in
          match pv with
          | Some i => Ok (fst (at_idx (nexts d) i), d)
          | None => Undef NullDeref
          end
        else finish n0 d).
  Proof.
    intros [Hg1 Hg2].
    rewrite (get_last_next_at (g_inv _ _ G) (Flo n0) [] n0 rest Htop). cbn [bind]. cbv zeta.
    rewrite last_rest_ltb. set (lt := last rest n0).
    assert (Hoi : In old (k (Par p))) by (apply rep_in; auto).
    pose proof (Hold old Hoi) as Holt.
    destruct rest as [|r l'] eqn:Er in |- *.
    - assert (HS : single_merge = match text_of d n0 with Some s => replace_target d l1 l2 s
                                  | None => None end).
      { unfold single_merge. rewrite Er. reflexivity. }
      destruct (replace_plain_single Er) as (dp & Ep & Lp & Gp & Kp & Rp).
      assert (Hplain : single_merge = None ->
         replace_frag_post (n0, dp)).
      { intros E. unfold replace_frag_post. split; auto. rewrite E. split; [auto|].
        split; [congruence|auto]. }
      destruct (text_of d n0) as [s|] eqn:Es.
      + destruct (try_merge_both_frag s Es) as [E HC]. rewrite E.
        destruct (replace_target d l1 l2 s) as [[c s']|] eqn:ET.
        * cbn [bind]. destruct (HC c s' eq_refl) as (Hc1 & Hc2 & o & Ho).
          assert (Hl1 : l1 <> []) by (apply Hg1; rewrite HS; discriminate).
          destruct (text_of_kind _ _ _ Ho) as [Hkc Hcl].
          pose proof (Hold c Hc1) as Hcn.
          destruct (drop_top (text_set d c s') k n0 [] n0 rest) as (d3 & E3 & G3 & L3 & C3 & R3).
          { now apply text_set_good. }
          { exact Htop. }
          { eapply Hleaf; eauto. simpl; auto. }
          rewrite E3. cbn [bind]. simpl in G3. rewrite Er in G3.
          destruct (remove_node_good d3 (upk k (Flo n0) []) old G3) as (d4 & E4 & G4 & L4 & C4 & R4).
          { exists (Par p). rewrite upk_neq by discriminate. auto. }
          rewrite E4. cbn [bind].
          assert (LL : length (nodes d3) = length (nodes d)).
          { rewrite L3. unfold text_set. simpl. apply upd_length. }
          rewrite LL in *.
          assert (ED : pre (length (nodes d)) (upk k (Flo n0) []) old = pre (length (nodes d)) k old).
          { apply pre_same_par; [exact W| |].
            - pose proof (inv_kw _ _ (g_inv _ _ G3)) as W3. congruence.
            - intros q _. now rewrite upk_neq by discriminate. }
          rewrite ED in *. set (D := pre (length (nodes d)) k old) in *.
          assert (HcD : ~ In c D).
          { intros H. assert (c = old); [|congruence].
            eapply (pre_sibling_q (length (nodes d)) k (Par p) c old c); eauto.
            apply pre_self. auto. }
          assert (HnD : ~ In n0 D).
          { intros H. unfold D in H.
            destruct (pre_parent _ k old n0 W H) as [E5|(q & Hq & _)]; [lia|].
            assert (Par q = Flo n0); [|discriminate].
            eapply (kw_disj _ _ W); eauto. rewrite Htop. simpl; auto. }
          assert (HPost : forall x, replace_frag_post (x, d4)).
          { intros x. unfold replace_frag_post. rewrite HS. cbv zeta. fold D.
            split; [lia|]. split; auto. split; [|split; [|split; auto]].
            - eapply retexted_trans; [apply retexted_set; auto|].
              eapply same_content_trans; [apply C3; lia|apply C4; auto].
            - rewrite <- R3. apply (content_parts d3 d4 n0). auto.
            - intros i Hi. simpl in Hi.
              assert (i <> c /\ i <> n0 /\ ~ In i D) as (X1 & X2 & X3) by intuition.
              eapply same_content_trans; [apply text_set_content; exact X1|].
              eapply same_content_trans; [apply C3; exact X2|apply C4; exact X3]. }
          pose proof (prev_at (g_inv _ _ G) (Par p) l1 old l2 Ek) as HPv.
          destruct (last_error l1) as [a|] eqn:El.
          -- destruct HPv as (i & -> & Hi). simpl. apply HPost.
          -- exfalso. destruct l1 as [|a0 l0] in Hl1, El; [congruence|].
             pose proof (proj2 (last_last l0 a0 _) eq_refl). congruence.
        * cbn [bind]. rewrite Ep. simpl bind. apply Hplain. auto.
      + assert (E : try_merge_both old n0 d = Ok (false, d)).
        { destruct (frag_node n0 ltac:(simpl; auto)) as (m & Em & Hid & Hty).
          unfold try_merge_both. rewrite Em. cbn [bind]. rewrite Hty, Es. reflexivity. }
        rewrite E. cbn [bind]. rewrite Ep. apply Hplain. auto.
    - assert (Hr : rest <> []) by (rewrite Er; discriminate).
      destruct (rep_step1 Hr) as (d3 & E3 & G3 & L3 & M3 & C3).
      destruct (frag_node n0 ltac:(simpl; auto)) as (m & Em & Hid & Hty).
      rewrite Em in E3 |- *. cbn [bind] in E3 |- *. rewrite E3. cbn [bind].
      destruct (rep_step2 d3 Hr G3 L3 C3) as (d4 & E4 & G4 & L4 & M4 & C4). fold lt in E4.
      destruct (get_node d3 lt) as [m'| | |]; try discriminate. cbn [bind] in E4 |- *.
      rewrite E4. cbn [bind]. 
      assert (HT : exists b, T2 = hd 0 T1 :: b).
      { specialize (Hg2 Hr). unfold T2 in *. destruct m_last.
        - destruct T1 as [|a [|b T]]; simpl in *; try congruence. eauto.
        - destruct T1 as [|a T]; simpl in *; try congruence. eauto. }
      destruct HT as [b Hb].
      assert (HTin : forall c, In c T2 -> In c (n0 :: rest)).
      { intros c Hc. apply T1_incl. unfold T2 in Hc. destruct m_last; auto.
        destruct T1 as [|a T] eqn:ET; [destruct Hc|].
        rewrite (app_removelast_last 0) by discriminate. apply in_or_app. auto. }
      destruct (chain_replace d4 (upk k (Flo n0) T2) p n0 (hd 0 T1) b old l1 l2 G4)
        as (d5 & E5 & L5 & G5 & R5 & C5).
      { rewrite upk_eq. auto. }
      { rewrite <- Hb. intros c Hc. apply frag_chain. auto. }
      { rewrite upk_neq by discriminate. auto. }
      rewrite E5. cbn [bind safe]. unfold replace_frag_post.
      assert (HS : single_merge = None) by (unfold single_merge; rewrite Er; reflexivity).
      rewrite HS. split; [lia|]. split; [congruence|]. split; [|auto]. intros _. fold lt.
      destruct rep_nd as [Hno Hnd].
      assert (Hnr : forall i, In i (n0 :: rest) -> i <> old).
      { intros i Hi ->. apply frag_in in Hi. lia. }
      assert (Hf : forall c x, m_first = Some (c, x) -> In c l1).
      { intros c x. unfold m_first. destruct (text_of d n0); [|discriminate].
        destruct (text_merge_target d (last_error l1)) as [[c' o']|] eqn:E; [|discriminate].
        intros H. injection H as <- _. apply tmt_in in E as [E _]. now apply last_error_in. }
      assert (Hl : forall c x, m_last = Some (c, x) -> In c l2).
      { intros c x. unfold m_last. destruct (text_of d (last rest n0)); [|discriminate].
        destruct (text_merge_target d (hd_error l2)) as [[c' o']|] eqn:E; [|discriminate].
        intros H. injection H as <- _. apply tmt_in in E as [E _]. now apply hd_error_in. }
      assert (Hlt : lt <> n0) by (pose proof (last_rest_gt Hr) as H; fold lt in H; lia).
      pose proof last_in as Hli. fold lt in Hli.
      assert (Hb1 : forall c, In c l1 -> c < n0) by (intros c Hc; apply Hold, rep_in; auto).
      assert (Hb2 : forall c, In c l2 -> c < n0) by (intros c Hc; apply Hold, rep_in; auto).
      pose proof (frag_in lt Hli) as Hlb.
      split; [|split; [|split; [|split]]].
      + rewrite <- Hb in G5. eapply Good_ext; [apply splice_upk|exact G5].
      + destruct m_first as [[c x]|] eqn:EM; [|exact Logic.I].
        destruct M3 as [M31 M32]. specialize (Hf c x eq_refl).
        assert (HK : forall i, i = c \/ i = n0 -> same_content d3 d5 i).
        { intros i Hi. eapply same_content_trans; [apply C4|apply C5].
          - unfold touched. destruct m_last as [[c2 x2]|] eqn:EM2; [|intros []].
            specialize (Hl c2 x2 eq_refl). apply Hb2 in Hl as Hl'. apply Hb1 in Hf as Hf'. fold lt.
            intros [E9|[E9|[]]].
            + destruct Hi as [->| ->]; [subst c2; eauto|]. lia.
            + destruct Hi as [->| ->]; [lia|congruence].
          - destruct Hi as [->| ->].
            + intros ->. apply Hno, in_or_app; auto.
            + apply Hnr. simpl; auto. }
        split; [eapply retexted_trans; [exact M31|apply HK; auto]|].
        rewrite <- M32. apply (content_parts d3 d5 n0). apply HK; auto.
      + destruct m_last as [[c x]|] eqn:EM; [|exact Logic.I].
        destruct M4 as [M41 M42]. specialize (Hl c x eq_refl). fold lt in M42.
        split.
        * eapply retexted_trans; [exact M41|]. apply C5. intros ->. apply Hno, in_or_app; auto.
        * rewrite <- M42. apply (content_parts d4 d5 lt). apply C5. auto.
      + intros i Hi. simpl in Hi. rewrite in_app_iff in Hi.
        eapply same_content_trans; [apply C3; tauto|].
        eapply same_content_trans; [apply C4; fold lt; tauto|]. apply C5. intros ->. tauto.
      + now rewrite Hb.
  Qed.
  (** The two excluded cases. *)
  Lemma replace_frag_null : single_merge <> None -> l1 = [] ->
    (let* last_new := get_last_next n0 d in
      let pv := prev_idx old d in
      let finish fn d := (let* d := replace_refs old fn d in Ok (fn, d)) in
      if n0 <? last_new then
        let* n := get_node d n0 in
        let* '(fn, d) :=
          (if is_text n then
             match pv with
             | Some i =>
                 let* '(m, d) :=
                   try_merge (fst (at_idx (nexts d) i)) (n_id n) true d in
                 if (m : bool) then
                   let second := get_next n0 d in
                   let* d := remove_node n0 d in
                   Ok (second, d)
                 else Ok (n0, d)
             | None => Ok (n0, d)
             end
           else Ok (n0, d)) in
        let* n := get_node d last_new in
        let* d :=
          (if is_text n then
             match next_idx old d with
             | Some j =>
                 let* '(m, d) :=
                   try_merge (snd (at_idx (nexts d) j)) last_new false d in
                 if (m : bool) then remove_node last_new d else Ok d
             | None => Ok d
             end
           else Ok d) in
        finish fn d
      else
        let* '(m, d) := try_merge_both old n0 d in
        if (m : bool) then
          let* d := remove_node n0 d in
          let* d := remove_node old d in
          match pv with
          | Some i => Ok (fst (at_idx (nexts d) i), d)
          | None => Undef NullDeref
          end
        else finish n0 d) = Undef NullDeref.
  Proof.
    intros Hsm Hl1.
    assert (Er : rest = []).
    { unfold single_merge in Hsm. destruct rest; [auto|congruence]. }
    assert (HS : single_merge = match text_of d n0 with Some s => replace_target d l1 l2 s
                                | None => None end).
    { unfold single_merge. rewrite Er. reflexivity. }
    rewrite (get_last_next_at (g_inv _ _ G) (Flo n0) [] n0 rest Htop). cbn [bind]. cbv zeta.
    rewrite last_rest_ltb. rewrite Er at 1.
    destruct (text_of d n0) as [s|] eqn:Es; [|congruence].
    destruct (try_merge_both_frag s Es) as [E HC]. rewrite E.
    destruct (replace_target d l1 l2 s) as [[c s']|] eqn:ET; [|congruence].
    cbn [bind]. destruct (HC c s' eq_refl) as (Hc1 & Hc2 & o & Ho).
    destruct (text_of_kind _ _ _ Ho) as [Hkc Hcl].
    destruct (drop_top (text_set d c s') k n0 [] n0 rest) as (d3 & E3 & G3 & L3 & C3 & R3).
    { now apply text_set_good. }
    { exact Htop. }
    { eapply Hleaf; eauto. simpl; auto. }
    rewrite E3. cbn [bind]. simpl in G3. rewrite Er in G3.
    destruct (remove_node_good d3 (upk k (Flo n0) []) old G3) as (d4 & E4 & G4 & L4 & C4 & R4).
    { exists (Par p). rewrite upk_neq by discriminate. apply rep_in; auto. }
    rewrite E4. cbn [bind].
    pose proof (prev_at (g_inv _ _ G) (Par p) l1 old l2 Ek) as HPv.
    destruct (last_error l1) as [a|] eqn:El; [rewrite Hl1 in El; discriminate|]. rewrite HPv. reflexivity.
  Qed.

  Lemma replace_frag_ghost b : rest = [b] -> m_first <> None -> m_last <> None ->
    exists d', (let* last_new := get_last_next n0 d in
      let pv := prev_idx old d in
      let finish fn d := (let* d := replace_refs old fn d in Ok (fn, d)) in
      if n0 <? last_new then
        let* n := get_node d n0 in
        let* '(fn, d) :=
          (if is_text n then
             match pv with
             | Some i =>
                 let* '(m, d) :=
                   try_merge (fst (at_idx (nexts d) i)) (n_id n) true d in
                 if (m : bool) then
                   let second := get_next n0 d in
                   let* d := remove_node n0 d in
                   Ok (second, d)
                 else Ok (n0, d)
             | None => Ok (n0, d)
             end
           else Ok (n0, d)) in
        let* n := get_node d last_new in
        let* d :=
          (if is_text n then
             match next_idx old d with
             | Some j =>
                 let* '(m, d) :=
                   try_merge (snd (at_idx (nexts d) j)) last_new false d in
                 if (m : bool) then remove_node last_new d else Ok d
             | None => Ok d
             end
           else Ok d) in
        finish fn d
      else
        let* '(m, d) := try_merge_both old n0 d in
        if (m : bool) then
          let* d := remove_node n0 d in
          let* d := remove_node old d in
          match pv with
          | Some i => Ok (fst (at_idx (nexts d) i), d)
          | None => Undef NullDeref
          end
        else finish n0 d) = Ok (b, d') /\
      Inv d' (splice k n0 p (l1 ++ [b] ++ l2)) /\ length (nodes d') = length (nodes d) /\
      kind d' b = Some TRemoved /\ kind d' n0 = Some TRemoved /\ kind d' old = Some TRemoved.
  Proof.
    intros Er M1 M2. assert (Hr : rest <> []) by (rewrite Er; discriminate).
    rewrite (get_last_next_at (g_inv _ _ G) (Flo n0) [] n0 rest Htop). cbn [bind]. cbv zeta.
    rewrite last_rest_ltb.
    assert (Elt : last rest n0 = b) by (rewrite Er; reflexivity).
    assert (ET1 : T1 = [b]) by (unfold T1; destruct m_first; [exact Er|congruence]).
    assert (ET2 : T2 = []) by (unfold T2; rewrite ET1; destruct m_last; [reflexivity|congruence]).
    destruct (rep_step1 Hr) as (d3 & E3 & G3 & L3 & M3 & C3).
    destruct (rep_step2 d3 Hr G3 L3 C3) as (d4 & E4 & G4 & L4 & M4 & C4).
    rewrite ET1 in E3, G3. rewrite ET2 in G4. rewrite Elt in *. cbn [hd] in E3.
    replace (match rest with [] => false | _ => true end) with true by (rewrite Er; reflexivity).
    destruct (get_node d n0) as [m| | |]; try discriminate. cbn [bind] in E3 |- *. rewrite E3. cbn [bind].
    assert (Hb : ~ exists q, In (q, b) (pchilds d4)).
    { assert (H3 : forall q, ~ In (q, b) (pchilds d3)).
      { intros q. eapply (pc_flo _ _ _ (inv_pchild _ _ (g_inv _ _ G3)) n0). rewrite upk_eq. now left. }
      assert (Hbn : b <> 0).
      { eapply k_nz; [apply (g_inv _ _ G)|]. rewrite Htop, Er. right. now left. }
      assert (Q : incl (pchilds d4) ((0, 0) :: pchilds d3)).
      { destruct (get_node d3 b) as [m'| | |]; try discriminate. cbn [bind] in E4.
        destruct (is_text m'); [|injection E4 as <-; apply incl_tl, incl_refl].
        destruct (next_idx old d3) as [j|]; [|injection E4 as <-; apply incl_tl, incl_refl].
        destruct (try_merge _ _ _ d3) as [[w d5]| | |] eqn:Et; try discriminate. cbn [bind] in E4.
        apply try_merge_pc in Et as (Et & _). rewrite <- Et.
        destruct w; [|injection E4 as <-; apply incl_tl, incl_refl].
        apply zer_incl. eapply zer_remove; eauto. }
      intros (q & Hq). apply Q in Hq as [Hq|Hq]; [congruence|]. exact (H3 q Hq). }
    destruct (get_node d3 b) as [m'| | |]; try discriminate. cbn [bind] in E4 |- *. rewrite E4. cbn [bind].
    assert (Hbb : n0 < b < length (nodes d)).
    { assert (In b (n0 :: rest)) by (rewrite Er; right; now left). pose proof (frag_in b H).
      specialize (Hgt b). rewrite Er in Hgt. specialize (Hgt (or_introl eq_refl)). lia. }
    assert (HI : Inv d4 (upk (upk k (Flo n0) []) (Flo n0) [b])).
    { apply promote; [apply (g_inv _ _ G4)|lia| | |apply upk_eq|lia].
      - intros q Hq. unfold upk in Hq. destruct (key_dec (Flo n0) q) as [|Nq]; [destruct Hq|].
        apply Nq. eapply (kw_disj _ _ W); [|exact Hq]. rewrite Htop, Er. right. now left.
      - intros q Hq. apply Hb. eauto. }
    destruct (nth_error (nodes d4) old) as [mo|] eqn:Em.
    2:{ apply nth_error_None in Em. pose proof (Hold old). 
        assert (In old (k (Par p))) by (apply rep_in; auto). apply (kw_bound _ _ W) in H0. lia. }
    assert (HR : exists d', replace_refs old b d4 = Ok d' /\ same_meta d4 d' /\
      nodes d' = upd (nodes d4) old (mkNode old TRemoved (n_pay mo)) /\
      Inv d' (splice (upk (upk k (Flo n0) []) (Flo n0) [b]) n0 p (l1 ++ (upk (upk k (Flo n0) []) (Flo n0) [b]) (Flo n0) ++ l2))).
    { eapply (replace_refs_ok d4 (upk (upk k (Flo n0) []) (Flo n0) [b]) HI p n0 b []); [apply upk_eq| | |exact Em].
      - rewrite upk_eq. intros c [<-|[]]. lia.
      - rewrite !upk_neq by discriminate. auto. }
    destruct HR as (d5 & E5 & Mt & Nn & I5). rewrite E5. cbn [bind]. exists d5. split; [reflexivity|].
    rewrite upk_eq in I5. split; [|split; [rewrite Nn, upd_length; exact L4|]].
    - eapply Inv_ext; [|exact I5]. intros q. unfold splice, upk.
      destruct (key_dec (Par p) q); [reflexivity|]. destruct (key_dec (Flo n0) q); reflexivity.
    - destruct (m_last) as [[c2 x2]|] eqn:EL; [|congruence]. destruct (m_first) as [[c1 x1]|] eqn:EF; [|congruence].
      destruct M3 as [_ M3]. destruct M4 as [_ M4].
      assert (Hol : old < n0) by (apply Hold, rep_in; auto).
      assert (Hc2 : c2 < n0).
      { apply Hold, rep_in. right. left. unfold m_last in EL. destruct (text_of d (last rest n0)); [|discriminate].
        destruct (text_merge_target d (hd_error l2)) as [[c' o']|] eqn:E; [|discriminate].
        injection EL as <- _. apply tmt_in in E as [E _]. now apply hd_error_in. }
      assert (Kn : kind d4 n0 = Some TRemoved).
      { rewrite <- M3. apply (content_parts d3 d4 n0). apply C4. cbn. intros [|[|[]]]; lia. }
      split; [|split].
      + rewrite <- M4. apply (content_parts d4 d5 b). apply (replaced_content d4 d5 old mo b); auto. lia.
      + rewrite <- Kn. apply (content_parts d4 d5 n0). apply (replaced_content d4 d5 old mo n0); auto. lia.
      + apply (replaced_content d4 d5 old mo 0); auto.
  Qed.
End Frag.
