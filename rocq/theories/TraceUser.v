(** * Memory of a parse, in terms of what is stored. *)
From Coq Require Import List NArith ZArith Arith Bool Lia.
From Verif Require Import Base TrieModel DomModel ParserModel ApiSpec SizeSpec MemModel MemSpec Lemmas MemProofs MemCost
  Inv Tables RegProofs ParseTree ApiProofs Grow Size TrieProofs TraceModel TraceProofs TraceMem ArenaSpec.
Import ListNotations.
Local Open Scope nat_scope.

Definition below16 (x : nat) : Prop := (N.of_nat x < 65536)%N.
Lemma u16_le x : below16 x -> N.to_nat (N.of_nat x mod 256 + 256 * ((N.of_nat x / 256) mod 256)) = x.
Proof.
  intros H. unfold below16 in H.
  rewrite (N.mod_small (N.of_nat x / 256)) by (apply N.div_lt_upper_bound; lia).
  rewrite N.add_comm, <- N.div_mod by discriminate. apply Nat2N.id.
Qed.

(** Every number in the tables of a reachable document fits. *)
Record fits16 (d : dom) : Prop := {
  f_nodes : forall n, In n (nodes d) -> below16 (n_id n);
  f_firsts : forall e, In e (firsts d) -> below16 (fst e) /\ below16 (snd e);
  f_pchilds : forall e, In e (pchilds d) -> below16 (fst e) /\ below16 (snd e);
  f_nexts : forall e, In e (nexts d) -> below16 (fst e) /\ below16 (snd e);
  f_bprops : forall e, In e (bprops d) -> below16 (fst e) /\ below16 (snd e);
  f_props : forall e, In e (props d) -> below16 (p_node e) /\ below16 (p_key e) /\ below16 (p_val e) }.

Lemma reg_small reg m : reg_ok reg m -> (N.of_nat (mident m) <= 65535)%N -> forall x, x < length reg -> below16 x.
Proof. intros (l & -> & _ & E & _) H x L. cbn in L. unfold below16. lia. Qed.

Lemma reachable_fits d : reachable d -> fits16 d.
Proof.
  intros R. destruct (reachable_good d R) as (k & [I G T]). destruct (reachable_small d R) as (S1 & S2 & S3 & S4 & S5).
  destruct I as [I1 I2 I3 I4 I5 I6]. destruct G as [G1 G2 G3 G4 G5 G6 G7].
  assert (L : forall x, x < length (nodes d) -> below16 x) by (unfold below16; intros; lia).
  constructor.
  - intros n H. apply In_nth_error in H as (i & H). rewrite (I1 i n H). apply L, nth_error_Some. congruence.
  - intros [a b] H. cbn. destruct (proj1 I4 a b H) as [[-> ->]|P]; [split; apply L; lia|]. unfold Rf in P.
    assert (Hb : In b (k (Par a))) by (destruct (k (Par a)); [discriminate|injection P as ->; now left]).
    pose proof (kw_bound _ _ I6 _ _ Hb). pose proof (kw_order _ _ I6 _ _ Hb). split; apply L; lia.
  - intros [a b] H. cbn. destruct (pc_nz _ _ _ I5 a b H) as [[-> ->]|(P1 & P2 & P3)]; split; apply L; lia.
  - intros [a b] H. cbn. destruct (proj1 I3 a b H) as [[-> ->]|(q & P)]; [split; apply L; lia|].
    destruct (adj_in _ _ _ P) as [A1 A2].
    pose proof (kw_bound _ _ I6 _ _ A1). pose proof (kw_bound _ _ I6 _ _ A2). split; apply L; lia.
  - intros e H. destruct (G5 e H) as (P1 & P2 & _). split; [auto|]. exact (reg_small _ _ G2 S3 _ P2).
  - intros e H. destruct (G6 e H) as (P1 & P2 & P3 & _). split; [auto|]. split; [exact (reg_small _ _ G3 S4 _ P2)|exact (reg_small _ _ G4 S5 _ P3)].
Qed.

Lemma show_pairs s arrs i a l : nth_error arrs i = Some a -> shows_arr s a (4, map enc_pair l) ->
  (forall e, In e l -> below16 (fst e) /\ below16 (snd e)) -> pairs_at s arrs i l.
Proof.
  intros N (S1 & S2 & S3) F. cbn [fst snd] in *. rewrite map_length in S2. exists a. split; [exact N|]. split; [exact S2|].
  intros k e H. destruct (F e (nth_error_In _ _ H)) as [F1 F2]. exists (enc_pair e).
  split; [apply S3; now rewrite nth_error_map, H|]. split; [reflexivity|].
  unfold u16, enc_pair, le16. cbn [nth app]. split; now apply u16_le.
Qed.
Lemma show_props s arrs i a l : nth_error arrs i = Some a -> shows_arr s a (6, map enc_prop l) ->
  (forall e, In e l -> below16 (p_node e) /\ below16 (p_key e) /\ below16 (p_val e)) -> props_at s arrs i l.
Proof.
  intros N (S1 & S2 & S3) F. cbn [fst snd] in *. rewrite map_length in S2. exists a. split; [exact N|]. split; [exact S2|].
  intros k e H. destruct (F e (nth_error_In _ _ H)) as (F1 & F2 & F3). exists (enc_prop e).
  split; [apply S3; now rewrite nth_error_map, H|]. split; [reflexivity|].
  unfold u16, enc_prop, le16. cbn [nth app]. split; [|split]; now apply u16_le.
Qed.
Lemma show_nodes s arrs i a l : nth_error arrs i = Some a ->
  shows_arr s a (24, map (fun '(i, t) => enc_node i t) (map nkey l)) ->
  (forall n, In n l -> below16 (n_id n)) -> nodes_at s arrs i l.
Proof.
  intros N (S1 & S2 & S3) F. cbn [fst snd] in *. rewrite !map_length in S2. exists a. split; [exact N|]. split; [exact S2|].
  intros k n H. pose proof (F n (nth_error_In _ _ H)) as F1. exists (enc_node (n_id n) (n_type n)).
  split; [apply S3; now rewrite !nth_error_map, H|]. split; [reflexivity|].
  unfold u16, enc_node, le16. cbn [nth app]. split; [now apply u16_le|]. now destruct (n_type n).
Qed.
Lemma show_text s a txt : shows_arr s a (1, singles txt) -> text_at s a txt.
Proof.
  intros (S1 & S2 & S3). cbn [fst snd] in *. unfold singles in *. rewrite map_length in S2. split; [exact S2|].
  intros k c H. apply S3. now rewrite nth_error_map, H.
Qed.

Lemma texts_forall s : forall arrs ex, Forall2 (shows_arr s) arrs ex ->
  Forall2 (fun a xs => shows_arr s a (1, xs)) (text_buffers arrs) (texts_in ex).
Proof.
  induction 1 as [|a [sz xs] arrs ex H _ IH]; [constructor|]. unfold text_buffers, texts_in in *. cbn [filter map fst].
  pose proof H as (E & _). cbn [fst] in E. rewrite E. destruct (Nat.eqb_spec sz 1) as [->|]; [|exact IH].
  cbn [map snd]. constructor; [exact H|exact IH].
Qed.

(** All that [create_dom_in] leaves. *)
Lemma create_in_shows t s r arrs s' : (a_beg (m_arena s) <= a_end (m_arena s))%Z ->
  create_dom_in s t = Ok (r, arrs, s') ->
  create_dom t = Ok r /\
  exists d b ex, parse_root t empty_dom = Ok (b, d) /\ r = (if (b : bool) then Some d else None) /\
    Forall2 (shows_arr s') arrs (cells (map nkey (nodes d)) (firsts d) (pchilds d) (nexts d) (bprops d) (props d)
         (length (tag_reg d)) (length (bool_reg d)) (length (key_reg d)) (length (val_reg d)) ex) /\
    texts_in ex = map singles (ntexts (nodes d)) /\
    forall a, (a < a_beg (m_arena s) \/ a_end (m_arena s) <= a)%Z -> m_cont s' a = m_cont s a.
Proof.
  intros I E. unfold create_dom_in in E. pose proof (s_create_dom t) as S. destruct (t_create_dom t) as [l o] eqn:Et.
  cbn [snd] in S. subst o. destruct (mruns (dom_arrays ++ prog 11 l) [] s) as [[ar m]| | |] eqn:Em; try discriminate. cbn [bind] in E.
  destruct (create_dom t) as [r'| | |] eqn:Ec; try discriminate. cbn [bind] in E. injection E as <- <- <-. split; [reflexivity|].
  destruct (create_mem t l r' Et) as (d & b & ex & P & R & A & Al & Tx & Dm).
  exists d, b, ex. split; [exact P|]. split; [exact R|].
  pose proof (mruns_safe (a_beg (m_arena s)) _ s [] [] _ (ok_fresh s) A I) as W. rewrite Em in W. cbn in W. destruct W as [W F].
  split; [exact (ok_shows _ _ _ _ W)|]. split; [exact Tx|]. apply F.
Qed.

(** Room that suffices. *)
Lemma create_in_fits t s r : create_dom t = Ok r ->
  (a_beg (m_arena s) + (1236 * Z.of_nat (length t) + 2746) <= a_end (m_arena s))%Z ->
  exists arrs s', create_dom_in s t = Ok (r, arrs, s').
Proof.
  intros E R. unfold create_dom_in. pose proof (s_create_dom t) as S. destruct (t_create_dom t) as [l o] eqn:Et.
  cbn [snd] in S. subst o. rewrite E in Et. destruct (create_mem t l r Et) as (d & b & ex & P & _ & A & Al & _ & Dm).
  destruct (mruns_fits 8 (a_beg (m_arena s)) _ ltac:(lia) s [] [] _ (ok_fresh s) A Al) as (ds & s' & Em).
  - constructor.
  - unfold within. cbn. lia.
  - lia.
  - pose proof (sz_parse t None 1 [(1, [])] empty_dom) as G. unfold parse_root in P. rewrite P in G. cbn [okq] in G.
    destruct G as [G1 G2 G3 G4 G5 G6 G7 G8 G9].
    change (length (nodes empty_dom)) with 2 in *. change (texts empty_dom) with 0 in *.
    change (length (bprops empty_dom)) with 0 in *. change (length (props empty_dom)) with 0 in *.
    change (length (firsts empty_dom)) with 0 in *. change (length (pchilds empty_dom)) with 0 in *.
    change (length (nexts empty_dom)) with 0 in *. change (length (tag_reg empty_dom)) with 1 in *.
    change (length (bool_reg empty_dom)) with 1 in *. change (length (key_reg empty_dom)) with 1 in *.
    change (length (val_reg empty_dom)) with 1 in *.
    unfold cells. cbn [demand length]. rewrite !map_length, !repeat_length. lia.
  - rewrite Em. cbn [bind]. rewrite E. cbn [bind]. eauto.
Qed.
