(** * Documents and fragments from files (C73). *)
From Coq Require Import String List NArith ZArith Arith Bool Lia.
From Verif Require Import Base DomModel ParserModel EditModel QueryModel MemModel MemSpec MemProofs
  FileModel Examples.
Import ListNotations.
Local Open Scope Z_scope.

Lemma alloc_bytes n a : 0 <= n -> a_beg a <= a_end a ->
  alloc true 1 1 n a = if a_end a - a_beg a <? n then Ok (None, a)
                       else Ok (Some (a_beg a), mkArena (a_beg a + n) (a_end a)).
Proof.
  intros N I. unfold alloc. rewrite (padding_mod _ _ pow2_one), Z.mod_1_r, Z.sub_0_r, Z.quot_1_r, Z.add_0_r, Z.mul_1_l.
  destruct (_ <? n); reflexivity.
Qed.

(** C73: [flo_readFile] on a file that can be opened and whose size is known.
    Success: the buffer lies in the arena and holds the first bytes of the file, as
    many as its size was.  It fails exactly if the arena has no room or the file
    delivers fewer bytes.  Memory in use before the call and memory outside the
    arena is never changed. *)
Theorem C73_read_file : forall f s, 0 <= f_tell f -> a_beg (m_arena s) <= a_end (m_arena s) ->
  exists st b s', read_file (Some f) s = Ok (st, b, s') /\
    (st = FSuccess <-> f_tell f <= a_end (m_arena s) - a_beg (m_arena s) /\
                       f_tell f <= Z.of_nat (length (f_data f))) /\
    (st = FCantAllocate <-> a_end (m_arena s) - a_beg (m_arena s) < f_tell f) /\
    st <> FCantOpen /\
    (st = FSuccess -> exists p, b = Some (p, f_tell f) /\ a_beg (m_arena s) <= p /\
       p + f_tell f <= a_beg (m_arena s') /\
       content (p, f_tell f) s' = firstn (Z.to_nat (f_tell f)) (f_data f)) /\
    (st <> FSuccess -> b = None) /\
    a_beg (m_arena s) <= a_beg (m_arena s') <= a_end (m_arena s') /\
    a_end (m_arena s') = a_end (m_arena s) /\
    (forall a, a < a_beg (m_arena s) \/ a_end (m_arena s) <= a -> m_cont s' a = m_cont s a).
Proof.
  intros f s N I. unfold read_file. rewrite (alloc_bytes _ _ N I).
  destruct (Z.ltb_spec (a_end (m_arena s) - a_beg (m_arena s)) (f_tell f)) as [L|L]; cbn [bind].
  - do 3 eexists. split; [reflexivity|]. cbn [m_arena m_cont].
    split; [split; [discriminate|lia]|]. split; [tauto|]. split; [discriminate|].
    split; [discriminate|]. split; [reflexivity|]. split; [lia|]. split; [reflexivity|]. reflexivity.
  - unfold fread, fread_count. destruct (Z.ltb_spec (f_tell f) 0) as [Q|_]; [lia|]. cbn [m_arena m_cont a_beg a_end].
    set (k := Nat.min (Z.to_nat (f_tell f)) (length (f_data f))).
    assert (K : (k <= length (f_data f))%nat /\ Z.of_nat k <= f_tell f) by (unfold k; lia).
    destruct (Z.ltb_spec (a_end (m_arena s)) (a_beg (m_arena s) + Z.of_nat k)) as [Q|_]; [lia|].
    rewrite andb_false_r. cbn [bind].
    assert (F : forall a, a < a_beg (m_arena s) \/ a_end (m_arena s) <= a ->
      wr (m_cont s) (a_beg (m_arena s)) (firstn k (f_data f)) a = m_cont s a).
    { intros a Ha. apply wr_out. rewrite firstn_length_le by lia. lia. }
    destruct (Z.eqb_spec (Z.of_nat k) (f_tell f)) as [E|E].
    + do 3 eexists. split; [reflexivity|]. cbn [m_arena m_cont a_beg a_end].
      split; [split; [lia|reflexivity]|]. split; [split; [discriminate|lia]|]. split; [discriminate|].
      split; [|split; [congruence|split; [lia|split; [reflexivity|exact F]]]].
      intros _. exists (a_beg (m_arena s)). split; [reflexivity|]. split; [lia|]. split; [lia|].
      unfold content. cbn [fst snd m_cont]. rewrite <- E, Nat2Z.id.
      rewrite <- (firstn_length_le (f_data f) (proj1 K)) at 2. apply rd_wr.
    + do 3 eexists. split; [reflexivity|]. cbn [m_arena m_cont a_beg a_end].
      split; [split; [discriminate|unfold k in E; lia]|]. split; [split; [discriminate|lia]|]. split; [discriminate|].
      split; [discriminate|]. split; [reflexivity|]. split; [lia|]. split; [reflexivity|exact F].
Qed.
Print Assumptions C73_read_file.

(** An ordinary file with these bytes. *)
Definition plain (data : bytes) : file := mkFile (Z.of_nat (length data)) data.
Definition room (s : mem) : Z := a_end (m_arena s) - a_beg (m_arena s).

Lemma read_plain data s : 0 <= room s ->
  (Z.of_nat (length data) <= room s -> exists b s', read_file (Some (plain data)) s = Ok (FSuccess, Some b, s') /\
     content b s' = data) /\
  (room s < Z.of_nat (length data) -> exists s', read_file (Some (plain data)) s = Ok (FCantAllocate, None, s')).
Proof.
  unfold room. intros R. destruct (C73_read_file (plain data) s) as (st & b & s' & E & H1 & H2 & _ & H4 & H5 & _); [cbn; lia|lia|].
  cbn [f_tell f_data plain] in *. split; intros L.
  - destruct H1 as [_ H1]. rewrite H1 in * by lia. destruct (H4 eq_refl) as (p & -> & _ & _ & C). do 2 eexists. split; [exact E|].
    rewrite C, Nat2Z.id. apply firstn_all.
  - destruct H2 as [_ H2]. specialize (H2 L). subst st. rewrite H5 in E by discriminate. eauto.
Qed.

(** C73: for an ordinary file that fits in the arena, the calls that take a file
    name do exactly what the corresponding calls on its contents do. *)
Theorem C73_same_as_string : forall data s, Z.of_nat (length data) <= room s ->
  create_dom_from_file (Some (plain data)) s = create_dom data /\
  forall below lo css d,
    append_html_from_file below lo css (Some (plain data)) d s =
      with_query lo css (fun p => append_html below p data) d /\
    prepend_html_from_file below lo css (Some (plain data)) d s =
      with_query lo css (fun p => prepend_html below p data) d /\
    replace_with_html_from_file below lo css (Some (plain data)) d s =
      with_query lo css (fun p => replace_with_html below p data) d.
Proof.
  intros data s L. destruct (read_plain data s) as [H _]; [lia|]. destruct (H L) as (b & s' & E & C).
  split.
  - unfold create_dom_from_file. rewrite E. cbn [bind]. now rewrite C.
  - intros. unfold append_html_from_file, prepend_html_from_file, replace_with_html_from_file, from_file_with_query.
    rewrite E. cbn [bind]. now rewrite C.
Qed.
Print Assumptions C73_same_as_string.

(** C73: if the file cannot be opened or does not fit, or if it delivers fewer
    bytes than its size, the result is NULL or the error node 0 and the document
    is unchanged. *)
Theorem C73_unreadable : forall f s, a_beg (m_arena s) <= a_end (m_arena s) ->
  match f with
  | None => True
  | Some f => 0 <= f_tell f /\ (room s < f_tell f \/ Z.of_nat (length (f_data f)) < f_tell f)
  end ->
  create_dom_from_file f s = Ok None /\
  forall below lo css d,
    append_html_from_file below lo css f d s = Ok (0%nat, d) /\
    prepend_html_from_file below lo css f d s = Ok (0%nat, d) /\
    replace_with_html_from_file below lo css f d s = Ok (0%nat, d).
Proof.
  intros f s I H.
  assert (E : exists st s', read_file f s = Ok (st, None, s') /\ st <> FSuccess).
  { destruct f as [f|]; [|now exists FCantOpen, s]. unfold room in H.
    destruct (C73_read_file f s) as (st & b & s' & E & H1 & _ & _ & _ & H5 & _); [lia|lia|].
    assert (N : st <> FSuccess) by (intros Q; apply H1 in Q; lia). exists st, s'. now rewrite E, (H5 N). }
  destruct E as (st & s' & E & N).
  split.
  - unfold create_dom_from_file. rewrite E. now destruct st.
  - intros. unfold append_html_from_file, prepend_html_from_file, replace_with_html_from_file, from_file_with_query.
    rewrite E. now destruct st.
Qed.
Print Assumptions C73_unreadable.

(** [C73_read_file] fails for files whose size [ftell] cannot tell (a pipe): the
    count -1 is passed to the allocator and to [fread].  Whatever the arena, the
    next allocation then starts inside the last block ... *)
Theorem C73_unseekable_overlap_refuted : forall s n p s1, 0 < n ->
  a_beg (m_arena s) <= a_end (m_arena s) -> alloc1 1 1 n s = Ok (p, s1) ->
  exists s2 q s3, read_file (Some (mkFile (-1) [])) s1 = Ok (FCantRead, None, s2) /\
    alloc1 1 1 1 s2 = Ok (q, s3) /\ p <= q < p + n.
Proof.
  intros s n p s1 N I E. destruct (alloc1_ok 1 1 n s p s1 ltac:(lia) pow2_one N E) as (H1 & _ & H3 & H4 & _).
  unfold read_file. cbn [f_tell]. unfold alloc at 1.
  rewrite (padding_mod _ _ pow2_one), Z.mod_1_r, Z.sub_0_r, Z.quot_1_r, Z.add_0_r.
  destruct (Z.ltb_spec (a_end (m_arena s1) - a_beg (m_arena s1)) (-1)) as [Q|_]; [lia|]. cbn [bind].
  unfold fread, fread_count. cbn [f_data length Z.ltb Z.compare Z.of_nat andb bind m_arena m_cont firstn Z.eqb].
  do 3 eexists. split; [reflexivity|]. unfold alloc1, alloc. cbn [m_arena m_cont a_beg a_end].
  rewrite (padding_mod _ _ pow2_one), Z.mod_1_r, Z.sub_0_r, Z.quot_1_r, Z.add_0_r.
  destruct (Z.ltb_spec (a_end (m_arena s1) - (a_beg (m_arena s1) + 1 * -1)) 1) as [Q|_]; [lia|]. cbn [bind].
  split; [reflexivity|]. lia.
Qed.
Print Assumptions C73_unseekable_overlap_refuted.

(** ... and a pipe that delivers more bytes than the arena has room for is written
    past the end of the arena. *)
Theorem C73_unseekable_overflow_refuted : forall s data, a_beg (m_arena s) <= a_end (m_arena s) ->
  room s < Z.of_nat (length data) -> read_file (Some (mkFile (-1) data)) s = Undef OobWrite.
Proof.
  unfold room. intros s data I L. unfold read_file. cbn [f_tell]. unfold alloc.
  rewrite (padding_mod _ _ pow2_one), Z.mod_1_r, Z.sub_0_r, Z.quot_1_r, Z.add_0_r.
  destruct (Z.ltb_spec (a_end (m_arena s) - a_beg (m_arena s)) (-1)) as [Q|_]; [lia|]. cbn [bind].
  unfold fread, fread_count. cbn [f_data]. change (-1 <? 0) with true. cbn [m_arena a_end].
  destruct (Z.ltb_spec 0 (Z.of_nat (length data))) as [_|Q]; [|lia].
  destruct (Z.ltb_spec (a_end (m_arena s)) (a_beg (m_arena s) + Z.of_nat (length data))) as [_|Q]; [|lia].
  reflexivity.
Qed.
Print Assumptions C73_unseekable_overflow_refuted.

Example C73_ex : let s := mkMem (mkArena 100 200) (fun _ => 0%N) in let data := B "<a>x</a>" in
  Z.of_nat (length data) <= room s /\ a_beg (m_arena s) <= a_end (m_arena s) /\
  (exists d, create_dom_from_file (Some (plain data)) s = Ok (Some d) /\ length (nodes d) = 4%nat) /\
  create_dom_from_file None s = Ok None /\
  create_dom_from_file (Some (mkFile 9 data)) s = Ok None /\
  create_dom_from_file (Some (mkFile 101 data)) s = Ok None.
Proof.
  split; [cbv; congruence|]. split; [cbv; congruence|].
  split; [eexists; split; vm_compute; reflexivity|]. vm_compute. auto.
Qed.
