(** * Saving a document to a file (C101). *)
From Coq Require Import String List NArith ZArith Arith Bool Lia.
From Verif Require Import Base DomModel ParserModel CompareModel MemModel LogModel LogSpec PrintModel PrintSpec PrintProofs
  PathModel FileModel SaveModel SaveProofs DomSpec ApiSpec CompareSpec GrammarSpec RoundSpec Examples PropsFile PropsPrint
  PropsCompare PropsRound PropsGrammar.
From Verif Require NoJump ParseTree ParseTree ApiProofs.
Import ListNotations.
Local Open Scope nat_scope.

(** The number of bytes a scratch arena has left. *)
Definition left_in (a : arena) : Z := a_end a - a_beg a.

(** C101: a path that ends with a NUL, a scratch arena with room for it and for the
    8192 bytes of the buffer, a kernel that accepts at least one byte per [write]:
    whatever [fopen] says, the call returns.  If the file could be opened the status
    is success and the file holds exactly the printed document (which replaces what
    it held before); otherwise the status says so and every file is as before.
    No other file changes; the directories are those of C56. *)
Theorem C101_save : forall d k can path rest a fs, reachable d -> progresses k -> ~ In 0%N path ->
  (Z.of_nat (length path) < left_in a)%Z -> (Z.of_nat (2 ^ 13) <= left_in a)%Z ->
  exists dirs s, create_path path = Ok dirs /\ prints d 1 s /\
  exists fuel, forall fuel', fuel <= fuel' -> exists st fs',
    save fuel' can k d path (0%N :: rest) a fs = Ok (Returned st, fs') /\
    fs_made fs' = fs_made fs ++ dirs /\
    st = (if can path (fs_made fs ++ dirs) then FSuccess else FCantOpen) /\
    (st = FSuccess -> fs_file fs' path = Some s) /\
    (st = FCantOpen -> fs_file fs' path = fs_file fs path) /\
    forall n, n <> path -> fs_file fs' n = fs_file fs n.
Proof.
  intros d k can path rest a fs R K Z L1 L2. unfold left_in in *.
  destruct (create_path_total path) as [dirs D]. destruct (write_html_ok d k R K) as (ps & E & fuel & W).
  destruct (print_dom_ok d R) as (ps' & E' & P). rewrite E in E'. injection E' as <-.
  exists dirs, (concat ps). split; [exact D|]. split; [exact P|]. exists fuel. intros fuel' F.
  destruct (W fuel' F) as (w & Hw & Ho). unfold save. rewrite (create_path_in_room path a dirs D L1). cbn [bind fs_made].
  rewrite cstr_nul by exact Z. cbn [bind]. destruct (can path (fs_made fs ++ dirs)).
  - rewrite alloc_one. unfold file_buffer. destruct (Z.ltb_spec (a_end a - a_beg a) (Z.of_nat (2 ^ 13))) as [Q|_]; [lia|].
    rewrite Hw. cbn [bind]. do 2 eexists. split; [reflexivity|]. split; [reflexivity|]. split; [reflexivity|].
    split; [intros _; rewrite store_same, Ho; reflexivity|]. split; [discriminate|].
    intros n H. now rewrite !store_other.
  - do 2 eexists. split; [reflexivity|]. split; [reflexivity|]. split; [reflexivity|]. split; [discriminate|]. split; auto.
Qed.
Print Assumptions C101_save.

(** For any kernel, any arena and any answer of [fopen]: no undefined behaviour; only
    the named file can change, and no file changes if it could not be opened. *)
Theorem C101_only_that_file : forall fuel can k d path after a fs, reachable d -> In 0%N (path ++ after) ->
  save fuel can k d path after a fs = NoFuel \/
  exists e fs', save fuel can k d path after a fs = Ok (e, fs') /\
    (forall n, n <> until_nul (path ++ after) -> fs_file fs' n = fs_file fs n) /\
    (e = Returned FCantOpen -> forall n, fs_file fs' n = fs_file fs n).
Proof. exact save_cases. Qed.
Print Assumptions C101_only_that_file.

(** Saving and loading: under the conditions of C53 the document that
    createDomFromFile makes of the saved file is equal to the one that was saved. *)
Theorem C101_save_load : forall d pr ts k can path rest a fs m, reachable d -> agrees d pr ->
  shows_kids d 1 ts -> printable_doc pr ts -> few_attributes d -> progresses k -> ~ In 0%N path ->
  (forall l, can path l = true) -> (Z.of_nat (length path) < left_in a)%Z -> (Z.of_nat (2 ^ 13) <= left_in a)%Z ->
  exists fuel, forall fuel', fuel <= fuel' -> exists fs' s,
    save fuel' can k d path (0%N :: rest) a fs = Ok (Returned FSuccess, fs') /\ fs_file fs' path = Some s /\
    ((Z.of_nat (length s) <= room m)%Z ->
     ends_in (create_dom_from_file (option_map plain (fs_file fs' path)) m)
       (fun r => exists d' i j, r = Some d' /\ dom_equals d d' = Ok (CSuccess, i, j))).
Proof.
  intros d pr ts k can path rest a fs m R A S P FA K Z C L1 L2.
  destruct (C101_save d k can path rest a fs R K Z L1 L2) as (dirs & s & _ & Pr & fuel & H). exists fuel. intros fuel' F.
  destruct (H fuel' F) as (st & fs' & E & _ & St & Fs & _). rewrite C in St. subst st. exists fs', s.
  split; [exact E|]. split; [now apply Fs|]. intros Rm. rewrite (Fs eq_refl). cbn [option_map].
  rewrite (proj1 (C73_same_as_string s m Rm)).
  pose proof (C53_round_trip d pr ts s R A S P Pr) as Q. destruct (create_dom s) as [r| | |]; cbn [ends_in] in *; auto.
  destruct Q as (d' & -> & _ & _ & Q). destruct (Q FA) as (i & j & Q'). eauto.
Qed.
Print Assumptions C101_save_load.

(** The status does not tell whether the document was written: a document of at most
    8192 bytes whose (only) write fails is lost, its file is empty, and the status is
    success. *)
Theorem C101_write_error_refuted : forall d ps k can path rest a fs fuel, reachable d -> print_dom d = Ok ps ->
  0 < length (concat ps) <= 2 ^ 13 -> k 0 = None -> 0 < fuel -> ~ In 0%N path -> (forall l, can path l = true) ->
  (Z.of_nat (length path) < left_in a)%Z -> (Z.of_nat (2 ^ 13) <= left_in a)%Z ->
  exists fs', save fuel can k d path (0%N :: rest) a fs = Ok (Returned FSuccess, fs') /\
    fs_file fs' path = Some [].
Proof.
  intros d ps k can path rest a fs fuel R E L K F Z C L1 L2. unfold left_in in *.
  destruct (create_path_total path) as [dirs D]. unfold save.
  rewrite (create_path_in_room path a dirs D L1). cbn [bind fs_made]. rewrite cstr_nul by exact Z. cbn [bind].
  rewrite C, alloc_one. unfold file_buffer at 1. destruct (Z.ltb_spec (a_end a - a_beg a) (Z.of_nat (2 ^ 13))) as [Q|_]; [lia|].
  unfold write_html. rewrite E. cbn [bind]. rewrite wruns_app, wruns_fit; [|exact F|exact (proj2 L)]. cbn [bind wruns wrun w_cap w_buf w_out w_calls app].
  rewrite LogProofs.flush_fail; [|exact K|cbn; destruct (concat ps); [cbn in L; lia|discriminate]|exact F].
  cbn [bind w_out]. eexists. split; [reflexivity|]. now rewrite store_same.
Qed.
Print Assumptions C101_write_error_refuted.

(** A longer document on a full disk: the call does not return at all. *)
Theorem C101_disk_full_hangs : forall d ps k can path rest a fs fuel, reachable d -> print_dom d = Ok ps ->
  2 ^ 13 < length (concat ps) -> (forall i, k i = None) -> ~ In 0%N path -> (forall l, can path l = true) ->
  (Z.of_nat (length path) < left_in a)%Z -> (Z.of_nat (2 ^ 13) <= left_in a)%Z ->
  save fuel can k d path (0%N :: rest) a fs = NoFuel.
Proof.
  intros d ps k can path rest a fs fuel R E L K Z C L1 L2. unfold left_in in *.
  destruct (create_path_total path) as [dirs D]. unfold save.
  rewrite (create_path_in_room path a dirs D L1). cbn [bind fs_made]. rewrite cstr_nul by exact Z. cbn [bind].
  rewrite C, alloc_one. unfold file_buffer at 1. destruct (Z.ltb_spec (a_end a - a_beg a) (Z.of_nat (2 ^ 13))) as [Q|_]; [lia|].
  unfold write_html. rewrite E. cbn [bind]. rewrite wruns_app, wruns_hang; [reflexivity|exact K| | |exact L].
  - apply Nat.neq_0_lt_0, Nat.pow_nonzero. discriminate.
  - apply Nat.le_0_l.
Qed.
Print Assumptions C101_disk_full_hangs.

(** A save that fails for want of memory has already emptied the file: the buffer is
    allocated after the file was opened. *)
Theorem C101_old_file_lost_refuted : forall fuel d k can path rest a fs, ~ In c_slash path -> ~ In 0%N path ->
  (forall l, can path l = true) -> (left_in a < Z.of_nat (2 ^ 13))%Z ->
  exists fs', save fuel can k d path (0%N :: rest) a fs = Ok (Jumped, fs') /\ fs_file fs' path = Some [].
Proof.
  intros fuel d k can path rest a fs Sl Z C L. unfold left_in in *. unfold save. rewrite create_path_none by exact Sl.
  cbn [bind fs_made]. rewrite cstr_nul by exact Z. cbn [bind]. rewrite C, alloc_one. unfold file_buffer.
  destruct (Z.ltb_spec (a_end a - a_beg a) (Z.of_nat (2 ^ 13))) as [_|Q]; [|lia].
  eexists. split; [reflexivity|]. now rewrite store_same.
Qed.
Print Assumptions C101_old_file_lost_refuted.

(** The file name is taken up to a NUL, not by its length: bytes behind the string
    become part of it, and without a NUL the read runs away. *)
Theorem C101_name_by_length_refuted : forall fuel can k d path after a fs, ~ In 0%N (path ++ after) ->
  (Z.of_nat (length path) < left_in a)%Z -> save fuel can k d path after a fs = Undef OobRead.
Proof.
  intros fuel can k d path after a fs Z L. destruct (create_path_total path) as [dirs D]. unfold save.
  rewrite (create_path_in_room path a dirs D L). cbn [bind]. destruct (cstr_until (path ++ after)) as [E|[-> _]]; [|reflexivity].
  exfalso. revert E Z. clear. induction (path ++ after) as [|c s IH]; cbn [cstr_text until_nul]; [discriminate|].
  destruct (N.eqb_spec c 0) as [->|_]; [intros _ H; apply H; now left|]. intros E H. destruct (cstr_text s) eqn:Q; cbn in E; try discriminate.
  apply IH; [congruence|]. intros X. apply H. now right.
Qed.
Print Assumptions C101_name_by_length_refuted.

(** The example document is saved as "out/a.html", replacing an old file, and "out"
    is created; a scratch arena of 9000 bytes.  A failing write, a small arena and a
    file that cannot be opened; and a name that is the front of a longer string. *)
Definition old_fs : fsys := mkFs (fun n => if beq n (B "out/a.html") then Some (B "old") else None) [].
Definition then_holds (r : outcome (save_end * fsys)) (n : bytes) : option (save_end * option bytes * list bytes) :=
  match r with Ok (e, fs) => Some (e, fs_file fs n, fs_made fs) | _ => None end.
Example C101_ex :
  let a := mkArena 1000 10000 in let p := B "out/a.html" in
  reachable ex1 /\ progresses (fun _ => Some 7) /\ ~ In 0%N p /\
  (Z.of_nat (length p) < left_in a)%Z /\ (Z.of_nat (2 ^ 13) <= left_in a)%Z /\
  then_holds (save 200 (fun _ l => match l with [] => false | _ => true end) (fun _ => Some 7) ex1 p [0%N] a old_fs) p
    = Some (Returned FSuccess, Some ex1_printed, [B "out"]) /\
  then_holds (save 200 (fun _ _ => false) (fun _ => Some 7) ex1 p [0%N] a old_fs) p
    = Some (Returned FCantOpen, Some (B "old"), [B "out"]) /\
  then_holds (save 10 (fun _ _ => true) (fun _ => None) ex1 p [0%N] a old_fs) p
    = Some (Returned FSuccess, Some [], [B "out"]) /\
  then_holds (save 10 (fun _ _ => true) (fun _ => Some 7) ex1 p [0%N] (mkArena 1000 9000) old_fs) p
    = Some (Jumped, Some [], [B "out"]) /\
  then_holds (save 200 (fun _ _ => true) (fun _ => Some 7) ex1 p (B ".bak" ++ [0%N]) a old_fs) (B "out/a.html.bak")
    = Some (Returned FSuccess, Some ex1_printed, [B "out"]).
Proof.
  cbv zeta. split; [exact ex1_reachable|]. split; [intros i; exists 7; split; [reflexivity|lia]|].
  split; [vm_compute; intuition discriminate|].
  split; [vm_compute; reflexivity|]. split; [vm_compute; discriminate|].
  repeat split; vm_compute; reflexivity.
Qed.
(** A document of more than 8192 printed bytes: 8193 letters. *)
Lemma words_repeat n : words (repeat 97%N (S n)) = [repeat 97%N (S n)].
Proof.
  induction n as [|n IH]; [reflexivity|]. change (repeat 97%N (S (S n))) with (97%N :: repeat 97%N (S n)).
  cbn [words]. rewrite IH. reflexivity.
Qed.
Lemma letters n : (N.of_nat (S n) <= 65533)%N ->
  exists d ps, reachable d /\ print_dom d = Ok ps /\ length (concat ps) = S n.
Proof.
  intros L.
  assert (Q : parses_to (repeat 97%N (S n)) [Txt (repeat 97%N (S n))]).
  { pose proof (C05_plain_text_exact (repeat 97%N (S n))) as Q. unfold text_trees in Q. rewrite words_repeat in Q. cbn [flat_map] in Q.
    rewrite app_nil_r in Q. apply Q. intros H. apply repeat_spec in H. discriminate. }
  unfold parses_to in Q. rewrite <- (repeat_length 97%N (S n)) in L at 1.
  pose proof (NoJump.nj_create_dom _ L) as J. destruct (create_dom (repeat 97%N (S n))) as [r| | |] eqn:E; cbn [ends_in NoJump.nj] in Q, J; try contradiction.
  destruct Q as (d & -> & ks & C & F). assert (R : reachable d) by exact (reach_create _ _ E).
  exists d. destruct (print_dom_ok d R) as (ps & Hp & Pr). exists ps. split; [exact R|]. split; [exact Hp|].
  assert (X : prints d 1 (repeat 97%N (S n) ++ [])).
  { apply prints_root with (l := ks); [|exact C|].
    - destruct (ApiProofs.reachable_good d R) as [k0 G]. apply (ParseTree.ty_one _ _ (ParseTree.g_ty _ _ G)).
    - inversion F as [|x t l' ts' Hx Ht]; subst. inversion Ht; subst. inversion Hx; subst. constructor; [|constructor].
      apply prints_text. match goal with H : text_content _ _ _ |- _ => injection H end. auto. }
  rewrite app_nil_r in X. rewrite <- (prints_unique d R 1 _ X _ Pr). apply repeat_length.
Qed.
Example C101_ex2 : exists d ps, reachable d /\ print_dom d = Ok ps /\ 2 ^ 13 < length (concat ps).
Proof.
  destruct (letters (2 ^ 13)) as (d & ps & R & E & L).
  - rewrite Nat2N.inj_succ, Nat2N.inj_pow. vm_compute. discriminate.
  - exists d, ps. split; [exact R|]. split; [exact E|]. rewrite L. apply Nat.lt_succ_diag_r.
Qed.
