(** * Proofs about saving a document to a file. *)
From Coq Require Import List NArith ZArith Arith Bool Lia.
From Verif Require Import Base Lemmas DomModel MemModel MemProofs LogModel LogSpec LogProofs PrintModel PrintSpec PrintProofs
  PathModel PathProofs FileModel SaveModel ApiSpec.
Import ListNotations.
Local Open Scope nat_scope.

(** No undefined behaviour and no jump; the call may not return. *)
Definition quiet {A} (o : outcome A) : Prop := match o with Ok _ | NoFuel => True | _ => False end.
Lemma quiet_bind {A B} (o : outcome A) (f : A -> outcome B) : quiet o -> (forall a, o = Ok a -> quiet (f a)) -> quiet (bind o f).
Proof. destruct o; cbn; intros H K; try contradiction; [now apply K|exact Logic.I]. Qed.

Lemma flush_quiet k : forall fuel done w, quiet (flush_loop fuel k done w).
Proof.
  induction fuel as [|f IH]; intros done w; cbn [flush_loop]; [exact Logic.I|].
  destruct (done <? length (w_buf w)); [|exact Logic.I]. destruct (k (w_calls w)); [apply IH|exact Logic.I].
Qed.
Lemma append_loop_quiet k : forall fuel rest w, quiet (append_loop fuel k rest w).
Proof.
  induction fuel as [|f IH]; intros rest w; cbn [append_loop]; [exact Logic.I|].
  destruct rest as [|c rest]; [exact Logic.I|]. set (r := skipn _ _). destruct r; [exact Logic.I|].
  apply quiet_bind; [apply flush_quiet|]. intros [b w'] _. apply IH.
Qed.
Lemma wapp_quiet fuel k s w : quiet (wrun fuel k (WApp s false false) w).
Proof.
  cbn [wrun]. unfold append. apply quiet_bind; [|intros []; exact (fun _ => Logic.I)].
  apply quiet_bind; [apply append_loop_quiet|]. intros w' _. exact Logic.I.
Qed.
Lemma wruns_quiet fuel k : forall ps w, quiet (wruns fuel k (map (fun s => WApp s false false) ps ++ [WFlush]) w).
Proof.
  induction ps as [|s ps IH]; intros w; cbn [map app wruns].
  - apply quiet_bind; [|intros; exact Logic.I]. cbn [wrun]. apply quiet_bind; [apply flush_quiet|]. intros []. exact (fun _ => Logic.I).
  - apply quiet_bind; [apply wapp_quiet|]. intros w' _. apply IH.
Qed.

Lemma wruns_app fuel k : forall a b w, wruns fuel k (a ++ b) w = bind (wruns fuel k a w) (wruns fuel k b).
Proof.
  induction a as [|o a IH]; intros b w; cbn [app wruns bind]; [reflexivity|].
  destruct (wrun fuel k o w); cbn [bind]; auto.
Qed.

(** As long as everything fits, nothing is written. *)
Lemma wapp_fits fuel k s w : 0 < fuel -> length (w_buf w) + length s <= w_cap w ->
  wrun fuel k (WApp s false false) w = Ok (mkW (w_cap w) (w_buf w ++ s) (w_out w) (w_calls w)).
Proof.
  intros F L. destruct fuel as [|f]; [lia|]. cbn [wrun]. unfold append. cbn [append_loop]. destruct s as [|c s].
  - cbn [bind finish]. rewrite app_nil_r. destruct w; reflexivity.
  - replace (Nat.min (w_cap w - length (w_buf w)) (length (c :: s))) with (length (c :: s)) by lia.
    rewrite firstn_all, skipn_all. cbn [bind finish]. reflexivity.
Qed.
Lemma wruns_fit fuel k : forall ps w, 0 < fuel -> length (w_buf w) + length (concat ps) <= w_cap w ->
  wruns fuel k (map (fun s => WApp s false false) ps) w = Ok (mkW (w_cap w) (w_buf w ++ concat ps) (w_out w) (w_calls w)).
Proof.
  induction ps as [|s ps IH]; intros w F L; cbn [map wruns concat].
  - rewrite app_nil_r. now destruct w.
  - cbn [concat] in L. rewrite app_length in L. rewrite wapp_fits by lia. cbn [bind].
    rewrite IH; cbn [w_cap w_buf w_out w_calls]; [now rewrite app_assoc|exact F|rewrite app_length; lia].
Qed.
(** Otherwise the call never returns if every [write] fails. *)
Lemma wruns_hang fuel k : (forall i, k i = None) -> forall ps w, 0 < w_cap w -> length (w_buf w) <= w_cap w ->
  w_cap w < length (w_buf w) + length (concat ps) ->
  wruns fuel k (map (fun s => WApp s false false) ps) w = NoFuel.
Proof.
  intros K. induction ps as [|s ps IH]; intros w C B L; cbn [map wruns concat] in *; [cbn in L; lia|].
  rewrite app_length in L. destruct (Nat.le_gt_cases (length (w_buf w) + length s) (w_cap w)) as [Q|Q].
  - destruct (Nat.eq_0_gt_0_cases fuel) as [->|F].
    + cbn [wrun]. unfold append. reflexivity.
    + rewrite wapp_fits by lia. cbn [bind]. apply IH; cbn [w_cap w_buf]; rewrite ?app_length; lia.
  - cbn [wrun]. unfold append. now rewrite append_diverges.
Qed.

(** ** The path and the arena *)
Lemma path_loop_S f path j : path_loop (S f) path (Some (S j)) =
  let* l := path_loop f path (first_occurrence_from path c_slash (S (S j))) in Ok (until_nul (firstn (S j) path) :: l).
Proof. reflexivity. Qed.
Lemma create_path_total path : exists l, create_path path = Ok l.
Proof.
  unfold create_path. destruct (first_occurrence_from path c_slash 0) as [[|j]|] eqn:E; [eexists; reflexivity| |eexists; reflexivity].
  rewrite path_loop_S. assert (L : 0 < length path) by (destruct path; [discriminate|cbn; lia]).
  rewrite path_loop_ok; [cbn [bind]; eexists; reflexivity|lia|lia].
Qed.
Lemma create_path_none (path : bytes) a : ~ In c_slash path -> create_path_in path a = Ok (Some []).
Proof.
  intros H. unfold create_path_in. pose proof (first_from_spec path c_slash (length path) 0 (Nat.le_add_r _ _)) as S.
  unfold first_occurrence_from. unfold bytes in *. destruct (first_from (length path) path c_slash 0) as [j|]; [|reflexivity].
  exfalso. apply H. apply (nth_error_In path j), S.
Qed.
Lemma alloc_one n a : alloc false 1 1 n a =
  if (a_end a - a_beg a <? n)%Z then Longjmp ArenaFull else Ok (Some (a_beg a), mkArena (a_beg a + n) (a_end a)).
Proof.
  unfold alloc. rewrite (padding_mod _ _ pow2_one), Z.mod_1_r, Z.sub_0_r, Z.quot_1_r, Z.add_0_r, Z.mul_1_l.
  destruct (_ <? n)%Z; reflexivity.
Qed.
Lemma create_path_in_total path a : create_path_in path a = Ok None \/
  exists l, create_path path = Ok l /\ create_path_in path a = Ok (Some l).
Proof.
  unfold create_path_in. destruct (create_path_total path) as [l E].
  destruct (first_occurrence_from path c_slash 0) as [j|] eqn:Q.
  - rewrite alloc_one. destruct (_ <? _)%Z; [now left|]. right. exists l. split; [exact E|]. now rewrite E.
  - right. unfold create_path in E. rewrite Q in E. destruct path; cbn in E; injection E as <-; exists []; split; auto;
    unfold create_path; now rewrite Q.
Qed.
Lemma create_path_in_room path a l : create_path path = Ok l -> (Z.of_nat (length path) < a_end a - a_beg a)%Z ->
  create_path_in path a = Ok (Some l).
Proof.
  intros E R. destruct (create_path_in_total path a) as [H|(l' & E' & H)]; [|congruence].
  unfold create_path_in in H. destruct (first_occurrence_from path c_slash 0); [|discriminate].
  rewrite alloc_one in H. destruct (Z.ltb_spec (a_end a - a_beg a) (Z.of_nat (length path) + 1)) as [Q|Q]; [lia|].
  rewrite E in H. discriminate.
Qed.

Lemma cstr_until s : cstr_text s = Ok (until_nul s) \/ (cstr_text s = Undef OobRead /\ ~ In 0%N s).
Proof.
  induction s as [|c s IH]; [right; split; [reflexivity|tauto]|]. cbn [cstr_text until_nul].
  destruct (N.eqb_spec c 0) as [->|N0]; [now left|]. destruct IH as [->|[-> H]]; [now left|].
  right. split; [reflexivity|]. intros [Q|Q]; [congruence|tauto].
Qed.
Lemma cstr_nul s rest : ~ In 0%N s -> cstr_text (s ++ 0%N :: rest) = Ok s.
Proof.
  induction s as [|c s IH]; intros H; cbn [cstr_text app]; [reflexivity|].
  destruct (N.eqb_spec c 0) as [->|_]; [exfalso; apply H; now left|].
  rewrite IH by (intros X; apply H; now right). reflexivity.
Qed.

Lemma store_same n s fs : fs_file (store n s fs) n = Some s.
Proof. cbn. destruct (list_eq_dec N.eq_dec n n); congruence. Qed.
Lemma store_other n m s fs : m <> n -> fs_file (store n s fs) m = fs_file fs m.
Proof. intros H. cbn. destruct (list_eq_dec N.eq_dec m n); congruence. Qed.

(** ** The call *)
Lemma write_html_ok d k : reachable d -> progresses k ->
  exists ps, print_dom d = Ok ps /\ exists fuel, forall fuel', fuel <= fuel' ->
    exists w, write_html fuel' k d = Ok w /\ w_out w = concat ps.
Proof.
  intros R K. destruct (print_dom_ok d R) as (ps & E & P). exists ps. split; [exact E|].
  set (ops := map (fun s => WApp s false false) ps ++ [WFlush]).
  assert (S : Forall wop_small ops).
  { apply Forall_app. split; [|repeat constructor]. apply Forall_forall. intros o Ho. apply in_map_iff in Ho.
    destruct Ho as (s & <- & _). exact Logic.I. }
  assert (C : 0 < file_buffer) by (apply Nat.neq_0_lt_0, Nat.pow_nonzero; discriminate).
  set (w0 := mkW file_buffer [] [] 0).
  exists (file_buffer + list_sum (map wop_len ops) + 2). intros fuel' F.
  unfold write_html. rewrite E. cbn [bind]. fold ops w0.
  pose proof (wruns_ends k K ops w0 S ltac:(cbn [w0 w_buf length]; lia) C fuel' ltac:(cbn [w0 w_cap]; lia)) as T.
  destruct (wruns_exact k fuel' (progresses_never k K) ops w0 S ltac:(cbn [w0 w_buf length]; lia) C) as [H|(w & H & _ & _ & Q)]; [congruence|].
  rewrite H. exists w. split; [reflexivity|].
  assert (B : w_buf w = []).
  { revert H. unfold ops. generalize w0 C. clear - K. induction ps as [|s ps IH]; intros w0 C; cbn [map app wruns].
    - cbn [wrun wruns]. destruct (flush_adds k fuel' w0 (progresses_never k K)) as [_ B]. intros H.
      destruct (let* '(_, w) := flush fuel' k w0 in Ok w) as [w1| | |] eqn:Q; cbn [bind] in H; try discriminate.
      injection H as <-. now apply B.
    - intros H. destruct (wrun fuel' k (WApp s false false) w0) as [w1| | |]; cbn [bind] in H; try discriminate.
      now apply (IH w1). }
  rewrite B, app_nil_r in Q. rewrite Q. cbn [w0 w_out w_buf app]. unfold ops.
  rewrite map_app, concat_app, concat_wapp. cbn. now rewrite !app_nil_r.
Qed.

(** Every way a call can end. *)
Lemma save_cases fuel can k d path after a fs : reachable d -> In 0%N (path ++ after) ->
  save fuel can k d path after a fs = NoFuel \/
  exists e fs', save fuel can k d path after a fs = Ok (e, fs') /\
    (forall n, n <> until_nul (path ++ after) -> fs_file fs' n = fs_file fs n) /\
    (e = Returned FCantOpen -> forall n, fs_file fs' n = fs_file fs n).
Proof.
  intros R Z. unfold save. destruct (create_path_in_total path a) as [->|(l & _ & ->)]; cbn [bind].
  { right. do 2 eexists. split; [reflexivity|]. split; [auto|discriminate]. }
  destruct (cstr_until (path ++ after)) as [->|[_ H]]; [|contradiction]. cbn [bind fs_made].
  destruct (can _ _).
  - rewrite alloc_one. destruct (_ <? _)%Z.
    + right. do 2 eexists. split; [reflexivity|]. split; [|discriminate]. intros n H. now rewrite store_other.
    + unfold write_html. destruct (print_dom_ok d R) as (ps & -> & _). cbn [bind].
      pose proof (wruns_quiet fuel k ps (mkW file_buffer [] [] 0)) as Q.
      destruct (wruns fuel k _ _) as [w| | |]; cbn [bind quiet] in *; try contradiction; [|now left].
      right. do 2 eexists. split; [reflexivity|]. split; [|discriminate]. intros n H. now rewrite !store_other.
  - right. do 2 eexists. split; [reflexivity|]. split; auto.
Qed.
