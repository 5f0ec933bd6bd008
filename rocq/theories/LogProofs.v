(** * Proofs about buffered output. *)
From Coq Require Import List NArith ZArith Arith Bool Lia.
From Verif Require Import Base Lemmas LogModel LogSpec.
Import ListNotations.
Local Open Scope nat_scope.

(** ** Flushing *)
Lemma skipn_add {A} (l : list A) : forall a b, skipn (a + b) l = skipn b (skipn a l).
Proof. induction l as [|x l IH]; intros [|a] b; cbn; auto. now rewrite skipn_nil. Qed.
Lemma firstn_len_skipn {A} (l : list A) : forall m, firstn m l ++ skipn (length (firstn m l)) l = l.
Proof. induction l as [|x l IH]; intros [|m]; cbn; auto. now rewrite IH. Qed.
Lemma flush_exact fuel k : never_fails k -> forall done w,
  flush_loop fuel k done w = NoFuel \/
  exists c, flush_loop fuel k done w = Ok (true, mkW (w_cap w) [] (w_out w ++ skipn done (w_buf w)) c).
Proof.
  intros N. induction fuel as [|f IH]; intros done w; cbn [flush_loop]; [now left|].
  destruct (Nat.ltb_spec done (length (w_buf w))) as [L|L].
  - destruct (k (w_calls w)) as [m|] eqn:E; [|destruct (N _ E)].
    destruct (IH (done + length (firstn m (skipn done (w_buf w))))
       (mkW (w_cap w) (w_buf w) (w_out w ++ firstn m (skipn done (w_buf w))) (S (w_calls w)))) as [H|(c & H)].
    + now left.
    + right. exists c. rewrite H. cbn [w_cap w_buf w_out w_calls]. do 3 f_equal. rewrite <- app_assoc. f_equal.
      rewrite skipn_add. apply firstn_len_skipn.
  - right. exists (w_calls w). rewrite skipn_all2 by lia. now rewrite app_nil_r.
Qed.
Lemma flush_ends k : progresses k -> forall fuel done w, length (w_buf w) - done < fuel ->
  flush_loop fuel k done w <> NoFuel.
Proof.
  intros P. induction fuel as [|f IH]; intros done w F; [lia|]. cbn [flush_loop].
  destruct (Nat.ltb_spec done (length (w_buf w))) as [L|L]; [|discriminate].
  destruct (P (w_calls w)) as (m & -> & Hm). apply IH. cbn [w_buf]. rewrite firstn_length, skipn_length. lia.
Qed.
Lemma progresses_never k : progresses k -> never_fails k.
Proof. intros P i. destruct (P i) as (m & -> & _). discriminate. Qed.

(** A step that adds [s] to what has been written, if it terminates. *)
Definition adds (s : bytes) (w : wbuf) (o : outcome wbuf) : Prop :=
  o = NoFuel \/ exists w', o = Ok w' /\ w_cap w' = w_cap w /\ length (w_buf w') <= w_cap w' /\
    w_out w' ++ w_buf w' = w_out w ++ w_buf w ++ s.

Lemma append_loop_exact k : never_fails k -> forall fuel rest w, length (w_buf w) <= w_cap w ->
  adds rest w (append_loop fuel k rest w).
Proof.
  intros N. induction fuel as [|f IH]; intros rest w L; cbn [append_loop]; [now left|].
  destruct rest as [|c rest0] eqn:Er; [right; exists w; rewrite app_nil_r; auto|]. rewrite <- Er. clear Er c rest0.
  set (n := Nat.min (w_cap w - length (w_buf w)) (length rest)).
  assert (Ln : length (w_buf w ++ firstn n rest) <= w_cap w) by (rewrite app_length, firstn_length; lia).
  destruct (skipn n rest) as [|c rest'] eqn:Er.
  - right. eexists. split; [reflexivity|]. cbn [w_cap w_buf w_out]. split; [reflexivity|]. split; [exact Ln|].
    rewrite <- (firstn_skipn n rest) at 2. now rewrite Er, app_nil_r.
  - rewrite <- Er. clear Er c rest'. unfold flush.
    destruct (flush_exact f k N 0 (mkW (w_cap w) (w_buf w ++ firstn n rest) (w_out w) (w_calls w))) as [->|(c & ->)]; [now left|].
    cbn [bind w_cap w_buf w_out skipn].
    destruct (IH (skipn n rest) (mkW (w_cap w) [] (w_out w ++ w_buf w ++ firstn n rest) c) ltac:(cbn; lia))
      as [->|(w' & -> & H1 & H2 & H3)]; [now left|]. right. exists w'. split; [reflexivity|].
    cbn [w_cap w_buf w_out] in *. split; [exact H1|]. split; [exact H2|]. rewrite H3. cbn [app].
    rewrite <- !app_assoc. now rewrite firstn_skipn.
Qed.
Lemma append_loop_ends k : progresses k -> forall fuel rest w, length (w_buf w) <= w_cap w -> 0 < w_cap w ->
  w_cap w + length rest + (if length (w_buf w) <? w_cap w then 0 else 1) < fuel ->
  append_loop fuel k rest w <> NoFuel.
Proof.
  intros P. pose proof (progresses_never k P) as N.
  induction fuel as [|f IH]; intros rest w L C F; [lia|]. cbn [append_loop].
  destruct rest as [|c rest0] eqn:Er; [discriminate|]. rewrite <- Er in *.
  assert (Hr : 0 < length rest) by (rewrite Er; cbn; lia). clear Er c rest0.
  set (n := Nat.min (w_cap w - length (w_buf w)) (length rest)).
  assert (Ln : length (w_buf w ++ firstn n rest) <= w_cap w) by (rewrite app_length, firstn_length; lia).
  destruct (skipn n rest) as [|c rest'] eqn:Er; [discriminate|].
  rewrite <- Er. clear Er c rest'. unfold flush.
  set (w1 := mkW (w_cap w) (w_buf w ++ firstn n rest) (w_out w) (w_calls w)).
  pose proof (flush_ends k P f 0 w1) as E.
  destruct (flush_exact f k N 0 w1) as [H|(c & ->)].
  { destruct (Nat.ltb_spec (length (w_buf w)) (w_cap w)); (rewrite H in E; exfalso; apply E; [cbn [w1 w_buf]; lia|reflexivity]). }
  cbn [bind w1 w_cap w_buf w_out skipn]. apply IH; cbn [w_cap w_buf length]; [lia|lia|].
  destruct (Nat.ltb_spec 0 (w_cap w)); [|lia]. rewrite skipn_length.
  destruct (Nat.ltb_spec (length (w_buf w)) (w_cap w)); lia.
Qed.

Lemma adds_bind s s' w o (f : wbuf -> outcome wbuf) : adds s w o ->
  (forall w', length (w_buf w') <= w_cap w' -> w_cap w' = w_cap w -> adds s' w' (f w')) ->
  adds (s ++ s') w (bind o f).
Proof.
  intros [->|(w1 & -> & H1 & H2 & H3)] H; [now left|]. cbn [bind].
  destruct (H w1 H2 H1) as [->|(w2 & -> & J1 & J2 & J3)]; [now left|]. right. exists w2.
  split; [reflexivity|]. split; [congruence|]. split; [exact J2|]. rewrite J3, app_assoc, H3. now rewrite <- !app_assoc.
Qed.

Lemma flush_adds k fuel w : never_fails k ->
  adds [] w (let* '(_, w) := flush fuel k w in Ok w) /\
  forall w', (let* '(_, w) := flush fuel k w in Ok w) = Ok w' -> w_buf w' = [].
Proof.
  intros N. unfold flush. destruct (flush_exact fuel k N 0 w) as [->|(c & ->)]; cbn [bind].
  - split; [now left|discriminate].
  - split; [|now intros w' [= <-]]. right. eexists. split; [reflexivity|]. cbn. rewrite !app_nil_r.
    repeat split. lia.
Qed.

Lemma finish_exact k fuel nl fl w : never_fails k -> length (w_buf w) <= w_cap w -> 0 < w_cap w ->
  adds (newline nl) w (finish fuel k nl fl w) /\
  (fl = true -> forall w', finish fuel k nl fl w = Ok w' -> w_buf w' = []).
Proof.
  intros N L C. unfold finish.
  assert (A : adds (newline nl) w
    (if nl then
       let* w := (if w_cap w <=? length (w_buf w)
                  then let* '(_, w) := flush fuel k w in Ok w else Ok w) in
       if length (w_buf w) <? w_cap w
       then Ok (mkW (w_cap w) (w_buf w ++ [10%N]) (w_out w) (w_calls w))
       else Undef OobWrite
     else Ok w)).
  { destruct nl; [|right; exists w; rewrite app_nil_r; auto]. cbn [newline].
    assert (Put : forall w, length (w_buf w) < w_cap w -> adds [10%N] w
       (if length (w_buf w) <? w_cap w then Ok (mkW (w_cap w) (w_buf w ++ [10%N]) (w_out w) (w_calls w)) else Undef OobWrite)).
    { intros w0 L0. destruct (Nat.ltb_spec (length (w_buf w0)) (w_cap w0)) as [_|]; [|lia]. right. eexists. split; [reflexivity|].
      cbn [w_cap w_buf w_out]. rewrite app_length. cbn [length]. repeat split; lia. }
    destruct (Nat.leb_spec (w_cap w) (length (w_buf w))) as [H|H].
    - unfold flush. destruct (flush_exact fuel k N 0 w) as [->|(c & ->)]; cbn [bind]; [now left|].
      destruct (Put (mkW (w_cap w) [] (w_out w ++ skipn 0 (w_buf w)) c)) as [E|(w' & E & H1 & H2 & H3)]; [cbn; lia| |].
      + now left.
      + right. exists w'. split; [exact E|]. split; [exact H1|]. split; [exact H2|]. rewrite H3. cbn. now rewrite <- app_assoc.
    - cbn [bind]. apply Put. exact H. }
  destruct fl.
  - split.
    + rewrite <- (app_nil_r (newline nl)). apply (adds_bind _ _ _ _ _ A). intros w' _ _. apply flush_adds, N.
    + intros _ w' E. destruct A as [Q|(w1 & Q & _)]; rewrite Q in E; [discriminate|]. cbn [bind] in E.
      exact (proj2 (flush_adds k fuel w1 N) w' E).
  - split; [|discriminate]. destruct A as [->|(w1 & -> & H)]; [now left|]. right. exists w1. auto.
Qed.

(** Dropping the result of a call. *)
Definition st (o : outcome (N * wbuf)) : outcome wbuf := let* '(_, w) := o in Ok w.

Lemma append_exact k fuel data nl fl w : never_fails k -> length (w_buf w) <= w_cap w -> 0 < w_cap w ->
  adds (data ++ newline nl) w (st (append fuel k data nl fl w)) /\
  (fl = true -> forall w', st (append fuel k data nl fl w) = Ok w' -> w_buf w' = []) /\
  (forall n w', append fuel k data nl fl w = Ok (n, w') -> n = N.modulo (N.of_nat (length data)) (2 ^ 32)).
Proof.
  intros N L C. unfold append, st.
  destruct (append_loop_exact k N fuel data w L) as [->|(w1 & -> & H1 & H2 & H3)]; cbn [bind].
  { split; [now left|]. split; discriminate. }
  rewrite <- H1 in C. destruct (finish_exact k fuel nl fl w1 N H2 C) as (F1 & F2).
  destruct F1 as [E|(w2 & E & J1 & J2 & J3)]; rewrite E in *; cbn [bind].
  { split; [now left|]. split; discriminate. }
  split; [|split].
  - right. exists w2. split; [reflexivity|]. split; [congruence|]. split; [exact J2|]. rewrite J3, app_assoc, H3. now rewrite <- !app_assoc.
  - intros Q w' [= <-]. now apply F2.
  - now intros n w' [= <- <-].
Qed.
Lemma append_repeated_exact k fuel (c : byte) n nl fl w : never_fails k -> length (w_buf w) <= w_cap w -> 0 < w_cap w ->
  adds (repeat c n ++ newline nl) w (st (append_repeated fuel k c n nl fl w)) /\
  (fl = true -> forall w', st (append_repeated fuel k c n nl fl w) = Ok w' -> w_buf w' = []).
Proof.
  intros N L C. unfold append_repeated, st.
  destruct (append_loop_exact k N fuel (repeat c n) w L) as [->|(w1 & -> & H1 & H2 & H3)]; cbn [bind].
  { split; [now left|]. discriminate. }
  rewrite <- H1 in C. destruct (finish_exact k fuel nl fl w1 N H2 C) as (F1 & F2).
  destruct F1 as [E|(w2 & E & J1 & J2 & J3)]; rewrite E in *; cbn [bind].
  { split; [now left|]. discriminate. }
  split.
  - right. exists w2. split; [reflexivity|]. split; [congruence|]. split; [exact J2|]. rewrite J3, app_assoc, H3. now rewrite <- !app_assoc.
  - intros Q w' [= <-]. now apply F2.
Qed.

Lemma wrun_exact k fuel o w : never_fails k -> wop_small o -> length (w_buf w) <= w_cap w -> 0 < w_cap w ->
  adds (wop_text o) w (wrun fuel k o w) /\
  (wop_flushes o -> forall w', wrun fuel k o w = Ok w' -> w_buf w' = []).
Proof.
  intros N S L C. destruct o as [data nl fl|data min nl fl|c n nl fl|]; cbn [wop_text wop_flushes wrun].
  - destruct (append_exact k fuel data nl fl w N L C) as (A & B & _). auto.
  - cbn [wop_small] in S. unfold append_min.
    destruct (append_exact k fuel data false false w N L C) as (A & _ & D). unfold st in A.
    destruct (append fuel k data false false w) as [[n w1]| | |]; cbn [bind] in A |- *;
      destruct A as [A|(w1' & A & H1 & H2 & H3)]; try discriminate; [|split; [now left|discriminate]].
    injection A as <-. specialize (D n w1 eq_refl). rewrite N.mod_small in D by exact S. subst n.
    cbn [newline] in H3. rewrite app_nil_r in H3. rewrite <- H1 in C.
    destruct (N.leb_spec min (N.of_nat (length data))) as [Q|Q].
    + replace (N.to_nat min - length data) with 0 by lia. cbn [repeat app].
      destruct (append_exact k fuel [] nl fl w1 N H2 C) as (A & B & _). unfold st in A, B. cbn [app] in A.
      destruct (append fuel k [] nl fl w1) as [[n2 w2]| | |]; cbn [bind] in A, B |- *;
        destruct A as [A|(w2' & A & J1 & J2 & J3)]; try discriminate; [|split; [now left|discriminate]].
      injection A as <-. split; [|exact B]. right. exists w2. split; [reflexivity|]. split; [congruence|]. split; [exact J2|].
      rewrite J3, app_assoc, H3. now rewrite <- !app_assoc.
    + replace (N.to_nat (min - N.of_nat (length data))) with (N.to_nat min - length data) by lia.
      destruct (append_repeated_exact k fuel 32%N (N.to_nat min - length data) nl fl w1 N H2 C) as (A & B). unfold st in A, B.
      split; [|exact B]. destruct A as [->|(w2 & -> & J1 & J2 & J3)]; [now left|]. right. exists w2.
      split; [reflexivity|]. split; [congruence|]. split; [exact J2|].
      rewrite J3, app_assoc, H3. now rewrite <- !app_assoc.
  - apply append_repeated_exact; auto.
  - destruct (flush_adds k fuel w N) as [A B]. auto.
Qed.

Lemma wruns_exact k fuel : never_fails k -> forall l w, Forall wop_small l ->
  length (w_buf w) <= w_cap w -> 0 < w_cap w ->
  adds (concat (map wop_text l)) w (wruns fuel k l w).
Proof.
  intros N. induction l as [|o l IH]; intros w S L C; cbn [wruns map concat].
  - right. exists w. rewrite app_nil_r. auto.
  - apply adds_bind; [apply wrun_exact; auto; apply (Forall_inv S)|]. intros w' L' C'.
    apply IH; auto; [apply (Forall_inv_tail S)|lia].
Qed.

(** ** Termination *)
Lemma finish_ends k fuel nl fl w : progresses k -> length (w_buf w) <= w_cap w -> 0 < w_cap w -> w_cap w < fuel ->
  finish fuel k nl fl w <> NoFuel.
Proof.
  intros P L C F. pose proof (progresses_never k P) as N. unfold finish.
  assert (A : forall w, length (w_buf w) <= w_cap w -> w_cap w < fuel -> (let* '(_, w) := flush fuel k w in Ok w) <> NoFuel).
  { intros w0 L0 F0. unfold flush. pose proof (flush_ends k P fuel 0 w0 ltac:(lia)) as E.
    destruct (flush_exact fuel k N 0 w0) as [H|(c & ->)]; [congruence|]. discriminate. }
  assert (B : exists w1, (if nl then
       let* w := (if w_cap w <=? length (w_buf w)
                  then let* '(_, w) := flush fuel k w in Ok w else Ok w) in
       if length (w_buf w) <? w_cap w
       then Ok (mkW (w_cap w) (w_buf w ++ [10%N]) (w_out w) (w_calls w))
       else Undef OobWrite
     else Ok w) = Ok w1 /\ length (w_buf w1) <= w_cap w1 /\ w_cap w1 = w_cap w).
  { destruct nl; [|eauto]. destruct (Nat.leb_spec (w_cap w) (length (w_buf w))) as [H|H].
    - pose proof (A w L F) as E. unfold flush in *. destruct (flush_exact fuel k N 0 w) as [Q|(c & Q)]; rewrite Q in *; cbn [bind] in *; [congruence|].
      cbn [w_buf w_cap length]. destruct (Nat.ltb_spec 0 (w_cap w)); [|lia]. eexists. split; [reflexivity|]. cbn. split; [lia|reflexivity].
    - cbn [bind]. destruct (Nat.ltb_spec (length (w_buf w)) (w_cap w)); [|lia]. eexists. split; [reflexivity|]. cbn [w_buf w_cap].
      rewrite app_length. cbn. split; [lia|reflexivity]. }
  destruct B as (w1 & -> & L1 & C1). cbn [bind]. destruct fl; [|discriminate]. apply A; lia.
Qed.

Definition wop_len (o : wop) : nat :=
  match o with
  | WApp data _ _ => length data
  | WMin data min _ _ => length data + N.to_nat min
  | WRep _ n _ _ => n
  | WFlush => 0
  end.
Lemma append_ends k fuel data nl fl w : progresses k -> length (w_buf w) <= w_cap w -> 0 < w_cap w ->
  w_cap w + length data + 1 < fuel -> append fuel k data nl fl w <> NoFuel.
Proof.
  intros P L C F. pose proof (progresses_never k P) as N. unfold append.
  pose proof (append_loop_ends k P fuel data w L C) as E.
  destruct (append_loop_exact k N fuel data w L) as [H|(w1 & -> & H1 & H2 & H3)].
  { exfalso. apply E; [destruct (_ <? _); lia|exact H]. }
  cbn [bind]. pose proof (finish_ends k fuel nl fl w1 P H2 ltac:(lia) ltac:(lia)) as E2.
  destruct (finish fuel k nl fl w1); try discriminate. congruence.
Qed.
Lemma append_repeated_ends k fuel (c : byte) n nl fl w : progresses k -> length (w_buf w) <= w_cap w -> 0 < w_cap w ->
  w_cap w + n + 1 < fuel -> append_repeated fuel k c n nl fl w <> NoFuel.
Proof.
  intros P L C F. pose proof (progresses_never k P) as N. unfold append_repeated.
  pose proof (append_loop_ends k P fuel (repeat c n) w L C) as E.
  destruct (append_loop_exact k N fuel (repeat c n) w L) as [H|(w1 & -> & H1 & H2 & H3)].
  { exfalso. apply E; [rewrite repeat_length; destruct (_ <? _); lia|exact H]. }
  cbn [bind]. pose proof (finish_ends k fuel nl fl w1 P H2 ltac:(lia) ltac:(lia)) as E2.
  destruct (finish fuel k nl fl w1); try discriminate. congruence.
Qed.
Lemma wrun_ends k fuel o w : progresses k -> length (w_buf w) <= w_cap w -> 0 < w_cap w ->
  w_cap w + wop_len o + 1 < fuel -> wrun fuel k o w <> NoFuel.
Proof.
  intros P L C F. pose proof (progresses_never k P) as N.
  destruct o as [data nl fl|data min nl fl|c n nl fl|]; cbn [wop_len wrun] in *.
  - pose proof (append_ends k fuel data nl fl w P L C F). destruct (append fuel k data nl fl w) as [[]| | |]; try discriminate. congruence.
  - unfold append_min. pose proof (append_ends k fuel data false false w P L C ltac:(lia)) as E.
    destruct (append_exact k fuel data false false w N L C) as (A & _ & _). unfold st in A.
    destruct (append fuel k data false false w) as [[n w1]| | |]; cbn [bind] in A |- *; try discriminate; [|congruence].
    destruct A as [A|(w1' & A & H1 & H2 & _)]; [discriminate|]. injection A as <-.
    destruct (N.leb_spec min n).
    + pose proof (append_ends k fuel [] nl fl w1 P H2 ltac:(lia) ltac:(cbn; lia)) as E2.
      destruct (append fuel k [] nl fl w1) as [[]| | |]; try discriminate. congruence.
    + pose proof (append_repeated_ends k fuel 32%N (N.to_nat (min - n)) nl fl w1 P H2 ltac:(lia) ltac:(lia)) as E2.
      destruct (append_repeated fuel k 32%N (N.to_nat (min - n)) nl fl w1) as [[]| | |]; try discriminate. congruence.
  - pose proof (append_repeated_ends k fuel c n nl fl w P L C F). destruct (append_repeated fuel k c n nl fl w) as [[]| | |]; try discriminate. congruence.
  - unfold flush. pose proof (flush_ends k P fuel 0 w ltac:(lia)). destruct (flush_exact fuel k N 0 w) as [H'|(c & ->)]; [congruence|discriminate].
Qed.
Lemma wruns_ends k : progresses k -> forall l w, Forall wop_small l -> length (w_buf w) <= w_cap w -> 0 < w_cap w ->
  forall fuel, w_cap w + list_sum (map wop_len l) + 1 < fuel -> wruns fuel k l w <> NoFuel.
Proof.
  intros P l. pose proof (progresses_never k P) as N. induction l as [|o l IH]; intros w S L C fuel F; cbn [wruns]; [discriminate|].
  cbn [map list_sum fold_right] in F. fold (list_sum (map wop_len l)) in F.
  pose proof (wrun_ends k fuel o w P L C ltac:(lia)) as E.
  destruct (wrun_exact k fuel o w N (Forall_inv S) L C) as [A _].
  destruct A as [A|(w1 & A & H1 & H2 & _)]; [congruence|]. rewrite A. cbn [bind].
  apply IH; auto; [apply (Forall_inv_tail S)|lia|lia].
Qed.

(** ** Numbers *)
Lemma value_snoc s c : value (s ++ [c]) = (10 * value s + (c - 48))%N.
Proof. unfold value. now rewrite fold_left_app. Qed.
Lemma decimal_one d : (d < 10)%N -> decimal [(48 + d)%N] d.
Proof.
  intros H. split; [discriminate|]. split; [repeat constructor; unfold digit; lia|].
  split; [unfold value; cbn [fold_left]; lia|]. cbn [hd_error]. intros E.
  exact (f_equal (fun o => match o with Some c => [c] | None => [] end) E).
Qed.
Lemma decimal_snoc s n d : decimal s n -> n <> 0%N -> (d < 10)%N -> decimal (s ++ [(48 + d)%N]) (10 * n + d)%N.
Proof.
  intros (A & B & C & D) Nz H. split; [now destruct s|]. split; [apply Forall_app; split; [exact B|repeat constructor; unfold digit; lia]|].
  split; [rewrite value_snoc, C; lia|]. intros Hd. exfalso. destruct s as [|c s]; [congruence|].
  cbn [hd_error app] in Hd. specialize (D Hd). rewrite D in C. cbn in C. congruence.
Qed.
Lemma u64_ok : forall n free fuel data acc, (data < 10 ^ N.of_nat n)%N -> 0 < n -> n <= free -> free < fuel ->
  exists ds, u64_loop fuel free data acc = Ok (ds ++ acc) /\ decimal ds data.
Proof.
  induction n as [|n IH]; intros free fuel data acc H N0 F1 F2; [lia|].
  destruct fuel as [|fuel]; [lia|]. destruct free as [|free]; [lia|]. cbn [u64_loop].
  destruct (N.eqb_spec (data / 10) 0) as [E|E].
  - assert (data < 10)%N by (apply N.div_small_iff in E; lia).
    exists [(48 + data mod 10)%N]. split; [reflexivity|]. rewrite N.mod_small by assumption. now apply decimal_one.
  - assert (Hd : (data / 10 < 10 ^ N.of_nat n)%N).
    { apply N.div_lt_upper_bound; [lia|]. rewrite Nat2N.inj_succ, N.pow_succ_r' in H. exact H. }
    destruct n as [|n]; [exfalso; apply E, N.lt_1_r, Hd|].
    destruct (IH free fuel (data / 10)%N ((48 + data mod 10)%N :: acc) Hd) as (ds & Q & D); [lia|lia|lia|].
    exists (ds ++ [(48 + data mod 10)%N]). split; [rewrite Q, <- app_assoc; reflexivity|].
    rewrite (N.div_mod data 10) at 2 by lia. apply decimal_snoc; auto. apply N.mod_lt. lia.
Qed.
Lemma uint64_ok data : (data < 2 ^ 64)%N -> exists s, uint64_text data = Ok s /\ decimal s data.
Proof.
  intros H. unfold uint64_text. destruct (u64_ok 20 64 65 data []) as (ds & E & D); [|lia|lia|lia|].
  - eapply N.lt_trans; [exact H|]. vm_compute. reflexivity.
  - exists ds. rewrite app_nil_r in E. auto.
Qed.
Lemma ptrdiff_ok : forall n free fuel t acc, (t <= 0)%Z -> (Z.to_N (- t) < 10 ^ N.of_nat n)%N -> 0 < n -> n <= free -> free < fuel ->
  exists ds free', ptrdiff_loop fuel free t acc = Ok (free', ds ++ acc) /\ decimal ds (Z.to_N (- t)) /\ free <= free' + n.
Proof.
  induction n as [|n IH]; intros free fuel t acc T H N0 F1 F2; [lia|].
  destruct fuel as [|fuel]; [lia|]. destruct free as [|free]; [lia|]. cbn [ptrdiff_loop].
  set (m := Z.to_N (- t)) in *.
  assert (Q1 : Z.quot t 10 = (- Z.of_N (m / 10))%Z).
  { replace t with (- Z.of_N m)%Z by (unfold m; lia). rewrite Z.quot_opp_l by lia. f_equal.
    rewrite Z.quot_div_nonneg by lia. now rewrite N2Z.inj_div. }
  assert (Q2 : Z.to_N ((48 - (Z.rem t 10) mod 256) mod 256) = (48 + m mod 10)%N).
  { assert (R : Z.rem t 10 = (- Z.of_N (m mod 10))%Z).
    { replace t with (- Z.of_N m)%Z by (unfold m; lia). rewrite Z.rem_opp_l by lia. f_equal.
      rewrite Z.rem_mod_nonneg by lia. now rewrite N2Z.inj_mod. }
    rewrite R. assert (M : (m mod 10 < 10)%N) by (apply N.mod_lt; lia).
    set (r := (m mod 10)%N) in *. rewrite Zminus_mod_idemp_r.
    replace (48 - - Z.of_N r)%Z with (48 + Z.of_N r)%Z by lia. rewrite Z.mod_small by lia. lia. }
  rewrite Q1, Q2.
  destruct (Z.eqb_spec (- Z.of_N (m / 10)) 0) as [E|E].
  - assert (E' : (m / 10 = 0)%N) by lia. assert (m < 10)%N by (apply N.div_small_iff in E'; lia).
    exists [(48 + m mod 10)%N], free. split; [reflexivity|]. rewrite N.mod_small by assumption. split; [now apply decimal_one|lia].
  - assert (E' : (m / 10 <> 0)%N) by lia.
    assert (Hd : (m / 10 < 10 ^ N.of_nat n)%N).
    { apply N.div_lt_upper_bound; [lia|]. rewrite Nat2N.inj_succ, N.pow_succ_r' in H. exact H. }
    destruct n as [|n]; [exfalso; apply E', N.lt_1_r, Hd|].
    destruct (IH free fuel (- Z.of_N (m / 10))%Z ((48 + m mod 10)%N :: acc)) as (ds & free' & Q & D & F);
      [apply Z.opp_nonpos_nonneg, N2Z.is_nonneg| |clear; lia|clear - F1; lia|clear - F2; lia|].
    { rewrite Z.opp_involutive, N2Z.id. exact Hd. }
    rewrite Z.opp_involutive, N2Z.id in D.
    exists (ds ++ [(48 + m mod 10)%N]), free'. split; [rewrite Q, <- app_assoc; reflexivity|].
    split; [|lia]. rewrite (N.div_mod m 10) at 2 by lia. apply decimal_snoc; auto. apply N.mod_lt. lia.
Qed.
Lemma ptrdiff_text_ok data : (- 2 ^ 63 <= data < 2 ^ 63)%Z ->
  exists ds, ptrdiff_text data = Ok ((if (data <? 0)%Z then [45%N] else []) ++ ds) /\ decimal ds (Z.to_N (Z.abs data)).
Proof.
  intros H. unfold ptrdiff_text.
  set (t := if (0 <? data)%Z then (- data)%Z else data).
  assert (Ht : (t <= 0 /\ - t = Z.abs data)%Z) by (unfold t; destruct (Z.ltb_spec 0 data); lia).
  destruct (ptrdiff_ok 20 64 65 t []) as (ds & fr & E & D & F); [lia| |lia|lia|lia|].
  { apply N.le_lt_trans with (2 ^ 63)%N; [rewrite (proj2 Ht); change (2 ^ 63)%N with (Z.to_N (2 ^ 63)); lia|vm_compute; reflexivity]. }
  rewrite E, app_nil_r. cbn [bind]. exists ds. rewrite (proj2 Ht) in D. split; [|exact D].
  destruct (data <? 0)%Z; [|reflexivity]. destruct fr; [lia|reflexivity].
Qed.

Lemma decimal_length : forall s n m, decimal s n -> (n < 10 ^ N.of_nat m)%N -> 0 < m -> length s <= m.
Proof.
  intros s n m (A & B & C & D) H M.
  assert (V : forall s c, Forall digit (c :: s) -> c <> 48%N -> (10 ^ N.of_nat (length s) <= value (c :: s))%N).
  { clear. intros s. induction s as [|x s IH] using rev_ind; intros c F N0.
    - cbn. apply Forall_inv in F. unfold digit in F. lia.
    - rewrite app_comm_cons in F |- *. apply Forall_app in F. destruct F as [F1 F2]. rewrite value_snoc.
      rewrite app_length, Nat.add_1_r, Nat2N.inj_succ, N.pow_succ_r'. specialize (IH c F1 N0). lia. }
  destruct s as [|c s]; [cbn; lia|]. destruct (N.eq_dec c 48) as [->|Ne].
  - rewrite (D eq_refl). cbn. lia.
  - assert (V' : (10 ^ N.of_nat (length s) <= n)%N) by (rewrite <- C; exact (V s c B Ne)). cbn [length].
    destruct (Nat.lt_ge_cases (length s) m) as [L|L]; [lia|].
    assert (10 ^ N.of_nat m <= 10 ^ N.of_nat (length s))%N by (apply N.pow_le_mono_r; lia). lia.
Qed.

Lemma value_lt s : Forall digit s -> (value s < 10 ^ N.of_nat (length s))%N.
Proof.
  induction s as [|c s IH] using rev_ind; intros F; [cbn; lia|]. apply Forall_app in F. destruct F as [F1 F2].
  rewrite value_snoc, app_length, Nat.add_1_r, Nat2N.inj_succ, N.pow_succ_r'. specialize (IH F1).
  apply Forall_inv in F2. unfold digit in F2. lia.
Qed.
Lemma value_zeros n s : value (repeat 48%N n ++ s) = value s.
Proof. induction n as [|n IH]; [reflexivity|]. cbn [repeat app]. rewrite <- IH. reflexivity. Qed.

Lemma fixed_ok a b : (a < 2 ^ 64)%N -> (b < 10 ^ 6)%N ->
  exists s t, fixed_text a b = Ok (s ++ [46%N] ++ t) /\ decimal s a /\
    length t = 6 /\ Forall digit t /\ value t = b.
Proof.
  intros A B. unfold fixed_text. destruct (uint64_ok a A) as (s & -> & Ds). cbn [bind].
  destruct (uint64_ok b) as (u & -> & Du). { eapply N.lt_trans; [exact B|]. vm_compute. reflexivity. }
  cbn [bind]. exists s. eexists. split; [reflexivity|]. split; [exact Ds|].
  pose proof (fun m => decimal_length u b m Du) as Le. destruct Du as (U1 & U2 & U3 & U4).
  pose proof (value_lt u U2) as Lt. rewrite U3 in Lt.
  assert (Ge : forall m, (10 ^ N.of_nat m <= b)%N -> m < length u).
  { intros m Hm. destruct (Nat.lt_ge_cases m (length u)) as [|H]; [assumption|]. exfalso.
    assert (P : (10 ^ N.of_nat (length u) <= 10 ^ N.of_nat m)%N) by (apply N.pow_le_mono_r; [discriminate|clear - H; lia]).
    exact (N.lt_irrefl _ (N.lt_le_trans _ _ _ Lt (N.le_trans _ _ _ P Hm))). }
  assert (Ne : 0 < length u) by (destruct u; [congruence|cbn; lia]).
  split; [|split; [apply Forall_app; split; [|exact U2]|now rewrite value_zeros]].
  - rewrite app_length, repeat_length. cbn [zero_count].
    pose proof (Le 1) as L1. pose proof (Le 2) as L2. pose proof (Le 3) as L3. pose proof (Le 4) as L4. pose proof (Le 5) as L5. pose proof (Le 6) as L6.
    pose proof (Ge 1) as G1. pose proof (Ge 2) as G2. pose proof (Ge 3) as G3. pose proof (Ge 4) as G4. pose proof (Ge 5) as G5.
    change (10 ^ N.of_nat 1)%N with 10%N in *. change (10 ^ N.of_nat 2)%N with 100%N in *.
    change (10 ^ N.of_nat 3)%N with 1000%N in *. change (10 ^ N.of_nat 4)%N with 10000%N in *.
    change (10 ^ N.of_nat 5)%N with 100000%N in *. change (10 ^ N.of_nat 6)%N with 1000000%N in *. change (10 ^ 6)%N with 1000000%N in *.
    clear - L1 L2 L3 L4 L5 L6 G1 G2 G3 G4 G5 B Ne.
    destruct (N.ltb_spec b 100000); destruct (N.ltb_spec b 10000); destruct (N.ltb_spec b 1000);
      destruct (N.ltb_spec b 100); destruct (N.ltb_spec b 10); lia.
  - apply Forall_forall. intros x Hx. apply repeat_spec in Hx. subst. unfold digit. lia.
Qed.

Lemma ptr_short u : length (ptr_text u) = 17 /\ forall u', N.div u 16 = N.div u' 16 -> ptr_text u = ptr_text u'.
Proof.
  split; [reflexivity|]. intros u' E.
  assert (P : forall v, ptr_text v = [48; 120]%N ++ map (fun i => hex_digit (N.land (N.shiftr v (4 * N.of_nat i)) 15)) (rev (seq 1 15))) by reflexivity.
  rewrite !P. f_equal. apply map_ext_in. intros i Hi. apply in_rev, in_seq in Hi. do 2 f_equal.
  replace (4 * N.of_nat i)%N with (4 + 4 * N.of_nat (i - 1))%N by lia. rewrite <- !N.shiftr_shiftr.
  rewrite !(N.shiftr_div_pow2 _ 4). change (2 ^ 4)%N with 16%N. now rewrite E.
Qed.

Lemma hex_digit_value x : (x < 16)%N -> hex_value (hex_digit x) = Some x.
Proof.
  intros H. assert (C : exists k, k < 16 /\ x = N.of_nat k) by (exists (N.to_nat x); lia). destruct C as (k & L & ->).
  do 16 (destruct k as [|k]; [reflexivity|]). lia.
Qed.
Lemma hex_fold u n : forall a, fold_left (fun acc c => match acc, hex_value c with
                          | Some a, Some v => Some (16 * a + v)%N | _, _ => None end)
    (map (fun i => hex_digit (N.land (N.shiftr u (4 * N.of_nat i)) 15)) (rev (seq 1 n))) (Some a) =
  Some (16 ^ N.of_nat n * a + (u / 16) mod 16 ^ N.of_nat n)%N.
Proof.
  induction n as [|n IH]; intros a.
  - cbn [seq rev map fold_left]. f_equal. change (16 ^ N.of_nat 0)%N with 1%N. rewrite N.mod_1_r. lia.
  - rewrite seq_S, rev_app_distr. cbn [rev app map fold_left]. 
    assert (E : N.land (N.shiftr u (4 * N.of_nat (1 + n))) 15 = ((u / 16 / 16 ^ N.of_nat n) mod 16)%N).
    { change 15%N with (N.ones 4). rewrite N.land_ones. change (2 ^ 4)%N with 16%N. f_equal.
      rewrite N.shiftr_div_pow2, N.div_div by (try discriminate; apply N.pow_nonzero; discriminate). f_equal.
      rewrite Nat2N.inj_add, N.mul_add_distr_l, N.pow_add_r. change (2 ^ (4 * N.of_nat 1))%N with 16%N.
      f_equal. rewrite N.pow_mul_r. reflexivity. }
    rewrite E, hex_digit_value by (apply N.mod_lt; discriminate). rewrite IH. f_equal.
    rewrite Nat2N.inj_succ, N.pow_succ_r'.
    assert (P : (16 ^ N.of_nat n <> 0)%N) by (apply N.pow_nonzero; discriminate).
    rewrite (N.mul_comm 16 (16 ^ N.of_nat n)), (N.mod_mul_r (u / 16) (16 ^ N.of_nat n) 16) by (auto; discriminate).
    lia.
Qed.
Lemma ptr_digits u : exists ds, ptr_text u = [48; 120]%N ++ ds /\ length ds = 15 /\
  hex_number ds = Some ((u / 16) mod 16 ^ 15)%N.
Proof.
  eexists. split; [reflexivity|]. split; [reflexivity|]. etransitivity; [exact (hex_fold u 15 0)|].
  change (N.of_nat 15) with 15%N. now rewrite N.mul_0_r.
Qed.

(** ** Writes that fail *)
Lemma flush_fail fuel k w : k (w_calls w) = None -> w_buf w <> [] -> 0 < fuel ->
  flush fuel k w = Ok (false, mkW (w_cap w) (w_buf w) (w_out w) (S (w_calls w))).
Proof.
  intros K B F. destruct fuel as [|f]; [lia|]. unfold flush. cbn [flush_loop].
  destruct (Nat.ltb_spec 0 (length (w_buf w))) as [_|L]; [now rewrite K|]. destruct (w_buf w); [congruence|cbn in L; lia].
Qed.
Lemma append_diverges k : (forall i, k i = None) -> forall fuel rest w, 0 < w_cap w -> length (w_buf w) <= w_cap w ->
  w_cap w < length (w_buf w) + length rest -> append_loop fuel k rest w = NoFuel.
Proof.
  intros K. induction fuel as [|f IH]; intros rest w C L H; [reflexivity|]. cbn [append_loop].
  destruct rest as [|c rest0] eqn:Er; [cbn in H; lia|]. rewrite <- Er in *. clear Er c rest0.
  set (n := Nat.min (w_cap w - length (w_buf w)) (length rest)).
  destruct (skipn n rest) as [|c rest'] eqn:Er.
  { apply (f_equal (@length _)) in Er. rewrite skipn_length in Er. cbn in Er. lia. }
  rewrite <- Er. clear Er c rest'.
  destruct f as [|f]; [reflexivity|].
  rewrite flush_fail; [|apply K| |lia].
  - cbn [bind w_cap w_buf w_out w_calls]. apply IH; cbn [w_cap w_buf]; rewrite ?app_length, ?firstn_length, ?skipn_length; lia.
  - cbn [w_buf]. intros Q. apply (f_equal (@length _)) in Q. rewrite app_length, firstn_length in Q. cbn in Q. lia.
Qed.
