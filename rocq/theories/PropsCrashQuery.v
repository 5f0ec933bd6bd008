(** * Queries on a DOM after an abandoned edit (C103). *)
From Coq Require Import String List NArith Arith Bool Lia.
From Verif Require Import Base TrieModel DomModel ParserModel EditModel ReadModel DomSpec ApiSpec CrashSpec CrashModel
  MsiModel QueryModel CrashSearch CrashSame Examples PropsCrash PropsCrashPrint.
Import ListNotations.
Local Open Scope nat_scope.

(** ** C103: whatever editing call was abandoned at whatever point, a query with
    any byte string on the DOM that is left terminates, reads nothing outside the
    tables, reports an error without results or else gives distinct nodes. *)
Theorem C103_query_after_abandon : forall d bl o d' lo css,
  reachable d -> valid d bl o -> left_with bl o d d' ->
  exists st l, query_selector_all lo css d' = Ok (st, l) /\ NoDup l /\ (st <> QSuccess -> l = []) /\
    forall n, In n l -> 1 <= n < length (nodes d').
Proof. exact abandoned_query. Qed.
Print Assumptions C103_query_after_abandon.
(** querySelector: the first match of the walk from the root, or no result
    although there are matches (all of them detached), or 0 if nothing matches. *)
Theorem C103_first_after_abandon : forall d bl o d' lo css,
  reachable d -> valid d bl o -> left_with bl o d d' ->
  exists w st l, dom_walk d' 1 w /\ query_selector_all lo css d' = Ok (st, l) /\
   query_selector lo css d' = Ok (st, match st, l with
     | QSuccess, [] => Some 0
     | QSuccess, _ => find (fun x => existsb (Nat.eqb x) l) (1 :: w)
     | _, _ => None end).
Proof. exact abandoned_query_one. Qed.
Print Assumptions C103_first_after_abandon.
(** After the calls that C79 lists as all-or-nothing, a selector whose names were
    all known before gives the same status and the same of the old nodes. *)
Theorem C103_same_matches : forall d bl o d' lo css st l,
  reachable d -> valid d bl o -> left_with bl o d d' -> one_step o ->
  query_selector_all lo css d = Ok (st, l) -> st <> QNotSeen ->
  exists l', query_selector_all lo css d' = Ok (st, l') /\ forall x, node_id d x -> (In x l' <-> In x l).
Proof. exact one_step_query. Qed.
Print Assumptions C103_same_matches.
(** ... and the same first match; only the answer 0 for "no match" can become the
    unwritten result. *)
Theorem C103_same_first : forall d bl o d' lo css st r,
  reachable d -> valid d bl o -> left_with bl o d d' -> one_step o ->
  query_selector lo css d = Ok (st, r) -> st <> QNotSeen ->
  exists r', query_selector lo css d' = Ok (st, r') /\ (r' = r \/ r = Some 0 /\ r' = None).
Proof. exact one_step_first. Qed.
Print Assumptions C103_same_first.

(** ** Cases that meet the hypotheses *)
Definition lost_elem2 : docnode := mkDoc (B "p") true [B "x"] [].
(** A replacement of node 2 abandoned after its new node 3 was made: 3 is found as well. *)
Example C103_ex : reachable ex_p /\ valid ex_p [] (ReplaceDoc 2 lost_elem2) /\ one_step (ReplaceDoc 2 lost_elem2) /\
  exists d', left_with [] (ReplaceDoc 2 lost_elem2) ex_p d' /\ length (nodes ex_p) = 3 /\
    query_selector_all (fun _ => 0) (B "p") ex_p = Ok (QSuccess, [2]) /\
    query_selector_all (fun _ => 0) (B "p") d' = Ok (QSuccess, [3; 2]) /\
    query_selector (fun _ => 0) (B "p") d' = Ok (QSuccess, Some 2).
Proof.
  split; [exact ex_p_reachable|]. split; [exists 1, [2]; split; [discriminate|]; split; [kids|simpl; auto]|]. split; [exact I|].
  eexists. split; [apply (nth_state [] _ ex_p 1); vm_compute; reflexivity|]. vm_compute. auto.
Qed.
(** The name "k9" was unknown; an abandoned [addPropertyToNode] makes it known. *)
Example C103_notseen_ex : reachable ex_p /\ valid ex_p [] (AddProp 2 (B "k9") (B "v9")) /\
  exists d', left_with [] (AddProp 2 (B "k9") (B "v9")) ex_p d' /\
    query_selector_all (fun _ => 0) (B "[k9=v9]") ex_p = Ok (QNotSeen, []) /\
    query_selector_all (fun _ => 0) (B "[k9=v9]") d' = Ok (QSuccess, []).
Proof.
  split; [exact ex_p_reachable|]. split; [unfold valid, node_id; simpl; lia|].
  eexists. split; [apply (nth_state [] _ ex_p 4); vm_compute; reflexivity|]. vm_compute. auto.
Qed.
