(** * Going on after an abandoned edit (C104). *)
From Coq Require Import String List NArith Arith Bool Lia.
From Verif Require Import Base TrieModel DomModel ParserModel EditModel ReadModel DomSpec ApiSpec CrashSpec CrashModel RecoverSpec
  CompareSpec LogModel PrintModel PrintSpec MsiModel QueryModel CrashRecover Examples PropsCrash PropsCrashPrint.
Import ListNotations.
Local Open Scope nat_scope.

(** ** C104: after one of the calls that C79 lists as all-or-nothing was abandoned,
    any sequence of calls that only remove nodes or attributes or add to a text
    goes through as if that call had never been made, and leaves a DOM that reads,
    traverses, prints and answers queries in the same way.  (C80 shows that this
    fails for calls that make nodes or register strings.) *)
Theorem C104_go_on : forall d bl o d' l e,
  reachable d -> valid d bl o -> left_with bl o d d' -> one_step o ->
  Forall (plain (length (nodes d))) l -> valid_calls l d -> run_calls l d = Ok e ->
  exists e', run_calls l d' = Ok e' /\
    (forall i, node_id d i -> same_content e e' i /\ same_answers e e' i) /\
    (forall q m, node_id d q -> (children e' q m <-> children e q m)) /\
    (forall u, dom_walk e' 1 u <-> dom_walk e 1 u) /\
    (forall ps, print_dom e = Ok ps -> exists ps', print_dom e' = Ok ps' /\ concat ps' = concat ps) /\
    (forall lo css st r, query_selector_all lo css e = Ok (st, r) -> st <> QNotSeen ->
       exists r', query_selector_all lo css e' = Ok (st, r') /\ forall x, node_id d x -> (In x r' <-> In x r)).
Proof. exact recover. Qed.
Print Assumptions C104_go_on.

(** ** A case that meets the hypotheses *)
Definition rest : list op := [RemoveBool 4 (B "hidden"); AddText 11 (B "end") true; Remove 5; RemoveProp 4 (B "k9")].
Example C104_ex : reachable ex1 /\ valid ex1 [] (AddProp 4 (B "k9") (B "v9")) /\ one_step (AddProp 4 (B "k9") (B "v9")) /\
  Forall (plain (length (nodes ex1))) rest /\ valid_calls rest ex1 /\ (exists e, run_calls rest ex1 = Ok e) /\
  exists d', left_with [] (AddProp 4 (B "k9") (B "v9")) ex1 d' /\ d' <> ex1 /\
    option_map (@concat N) (match run_calls rest d' with Ok e => match print_dom e with Ok ps => Some ps | _ => None end | _ => None end) =
      Some (B "<!DOCTYPE html><html><body class=""a b""><br/>tail end</body></html>").
Proof.
  split; [exact ex1_reachable|]. split; [unfold valid, node_id; simpl; lia|]. split; [exact I|].
  split; [repeat constructor|]. split.
  { cbn [rest valid_calls]. split; [unfold valid, node_id; simpl; lia|]. intros e1 E1. vm_compute in E1. injection E1 as <-.
    split; [vm_compute; reflexivity|]. intros e2 E2. vm_compute in E2. injection E2 as <-.
    split; [exists 4, [5; 10; 11]; split; [discriminate|]; split; [kids|simpl; auto]|].
    intros e3 E3. vm_compute in E3. injection E3 as <-. split; [unfold valid, node_id; simpl; lia|]. auto. }
  split; [eexists; vm_compute; reflexivity|].
  eexists. split; [apply (nth_state [] _ ex1 3); vm_compute; reflexivity|].
  split; [intros E; apply (f_equal (fun d => length (key_reg d))) in E; vm_compute in E; discriminate|vm_compute; reflexivity].
Qed.

(** ** C105: an abandoned call is harmless if it shows no effect.  Whatever editing
    call was abandoned at whatever point: if all nodes and all child lists look as
    before, then the walk, the printed page, the attribute questions and the query
    results are as before, too, and sequences of the calls of C104 go through as if
    that call had never been made.  (There is no hidden damage to the links between
    the old nodes.) *)
Theorem C105_harmless_if_unseen : forall d bl o d' l e,
  reachable d -> valid d bl o -> left_with bl o d d' -> unseen d d' ->
  Forall (plain (length (nodes d))) l -> valid_calls l d -> run_calls l d = Ok e ->
  exists e', run_calls l d' = Ok e' /\
    (forall i, node_id d i -> same_content e e' i /\ same_answers e e' i) /\
    (forall q m, node_id d q -> (children e' q m <-> children e q m)) /\
    (forall u, dom_walk e' 1 u <-> dom_walk e 1 u) /\
    (forall ps, print_dom e = Ok ps -> exists ps', print_dom e' = Ok ps' /\ concat ps' = concat ps) /\
    (forall lo css st r, query_selector_all lo css e = Ok (st, r) -> st <> QNotSeen ->
       exists r', query_selector_all lo css e' = Ok (st, r') /\ forall x, node_id d x -> (In x r' <-> In x r)).
Proof. exact unseen_recover. Qed.
Print Assumptions C105_harmless_if_unseen.
Theorem C105_same_first : forall d bl o d' lo css st r,
  reachable d -> valid d bl o -> left_with bl o d d' -> unseen d d' ->
  query_selector lo css d = Ok (st, r) -> st <> QNotSeen ->
  exists r', query_selector lo css d' = Ok (st, r') /\ (r' = r \/ r = Some 0 /\ r' = None).
Proof. exact unseen_first. Qed.
Print Assumptions C105_same_first.

(** ** A case that meets the hypotheses: [appendHTMLFromString] abandoned when the
    fragment is made and not linked yet. *)
Definition late_html : op := AppendHtml 2 (B "<i x=y>u</i><b></b>").
Example C105_ex : reachable ex_p /\ valid ex_p [] late_html /\
  exists d', left_with [] late_html ex_p d' /\ length (nodes d') = length (nodes ex_p) + 3 /\ unseen ex_p d' /\
    (Forall (plain (length (nodes ex_p))) [Remove 2] /\ valid_calls [Remove 2] ex_p /\ exists e, run_calls [Remove 2] ex_p = Ok e).
Proof.
  split; [exact ex_p_reachable|]. split.
  { split; [unfold node_id; simpl; lia|]. intros d1 E. vm_compute in E. injection E as <-. simpl. lia. }
  eexists. split; [apply (nth_state [] late_html ex_p 16); vm_compute; reflexivity|]. split; [reflexivity|]. split.
  - split.
    + intros i [H1 H2]. cbn in H2. do 3 (destruct i as [|i]; [try lia; vm_compute; reflexivity|]). lia.
    + intros q m [H1 H2]. cbn in H2.
      assert (S : forall d d' l, children d q l -> children d' q l -> (children d' q m <-> children d q m)).
      { intros d d' l A B. split; intros C; [rewrite <- (sibs_fun _ _ _ B _ C)|rewrite <- (sibs_fun _ _ _ A _ C)]; auto. }
      destruct q as [|[|[|q]]]; try lia; [apply (S _ _ [2])|apply (S _ _ [])]; kids.
  - split; [repeat constructor|]. split; [|eexists; vm_compute; reflexivity].
    split; [exists 1, [2]; split; [discriminate|]; split; [kids|simpl; auto]|]. intros e _. exact I.
Qed.
