(** * Printing and parsing back (C53). *)
From Coq Require Import String List NArith Arith Bool Lia.
From Verif Require Import Base TrieModel DomModel ParserModel EditModel ReadModel CompareModel DomSpec ApiSpec
  CompareSpec PrintModel PrintSpec GrammarSpec RoundSpec PrintProofs GrammarUser RoundProofs Examples PropsGrammar PropsCompare.
Import ListNotations.
Local Open Scope nat_scope.

(** The claim is false in general.  Each of these documents is parsed, printed,
    and the printed form is parsed again into a different document. *)
Definition breaks (src printed : string) : Prop :=
  exists d d' st i j, create_dom (B src) = Ok (Some d) /\ (exists ps, print_dom d = Ok ps /\ concat ps = B printed) /\
    create_dom (B printed) = Ok (Some d') /\ dom_equals d d' = Ok (st, i, j) /\ st <> CSuccess.
Theorem C53_round_trip_refuted :
  breaks "<a/><a>t</a>" "<a/><a/>" /\                    (* pairedness is kept per tag name *)
  breaks "<a k='x""y'>t</a>" "<a k=""x""y"">t</a>" /\    (* quotes are not escaped *)
  breaks "<input required>" "<input required/>" /\       (* '/' becomes part of the attribute *)
  breaks "a<5" "a5".                                     (* neighbouring text nodes *)
Proof.
  assert (G : forall s p (d d' : dom) st i j, create_dom (B s) = Ok (Some d) ->
     (exists ps, print_dom d = Ok ps /\ concat ps = B p) -> create_dom (B p) = Ok (Some d') ->
     dom_equals d d' = Ok (st, i, j) -> st <> CSuccess -> breaks s p).
  { intros. exists d, d', st, i, j. auto. }
  repeat split.
  all: eapply G; [vm_compute; reflexivity|eexists; split; vm_compute; reflexivity|vm_compute; reflexivity
                 |vm_compute; reflexivity|discriminate].
Qed.
Print Assumptions C53_round_trip_refuted.

(** For printable documents it holds: parsing the printed form gives a document
    with the same trees, which prints the same and is equal for
    [flo_html_equals]. *)
Theorem C53_round_trip : forall d pr ts s, reachable d -> agrees d pr -> shows_kids d 1 ts ->
  printable_doc pr ts -> prints d 1 s ->
  ends_in (create_dom s) (fun r => exists d', r = Some d' /\ shows_kids d' 1 ts /\ prints d' 1 s /\
     (few_attributes d -> exists i j, dom_equals d d' = Ok (CSuccess, i, j))).
Proof. exact round_trip_user. Qed.
Print Assumptions C53_round_trip.
(** The same about the calls only: print, parse back, print again, compare. *)
Theorem C53_print_parse_print : forall d pr ts ps, reachable d -> agrees d pr -> shows_kids d 1 ts ->
  printable_doc pr ts -> print_dom d = Ok ps ->
  ends_in (create_dom (concat ps)) (fun r => exists d', r = Some d' /\
     (exists ps', print_dom d' = Ok ps' /\ concat ps' = concat ps) /\
     (few_attributes d -> exists i j, dom_equals d d' = Ok (CSuccess, i, j))).
Proof. exact print_parse_print. Qed.
Print Assumptions C53_print_parse_print.
(** The flags always exist. *)
Theorem C53_flags_exist : forall d, reachable d -> exists pr, agrees d pr.
Proof. exact agrees_exists. Qed.
Print Assumptions C53_flags_exist.
(** From source to source: a well-formed document that uses every tag name
    consistently ([pr]) is normalised by parsing and printing; doing it again
    changes nothing. *)
Theorem C53_normal_form : forall l os pr d, well_formed Root l -> (forall o, In o os -> opened_ok o) ->
  (forall n b, In (n, b) (doc_opens l os) -> b = pr n) -> printable_doc pr (doc_trees l os) ->
  create_dom (doc_src l os) = Ok (Some d) ->
  exists s, prints d 1 s /\
    ends_in (create_dom s) (fun r => exists d', r = Some d' /\ shows_kids d' 1 (doc_trees l os) /\ prints d' 1 s).
Proof. exact normal_form. Qed.
Print Assumptions C53_normal_form.

Definition pr1 (n : bytes) : bool := negb (beq n (B "!DOCTYPE") || beq n (B "br")).
Lemma ex1_texts : forall s, In s (map B ["one"; "two"; "three"; "tail"]%string) -> text_printable s.
Proof.
  intros s H. simpl in H. repeat (destruct H as [<-|H]; [split; [reflexivity|byc]|]). destruct H.
Qed.
Definition ts1 : list tree :=
  [ Elem (B "!DOCTYPE") [B "html"] [] [];
    Elem (B "html") [] []
      [ Elem (B "body") [B "hidden"] [(B "class", B "a b")]
          [ Elem (B "p") [] [(B "id", B "x")]
              [ Txt (B "one"); Elem (B "b") [] [] [Txt (B "two")]; Txt (B "three") ];
            Elem (B "br") [] [] []; Txt (B "tail") ] ] ].
Ltac apart := intros l1 a b l2 E; repeat (destruct l1 as [|? l1]; simpl in E;
   [try discriminate; injection E as <- <- _; simpl; tauto | try discriminate; injection E as _ E]);
   destruct l1; discriminate.
Ltac attrs_p := split; [intros b H; simpl in H; repeat (destruct H as [<-|H]; [wf_word|]); destruct H
   | intros k v H; simpl in H; repeat (destruct H as [H|H]; [injection H as <- <-; split; [wf_word|byc]|]); destruct H].
Ltac pr_all := (let t := fresh "t" in let H := fresh "H" in intros t H; simpl in H;
   repeat (destruct H as [<-|H]; [pr_one|]); try destruct H)
with pr_one := match goal with
  | |- printable _ (Txt _) => apply pr_text; split; [reflexivity|byc]
  | |- printable _ (Elem _ _ _ []) => apply pr_single;
        [reflexivity|first [left; wf_name|right; split; [byc|]; split; [eexists; reflexivity|
           let x := fresh "x" in let E := fresh "E" in intros x E; discriminate E]]|attrs_p|
         let Hd := fresh in intros Hd; first [left; reflexivity|right; discriminate|exfalso; apply Hd; reflexivity]]
  | |- printable _ _ => apply pr_pair; [reflexivity|wf_name|reflexivity|attrs_p|pr_all|apart]
  end.
Example C53_ex : reachable ex1 /\ agrees ex1 pr1 /\ shows_kids ex1 1 ts1 /\ printable_doc pr1 ts1 /\
  few_attributes ex1.
Proof.
  split; [exact ex1_reachable|]. split.
  { intros x n b Hn Hb. do 12 (destruct x as [|x]; [vm_compute in Hn, Hb; try discriminate;
      injection Hn as <-; injection Hb as <-; reflexivity|]).
    unfold tag_name in Hn. simpl in Hn. destruct x; discriminate. }
  split.
  { exists [2; 3]. split; [kids|].
    assert (T : forall x s, content ex1 x = (Some TText, None, Some s, [], []) -> children ex1 x [] -> shows ex1 x (Txt s))
      by (intros; now apply shows_text).
    assert (Hl : forall x n bs ps, content ex1 x = (Some TDocument, Some n, None, bs, ps) -> children ex1 x [] ->
       shows ex1 x (Elem n bs ps [])) by (intros; eapply shows_elem; eauto).
    constructor; [apply Hl; [reflexivity|kids]|]. constructor; [|constructor].
    apply shows_elem with (l := [4]); [reflexivity|kids|]. constructor; [|constructor].
    apply shows_elem with (l := [5; 10; 11]); [reflexivity|kids|].
    constructor; [|constructor; [apply Hl; [reflexivity|kids]|constructor; [apply T; [reflexivity|kids]|constructor]]].
    apply shows_elem with (l := [6; 7; 9]); [reflexivity|kids|].
    constructor; [apply T; [reflexivity|kids]|].
    constructor; [|constructor; [apply T; [reflexivity|kids]|constructor]].
    apply shows_elem with (l := [8]); [reflexivity|kids|]. constructor; [apply T; [reflexivity|kids]|constructor]. }
  split.
  { split; [|apart]. assert (P : forall t, In t ts1 -> printable pr1 t) by pr_all.
    intros t H. split; [now apply P|]. simpl in H. repeat (destruct H as [<-|H]; [vm_compute; lia|]). destruct H. }
  apply few_dec. reflexivity.
Qed.
