(** * Well-formed documents (C04, C06, C10; exact forms of C05, C09, C11).
    Statements with one-line proofs and non-vacuity examples.  The grammar and
    the meaning of its sentences are in [GrammarSpec]. *)
From Coq Require Import String List NArith Arith Bool Lia.
From Verif Require Import Base TrieModel DomModel ParserModel EditModel ReadModel DomSpec ApiSpec
  GrammarSpec Lemmas GrammarUser GrammarMore Examples.
Import ListNotations.
Local Open Scope nat_scope.

(** ** C04: a document [doc_src l os] of the grammar (items [l], then elements
    [os] that are never closed) is parsed to the trees [doc_trees l os]. *)
Theorem C04_well_formed_documents : forall l os,
  well_formed Root l -> (forall o, In o os -> opened_ok o) ->
  ends_in (create_dom (doc_src l os)) (fun r =>
    (doc_depth l os <= 255 -> exists d, r = Some d /\ shows_kids d 1 (doc_trees l os)) /\
    (255 < doc_depth l os -> r = None)).
Proof. exact create_wf. Qed.
Print Assumptions C04_well_formed_documents.
(** Below the 16-bit limits it returns normally. *)
Theorem C04_small_documents : forall l os,
  well_formed Root l -> (forall o, In o os -> opened_ok o) ->
  (N.of_nat (length (doc_src l os)) <= 65533)%N ->
  (doc_depth l os <= 255 -> exists d, create_dom (doc_src l os) = Ok (Some d) /\
     shows_kids d 1 (doc_trees l os)) /\
  (255 < doc_depth l os -> create_dom (doc_src l os) = Ok None).
Proof. exact create_wf_total. Qed.
Print Assumptions C04_small_documents.
(** Which elements of such a document count as paired: one flag per tag name, that
    of its first use in the document. *)
Theorem C04_paired_flags : forall l os, well_formed Root l -> (forall o, In o os -> opened_ok o) ->
  ends_in (create_dom (doc_src l os)) (fun r => forall d, r = Some d -> tags_as d (doc_opens l os)).
Proof. exact create_flags. Qed.
Print Assumptions C04_paired_flags.
(** Fragments: parsed into trees behind the existing nodes, then put in place by
    append, prepend and replace. *)
Theorem C04_fragments : forall d, reachable d -> forall bl l os,
  well_formed Loose l -> (forall o, In o os -> opened_ok o) ->
  gives d (length (doc_src l os)) (parse_extra (Some bl) (doc_src l os) d) (fun '(ok, d1) =>
    (doc_depth l os <= 256 -> ok = true /\ frag_shows d d1 (doc_trees l os)) /\
    (256 < doc_depth l os -> ok = false)).
Proof. exact frag_gives. Qed.
Print Assumptions C04_fragments.
Theorem C04_append_fragment : forall d, reachable d -> forall bl l os,
  well_formed Loose l -> (forall o, In o os -> opened_ok o) ->
  room_for d (length (doc_src l os)) -> doc_depth l os <= 256 -> doc_trees l os <> [] ->
  forall p ks, node_id d p -> children d p ks ->
  no_text_end d ks \/ (forall s r, doc_trees l os <> Txt s :: r) ->
  exists d' tops, append_html (Some bl) p (doc_src l os) d = Ok (length (nodes d), d') /\
    children d' p (ks ++ tops) /\ Forall2 (shows d') tops (doc_trees l os) /\ old_kept d d' p [].
Proof. exact g_append_plain. Qed.
Print Assumptions C04_append_fragment.
Theorem C04_append_fragment_merge : forall d, reachable d -> forall bl l os,
  well_formed Loose l -> (forall o, In o os -> opened_ok o) ->
  room_for d (length (doc_src l os)) -> doc_depth l os <= 256 -> doc_trees l os <> [] ->
  forall p ks, node_id d p -> children d p ks ->
  forall c old s ts', ends_with_text d ks c old -> doc_trees l os = Txt s :: ts' ->
  exists d' tops, append_html (Some bl) p (doc_src l os) d = Ok (hd c tops, d') /\
    children d' p (ks ++ tops) /\ Forall2 (shows d') tops ts' /\
    retexted d d' c (old ++ [cSP] ++ s) /\ old_kept d d' p [c].
Proof. exact g_append_merge. Qed.
Print Assumptions C04_append_fragment_merge.
Theorem C04_prepend_fragment : forall d, reachable d -> forall bl l os,
  well_formed Loose l -> (forall o, In o os -> opened_ok o) ->
  room_for d (length (doc_src l os)) -> doc_depth l os <= 256 -> doc_trees l os <> [] ->
  forall p ks, node_id d p -> children d p ks ->
  no_text_start d ks \/ (forall s r, doc_trees l os <> r ++ [Txt s]) ->
  exists d' tops, prepend_html (Some bl) p (doc_src l os) d = Ok (length (nodes d), d') /\
    children d' p (tops ++ ks) /\ Forall2 (shows d') tops (doc_trees l os) /\ old_kept d d' p [].
Proof. exact g_prepend_plain. Qed.
Print Assumptions C04_prepend_fragment.
Theorem C04_prepend_fragment_merge : forall d, reachable d -> forall bl l os,
  well_formed Loose l -> (forall o, In o os -> opened_ok o) ->
  room_for d (length (doc_src l os)) -> doc_depth l os <= 256 -> doc_trees l os <> [] ->
  forall p ks, node_id d p -> children d p ks ->
  forall c old s ts', starts_with_text d ks c old -> doc_trees l os = ts' ++ [Txt s] ->
  exists d' tops, prepend_html (Some bl) p (doc_src l os) d = Ok (hd c tops, d') /\
    children d' p (tops ++ ks) /\ Forall2 (shows d') tops ts' /\
    retexted d d' c (s ++ [cSP] ++ old) /\ old_kept d d' p [c].
Proof. exact g_prepend_merge. Qed.
Print Assumptions C04_prepend_fragment_merge.
Theorem C04_replace_fragment : forall d, reachable d -> forall bl l os,
  well_formed Loose l -> (forall o, In o os -> opened_ok o) ->
  room_for d (length (doc_src l os)) -> doc_depth l os <= 256 -> doc_trees l os <> [] ->
  forall p c l1 l2 f g, children d p (l1 ++ c :: l2) ->
  let ts := doc_trees l os in
  first_goes d ts l1 f -> last_goes d ts l2 g -> (length ts = 1 -> f = None /\ g = None) ->
  cut_last g (cut_first f ts) <> [] ->
  exists d' tops, replace_with_html (Some bl) c (doc_src l os) d = Ok (hd 0 tops, d') /\
    children d' p (l1 ++ tops ++ l2) /\
    Forall2 (shows d') tops (cut_last g (cut_first f ts)) /\
    got d d' f /\ got d d' g /\ kind d' c = Some TRemoved /\ ~ attached d' c /\
    old_kept d d' p (c :: got_ids f ++ got_ids g).
Proof. exact g_replace. Qed.
Print Assumptions C04_replace_fragment.

(** A document that uses every construct. *)
Definition ws1 : bytes := [cSP].
Definition at_ (k : word) (v : option word) : attr := mkAttr ws1 k v.
Definition doc1 : list item :=
  [ Leaf (B "!DOCTYPE") [at_ (Bare (B "html")) None] [] false;
    Gap (Ws [cNL]);
    Pair (B "html") [at_ (Bare (B "lang")) (Some (Quoted cDQ (B "en")))] []
      [ Gap (Com (B " a comment - with > "));
        Pair (B "body") [mkAttr [cNL; cSP] (Bare (B "class")) (Some (Quoted cSQ (B "a b")));
                         at_ (Bare (B "hidden")) None] ws1
          [ Run (B "one") [([Ws [cNL; cSP]; Com (B "x"); Ws [cTAB]], B "two"); ([Ws ws1], B "three")] [Ws ws1];
            Leaf (B "br") [] [] false;
            Leaf (B "img") [at_ (Bare (B "src")) (Some (Bare (B "x/y")))] ws1 true;
            Odd (B "5") [([Ws ws1], B "7")] [];
            Odd (B "/i>") [] [] ] (B " ") ] [] ;
    Stray (B "p") ].
Definition open1 : list opened :=
  [ mkOpen (B "div") [] [] [Run (B "tail") [] []];
    mkOpen (B "b") [at_ (Bare (B "id")) (Some (Bare (B "z")))] [] [] ].
Definition src_doc1 : bytes :=
  B "<!DOCTYPE html>" ++ [cNL] ++ B "<html lang=""en""><!-- a comment - with > --><body" ++ [cNL] ++
  B " class='a b' hidden >one" ++ [cNL] ++ B " <!--x-->" ++ [cTAB] ++
  B "two three <br><img src=x/y /><5 7</i></body ></html></p><div>tail<b id=z>".
Lemma all_b P s : forallb P s = true -> all P s.
Proof. intros H c Hc. rewrite forallb_forall in H. auto. Qed.
Lemma notin_b c s : forallb (fun x => negb (x =? c)%N) s = true -> ~ In c s.
Proof.
  intros H Hc. rewrite forallb_forall in H. specialize (H c Hc). rewrite N.eqb_refl in H. discriminate.
Qed.
(** Does [s] contain "-->"? *)
Fixpoint has_end (s : bytes) : bool :=
  match s with
  | c :: s' => match s' with
               | c2 :: c3 :: _ => ((c =? cDASH) && (c2 =? cDASH) && (c3 =? cGT))%N || has_end s'
               | _ => false
               end
  | [] => false
  end.
Lemma has_end_app p s : has_end (p ++ [cDASH; cDASH; cGT] ++ s) = true.
Proof.
  induction p as [|c p IH]; [reflexivity|].
  change ((c :: p) ++ [cDASH; cDASH; cGT] ++ s) with (c :: (p ++ [cDASH; cDASH; cGT] ++ s)).
  destruct (p ++ [cDASH; cDASH; cGT] ++ s) as [|c2 [|c3 r]] eqn:E; [discriminate IH| |].
  - simpl in IH. discriminate.
  - cbn [has_end]. cbn [has_end] in IH. rewrite IH. apply orb_true_r.
Qed.
Lemma com_b b : has_end ([cDASH; cDASH] ++ b ++ [cDASH; cDASH]) = false -> com_ok b.
Proof. intros H p s E. rewrite E, has_end_app in H. discriminate. Qed.

Ltac byc := first [apply all_b; vm_compute; reflexivity | apply notin_b; vm_compute; reflexivity].
Ltac wf_word := cbn [key_ok value_ok a_key a_val a_ws at_]; first [split; [discriminate|]; split; [byc|]; first
     [ split; [byc|]; intros ? ? E; injection E as <- <-; reflexivity
     | intros ? ? E; injection E as <- <-; reflexivity ]
   | split; [reflexivity|byc] ].
Ltac wf_name := split; [byc|]; do 2 eexists; split; [reflexivity|reflexivity].
Ltac wf_attrs := split; [let a := fresh "a" in let H := fresh "H" in intros a H; simpl in H; repeat (destruct H as [<-|H]; [split; [discriminate|];
     split; [byc|]; split; [wf_word|cbn [a_val at_]; first [exact I|wf_word]]|]); destruct H|].
Ltac wf_gap := match goal with |- gap_ok (Ws _) => split; [discriminate|byc]
                             | |- gap_ok (Com _) => apply com_b; reflexivity end.
Ltac wf_run := split; [split; [discriminate|byc]|]; split;
   [ let gs := fresh "gs" in let w' := fresh "w" in let H := fresh "H" in intros gs w' H; simpl in H; repeat (destruct H as [H|H];
       [injection H as <- <-; split; [discriminate|]; split;
          [let g := fresh "g" in let Hg := fresh "Hg" in intros g Hg; simpl in Hg; repeat (destruct Hg as [<-|Hg]; [wf_gap|]); destruct Hg
          |split; [discriminate|byc]]|]); destruct H
   | let g := fresh "g" in let Hg := fresh "Hg" in intros g Hg; simpl in Hg; repeat (destruct Hg as [<-|Hg]; [wf_gap|]); destruct Hg ].
Ltac notpre := let x := fresh "x" in let E := fresh "E" in intros [x E]; vm_compute in E; discriminate E.
Ltac wf_odd := do 2 eexists; split; [reflexivity|]; split; [reflexivity|]; split; [discriminate|];
   let E := fresh "E" in intros E; first [discriminate E | eexists; split; [reflexivity|]; split; notpre].
Ltac wf_rest := wf_attrs; split; [byc|]; let E := fresh "E" in intros E; try discriminate E; intros; discriminate.
Ltac wf_items := (let i := fresh "i" in let H := fresh "H" in intros i H; simpl in H; repeat (destruct H as [<-|H]; [wf_item|]); destruct H)
with wf_item := match goal with
  | |- item_ok _ (Gap _) => apply ok_gap; wf_gap
  | |- item_ok _ (Leaf _ _ _ _) => apply ok_leaf;
       [first [left; split; [byc|]; split; [eexists; reflexivity|let x := fresh "x" in let E := fresh "E" in intros x E; discriminate E]
              |right; split; [wf_name|first [left; reflexivity|right; reflexivity]]]|wf_rest]
  | |- item_ok _ (Pair _ _ _ _ _) => apply ok_pair; [wf_name|reflexivity|wf_rest|byc|wf_items|simpl; tauto]
  | |- item_ok _ (Run _ _ _) => apply ok_run; wf_run
  | |- item_ok _ (Odd _ _ _) => apply ok_odd; [wf_run|wf_odd]
  | |- item_ok _ (Stray _) => apply ok_stray; byc
  end.
Ltac wf := split; [wf_items|simpl; tauto].

Example C04_ex : well_formed Root doc1 /\ (forall o, In o open1 -> opened_ok o) /\
  doc_src doc1 open1 = src_doc1 /\ doc_depth doc1 open1 = 2 /\
  doc_trees doc1 open1 =
    [ Elem (B "!DOCTYPE") [B "html"] [] [];
      Elem (B "html") [] [(B "lang", B "en")]
        [ Elem (B "body") [B "hidden"] [(B "class", B "a b")]
           [ Txt (B "one two three"); Elem (B "br") [] [] []; Elem (B "img") [] [(B "src", B "x/y")] [];
             Txt (B "5 7"); Txt (B "/i>") ] ];
      Elem (B "div") [] [] [Txt (B "tail"); Elem (B "b") [] [(B "id", B "z")] []] ].
Proof.
  split; [wf|]. split.
  - intros o H. simpl in H. repeat (destruct H as [<-|H]; [split; [wf_name|]; split; [reflexivity|];
      split; [wf_rest|wf]|]). destruct H.
  - split; [vm_compute; reflexivity|]. split; reflexivity.
Qed.
Definition frag1 : list item := [Run (B "u") [] [Ws ws1]; Pair (B "i") [] [] [Run (B "v") [] []] []].
Example C04_fragment_ex : reachable ex1 /\ well_formed Loose frag1 /\
  doc_trees frag1 [] = [Txt (B "u"); Elem (B "i") [] [] [Txt (B "v")]] /\
  node_id ex1 5 /\ children ex1 5 ([6] ++ 7 :: [9]) /\ ends_with_text ex1 [6; 7; 9] 9 (B "three") /\
  room_for ex1 (length (doc_src frag1 [])) /\
  children ex1 3 [4] /\ no_text_end ex1 [4] /\
  first_goes ex1 (doc_trees frag1 []) [6] (Some (6, B "one u")) /\
  last_goes ex1 (doc_trees frag1 []) [9] None.
Proof.
  split; [exact ex1_reachable|]. split; [wf|]. split; [reflexivity|].
  split; [unfold node_id; simpl; lia|]. split; [kids|].
  split; [split; [now exists [6; 7]|reflexivity]|].
  split; [vm_compute; repeat split; discriminate|].
  split; [kids|]. split.
  - intros l0 c E. destruct l0 as [|? [|]]; simpl in E; try discriminate. injection E as <-. reflexivity.
  - split.
    + exists (B "one"), (B "u"). eexists. split; [reflexivity|]. split; [|reflexivity].
      split; [now exists []|reflexivity].
    + right. intros s r E. destruct r as [|? [|? [|]]]; discriminate E.
Qed.

(** ** C05, exact form for plain text: the text node holds the words of the input
    separated by single spaces; blank input makes no node. *)
Theorem C05_plain_text_exact : forall s, ~ In cLT s -> parses_to s (text_trees s).
Proof. exact plain_text. Qed.
Print Assumptions C05_plain_text_exact.
Example C05_text_ex : ~ In cLT (B "  a  b&c > d ") /\ text_trees (B "  a  b&c > d ") = [Txt (B "a b&c > d")] /\
  text_trees (B "  ") = [].
Proof. split; [byc|]. split; reflexivity. Qed.

(** ** C06: the nesting limit.  No parsed document is nested deeper than 256,
    whatever the input; [n] nested elements are accepted exactly if n <= 255
    (see C04 for the exact condition on every well-formed document). *)
Theorem C06_depth_bound : forall t d x m,
  create_dom t = Ok (Some d) -> at_depth d x m -> m <= 256.
Proof. exact u_create_depth. Qed.
Print Assumptions C06_depth_bound.
Theorem C06_nesting_limit : forall tag n, name_ok tag -> is_void tag = false ->
  ends_in (create_dom (nested tag n))
    (fun r => (n <= 255 -> exists d, r = Some d) /\ (255 < n -> r = None)).
Proof. exact nested_limit. Qed.
Print Assumptions C06_nesting_limit.
Example C06_ex : name_ok (B "a") /\ is_void (B "a") = false /\ nested (B "a") 3 = B "<a><a><a>" /\
  create_dom (B src1) = Ok (Some ex1) /\ at_depth ex1 8 5.
Proof.
  split; [wf_name|]. split; [reflexivity|]. split; [reflexivity|]. split; [exact ex1_created|].
  apply at_child with (p := 7) (l := [8]); [kids|simpl; auto|].
  apply at_child with (p := 5) (l := [6; 7; 9]); [kids|simpl; auto|].
  apply at_child with (p := 4) (l := [5; 10; 11]); [kids|simpl; auto|].
  apply at_child with (p := 3) (l := [4]); [kids|simpl; auto|].
  apply at_child with (p := 1) (l := [2; 3]); [kids|simpl; auto|]. constructor.
Qed.

(** ** C09, the part that holds: if the content of an element (a script, for
    example) has no '<', it becomes one text node, or none if it is blank. *)
Theorem C09_content_without_lt : forall n s, name_ok n -> is_void n = false -> ~ In cLT s ->
  parses_to ((cLT :: n ++ [cGT]) ++ s ++ (cLT :: cSLASH :: n ++ [cGT])) [Elem n [] [] (text_trees s)].
Proof. exact one_element. Qed.
Print Assumptions C09_content_without_lt.
Example C09_ex : name_ok (B "script") /\ is_void (B "script") = false /\
  text_trees (B " let x = a > b; ") = [Txt (B "let x = a > b;")].
Proof. split; [wf_name|]. split; reflexivity. Qed.

(** ** C10: an end tag where no element is open is ignored. *)
Theorem C10_stray_end_tags : forall j l1 l2 os, ~ In cGT j -> well_formed Root (l1 ++ l2) ->
  (forall o, In o os -> opened_ok o) -> doc_depth (l1 ++ l2) os <= 255 ->
  parses_to (source l1 ++ (cLT :: cSLASH :: j ++ [cGT]) ++ source l2 ++ opened_src os)
            (doc_trees (l1 ++ l2) os) /\
  parses_to (source l1 ++ source l2 ++ opened_src os) (doc_trees (l1 ++ l2) os).
Proof. exact stray_ignored. Qed.
Print Assumptions C10_stray_end_tags.
Example C10_ex : well_formed Root ([Pair (B "p") [] [] [Run (B "a") [] []] []] ++ [Run (B "b") [] []]).
Proof. wf. Qed.

(** ** C11, exact form: in <n>a</m>z the end tag closes <n> if and only if n is a
    prefix of m; otherwise it is text. *)
Theorem C11_end_tags_exact_rule : forall n m a z, name_ok n -> is_void n = false ->
  text_word_ok a -> text_word_ok z -> all text_char m -> ~ In cGT m ->
  (prefix n m -> parses_to ((cLT :: n ++ [cGT]) ++ a ++ (cLT :: cSLASH :: m ++ [cGT]) ++ z)
                    [Elem n [] [] [Txt a]; Txt z]) /\
  (~ prefix n m -> parses_to ((cLT :: n ++ [cGT]) ++ a ++ (cLT :: cSLASH :: m ++ [cGT]) ++ z)
                    [Elem n [] [] [Txt a; Txt ((cSLASH :: m ++ [cGT]) ++ z)]]).
Proof.
  intros n m a z Hn Hv Ha Hz Hm Hg. split; intros Hp.
  - now apply end_tag_prefix.
  - apply end_tag_other; auto. intros X. destruct Hn as [Hn _]. apply Hn in X. discriminate.
Qed.
Print Assumptions C11_end_tags_exact_rule.
Example C11_ex : name_ok (B "a") /\ is_void (B "a") = false /\ text_word_ok (B "t") /\
  all text_char (B "abbr") /\ ~ In cGT (B "abbr") /\ prefix (B "a") (B "abbr") /\ ~ prefix (B "abbr") (B "a").
Proof.
  split; [wf_name|]. split; [reflexivity|]. split; [split; [discriminate|byc]|]. split; [byc|].
  split; [byc|]. split; [now exists (B "bbr")|]. intros [s E]. destruct s; discriminate E.
Qed.
