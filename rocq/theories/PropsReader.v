(** * What every input means (C81-C83).
    Statements with one-line proofs and examples.  The reference reader is in
    [ReaderSpec]: a function from bytes to trees, written without the parser's
    state, positions, node numbers or tables. *)
From Coq Require Import String List NArith Arith Bool Lia.
From Verif Require Import Base TrieModel DomModel ParserModel EditModel ReadModel DomSpec ApiSpec
  GrammarSpec ReaderSpec OriginSpec Lemmas GrammarUser ReaderUser ReaderLocal Examples PropsGrammar.
Import ListNotations.
Local Open Scope nat_scope.

(** ** C81: for every byte string, what the parser builds is what the reference
    reader says; it refuses exactly the inputs that are too deep; and its only
    undefined behaviour is a quote as the last byte of the input.  [Longjmp]:
    a 16-bit limit was hit. *)
Theorem C81_document : forall t,
  match create_dom t with
  | Ok (Some d) => exists ts us, document_of t = Trees ts us /\ shows_kids d 1 ts /\ tags_as d us
  | Ok None => document_of t = TooDeep
  | Undef NegLen => document_of t = BadQuote
  | Undef _ => False
  | NoFuel => False
  | Longjmp _ => True
  end.
Proof. exact read_document. Qed.
Print Assumptions C81_document.
(** The characters and names the reader and the parser both refer to, in numbers. *)
Theorem C81_alphabet :
  (forall c, is_alpha c = true <-> (65 <= c <= 90 \/ 97 <= c <= 122)%N) /\
  (forall c, is_blank c = true <-> c = 9%N \/ c = 10%N \/ c = 13%N \/ c = 32%N) /\
  (forall s, is_void s = true <-> In s (map B
     ["area"; "base"; "br"; "col"; "embed"; "hr"; "img"; "input"; "link"; "meta"; "source"; "track"; "wbr"]%string)) /\
  [cBANG; cDQ; cSQ; cDASH; cSLASH; cLT; cEQ; cGT; cSP] = B "!""'-/<=> ".
Proof.
  split; [|split; [|split; [|reflexivity]]].
  - intros c. unfold is_alpha. rewrite orb_true_iff, !andb_true_iff, !N.leb_le. lia.
  - intros c. unfold is_blank, is_fmt. rewrite !orb_true_iff, !N.eqb_eq. unfold cSP, cTAB, cNL, cCR. lia.
  - intros s. unfold is_void. rewrite existsb_exists. split.
    + intros (x & I & E). apply beq_eq in E. subst x. exact I.
    + intros I. exists s. split; [exact I|]. now apply beq_eq.
Qed.
Print Assumptions C81_alphabet.
(** Up to 65533 bytes no limit is hit: the reader decides everything. *)
Theorem C81_document_total : forall t, (N.of_nat (length t) <= 65533)%N ->
  match document_of t with
  | Trees ts us => exists d, create_dom t = Ok (Some d) /\ shows_kids d 1 ts /\ tags_as d us
  | TooDeep => create_dom t = Ok None
  | BadQuote => create_dom t = Undef NegLen
  end.
Proof. exact read_document_total. Qed.
Print Assumptions C81_document_total.
(** Fragments of HTML, as given to append, prepend and replaceWith; [bl] is what
    the parser finds as the name of the node below its stack. *)
Theorem C81_fragment : forall d, reachable d -> forall bl h,
  match parse_extra (Some bl) h d with
  | Ok (true, d1) => exists ts us, fragment_of bl h = Trees ts us /\ frag_shows d d1 ts
  | Ok (false, _) => fragment_of bl h = TooDeep
  | Undef NegLen => fragment_of bl h = BadQuote
  | Undef _ => False
  | NoFuel => False
  | Longjmp _ => ~ room_for d (length h)
  end.
Proof. exact read_fragment. Qed.
Print Assumptions C81_fragment.
Theorem C81_append : forall d, reachable d -> forall bl h ts us,
  fragment_of bl h = Trees ts us -> room_for d (length h) -> ts <> [] ->
  forall p ks, node_id d p -> children d p ks ->
  no_text_end d ks \/ (forall s r, ts <> Txt s :: r) ->
  exists d' tops, append_html (Some bl) p h d = Ok (length (nodes d), d') /\
    children d' p (ks ++ tops) /\ Forall2 (shows d') tops ts /\ old_kept d d' p [].
Proof. exact r_append_plain. Qed.
Print Assumptions C81_append.
Theorem C81_append_merge : forall d, reachable d -> forall bl h ts us,
  fragment_of bl h = Trees ts us -> room_for d (length h) -> ts <> [] ->
  forall p ks, node_id d p -> children d p ks ->
  forall c old s ts', ends_with_text d ks c old -> ts = Txt s :: ts' ->
  exists d' tops, append_html (Some bl) p h d = Ok (hd c tops, d') /\
    children d' p (ks ++ tops) /\ Forall2 (shows d') tops ts' /\
    retexted d d' c (old ++ [cSP] ++ s) /\ old_kept d d' p [c].
Proof. exact r_append_merge. Qed.
Print Assumptions C81_append_merge.
Theorem C81_prepend : forall d, reachable d -> forall bl h ts us,
  fragment_of bl h = Trees ts us -> room_for d (length h) -> ts <> [] ->
  forall p ks, node_id d p -> children d p ks ->
  no_text_start d ks \/ (forall s r, ts <> r ++ [Txt s]) ->
  exists d' tops, prepend_html (Some bl) p h d = Ok (length (nodes d), d') /\
    children d' p (tops ++ ks) /\ Forall2 (shows d') tops ts /\ old_kept d d' p [].
Proof. exact r_prepend_plain. Qed.
Print Assumptions C81_prepend.
Theorem C81_prepend_merge : forall d, reachable d -> forall bl h ts us,
  fragment_of bl h = Trees ts us -> room_for d (length h) -> ts <> [] ->
  forall p ks, node_id d p -> children d p ks ->
  forall c old s ts', starts_with_text d ks c old -> ts = ts' ++ [Txt s] ->
  exists d' tops, prepend_html (Some bl) p h d = Ok (hd c tops, d') /\
    children d' p (tops ++ ks) /\ Forall2 (shows d') tops ts' /\
    retexted d d' c (s ++ [cSP] ++ old) /\ old_kept d d' p [c].
Proof. exact r_prepend_merge. Qed.
Print Assumptions C81_prepend_merge.
Theorem C81_replace : forall d, reachable d -> forall bl h ts us,
  fragment_of bl h = Trees ts us -> room_for d (length h) -> ts <> [] ->
  forall p c l1 l2 f g, children d p (l1 ++ c :: l2) ->
  first_goes d ts l1 f -> last_goes d ts l2 g -> (length ts = 1 -> f = None /\ g = None) ->
  cut_last g (cut_first f ts) <> [] ->
  exists d' tops, replace_with_html (Some bl) c h d = Ok (hd 0 tops, d') /\
    children d' p (l1 ++ tops ++ l2) /\
    Forall2 (shows d') tops (cut_last g (cut_first f ts)) /\
    got d d' f /\ got d d' g /\ kind d' c = Some TRemoved /\ ~ attached d' c /\
    old_kept d d' p (c :: got_ids f ++ got_ids g).
Proof. exact r_replace. Qed.
Print Assumptions C81_replace.

(** The reader at work: the document of C04, and inputs outside any grammar. *)
Example C81_ex :
  document_of src_doc1 = Trees (doc_trees doc1 open1)
    [(B "!DOCTYPE", false); (B "html", true); (B "body", true); (B "br", false); (B "img", false);
     (B "div", true); (B "b", true)] /\
  document_of (B "</x") = Trees [] [] /\
  document_of (B "a < v") = Trees [Txt (B "a"); Txt (B " v")] [] /\
  document_of (B "x<") = Trees [Txt (B "x"); Txt []] [] /\
  document_of (B "<a b='c>d") = Trees [Elem (B "a") [] [(B "b", B "c>")] []] [(B "a", true)] /\
  document_of (B "<a b=c/>d") = Trees [Elem (B "a") [] [(B "b", B "c/")] [Txt (B "d")]] [(B "a", true)] /\
  document_of (B "<a b / c>d") = Trees [Elem (B "a") [B "b"; B "c"] [] []; Txt (B "d")] [(B "a", false)] /\
  document_of (B "<p>1</pre>2</p") = Trees [Elem (B "p") [] [] [Txt (B "1")]; Txt (B "2")] [(B "p", true)] /\
  document_of (B "<p>1</p") = Trees [Elem (B "p") [] [] [Txt (B "1"); Txt (B "/p")]] [(B "p", true)] /\
  document_of (B "<p>1</b>2</p>") = Trees [Elem (B "p") [] [] [Txt (B "1"); Txt (B "/b>2")]] [(B "p", true)] /\
  document_of (B "<!-->a<!--b") = Trees [Txt (B "a")] [] /\
  document_of (B "<a """) = BadQuote /\
  document_of (B "<a b='") = BadQuote /\
  document_of (nested (B "i") 256) = TooDeep /\
  fragment_of (B "p") (B "</b>1</p>2") = Trees [Txt (B "/b>1"); Txt (B "2")] [].
Proof. repeat split; vm_compute; reflexivity. Qed.
Example C81_fragment_ex : reachable ex1 /\
  fragment_of [] (B "u<i class='a>v") = Trees [Txt (B "u"); Elem (B "i") [] [(B "class", B "a>")] []] [(B "i", true)] /\
  room_for ex1 (length (B "u<i class='a>v")) /\
  node_id ex1 5 /\ children ex1 5 ([6] ++ 7 :: [9]) /\ ends_with_text ex1 [6; 7; 9] 9 (B "three") /\
  children ex1 3 [4] /\ no_text_end ex1 [4].
Proof.
  split; [exact ex1_reachable|]. split; [vm_compute; reflexivity|].
  split; [vm_compute; repeat split; discriminate|].
  split; [unfold node_id; simpl; lia|]. split; [kids|].
  split; [split; [now exists [6; 7]|reflexivity]|].
  split; [kids|].
  intros l0 c E. destruct l0 as [|? [|]]; simpl in E; try discriminate. injection E as <-. reflexivity.
Qed.

(** ** C82: well-formed markup means the same whatever follows it, and however it
    is spelt.  The rest [r] is any byte string that does not continue a text. *)
Theorem C82_document_locality : forall l r, well_formed Root l -> joinable l r -> depth l <= 255 ->
  document_of (source l ++ r) = behind (forest l) (opens l) (document_of r).
Proof. exact local_doc. Qed.
Print Assumptions C82_document_locality.
Theorem C82_fragment_locality : forall b l r, well_formed Loose l -> joinable l r -> depth l <= 256 ->
  fragment_of b (source l ++ r) = behind (forest l) (opens l) (fragment_of b r).
Proof. exact local_frag. Qed.
Print Assumptions C82_fragment_locality.
(** Two spellings of the same beginning of a document (other blanks, quotes,
    comments, end tags) give the same reading of any continuation. *)
Theorem C82_spelling : forall l os l' os' r,
  well_formed Root l -> well_formed Root l' ->
  (forall o, In o os -> opened_ok o) -> (forall o, In o os' -> opened_ok o) ->
  forest l = forest l' -> opens l = opens l' -> Forall2 same_opened os os' ->
  joinable (last_items l os) r -> joinable (last_items l' os') r ->
  doc_depth l os <= 255 -> doc_depth l' os' <= 255 ->
  document_of (doc_src l os ++ r) = document_of (doc_src l' os' ++ r).
Proof. exact same_prefix. Qed.
Print Assumptions C82_spelling.
(** Equal readings give equal outcomes and equal documents. *)
Theorem C82_same_reading : forall t1 t2, document_of t1 = document_of t2 ->
  (N.of_nat (length t1) <= 65533)%N -> (N.of_nat (length t2) <= 65533)%N ->
  match create_dom t1, create_dom t2 with
  | Ok (Some d1), Ok (Some d2) => exists ts us,
       shows_kids d1 1 ts /\ shows_kids d2 1 ts /\ tags_as d1 us /\ tags_as d2 us
  | Ok None, Ok None => True
  | Undef NegLen, Undef NegLen => True
  | _, _ => False
  end.
Proof. exact same_reading. Qed.
Print Assumptions C82_same_reading.
Definition spell1 : list opened :=
  [mkOpen (B "div") [at_ (Bare (B "id")) (Some (Bare (B "z")))] [] [Run (B "a") [([Ws ws1], B "b")] []]].
Definition spell2 : list opened :=
  [mkOpen (B "div") [mkAttr [cNL] (Quoted cSQ (B "id")) (Some (Quoted cDQ (B "z")))] ws1
     [Gap (Com (B "x")); Run (B "a") [([Com (B "y")], B "b")] [Ws [cTAB]]]].
Example C82_ex : let r := B "</p></div><p q='" in
  doc_src [] spell1 ++ r = B "<div id=z>a b</p></div><p q='" /\
  doc_src [] spell2 ++ r = B "<div" ++ [cNL] ++ B "'id'=""z"" ><!--x-->a<!--y-->b" ++ [cTAB] ++ r /\
  (forall o, In o spell1 -> opened_ok o) /\ (forall o, In o spell2 -> opened_ok o) /\
  Forall2 same_opened spell1 spell2 /\
  joinable (last_items [] spell1) r /\ joinable (last_items [] spell2) r /\
  document_of (doc_src [] spell1 ++ r) = BadQuote /\
  well_formed Root doc1 /\ joinable doc1 (B "<p q='r") /\
  document_of (B "<p q='rs") = Trees [Elem (B "p") [] [(B "q", B "r")] []] [(B "p", true)].
Proof.
  cbv zeta. split; [reflexivity|]. split; [reflexivity|].
  split.
  { intros o H. simpl in H. repeat (destruct H as [<-|H]; [split; [wf_name|]; split; [reflexivity|];
      split; [wf_rest|wf]|]). destruct H. }
  split.
  { intros o H. simpl in H. repeat (destruct H as [<-|H]; [split; [wf_name|]; split; [reflexivity|];
      split; [wf_rest|wf]|]). destruct H. }
  split; [repeat constructor|].
  assert (J : forall l, joinable l (B "</p></div><p q='")).
  { intros l _. right. eexists. split; [reflexivity|]. intros [s E]. discriminate E. }
  split; [apply J|]. split; [apply J|]. split; [reflexivity|]. split; [wf|].
  split; [|reflexivity]. intros _. right. eexists. split; [reflexivity|]. intros [s E]. discriminate E.
Qed.

(** ** C83: a document contains nothing that is not in its source: every tag name,
    key and value is a contiguous part of it, every text is a sequence of such
    parts, and there are no more nodes, attributes and bytes than the source has
    bytes. *)
Theorem C83_document : forall t d, create_dom t = Ok (Some d) ->
  exists ts, shows_kids d 1 ts /\ Forall (tree_from t) ts /\
    sum (map volume ts) <= length t /\ sum (map entries ts) <= length t.
Proof. exact created_origin. Qed.
Print Assumptions C83_document.
Theorem C83_fragment : forall d bl h d1, reachable d -> parse_extra (Some bl) h d = Ok (true, d1) ->
  exists ts, frag_shows d d1 ts /\ Forall (tree_from h) ts /\
    sum (map volume ts) <= length h /\ sum (map entries ts) <= length h.
Proof. exact inserted_origin. Qed.
Print Assumptions C83_fragment.
Example C83_ex : create_dom (B src1) = Ok (Some ex1) /\
  document_of (B "<a b= c>d e<") = Trees [Elem (B "a") [B "c"] [(B "b", [])] [Txt (B "d e"); Txt []]] [(B "a", true)] /\
  map entries [Elem (B "a") [B "c"] [(B "b", [])] [Txt (B "d e"); Txt []]] = [5] /\
  map volume [Elem (B "a") [B "c"] [(B "b", [])] [Txt (B "d e"); Txt []]] = [6].
Proof. split; [exact ex1_created|]. repeat split. Qed.
