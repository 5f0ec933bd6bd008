(** * A grammar of well-formed HTML and what its sentences denote.

    Definitions only, independent of the parser.  A document is given as a
    concrete syntax tree ([item]): [source] spells it out as bytes and [forest]
    is the list of trees a reader expects to find in the DOM. *)
From Coq Require Import List NArith Arith Bool.
From Verif Require Import Base TrieModel DomModel ParserModel DomSpec ApiSpec CompareSpec.
Import ListNotations.
Local Open Scope nat_scope.

(** The abstract document. *)
Inductive tree : Type :=
| Elem (tag : bytes) (bools : list bytes) (props : list (bytes * bytes)) (kids : list tree)
| Txt (s : bytes).

(** An attribute key or value: bare or between two quotes [q]. *)
Inductive word : Type :=
| Bare (s : bytes)
| Quoted (q : N) (s : bytes).

(** An attribute: the blanks before it, its key, its value if it has one. *)
Record attr : Type := mkAttr { a_ws : bytes; a_key : word; a_val : option word }.

(** What may separate words: blanks or a comment. *)
Inductive gap : Type :=
| Ws (s : bytes)
| Com (body : bytes).

(** [Leaf]: <name attributes>, possibly with "/>", without content;
    [Pair]: <name attributes>body</name junk>;
    [Run]: words separated (and followed) by gaps;
    [Odd]: a '<' that starts neither a tag nor a comment, and the text after it;
    [Stray]: an end tag </junk> that belongs to no element. *)
Inductive item : Type :=
| Gap (g : gap)
| Leaf (name : bytes) (ats : list attr) (ws : bytes) (slash : bool)
| Pair (name : bytes) (ats : list attr) (ws : bytes) (body : list item) (endjunk : bytes)
| Run (w : bytes) (more : list (list gap * bytes)) (after : list gap)
| Odd (w : bytes) (more : list (list gap * bytes)) (after : list gap)
| Stray (junk : bytes).

(** ** Spelling *)
Definition word_src (w : word) : bytes :=
  match w with Bare s => s | Quoted q s => q :: s ++ [q] end.
Definition attr_src (a : attr) : bytes :=
  a_ws a ++ word_src (a_key a) ++
  match a_val a with Some v => cEQ :: word_src v | None => [] end.
Definition attrs_src (l : list attr) : bytes := flat_map attr_src l.
Definition com_src (body : bytes) : bytes :=
  [cLT; cBANG; cDASH; cDASH] ++ body ++ [cDASH; cDASH; cGT].
Definition gap_src (g : gap) : bytes :=
  match g with Ws s => s | Com b => com_src b end.
Definition gaps_src (l : list gap) : bytes := flat_map gap_src l.
(** <name attributes> *)
Definition open_src (name : bytes) (ats : list attr) (ws : bytes) (slash : bool) : bytes :=
  cLT :: name ++ attrs_src ats ++ ws ++ (if slash then [cSLASH] else []) ++ [cGT].
(** </name> *)
Definition close_src (name endws : bytes) : bytes :=
  cLT :: cSLASH :: name ++ endws ++ [cGT].

Definition run_src_of (w : bytes) (more : list (list gap * bytes)) (after : list gap) : bytes :=
  w ++ flat_map (fun gw => gaps_src (fst gw) ++ snd gw) more ++ gaps_src after.
Fixpoint item_src (i : item) : bytes :=
  match i with
  | Gap g => gap_src g
  | Leaf n ats ws sl => open_src n ats ws sl
  | Pair n ats ws body e =>
      open_src n ats ws false ++ flat_map item_src body ++ close_src n e
  | Run w more after => run_src_of w more after
  | Odd w more after => cLT :: run_src_of w more after
  | Stray j => close_src j []
  end.
Definition source (l : list item) : bytes := flat_map item_src l.

(** ** Meaning *)
Definition word_val (w : word) : bytes := match w with Bare s | Quoted _ s => s end.
Definition bools_of (l : list attr) : list bytes :=
  flat_map (fun a => match a_val a with None => [word_val (a_key a)] | Some _ => [] end) l.
Definition props_of (l : list attr) : list (bytes * bytes) :=
  flat_map (fun a => match a_val a with
                     | Some v => [(word_val (a_key a), word_val v)] | None => [] end) l.
(** The words of a text, separated by single spaces. *)
Definition text_val (w : bytes) (more : list (list gap * bytes)) : bytes :=
  w ++ flat_map (fun gw => cSP :: snd gw) more.

Fixpoint item_trees (i : item) : list tree :=
  match i with
  | Gap _ | Stray _ => []
  | Leaf n ats _ _ => [Elem n (bools_of ats) (props_of ats) []]
  | Pair n ats _ body _ => [Elem n (bools_of ats) (props_of ats) (flat_map item_trees body)]
  | Run w more _ | Odd w more _ => [Txt (text_val w more)]
  end.
Definition forest (l : list item) : list tree := flat_map item_trees l.

(** Nesting depth of the elements that have an end tag. *)
Fixpoint item_depth (i : item) : nat :=
  match i with
  | Pair _ _ _ body _ => S (fold_right (fun i m => Nat.max (item_depth i) m) 0 body)
  | _ => 0
  end.
Definition depth (l : list item) : nat :=
  fold_right (fun i m => Nat.max (item_depth i) m) 0 l.

(** ** Well-formedness *)
Definition all (P : N -> bool) (s : bytes) : Prop := forall c, In c s -> P c = true.
Definition blanks (s : bytes) : Prop := all is_blank s.
Definition is_quote (c : N) : bool := ((c =? cSQ) || (c =? cDQ))%N.

(** Element names: a letter followed by anything but blanks, '>' and '/'. *)
Definition name_char (c : N) : bool :=
  negb (is_blank c) && negb (c =? cGT)%N && negb (c =? cSLASH)%N.
Definition name_ok (n : bytes) : Prop :=
  all name_char n /\ exists c r, n = c :: r /\ is_alpha c = true.
(** Names of declarations such as !DOCTYPE. *)
Definition decl_ok (n : bytes) : Prop :=
  all name_char n /\ (exists r, n = cBANG :: r) /\
  (forall r, n <> [cBANG; cDASH; cDASH] ++ r).

(** Bare keys have no blank, '=', '>' or '/' and do not start with a quote; bare
    values may contain '/'. *)
Definition bare_char (c : N) : bool :=
  negb (is_blank c) && negb (c =? cEQ)%N && negb (c =? cGT)%N.
Definition no_quote_first (s : bytes) : Prop :=
  forall c r, s = c :: r -> is_quote c = false.
Definition quoted_ok (q : N) (s : bytes) : Prop := is_quote q = true /\ ~ In q s.
Definition key_ok (w : word) : Prop :=
  match w with
  | Bare s => s <> [] /\ all bare_char s /\ ~ In cSLASH s /\ no_quote_first s
  | Quoted q s => quoted_ok q s
  end.
Definition value_ok (w : word) : Prop :=
  match w with
  | Bare s => s <> [] /\ all bare_char s /\ no_quote_first s
  | Quoted q s => quoted_ok q s
  end.
Definition attr_ok (a : attr) : Prop :=
  a_ws a <> [] /\ blanks (a_ws a) /\ key_ok (a_key a) /\
  match a_val a with Some v => value_ok v | None => True end.

(** The last word of the attribute list is bare. *)
Definition ends_bare (l : list attr) : Prop :=
  exists l' a, l = l' ++ [a] /\
    exists s, match a_val a with Some v => v | None => a_key a end = Bare s.

(** The part of a tag after the name; "/>" does not touch a bare word. *)
Definition tag_rest_ok (ats : list attr) (ws : bytes) (slash : bool) : Prop :=
  (forall a, In a ats -> attr_ok a) /\ blanks ws /\
  (slash = true -> ends_bare ats -> ws <> []).

(** The first "-->" that overlaps the comment's body or its dashes is the one
    that ends the comment. *)
Definition com_ok (body : bytes) : Prop :=
  forall p s, [cDASH; cDASH] ++ body ++ [cDASH; cDASH] <> p ++ [cDASH; cDASH; cGT] ++ s.
Definition gap_ok (g : gap) : Prop :=
  match g with Ws s => s <> [] /\ blanks s | Com b => com_ok b end.
Definition text_char (c : N) : bool := negb (is_blank c) && negb (c =? cLT)%N.
Definition text_word_ok (w : bytes) : Prop := w <> [] /\ all text_char w.

(** Text runs are maximal: nothing but an element, an end tag or the end
    follows one. *)
Fixpoint runs_maximal (l : list item) : Prop :=
  match l with
  | [] => True
  | i :: l' =>
      match i, l' with
      | (Run _ _ _ | Odd _ _ _), (Gap _ | Run _ _ _) :: _ => False
      | _, _ => True
      end /\ runs_maximal l'
  end.

Definition run_ok (w : bytes) (more : list (list gap * bytes)) (after : list gap) : Prop :=
  text_word_ok w /\
  (forall gs w', In (gs, w') more ->
     gs <> [] /\ (forall g, In g gs -> gap_ok g) /\ text_word_ok w') /\
  (forall g, In g after -> gap_ok g).

(** Where an item stands: at the top of a document, at the top of a fragment,
    directly inside an element with the given name. *)
Inductive place : Type := Root | Loose | Inside (name : bytes).

Definition prefix (a b : bytes) : Prop := exists s, b = a ++ s.
(** After the '<' comes neither a letter nor '!'; and if it is '/', the rest does
    not begin with the name of the element it stands in. *)
Definition odd_ok (pl : place) (w : bytes) : Prop :=
  exists c r, w = c :: r /\ is_alpha c = false /\ c <> cBANG /\
    (c = cSLASH -> exists n, pl = Inside n /\ ~ prefix (cSLASH :: n) w /\ ~ prefix w (cSLASH :: n)).

(** The end tag of an element is "</", its name, and anything up to '>'. *)
Inductive item_ok : place -> item -> Prop :=
| ok_gap pl g : gap_ok g -> item_ok pl (Gap g)
| ok_leaf pl n ats ws sl :
    decl_ok n \/ (name_ok n /\ (is_void n = true \/ sl = true)) ->
    tag_rest_ok ats ws sl -> item_ok pl (Leaf n ats ws sl)
| ok_pair pl n ats ws body e :
    name_ok n -> is_void n = false -> tag_rest_ok ats ws false -> ~ In cGT e ->
    (forall i, In i body -> item_ok (Inside n) i) -> runs_maximal body ->
    item_ok pl (Pair n ats ws body e)
| ok_run pl w more after : run_ok w more after -> item_ok pl (Run w more after)
| ok_odd pl w more after : run_ok w more after -> odd_ok pl w -> item_ok pl (Odd w more after)
| ok_stray j : ~ In cGT j -> item_ok Root (Stray j).

Definition well_formed (pl : place) (l : list item) : Prop :=
  (forall i, In i l -> item_ok pl i) /\ runs_maximal l.

(** ** Elements that are still open at the end of the input *)
Record opened : Type := mkOpen {
  o_name : bytes; o_ats : list attr; o_ws : bytes; o_body : list item }.
Definition opened_ok (o : opened) : Prop :=
  name_ok (o_name o) /\ is_void (o_name o) = false /\
  tag_rest_ok (o_ats o) (o_ws o) false /\ well_formed (Inside (o_name o)) (o_body o).
Definition opened_src (os : list opened) : bytes :=
  flat_map (fun o => open_src (o_name o) (o_ats o) (o_ws o) false ++ source (o_body o)) os.
Fixpoint opened_trees (os : list opened) : list tree :=
  match os with
  | [] => []
  | o :: os' => [Elem (o_name o) (bools_of (o_ats o)) (props_of (o_ats o))
                      (forest (o_body o) ++ opened_trees os')]
  end.
Fixpoint opened_depth (os : list opened) : nat :=
  match os with
  | [] => 0
  | o :: os' => S (Nat.max (depth (o_body o)) (opened_depth os'))
  end.

(** ** What a DOM shows *)
Inductive shows (d : dom) : nat -> tree -> Prop :=
| shows_text x s : text_content d x s -> children d x [] -> shows d x (Txt s)
| shows_elem x tag bs ps l ts :
    content d x = (Some TDocument, Some tag, None, bs, ps) ->
    children d x l -> Forall2 (shows d) l ts -> shows d x (Elem tag bs ps ts).
(** Node [p] has exactly the children [ts]. *)
Definition shows_kids (d : dom) (p : nat) (ts : list tree) : Prop :=
  exists l, children d p l /\ Forall2 (shows d) l ts.

(** ** Whole documents: items followed by unclosed elements *)
Definition doc_src (l : list item) (os : list opened) : bytes := source l ++ opened_src os.
Definition doc_trees (l : list item) (os : list opened) : list tree := forest l ++ opened_trees os.
Definition doc_depth (l : list item) (os : list opened) : nat := Nat.max (depth l) (opened_depth os).

(** The tags of a document in order, each with whether it starts an element that
    can have content. *)
Fixpoint item_opens (i : item) : list (bytes * bool) :=
  match i with
  | Gap _ | Stray _ | Run _ _ _ | Odd _ _ _ => []
  | Leaf n _ _ _ => [(n, false)]
  | Pair n _ _ body _ => (n, true) :: flat_map item_opens body
  end.
Definition opens (l : list item) : list (bytes * bool) := flat_map item_opens l.
Definition opened_opens (os : list opened) : list (bytes * bool) :=
  flat_map (fun o => (o_name o, true) :: opens (o_body o)) os.
Definition doc_opens (l : list item) (os : list opened) : list (bytes * bool) :=
  opens l ++ opened_opens os.
(** The first entry for a name. *)
Fixpoint first_use (n : bytes) (l : list (bytes * bool)) : option bool :=
  match l with
  | [] => None
  | (m, b) :: l' => if beq n m then Some b else first_use n l'
  end.

(** The library remembers one flag "paired" per tag name: it is that of the first
    use. *)
Definition tags_as (d : dom) (l : list (bytes * bool)) : Prop :=
  forall x n, tag_name d x = Some n -> paired d x = first_use n l.

(** ** Fragments *)

(** What the parsed but not yet placed fragment looks like. *)
Definition frag_shows (d d1 : dom) (ts : list tree) : Prop :=
  match ts with
  | [] => length (nodes d1) = length (nodes d)
  | _ => length (nodes d) < length (nodes d1) /\
         exists tops, sibs d1 (length (nodes d)) tops /\ Forall2 (shows d1) tops ts
  end.

(** Old nodes other than [p] keep their children; old nodes not in [ex] keep
    their content. *)
Definition old_kept (d d' : dom) (p : nat) (ex : list nat) : Prop :=
  (forall q m, q < length (nodes d) -> q <> p -> (children d' q m <-> children d q m)) /\
  (forall q, q < length (nodes d) -> ~ In q ex -> same_content d d' q).

(** The first (last) tree of the fragment is a text that goes into the text
    node before (after) the place. *)
Definition first_goes (d : dom) (ts : list tree) (l1 : list nat) (f : option (nat * bytes)) : Prop :=
  match f with
  | Some (t, s') => exists old s r, ts = Txt s :: r /\ ends_with_text d l1 t old /\
                      s' = old ++ [cSP] ++ s
  | None => no_text_end d l1 \/ (forall s r, ts <> Txt s :: r)
  end.
Definition last_goes (d : dom) (ts : list tree) (l2 : list nat) (g : option (nat * bytes)) : Prop :=
  match g with
  | Some (t, s') => exists old s r, ts = r ++ [Txt s] /\ starts_with_text d l2 t old /\
                      s' = s ++ [cSP] ++ old
  | None => no_text_start d l2 \/ (forall s r, ts <> r ++ [Txt s])
  end.
Definition got (d d' : dom) (m : option (nat * bytes)) : Prop :=
  match m with Some (t, s') => retexted d d' t s' | None => True end.
Definition got_ids (m : option (nat * bytes)) : list nat :=
  match m with Some (t, _) => [t] | None => [] end.
Definition cut_first {A} (m : option (nat * bytes)) (x : list A) : list A :=
  match m with Some _ => tl x | None => x end.
Definition cut_last {A} (m : option (nat * bytes)) (x : list A) : list A :=
  match m with Some _ => removelast x | None => x end.

(** ** Nesting: distance from the root *)
Inductive at_depth (d : dom) : nat -> nat -> Prop :=
| at_root : at_depth d 1 0
| at_child p l c m : children d p l -> In c l -> at_depth d p m -> at_depth d c (S m).

(** ** Plain text *)

(** The maximal blank-free pieces of a string. *)
Fixpoint words (s : bytes) : list bytes :=
  match s with
  | [] => []
  | c :: s' =>
      if is_blank c then words s'
      else match s' with
           | [] => [[c]]
           | c' :: _ =>
               if is_blank c' then [c] :: words s'
               else match words s' with
                    | w :: ws => (c :: w) :: ws
                    | [] => [[c]]
                    end
           end
  end.
(** The words joined by single spaces; no text node at all if there is none. *)
Definition text_trees (s : bytes) : list tree :=
  match words s with
  | [] => []
  | w :: ws => [Txt (w ++ flat_map (fun w' => cSP :: w') ws)]
  end.

(** Parsing [t] gives the trees [ts] (or leaves through longjmp). *)
Definition parses_to (t : bytes) (ts : list tree) : Prop :=
  ends_in (create_dom t) (fun r => exists d, r = Some d /\ shows_kids d 1 ts).

(** [n] nested open elements. *)
Fixpoint nested (tag : bytes) (n : nat) : bytes :=
  match n with O => [] | S n' => (cLT :: tag ++ [cGT]) ++ nested tag n' end.
