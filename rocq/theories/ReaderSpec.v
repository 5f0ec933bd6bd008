(** * A reference reader: what every byte string means as HTML to this library.

    Definitions only.  The reader works on what remains of the input, builds
    trees directly, and shares nothing with the parser model but the characters
    classes and the table of void tags.  It describes the dialect the library
    actually accepts, including its peculiarities. *)
From Coq Require Import List NArith Arith Bool.
From Verif Require Import Base ParserModel GrammarSpec.
Import ListNotations.
Local Open Scope nat_scope.

(** Split before the first character that does not satisfy [p]. *)
Fixpoint span (p : N -> bool) (r : bytes) : bytes * bytes :=
  match r with
  | [] => ([], [])
  | c :: r' => if p c then (c :: fst (span p r'), snd (span p r')) else ([], r)
  end.
Fixpoint starts (p r : bytes) : bool :=
  match p, r with
  | [], _ => true
  | a :: p', c :: r' => (a =? c)%N && starts p' r'
  | _ :: _, [] => false
  end.
Fixpoint skip_blanks (r : bytes) : bytes :=
  match r with
  | [] => []
  | c :: r' => if is_blank c then skip_blanks r' else r
  end.
(** What follows the next '>'. *)
Definition after_gt (r : bytes) : bytes := tl (snd (span (fun c => negb (c =? cGT)%N) r)).

(** A comment begins with "<!--" and at least one more byte.  It ends at the
    first "-->"; the dashes of "<!--" may be those of "-->". *)
Definition at_comment (r : bytes) : bool := starts [cLT; cBANG; cDASH; cDASH] r && (4 <? length r).
Fixpoint after_dashes (r : bytes) : bytes :=
  match r with
  | [] => []
  | _ :: r' => if starts [cDASH; cDASH; cGT] r then skipn 3 r else after_dashes r'
  end.
Definition after_comment (r : bytes) : bytes := after_dashes (skipn 2 r).

(** The end tag of an element [name]: "</", the name, at least one more byte. *)
Definition at_end_tag (name r : bytes) : bool :=
  starts (cLT :: cSLASH :: name) r && (2 + length name <? length r).

(** A key or a value.  Quoted: up to the next equal quote; without one, the rest
    of the input except its last byte; a quote as the last byte of the input has
    no meaning ([None]). *)
Definition prop_at (r : bytes) : option (bytes * bytes) :=
  match r with
  | [] => Some ([], [])
  | q :: y =>
      if is_quote q then
        match y with
        | [] => None
        | _ => let a := span (fun c => negb (c =? q)%N) y in
               match snd a with
               | [] => Some (removelast y, [])
               | _ :: r' => Some (fst a, r')
               end
        end
      else Some (span bare_char r)
  end.

(** Attributes up to '>' or the end; a '/' between them makes the tag a single
    one. *)
Fixpoint attrs_at (fuel : nat) (can : bool) (bs : list bytes) (ps : list (bytes * bytes)) (r : bytes)
  : option (bool * list bytes * list (bytes * bytes) * bytes) :=
  match fuel with
  | O => None
  | S f =>
      match skip_blanks r with
      | [] => Some (can, bs, ps, [])
      | c :: r1 =>
          if (c =? cGT)%N then Some (can, bs, ps, r1)
          else if (c =? cSLASH)%N then attrs_at f false bs ps r1
          else
            match prop_at (c :: r1) with
            | None => None
            | Some (k, r2) =>
                match r2 with
                | e :: r3 =>
                    if (e =? cEQ)%N then
                      match prop_at r3 with
                      | None => None
                      | Some (v, r4) => attrs_at f can bs (ps ++ [(k, v)]) r4
                      end
                    else attrs_at f can (bs ++ [k]) ps r2
                | [] => attrs_at f can (bs ++ [k]) ps r2
                end
            end
      end
  end.

(** A start tag; [r] begins behind '<'.  Result: name, attributes, whether an
    element with content begins, what follows. *)
Definition tag_at (r : bytes)
  : option (bytes * list bytes * list (bytes * bytes) * bool * bytes) :=
  let w := fst (span (fun c => negb (c =? cGT)%N && negb (is_blank c)) r) in
  let r1 := snd (span (fun c => negb (c =? cGT)%N && negb (is_blank c)) r) in
  let single := starts [cGT] r1 && (last w 0 =? cSLASH)%N in
  let name := if single then removelast w else w in
  let can := negb (starts [cBANG] r) && negb single && negb (is_void name) in
  match attrs_at (S (length r1)) can [] [] r1 with
  | None => None
  | Some (can, bs, ps, r2) => Some (name, bs, ps, can, r2)
  end.

(** Text: the words up to the next '<' that does not begin a comment.  Words are
    separated by blanks and comments. *)
Fixpoint words_at (fuel : nat) (r : bytes) : list bytes * bytes :=
  match fuel with
  | O => ([], r)
  | S f =>
      match skip_blanks r with
      | [] => ([], [])
      | c :: r1 =>
          if at_comment (c :: r1) then words_at f (after_comment (c :: r1))
          else if (c =? cLT)%N then ([], c :: r1)
          else
            let w := span text_char (c :: r1) in
            let m := words_at f (snd w) in
            (fst w :: fst m, snd m)
      end
  end.
Fixpoint join (ws : list bytes) : bytes :=
  match ws with
  | [] => []
  | [w] => w
  | w :: ws' => w ++ [cSP] ++ join ws'
  end.
(** Behind a '<' the text may begin with a blank; the blank is then kept as one
    space before the first word. *)
Definition text_at (r : bytes) : bytes * bytes :=
  let m := words_at (S (length r)) r in
  (join (if match r with c :: _ => is_blank c | [] => false end then [] :: fst m else fst m), snd m).

(** An element that is still open: name, attributes, the trees before it. *)
Definition open_elem := (bytes * list bytes * list (bytes * bytes) * list tree)%type.
Fixpoint close_all (cur : list tree) (st : list open_elem) : list tree :=
  match st with
  | [] => cur
  | (n, bs, ps, before) :: st' => close_all (before ++ [Elem n bs ps cur]) st'
  end.
Definition top_name (base : bytes) (st : list open_elem) : bytes :=
  match st with (n, _, _, _) :: _ => n | [] => base end.

(** [Trees ts uses]: the trees and, in source order, every tag name with whether
    that tag began an element with content. *)
Inductive verdict : Type :=
| Trees (ts : list tree) (uses : list (bytes * bool))
| TooDeep
| BadQuote.

(** [base]: the name an end tag is compared with when no element is open;
    [limit]: how many elements may be open; [cur]: the trees read so far inside
    the innermost open element; [st]: the open elements, innermost first. *)
Fixpoint read (fuel : nat) (base : bytes) (limit : nat) (cur : list tree) (st : list open_elem)
         (us : list (bytes * bool)) (r : bytes) : verdict :=
  match fuel with
  | O => TooDeep
  | S f =>
      match skip_blanks r with
      | [] => Trees (close_all cur st) us
      | c :: r1 =>
          if at_comment (c :: r1) then read f base limit cur st us (after_comment (c :: r1))
          else if at_end_tag (top_name base st) (c :: r1) then
            match st with
            | [] => read f base limit cur [] us (after_gt (c :: r1))
            | (n, bs, ps, before) :: st' =>
                read f base limit (before ++ [Elem n bs ps cur]) st' us (after_gt (c :: r1))
            end
          else if (c =? cLT)%N && match r1 with c1 :: _ => is_alpha c1 || (c1 =? cBANG)%N | [] => false end then
            match tag_at r1 with
            | None => BadQuote
            | Some (n, bs, ps, can, r2) =>
                if (can : bool) then
                  if limit <=? length st then TooDeep
                  else read f base limit [] ((n, bs, ps, cur) :: st) (us ++ [(n, true)]) r2
                else read f base limit (cur ++ [Elem n bs ps []]) st (us ++ [(n, false)]) r2
            end
          else
            let m := text_at (if (c =? cLT)%N then r1 else c :: r1) in
            read f base limit (cur ++ [Txt (fst m)]) st us (snd m)
      end
  end.

(** A whole document: any end tag where no element is open is ignored; 255 open
    elements. *)
Definition document_of (t : bytes) : verdict := read (S (length t)) [] 255 [] [] [] t.
(** A fragment; [base] is the name compared with end tags at its top level. *)
Definition fragment_of (base h : bytes) : verdict := read (S (length h)) base 256 [] [] [] h.
