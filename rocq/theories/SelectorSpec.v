(** * A reference reader for selectors: what every byte string means as a query
    (C86).  Definitions only.

    It works on what remains of the string and shares with the model of the query
    engine only the character classes.  It describes the dialect the library
    actually accepts, including its peculiarities. *)
From Coq Require Import List NArith Arith Bool.
From Verif Require Import Base DomModel DomSpec ApiSpec QueryModel QuerySpec.
Import ListNotations.
Local Open Scope nat_scope.

(** ** Reading *)

(** Split before the first character that satisfies [p]. *)
Fixpoint until (p : N -> bool) (s : bytes) : bytes * bytes :=
  match s with
  | [] => ([], [])
  | c :: s' => if p c then ([], s) else (c :: fst (until p s'), snd (until p s'))
  end.
Definition from (p : N -> bool) (s : bytes) : bytes := snd (until p s).

(** The parts between commas; a comma at the very end adds no empty part. *)
Fixpoint parts (s : bytes) : list bytes :=
  match s with
  | [] => []
  | c :: s' =>
      if (c =? cCOMMA)%N then [] :: parts s'
      else match parts s' with [] => [[c]] | p :: ps => (c :: p) :: ps end
  end.

(** A name: it starts at the next letter or '!' and ends before a blank, '=' or
    ']'; what stands between it and the next '=', ']', '.' or '#' is skipped. *)
Definition name_at (s : bytes) : bytes * bytes :=
  let r := from is_tag_start s in
  (fst (until (fun c => is_blank c || (c =? cEQ)%N || (c =? cRB)%N) r),
   from (fun c => (c =? cEQ)%N || (c =? cRB)%N || (c =? cDOT)%N || (c =? cHASH)%N)
     (from (fun c => is_blank c || (c =? cEQ)%N || (c =? cRB)%N) r)).
Definition skip_close (s : bytes) : bytes :=
  match s with c :: r => if (c =? cRB)%N then r else s | [] => [] end.
Definition opens_filter (c : N) : bool := (c =? cLB)%N || (c =? cDOT)%N || (c =? cHASH)%N.
(** The filter that starts at [s] with the character [ch]; a bracket without '='
    and ']' is dropped. *)
Definition filter_at (ch : N) (s : bytes) : option simple * bytes :=
  let (nm, r) := name_at s in
  if (ch =? cDOT)%N then (Some (AttrIs s_class nm), skip_close r)
  else if (ch =? cHASH)%N then (Some (AttrIs s_id nm), skip_close r)
  else match r with
       | c :: r' =>
           if (c =? cRB)%N then (Some (Attr nm), r')
           else if (c =? cEQ)%N then
             let (v, r2) := name_at r' in (Some (AttrIs nm v), skip_close r2)
           else (None, r)
       | [] => (None, r)
       end.

(** A condition on a node; '*' is met by every node, and what follows it in the
    same element is not looked at. *)
Inductive cond : Type := Is (x : simple) | Any.
Definition opt_cond (x : option simple) : list cond := match x with Some x => [Is x] | None => [] end.

Definition head_at (s : bytes) : list cond * bytes :=
  match s with
  | c :: _ => if is_tag_start c then ([Is (Tag (fst (until end_of_filter s)))], from end_of_filter s)
              else if (c =? cSTAR)%N then ([Any], from end_of_filter s)
              else ([], s)
  | [] => ([], [])
  end.
(** The filters at [s], when the element already has [n] conditions; [true]: there
    would be more than eight.  [fuel]: the length of [s] suffices. *)
Fixpoint filters_at (fuel n : nat) (s : bytes) : list cond * bool * bytes :=
  match s, fuel with
  | c :: _, S f =>
      if opens_filter c then
        if 8 <=? n then ([], true, s)
        else let (x, r) := filter_at c s in
             let '(cs, many, r') := filters_at f (n + length (opt_cond x)) r in
             (opt_cond x ++ cs, many, r')
      else ([], false, s)
  | _, _ => ([], false, s)
  end.
(** The combinator: the last of '>', '+', '~' before the next element. *)
Fixpoint comb_at (r : rel) (s : bytes) : rel * bytes :=
  match s with
  | [] => (r, [])
  | c :: s' =>
      if is_elem_start c || (c =? cLB)%N then (r, s)
      else comb_at (if (c =? cGT)%N then Child else if (c =? cPLUS)%N then NextSib
                    else if (c =? cTILDE)%N then LaterSib else r) s'
  end.

Inductive ending : Type := Complete | NoCondition | TooMany.
(** The elements of one part, each with the combinator before it. *)
Definition steps := list (option rel * list cond).
Fixpoint elements_at (fuel : nat) (r : option rel) (s : bytes) : steps * ending :=
  match s, fuel with
  | _ :: _, S f =>
      let (h, s1) := head_at s in
      let '(cs, many, s2) := filters_at (length s1) (length h) s1 in
      if many then ([(r, h ++ cs)], TooMany)
      else match h ++ cs with
           | [] => ([], NoCondition)
           | _ => let (r', s3) := comb_at Descendant s2 in
                  let (l, e) := elements_at f (Some r') s3 in ((r, h ++ cs) :: l, e)
           end
  | _, _ => ([], Complete)
  end.
Definition read_part (s : bytes) : steps * ending :=
  let s := from (fun c => is_elem_start c || (c =? cLB)%N || (c =? cSTAR)%N) s in
  elements_at (length s) None s.

(** ** Meaning *)
Section Meaning.
  Context (lo : nat -> nat) (d : dom).
  Fixpoint meets (n : nat) (cs : list cond) : Prop :=
    match cs with
    | [] => True
    | Any :: _ => True
    | Is x :: cs' => matches1 lo d n x /\ meets n cs'
    end.
  Definition pick (S : nat -> Prop) (x : option rel * list cond) (n : nat) : Prop :=
    meets n (snd x) /\
    match fst x with None => node_id d n | Some r => exists m, S m /\ related d r m n end.
  Definition picks (l : steps) : nat -> Prop := fold_left pick l (fun _ => False).

  (** All names in the part occur in the DOM. *)
  Definition all_known (l : steps) : Prop :=
    forall r cs x, In (r, cs) l -> In (Is x) cs -> known1 d x.
  Definition accepted (p : steps * ending) : Prop := all_known (fst p) /\ snd p = Complete.
  Definition refused (p : steps * ending) (st : qstatus) : Prop :=
    (~ all_known (fst p) /\ st = QNotSeen) \/
    (all_known (fst p) /\ (snd p = NoCondition /\ st = QInvalid \/ snd p = TooMany /\ st = QTooMany)).
End Meaning.

(** ** Meaning in terms of the tree alone *)
Fixpoint tree_meets (d : dom) (n : nat) (cs : list cond) : Prop :=
  match cs with
  | [] => True
  | Any :: _ => True
  | Is x :: cs' => css_matches1 d n x /\ tree_meets d n cs'
  end.
Definition tree_pick (d : dom) (S : nat -> Prop) (x : option rel * list cond) (n : nat) : Prop :=
  tree_meets d n (snd x) /\
  match fst x with None => below_eq d 1 n | Some r => exists m, S m /\ tree_related d r m n end.
Definition tree_picks (d : dom) (l : steps) : nat -> Prop := fold_left (tree_pick d) l (fun _ => False).
(** The nodes of the tree that a selector string picks. *)
Definition chosen (d : dom) (css : bytes) (n : nat) : Prop :=
  exists p, In p (parts css) /\ tree_picks d (fst (read_part p)) n.
Definition accepted_css (d : dom) (css : bytes) : Prop := forall p, In p (parts css) -> accepted d (read_part p).
