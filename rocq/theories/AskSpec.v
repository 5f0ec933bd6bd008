(** * Edits and queries of a document: what to expect. *)
From Coq Require Import List NArith ZArith Arith Bool.
From Verif Require Import Base DomModel QueryModel EditModel ApiSpec SizeSpec ArenaSpec MemModel QueryMemModel.
Import ListNotations.
Local Open Scope nat_scope.

(** The edits that the calls make, starting from the document [d]: an edit at the node that
    a query finds is an edit at the node that [querySelector] gives for the document of that
    moment (node 0 if there is none), or no edit if the query is in error. *)
Fixpoint edits_of (cs : list call) (d : dom) : list (bytes * op) :=
  match cs with
  | [] => []
  | Ask _ _ _ :: cs => edits_of cs d
  | Edit bl o :: cs => (bl, o) :: match run bl o d with Ok d => edits_of cs d | _ => [] end
  | EditAt lo _ css bl o :: cs =>
      match query_selector lo css d with
      | Ok (QSuccess, r) =>
          let o := o (match r with Some n => n | None => 0 end) in
          (bl, o) :: match run bl o d with Ok d => edits_of cs d | _ => [] end
      | _ => edits_of cs d
      end
  end.
(** The answers to the queries among the calls, each for the document as the edits before
    it leave it. *)
Fixpoint answers (cs : list call) (d : dom) : outcome (list (qstatus * list nat)) :=
  match cs with
  | [] => Ok []
  | Edit bl o :: cs => let* d := run bl o d in answers cs d
  | Ask lo _ css :: cs =>
      let* a := query_selector_all lo css d in
      let* l := answers cs d in
      Ok (a :: l)
  | EditAt lo _ css bl o :: cs =>
      let* '(st, r) := query_selector lo css d in
      match st with
      | QSuccess => let* d := run bl (o (match r with Some n => n | None => 0 end)) d in answers cs d
      | _ => answers cs d
      end
  end.
(** The array at [q] of [n] elements holds the ids [l], two bytes each, low byte first. *)
Definition id_at (s : mem) (q : Z) (k x : nat) : Prop :=
  m_cont s (q + 2 * Z.of_nat k)%Z = (N.of_nat x mod 256)%N /\
  m_cont s (q + 2 * Z.of_nat k + 1)%Z = (N.of_nat x / 256 mod 256)%N.
Definition answer_kept (s : mem) (r : qstatus * Z * nat) (a : qstatus * list nat) : Prop :=
  let '(st, q, n) := r in
  st = fst a /\ n = length (snd a) /\ forall k x, nth_error (snd a) k = Some x -> id_at s q k x.

(** Bytes of arena that suffice for a query with a selector of [l] bytes on a document of
    [n] nodes. *)
Definition query_bytes (n l : nat) : nat := (4 + 12 * l) * (128 + 4 * n) + 2 * n + 1.
(** The most that any of the queries needs. *)
Fixpoint ask_room (cs : list call) (d : dom) : nat :=
  match cs with
  | [] => 0
  | Edit bl o :: cs => match run bl o d with Ok d => ask_room cs d | _ => 0 end
  | Ask _ _ css :: cs => Nat.max (query_bytes (length (nodes d)) (length css)) (ask_room cs d)
  | EditAt lo _ css bl o :: cs =>
      Nat.max (23 + query_bytes (length (nodes d)) (length css))
        match query_selector lo css d with
        | Ok (QSuccess, r) =>
            match run bl (o (match r with Some n => n | None => 0 end)) d with Ok d => ask_room cs d | _ => 0 end
        | _ => ask_room cs d
        end
  end.
(** Bytes of arena that suffice for parsing [t], the edits and queries [cs] (from [d0] to
    [d]) and the answers. *)
Definition ids_in (ans : list (qstatus * list nat)) : nat := length (concat (map snd ans)).
Definition talk_bytes (t : bytes) (cs : list call) (d0 d : dom) (ans : list (qstatus * list nat)) : nat :=
  table_bytes d + 18 * (length t + text_bytes (edits_of cs d0) d0) + 22 * ids_in ans + 18 * length ans + ask_room cs d0.
