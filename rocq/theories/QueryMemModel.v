(** * [flo_html_querySelectorAll] on an arena: src/dom/query/query.c:289-336.  Definitions only.

    As TraceModel does for the parser: the functions of QueryModel with a record of the
    sets they allocate, in program order (one number per set: its exponent).  The sets
    themselves are those of MsiModel. *)
From Coq Require Import List NArith ZArith Arith Bool.
From Verif Require Import Base TrieModel DomModel MsiModel QueryModel EditModel ApiSpec MemModel TraceModel TraceEditModel.
Import ListNotations.
Local Open Scope nat_scope.

Definition qm (A : Type) : Type := list nat * outcome A.
Definition m_ret {A} (a : A) : qm A := ([], Ok a).
Definition m_lift {A} (o : outcome A) : qm A := ([], o).
Definition m_bind {A B} (x : qm A) (f : A -> qm B) : qm B :=
  match snd x with
  | Ok a => (fst x ++ fst (f a), snd (f a))
  | Undef u => (fst x, Undef u)
  | Longjmp j => (fst x, Longjmp j)
  | NoFuel => (fst x, NoFuel)
  end.
Notation "'do@' x ':=' a 'in' b" := (m_bind a (fun x => b))
  (at level 200, x name, a at level 100, b at level 200).
Notation "'do@' ''' p ':=' a 'in' b" := (m_bind a (fun p => b))
  (at level 200, p strict pattern, a at level 100, b at level 200).

(** [flo_msi_html_uint16Insert]: msi-uint16.c:15-25; the new set of :18-20. *)
Definition m_insert (v : nat) (s : uset) : qm (bool * uset) :=
  ((if 2 ^ m_exp s / 2 <=? m_len s then [S (m_exp s)] else []), u_insert v s).
Definition m_insert_if (lo : nat -> nat) (id : nat) (fs : list filt) (d : dom) (s : uset) : qm uset :=
  do@ b := m_lift (filter_node lo id fs d) in
  if (b : bool) then do@ '(_, s) := m_insert id s in m_ret s else m_ret s.

(** query-util.c:64-76 *)
Fixpoint m_all_loop (lo : nat -> nat) (l : list node) (fs : list filt) (d : dom) (s : uset) : qm uset :=
  match l with
  | [] => m_ret s
  | n :: l' => do@ s := m_insert_if lo (n_id n) fs d s in m_all_loop lo l' fs d s
  end.

(** query-util.c:79-106; the set of :83-84. *)
Fixpoint m_siblings_loop (fuel : nat) (lo : nat -> nat) (limit : bool) (next : nat)
         (fs : list filt) (d : dom) (s : uset) : qm uset :=
  if 0 <? next then
    match fuel with
    | O => m_lift NoFuel
    | S f =>
        do@ s := m_insert_if lo next fs d s in
        if limit then m_ret s else m_siblings_loop f lo limit (get_next next d) fs d s
    end
  else m_ret s.
Fixpoint m_adjacents_loop (lo : nat -> nat) (limit : bool) (l : list nat)
         (fs : list filt) (d : dom) (s : uset) : qm uset :=
  match l with
  | [] => m_ret s
  | x :: l' =>
      do@ s := m_siblings_loop (S (length (nodes d))) lo limit (get_next x d) fs d s in
      m_adjacents_loop lo limit l' fs d s
  end.
Definition m_adjacents (lo : nat -> nat) (limit : bool) (fs : list filt) (d : dom) (s : uset) : qm uset :=
  do@ _ := ([start_exp], Ok tt) in
  m_adjacents_loop lo limit (u_elems s) fs d (u_new start_exp).

(** query-util.c:109-158; the sets of :113 and :116-117. *)
Fixpoint m_descend_pass (lo : nat -> nat) (l : list (nat * nat)) (fs : list filt)
         (d : dom) (filled fill s : uset) : qm (uset * uset) :=
  match l with
  | [] => m_ret (fill, s)
  | (p, c) :: l' =>
      do@ n := m_lift (get_node d c) in
      do@ go := m_lift (match n_type n with TDocument => u_contains p filled | _ => Ok false end) in
      do@ '(fill, s) :=
        (if (go : bool) then
           do@ '(_, fill) := m_insert c fill in
           do@ s := m_insert_if lo c fs d s in
           m_ret (fill, s)
         else m_ret (fill, s)) in
      m_descend_pass lo l' fs d filled fill s
  end.
Fixpoint m_descend_loop (fuel : nat) (lo : nat -> nat) (one : bool)
         (fs : list filt) (d : dom) (filled fill s : uset) : qm uset :=
  if 0 <? m_len filled then
    match fuel with
    | O => m_lift NoFuel
    | S f =>
        do@ '(fill, s) := m_descend_pass lo (pchilds d) fs d filled fill s in
        if one then m_ret s else m_descend_loop f lo one fs d fill (u_reset filled) s
    end
  else m_ret s.
Definition m_descendants (lo : nat -> nat) (one : bool) (fs : list filt) (d : dom) (s : uset) : qm uset :=
  let first := u_copy s in
  do@ _ := ([m_exp s; m_exp first], Ok tt) in
  m_descend_loop (S (S (length (nodes d)))) lo one fs d first (u_new (m_exp first)) (u_reset s).

(** query.c:212-252 *)
Definition m_step (lo : nat -> nat) (c : comb) (fs : list filt) (d : dom) (s : uset) : qm uset :=
  match c with
  | CNone => m_all_loop lo (nodes d) fs d s
  | CAdjacent => m_adjacents lo true fs d s
  | CChild => m_descendants lo true fs d s
  | CSibling => m_adjacents lo false fs d s
  | CDescendant => m_descendants lo false fs d s
  end.

(** query.c:88-287 *)
Fixpoint m_query_loop (fuel : nat) (lo : nat -> nat) (t : bytes) (d : dom)
         (i : nat) (c : comb) (s : uset) : qm (qstatus * uset) :=
  if i <? length t then
    match fuel with
    | O => m_lift NoFuel
    | S f =>
        do@ r := m_lift (parse_head t d i []) in
        match r with
        | inl st => m_ret (st, s)
        | inr (fs, i) =>
            do@ r := m_lift (filters_loop (S (length t)) t d i fs) in
            match r with
            | inl st => m_ret (st, s)
            | inr ([], _) => m_ret (QInvalid, s)
            | inr (fs, i) =>
                do@ s := m_step lo c fs d s in
                do@ '(c, i) := m_lift (comb_loop (length t) t i CDescendant) in
                m_query_loop f lo t d i c s
            end
        end
    end
  else m_ret (QSuccess, s).
Definition m_query_results (lo : nat -> nat) (t : bytes) (d : dom) (s : uset) : qm (qstatus * uset) :=
  do@ i := m_lift (scan t (fun c => is_elem_start c || (c =? cLB)%N || (c =? cSTAR)%N) 0) in
  m_query_loop (S (length t)) lo t d i CNone s.

(** query.c:302-323 *)
Fixpoint m_insert_each (l : list nat) (s : uset) : qm uset :=
  match l with
  | [] => m_ret s
  | v :: l' => do@ '(_, s) := m_insert v s in m_insert_each l' s
  end.
Fixpoint m_parts_loop (fuel : nat) (lo : nat -> nat) (css : bytes) (d : dom)
         (from : nat) (set res : uset) : qm (qstatus * uset) :=
  if from <? length css then
    match fuel with
    | O => m_lift NoFuel
    | S f =>
        do@ j := m_lift (scan css (fun c => (c =? cCOMMA)%N) from) in
        do@ iter := m_lift (read_slice css from (j - from)) in
        do@ '(st, set) := m_query_results lo iter d set in
        match st with
        | QSuccess =>
            do@ res := m_insert_each (u_elems set) res in
            m_parts_loop f lo css d (from + length iter + 1) (u_reset set) res
        | _ => m_ret (st, res)
        end
    end
  else m_ret (QSuccess, res).

(** [flo_msi_newSet] (util/src/hash/msi/common.c:7-20, [buf == NULL] in every call of the
    query engine) for each exponent. *)
Local Open Scope Z_scope.
Fixpoint new_sets (l : list nat) (s : mem) : outcome mem :=
  match l with
  | [] => Ok s
  | e :: l =>
      if (31 <=? e)%nat then Longjmp ArenaFull                    (* :12-15: the same jump *)
      else let* '(_, s) := alloc1 2 2 (Z.of_nat (2 ^ e)) s in new_sets l s
  end.
(** [memcpy]: undefined if the two blocks overlap (counted as [OobWrite]). *)
Definition memcpy (q p n : Z) (m : memory) : outcome memory :=
  if (q + n <=? p) || (p + n <=? q) || (n =? 0) then Ok (wr m q (rd m p (Z.to_nat n))) else Undef OobWrite.

(** [flo_html_querySelectorAll]: query.c:289-336.  [scratch] is a copy of the arena
    [perm] (:294): what is allocated from it starts at the same address as the final
    result.  [sets]: the bytes of the sets when the last of them is in use (their contents
    as sets are in MsiModel; as bytes they are arbitrary here).  Result: the status, the
    buffer and the length of the array of results (an error leaves it alone: 0, 0). *)
Definition query_in (lo : nat -> nat) (sets : memory) (css : bytes) (d : dom) (s : mem)
  : outcome (qstatus * Z * nat * mem) :=
  let '(evs, r) := m_parts_loop (S (length css)) lo css d 0 (u_new start_exp) (u_new start_exp) in
  let* s1 := new_sets ([start_exp; start_exp] ++ evs) s in      (* :297-300, and the sets of :302-323 *)
  let* '(st, res) := r in
  let m1 : memory := fun a => if (a_beg (m_arena s) <=? a) && (a <? a_beg (m_arena s1)) then sets a else m_cont s1 a in
  match st with
  | QSuccess =>
      let* '(p, s2) := alloc1 2 2 (Z.of_nat (m_len res)) (mkMem (m_arena s1) m1) in   (* :326 *)
      let* l := u_to_array res in
      let m2 := wr (m_cont s2) p (concat (map le16 l)) in
      let* '(q, s3) := alloc1 2 2 (Z.of_nat (length l)) (mkMem (m_arena s) m2) in     (* :329-331 *)
      let* m3 := memcpy q p (2 * Z.of_nat (length l)) (m_cont s3) in
      Ok (st, q, length l, mkMem (m_arena s3) m3)
  | _ => Ok (st, 0, 0%nat, mkMem (m_arena s) m1)
  end.

(** [flo_html_querySelector]: query.c:338-366, called with a copy of the arena ([scratch] by
    value): the arena is as before.  The array of results (a pointer and a length, 16 bytes)
    comes first; its bytes are arbitrary here.  The walk through the document (:354-363)
    reads only: its result is that of QueryModel.  [None]: a status that is not success. *)
Definition target (lo : nat -> nat) (css : bytes) (d : dom) : outcome (option nat) :=
  let* '(st, r) := query_selector lo css d in
  Ok (match st with QSuccess => Some (match r with Some n => n | None => 0%nat end) | _ => None end).
Definition select_in (lo : nat -> nat) (sets : memory) (css : bytes) (d : dom) (s : mem)
  : outcome (option nat * mem) :=
  let* '(_, s0) := alloc1 16 8 1 s in                                             (* :341 *)
  let m0 : memory := fun a => if (a_beg (m_arena s) <=? a) && (a <? a_beg (m_arena s0)) then sets a else m_cont s0 a in
  let* '(_, _, _, s1) := query_in lo sets css d (mkMem (m_arena s0) m0) in        (* :343-344 *)
  let* r := target lo css d in
  Ok (r, mkMem (m_arena s) (m_cont s1)).

(** Edits and queries in any order, on one arena.  [EditAt]: an edit of the node that a
    query finds, [APPEND_USING_QUERYSELECTOR] (appendix.c:18-32, and the like in
    prependix.c:19-33 and replacement.c:20-34); no edit if the query is in error.  The
    arrays of results join the objects of the arena. *)
Inductive call : Type :=
| Edit (bl : bytes) (o : op)
| Ask (lo : nat -> nat) (sets : memory) (css : bytes)
| EditAt (lo : nat -> nat) (sets : memory) (css : bytes) (bl : bytes) (o : nat -> op).
Definition result_obj (q : Z) (n : nat) : list darr :=
  match n with O => [] | _ => [mkArr 2 2 (Some q) n n] end.
Fixpoint calls_in (cs : list call) (d : dom) (arrs : list darr) (s : mem)
  : outcome (dom * list darr * list (qstatus * Z * nat) * mem) :=
  match cs with
  | [] => Ok (d, arrs, [], s)
  | Edit bl o :: cs =>
      let* '(d, arrs, s) := edit_in bl o d arrs s in calls_in cs d arrs s
  | Ask lo sets css :: cs =>
      let* '(st, q, n, s) := query_in lo sets css d s in
      let* '(d, arrs, l, s) := calls_in cs d (arrs ++ result_obj q n) s in
      Ok (d, arrs, (st, q, n) :: l, s)
  | EditAt lo sets css bl o :: cs =>
      let* '(r, s) := select_in lo sets css d s in
      match r with
      | None => calls_in cs d arrs s
      | Some n => let* '(d, arrs, s) := edit_in bl (o n) d arrs s in calls_in cs d arrs s
      end
  end.
Definition talk_in (s : mem) (t : bytes) (cs : list call)
  : outcome (option (dom * list darr * list (qstatus * Z * nat) * mem)) :=
  let* '(r, arrs, s) := create_dom_in s t in
  match r with
  | None => Ok None
  | Some d => let* x := calls_in cs d arrs s in Ok (Some x)
  end.
