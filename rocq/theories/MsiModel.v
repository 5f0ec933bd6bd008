(** * Open-addressing hash sets ("mask, step, index").  Definitions only. *)
From Coq Require Import List NArith Arith Bool.
From Verif Require Import Base TrieModel.
Import ListNotations.
Local Open Scope nat_scope.

(** [FLO_MSI_SET(T)]: util/include/flo/util/hash/msi/common.h:44-49. *)
Record msi (A : Type) : Type := mkMsi { m_buf : list A; m_exp : nat; m_len : nat }.
Arguments mkMsi {A}.
Arguments m_buf {A}.
Arguments m_exp {A}.
Arguments m_len {A}.

Definition two32 : N := 2 ^ 32.

(** [flo_indexLookup]: util/include/flo/util/hash/msi/common.h:63-68.
    [uint32_t] arithmetic; [idx] is given modulo 2^32 (the C parameter is an
    [int32_t], the addition converts it to [uint32_t]).  The shifts are defined
    for 1 <= exp <= 31. *)
Definition msi_mask (exp : nat) : N := (2 ^ N.of_nat exp - 1)%N.
Definition msi_step (hash : N) (exp : nat) : N :=
  N.lor (N.shiftr hash (64 - N.of_nat exp) mod two32) 1.
Definition index_lookup (hash : N) (exp : nat) (idx : N) : N :=
  N.land ((idx + msi_step hash exp) mod two32) (msi_mask exp).

Section Msi.
  Context {A : Type} (zero : A) (is_zero : A -> bool) (eqb : A -> A -> bool).

  (** [flo_msi_newSet]: util/src/hash/msi/common.c; a zeroed buffer. *)
  Definition msi_new (exp : nat) : msi A := mkMsi (repeat zero (2 ^ exp)) exp 0.

  Definition slot (s : msi A) (i : N) : outcome A :=
    match nth_error (m_buf s) (N.to_nat i) with
    | Some x => Ok x
    | None => Undef OobRead
    end.

  (** The probe loop shared by insertion and membership: returns the slot where
      it stops and whether that slot is empty. *)
  Fixpoint probe (fuel : nat) (v : A) (hash : N) (s : msi A) (i : N)
    : outcome (N * bool) :=
    match fuel with
    | O => NoFuel
    | S f =>
        let i := index_lookup hash (m_exp s) i in
        let* x := slot s i in
        if is_zero x then Ok (i, true)
        else if eqb x v then Ok (i, false)
        else probe f v hash s i
    end.

  (** [flo_msi_insertUint16] (util/src/hash/msi/uint16-set.c:3-14) and
      [flo_msi_insertString] (util/src/hash/msi/string-set.c:5-17).  The C loop
      has no bound; once all slots have been seen it repeats itself. *)
  Definition msi_insert (v : A) (hash : N) (s : msi A) : outcome (bool * msi A) :=
    let* '(i, empty) := probe (length (m_buf s)) v hash s (hash mod two32) in
    if (empty : bool) then
      Ok (true, mkMsi (upd (m_buf s) (N.to_nat i) v) (m_exp s) (S (m_len s)))
    else Ok (false, s).

  (** [flo_msi_containsUint16] (uint16-set.c:16-26) and
      [flo_msi_containsString] (string-set.c:19-29). *)
  Definition msi_contains (v : A) (hash : N) (s : msi A) : outcome bool :=
    let* '(i, empty) := probe (length (m_buf s)) v hash s (hash mod two32) in
    Ok (negb empty).

  (** [FLO_FOR_EACH_MSI_...]: uint16-set.h:23-25, string-set.h:35-37: the values
      in buffer order. *)
  Definition msi_elems (s : msi A) : list A :=
    filter (fun x => negb (is_zero x)) (m_buf s).
End Msi.

(** ** The uint16 set used by queries *)

Definition u16 (x : N) : N := x mod 65536.
(** [flo_hash16_xm3]: util/include/flo/util/hash/hashes.h:41-51.
    [x *= c] is computed in [unsigned int] and truncated. *)
Definition hash16 (x : N) : N :=
  let x := N.lxor x (N.shiftr x 7) in
  let x := u16 (x * 10643) in
  let x := N.lxor x (N.shiftr x 5) in
  let x := u16 (x * 59511) in
  let x := N.lxor x (N.shiftr x 9) in
  let x := u16 (x * 565) in
  N.lxor x (N.shiftr x 10).

Definition uset := msi nat.
Definition u_hash (v : nat) : N := hash16 (N.of_nat v).
Definition u_new (exp : nat) : uset := msi_new 0 exp.
Definition u_insert_raw (v : nat) (s : uset) : outcome (bool * uset) :=
  msi_insert (Nat.eqb 0) Nat.eqb v (u_hash v) s.
Definition u_contains (v : nat) (s : uset) : outcome bool :=
  msi_contains (Nat.eqb 0) Nat.eqb v (u_hash v) s.
Definition u_elems (s : uset) : list nat := msi_elems (Nat.eqb 0) s.

(** [FLO_MSI_HTML_STARTING_EXPONENT]: include/.../query/msi-uint16.h:8 *)
Definition start_exp : nat := 7.

(** [rehashIndex]: src/dom/query/msi-uint16.c:5-13 *)
Fixpoint u_insert_all (l : list nat) (s : uset) : outcome uset :=
  match l with
  | [] => Ok s
  | v :: l' => let* '(_, s) := u_insert_raw v s in u_insert_all l' s
  end.
Definition u_rehash (old new : uset) : outcome uset :=
  u_insert_all (u_elems old) new.

(** [flo_msi_html_uint16Insert]: src/dom/query/msi-uint16.c:15-25 *)
Definition u_insert (v : nat) (s : uset) : outcome (bool * uset) :=
  let* s := (if 2 ^ m_exp s / 2 <=? m_len s then
               u_rehash s (u_new (S (m_exp s)))
             else Ok s) in
  u_insert_raw v s.

(** [flo_msi_html_resetUint16]: src/dom/query/msi-uint16.c:27-32 *)
Definition u_reset (s : uset) : uset := u_new (m_exp s).

(** [flo_msi_html_copyUint16]: src/dom/query/msi-uint16.c:46-53 *)
Definition u_copy (s : uset) : uset := s.

(** [flo_msi_html_toArray]: src/dom/query/msi-uint16.c:34-44: an array of
    [len] zeroed entries whose beginning is overwritten with the values.
    More values than [len] would be written past its end. *)
Definition u_to_array (s : uset) : outcome (list nat) :=
  let l := u_elems s in
  if length l <=? m_len s then Ok (l ++ repeat 0 (m_len s - length l))
  else Undef OobWrite.

(** ** The string set used by the comparison *)
Definition sset := msi bytes.
Definition s_zero (s : bytes) : bool := match s with [] => true | _ => false end.
Definition s_new (exp : nat) : sset := msi_new [] exp.
Definition s_insert (v : bytes) (s : sset) : outcome (bool * sset) :=
  msi_insert s_zero beq v (djb2 v) s.
Definition s_contains (v : bytes) (s : sset) : outcome bool :=
  msi_contains s_zero beq v (djb2 v) s.
Definition s_elems (s : sset) : list bytes := msi_elems s_zero s.

(** Result of [flo_msi_equalsStringSet]:
    util/include/flo/util/hash/hash-comparison-status.h. *)
Inductive hcmp : Type := HSuccess | HSizes | HContent.

Fixpoint s_all_in (l : list bytes) (s : sset) : outcome bool :=
  match l with
  | [] => Ok true
  | v :: l' => let* b := s_contains v s in
               if (b : bool) then s_all_in l' s else Ok false
  end.

(** [flo_msi_equalsStringSet]: util/src/hash/msi/string-set.c:31-54 *)
Definition s_equals (a b : sset) : outcome hcmp :=
  if negb (m_len a =? m_len b) then Ok HSizes
  else
    let* r := s_all_in (s_elems a) b in
    if negb r then Ok HContent
    else
      let* r := s_all_in (s_elems b) a in
      if negb r then Ok HContent else Ok HSuccess.
