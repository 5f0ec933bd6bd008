(** * What the memory of a parsed document should hold. *)
From Coq Require Import List NArith ZArith Arith Bool.
From Verif Require Import Base DomModel ParserModel EditModel ApiSpec SizeSpec MemModel.
Import ListNotations.
Local Open Scope nat_scope.

(** The number stored in two bytes from offset [o] on. *)
Definition u16 (b : bytes) (o : nat) : nat := N.to_nat (nth o b 0 + 256 * nth (S o) b 0)%N.

(** Array [i] has one element per entry of [l], and the two numbers of each element are
    those of the entry. *)
Definition pairs_at (s : mem) (arrs : list darr) (i : nat) (l : list (nat * nat)) : Prop :=
  exists a, nth_error arrs i = Some a /\ d_len a = length l /\
    forall k e, nth_error l k = Some e ->
      exists b, get a k s = Ok b /\ length b = 4 /\ u16 b 0 = fst e /\ u16 b 2 = snd e.
Definition props_at (s : mem) (arrs : list darr) (i : nat) (l : list prop) : Prop :=
  exists a, nth_error arrs i = Some a /\ d_len a = length l /\
    forall k e, nth_error l k = Some e ->
      exists b, get a k s = Ok b /\ length b = 6 /\ u16 b 0 = p_node e /\ u16 b 2 = p_key e /\ u16 b 4 = p_val e.
(** Ids and kinds of the nodes. *)
Definition nodes_at (s : mem) (arrs : list darr) (i : nat) (l : list node) : Prop :=
  exists a, nth_error arrs i = Some a /\ d_len a = length l /\
    forall k n, nth_error l k = Some n ->
      exists b, get a k s = Ok b /\ length b = 24 /\ u16 b 0 = n_id n /\
        u16 b 4 = match n_type n with TRoot => 0 | TDocument => 1 | TText => 2 | TRemoved => 3 | TError => 4 end.
Definition count_at (arrs : list darr) (i n : nat) : Prop :=
  exists a, nth_error arrs i = Some a /\ d_len a = n.

(** The texts of a document in the order of its nodes, and the buffers of bytes among
    the objects of a program. *)
Definition all_texts (d : dom) : list bytes :=
  flat_map (fun n => match n_pay n with PText s => [s] | _ => [] end) (nodes d).
Definition text_buffers (arrs : list darr) : list darr := filter (fun a => d_size a =? 1) arrs.
Definition text_at (s : mem) (a : darr) (txt : bytes) : Prop :=
  d_len a = length txt /\ forall k c, nth_error txt k = Some c -> get a k s = Ok [c].

(** ** Edits *)

(** Every text of the document is the contents of one of the byte buffers. *)
Definition texts_kept (s : mem) (arrs : list darr) (d : dom) : Prop :=
  forall txt, In txt (all_texts d) -> exists a, In a (text_buffers arrs) /\ text_at s a txt.

(** The memory holds the document. *)
Definition holds (s : mem) (arrs : list darr) (d : dom) : Prop :=
  nodes_at s arrs 1 (nodes d) /\
  pairs_at s arrs 2 (firsts d) /\ pairs_at s arrs 3 (pchilds d) /\ pairs_at s arrs 4 (nexts d) /\
  pairs_at s arrs 5 (bprops d) /\ props_at s arrs 6 (props d) /\
  count_at arrs 7 (length (tag_reg d)) /\ count_at arrs 8 (length (bool_reg d)) /\
  count_at arrs 9 (length (key_reg d)) /\ count_at arrs 10 (length (val_reg d)) /\
  texts_kept s arrs d.

(** Edits one after the other (first component: see [run]), and the same when every one
    of them is valid. *)
Fixpoint runs (ops : list (bytes * op)) (d : dom) : outcome dom :=
  match ops with
  | [] => Ok d
  | (bl, o) :: ops => let* d := run bl o d in runs ops d
  end.
Fixpoint all_valid (ops : list (bytes * op)) (d : dom) : Prop :=
  match ops with
  | [] => True
  | (bl, o) :: ops => valid d bl o /\ forall d1, run bl o d = Ok d1 -> all_valid ops d1
  end.

(** Bytes of text an edit may write into new buffers when the document holds [t] bytes
    of text: what it is given, and the texts it merges. *)
Definition op_text_bytes (o : op) (t : nat) : nat :=
  match o with
  | AppendText _ s | PrependText _ s | ReplaceText _ s | AppendHtml _ s | PrependHtml _ s =>
      3 * length s + 2 * t + 1
  | ReplaceHtml _ h => 7 * length h + 6 * t + 4
  | SetText _ s => length s
  | AddText _ s _ => t + 1 + length s
  | _ => 0
  end.
Fixpoint text_bytes (ops : list (bytes * op)) (d : dom) : nat :=
  match ops with
  | [] => 0
  | (bl, o) :: ops =>
      op_text_bytes o (texts d) + match run bl o d with Ok d1 => text_bytes ops d1 | _ => 0 end
  end.
(** Bytes of arena for the tables of a document and its four maps. *)
Definition table_bytes (d : dom) : nat :=
  1230 + 110 * length (nodes d) +
  30 * (length (firsts d) + length (pchilds d) + length (nexts d) + length (bprops d)) + 38 * length (props d) +
  348 * length (tag_reg d) + 316 * (length (bool_reg d) + length (key_reg d) + length (val_reg d)).
