(** * Reading files and the API calls that take a file name.  Definitions only. *)
From Coq Require Import List NArith ZArith Arith Bool.
From Verif Require Import Base DomModel ParserModel EditModel QueryModel MemModel.
Import ListNotations.
Local Open Scope Z_scope.

(** What the system gives for a path that [fopen] can open: the result of [ftell]
    after [fseek] to the end (negative for a stream that cannot seek) and the bytes
    that reading from the start delivers until the end of the file.  Read errors
    are files that deliver fewer bytes than [ftell] said. *)
Record file : Type := mkFile { f_tell : Z; f_data : bytes }.

(** [flo_FileStatus]: util/include/flo/util/file/file-status.h:8-14 *)
Inductive fstatus : Type := FSuccess | FCantOpen | FCantAllocate | FCantRead.

(** [fread(buf, 1, n, f)] with [n] converted to [size_t]: read.c:35.  It stores
    every byte the file has, up to [n]; the result is their number.  Storing outside
    of the arena is an out-of-bounds write. *)
Definition fread_count (n : Z) (f : file) : nat :=
  if n <? 0 then length (f_data f) else Nat.min (Z.to_nat n) (length (f_data f)).
Definition fread (p n : Z) (f : file) (s : mem) : outcome (Z * mem) :=
  let k := fread_count n f in
  if (0 <? Z.of_nat k) && (a_end (m_arena s) <? p + Z.of_nat k) then Undef OobWrite
  else Ok (Z.of_nat k, mkMem (m_arena s) (wr (m_cont s) p (firstn k (f_data f)))).

(** [flo_readFile]: util/src/file/read.c:9-48.  The file is [None] if [fopen]
    fails.  On success the address and length of the buffer. *)
Definition read_file (f : option file) (s : mem) : outcome (fstatus * option (Z * Z) * mem) :=
  match f with
  | None => Ok (FCantOpen, None, s)
  | Some f =>
      let n := f_tell f in
      let* '(p, a) := alloc true 1 1 n (m_arena s) in
      let s := mkMem a (m_cont s) in
      match p with
      | None => Ok (FCantAllocate, None, s)
      | Some p =>
          let* '(k, s) := fread p n f s in
          if k =? n then Ok (FSuccess, Some (p, n), s) else Ok (FCantRead, None, s)
      end
  end.

(** The bytes of a buffer. *)
Definition content (b : Z * Z) (s : mem) : bytes := rd (m_cont s) (fst b) (Z.to_nat (snd b)).

(** [flo_html_createDomFromFile]: src/dom/dom.c:8-21.  [None] = NULL.  The
    messages on stderr are not modelled. *)
Definition create_dom_from_file (f : option file) (s : mem) : outcome (option dom) :=
  let* '(st, b, s) := read_file f s in
  match st, b with
  | FSuccess, Some b => create_dom (content b s)
  | _, _ => Ok None
  end.

(** The common part of [flo_html_appendHTMLFromFileWithQuery] (appendix.c:58-75),
    [flo_html_prependHTMLFromFileWithQuery] (prependix.c:59-76) and
    [flo_html_replaceWithHTMLFromFileWithQuery] (replacement.c:59-76). *)
Definition from_file_with_query (edit : nat -> bytes -> dom -> outcome (nat * dom))
           (lo : nat -> nat) (css : bytes) (f : option file) (d : dom) (s : mem)
  : outcome (nat * dom) :=
  let* '(st, b, s) := read_file f s in
  match st, b with
  | FSuccess, Some b => with_query lo css (fun p => edit p (content b s)) d
  | _, _ => Ok (0%nat, d)
  end.
Definition append_html_from_file (below : option bytes) :=
  from_file_with_query (append_html below).
Definition prepend_html_from_file (below : option bytes) :=
  from_file_with_query (prepend_html below).
Definition replace_with_html_from_file (below : option bytes) :=
  from_file_with_query (replace_with_html below).
