(** * [flo_html_writeHTMLToFile] with the files of the system and its scratch
    arena.  Definitions only. *)
From Coq Require Import List NArith ZArith Arith Bool.
From Verif Require Import Base DomModel MemModel LogModel PrintModel PathModel FileModel.
Import ListNotations.
Local Open Scope nat_scope.

(** The files: contents by name, and the arguments of [mkdir] so far. *)
Record fsys : Type := mkFs { fs_file : bytes -> option bytes; fs_made : list bytes }.
Definition store (name data : bytes) (fs : fsys) : fsys :=
  mkFs (fun n => if list_eq_dec N.eq_dec n name then Some data else fs_file fs n) (fs_made fs).

(** The answer of [fopen(name, "wbe")], given the [mkdir] calls so far. *)
Definition opens := bytes -> list bytes -> bool.

(** The way a call ends: it returns a status, or an allocation in the scratch arena
    fails and the call is left by a jump. *)
Inductive save_end : Type := Returned (st : fstatus) | Jumped.

(** [flo_createPath]: util/src/file/path.c:8-29, with its allocation (:13), which is
    made in a copy of the arena.  [None] = the jump. *)
Definition create_path_in (path : bytes) (a : arena) : outcome (option (list bytes)) :=
  match first_occurrence_from path c_slash 0 with
  | None => Ok (Some [])
  | Some _ =>
      match alloc false 1 1 (Z.of_nat (length path) + 1) a with
      | Longjmp _ => Ok None
      | Ok _ => let* l := create_path path in Ok (Some l)
      | Undef u => Undef u
      | NoFuel => NoFuel
      end
  end.

(** [flo_html_writeHTMLToFile]: src/dom/writing.c:93-123.  [path] are the bytes of
    [filePath], [after] those that follow them in memory: [fopen] is given the
    pointer only (:96).  Opening truncates the file; then the buffer of 8192 bytes is
    allocated (:106).  The message on stderr is not modelled. *)
Definition save (fuel : nat) (can : opens) (k : kernel) (d : dom) (path after : bytes)
           (scratch : arena) (fs : fsys) : outcome (save_end * fsys) :=
  let* dirs := create_path_in path scratch in                          (* :95 *)
  match dirs with
  | None => Ok (Jumped, fs)
  | Some dirs =>
      let fs := mkFs (fs_file fs) (fs_made fs ++ dirs) in
      let* name := cstr_text (path ++ after) in                        (* :96 *)
      if can name (fs_made fs) then
        let fs := store name [] fs in
        match alloc false 1 1 (Z.of_nat file_buffer) scratch with      (* :105-106 *)
        | Longjmp _ => Ok (Jumped, fs)
        | Ok _ =>
            let* w := write_html fuel k d in                           (* :107-118 *)
            Ok (Returned FSuccess, store name (w_out w) fs)            (* :120-122 *)
        | Undef u => Undef u
        | NoFuel => NoFuel
        end
      else Ok (Returned FCantOpen, fs)                                 (* :97-103 *)
  end.
