(** * Documents whose printed form can be parsed back.  Definitions only. *)
From Coq Require Import String List NArith Arith Bool.
From Verif Require Import Base TrieModel DomModel ParserModel DomSpec ApiSpec CompareSpec PrintModel PrintSpec
  GrammarSpec.
Import ListNotations.
Local Open Scope nat_scope.

(** [pr]: which tag names are registered as paired. *)
Definition agrees (d : dom) (pr : bytes -> bool) : Prop :=
  forall x n b, tag_name d x = Some n -> paired d x = Some b -> b = pr n.

(** Texts: words separated by single spaces, without '<'. *)
Definition text_printable (s : bytes) : Prop := text_trees s = [Txt s] /\ ~ In cLT s.
(** Keys can be written without quotes, values between double quotes. *)
Definition attrs_printable (bs : list bytes) (ps : list (bytes * bytes)) : Prop :=
  (forall b, In b bs -> key_ok (Bare b)) /\
  (forall k v, In (k, v) ps -> key_ok (Bare k) /\ ~ In cDQ v).
Definition is_txt (t : tree) : Prop := match t with Txt _ => True | _ => False end.
(** No two neighbouring texts. *)
Definition texts_apart (ts : list tree) : Prop :=
  forall l1 a b l2, ts = l1 ++ a :: b :: l2 -> ~ (is_txt a /\ is_txt b).

Inductive printable (pr : bytes -> bool) : tree -> Prop :=
| pr_text s : text_printable s -> printable pr (Txt s)
| pr_pair n bs ps ts : pr n = true -> name_ok n -> is_void n = false -> attrs_printable bs ps ->
    (forall t, In t ts -> printable pr t) -> texts_apart ts -> printable pr (Elem n bs ps ts)
| pr_single n bs ps : pr n = false -> name_ok n \/ decl_ok n -> attrs_printable bs ps ->
    (n <> lit "!DOCTYPE" -> bs = [] \/ ps <> []) ->       (* not <input required/> *)
    printable pr (Elem n bs ps []).

(** Nesting depth of the paired elements. *)
Fixpoint tree_depth (pr : bytes -> bool) (t : tree) : nat :=
  match t with
  | Txt _ => 0
  | Elem n _ _ ts => if pr n then S (fold_right (fun t m => Nat.max (tree_depth pr t) m) 0 ts) else 0
  end.

(** [ts]: what the document shows below the root. *)
Definition printable_doc (pr : bytes -> bool) (ts : list tree) : Prop :=
  (forall t, In t ts -> printable pr t /\ tree_depth pr t <= 255) /\ texts_apart ts.
