(** * Comparing two DOMs: src/dom/comparison.c.  Definitions only.
    Here [printDifferences] is false; [flo_html_printFirstDifference] is in
    ReportModel.v. *)
From Coq Require Import List NArith Arith Bool.
From Verif Require Import Base TrieModel DomModel MsiModel.
Import ListNotations.
Local Open Scope nat_scope.

(** [flo_html_ComparisonStatus]: include/flo/html-parser/comparison-status.h *)
Inductive cstatus : Type := CSuccess | CMemory | CNodeType | CSizes | CContent.
(** [flo_html_ComparisonResult]: status, nodeID1, nodeID2. *)
Definition cresult := (cstatus * nat * nat)%type.

(** [convertHashComparisonToComparison]: comparison.c:14-33.  It is only called
    with a failure. *)
Definition convert (h : hcmp) : cstatus :=
  match h with
  | HSizes => CSizes
  | HContent => CContent
  | HSuccess => CMemory
  end.

(** [flo_msi_html_stringInsert]: comparison.c:55-65 *)
Definition s_insert_lim (v : bytes) (s : sset) : outcome sset :=
  if 2 ^ m_exp s / 2 <=? m_len s then Longjmp SetFull
  else let* '(_, s) := s_insert v s in Ok s.

(** [registry.buf[id]] *)
Definition reg_at (r : list bytes) (i : nat) : outcome bytes :=
  match nth_error r i with Some s => Ok s | None => Undef OobRead end.

(** [fillPropsSet]: comparison.c:67-82 *)
Fixpoint fill_props (l : list prop) (id : nat) (d : dom) (ks vs : sset)
  : outcome (sset * sset) :=
  match l with
  | [] => Ok (ks, vs)
  | e :: l' =>
      if p_node e =? id then
        let* k := reg_at (key_reg d) (p_key e) in
        let* ks := s_insert_lim k ks in
        let* v := reg_at (val_reg d) (p_val e) in
        let* vs := s_insert_lim v vs in
        fill_props l' id d ks vs
      else fill_props l' id d ks vs
  end.

(** [fillBoolPropsSet]: comparison.c:84-93 *)
Fixpoint fill_bools (l : list (nat * nat)) (id : nat) (d : dom) (s : sset)
  : outcome sset :=
  match l with
  | [] => Ok s
  | e :: l' =>
      if fst e =? id then
        let* b := reg_at (bool_reg d) (snd e) in
        let* s := s_insert_lim b s in
        fill_bools l' id d s
      else fill_bools l' id d s
  end.

(** The exponent of the sets: comparison.c:104-111, 149-153 *)
Definition cmp_exp : nat := 7.

Definition set_status (a b : sset) : outcome cstatus :=
  let* h := s_equals a b in
  match h with HSuccess => Ok CSuccess | _ => Ok (convert h) end.

(** [compareProps]: comparison.c:98-145 *)
Definition compare_props (n1 : nat) (d1 : dom) (n2 : nat) (d2 : dom) : outcome cstatus :=
  let* '(k1, v1) := fill_props (props d1) n1 d1 (s_new cmp_exp) (s_new cmp_exp) in
  let* '(k2, v2) := fill_props (props d2) n2 d2 (s_new cmp_exp) (s_new cmp_exp) in
  let* st := set_status k1 k2 in
  match st with
  | CSuccess => set_status v1 v2
  | _ => Ok st
  end.

(** [compareBoolProps]: comparison.c:147-174 *)
Definition compare_bools (n1 : nat) (d1 : dom) (n2 : nat) (d2 : dom) : outcome cstatus :=
  let* b1 := fill_bools (bprops d1) n1 d1 (s_new cmp_exp) in
  let* b2 := fill_bools (bprops d2) n2 d2 (s_new cmp_exp) in
  set_status b1 b2.

Definition ntype_eqb (a b : ntype) : bool :=
  match a, b with
  | TRoot, TRoot | TDocument, TDocument | TText, TText | TRemoved, TRemoved
  | TError, TError => true
  | _, _ => false
  end.

(** [tagRegistry.buf[node.tagID]] *)
Definition reg_of (n : node) (d : dom) : outcome tagreg :=
  match n_pay n with
  | PTag t => match nth_error (tag_reg d) t with Some r => Ok r | None => Undef OobRead end
  | _ => Undef OobRead
  end.

(** [compareTags]: comparison.c:176-266 *)
Definition compare_tags (n1 : node) (d1 : dom) (n2 : node) (d2 : dom) : outcome cstatus :=
  if negb (ntype_eqb (n_type n1) (n_type n2)) then Ok CNodeType
  else
    match n_type n1 with
    | TText =>
        let* t1 := node_text n1 in
        let* t2 := node_text n2 in
        Ok (if beq t1 t2 then CSuccess else CContent)
    | TDocument =>
        let* r1 := reg_of n1 d1 in
        let* r2 := reg_of n2 d2 in
        if negb (eqb (t_paired r1) (t_paired r2)) then Ok CNodeType
        else if negb (beq (t_name r1) (t_name r2)) then Ok CContent
        else Ok CSuccess
    | TRoot => Ok CSuccess
    | _ => Ok CNodeType
    end.

(** [compareNode]: comparison.c:268-319.  [compare_children] is its loop over
    the children (:299-309) with the size test behind it (:311-314; of the two
    numbers at least one is 0, so the exclusive or is 0 iff both are).  One fuel
    bounds both. *)
Fixpoint compare_node (fuel : nat) (n1 : nat) (d1 : dom) (n2 : nat) (d2 : dom)
  : outcome cresult :=
  match fuel with
  | O => NoFuel
  | S f =>
      let* x1 := get_node d1 n1 in
      let* x2 := get_node d2 n2 in
      let* st := compare_tags x1 d1 x2 d2 in
      match st with
      | CSuccess =>
          let* st :=
            (match n_type x1 with
             | TDocument =>
                 let* st := compare_bools (n_id x1) d1 (n_id x2) d2 in
                 match st with
                 | CSuccess => compare_props (n_id x1) d1 (n_id x2) d2
                 | _ => Ok st
                 end
             | _ => Ok CSuccess
             end) in
          match st with
          | CSuccess =>
              compare_children f n1 n2 (get_first_child n1 d1) d1 (get_first_child n2 d2) d2
          | _ => Ok (st, n1, n2)
          end
      | _ => Ok (st, n1, n2)
      end
  end
with compare_children (fuel : nat) (n1 n2 : nat) (c1 : nat) (d1 : dom) (c2 : nat) (d2 : dom)
  : outcome cresult :=
  match fuel with
  | O => NoFuel
  | S f =>
      if negb (c1 =? 0) && negb (c2 =? 0) then
        let* r := compare_node f c1 d1 c2 d2 in
        match r with
        | (CSuccess, _, _) =>
            compare_children f n1 n2 (get_next c1 d1) d1 (get_next c2 d2) d2
        | _ => Ok r
        end
      else if negb (c1 =? c2) then Ok (CSizes, n1, n2)
      else Ok (CSuccess, n1, n2)
  end.

(** [flo_html_equals]: comparison.c:321-349.  [r] is the last result (its value
    before the first iteration is not used). *)
Fixpoint equals_loop (fuel : nat) (c1 : nat) (d1 : dom) (c2 : nat) (d2 : dom) (r : cresult)
  : outcome cresult :=
  match fuel with
  | O => NoFuel
  | S f =>
      if negb (c1 =? 0) && negb (c2 =? 0) then
        let* r := compare_node (2 * length (nodes d1) + 2) c1 d1 c2 d2 in
        match r with
        | (CSuccess, _, _) => equals_loop f (get_next c1 d1) d1 (get_next c2 d2) d2 r
        | _ => Ok r
        end
      else if negb (c1 =? c2) then Ok (CSizes, c1, c2)
      else Ok (CSuccess, snd (fst r), snd r)
  end.
Definition dom_equals (d1 d2 : dom) : outcome cresult :=
  equals_loop (S (S (length (nexts d1)))) 1 d1 1 d2 (CSuccess, 0, 0).
