(** * Reading a DOM: src/dom/reading/reading.c.  Definitions only. *)
From Coq Require Import List NArith Arith Bool.
From Verif Require Import Base TrieModel DomModel.
Import ListNotations.
Local Open Scope nat_scope.

(** [flo_html_hasBoolProp]: src/dom/reading/reading.c:11-28 *)
Definition has_bool_prop (id : nat) (b : bytes) (d : dom) : outcome bool :=
  let* bid := map_contains b (bool_map d) in
  if bid =? 0 then Ok false
  else Ok (existsb (fun e => (fst e =? id) && (snd e =? bid)) (bprops d)).

(** [flo_html_hasPropKey]: src/dom/reading/reading.c:30-46 *)
Definition has_prop_key (id : nat) (k : bytes) (d : dom) : outcome bool :=
  let* kid := map_contains k (key_map d) in
  if kid =? 0 then Ok false
  else Ok (existsb (fun e => (p_node e =? id) && (p_key e =? kid)) (props d)).

(** [flo_html_hasPropValue]: src/dom/reading/reading.c:48-64 *)
Definition has_prop_value (id : nat) (v : bytes) (d : dom) : outcome bool :=
  let* vid := map_contains v (val_map d) in
  if vid =? 0 then Ok false
  else Ok (existsb (fun e => (p_node e =? id) && (p_val e =? vid)) (props d)).

(** [flo_html_hasProperty]: src/dom/reading/reading.c:66-90.  The second zero
    test checks the key id again (:78), as in the source. *)
Definition has_property (id : nat) (k v : bytes) (d : dom) : outcome bool :=
  let* kid := map_contains k (key_map d) in
  if kid =? 0 then Ok false
  else
    let* vid := map_contains v (val_map d) in
    if kid =? 0 then Ok false
    else Ok (existsb (fun e => (p_node e =? id) && (p_key e =? kid)
                               && (p_val e =? vid)) (props d)).

(** [flo_html_getTextContent]: src/dom/reading/reading.c:92-107 *)
Fixpoint text_content_loop (fuel : nat) (c scope : nat) (d : dom)
  : outcome (list bytes) :=
  let* c := traverse_node c scope d in
  if c =? 0 then Ok []
  else
    match fuel with
    | O => NoFuel
    | S f =>
        let* n := get_node d c in
        let* rest := text_content_loop f c scope d in
        match n_type n with
        | TText => let* s := node_text n in Ok (s :: rest)
        | _ => Ok rest
        end
    end.
Definition get_text_content (id : nat) (d : dom) : outcome (list bytes) :=
  text_content_loop (S (length (nodes d))) id id d.

(** [flo_html_getValue]: src/dom/reading/reading.c:109-125.
    The empty string when the key is unknown or absent. *)
Definition get_value (id : nat) (k : bytes) (d : dom) : outcome bytes :=
  let* kid := map_contains k (key_map d) in
  if kid =? 0 then Ok []
  else match find (fun e => (p_node e =? id) && (p_key e =? kid)) (props d) with
       | Some e => match nth_error (val_reg d) (p_val e) with
                   | Some v => Ok v
                   | None => Undef OobRead
                   end
       | None => Ok []
       end.
