(** * Properties of parsing and of the string tables (C01-C03, C05, C07-C09,
    C11-C14).  Statements with one-line proofs, non-vacuity examples and
    refutations. *)
From Coq Require Import String List NArith Arith Bool Lia.
From Verif Require Import Base TrieModel DomModel ParserModel EditModel ReadModel DomSpec ApiSpec
  Lemmas TrieProofs ReadUser Examples.
Import ListNotations.
Local Open Scope nat_scope.

(** ** C01: memory safety.  The only undefined behaviour [createDom] can have
    on any input is a string of length -1, and only if the last byte of the
    input is a quote. *)
Theorem C01_parse_memory_safe : forall t u,
  create_dom t = Undef u -> u = NegLen /\ ends_quote t.
Proof. exact u_create_ub. Qed.
Print Assumptions C01_parse_memory_safe.
Theorem C01_no_undefined_behaviour : forall t,
  ~ ends_quote t -> ends_in (create_dom t) (fun _ => True).
Proof.
  intros t Q. pose proof (create_safe t) as H.
  destruct (create_dom t) as [|u| |]; simpl in *; auto. destruct u; auto.
Qed.
Print Assumptions C01_no_undefined_behaviour.
Example C01_hyp : ~ ends_quote (B src1).
Proof.
  apply no_quote; vm_compute; discriminate.
Qed.
(** The unrestricted claim is false. *)
Theorem C01_refuted : ~ (forall t, ends_in (create_dom t) (fun _ => True)).
Proof. intros H. specialize (H (B "<a """)). vm_compute in H. exact H. Qed.
Print Assumptions C01_refuted.

(** ** C02: termination on every input, and a sufficient condition for
    returning normally. *)
Theorem C02_parse_terminates : forall t, create_dom t <> NoFuel.
Proof. exact u_create_terminates. Qed.
Print Assumptions C02_parse_terminates.
Theorem C02_parse_returns : forall t,
  (N.of_nat (length t) <= 65533)%N -> ~ ends_quote t ->
  exists r, create_dom t = Ok r.
Proof. exact u_create_total. Qed.
Print Assumptions C02_parse_returns.
Example C02_hyp : (N.of_nat (length (B src1)) <= 65533)%N /\ ~ ends_quote (B src1) /\
  create_dom (B src1) = Ok (Some ex1).
Proof. split; [vm_compute; discriminate|]. split; [exact C01_hyp|exact ex1_created]. Qed.

(** ** C03: the DOM is a tree; ids are in document order; [traverseDom] visits
    2, 3, ..., n-1 and stops. *)
Theorem C03_parsed_tree_in_document_order : forall t d,
  create_dom t = Ok (Some d) ->
  preorder d 1 (seq 1 (length (nodes d) - 1)) /\
  dom_walk d 1 (seq 2 (length (nodes d) - 2)).
Proof. exact u_create_tree. Qed.
Print Assumptions C03_parsed_tree_in_document_order.
Example C03_ex : create_dom (B src1) = Ok (Some ex1) /\
  preorder ex1 1 [1; 2; 3; 4; 5; 6; 7; 8; 9; 10; 11].
Proof. split; [exact ex1_created|pre_ord]. Qed.

(** ** C05: text is normalised. *)
Theorem C05_text_normalised : forall t d n s,
  create_dom t = Ok (Some d) -> text_of d n = Some s ->
  (forall c, In c s -> c <> cTAB /\ c <> cNL /\ c <> cCR) /\
  (forall a b, s <> a ++ [cSP; cSP] ++ b) /\
  (forall a, s <> a ++ [cSP]).
Proof.
  intros t d n s E H. pose proof (u_create_text t d n s E H) as P. split; [|split].
  - intros c Hc. apply In_nth_error in Hc as [m Hm]. destruct (P m c Hm) as [F _].
    unfold is_fmt in F. repeat split; intros ->; discriminate.
  - intros a b ->. destruct (P (length a) cSP) as [_ Q].
    { rewrite nth_error_app2, Nat.sub_diag by lia. reflexivity. }
    destruct (Q eq_refl) as (c' & Hc & N). rewrite nth_error_app2 in Hc by lia.
    replace (S (length a) - length a) with 1 in Hc by lia. simpl in Hc. injection Hc as <-. now apply N.
  - intros a ->. destruct (P (length a) cSP) as [_ Q].
    { rewrite nth_error_app2, Nat.sub_diag by lia. reflexivity. }
    destruct (Q eq_refl) as (c' & Hc & N). rewrite nth_error_app2 in Hc by lia.
    replace (S (length a) - length a) with 1 in Hc by lia. simpl in Hc. discriminate.
Qed.
Print Assumptions C05_text_normalised.
Example C05_ex : text_of ex1 6 = Some (B "one") /\ text_of ex1 9 = Some (B "three").
Proof. split; reflexivity. Qed.

(** ** C07: ids.  In every reachable DOM the id of a node is its index and there
    are at most 65535 nodes; one more makes [createNode] jump. *)
Theorem C07_node_ids : forall d, reachable d ->
  (forall i x, nth_error (nodes d) i = Some x -> n_id x = i) /\
  (N.of_nat (length (nodes d)) <= 65535)%N.
Proof. intros d R. split; [apply u_ids; exact R|apply (u_limits d R)]. Qed.
Print Assumptions C07_node_ids.
Theorem C07_limit_jumps : forall d, (N.of_nat (length (nodes d)) = 65535)%N ->
  (forall p e, append_document_node p e d = Longjmp NodeLimit) /\
  (forall p s, append_text_node p s d = Longjmp NodeLimit) /\
  (forall p e, prepend_document_node p e d = Longjmp NodeLimit) /\
  (forall p s, prepend_text_node p s d = Longjmp NodeLimit) /\
  (forall p e, replace_with_document_node p e d = Longjmp NodeLimit) /\
  (forall p s, replace_with_text_node p s d = Longjmp NodeLimit).
Proof.
  intros d H. assert (C : forall ty, create_node ty d = Longjmp NodeLimit)
    by (intros; apply u_node_limit; lia).
  repeat split; intros;
    unfold append_document_node, append_text_node, prepend_document_node, prepend_text_node,
      replace_with_document_node, replace_with_text_node, parse_document_element, parse_text_element;
    rewrite C; reflexivity.
Qed.
Print Assumptions C07_limit_jumps.
Example C07_ex : length (nodes ex1) = 12 /\ reachable ex1.
Proof. split; [reflexivity|exact ex1_reachable]. Qed.
Example C07_limit_ex : exists d, (N.of_nat (length (nodes d)) = 65535)%N.
Proof.
  exists (set_nodes empty_dom (repeat (mkNode 0 TError (PTag 0)) (N.to_nat 65535))).
  cbn [nodes set_nodes]. rewrite repeat_length, N2Nat.id. reflexivity.
Qed.

(** ** C08: void elements and declarations (and text nodes) are leaves. *)
Theorem C08_void_elements_are_leaves : forall t d n tag,
  create_dom t = Ok (Some d) -> tag_name d n = Some tag ->
  In tag void_tags \/ hd_error tag = Some cBANG ->
  children d n [].
Proof.
  intros t d n tag E H L. apply (u_create_leaf t d n tag E H). destruct L as [L|L]; [left|now right].
  unfold is_void. apply existsb_exists. exists tag. split; [exact L|apply beq_refl].
Qed.
Print Assumptions C08_void_elements_are_leaves.
Theorem C08_text_nodes_are_leaves : forall t d n s,
  create_dom t = Ok (Some d) -> text_of d n = Some s -> children d n [].
Proof. exact u_create_text_leaf. Qed.
Print Assumptions C08_text_nodes_are_leaves.
Example C08_ex : tag_name ex1 2 = Some (B "!DOCTYPE") /\ tag_name ex1 10 = Some (B "br") /\
  In (B "br") void_tags /\ hd_error (B "!DOCTYPE") = Some cBANG /\
  void_tags = map B ["area"; "base"; "br"; "col"; "embed"; "hr"; "img"; "input"; "link";
                     "meta"; "source"; "track"; "wbr"]%string.
Proof. repeat split; try reflexivity. vm_compute. tauto. Qed.

(** ** C09 (false): the content of a script is opaque, even if it contains no
    slash at all. *)
Definition ex_script : dom := Eval vm_compute in the_dom "<script>a<b>c</script>".
Lemma ex_script_created : create_dom (B "<script>" ++ B "a<b>c" ++ B "</script>") = Ok (Some ex_script).
Proof. vm_compute. reflexivity. Qed.
Theorem C09_script_opaque_refuted :
  ~ (forall c d, c <> [] -> ~ In cSLASH c ->
       create_dom (B "<script>" ++ c ++ B "</script>") = Ok (Some d) ->
       exists x, children d 2 [x] /\ exists s, text_of d x = Some s).
Proof.
  intros H. destruct (H (B "a<b>c") ex_script) as (x & K & _).
  - discriminate.
  - vm_compute. intuition discriminate.
  - exact ex_script_created.
  - assert (K' : children ex_script 2 [3; 4]) by kids.
    pose proof (sibs_fun _ _ _ K _ K'). discriminate.
Qed.
Print Assumptions C09_script_opaque_refuted.

(** More generally, text inside a script or a style element is read exactly like text
    inside any other element: the name of the containing element has no effect. *)
Lemma comment_no_close t i tag : is_comment t i = Ok true -> is_close_tag t i tag = Ok false.
Proof.
  unfold is_comment, is_close_tag. destruct (Nat.ltb_spec (i + 4) (length t)) as [L|]; [|discriminate].
  unfold read_slice. rewrite (proj2 (Nat.leb_le (i + 1 + 3) (length t))), (proj2 (Nat.leb_le (i + 1 + 1) (length t))) by lia.
  cbn [bind]. destruct (i + length tag + 2 <? length t); [|reflexivity].
  destruct (skipn (i + 1) t) as [|c r]; cbn [firstn]; [intros X; discriminate X|].
  intros X. injection X as X. cbn [beq] in *. change s_comment with [33; 45; 45]%N in X. cbn [beq] in X.
  apply andb_prop in X. destruct X as [X _]. change (N.eqb 33 c = true) in X. apply N.eqb_eq in X. subst c. reflexivity.
Qed.
Lemma text_loop_any t special tag : forall fuel raw i,
  text_loop fuel t special tag raw i = text_loop fuel t false [] raw i.
Proof.
  assert (G : forall A i (F : bool -> outcome A),
    (let* cm := is_comment t i in
     let* b := (if negb cm then Ok true else if special then is_close_tag t i tag else Ok false) in F b) =
    (let* cm := is_comment t i in
     let* b := (if negb cm then Ok true else Ok false) in F b)).
  { intros A i F. pose proof (comment_no_close t i tag) as W. destruct (is_comment t i) as [[|]| | |]; cbn [bind negb]; try reflexivity.
    destruct special; [rewrite W by reflexivity|]; reflexivity. }
  induction fuel as [|f IH]; intros raw i; cbn [text_loop]; destruct (i <? length t); auto;
    destruct (get_char t i) as [c| | |]; cbn [bind]; try reflexivity.
  - destruct (c =? cLT)%N; cbn [bind]; [|reflexivity].
    specialize (G (bytes * nat)%type i (fun b => if b then Ok (match raw with Some r => r | None => [] end, i) else NoFuel)).
    destruct (is_comment t i) as [cm| | |]; cbn [bind] in *; auto.
  - assert (Z : forall A (F : bool -> outcome A),
      (let* b := (if (c =? cLT)%N then let* cm := is_comment t i in
                  if negb cm then Ok true else if special then is_close_tag t i tag else Ok false else Ok false) in F b) =
      (let* b := (if (c =? cLT)%N then let* cm := is_comment t i in
                  if negb cm then Ok true else Ok false else Ok false) in F b)).
    { intros A F. destruct (c =? cLT)%N; [|reflexivity]. specialize (G A i F).
      destruct (is_comment t i) as [cm| | |]; cbn [bind] in *; auto. }
    rewrite Z.
    destruct (if (c =? cLT)%N then let* cm := is_comment t i in if negb cm then Ok true else Ok false else Ok false) as [b| | |]; cbn [bind]; try reflexivity.
    destruct b; [reflexivity|].
    destruct (if (c =? cLT)%N then is_comment t i else Ok false) as [cm| | |]; cbn [bind]; try reflexivity.
    destruct (if cm then _ else _) as [[r j]| | |]; cbn [bind]; try reflexivity.
    destruct (skip_space t j) as [k| | |]; cbn [bind]; auto.
Qed.
Theorem C09_no_special_treatment : forall t i tag d,
  parse_text_node t i tag d = parse_text_node t i [] d.
Proof.
  intros t i tag d. unfold parse_text_node. destruct (create_node TText d) as [[id d']| | |]; cbn [bind]; try reflexivity.
  rewrite text_loop_any. reflexivity.
Qed.
Print Assumptions C09_no_special_treatment.

(** ** C11 (false): an end tag with a different name does not close the element.
    Here </abbr> closes <a>: the text after it is the next sibling of <a>. *)
Definition ex_abbr : dom := Eval vm_compute in the_dom "<a>t</abbr>z".
Theorem C11_end_tags_exact_refuted :
  ~ (forall a b d x, a <> b ->
       create_dom (B "<" ++ a ++ B ">t</" ++ b ++ B ">z") = Ok (Some d) ->
       tag_name d 2 = Some a -> get_next 2 d = x -> x = 0).
Proof.
  intros H. specialize (H (B "a") (B "abbr") ex_abbr 4).
  assert (4 = 0); [|discriminate].
  apply H; [discriminate|vm_compute; reflexivity|reflexivity|reflexivity].
Qed.
Print Assumptions C11_end_tags_exact_refuted.

(** ** C12: the four string tables are bijections. *)
Theorem C12_interning_bijective : forall d, reachable d ->
  interns (map t_name (tag_reg d)) (fun s => map_contains s (tag_map d)) /\
  interns (bool_reg d) (fun s => map_contains s (bool_map d)) /\
  interns (key_reg d) (fun s => map_contains s (key_map d)) /\
  interns (val_reg d) (fun s => map_contains s (val_map d)).
Proof. exact u_interns. Qed.
Print Assumptions C12_interning_bijective.
Theorem C12_ids_injective : forall reg look s s' id,
  interns reg look -> look s = Ok id -> look s' = Ok id -> id <> 0 -> s = s'.
Proof.
  intros reg look s s' id [H _] E E' N. destruct (H s) as (i & Ei & Fi & _).
  destruct (H s') as (j & Ej & Fj & _). rewrite E in Ei. rewrite E' in Ej.
  injection Ei as <-. injection Ej as <-. specialize (Fi N). specialize (Fj N). congruence.
Qed.
Print Assumptions C12_ids_injective.
Theorem C12_string_table_limits : forall d, reachable d ->
  (N.of_nat (length (tag_reg d)) <= 65536)%N /\ (N.of_nat (length (bool_reg d)) <= 65536)%N /\
  (N.of_nat (length (key_reg d)) <= 65536)%N /\ (N.of_nat (length (val_reg d)) <= 65536)%N.
Proof. intros d R. apply (u_limits d R). Qed.
Print Assumptions C12_string_table_limits.
Example C12_ex : reachable ex1 /\ map_contains (B "p") (tag_map ex1) = Ok 4 /\
  nth_error (map t_name (tag_reg ex1)) 4 = Some (B "p") /\ map_contains (B "q") (tag_map ex1) = Ok 0.
Proof. split; [exact ex1_reachable|]. repeat split. Qed.

(** ** C13: ids are stable over every history. *)
Theorem C13_ids_stable : forall d, reachable d -> forall d' s id, later d d' -> id <> 0 ->
  (map_contains s (tag_map d) = Ok id ->
     map_contains s (tag_map d') = Ok id /\ nth_error (map t_name (tag_reg d')) id = Some s) /\
  (map_contains s (bool_map d) = Ok id ->
     map_contains s (bool_map d') = Ok id /\ nth_error (bool_reg d') id = Some s) /\
  (map_contains s (key_map d) = Ok id ->
     map_contains s (key_map d') = Ok id /\ nth_error (key_reg d') id = Some s) /\
  (map_contains s (val_map d) = Ok id ->
     map_contains s (val_map d') = Ok id /\ nth_error (val_reg d') id = Some s).
Proof. exact u_stable. Qed.
Print Assumptions C13_ids_stable.
Definition ex1_edited : dom := Eval vm_compute in
  match run [] (AppendDoc 5 (mkDoc (B "em") true [B "x"] [(B "id", B "y")])) ex1 with
  | Ok d => match run [] (Remove 7) d with Ok d => d | _ => empty_dom end
  | _ => empty_dom end.
Lemma ex1_later : later ex1 ex1_edited.
Proof.
  eapply (later_step _ [] (AppendDoc 5 (mkDoc (B "em") true [B "x"] [(B "id", B "y")]))).
  - simpl. unfold node_id. simpl. lia.
  - vm_compute. reflexivity.
  - eapply (later_step _ [] (Remove 7)).
    + exists 5, [6; 7; 9; 12]. split; [discriminate|]. split; [kids|simpl; tauto].
    + vm_compute. reflexivity.
    + apply later_refl.
Qed.
Example C13_ex : reachable ex1 /\ later ex1 ex1_edited /\
  map_contains (B "b") (tag_map ex1) = Ok 5 /\ map_contains (B "em") (tag_map ex1_edited) = Ok 7.
Proof. split; [exact ex1_reachable|]. split; [exact ex1_later|]. split; reflexivity. Qed.

(** ** C14 (false under ISO C): the child array is indexed within bounds.  The
    index is in bounds exactly if the hash is a multiple of 4 (and then it is
    0); with flat 64-bit addressing the slot is always 0, so the trie is a
    linked list and still works (C12). *)
Theorem C14_index_exact : forall h,
  (forall i, child_index Iso h = Ok i <-> (h mod 4 = 0 /\ i = 0)%N) /\
  child_index Flat64 h = Ok 0%N.
Proof.
  intros h. split; [|apply child_index_flat].
  assert (E : (N.shiftl h 62 mod two64 = (h mod 4) * 2 ^ 62)%N).
  { rewrite N.shiftl_mul_pow2. unfold two64. change (2 ^ 64)%N with (4 * 2 ^ 62)%N.
    rewrite N.mul_mod_distr_r by discriminate. reflexivity. }
  intros i. unfold child_index. rewrite E. clear E.
  pose proof (N.mod_lt h 4 ltac:(discriminate)) as L.
  remember (h mod 4)%N as m eqn:Em. clear Em.
  assert (C : (m = 0 \/ m = 1 \/ m = 2 \/ m = 3)%N) by lia.
  destruct C as [C|[C|[C|C]]]; subst m; vm_compute; split; intros H;
    try discriminate H; try (destruct H; discriminate).
  - injection H as <-. split; reflexivity.
  - destruct H as [_ ->]. reflexivity.
Qed.
Print Assumptions C14_index_exact.
Theorem C14_iso_out_of_bounds_refuted :
  ~ (forall s s' m m' b i, map_insert_m Iso s empty_map = Ok (b, i, m) ->
       map_insert_m Iso s' m = m' -> exists r, m' = Ok r).
Proof.
  intros H. destruct (H (B "p") (B "b") (mkMap (Node (B "p") 1 Nil Nil Nil Nil) 1)
    (Undef OobRead) true 1) as [r E]; [vm_compute; reflexivity|vm_compute; reflexivity|discriminate].
Qed.
Print Assumptions C14_iso_out_of_bounds_refuted.
