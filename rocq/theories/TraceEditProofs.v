(** * The recorded edits compute what the plain ones compute. *)
From Coq Require Import List NArith ZArith Arith Bool Lia.
From Verif Require Import Base TrieModel DomModel ParserModel EditModel ApiSpec MemModel Lemmas TraceModel TraceProofs TraceEditModel.
Import ListNotations.
Local Open Scope nat_scope.

Lemma xsnd_bind {A B} (x : xtr A) (f : A -> xtr B) :
  snd (x_bind x f) = bind (snd x) (fun a => snd (f a)).
Proof. unfold x_bind. now destruct (snd x). Qed.
Ltac xb := rewrite xsnd_bind; apply bind_ext2; [|intros].
Ltac xp := rewrite xsnd_bind; match goal with |- bind ?x ?f = _ => let v := eval hnf in x in change x with v end; cbn [bind].
Ltac xl := rewrite xsnd_bind; cbn [snd xlift emb x_emit bind]; apply bind_ext2; [reflexivity|intros].

Lemma s_set_text id s d : snd (x_set_text id s d) = set_pay d id (PText s).
Proof. reflexivity. Qed.
Lemma s_text_element s d : snd (x_parse_text_element s d) = parse_text_element s d.
Proof. unfold x_parse_text_element, parse_text_element. xb. { cbn [snd emb]. apply s_create. } destruct a as [id d1]. xb; [apply s_set_text|reflexivity]. Qed.
Lemma s_add_bools id l : forall d, snd (x_add_bools id l d) = add_bools id l d.
Proof. induction l as [|b l IH]; intros d; cbn [x_add_bools add_bools]; [reflexivity|]. xb; [cbn [snd emb]; apply s_add_bool|apply IH]. Qed.
Lemma s_add_props id l : forall d, snd (x_add_props id l d) = add_props id l d.
Proof. induction l as [|[k v] l IH]; intros d; cbn [x_add_props add_props]; [reflexivity|]. xb; [cbn [snd emb]; apply s_add_property|apply IH]. Qed.
Lemma s_document_element e d : snd (x_parse_document_element e d) = parse_document_element e d.
Proof.
  unfold x_parse_document_element, parse_document_element. xb. { cbn [snd emb]. apply s_create. } destruct a as [id d1].
  xb. { cbn [snd emb]. apply s_set_tag. } xb; [apply s_add_bools|]. xb; [apply s_add_props|reflexivity].
Qed.
Lemma s_parse_extra bl t d : snd (x_parse_extra bl t d) = parse_extra bl t d.
Proof. unfold x_parse_extra, parse_extra, parse. xb; [reflexivity|]. cbn [snd emb]. apply s_loop. Qed.

Lemma s_unlink id d : snd (x_unlink_node id d) = unlink_node id d.
Proof.
  unfold x_unlink_node, unlink_node. xb; [reflexivity|]. rename a into n.
  rewrite xsnd_bind.
  match goal with |- bind (snd ?x) _ = _ => match type of x with _ => assert (E : exists l, x = (l, Ok
    (match prev_idx (n_id n) d with
           | None => d
           | Some i =>
               match next_idx (n_id n) d with
               | None => set_nexts d (upd (nexts d) i (0, 0))
               | Some j =>
                   set_nexts d (upd (nexts d) i
                     (fst (at_idx (nexts d) i), snd (at_idx (nexts d) j)))
               end
           end))) end end.
  { destruct (prev_idx (n_id n) d); [destruct (next_idx (n_id n) d)|]; eexists; reflexivity. }
  destruct E as [l1 E]. rewrite E. cbn [snd bind]. clear E l1.
  rewrite xsnd_bind. apply bind_ext2.
  - destruct (parent_idx (n_id n) d) as [i|]; [|reflexivity]. rewrite xsnd_bind. cbn [snd x_emit bind].
    rewrite xsnd_bind. cbn [snd st_pchild x_bind x_emit x_ret bind].
    destruct (first_idx _ _) as [k|]; [|reflexivity]. destruct (_ =? id); [|reflexivity].
    destruct (next_idx (n_id n) d); reflexivity.
  - intros d2. rewrite xsnd_bind. destruct (next_idx (n_id n) d); reflexivity.
Qed.
Lemma s_remove_f fuel : (forall id d, snd (x_remove_node_f fuel id d) = remove_node_f fuel id d) /\
  (forall id d, snd (x_remove_children_f fuel id d) = remove_children_f fuel id d).
Proof.
  induction fuel as [|f [IH1 IH2]]; [split; reflexivity|]. split; intros id d.
  - cbn [x_remove_node_f remove_node_f]. xb; [apply IH2|apply s_unlink].
  - cbn [x_remove_children_f remove_children_f]. destruct (0 <? get_first_child id d); [|reflexivity]. xb; [apply IH1|apply IH2].
Qed.
Lemma s_remove_node id d : snd (x_remove_node id d) = remove_node id d. Proof. apply s_remove_f. Qed.
Lemma s_remove_children id d : snd (x_remove_children id d) = remove_children id d. Proof. apply s_remove_f. Qed.
Lemma s_remove_bool id b d : snd (x_remove_bool_property id b d) = remove_bool_property id b d.
Proof. unfold x_remove_bool_property, remove_bool_property. xb; [reflexivity|]. destruct (0 <? a); [|reflexivity]. now destruct (bprop_idx id a d). Qed.
Lemma s_remove_prop id b d : snd (x_remove_property id b d) = remove_property id b d.
Proof. unfold x_remove_property, remove_property. xb; [reflexivity|]. destruct (0 <? a); [|reflexivity]. now destruct (prop_idx id a d). Qed.
Lemma s_set_prop id k v d : snd (x_set_property_value id k v d) = set_property_value id k v d.
Proof.
  unfold x_set_property_value, set_property_value. xb; [reflexivity|]. destruct (a =? 0); [reflexivity|].
  destruct (prop_idx id a d); [|reflexivity]. xb. { cbn [snd emb]. apply s_intern_val. } destruct a0 as [vid d1]. now destruct (nth_error (props d1) n).
Qed.
Lemma s_set_text_content id s d : snd (x_set_text_content id s d) = set_text_content id s d.
Proof. unfold x_set_text_content, set_text_content. xb; [apply s_remove_children|]. xb; [apply s_text_element|]. now destruct a0. Qed.
Lemma s_add_text id s app d : snd (x_add_text id s app d) = add_text_to_text_node id s app d.
Proof. unfold x_add_text, add_text_to_text_node. xb; [reflexivity|]. xb; [reflexivity|]. apply s_set_text. Qed.
Lemma s_try_merge t s a d : snd (x_try_merge t s a d) = try_merge t s a d.
Proof.
  unfold x_try_merge, try_merge. xb; [reflexivity|]. destruct (is_text a0); [|reflexivity]. xb; [reflexivity|]. xb; [reflexivity|].
  xb; [apply s_add_text|reflexivity].
Qed.
Lemma s_connect fuel p : forall c d, snd (x_connect_loop fuel p c d) = connect_others_loop fuel p c d.
Proof.
  induction fuel as [|f IH]; intros c d; cbn [x_connect_loop connect_others_loop]; (destruct (0 <? c); [|reflexivity]); [reflexivity|].
  xp. apply IH.
Qed.
Lemma s_connect_others p l d : snd (x_connect_others p l d) = connect_others p l d. Proof. apply s_connect. Qed.
Lemma s_append_refs p x d : snd (x_append_refs p x d) = append_refs p x d.
Proof.
  unfold x_append_refs, append_refs. destruct (first_idx p d) as [i|].
  - xp. xb; [reflexivity|]. xp. xp. apply s_connect_others.
  - xp. xp. apply s_connect_others.
Qed.
Lemma s_prepend_refs p x d : snd (x_prepend_refs p x d) = prepend_refs p x d.
Proof.
  unfold x_prepend_refs, prepend_refs. destruct (first_idx p d) as [i|].
  - xp. xp. xb; [reflexivity|]. xp. xp. apply s_connect_others.
  - xp. xp. apply s_connect_others.
Qed.
Lemma s_replace_refs o x d : snd (x_replace_refs o x d) = replace_refs o x d.
Proof.
  unfold x_replace_refs, replace_refs. xb; [reflexivity|]. xb; [reflexivity|]. rename a into n, a0 into l.
  set (pf := match parent_idx o d with Some i => first_idx (fst (at_idx (pchilds d) i)) d | None => None end).
  rewrite xsnd_bind.
  match goal with |- bind (snd ?y) _ = _ => assert (E : exists l, y = (l, Ok
    (match prev_idx o d with
           | Some i => set_nexts d (upd (nexts d) i (fst (at_idx (nexts d) i), x))
           | None =>
               match pf with
               | Some k => set_firsts d (upd (firsts d) k
                             (fst (at_idx (firsts d) k), x))
               | None => d
               end
           end))) end.
  { destruct (prev_idx o d); [|destruct pf]; eexists; reflexivity. }
  destruct E as [l1 E]. rewrite E. cbn [snd bind]. clear E l1.
  rewrite xsnd_bind. apply bind_ext2.
  - destruct (parent_idx o d) as [i|]; [|reflexivity]. xp. xp. apply s_connect.
  - intros d2. rewrite xsnd_bind. destruct (next_idx o d); reflexivity.
Qed.
Lemma s_append_doc p e d : snd (x_append_document_node p e d) = append_document_node p e d.
Proof.
  unfold x_append_document_node, append_document_node. xb; [apply s_document_element|]. destruct a as [x d1].
  destruct (x =? 0); [reflexivity|]. xb; [apply s_append_refs|reflexivity].
Qed.
Lemma s_prepend_doc p e d : snd (x_prepend_document_node p e d) = prepend_document_node p e d.
Proof.
  unfold x_prepend_document_node, prepend_document_node. xb; [apply s_document_element|]. destruct a as [x d1].
  destruct (x =? 0); [reflexivity|]. xb; [apply s_prepend_refs|reflexivity].
Qed.
Lemma s_replace_doc p e d : snd (x_replace_with_document_node p e d) = replace_with_document_node p e d.
Proof.
  unfold x_replace_with_document_node, replace_with_document_node. xb; [apply s_document_element|]. destruct a as [x d1].
  destruct (x =? 0); [reflexivity|]. xb; [apply s_replace_refs|reflexivity].
Qed.
Lemma s_append_text p s d : snd (x_append_text_node p s d) = append_text_node p s d.
Proof.
  unfold x_append_text_node, append_text_node. xb; [apply s_text_element|]. destruct a as [x d1].
  destruct (x =? 0); [reflexivity|]. destruct (0 <? get_first_child p d1); [|xb; [apply s_append_refs|reflexivity]].
  xb; [reflexivity|]. xb; [apply s_try_merge|]. destruct a0 as [[|] d2]; (xb; [first [apply s_remove_node|apply s_append_refs]|reflexivity]).
Qed.
Lemma s_prepend_text p s d : snd (x_prepend_text_node p s d) = prepend_text_node p s d.
Proof.
  unfold x_prepend_text_node, prepend_text_node. xb; [apply s_text_element|]. destruct a as [x d1].
  destruct (x =? 0); [reflexivity|]. destruct (0 <? get_first_child p d1); [|xb; [apply s_prepend_refs|reflexivity]].
  xb; [apply s_try_merge|]. destruct a as [[|] d2]; (xb; [first [apply s_remove_node|apply s_prepend_refs]|reflexivity]).
Qed.
Lemma s_try_both o x d : snd (x_try_merge_both o x d) = try_merge_both o x d.
Proof.
  unfold x_try_merge_both, try_merge_both. xb; [reflexivity|]. destruct (is_text a); [|reflexivity].
  assert (Nx : forall d0, snd (match next_idx o d0 with
       | Some j =>
           log^ XLoad 4 j (length (nexts d0)) then
           log^ XLoad 1 x (length (nodes d)) then
           x_try_merge (snd (at_idx (nexts d0) j)) (n_id a) false d0
       | None => x_ret (false, d0)
       end) = match next_idx o d0 with
       | Some j => try_merge (snd (at_idx (nexts d0) j)) (n_id a) false d0
       | None => Ok (false, d0)
       end).
  { intros d0. destruct (next_idx o d0); [|reflexivity]. xp. xp. apply s_try_merge. }
  destruct (prev_idx o d); [|apply Nx]. xp. xp. xb; [apply s_try_merge|]. destruct a0 as [[|] d1]; [reflexivity|apply Nx].
Qed.
Lemma s_replace_text p s d : snd (x_replace_with_text_node p s d) = replace_with_text_node p s d.
Proof.
  unfold x_replace_with_text_node, replace_with_text_node. xb; [apply s_text_element|]. destruct a as [x d1].
  destruct (x =? 0); [reflexivity|]. xb; [apply s_try_both|]. destruct a as [[|] d2].
  - xb; [apply s_remove_node|]. xb; [apply s_remove_node|reflexivity].
  - xb; [apply s_replace_refs|reflexivity].
Qed.
Lemma s_append_html bl p h d : snd (x_append_html bl p h d) = append_html bl p h d.
Proof.
  unfold x_append_html, append_html. xb; [apply s_parse_extra|]. destruct a as [[|] d1]; [|reflexivity]. cbn [negb].
  assert (Fin : forall fn d, snd (do^ d := x_append_refs p fn d in x_ret (fn, d)) = (let* d := append_refs p fn d in Ok (fn, d))).
  { intros. xb; [apply s_append_refs|reflexivity]. }
  destruct (0 <? get_first_child p d1); [|apply Fin]. xb; [reflexivity|]. xb; [reflexivity|].
  destruct (_ <? a); (destruct (is_text a0); [|apply Fin]); (xb; [reflexivity|]); xp; (xb; [apply s_try_merge|]);
    destruct a2 as [[|] d2]; try apply Fin; (xb; [apply s_remove_node|]); [apply Fin|reflexivity].
Qed.
Lemma s_prepend_html bl p h d : snd (x_prepend_html bl p h d) = prepend_html bl p h d.
Proof.
  unfold x_prepend_html, prepend_html. xb; [apply s_parse_extra|]. destruct a as [[|] d1]; [|reflexivity]. cbn [negb].
  assert (Fin : forall fn d, snd (do^ d := x_prepend_refs p fn d in x_ret (fn, d)) = (let* d := prepend_refs p fn d in Ok (fn, d))).
  { intros. xb; [apply s_prepend_refs|reflexivity]. }
  destruct (0 <? get_first_child p d1); [|apply Fin]. xb; [reflexivity|].
  destruct (_ <? a); (xb; [reflexivity|]); (destruct (is_text a0); [|apply Fin]); xp; (xb; [apply s_try_merge|]);
    destruct a1 as [[|] d2]; try apply Fin; (xb; [apply s_remove_node|]); [apply Fin|reflexivity].
Qed.
Lemma s_replace_html bl p h d : snd (x_replace_with_html bl p h d) = replace_with_html bl p h d.
Proof.
  unfold x_replace_with_html, replace_with_html. xb; [apply s_parse_extra|]. destruct a as [[|] d1]; [|reflexivity]. cbn [negb].
  assert (Fin : forall fn d, snd (do^ d := x_replace_refs p fn d in x_ret (fn, d)) = (let* d := replace_refs p fn d in Ok (fn, d))).
  { intros. xb; [apply s_replace_refs|reflexivity]. }
  xb; [reflexivity|]. destruct (_ <? a).
  - xb; [reflexivity|]. xb.
    + destruct (is_text a0); [|reflexivity]. destruct (prev_idx p d1); [|reflexivity]. xp. xp. xb; [apply s_try_merge|].
      destruct a1 as [[|] d2]; [|reflexivity]. xb; [apply s_remove_node|reflexivity].
    + destruct a1 as [fn d2]. xb; [reflexivity|]. xb; [|apply Fin].
      destruct (is_text a1); [|reflexivity]. destruct (next_idx p d2); [|reflexivity]. xp. xb; [apply s_try_merge|].
      destruct a2 as [[|] d3]; [apply s_remove_node|reflexivity].
  - xb; [apply s_try_both|]. destruct a0 as [[|] d2]; [|apply Fin]. xb; [apply s_remove_node|]. xb; [apply s_remove_node|].
    destruct (prev_idx p d1); reflexivity.
Qed.
Theorem s_run bl o d : snd (x_run bl o d) = run bl o d.
Proof.
  destruct o; cbn [x_run run];
    first [apply s_remove_node|apply s_remove_children|apply s_set_text_content|apply s_add_bool|apply s_add_property
          |apply s_remove_bool|apply s_remove_prop|apply s_add_text|apply s_set_tag|
          (xb; [first [apply s_append_doc|apply s_append_text|apply s_append_html|apply s_prepend_doc|apply s_prepend_text|
             apply s_prepend_html|apply s_replace_doc|apply s_replace_text|apply s_replace_html|apply s_set_prop]|now destruct a])].
Qed.
