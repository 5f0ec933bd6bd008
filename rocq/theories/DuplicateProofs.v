(** * The duplicate of a reachable DOM is the DOM. *)
From Coq Require Import List NArith Arith Bool Lia.
From Verif Require Import Base Lemmas TrieModel DomModel TrieProofs RegProofs ParseTree ParserModel DomSpec ApiSpec ApiProofs ReadUser DuplicateModel.
Import ListNotations.
Local Open Scope nat_scope.

Lemma insert_strings_ok l : forall l0 m, map_ok m l0 -> NoDup (l0 ++ l) ->
  length (l0 ++ l) <= N.to_nat 65535 ->
  exists m', insert_strings l m = Ok m' /\ map_ok m' (l0 ++ l).
Proof.
  induction l as [|s l IH]; intros l0 m M ND L.
  - exists m. rewrite app_nil_r. auto.
  - cbn [insert_strings]. pose proof (NoDup_remove_2 l0 l s ND) as NI.
    assert (N0 : ~ In s l0) by (intros H; apply NI, in_or_app; now left).
    destruct (map_insert_new s m l0 M N0) as [[E _]|(_ & E & M')].
    + rewrite app_length in L. cbn [length] in L. lia.
    + rewrite E. cbn [bind]. destruct (IH (l0 ++ [s]) _ M') as (m' & E' & M2).
      * now rewrite <- app_assoc.
      * now rewrite <- app_assoc.
      * exists m'. split; [exact E'|]. now rewrite <- app_assoc in M2.
Qed.
Lemma map_ok_unique m m' l : map_ok m l -> map_ok m' l -> m = m'.
Proof. destruct m, m'. intros (A & B & _) (A' & B' & _). cbn in *. congruence. Qed.
Lemma rebuild_ok reg m : reg_ok reg m -> (N.of_nat (length reg) <= 65536)%N -> rebuild reg = Ok m.
Proof.
  intros (l & -> & M) L. unfold rebuild. cbn [tl].
  destruct (insert_strings_ok l [] empty_map map_ok_empty) as (m' & E & M').
  - exact (proj2 (proj2 M)).
  - cbn [app]. cbn [length] in L. lia.
  - rewrite E. f_equal. exact (map_ok_unique _ _ _ M' M).
Qed.
Lemma u_duplicate d : reachable d -> duplicate_dom d = Ok d.
Proof.
  intros R. pose proof (u_reg d R) as G. destruct (u_limits d R) as (_ & L1 & L2 & L3 & L4).
  unfold duplicate_dom.
  rewrite (rebuild_ok _ _ (ri_tag _ G)) by (now rewrite map_length). cbn [bind].
  rewrite (rebuild_ok _ _ (ri_bool _ G) L2). cbn [bind].
  rewrite (rebuild_ok _ _ (ri_key _ G) L3). cbn [bind].
  rewrite (rebuild_ok _ _ (ri_val _ G) L4). cbn [bind].
  destruct d; reflexivity.
Qed.
