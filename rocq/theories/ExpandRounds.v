(** * ExpandRounds: the graph after the resolver's main loop satisfies the invariant of ExpandInv. *)
From Coq Require Import Relations.
From Verif Require Import Base PyStr Types DimModel EnumModel ElemModel ResolveModel GraphFacts ReplicateFacts ResolveWF ResolveInv TopoFacts SpecDeclared SpecElem SpecExpand DescribeFacts ExpandInv ExpandBuild ExpandStep ExpandNode.

Section Rounds.
  Context (ps0 : list svd_periph) (NDC : forall a e, MayBeBase ps0 a -> level_of a = LCluster -> Inside a e -> ~ derived_cluster e).
  Local Notation ps := (loose ps0).

  Lemma iv_fold l : forall g KS ws g', Iv ps nobody g KS -> NoDup l -> ~ In 0%nat l -> (forall i, In i l -> undone_at g i /\ unlinked g i) -> foldM process_node g l = (ws, Ok g') ->
    exists KS', Iv ps nobody g' KS' /\ KS' 0%nat = KS 0%nat.
  Proof.
    induction l as [|i l IH]; intros g KS ws g' I Hnd H0 Hl H; cbn in H; [injection H as _ <-; eauto|].
    apply bind_ok in H as (w1 & g1 & w2 & H1 & H & _). inversion Hnd as [|? ? Hni Hnd']; subst. destruct (Hl i (or_introl eq_refl)) as [Hu Hun].
    destruct (weak_process ps0 NDC g KS i w1 g1 I) as (KS1 & I1 & E1 & Hst); auto; [intros ->; apply H0; now left|].
    destruct (IH g1 KS1 w2 g' I1 Hnd') as (KS' & I' & E'); auto.
    - intros K. apply H0. now right.
    - intros j Hj. destruct (Hl j (or_intror Hj)). apply Hst; auto. intros ->. contradiction.
    - exists KS'. split; [exact I'|congruence].
  Qed.
  Lemma iv_rounds fuel : forall g KS prev ws g', Iv ps nobody g KS -> rounds fuel g prev = (ws, Ok g') -> exists KS', Iv ps nobody g' KS' /\ KS' 0%nat = KS 0%nat.
  Proof.
    induction fuel as [|fuel IH]; intros g KS prev ws g' I H; cbn [rounds] in H; [minv|]. apply bind_ok in H as (w1 & g1 & w2 & H1 & H & _).
    assert (I1 : Iv ps nobody g1 KS) by (eapply iv_resolve_phs; [exact I|exact H1]).
    destruct (topological_sorted g1 (find_processable g1)) as [|x l] eqn:Et; [apply ret_ok in H as [<- _]; eauto|]. rewrite <- Et in *.
    apply bind_ok in H as (w3 & u & w4 & _ & H & _). apply bind_ok in H as (w5 & g2 & w6 & H2 & H & _).
    destruct (topological_sorted_spec g1 (find_processable g1) (proj1 I1)) as (Hnd & _ & Hin).
    destruct (iv_fold _ g1 KS w5 g2 I1 Hnd) with (3 := H2) as (KS2 & I2 & E2).
    - intros K. apply Hin in K as [_ K]. unfold unprocessed in K. rewrite (v_root _ _ _ _ (proj1 (proj2 I1))) in K. discriminate.
    - intros i K. apply Hin in K as [K1 K2]. split.
      + unfold unprocessed in K2. destruct (get_node g1 i) as [n|] eqn:En; [|discriminate]. exists n. split; [exact En|]. now destruct (n_done n).
      + unfold find_processable in K1. apply filter_In in K1 as [_ K1]. intros a Ha. unfold has_incoming in K1. apply negb_true_iff in K1.
        assert (K : existsb (fun e => etype_eqb (e_typ e) PLACEHOLDER) (in_edges g1 i) = true); [|congruence]. apply existsb_exists. exists (a, i, PLACEHOLDER). split; [|reflexivity].
        unfold in_edges. apply filter_In. split; [exact Ha|]. cbn. apply Nat.eqb_refl.
    - destruct (IH _ _ _ _ _ I2 H) as (KS' & I' & E'). exists KS'. split; [exact I'|congruence].
  Qed.
  Lemma iv_final fuel w0 g0 ws g : initialization ps0 = (w0, Ok g0) -> rounds fuel g0 [] = (ws, Ok g) -> exists KS, Iv ps nobody g KS /\ KS 0%nat = map PaPer ps0.
  Proof.
    intros H0 H. destruct (st_initialization ps _ _ H0) as (KS & (Wf & V & E & _) & E0). cbn [sy_ps loose] in E0. destruct (iv_rounds fuel g0 KS [] ws g) as (KS' & I & E'); [split; auto|exact H|]. exists KS'. split; [exact I|congruence].
  Qed.
End Rounds.
