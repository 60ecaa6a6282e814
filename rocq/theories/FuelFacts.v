(** * FuelFacts: the outcome of Process does not depend on the bound on the number of rounds; the only possible
    non-termination is the main loop of the resolver. *)
From Verif Require Import Base PyStr PyInt Types DimModel EnumModel ElemModel FinalModel ResolveModel ProcessModel SpecProcess.
From Verif Require Import GraphFacts ReplicateFacts ResolveWF TopoFacts EffectFacts.

Definition out_of_fuel {A} (m : M A) : Prop := match snd m with Ok _ => False | Err e => ex_class e = OutOfFuel end.

Lemma bind_mono {A B} (m : M A) (f f' : A -> M B) : ~ out_of_fuel (bind m f) ->
  (forall ws a, m = (ws, Ok a) -> ~ out_of_fuel (f a) -> f' a = f a) -> bind m f' = bind m f.
Proof.
  intros H Hf. destruct m as [ws [a|e]]; [|reflexivity]. cbn in *. rewrite (Hf ws a eq_refl); [reflexivity|].
  intros X. apply H. unfold out_of_fuel in *. cbn. destruct (f a) as [w r]. exact X.
Qed.
Lemma rounds_mono f1 : forall f2 g prev, (f1 <= f2)%nat -> ~ out_of_fuel (rounds f1 g prev) -> rounds f2 g prev = rounds f1 g prev.
Proof.
  induction f1 as [|f1 IH]; intros f2 g prev Hle H.
  - exfalso. apply H. reflexivity.
  - destruct f2 as [|f2]; [lia|]. cbn [rounds] in *. apply bind_mono; [exact H|]. intros w1 g1 _ H1.
    destruct (topological_sorted g1 (find_processable g1)); [reflexivity|]. apply bind_mono; [exact H1|]. intros w2 u _ H2.
    apply bind_mono; [exact H2|]. intros w3 g3 _ H3. apply IH; [lia|exact H3].
Qed.
Lemma resolve_mono f1 f2 ps : (f1 <= f2)%nat -> ~ out_of_fuel (resolve_peripherals f1 ps) -> resolve_peripherals f2 ps = resolve_peripherals f1 ps.
Proof.
  intros Hle H. unfold resolve_peripherals in *. apply bind_mono; [exact H|]. intros w g _ H1.
  assert (~ out_of_fuel (rounds f1 g [])).
  { intros X. apply H1. unfold out_of_fuel in *. destruct (rounds f1 g []) as [w1 [a|e]]; [destruct X|exact X]. }
  now rewrite (rounds_mono f1 f2 g [] Hle H0).
Qed.
Lemma wrap_mono {A} (m m' : M A) : (~ out_of_fuel m -> m' = m) -> ~ out_of_fuel (wrap m) -> wrap m' = wrap m.
Proof.
  intros H Hw. rewrite H; [reflexivity|]. intros X. apply Hw. unfold out_of_fuel in *. destruct m as [w [a|e]]; [destruct X|]. cbn in *. unfold wrap_exn. rewrite X. exact X.
Qed.
Lemma process_mono f1 f2 d : (f1 <= f2)%nat -> ~ out_of_fuel (process_device f1 d) -> process_device f2 d = process_device f1 d.
Proof.
  intros Hle H. unfold process_device in *.
  assert (Hw : ~ out_of_fuel (wrap (resolve_peripherals f1 (sdv_periphs d)))).
  { intros X. apply H. unfold out_of_fuel in *. destruct (wrap _) as [w [a|e]]; [destruct X|exact X]. }
  rewrite (wrap_mono (resolve_peripherals f1 (sdv_periphs d)) (resolve_peripherals f2 (sdv_periphs d))); auto.
  intros Hr. now apply resolve_mono.
Qed.

(** the result of Process is determined by the description *)
Theorem Processes_det : forall d ws dev ws' dev', Processes d ws dev -> Processes d ws' dev' -> ws = ws' /\ dev = dev'.
Proof.
  intros d ws dev ws' dev' [f1 H1] [f2 H2]. assert (X : process_device f1 d = process_device f2 d).
  { destruct (Nat.le_ge_cases f1 f2) as [Hle|Hle]; [symmetry|]; apply process_mono; auto; rewrite ?H1, ?H2; intros []. }
  rewrite H1, H2 in X. injection X as -> ->. auto.
Qed.
Theorem Processes_not_Rejects : forall d ws dev e, Processes d ws dev -> Rejects d e -> False.
Proof.
  intros d ws dev e [f1 H1] (f2 & ws' & H2 & Hf). assert (X : process_device f1 d = process_device f2 d).
  { destruct (Nat.le_ge_cases f1 f2) as [Hle|Hle]; [symmetry|]; apply process_mono; auto; rewrite ?H1, ?H2; [intros []|exact Hf]. }
  congruence.
Qed.

(** ** everything but the main loop terminates *)
(** number of ancestors: decreases from a node to its parents *)
Definition rank (g : graph) (i : nat) : nat := length (filter (fun j => reaches g j i) (node_indices g)).
Lemma rank_lt g p i : WF g -> Step g p i -> (rank g p < rank g i)%nat.
Proof.
  intros W Hs. unfold rank. apply (filter_length_lt _ _ _ i).
  - intros y Hy. apply reaches_spec in Hy. apply reaches_spec. eapply rt_trans; [exact Hy|]. now apply rt_step.
  - apply node_indices_In. destruct Hs as [t Ht]. now apply (wf_edge _ W) in Ht.
  - apply reaches_spec. apply rt_refl.
  - apply Bool.not_true_is_false. rewrite reaches_spec. now apply (wf_acyclic _ W).
Qed.
Lemma rank_slots g i : (rank g i <= length (g_slots g))%nat.
Proof. unfold rank, node_indices. etransitivity; [apply filter_length_le|]. etransitivity; [apply filter_length_le|]. now rewrite seq_length. Qed.

Lemma re_parent_size_strict g : WF g -> forall fuel i, (rank g i < fuel)%nat -> RE (parent_size g fuel i).
Proof.
  intros W. induction fuel as [|f IH]; intros i Hr; [lia|]. cbn [parent_size]. destruct (get_element_parents g i) as [|p ps] eqn:Ep; [em|].
  assert (Hp : In p (get_element_parents g i)) by (rewrite Ep; now left). apply element_parents_In in Hp as (t & Ht & _).
  assert (X := rank_lt g p i W (ex_intro _ t Ht)). em; try apply re_node_processed; apply IH; lia.
Qed.
Lemma re_finalize_rcs_strict g l : WF g -> RE (finalize_rcs g l).
Proof.
  intros W. unfold finalize_rcs, calculate_size, processed_children, as_irc, child_size.
  em; try apply re_node_processed. apply re_parent_size_strict; [exact W|]. assert (X := rank_slots g x). lia.
Qed.
Lemma re_finalize_node_strict st i l : WF (fst st) -> RE (finalize_node st i l).
Proof.
  destruct st as [g res]. cbn [fst]. intros W. unfold finalize_node, processed_children, as_per, as_fld, finalize_evcs.
  em; try apply re_node_processed; try (apply re_finalize_rcs_strict; exact W); try apply re_evc.
Qed.
Lemma set_processed_WF g i v : WF g -> WF (set_processed g i v).
Proof. intros W. unfold set_processed. destruct (get_node g i) eqn:E; [|exact W]. eapply WF_set_node; eauto. Qed.
Lemma finalize_node_WF st i l ws st' : WF (fst st) -> finalize_node st i l = (ws, Ok st') -> WF (fst st').
Proof.
  destruct st as [g res]. cbn [fst]. intros W H. unfold finalize_node in H. destruct (get_node g i) as [n|]; [|minv].
  destruct (n_tmpl n); [minv; exact W|]. destruct (n_level n); minv; try exact W; repeat match goal with
    | H : match ?x with _ => _ end = (_, Ok _) |- _ => destruct x; minv end; cbn [fst]; try now apply set_processed_WF.
Qed.
Lemma re_visit g0 order : forall st, WF (fst st) -> RE (foldM (visit g0) st order).
Proof.
  induction order as [|i order IH]; intros st W; cbn [foldM]; [em|]. apply emits_bind.
  - unfold visit. destruct (successors g0 i); [em|]. now apply re_finalize_node_strict.
  - intros ws st' H. apply IH. unfold visit in H. destruct (successors g0 i); [minv; exact W|]. eapply finalize_node_WF; eauto.
Qed.

(** the bound only matters for the main loop: when the resolver runs out of it, the main loop has executed that many rounds *)
Lemma oof_bind {A B} (m : M A) (f : A -> M B) : out_of_fuel (bind m f) -> out_of_fuel m \/ exists ws a, m = (ws, Ok a) /\ out_of_fuel (f a).
Proof.
  unfold out_of_fuel. destruct m as [ws [a|e]]; cbn; [|auto]. intros H. right. exists ws, a. split; [reflexivity|]. destruct (f a) as [w r]. exact H.
Qed.
Lemma re_not_oof {A} (m : M A) : RE m -> ~ out_of_fuel m.
Proof. intros [_ H] X. unfold out_of_fuel in X. destruct (snd m); [exact X|]. rewrite X in H. exact H. Qed.
Theorem only_rounds : forall fuel ps, out_of_fuel (resolve_peripherals fuel ps) ->
  exists ws g, initialization ps = (ws, Ok g) /\ out_of_fuel (rounds fuel g []).
Proof.
  intros fuel ps H. unfold resolve_peripherals in H. apply oof_bind in H as [H|(w0 & g & E0 & H)]; [exfalso; exact (re_not_oof _ (re_initialization ps) H)|].
  exists w0, g. split; [exact E0|]. apply init_grows in E0 as [W0 _]. apply oof_bind in H as [H|(w1 & g1 & E1 & H)]; [exact H|]. exfalso.
  apply rounds_WF in E1; [|exact W0]. revert H. apply re_not_oof.
  em; unfold get_placeholder_child; em. destruct (bottom_up_traversal_order g1 E1) as (order & _ & _ & -> & _). now apply re_visit.
Qed.
