(** * PropsOrder: C53 - the order in which siblings are written does not matter. *)
From Verif Require Import Base PyStr PyInt Types DimModel EnumModel ElemModel FinalModel ConvertModel ResolveModel ProcessModel SpecProcess SpecDim SpecElem SpecEnum SpecDevice SpecDeclared SpecExpand SpecAccept SpecOrder.
From Verif Require Import FuelFacts FinalFacts FinalErr LookupOk OrderFinal OrderFacts OrderPer OrderDeep PropsDim PropsElem PropsDevice PropsResolve PropsErrors PropsExpand PropsTerm PropsAccept PropsDeep Samples.

Lemma resolves_outcome d w i : Resolves d w i ->
  (forall dev, (exists ws, Processes d ws dev) <-> exists w2, finalize (inherit_properties i) = (w2, Ok dev)) /\ ((exists e, Rejects d e) <-> ~ exists w2 dev, finalize (inherit_properties i) = (w2, Ok dev)).
Proof.
  intros R. destruct (resolves_process d w i R) as (fuel & E). destruct (finalize (inherit_properties i)) as [w2 [dev0|e0]] eqn:EF; cbn [fst snd] in E.
  - assert (P : Processes d (w ++ w2) dev0) by (exists fuel; exact E). split.
    + intros dev. split; [intros (ws & P2); destruct (Processes_det _ _ _ _ _ P P2) as [_ <-]; eauto|intros (w3 & K); injection K as _ <-; eauto].
    + split; [intros (e & X) _; exact (Processes_not_Rejects _ _ _ _ P X)|intros K; destruct K; eauto].
  - assert (X : Rejects d e0). { exists fuel, (w ++ w2). split; [exact E|]. destruct (fe_finalize i) as [_ K]. rewrite EF in K. cbn in K. destruct K as [-> | ->]; discriminate. } split.
    + intros dev. split; [intros (ws & P2); destruct (Processes_not_Rejects _ _ _ _ P2 X)|intros (w3 & K); discriminate].
    + split; [intros _ (w3 & dev & K); discriminate|eauto].
Qed.

Lemma rules_quiet ps : DerivedRules ps -> QuietBases ps.
Proof. intros (_ & _ & _ & HE) a e [Ha _] Hi Hl. apply (HE e (inside_declared _ _ _ Ha Hi)). destruct Hl as [-> | ->]; discriminate. Qed.

Lemma same_outcome d d' w w' i i' : Resolves d w i -> Resolves d' w' i' -> SameDev i i' ->
  (forall dev, (exists ws, Processes d ws dev) <-> (exists ws, Processes d' ws dev)) /\ ((exists e, Rejects d e) <-> (exists e, Rejects d' e)).
Proof.
  intros R R' HS. destruct (resolves_outcome _ _ _ R) as [O1 O2]. destruct (resolves_outcome _ _ _ R') as [O1' O2'].
  assert (K : forall dev, (exists w2, finalize (inherit_properties i) = (w2, Ok dev)) <-> exists w2, finalize (inherit_properties i') = (w2, Ok dev)).
  { intros dev. split; intros (w2 & H); [exact (finalize_same _ _ _ _ HS H)|exact (finalize_same _ _ _ _ (sameDev_sym _ _ HS) H)]. }
  split; [intros dev; rewrite O1, O1'; apply K|]. rewrite O2, O2'. split; intros H (w2 & dev & H2); apply H; [destruct (proj2 (K dev)) as (w3 & H3)|destruct (proj1 (K dev)) as (w3 & H3)]; eauto.
Qed.
(** What Process does with a description does not depend on the order of siblings: if the rules hold that make every derivedFrom clear (only
    peripherals are derived, by name; the name stated is that of one peripheral), both descriptions yield the same device - the elements of
    the device in the same order, with the same attributes -, or both are rejected. *)
Theorem C53_order_of_siblings_partial : forall d d', DerivedRules (sdv_periphs d) -> ClearBases (sdv_periphs d) -> Shuffled d d' ->
  (forall dev, (exists ws, Processes d ws dev) <-> (exists ws, Processes d' ws dev)) /\ ((exists e, Rejects d e) <-> (exists e, Rejects d' e)).
Proof.
  intros d d' HD HC (l & HR & ->). assert (HD' := rules_shuffled _ _ HR HD). destruct (C52_resolved d HD) as (w & i & R & Eb & X). destruct (C52_resolved (set_periphs d l) HD') as (w' & i' & R' & Eb' & X').
  apply (same_outcome _ _ _ _ _ _ R R'). split; [rewrite Eb, Eb'; reflexivity|]. exact (expansion_same _ _ HR HD HC (rules_quiet _ HD) (rules_quiet _ HD') _ _ X X').
Qed.
(** The same if elements at any level are derived, each from one beside it. *)
Theorem C53_order_derived_siblings_partial : forall d d', SiblingRules (sdv_periphs d) -> Shuffled d d' ->
  (forall dev, (exists ws, Processes d ws dev) <-> (exists ws, Processes d' ws dev)) /\ ((exists e, Rejects d e) <-> (exists e, Rejects d' e)).
Proof.
  intros d d' HD (l & HR & ->). assert (HD' := sibling_rules_shuffled _ _ HR HD). destruct (C56_resolved d HD) as (w & i & R & Eb & X). destruct (C56_resolved (set_periphs d l) HD') as (w' & i' & R' & Eb' & X').
  apply (same_outcome _ _ _ _ _ _ R R'). split; [rewrite Eb, Eb'; reflexivity|]. exact (expansion_same_deep _ _ HD HD' _ _ HR X X').
Qed.

(** ** a description meeting the hypotheses *)
Definition o_F := s_field "F" (Some 0) (Some 3) None [] None.
Definition o_G := s_field "G" (Some 4) (Some 7) None [] None.
Definition o_R (fs : list svd_field) := s_reg_dim (dims 2 4) (sized 32) "R%s" 0 fs None None.
Definition o_B := s_reg_dim nodim noprops "B" 8 [] None None.
Definition o_C (l : list svd_rc) := s_clu noprops "C" 16 None l None.
Definition o_Q := s_reg_dim nodim (sized 64) "Q" 0 [] None None.
Definition o_X := s_reg_dim nodim (sized 32) "X" 128 [] None None.
Definition o_P (l : list svd_rc) := s_per_dim (dims 2 4096) noprops "P[%s]" 4096 l None None.
Definition o_Z := s_per_dim nodim noprops "Z" 65536 [o_X] None (Some "P[%s]").
Definition order_sample := s_dev [o_Z; o_P [o_C [o_R [o_F; o_G]; o_B]; o_Q]].
Definition order_sample' := s_dev [o_P [o_Q; o_C [o_B; o_R [o_G; o_F]]]; o_Z].
Definition order_result := process_device 20 order_sample.

Lemma order_sample_shuffled : Shuffled order_sample order_sample'.
Proof.
  eexists. split; [|reflexivity]. exists [o_P [o_C [o_R [o_F; o_G]; o_B]; o_Q]; o_Z]. split; [apply perm_swap|].
  assert (HF : forall f, ShufField f f) by (intros f; exists (sf_evcs f); split; [apply Permutation_refl|destruct f; reflexivity]).
  assert (HN : forall r, sr_fields r = [] -> ShufRc (SReg r) (SReg r)) by (intros r E; constructor; exists []; split; [rewrite E; exists []; split; constructor|destruct r; cbn in E; subst; reflexivity]).
  assert (HQ : ShufRc o_Q o_Q) by (apply HN; reflexivity). assert (HX : ShufRc o_X o_X) by (apply HN; reflexivity). assert (HB : ShufRc o_B o_B) by (apply HN; reflexivity).
  assert (HR : ShufRc (o_R [o_F; o_G]) (o_R [o_G; o_F])). { constructor. exists [o_G; o_F]. split; [|reflexivity]. exists [o_G; o_F]. split; [apply perm_swap|]. constructor; [apply HF|]. constructor; [apply HF|constructor]. }
  constructor; [|constructor; [|constructor]].
  - exists [o_Q; o_C [o_B; o_R [o_G; o_F]]]. split; [|reflexivity]. exists [o_Q; o_C [o_R [o_F; o_G]; o_B]]. split; [apply perm_swap|]. constructor; [exact HQ|]. constructor; [|constructor].
    apply (ShufRc_clu _ _ [o_B; o_R [o_F; o_G]]); [apply perm_swap|]. constructor; [exact HB|]. constructor; [exact HR|constructor].
  - exists [o_X]. split; [|reflexivity]. exists [o_X]. split; [apply Permutation_refl|]. constructor; [exact HX|constructor].
Qed.
Lemma order_sample_rules : DerivedRules (sdv_periphs order_sample) /\ ClearBases (sdv_periphs order_sample).
Proof.
  assert (HA : forall p x, In p (sdv_periphs order_sample) -> DeclaredRc (sp_rcs p) x -> In x (all_of order_sample)) by (intros; eapply declared_of; eassumption).
  assert (HF : forall f, DeclaredField (sdv_periphs order_sample) f -> f = o_F \/ f = o_G).
  { intros f (p & r & Hp & Hr & Hf). specialize (HA _ _ Hp Hr). cbn in HA. repeat (destruct HA as [HA|HA]; [try discriminate HA; injection HA as <-; cbn in Hf; intuition congruence|]). destruct HA. }
  assert (HB : PlainBase (sdv_periphs order_sample) o_Z (o_P [o_C [o_R [o_F; o_G]; o_B]; o_Q])). { exists "P[%s]", [o_Z], []. split; [reflexivity|]. split; [reflexivity|]. split; [reflexivity|]. split; [reflexivity|]. intros r [<-|[]]; discriminate. }
  split.
  - split; [discriminate|]. split; [|split].
    + intros p [<-|[<-|[]]]; split; [eapply Gr_via; [exact HB|]; now apply Gr_own|left; apply no_placeholder_dec; reflexivity|now apply Gr_own|right]. split; [exists "P", ""; reflexivity|]. exists 2. split; [now apply DV_own|lia].
    + intros e s He Hs. destruct e as [|p|x|f|v]; [destruct He| | |discriminate|discriminate]; [destruct He as [<-|[<-|[]]]; discriminate|]. destruct He as (p & Hp & Hx). specialize (HA _ _ Hp Hx). cbn in HA. repeat (destruct HA as [<-|HA]; [cbn in Hs; first [discriminate|injection Hs as <-; lia]|]). destruct HA.
    + intros e He Hl. destruct e as [|p|x|f|v]; [destruct He|now destruct Hl| | |].
      * destruct He as (p & Hp & Hx). specialize (HA _ _ Hp Hx). cbn in HA.
        repeat (destruct HA as [<-|HA]; [split; [reflexivity|]; split; [intros _; first [left; split; [apply no_placeholder_dec; reflexivity|intros s K; discriminate]|right; exists 2; split; [reflexivity|]; split; [lia|]; right; split; [exists "R", ""; reflexivity|]; split; [apply no_array_dec; reflexivity|]; split; [discriminate|]; split; [intros s K; discriminate|]; eexists; split; [apply Ix_none|reflexivity]]|discriminate]|]). destruct HA.
      * destruct (HF f He) as [-> | ->]; (split; [reflexivity|]; split; [intros _; left; split; [apply no_placeholder_dec; reflexivity|intros s K; discriminate]|]); intros f E; injection E as <-.
        -- exists 3, 0. split; [apply Bits_pair; [reflexivity|split; [left; discriminate|split; reflexivity]]|]. split; [left; cbn; lia|]. intros c [].
        -- exists 7, 4. split; [apply Bits_pair; [reflexivity|split; [left; discriminate|split; reflexivity]]|]. split; [left; cbn; lia|]. intros c [].
      * destruct He as (f & Hf & Hv). destruct (HF f Hf) as [-> | ->]; destruct Hv.
  - intros p path q [<-|[<-|[]]] Hd Hq HM; cbn in Hd; [|discriminate]. injection Hd as <-. destruct Hq as [<-|[<-|[]]]; [|reflexivity]. exfalso. destruct HM as [HM|(ph & ix & Hph & HM)]; [discriminate|]. cbn in HM.
    apply (subst_fun _ _ _ _ Hph) in HM. destruct Hph as [-> | ->]; discriminate HM.
Qed.
Example C53_nonvacuous : DerivedRules (sdv_periphs order_sample) /\ ClearBases (sdv_periphs order_sample) /\ Shuffled order_sample order_sample' /\ order_sample' <> order_sample /\
  Processes order_sample (fst order_result) (the_device order_result) /\
  outline (the_device order_result) = [("P0", [("Q", 4096); ("R0", 4112); ("R1", 4116); ("B", 4120)]); ("P1", [("Q", 8192); ("R0", 8208); ("R1", 8212); ("B", 8216)]);
    ("Z", [("Q", 65536); ("R0", 65552); ("R1", 65556); ("B", 65560); ("X", 65664)])].
Proof.
  destruct order_sample_rules as (H1 & H2). split; [exact H1|]. split; [exact H2|]. split; [exact order_sample_shuffled|]. split; [discriminate|]. split; [exists 20%nat; unfold the_device; vm_compute; reflexivity|vm_compute; reflexivity].
Qed.

(** the sample of C56 (arrays, lists, clusters, fields derived from those beside them, each written before its base), the other way round *)
Definition dsp_t' := s_reg "T" 128 [dsp_f; dsp_g] None None.
Definition dsp_z' := s_per "Z" 131072 [dsp_t'; dsp_r; dsp_s; dsp_c; dsp_d; dsp_u] None None.
Definition deep_sample' : svd_device := s_dev [dsp_z'; dsp_p; dsp_q].
Lemma deep_shuffled : Shuffled deep_sample deep_sample'.
Proof.
  assert (HF : forall f, ShufField f f) by (intros f; exists (sf_evcs f); split; [apply Permutation_refl|destruct f; reflexivity]).
  assert (HN : forall r, sr_fields r = [] -> ShufRc (SReg r) (SReg r)) by (intros r E; constructor; exists []; split; [rewrite E; exists []; split; constructor|destruct r; cbn in E; subst; reflexivity]).
  assert (HC : forall c r, sr_fields r = [] -> ShufRc (SClu c [SReg r]) (SClu c [SReg r])) by (intros c r E; apply (ShufRc_clu _ _ [SReg r]); [apply Permutation_refl|constructor; [now apply HN|constructor]]).
  exists [dsp_z'; dsp_p; dsp_q]. split; [|reflexivity]. exists [dsp_z; dsp_p; dsp_q].
  split; [exact (Permutation_rev [dsp_q; dsp_p; dsp_z])|].
  constructor; [|constructor; [|constructor; [|constructor]]].
  - exists [dsp_t'; dsp_r; dsp_s; dsp_c; dsp_d; dsp_u]. split; [|reflexivity]. exists [dsp_t; dsp_r; dsp_s; dsp_c; dsp_d; dsp_u]. split.
    + exact (Permutation_rev [dsp_u; dsp_d; dsp_c; dsp_s; dsp_r; dsp_t]).
    + repeat (constructor; [first [apply HN; reflexivity | apply HC; reflexivity | constructor; exists [dsp_f; dsp_g]; split; [exists [dsp_f; dsp_g]; split; [apply perm_swap|constructor; [apply HF|constructor; [apply HF|constructor]]]|reflexivity]]|]). constructor.
  - exists [dsp_a]. split; [|reflexivity]. exists [dsp_a]. split; [apply Permutation_refl|constructor; [apply HN; reflexivity|constructor]].
  - exists [dsp_b]. split; [|reflexivity]. exists [dsp_b]. split; [apply Permutation_refl|constructor; [apply HN; reflexivity|constructor]].
Qed.
Example C53_derived_nonvacuous : SiblingRules (sdv_periphs deep_sample) /\ Shuffled deep_sample deep_sample' /\ deep_sample' <> deep_sample /\ Processes deep_sample (fst deep_result) (the_device deep_result).
Proof. split; [exact deep_rules|]. split; [exact deep_shuffled|]. split; [discriminate|]. exact (proj1 (proj2 C56_nonvacuous)). Qed.

(** ** in general the order does matter *)
(** a register derived from a register one of whose fields is derived from a sibling: refused with a raw AttributeError if the derived register
    is written first, accepted otherwise *)
Definition base_B := s_reg "B" 4 [s_field "F1" (Some 0) (Some 3) None [] None; s_field "F2" (Some 4) (Some 7) None [] (Some "F1")] None None.
Definition derived_A := s_reg "A" 0 [] None (Some "B").
Definition derived_first := s_dev [s_per "P" 0 [derived_A; base_B] None None].
Definition derived_last := s_dev [s_per "P" 0 [base_B; derived_A] None None].
Lemma derived_shuffled : Shuffled derived_first derived_last.
Proof.
  eexists. split; [|reflexivity]. exists [s_per "P" 0 [derived_A; base_B] None None]. split; [apply Permutation_refl|]. constructor; [|constructor]. exists [base_B; derived_A]. split; [|reflexivity]. exists [base_B; derived_A]. split; [apply perm_swap|].
  assert (HF : forall f, ShufField f f) by (intros f; exists (sf_evcs f); split; [apply Permutation_refl|destruct f; reflexivity]).
  constructor; [|constructor; [|constructor]]; constructor.
  - eexists. split; [|reflexivity]. eexists. split; [apply Permutation_refl|]. constructor; [apply HF|]. constructor; [apply HF|constructor].
  - exists []. split; [|reflexivity]. exists []. split; constructor.
Qed.
Theorem C53_order_refuted : exists d d' ws dev e, Shuffled d d' /\ Rejects d e /\ ex_class e = AttributeError /\ Processes d' ws dev /\ outline dev = [("P", [("A", 0); ("B", 4)])].
Proof.
  set (r := process_device 20 derived_last). exists derived_first, derived_last, (fst r), (the_device r), (match snd (process_device 20 derived_first) with Err e => e | Ok _ => {| ex_class := KeyError; ex_site := "" |} end).
  split; [exact derived_shuffled|]. split; [exists 20%nat; eexists; split; [vm_compute; reflexivity|vm_compute; discriminate]|]. split; [vm_compute; reflexivity|]. split; [exists 20%nat; unfold the_device; vm_compute; reflexivity|vm_compute; reflexivity].
Qed.
Print Assumptions C53_order_of_siblings_partial.
Print Assumptions C53_order_derived_siblings_partial.
Print Assumptions C53_order_refuted.
