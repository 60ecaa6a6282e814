(** * PropsTerm: processing terminates (C42) and circular derivedFrom is never accepted (C33). *)
From Verif Require Import Base PyStr PyInt Types DimModel EnumModel ElemModel FinalModel ResolveModel ProcessModel SpecProcess SpecDim SpecDeclared SpecExpand.
From Verif Require Import EffectFacts FuelFacts ResolveInv DimFacts DescribeFacts ExpandInv ExpandFinal TermFacts PropsDim PropsDevice PropsExpand PropsErrors FinalErr Samples.

(** ** C42 *)
(** Process finishes, with a device or an exception, for every description where no derived cluster lies inside of a cluster that may be a base.
    [_partial]: the other descriptions are not covered. *)
Theorem C42_terminates_partial : forall d, PlainClusterBases (sdv_periphs d) -> (exists ws dev, Processes d ws dev) \/ (exists e, Rejects d e).
Proof.
  intros d ND. destruct (resolve_terminates (sdv_periphs d) ND) as (fuel & Hf).
  destruct (process_device fuel d) as [ws [dev|e]] eqn:E; [left; exists ws, dev, fuel; exact E|]. right. exists e, fuel, ws. split; [exact E|]. intros K.
  unfold process_device in E. apply bind_err in E. destruct E as [E|(w1 & l & w2 & E1 & E2 & ->)].
  - destruct (resolve_peripherals fuel (sdv_periphs d)) as [w [a|e']]; cbn in E; [discriminate|]. injection E as _ <-. apply Hf. cbn. unfold out_of_fuel. cbn. unfold wrap_exn in K. destruct (ex_class e') eqn:C; cbn in K; congruence.
  - assert (F := fe_finalize (mk_idev (process_device_base d) l)). rewrite E2 in F. destruct F as [_ [F|F]]; cbn in F; rewrite F in K; discriminate.
Qed.

(** ** C33 *)
(** [S] is closed under derivation: every member is derived, and whatever its path may refer to is a member again.  A cycle of derived
    elements, of any length, is such a set, and so are the elements leading into a cycle. *)
Definition Circular (ps : list svd_periph) (S : parsed -> Prop) : Prop :=
  (exists e, S e) /\
  forall e, S e -> Declared ps e /\ ~ is_evc e /\ exists path, derived_of e = Some path /\
    forall eb, Declared ps eb -> level_of eb = level_of e -> MayBeCalled eb (path_end path) -> S eb.
Lemma circular_no_elab ps (S : parsed -> Prop) : Circular ps S -> forall sc e ks vs tv, Elab ps sc e ks vs tv -> ~ S e.
Proof.
  intros [_ HS] sc e ks vs tv H. induction H as [sc e vs tv Hn _|sc e path sb eb kb vsb tvb bv vs tv Hp Hd Hl _ HE IH Hb Hn _]; intros He; destruct (HS e He) as (_ & _ & path' & Hp' & Hall); [congruence|].
  rewrite Hp in Hp'. injection Hp' as <-. apply IH. apply Hall; auto. rewrite <- Hn. exact (elab_named _ _ _ _ _ _ _ HE Hb).
Qed.
(** If some peripherals, registers or fields derive from each other in a circle, Process raises.
    [_partial]: with plain bases; for enumerated value containers the claim is false, see below. *)
Theorem C33_circular_rejected_partial : forall d S, plain_bases d -> Circular (sdv_periphs d) S -> exists e, Rejects d e.
Proof.
  intros d S ND HC. destruct (C42_terminates_partial d (proj1 ND)) as [(ws & dev & H)|H]; [exfalso|exact H].
  destruct (processes_inv _ _ _ H) as (i & w1 & w2 & HR & _ & _). destruct HC as [[e He] HS]. destruct (HS e He) as (Hd & Hev & _).
  destruct (C46_every_element d w1 i e ND HR Hd Hev) as (sc & ks & vs & tv & os & _ & _ & HE & _). exact (circular_no_elab _ S (conj (ex_intro _ e He) HS) _ _ _ _ _ HE He).
Qed.
(** In particular: peripherals that derive from each other, in a description where peripheral names are unique. *)
Lemma subst_plain ph ix s r : (ph = "%s" \/ ph = "[%s]")%string -> ~ has_placeholder s -> Subst ph ix s r -> r = s.
Proof.
  intros Hph Hs H. destruct H as [s _|a s r _ _]; [reflexivity|]. exfalso. apply Hs. destruct Hph as [-> | ->]; [now exists a, s|].
  exists (a ++ "[")%string, ("]" ++ s)%string. rewrite <- (sapp_assoc a "[" _). reflexivity.
Qed.
Theorem C33_peripheral_cycle_rejected : forall d cycle, plain_bases d -> cycle <> [] -> incl cycle (sdv_periphs d) ->
  NoDup (map sp_name (sdv_periphs d)) -> (forall p, In p (sdv_periphs d) -> ~ has_placeholder (sp_name p)) -> (forall p, In p cycle -> split_on "." (sp_name p) = [sp_name p]%list) ->
  (forall p, In p cycle -> exists q, In q cycle /\ sp_derived p = Some (sp_name q)) ->
  exists e, Rejects d e.
Proof.
  intros d cycle ND Hne Hincl Hnd Hph Hdot Hc. apply (C33_circular_rejected_partial d (fun e => exists p, In p cycle /\ e = PaPer p) ND). split.
  - destruct cycle as [|p cycle]; [congruence|]. exists (PaPer p), p. split; [now left|reflexivity].
  - intros e (p & Hp & ->). split; [exact (Hincl p Hp)|]. split; [intros []|]. destruct (Hc p Hp) as (q & Hq & Hd). exists (sp_name q). split; [exact Hd|].
    intros eb Heb Hl Hm. destruct eb as [|b|[r|c l]|f|e]; try discriminate. cbn in Heb. exists b. split; [|reflexivity]. unfold path_end in Hm. rewrite (Hdot q Hq) in Hm. cbn in Hm.
    assert (En : sp_name b = sp_name q). { destruct Hm as [Hm|(ph & ix & Hph' & Hs)]; [exact Hm|]. symmetry. exact (subst_plain _ _ _ _ Hph' (Hph b Heb) Hs). }
    assert (b = q) as ->; [|exact Hq]. assert (Hqi := Hincl q Hq). revert Hnd Heb Hqi En. clear. generalize (sdv_periphs d). induction l as [|x l IH]; cbn; intros Hnd Hb Hq En; [destruct Hb|].
    inversion Hnd as [|? ? H1 H2]; subst. destruct Hb as [->|Hb], Hq as [->|Hq]; auto; exfalso; apply H1; [rewrite En|rewrite <- En]; now apply in_map.
Qed.
(** Siblings that derive from each other by their plain names.  Elements of the same names elsewhere do not matter. *)
Definition CircularAmong (sc : list parsed) (S : parsed -> Prop) : Prop :=
  forall e, S e -> In e sc /\ exists path, derived_of e = Some path /\ split_on "." path = [path] /\
    forall eb, In eb sc -> level_of eb = level_of e -> MayBeCalled eb path -> S eb.
Lemma circular_among ps sc (S : parsed -> Prop) : CircularAmong sc S -> forall sc' e ks vs tv, Elab ps sc' e ks vs tv -> sc' = sc -> ~ S e.
Proof.
  intros HS sc' e ks vs tv H. induction H as [sc' e vs tv Hn _|sc' e path sb eb kb vsb tvb bv vs tv Hp Hd Hl Hsc HE IH Hb Hn _]; intros -> He; destruct (HS e He) as (_ & path' & Hp' & Hsp & Hall); [congruence|].
  rewrite Hp in Hp'. injection Hp' as <-. destruct (Hsc Hsp) as [-> Hin]. apply IH; [reflexivity|]. apply Hall; auto. assert (E : path_end path = path) by (unfold path_end; now rewrite Hsp). rewrite <- E, <- Hn. exact (elab_named _ _ _ _ _ _ _ HE Hb).
Qed.
Theorem C33_circular_siblings_rejected : forall d par S, plain_bases d -> Declared (sdv_periphs d) par -> derived_of par = None ->
  CircularAmong (kids_of par) S -> (exists e, S e /\ ~ is_evc e) -> exists e, Rejects d e.
Proof.
  intros d par S ND Hpar Hu HC [e [He Hev]]. destruct (C42_terminates_partial d (proj1 ND)) as [(ws & dev & H)|H]; [exfalso|exact H].
  destruct (processes_inv _ _ _ H) as (i & w1 & w2 & HR & _ & _). destruct (HC e He) as (Hin & _).
  assert (Hpe : ~ is_evc par) by (destruct par; auto; cbn in Hin; destruct Hin).
  destruct (C46_children_among_siblings d w1 i par e ND HR Hpar Hpe Hin Hev) as (sc & ks & vs & tv & os & ks' & vs' & tv' & os' & _ & (HE & _) & _ & Hks).
  exact (circular_among _ _ S HC _ _ _ _ _ HE (Hks Hu) He).
Qed.
(** In particular: registers of one peripheral, or fields of one register, whose names are unique there. *)
Theorem C33_sibling_cycle_rejected : forall d par cycle, plain_bases d -> Declared (sdv_periphs d) par -> derived_of par = None -> cycle <> [] -> incl cycle (kids_of par) ->
  (forall a, In a cycle -> ~ is_evc a) ->
  (forall a b, In a (kids_of par) -> In b (kids_of par) -> level_of a = level_of b -> parsed_name a = parsed_name b -> a = b) -> (forall a, In a (kids_of par) -> ~ has_placeholder (parsed_name a)) ->
  (forall a, In a cycle -> exists b, In b cycle /\ level_of b = level_of a /\ derived_of a = Some (parsed_name b) /\ split_on "." (parsed_name b) = [parsed_name b]) ->
  exists e, Rejects d e.
Proof.
  intros d par cycle ND Hpar Hu Hne Hincl Hev Huq Hph Hc. apply (C33_circular_siblings_rejected d par (fun e => In e cycle) ND Hpar Hu).
  - intros a Ha. split; [now apply Hincl|]. destruct (Hc a Ha) as (b & Hb & Hl & Hd & Hs). exists (parsed_name b). split; [exact Hd|]. split; [exact Hs|].
    intros eb Heb Hlb Hm. assert (En : parsed_name eb = parsed_name b) by (destruct Hm as [Hm|(ph & ix & Hph' & Hsu)]; [exact Hm|]; symmetry; exact (subst_plain _ _ _ _ Hph' (Hph eb Heb) Hsu)).
    now rewrite (Huq eb b Heb (Hincl _ Hb) ltac:(congruence) En).
  - destruct cycle as [|a l]; [congruence|]. exists a. split; [now left|]. apply Hev. now left.
Qed.
(** two registers of Q in a circle, while registers of the same names in P are fine *)
Definition reg_cycle : svd_device := s_dev [ s_per "P" 0 [s_reg "A" 0 [] None None; s_reg "B" 4 [] None (Some "A")] None None; s_per "Q" 4096 [s_reg "A" 0 [] None (Some "B"); s_reg "B" 4 [] None (Some "A")] None None ].
Example C33_siblings_nonvacuous : exists e, Rejects reg_cycle e.
Proof.
  apply (C33_sibling_cycle_rejected reg_cycle (PaPer (s_per "Q" 4096 [s_reg "A" 0 [] None (Some "B"); s_reg "B" 4 [] None (Some "A")] None None)) [PaRc (s_reg "A" 0 [] None (Some "B")); PaRc (s_reg "B" 4 [] None (Some "A"))]).
  - now apply no_derived_clusters_plain, no_derived_clusters_dec.
  - right. now left.
  - reflexivity.
  - discriminate.
  - intros x Hx. exact Hx.
  - intros a [<-|[<-|[]]] [].
  - intros a b [<-|[<-|[]]] [<-|[<-|[]]] _ E; try reflexivity; discriminate E.
  - intros p Hp K. apply PyStr.contains_spec in K. cbn in Hp. repeat (destruct Hp as [<-|Hp]; [vm_compute in K; discriminate|]). destruct Hp.
  - intros a [<-|[<-|[]]]; eexists; [split; [right; left; reflexivity|repeat split]|split; [left; reflexivity|repeat split]].
Qed.
(** three peripherals in a circle, with a fourth leading into it *)
Definition per_cycle : svd_device := s_dev [ s_per "A" 0 [s_reg "R" 0 [] None None] None (Some "B"); s_per "B" 4096 [] None (Some "C"); s_per "C" 8192 [] None (Some "A"); s_per "D" 12288 [] None (Some "A") ].
Example C33_nonvacuous : exists e, Rejects per_cycle e.
Proof.
  apply (C33_peripheral_cycle_rejected per_cycle (sdv_periphs per_cycle)).
  - now apply no_derived_clusters_plain, no_derived_clusters_dec.
  - discriminate.
  - intros x Hx. exact Hx.
  - cbn. repeat constructor; cbn; intuition discriminate.
  - intros p Hp K. apply PyStr.contains_spec in K. cbn in Hp. repeat (destruct Hp as [<-|Hp]; [vm_compute in K; discriminate|]). destruct Hp.
  - intros p Hp. cbn in Hp. repeat (destruct Hp as [<-|Hp]; [reflexivity|]). destruct Hp.
  - intros p Hp. cbn in Hp. assert (K : forall k q, nth_error (sdv_periphs per_cycle) k = Some q -> In q (sdv_periphs per_cycle)) by (intros k q; apply nth_error_In).
    repeat (destruct Hp as [<-|Hp]; [first [eexists; split; [apply (K 0%nat); reflexivity|reflexivity]|eexists; split; [apply (K 1%nat); reflexivity|reflexivity]|eexists; split; [apply (K 2%nat); reflexivity|reflexivity]]|]). destruct Hp.
Qed.
(** Two enumerated value containers derive from each other: accepted, both get the values of E2. *)
Definition enum_cycle : svd_device :=
  s_dev [ s_per "P" 0
    [ s_reg "R0" 0 [] None None;
      s_reg "R1" 4 [s_field "F" (Some 0) (Some 3) None [s_evc (Some "E1"%string) [s_ev "a" "0"] (Some "P.R2.F.E2")] None] None None;
      s_reg "R2" 8 [s_field "F" (Some 0) (Some 3) None [s_evc (Some "E2"%string) [s_ev "b" "1"] (Some "P.R1.F.E1")] None] None (Some "R0") ] None None ].
Theorem C33_enum_containers_refuted : exists ws dev p, Processes enum_cycle ws dev /\ dv_periphs dev = [p] /\
  map reg_enums (pr_regs p) = [("R0", []); ("R1", [(Some "E2", ["b"])]); ("R2", [(Some "E2", ["b"])])]%string.
Proof.
  exists (fst (process_device 50 enum_cycle)), (the_device (process_device 50 enum_cycle)). eexists.
  split; [exists 50%nat; vm_compute; reflexivity|]. split; [vm_compute; reflexivity|]. vm_compute. reflexivity.
Qed.

Print Assumptions C42_terminates_partial.
Print Assumptions C33_circular_rejected_partial.
Print Assumptions C33_peripheral_cycle_rejected.
Print Assumptions C33_circular_siblings_rejected.
Print Assumptions C33_sibling_cycle_rejected.
Print Assumptions C33_enum_containers_refuted.
