(** * PropsMap: the memory map: C23, C24. *)
From Verif Require Import Base PyStr PyInt Types ElemModel FinalModel MapModel ProcessModel SpecProcess SpecDevice SpecElem.
From Verif Require Import FinalFacts ElemFacts Samples PropsDevice.

(** ** C23 *)
(** the map of an accepted device exists; it lists exactly the peripherals, ordered by address; every peripheral lists exactly the registers
    of the tree (with multiplicity), each with its absolute address and its own attributes *)
Theorem C23_memory_map : forall d ws dev, Processes d ws dev ->
  exists l, build_map dev = ([], Ok l) /\ StronglySorted (fun a b => mp_address a <= mp_address b) l /\ map mp_processed l = dv_periphs dev /\
  forall m, In m l -> mp_name m = pb_name (pr_b (mp_processed m)) /\ mp_descr m = pb_descr (pr_b (mp_processed m)) /\
    mp_address m = pb_base (pr_b (mp_processed m)) /\
    map mr_processed (mp_regs m) = flat_map regs_of (pr_rcs (mp_processed m)) /\
    Permutation (map mr_processed (mp_regs m)) (pr_regs (mp_processed m)) /\
    forall r, In r (mp_regs m) -> mr_address r = r_base (mr_processed r) /\
      mr_size r = p_size (r_props (mr_processed r)) /\ mr_access r = p_access (r_props (mr_processed r)) /\
      mr_prot r = p_prot (r_props (mr_processed r)) /\ mr_rv r = p_rv (r_props (mr_processed r)) /\ mr_rm r = p_rm (r_props (mr_processed r)) /\
      mr_name r = rb_name (r_b (mr_processed r)) /\ mr_display r = rb_display (r_b (mr_processed r)) /\
      mr_descr r = rb_descr (r_b (mr_processed r)) /\ mr_fields r = r_fields (mr_processed r).
Proof.
  intros d ws dev H. destruct (processes_good _ _ _ H) as [G _]. destruct (build_map_ok dev G) as (l & H1 & H2 & H3 & H4).
  exists l. split; [exact H1|]. split; [exact H2|]. split; [exact H3|]. intros m Hm. rewrite Forall_forall in H4.
  destruct (H4 m Hm) as (E1 & E2 & E3 & E4 & E5 & _). split; [exact E1|]. split; [exact E2|]. split; [exact E3|]. split; [exact E4|]. split.
  - rewrite E4. assert (Hp : In (mp_processed m) (dv_periphs dev)) by (rewrite <- H3; now apply in_map).
    destruct (C21_flattened_registers d ws dev H _ Hp) as [P _]. now symmetry.
  - intros r Hr. rewrite Forall_forall in E5. exact (E5 r Hr).
Qed.
Example C23_nonvacuous : match snd (build_map (the_device sample_result)) with
  | Ok l => map (fun m => (mp_name m, mp_range m, map (fun r => (mr_name r, mr_address r)) (mp_regs m))) l
  | Err _ => [] end =
  [("A", (4096, 4351), [("R1", 4096); ("R2", 4096); ("R3", 4098); ("T0", 4128); ("T1", 4132); ("Z", 4160); ("Y", 4168); ("X", 4172)]);
   ("B", (8192, 8447), [("R1", 8192); ("R2", 8192); ("R3", 8194); ("T0", 8224); ("T1", 8228); ("Z", 8256); ("Y", 8264); ("X", 8268)])]%string.
Proof. vm_compute. reflexivity. Qed.

(** ** C24 *)
(** lowest first byte and highest last byte of the address blocks *)
Definition Spans (start : Z) (abs : list addr_block) (lo hi : Z) : Prop :=
  (exists a, In a abs /\ lo = start + ab_offset a) /\ (forall a, In a abs -> lo <= start + ab_offset a) /\
  (exists a, In a abs /\ hi = start + ab_offset a + ab_size a - 1) /\ (forall a, In a abs -> start + ab_offset a + ab_size a - 1 <= hi).
(** no block starts inside another one and blocks are not empty *)
Definition disjoint_blocks (abs : list addr_block) : Prop :=
  (forall a, In a abs -> 0 < ab_size a) /\
  (forall a b, In a abs -> In b abs -> a = b \/ ab_offset a + ab_size a <= ab_offset b \/ ab_offset b + ab_size b <= ab_offset a).

(** [_partial]: only for address blocks that do not overlap; the general claim is false, see [C24_allocated_range_refuted] *)
Theorem C24_allocated_range_partial : forall d ws dev, Processes d ws dev ->
  forall l m, build_map dev = ([], Ok l) -> In m l -> disjoint_blocks (pb_abs (pr_b (mp_processed m))) ->
  Spans (pb_base (pr_b (mp_processed m))) (pb_abs (pr_b (mp_processed m))) (fst (mp_range m)) (snd (mp_range m)).
Proof.
  intros d ws dev H l m Hl Hm [Hpos Hdis]. destruct (processes_good _ _ _ H) as [G _]. destruct (build_map_ok dev G) as (l' & H1 & _ & _ & H4).
  rewrite Hl in H1. injection H1 as <-. rewrite Forall_forall in H4. destruct (H4 m Hm) as (_ & _ & _ & _ & _ & Er).
  destruct (mp_range m) as [lo hi]. apply allocated_range_ok in Er. destruct Er as (_ & _ & (a & Ha & -> & Ha') & (b & Hb & -> & Hb')).
  cbn [fst snd]. split; [eauto|]. split; [intros c Hc; specialize (Ha' c Hc); lia|]. split; [eauto|].
  intros c Hc. specialize (Hb' c Hc). destruct (Hdis c b Hc Hb) as [->|[Hd|Hd]]; [lia| |].
  - assert (X := Hpos b Hb). lia.
  - assert (X := Hpos b Hb). lia.
Qed.
(** the lower end is right for every layout; the upper end is the end of the block that starts last *)
Theorem C24_allocated_range_start : forall start abs ws lo hi, get_allocated_range start abs = (ws, Ok (lo, hi)) ->
  (exists a, In a abs /\ lo = start + ab_offset a) /\ (forall a, In a abs -> lo <= start + ab_offset a) /\
  (exists a, In a abs /\ hi = start + ab_offset a + ab_size a - 1 /\ forall b, In b abs -> ab_offset b <= ab_offset a).
Proof.
  intros start abs ws lo hi H. apply allocated_range_ok in H. destruct H as (_ & _ & (a & Ha & -> & Ha') & (b & Hb & -> & Hb')).
  split; [eauto|]. split; [intros c Hc; specialize (Ha' c Hc); lia|]. eauto.
Qed.
(** a small block nested in a large one *)
Definition nested_blocks : svd_device :=
  s_dev [mk_sper nodim noprops "A" None None None None None None None None 0
           [mk_sab 0 256 AB_REGISTERS None; mk_sab 16 4 AB_BUFFER None] [] [s_reg "R" 0 [] None None] None].
Theorem C24_allocated_range_refuted : exists d ws dev l m, Processes d ws dev /\ build_map dev = ([], Ok l) /\ In m l /\
  ~ Spans (pb_base (pr_b (mp_processed m))) (pb_abs (pr_b (mp_processed m))) (fst (mp_range m)) (snd (mp_range m)).
Proof.
  exists nested_blocks, (fst (process_device 20 nested_blocks)), (the_device (process_device 20 nested_blocks)). eexists. eexists.
  split; [exists 20%nat; vm_compute; reflexivity|]. split; [vm_compute; reflexivity|]. split; [left; reflexivity|].
  intros (_ & _ & _ & H). specialize (H (mk_ab 0 256 AB_REGISTERS (Some ANY)) (or_introl eq_refl)). vm_compute in H. now apply H.
Qed.
Example C24_nonvacuous : let abs := [mk_ab 32 16 AB_BUFFER None; mk_ab 0 32 AB_REGISTERS None] in
  disjoint_blocks abs /\ get_allocated_range 4096 abs = ([], Ok (4096, 4143)).
Proof.
  cbn zeta. split; [|vm_compute; reflexivity]. split.
  - intros a [<-|[<-|[]]]; cbn; lia.
  - intros a b [<-|[<-|[]]] [<-|[<-|[]]]; cbn; auto; lia.
Qed.

Print Assumptions C23_memory_map.
Print Assumptions C24_allocated_range_partial.
Print Assumptions C24_allocated_range_start.
Print Assumptions C24_allocated_range_refuted.
