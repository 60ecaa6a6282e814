(** * PropsErrors: C43 and counterexamples for C12, C32, C35. *)
From Verif Require Import Base PyStr PyInt Types ElemModel EnumModel FinalModel ResolveModel ProcessModel SpecProcess SpecDevice.
From Verif Require Import FinalFacts EffectFacts FinalErr Samples PropsDevice.

(** ** C43 *)
(** the validation and finalization of a resolved device raises ProcessException, or KeyError (unknown alternatePeripheral or
    alternateCluster).  [_partial]: the general claim is false, see below *)
Theorem C43_finalization_errors_partial : forall d w1 i, Resolves d w1 i ->
  forall w2 e, finalize (inherit_properties i) = (w2, Err e) -> ex_class e = ProcessException \/ ex_class e = KeyError.
Proof. intros d w1 i _ w2 e H. assert (F := fe_finalize i). rewrite H in F. apply F. Qed.
(** the exceptions that can leave Process: in particular, no parser exception does, and an unusable set of enumerated value containers, a
    derivation loop, a cycle or unprocessed elements are always reported as ProcessException *)
Theorem C43_error_classes : forall d e, Rejects d e ->
  In (ex_class e) [ProcessException; ResolveException; ResolverGraphException; KeyError; ValueError; TypeError; AttributeError].
Proof.
  intros d e (fuel & ws & H & HF). unfold process_device in H. apply bind_err in H. destruct H as [H|(w1 & ps & w2 & H1 & H2 & ->)].
  - assert (R := re_resolve fuel (sdv_periphs d)). destruct (resolve_peripherals fuel (sdv_periphs d)) as [w [a|e']]; cbn in H; [discriminate|].
    injection H as _ <-. destruct R as [_ R]. cbn in R. unfold resolver_exn' in R. unfold wrap_exn in *. destruct (ex_class e') eqn:E; cbn in *; rewrite ?E in *; auto 10; destruct R as [R|R]; try discriminate; try (now destruct R); now destruct HF.
  - assert (F := fe_finalize (mk_idev (process_device_base d) ps)). rewrite H2 in F. destruct F as [_ [F|F]]; cbn in F; rewrite F; cbn; auto 10.
Qed.

(** the alternate of a peripheral/cluster does not exist: KeyError instead of ProcessException *)
Definition unknown_alternate_per := s_dev [s_per "A" 0 [s_reg "R" 0 [] None None] (Some "Nope") None].
Definition unknown_alternate_clu :=
  s_dev [s_per "A" 0 [s_clu noprops "C" 0 (Some "Nope") [s_reg "R" 0 [] None None] None] None None].
(** D derives from an instance of the dim array B, declared later, which contains a derived register: AttributeError *)
Definition leftover_derive :=
  s_dev [ s_per "D" 65536 [] None (Some "B0");
          s_per_dim (mk_sdim (Some 2) (Some 4096) None None None) noprops "B[%s]" 0
            [s_reg "R1" 0 [] None None; s_reg "R2" 4 [] None (Some "R1")] None None].
(** Q2.G2 derives from Q1.G1, which derives from a field of the derived register R: ResolveException *)
Definition field_chain :=
  s_dev [ s_per "P" 0
    [ s_reg "R0" 0 [s_field "F" (Some 0) (Some 3) None [] None] None None;
      s_reg "R" 4 [] None (Some "R0");
      s_reg "Q1" 8 [s_field "G1" None None None [] (Some "P.R.F")] None None;
      s_reg "Q2" 12 [s_field "G2" (Some 0) (Some 3) None [] (Some "P.Q1.G1")] None None ] None None ].
Theorem C43_only_ProcessException_refuted :
  (exists e, Rejects unknown_alternate_per e /\ ex_class e = KeyError) /\
  (exists e, Rejects unknown_alternate_clu e /\ ex_class e = KeyError) /\
  (exists e, Rejects leftover_derive e /\ ex_class e = AttributeError) /\
  (exists e, Rejects field_chain e /\ ex_class e = ResolveException).
Proof.
  repeat split; eexists; (split; [exists 50%nat; eexists; split; [vm_compute; reflexivity|discriminate]|reflexivity]).
Qed.

(** ** C12 *)
(** the device specifies size 16 and nothing else specifies one: peripheral and register get 32 *)
Definition device_size_16 := s_dev_props (sized 16) [s_per "A" 0 [s_reg "R" 0 [] None None] None None].
Theorem C12_device_size_refuted : exists ws dev p r, Processes device_size_16 ws dev /\ dv_periphs dev = [p] /\ pr_rcs p = [Reg r] /\
  p_size (r_props r) = 32 /\ p_size (pr_props p) = 32 /\ op_size (sdv_props device_size_16) = Some 16.
Proof.
  exists (fst (process_device 20 device_size_16)), (the_device (process_device 20 device_size_16)). eexists. eexists.
  split; [exists 20%nat; vm_compute; reflexivity|]. split; [vm_compute; reflexivity|]. repeat split.
Qed.

(** ** C32, C35: enumerated value containers *)
(** E2 derives from E1, which derives from a container of the derived register R *)
Definition enum_chain :=
  s_dev [ s_per "P" 0
    [ s_reg "R0" 0 [s_field "F" (Some 0) (Some 3) None [s_evc (Some "E0"%string) [s_ev "a" "0"; s_ev "b" "1"] None] None] None None;
      s_reg "R" 4 [] None (Some "R0");
      s_reg "Q1" 8 [s_field "G" (Some 0) (Some 3) None [s_evc (Some "E1"%string) [] (Some "P.R.F.E0")] None] None None;
      s_reg "Q2" 12 [s_field "G" (Some 0) (Some 3) None [s_evc (Some "E2"%string) [] (Some "P.Q1.G.E1")] None] None None ] None None ].
Definition reg_enums (r : reg) : string * list (option string * list string) :=
  (rb_name (r_b r), flat_map (fun f => map (fun c => (evc_name c, map ev_name (evc_evs c))) (f_evcs f)) (r_fields r)).
(** the device is accepted, E1 receives the values of E0, but E2 has no values: it was merged with the not yet merged E1 *)
Theorem C32_C35_enum_containers_refuted : exists ws dev p, Processes enum_chain ws dev /\ dv_periphs dev = [p] /\
  map reg_enums (pr_regs p) =
    [("R0", [(Some "E0", ["a"; "b"])]); ("R", [(Some "E0", ["a"; "b"])]); ("Q1", [(Some "E0", ["a"; "b"])]); ("Q2", [(Some "E1", [])])]%string.
Proof.
  exists (fst (process_device 50 enum_chain)), (the_device (process_device 50 enum_chain)). eexists.
  split; [exists 50%nat; vm_compute; reflexivity|]. split; [vm_compute; reflexivity|]. vm_compute. reflexivity.
Qed.

Print Assumptions C43_finalization_errors_partial.
Print Assumptions C43_error_classes.
Print Assumptions C43_only_ProcessException_refuted.
Print Assumptions C12_device_size_refuted.
Print Assumptions C32_C35_enum_containers_refuted.
