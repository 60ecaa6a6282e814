(** * PropsRaise: where exceptions other than ProcessException come from (C33, C42, C43). *)
From Verif Require Import Base PyStr PyInt Types DimModel EnumModel ElemModel FinalModel ResolveModel ProcessModel SpecProcess SpecDevice FinalErr ErrFacts KeyFacts PropsDevice PropsErrors PropsTerm Samples.
Local Open Scope string_scope.

(** C43: an exception that leaves Process is a ProcessException, or comes from one of the listed statements of the resolver (ErrFacts.raw_sources: 13 statements in four classes),
    or is the KeyError of an unknown alternate in the validation of resolved peripherals.  Every other failure, among them a derivation that would close a cycle, unusable
    enumerated value containers and elements left unprocessed, is a ProcessException; the remaining checks of the resolver (an index without an element, an element of another
    kind or level than its base, a second value for an element, no element created, a reference without an element, ...) never fire *)
Theorem C43_raw_sources : forall d e, Rejects d e ->
  ex_class e = ProcessException \/ Raw e \/ (ex_class e = KeyError /\ exists w i, Resolves d w i).
Proof.
  intros d e (fuel & ws & H & HF). unfold process_device in H. apply bind_err in H as [H|(w1 & ps & w2 & H1 & H2 & _)].
  - assert (R := ra_resolve fuel (sdv_periphs d)). unfold Raises in R. destruct (resolve_peripherals fuel (sdv_periphs d)) as [w [a|e']]; cbn in H; [discriminate|].
    injection H as _ <-. cbn [snd] in R. unfold wrap_exn in *. unfold Known in R. destruct (ex_class e') eqn:E; cbn in *; auto; try contradiction; try now rewrite E in HF.
    all: rewrite ?E in *; try contradiction; auto.
  - assert (F := fe_finalize (mk_idev (process_device_base d) ps)). rewrite H2 in F. destruct F as [_ [F|F]]; cbn in F; [now left|]. right. right. split; [exact F|]. exists w1. eexists. exists fuel, ps. split; [|reflexivity]. apply wrap_ok in H1. exact H1.
Qed.
(** in particular the resolver itself raises no KeyError: the peripherals have been resolved when one leaves Process *)
Theorem C43_key_error : forall d e, Rejects d e -> ex_class e = KeyError -> exists w i, Resolves d w i.
Proof.
  intros d e H E. destruct (C43_raw_sources d e H) as [K|[(l & K & _)|[_ K]]]; [congruence| |exact K]. rewrite E in K. cbn in K. repeat (destruct K as [K|K]; [discriminate K|]). destruct K.
Qed.
(** and it carries a name that a peripheral gives as its alternatePeripheral, or a cluster (at any depth) as its alternateCluster *)
Theorem C43_key_error_names : forall d e, Rejects d e -> ex_class e = KeyError -> exists w i, Resolves d w i /\
  exists p, In p (idv_periphs i) /\ (pb_altper (ip_b p) = Some (ex_site e) \/ exists c l, Nested (IClu c l) (ip_rcs p) /\ cb_altclu (ic_b c) = Some (ex_site e)).
Proof.
  intros d e (fuel & ws & H & HF) E. unfold process_device in H. apply bind_err in H as [H|(w1 & ps & w2 & H1 & H2 & _)].
  - exfalso. assert (R := ra_resolve fuel (sdv_periphs d)). unfold Raises in R. destruct (resolve_peripherals fuel (sdv_periphs d)) as [w [a|e']]; cbn in H; [discriminate|].
    injection H as _ <-. cbn [snd] in R. unfold wrap_exn in *. unfold Known in R. destruct (ex_class e') eqn:E'; cbn in E; rewrite ?E' in E; try discriminate E. destruct R as (l & K & _). rewrite E' in K. cbn in K. repeat (destruct K as [K|K]; [discriminate K|]). destruct K.
  - exists w1. eexists. split; [exists fuel, ps; split; [apply wrap_ok in H1; exact H1|reflexivity]|]. assert (K := ke_finalize (inherit_properties (mk_idev (process_device_base d) ps))). rewrite H2 in K. specialize (K e eq_refl E). rewrite inherit_named in K.
    apply in_flat_map in K as (p & Hp & K). exists p. split; [exact Hp|]. apply in_app_iff in K as [K|K].
    + left. destruct (pb_altper (ip_b p)) as [s|]; [|destruct K]. destruct K as [<-|[]]. reflexivity.
    + right. now apply nested_alternate.
Qed.
(** C42/C60: the check for a round that finds the same elements as the one before (resolver.py:73-76) never fires: no description makes the resolver raise LoopException *)
Theorem C42_loop_check_never_fires : forall fuel ps ws e, resolve_peripherals fuel ps = (ws, Err e) -> ex_class e <> LoopException.
Proof. intros fuel ps ws e H E. assert (R := ra_resolve fuel ps). unfold Raises in R. rewrite H in R. cbn [snd] in R. unfold Known in R. rewrite E in R. exact R. Qed.
Print Assumptions C43_raw_sources.
Print Assumptions C43_key_error.
Print Assumptions C43_key_error_names.
Print Assumptions C42_loop_check_never_fires.

(** concrete rejections: a cycle of peripherals, a cycle of registers, a reference to nothing: ProcessException; a malformed dimIndex: a raw error *)
Definition error_of (d : svd_device) : option (exn_class * string) := match snd (process_device 50 d) with Err e => Some (ex_class e, ex_site e) | Ok _ => None end.
Example C43_raw_nonvacuous :
  error_of per_cycle = Some (ProcessException, "Inheritance cycle detected") /\ error_of reg_cycle = Some (ProcessException, "Inheritance cycle detected") /\
  error_of (s_dev [s_per "A" 0 [s_reg "R" 0 [] None (Some "S")] None None]) = Some (ProcessException, "Not all nodes were processed") /\
  error_of (s_dev [s_per "A" 0 [s_reg_dim (mk_sdim (Some 2) (Some 4) (Some "0-1-2") None None) noprops "R%s" 0 [] None None] None None]) = Some (ValueError, "unpack dim_index.split").
Proof. vm_compute. repeat split. Qed.

(** the list of C43_raw_sources is tight: every statement is reached by a description *)
Definition one_per (l : list svd_rc) : svd_device := s_dev [s_per "A" 0 l None None].
Definition bad_index (ix : string) : svd_device := one_per [s_reg_dim (mk_sdim (Some 2) (Some 4) (Some ix) None None) noprops "R%s" 0 [] None None].
Definition fld (n : string) (evcs : list svd_evc) (from : option string) : svd_field := s_field n (Some 0) (Some 3) None evcs from.
Definition with_values (f : list svd_field) : svd_device := one_per [s_reg "R" 0 f None None].
(** [l] in a peripheral with dim that is the base of another one: the elements derived within [l] keep an edge from their base *)
Definition in_base (l : list svd_rc) : svd_device := s_dev [s_per "D" 65536 [] None (Some "B0"); s_per_dim (mk_sdim (Some 2) (Some 4096) None None None) noprops "B[%s]" 0 l None None].
Definition dev_of (site : string) : svd_device :=
  if String.eqb site "int(dim_index)" then bad_index "0-1x"
  else if String.eqb site "unpack dim_index.split" then bad_index "0-1-2"
  else if String.eqb site "ord()" then bad_index "A-BC"
  else if String.eqb site "range(float)" then with_values [s_field "F" (Some 5) (Some 2) None [s_evc None [mk_sev "rest" None None (Some true)] None] None]
  else if String.eqb site "lsb" then in_base [s_reg "R1" 0 [] None None; s_reg "R2" 4 [] None (Some "R1")]
  else if String.eqb site "enumerated_values" then in_base [s_reg "R1" 0 [fld "X" [] None; s_field "Y" (Some 4) (Some 5) None [] (Some "X")] None None]
  else if String.eqb site "Processed attribute of node is None" then with_values [fld "X" [s_evc (Some "e") [s_ev "a" "0"] None; s_evc (Some "e") [s_ev "a" "0"] None; s_evc (Some "f") [] (Some "e")] None]
  else if String.eqb site "Multiple base nodes found for derive path" then one_per [s_reg "R" 0 [] None None; s_reg "R" 4 [] None None; s_reg "S" 8 [] None (Some "R")]
  else if String.eqb site "Base node not found" then one_per [s_clu noprops "C" 0 None [s_reg "R" 0 [] None None; s_clu noprops "E" 16 None [] (Some "A.C")] None; s_clu noprops "D" 64 None [] (Some "C")]
  else if String.eqb site "Base element not found" then one_per [s_reg "A" 0 [] None (Some "Nope"); s_reg "B" 4 [] None (Some "A")]
  else if String.eqb site "max_size can't be -1" then in_base [s_clu noprops "C" 0 None [] None; SClu (mk_sclu (mk_sdim (Some 2) (Some 16) None None None) noprops "E%s" None None None 16 (Some "C")) []]
  else if String.eqb site "Unknown node type" then in_base [s_reg "R1" 0 [fld "X" [s_evc (Some "e") [s_ev "a" "0"] None] None; s_field "Y" (Some 4) (Some 7) None [s_evc (Some "f") [] (Some "B[%s].R1.X.e")] None] None None]
  else s_dev [].
Lemma error_rejects d c s : error_of d = Some (c, s) -> c <> OutOfFuel -> Rejects d {| ex_class := c; ex_site := s |}.
Proof.
  unfold error_of. intros H HF. destruct (process_device 50 d) as [ws [a|e]] eqn:E; cbn [snd] in H; [discriminate|]. injection H as <- <-. exists 50%nat, ws. destruct e as [c s]. cbn [ex_class ex_site] in *. split; [exact E|exact HF].
Qed.
(** the statements that can raise, with the class of the exception *)
Definition raw_statements : list (exn_class * string) :=
  [(ValueError, "int(dim_index)"); (ValueError, "unpack dim_index.split"); (TypeError, "ord()"); (TypeError, "range(float)"); (AttributeError, "lsb"); (AttributeError, "enumerated_values");
   (ResolveException, "Processed attribute of node is None"); (ResolveException, "Multiple base nodes found for derive path"); (ResolveException, "Base node not found"); (ResolveException, "Base element not found");
   (ResolveException, "max_size can't be -1"); (ResolveException, "Unknown node type"); (ResolveException, "Peripherals not resolved")].
Theorem C43_sources_reached : Forall (fun cs => exists d, Rejects d {| ex_class := fst cs; ex_site := snd cs |}) raw_statements.
Proof.
  repeat (apply Forall_cons; [match goal with |- context [snd (_, ?s)] => exists (dev_of s) end; apply error_rejects; [vm_compute; reflexivity|discriminate]|]). apply Forall_nil.
Qed.
(** C43, what is true instead: an exception that is neither a ProcessException nor a KeyError leaves Process for some description exactly when it is one of the thirteen *)
Theorem C43_exact : forall c s, c <> ProcessException -> c <> KeyError ->
  ((exists d, Rejects d {| ex_class := c; ex_site := s |}) <-> In (c, s) raw_statements).
Proof.
  intros c s H1 H2. split.
  - intros (d & H). destruct (C43_raw_sources _ _ H) as [K|[(l & K1 & K2)|[K _]]]; [contradiction| |contradiction]. cbn [ex_class ex_site] in *. unfold raw_sources in K1. cbn in K1.
    repeat (destruct K1 as [K1|K1]; [injection K1 as <- <-; cbn in K2; repeat (destruct K2 as [K2|K2]; [subst s; unfold raw_statements; cbn; repeat (first [left; reflexivity|right])|]); destruct K2|]). destruct K1.
  - intros H. assert (K := C43_sources_reached). rewrite Forall_forall in K. exact (K _ H).
Qed.
(** and the classes of the exceptions that leave Process are exactly these six *)
Theorem C43_classes_exact : forall c, (exists d e, Rejects d e /\ ex_class e = c) <-> In c [ProcessException; KeyError; ValueError; TypeError; AttributeError; ResolveException].
Proof.
  intros c. split.
  - intros (d & e & H & <-). destruct (C43_raw_sources _ _ H) as [K|[(l & K1 & _)|[K _]]]; [rewrite K; cbn; auto| |rewrite K; cbn; auto]. unfold raw_sources in K1. cbn in K1.
    repeat (destruct K1 as [K1|K1]; [injection K1 as K1 _; rewrite <- K1; cbn; auto 10|]). destruct K1.
  - assert (R : forall s, In (c, s) raw_statements -> exists d e, Rejects d e /\ ex_class e = c) by (intros s H; assert (K := C43_sources_reached); rewrite Forall_forall in K; destruct (K _ H) as (d & K'); exists d; eexists; split; [exact K'|reflexivity]).
    intros [<-|[<-|[<-|[<-|[<-|[<-|[]]]]]]].
    + exists per_cycle. eexists. split; [apply (error_rejects _ ProcessException "Inheritance cycle detected"); [vm_compute; reflexivity|discriminate]|reflexivity].
    + destruct C43_only_ProcessException_refuted as [(e & K) _]. exists unknown_alternate_per, e. exact K.
    + apply (R "int(dim_index)"). cbn. auto 20.
    + apply (R "ord()"). cbn. auto 20.
    + apply (R "lsb"). cbn. auto 20.
    + apply (R "Unknown node type"). cbn. auto 20.
Qed.
Print Assumptions C43_sources_reached.
Print Assumptions C43_exact.
Print Assumptions C43_classes_exact.
