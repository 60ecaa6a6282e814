(** * ProcessModel: the whole pipeline.  /repo/src/svdsuite/process.py:80-134. *)
From Verif Require Import Base PyStr PyInt Types DimModel EnumModel ElemModel FinalModel ResolveModel.

(** process.py:97-106: four resolver exceptions become ProcessException, all others pass *)
Definition wrap_exn (e : exn) : exn :=
  match ex_class e with
  | EnumeratedValueContainerException | LoopException | CycleException | UnprocessedNodesException => E ProcessException (ex_site e)
  | _ => e
  end.
Definition wrap {A} (m : M A) : M A :=
  match m with (ws, Err e) => (ws, Err (wrap_exn e)) | ok => ok end.

(** process.py:90-134 _process_device *)
Definition process_device (fuel : nat) (d : svd_device) : M device :=
  ps <- wrap (resolve_peripherals fuel (sdv_periphs d)) ;;
  finalize (inherit_properties (mk_idev (process_device_base d) ps)).
