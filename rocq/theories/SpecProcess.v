(** * SpecProcess: what it means that Process accepts or rejects a device description. *)
From Verif Require Import Base Types ProcessModel.

(** [Process(device)] finishes and yields [dev], having issued the warnings [ws].  (The number of rounds of the resolver is
    bounded by the fuel in the model; the result does not depend on it: [Processes_det].) *)
Definition Processes (d : svd_device) (ws : list warning) (dev : device) : Prop :=
  exists fuel, process_device fuel d = (ws, Ok dev).
(** [Process(device)] raises [e] *)
Definition Rejects (d : svd_device) (e : exn) : Prop :=
  exists fuel ws, process_device fuel d = (ws, Err e) /\ ex_class e <> OutOfFuel.
