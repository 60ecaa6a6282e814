(** * SpecDeclared: the elements written in a device description. *)
From Verif Require Import Base Types ResolveModel.

(** [x] occurs in the forest of registers and clusters [l], at any depth *)
Inductive DeclaredRc : list svd_rc -> svd_rc -> Prop :=
| DR_here l x : In x l -> DeclaredRc l x
| DR_deep l c ch x : In (SClu c ch) l -> DeclaredRc ch x -> DeclaredRc l x.
Definition DeclaredField (ps : list svd_periph) (f : svd_field) : Prop :=
  exists p r, In p ps /\ DeclaredRc (sp_rcs p) (SReg r) /\ In f (sr_fields r).
Definition DeclaredEvc (ps : list svd_periph) (e : svd_evc) : Prop := exists f, DeclaredField ps f /\ In e (sf_evcs f).

Definition Declared (ps : list svd_periph) (p : parsed) : Prop :=
  match p with
  | PaDev => False
  | PaPer p => In p ps
  | PaRc x => exists p, In p ps /\ DeclaredRc (sp_rcs p) x
  | PaFld f => DeclaredField ps f
  | PaEvc e => DeclaredEvc ps e
  end.
