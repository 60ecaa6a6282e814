(** * SpecSearch: what a derivedFrom path designates.
    A path is a list of names; it is followed downwards from a list of candidates. *)
From Verif Require Import Base Types ResolveModel.

(** [Leads g lv excl names cands j]: following [names] from one of [cands], never through [excl], ends in the element [j], which
    is of the kind [lv]. *)
Inductive Leads (g : graph) (lv : level) (excl : nat) : list string -> list nat -> nat -> Prop :=
| Leads_last name cands j n : In j cands -> j <> excl -> get_node g j = Some n -> n_name n = Some name -> n_level n = lv ->
    Leads g lv excl [name] cands j
| Leads_down name rest cands i n j : In i cands -> i <> excl -> get_node g i = Some n -> n_name n = Some name -> rest <> [] ->
    Leads g lv excl rest (get_element_childrens g i) j -> Leads g lv excl (name :: rest) cands j.

(** a processed register outside of any alternate group *)
Definition PlainRegister (g : graph) (j : nat) : Prop :=
  exists n r, get_node g j = Some n /\ n_processed n = Some (PrRc (IReg r)) /\ rb_altgroup (ir_b r) = None.
