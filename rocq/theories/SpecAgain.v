(** * SpecAgain: what becomes of a processed device that is described again (C31).
    Only the data types and the vocabulary for processed devices are used. *)
From Verif Require Import Base PyStr Types SpecDevice PropsDim.

(** at least one peripheral is left, and no name still carries a placeholder *)
Record Rereadable (dev : device) : Prop := {
  rd_some : dv_periphs dev <> [];
  rd_per : forall p, In p (dv_periphs dev) -> ~ has_placeholder (pb_name (pr_b p));
  rd_rc : forall p o x, In p (dv_periphs dev) -> Below (pr_rcs p) o x -> ~ has_placeholder (el_name x);
  rd_display : forall p o r s, In p (dv_periphs dev) -> Below (pr_rcs p) o (Reg r) -> rb_display (r_b r) = Some s -> ~ has_placeholder s;
  rd_field : forall p o r f, In p (dv_periphs dev) -> Below (pr_rcs p) o (Reg r) -> In f (r_fields r) -> ~ has_placeholder (fb_name (f_b f)) }.

(** ** What the second processing changes *)
(** of the enumerated values with the same name, only the first *)
Fixpoint first_names (seen : list string) (l : list ev) : list ev :=
  match l with
  | [] => []
  | v :: l' => if in_dec string_dec (ev_name v) seen then first_names seen l' else v :: first_names (ev_name v :: seen) l'
  end.
Definition again_evc (c : evc) : evc := mk_evc (evc_name c) (evc_header c) (evc_usage c) (first_names [] (evc_evs c)).
Definition again_field (f : field) : field := mk_field (f_b f) (f_access f) (f_bit_offset f) (f_bit_width f) (f_bit_range f) (map again_evc (f_evcs f)).
Definition again_reg (r : reg) : reg := mk_reg (r_b r) (r_props r) (map again_field (r_fields r)) (r_base r).

(** the size of clusters and peripherals: the largest size of the elements in it *)
Definition largest_size (l : list rc) : Z := fold_right Z.max 0 (map (fun x => p_size (el_props x)) l).
Definition sized (s : Z) (p : props) : props := mk_props s (p_access p) (p_prot p) (p_rv p) (p_rm p).
Fixpoint again (x : rc) : rc :=
  match x with
  | Reg r => Reg (again_reg r)
  | Clu c l => Clu (mk_clu (c_b c) (sized (largest_size (map again l)) (c_props c)) (c_base c) (c_end c) (c_size c)) (map again l)
  end.
Definition again_per (p : per) : per :=
  mk_per (pr_b p) (sized (largest_size (map again (pr_rcs p))) (pr_props p)) (pr_end p) (pr_end_eff p) (pr_size p) (pr_size_eff p)
    (map again (pr_rcs p)) (map again_reg (pr_regs p)).
Definition again_dev (dev : device) : device := mk_dev (dv_b dev) (map again_per (dv_periphs dev)).

(** ** When it changes nothing: the enumerated values of a container have distinct names, and the size of every cluster and peripheral is
    the largest size of the elements in it *)
Definition IsLargest (s : Z) (l : list rc) : Prop := (exists x, In x l /\ p_size (el_props x) = s) /\ forall x, In x l -> p_size (el_props x) <= s.
Record Settled (dev : device) : Prop := {
  st_enum : forall p o r f c, In p (dv_periphs dev) -> Below (pr_rcs p) o (Reg r) -> In f (r_fields r) -> In c (f_evcs f) ->
    NoDup (map ev_name (evc_evs c));
  st_clu : forall p o c ch, In p (dv_periphs dev) -> Below (pr_rcs p) o (Clu c ch) -> IsLargest (p_size (c_props c)) ch;
  st_per : forall p, In p (dv_periphs dev) -> IsLargest (p_size (pr_props p)) (pr_rcs p) }.
