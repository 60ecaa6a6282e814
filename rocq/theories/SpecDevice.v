(** * SpecDevice: vocabulary for statements about processed devices.
    Only the data types are used here, none of the functions of the model. *)
From Verif Require Import Base Types.

(** ** Where elements are *)

(** [Below l offs x]: the register/cluster [x] occurs in the forest [l], at any depth;
    [offs] is the sum of the address offsets on the path (enclosing clusters, then [x] itself) *)
Inductive Below : list rc -> Z -> rc -> Prop :=
| Below_reg : forall l r, In (Reg r) l -> Below l (rb_offset (r_b r)) (Reg r)
| Below_clu : forall l c ch, In (Clu c ch) l -> Below l (cb_offset (c_b c)) (Clu c ch)
| Below_deep : forall l c ch o x, In (Clu c ch) l -> Below ch o x -> Below l (cb_offset (c_b c) + o) x.

(** [Siblings l s]: [s] is the list of the children of one element of the forest, or [l] itself *)
Inductive Siblings : list rc -> list rc -> Prop :=
| Sib_top : forall l, Siblings l l
| Sib_deep : forall l c ch s, In (Clu c ch) l -> Siblings ch s -> Siblings l s.

(** absolute address, name, size in bits, first and last byte of a register or cluster *)
Definition abs_addr (x : rc) : Z := match x with Reg r => r_base r | Clu c _ => c_base c end.
Definition el_name (x : rc) : string := match x with Reg r => rb_name (r_b r) | Clu c _ => cb_name (c_b c) end.
Definition el_props (x : rc) : props := match x with Reg r => r_props r | Clu c _ => c_props c end.
Definition el_altgroup (x : rc) : option string := match x with Reg r => rb_altgroup (r_b r) | Clu _ _ => None end.
Definition last_byte (x : rc) : Z := match x with Reg r => r_base r + p_size (r_props r) / 8 - 1 | Clu c _ => c_end c end.

(** the name under which a register/cluster is looked up: registers of a (non-empty) alternate group are name_group *)
Definition lookup_name (x : rc) : string :=
  match el_altgroup x with
  | None | Some "" => el_name x
  | Some g => (el_name x ++ "_" ++ g)%string
  end.

(** ** Orders *)
Definition str_lt (a b : string) : Prop := String.compare a b = Lt.
(** no group before any group; groups alphabetically *)
Definition opt_lt (a b : option string) : Prop :=
  match a, b with None, Some _ => True | Some x, Some y => str_lt x y | _, None => False end.
Definition rc_before (x y : rc) : Prop :=
  abs_addr x < abs_addr y \/
  abs_addr x = abs_addr y /\ (opt_lt (el_altgroup x) (el_altgroup y) \/
    el_altgroup x = el_altgroup y /\ (str_lt (el_name x) (el_name y) \/ el_name x = el_name y)).
Definition reg_before (x y : reg) : Prop :=
  r_base x < r_base y \/ r_base x = r_base y /\ (str_lt (rb_name (r_b x)) (rb_name (r_b y)) \/ rb_name (r_b x) = rb_name (r_b y)).
Definition per_before (x y : per) : Prop :=
  pb_base (pr_b x) < pb_base (pr_b y) \/
  pb_base (pr_b x) = pb_base (pr_b y) /\ str_lt (pb_name (pr_b x)) (pb_name (pr_b y)).

(** ** Registers of a forest, with multiplicity *)
Fixpoint regs_of (x : rc) : list reg := match x with Reg r => [r] | Clu _ l => flat_map regs_of l end.

(** ** Bits of fields *)
Definition bit_of (f : field) (b : Z) : Prop := fb_lsb (f_b f) <= b <= fb_msb (f_b f).
Definition readable (a : access) : Prop := a <> WRITE_ONLY.
Definition writable (a : access) : Prop := a <> READ_ONLY.
(** two fields may not share bits: both readable or both writable *)
Definition conflict (f g : field) : Prop :=
  (readable (f_access f) /\ readable (f_access g) \/ writable (f_access f) /\ writable (f_access g)).
(** the intervals [lsb,msb] of the two fields intersect.  (An inverted field, msb < lsb, is only warned about by the code;
    for lsb <= msb this is: some bit belongs to both.) *)
Definition intersect (f g : field) : Prop := fb_lsb (f_b f) <= fb_msb (f_b g) /\ fb_lsb (f_b g) <= fb_msb (f_b f).

(** ** Nearest specified property *)
Fixpoint nearest {A} (l : list (option A)) : option A :=
  match l with [] => None | Some a :: _ => Some a | None :: l' => nearest l' end.

(** ** Alternate declarations *)
(** [Family decls s x]: [x] is connected to [s] by alternate declarations followed in either direction;
    [(n, Some a)] in [decls] says that the element [n] declares [a] as its alternate *)
Inductive Family (decls : list (string * option string)) (s : string) : string -> Prop :=
| Fam_start : Family decls s s
| Fam_up : forall x y, Family decls s x -> In (x, Some y) decls -> Family decls s y
| Fam_down : forall x y, Family decls s x -> In (y, Some x) decls -> Family decls s y.

(** ** Overlaps *)
Definition reg_decls (l : list rc) : list (string * option string) :=
  flat_map (fun x => match x with Reg r => [(lookup_name x, rb_altreg (r_b r))] | Clu _ _ => [] end) l.
Definition clu_decls (l : list rc) : list (string * option string) :=
  flat_map (fun x => match x with Clu c _ => [(lookup_name x, cb_altclu (c_b c))] | Reg _ => [] end) l.
(** the alternate declarations of the siblings [l] permit [x] to overlap the earlier [y]: if [x] declares an alternate, [y] must be
    in the family of that alternate; otherwise [y] must declare [x] as its alternate.  Registers and clusters are looked
    up separately. *)
Definition permitted (l : list rc) (x y : rc) : Prop :=
  match x with
  | Reg r => match rb_altreg (r_b r) with
             | Some a => Family (reg_decls l) a (el_name y)
             | None => In (el_name y, Some (el_name x)) (reg_decls l)
             end
  | Clu c _ => match cb_altclu (c_b c) with
               | Some a => Family (clu_decls l) a (el_name y)
               | None => In (el_name y, Some (el_name x)) (clu_decls l)
               end
  end.
(** [y] comes before [x] in [l] *)
Definition Earlier {A} (l : list A) (y x : A) : Prop := exists l1 l2 l3, l = l1 ++ y :: l2 ++ x :: l3.

Definition per_decls (l : list per) : list (string * option string) := map (fun p => (pb_name (pr_b p), pb_altper (pr_b p))) l.
Definition per_permitted (l : list per) (x y : per) : Prop :=
  match pb_altper (pr_b x) with
  | Some a => Family (per_decls l) a (pb_name (pr_b y))
  | None => pb_altper (pr_b y) = Some (pb_name (pr_b x)) /\ pb_name (pr_b x) <> ""
  end.
