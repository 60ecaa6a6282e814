(** * SpecImage: what the processed device has to be, given the resolved intermediate device.
    Only the data types are used.  The relations say for every element either how it appears in the processed
    device or for which announced reason it is missing; [ws] are the warnings issued. *)
From Verif Require Import Base PyStr Types SpecDevice SpecDim SpecElem.

(** [chain]: the register properties of the enclosing levels, nearest first, ending with the device *)
Definition nearest_props (chain : list oprops) (p : props) : Prop :=
  nearest (map op_size chain) = Some (p_size p) /\ nearest (map op_access chain) = Some (p_access p) /\
  nearest (map op_prot chain) = Some (p_prot p) /\ nearest (map op_rv chain) = Some (p_rv p) /\
  nearest (map op_rm chain) = Some (p_rm p).

(** an enumerated value lies in the range of its field *)
Definition ev_fits (width z : Z) : Prop := 0 <= z /\ z <= 2 ^ width - 1.

Inductive EvAlign (ws : list warning) (width : Z) : list iev -> list ev -> Prop :=
| EvA_nil : EvAlign ws width [] []
| EvA_keep : forall v z l r, iev_value v = Some z -> ev_fits width z -> EvAlign ws width l r ->
    EvAlign ws width (v :: l) (mk_ev (iev_name v) (iev_descr v) z :: r)
| EvA_drop : forall v z l r, iev_value v = Some z -> ~ ev_fits width z -> In (W_EnumOutOfRange (iev_name v) z) ws ->
    EvAlign ws width l r -> EvAlign ws width (v :: l) r.

Definition EvcImage (ws : list warning) (width : Z) (c : ievc) (d : evc) : Prop :=
  evc_name d = ievc_name c /\ evc_header d = ievc_header c /\ evc_usage d = ievc_usage c /\ EvAlign ws width (ievc_evs c) (evc_evs d).

(** a field: bits and attributes kept, access from the field or else the enclosing levels, write constraint from the
    field or else its register *)
Record FieldImage (ws : list warning) (accs : list (option access)) (rwc : option write_constraint) (f : ifield) (g : field) : Prop := {
  fi_name : fb_name (f_b g) = fb_name (if_b f);
  fi_descr : fb_descr (f_b g) = fb_descr (if_b f);
  fi_lsb : fb_lsb (f_b g) = fb_lsb (if_b f);
  fi_msb : fb_msb (f_b g) = fb_msb (if_b f);
  fi_mwv : fb_mwv (f_b g) = fb_mwv (if_b f);
  fi_ra : fb_ra (f_b g) = fb_ra (if_b f);
  fi_wc : fb_wc (f_b g) = nearest [fb_wc (if_b f); rwc];
  fi_access : nearest (if_access f :: accs) = Some (f_access g);
  fi_offset : f_bit_offset g = fb_lsb (if_b f);
  fi_width : f_bit_width g = fb_msb (if_b f) - fb_lsb (if_b f) + 1;
  fi_range : f_bit_range g = (fb_msb (if_b f), fb_lsb (if_b f));
  fi_evcs : exists cs, Permutation cs (f_evcs g) /\ Forall2 (EvcImage ws (fb_msb (if_b f) - fb_lsb (if_b f) + 1)) (if_evcs f) cs }.

Inductive FieldsAlign (ws : list warning) (accs : list (option access)) (rwc : option write_constraint) : list ifield -> list field -> Prop :=
| FA_nil : FieldsAlign ws accs rwc [] []
| FA_keep : forall f g l r, FieldImage ws accs rwc f g -> lower (fb_name (if_b f)) <> "reserved" -> FieldsAlign ws accs rwc l r ->
    FieldsAlign ws accs rwc (f :: l) (g :: r)
| FA_drop : forall f l r, lower (fb_name (if_b f)) = "reserved" -> In W_FieldReserved ws -> FieldsAlign ws accs rwc l r ->
    FieldsAlign ws accs rwc (f :: l) r.

Definition i_name (x : irc) : string := match x with IReg r => rb_name (ir_b r) | IClu c _ => cb_name (ic_b c) end.
Definition i_props (x : irc) : oprops := match x with IReg r => ir_props r | IClu c _ => ic_props c end.

Inductive Image (ws : list warning) : list oprops -> irc -> rc -> Prop :=
| Im_reg : forall chain r q gs, r_b q = ir_b r -> lower (rb_name (ir_b r)) <> "reserved" ->
    nearest_props (ir_props r :: chain) (r_props q) ->
    FieldsAlign ws (map op_access (ir_props r :: chain)) (rb_wc (ir_b r)) (ir_fields r) gs -> Listed (fun g => fb_lsb (f_b g)) gs (r_fields q) ->
    Image ws chain (IReg r) (Reg q)
| Im_clu : forall chain c l d ch ys, c_b d = ic_b c -> nearest_props (ic_props c :: chain) (c_props d) ->
    Align ws (ic_props c :: chain) l ys -> Permutation ys ch ->
    Image ws chain (IClu c l) (Clu d ch)
with Align (ws : list warning) : list oprops -> list irc -> list rc -> Prop :=
| Al_nil : forall chain, Align ws chain [] []
| Al_keep : forall chain x y l ys, Image ws chain x y -> Align ws chain l ys -> Align ws chain (x :: l) (y :: ys)
| Al_drop : forall chain x l ys, Omitted ws chain x -> Align ws chain l ys -> Align ws chain (x :: l) ys
with Omitted (ws : list warning) : list oprops -> irc -> Prop :=
| Om_reserved : forall chain r, lower (rb_name (ir_b r)) = "reserved" -> In W_RegReserved ws -> Omitted ws chain (IReg r)
| Om_size : forall chain x s, nearest (map op_size (i_props x :: chain)) = Some s -> s mod 8 <> 0 -> In (W_RcSize (i_name x)) ws ->
    Omitted ws chain x
| Om_empty : forall chain c l, Align ws (ic_props c :: chain) l [] -> In (W_ClusterEmpty (cb_name (ic_b c))) ws ->
    Omitted ws chain (IClu c l).

(** a peripheral *)
Inductive PerImage (ws : list warning) (dev : oprops) : iper -> per -> Prop :=
| PI : forall p q ys, pr_b q = ip_b p -> nearest_props [ip_props p; dev] (pr_props q) ->
    Align ws [ip_props p; dev] (ip_rcs p) ys -> Permutation ys (pr_rcs q) -> PerImage ws dev p q.
Inductive PerOmitted (ws : list warning) (dev : oprops) : iper -> Prop :=
| PO_size : forall p s, nearest [op_size (ip_props p); op_size dev] = Some s -> s mod 8 <> 0 -> In (W_PeriphSize (pb_name (ip_b p))) ws ->
    PerOmitted ws dev p
| PO_empty : forall p, Align ws [ip_props p; dev] (ip_rcs p) [] -> In (W_PeriphEmpty (pb_name (ip_b p))) ws -> PerOmitted ws dev p.
Inductive PersAlign (ws : list warning) (dev : oprops) : list iper -> list per -> Prop :=
| PA_nil : PersAlign ws dev [] []
| PA_keep : forall p q l r, PerImage ws dev p q -> PersAlign ws dev l r -> PersAlign ws dev (p :: l) (q :: r)
| PA_drop : forall p l r, PerOmitted ws dev p -> PersAlign ws dev l r -> PersAlign ws dev (p :: l) r.

Definition dev_oprops (b : dev_base) : oprops :=
  let p := db_props b in mk_oprops (Some (p_size p)) (Some (p_access p)) (Some (p_prot p)) (Some (p_rv p)) (Some (p_rm p)).
Definition DevImage (ws : list warning) (d : idevice) (dev : device) : Prop :=
  dv_b dev = idv_b d /\ exists ys, PersAlign ws (dev_oprops (idv_b d)) (idv_periphs d) ys /\ Permutation ys (dv_periphs dev).

(** ** Reading the image along paths *)
(** [IBelow l chain x]: [x] occurs in the forest [l] of resolved elements; [chain] are its own properties followed by those of the
    enclosing clusters, nearest first; [path] the names on the way *)
Inductive IBelow : list irc -> list string -> list oprops -> irc -> Prop :=
| IB_here : forall l x, In x l -> IBelow l [i_name x] [i_props x] x
| IB_deep : forall l c ch path chain x, In (IClu c ch) l -> IBelow ch path chain x ->
    IBelow l (cb_name (ic_b c) :: path) (chain ++ [ic_props c]) x.
Inductive PBelow : list rc -> list string -> rc -> Prop :=
| PB_here : forall l x, In x l -> PBelow l [el_name x] x
| PB_deep : forall l c ch path x, In (Clu c ch) l -> PBelow ch path x -> PBelow l (cb_name (c_b c) :: path) x.

