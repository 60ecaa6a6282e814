(** * SpecExpand: what a device description stands for.
    A description is expanded level by level: a derived element takes over the attributes it does not state itself and the children of
    its base, an element with dim stands for dim instances, the children are listed in ascending order.  Nothing here mentions the
    graph that the code works on.  [parsed] and [processed] only sum up the kinds of elements before and after processing. *)
From Verif Require Import Base PyStr PyInt Types DimModel EnumModel ElemModel ResolveModel ResolveInv SpecDim SpecElem SpecDeclared PropsDim PropsElem.

Definition level_of (e : parsed) : level :=
  match e with
  | PaDev => LDevice | PaPer _ => LPeripheral | PaRc (SReg _) => LRegister | PaRc (SClu _ _) => LCluster | PaFld _ => LField | PaEvc _ => LEnum
  end.
(** the children written below an element *)
Definition kids_of (e : parsed) : list parsed :=
  match e with
  | PaDev => []
  | PaPer p => map PaRc (sp_rcs p)
  | PaRc (SClu _ l) => map PaRc l
  | PaRc (SReg r) => map PaFld (sr_fields r)
  | PaFld f => map PaEvc (sf_evcs f)
  | PaEvc _ => []
  end.

(** ** One element *)
(** its own value or else the base's *)
Definition inh {A B} (own : option B) (f : A -> option B) (base : option A) : option B := own_or own (match base with Some b => f b | None => None end).
Definition per_base_of (v : option processed) := match v with Some (PrPer b) => Some b | _ => None end.
Definition clu_base_of (v : option processed) := match v with Some (PrRc (IClu b _)) => Some b | _ => None end.
Definition reg_base_of (v : option processed) := match v with Some (PrRc (IReg b)) => Some b | _ => None end.
Definition fld_base_of (v : option processed) := match v with Some (PrFld b) => Some b | _ => None end.

Definition PropsFrom (own : oprops) (base : option oprops) (res : oprops) : Prop :=
  op_size res = inh (op_size own) op_size base /\ op_access res = inh (op_access own) op_access base /\
  op_prot res = inh (op_prot own) op_prot base /\ op_rv res = inh (op_rv own) op_rv base /\ op_rm res = inh (op_rm own) op_rm base.

(** [Attributes e base v]: the attributes of [v] that do not depend on the instance; [base] is the value of the base, if any *)
Definition Attributes (e : parsed) (base : option processed) (v : processed) : Prop :=
  match e, v with
  | PaPer p, PrPer r =>
      let b := per_base_of base in let bb := option_map ip_b b in
      pb_version (ip_b r) = inh (sp_version p) pb_version bb /\ pb_descr (ip_b r) = inh (sp_descr p) pb_descr bb /\
      pb_altper (ip_b r) = inh (sp_altper p) pb_altper bb /\ pb_group (ip_b r) = inh (sp_group p) pb_group bb /\
      pb_prepend (ip_b r) = inh (sp_prepend p) pb_prepend bb /\ pb_append (ip_b r) = inh (sp_append p) pb_append bb /\
      pb_header (ip_b r) = sp_header p /\ pb_disable (ip_b r) = inh (sp_disable p) pb_disable bb /\
      (sp_abs p = [] -> pb_abs (ip_b r) = match bb with Some x => pb_abs x | None => [] end) /\
      (sp_abs p <> [] -> exists l, Forall2 SameBlock (sp_abs p) l /\ Listed ab_offset l (pb_abs (ip_b r))) /\
      Listed int_value (sp_ints p) (pb_ints (ip_b r)) /\
      PropsFrom (sp_props p) (option_map ip_props b) (ip_props r)
  | PaRc (SClu c _), PrRc (IClu r _) =>
      let b := clu_base_of base in let bb := option_map ic_b b in
      cb_descr (ic_b r) = inh (sc_descr c) cb_descr bb /\ cb_altclu (ic_b r) = inh (sc_altclu c) cb_altclu bb /\
      cb_header (ic_b r) = inh (sc_header c) cb_header bb /\ PropsFrom (sc_props c) (option_map ic_props b) (ic_props r)
  | PaRc (SReg q), PrRc (IReg r) =>
      let b := reg_base_of base in let bb := option_map ir_b b in
      rb_descr (ir_b r) = inh (sr_descr q) rb_descr bb /\ rb_altgroup (ir_b r) = inh (sr_altgroup q) rb_altgroup bb /\
      rb_altreg (ir_b r) = inh (sr_altreg q) rb_altreg bb /\ rb_dtype (ir_b r) = inh (sr_dtype q) rb_dtype bb /\
      rb_mwv (ir_b r) = match inh (sr_mwv q) (fun x => Some (rb_mwv x)) bb with Some m => m | None => MWV_MODIFY end /\
      rb_wc (ir_b r) = inh (sr_wc q) rb_wc bb /\ rb_ra (ir_b r) = inh (sr_ra q) rb_ra bb /\
      PropsFrom (sr_props q) (option_map ir_props b) (ir_props r)
  | PaFld q, PrFld r =>
      let b := fld_base_of base in let bb := option_map if_b b in
      fb_descr (if_b r) = inh (sf_descr q) fb_descr bb /\
      fb_mwv (if_b r) = match inh (sf_mwv q) (fun x => Some (fb_mwv x)) bb with Some m => m | None => MWV_MODIFY end /\
      fb_wc (if_b r) = inh (sf_wc q) fb_wc bb /\ fb_ra (if_b r) = inh (sf_ra q) fb_ra bb /\
      if_access r = inh (sf_access q) if_access b
  | _, _ => False
  end.
Definition eff_display (e : parsed) (base : option processed) : option string :=
  own_or (parsed_display e) (match e with PaRc (SReg _) => match base with Some b => processed_display b | None => None end | _ => None end).
(** dim, dimIncrement, dimIndex that an element passes on to the elements derived from it *)
Definition dim_of_base (e : parsed) (base : option processed) : idim := mk_idim (eff_dim e base) (eff_inc e base) (eff_index e base).
Definition none_dim : idim := mk_idim None None None.

(** [Described e base vs tv]: the element [e], derived from an element with the value [base] if any, stands for the instances [vs];
    [tv]: the value that an element derived from the whole array or list takes over. *)
Inductive Described (e : parsed) (base : option processed) : list processed -> option processed -> Prop :=
| Single v : ~ has_placeholder (parsed_name e) ->
    processed_name v = parsed_name e -> Placed e base 0 v -> Attributes e base v ->
    processed_display v = eff_display e base -> processed_dim v = dim_of_base e base ->
    (forall s, eff_display e base = Some s -> ~ has_placeholder s) ->
    Described e base [v] None
| Many vs tv n idx ph : eff_dim e base = Some n -> 1 <= n -> Z.of_nat (length vs) = n -> length idx = length vs ->
    (is_array (parsed_name e) /\ ph = "[%s]" /\ idx = map str_of_Z (zrange 0 n) \/
     ~ is_array (parsed_name e) /\ ph = "%s" /\ has_placeholder (parsed_name e) /\ (forall l, Index n (eff_index e base) l -> Z.of_nat (length l) = n -> idx = l)) ->
    (forall k v, nth_error vs k = Some v -> exists ix, nth_error idx k = Some ix /\
       Subst ph ix (parsed_name e) (processed_name v) /\ Placed e base (Z.of_nat k * default 0 (eff_inc e base)) v /\ Attributes e base v /\
       (eff_display e base = None -> processed_display v = None) /\
       (forall s, eff_display e base = Some s -> exists s' s'', Subst ph ix s s' /\ Subst "[%s]" (str_of_Z (Z.of_nat k)) s' s'' /\ processed_display v = Some s'') /\
       processed_dim v = none_dim) ->
    processed_name tv = parsed_name e -> Placed e base 0 tv -> Attributes e base tv -> processed_dim tv = dim_of_base e base ->
    (forall v, nth_error vs 0 = Some v -> processed_display tv = processed_display v) ->
    Described e base vs (Some tv).

(** ** Derivation *)
(** the name a derivedFrom path ends with *)
Definition path_end (path : string) : string := last (split_on "." path) "".

(** [e], or one of the elements that [e] stands for if it is an array or list, may be called [name] *)
Definition MayBeCalled (e : parsed) (name : string) : Prop :=
  parsed_name e = name \/ exists ph ix, (ph = "%s" \/ ph = "[%s]") /\ Subst ph ix (parsed_name e) name.
(** [Inside a e]: [e] is written somewhere inside of [a] *)
Inductive Inside (a : parsed) : parsed -> Prop :=
| Inside_kid e : In e (kids_of a) -> Inside a e
| Inside_deep x e : Inside a x -> In e (kids_of x) -> Inside a e.
Definition derived_cluster (e : parsed) : Prop := level_of e = LCluster /\ derived_of e <> None.

Section Expand.
  Context (ps : list svd_periph).    (* the peripherals of the description *)

  (** some element of the same kind states a derivedFrom whose last component [a] may be called *)
  Definition MayBeBase (a : parsed) : Prop :=
    Declared ps a /\ exists e path, Declared ps e /\ level_of e = level_of a /\ derived_of e = Some path /\ MayBeCalled a (path_end path).

  (** every derived peripheral states the name of another peripheral *)
  Definition PlainPeripheralBases : Prop := forall p path, In p ps -> sp_derived p = Some path ->
    split_on "." path = [path] /\ sp_name p <> path /\ exists q, In q ps /\ sp_name q = path.
  (** no cluster that may be a base contains a derived cluster *)
  Definition PlainClusterBases : Prop := forall a e, MayBeBase a -> level_of a = LCluster -> Inside a e -> ~ derived_cluster e.
  (** ... and no peripheral that may be a base does so either, unless every derived peripheral states the name of a peripheral (and not of an
      instance of one) *)
  Definition PlainBases : Prop := PlainClusterBases /\ (PlainPeripheralBases \/ forall a e, MayBeBase a -> Inside a e -> ~ derived_cluster e).

  (** no element that may be a base contains a derived register or field *)
  Definition QuietBases : Prop := forall a e, MayBeBase a -> Inside a e -> level_of e = LRegister \/ level_of e = LField -> derived_of e = None.

  (** [Elab sc e ks vs tv]: the element [e], which is one of the effective children [sc] of its parent, with its base, if it has one:
      effective children [ks], instances [vs].  A derived element has its own children and those of its base; the base is an element [eb] of
      the same kind (or one of its instances) whose name the path ends with.  If the path is a plain name, the base is one of the siblings
      [sc] of [e]; otherwise it is some element of the description. *)
  Inductive Elab : list parsed -> parsed -> list parsed -> list processed -> option processed -> Prop :=
  | Elab_own sc e vs tv : derived_of e = None -> Described e None vs tv -> Elab sc e (kids_of e) vs tv
  | Elab_derived sc e path sb eb kb vsb tvb bv vs tv : derived_of e = Some path ->
      Declared ps eb -> level_of eb = level_of e -> (split_on "." path = [path] -> sb = sc /\ In eb sc) ->
      Elab sb eb kb vsb tvb -> In bv vsb \/ tvb = Some bv -> processed_name bv = path_end path ->
      Described e (Some bv) vs tv -> Elab sc e (kids_of e ++ kb) vs tv.

  (** an enumerated value container, or the one it is derived from *)
  Inductive EffEvc : svd_evc -> svd_evc -> Prop :=
  | EffEvc_own e : sevc_derived e = None -> EffEvc e e
  | EffEvc_derived e path eb e' : sevc_derived e = Some path -> DeclaredEvc ps eb -> sevc_name eb = Some (path_end path) ->
      e' = eb \/ EffEvc eb e' -> EffEvc e e'.

End Expand.
(** an element of a description without derivedFrom *)
Definition Plainly (sc : list parsed) (e : parsed) (ks : list parsed) (vs : list processed) (tv : option processed) : Prop := ks = kids_of e /\ Described e None vs tv.

(** ** Children *)
Section Fill.
  (** [El]: what an element, being one of the given siblings, stands for, [Eff]: what an enumerated value container stands for *)
  Context (ss : Prop) (El : list parsed -> parsed -> list parsed -> list processed -> option processed -> Prop) (Eff : svd_evc -> svd_evc -> Prop).
  (** the largest size of the given elements: a size that is no multiple of 8 does not count, a missing size is taken from the context *)
  Definition size_in (ctx : Z) (x : irc) : Z :=
    match op_size (match x with IReg r => ir_props r | IClu c _ => ic_props c end) with
    | Some s => if s mod 8 =? 0 then s else 0
    | None => ctx
    end.
  Definition largest (ctx : Z) (xs : list irc) : Z := fold_right Z.max (-1) (map (size_in ctx) xs).
  Definition has_size (x : irc) : Prop := op_size (match x with IReg r => ir_props r | IClu c _ => ic_props c end) <> None.
  Definition inner (ctx : Z) (own : option Z) : Z := match own with Some s => s | None => ctx end.

  (** [Outs ctx sc e os]: the finished values of the instances of [e], which is one of [sc]; [ctx]: the size stated next above [e] (32 for the
      device).
      [Filled single ctx ks v o]: [o] is [v] with the values of its effective children [ks] put in; [single]: [e] is no array or list.
      The size of a cluster or peripheral becomes that of its largest child.  (For an array or list of clusters or peripherals this is
      claimed only if [ss] holds or all its children have sizes: the code looks up a size for a child without size in the other instances too, which
      agree unless derived registers or fields inside of bases interfere, see [QuietBases].) *)
  Inductive Outs : Z -> list parsed -> parsed -> list processed -> Prop :=
  | Outs_intro ctx sc e ks vs tv os : El sc e ks vs tv -> Forall2 (Filled (negb (is_some tv)) ctx ks) vs os -> Outs ctx sc e os
  with Filled : bool -> Z -> list parsed -> processed -> processed -> Prop :=
  | Fill_fld single ctx ks f es ics cs : ks = map PaEvc es ->
      Forall2 (fun e c => exists e' w, Eff e e' /\ create_evc e' (fb_lsb (if_b f)) (fb_msb (if_b f)) = (w, Ok c)) es ics -> Permutation ics cs ->
      usages_ok (map ievc_usage cs) ->
      Filled single ctx ks (PrFld f) (PrFld (mk_ifield (if_b f) (if_dim f) (if_access f) cs))
  | Fill_reg single ctx ks r oss fs : Forall2 (Outs ctx ks) ks oss -> Permutation (concat oss) (map PrFld fs) -> StronglySorted (leP ifield_le) fs ->
      Filled single ctx ks (PrRc (IReg r)) (PrRc (IReg (mk_ireg (ir_b r) (ir_dim r) (ir_props r) fs)))
  | Fill_clu single ctx ks c l oss xs s : ks <> [] -> Forall2 (Outs (inner ctx (op_size (ic_props c))) ks) ks oss ->
      Permutation (concat oss) (map PrRc xs) -> StronglySorted (leP irc_le) xs ->
      (ss \/ single = true \/ Forall has_size xs -> s = largest (inner ctx (op_size (ic_props c))) xs) ->
      Filled single ctx ks (PrRc (IClu c l)) (PrRc (IClu (mk_iclu (ic_b c) (ic_dim c) (with_size s (ic_props c))) xs))
  | Fill_clu_leaf single ctx c l : Filled single ctx [] (PrRc (IClu c l)) (PrRc (IClu c []))
  | Fill_per single ctx ks p oss xs s : ks <> [] -> Forall2 (Outs (inner ctx (op_size (ip_props p))) ks) ks oss ->
      Permutation (concat oss) (map PrRc xs) -> StronglySorted (leP irc_le) xs ->
      (ss \/ single = true \/ Forall has_size xs -> s = largest (inner ctx (op_size (ip_props p))) xs) ->
      Filled single ctx ks (PrPer p) (PrPer (mk_iper (ip_b p) (ip_dim p) (with_size s (ip_props p)) xs))
  | Fill_per_leaf single ctx p : Filled single ctx [] (PrPer p) (PrPer (mk_iper (ip_b p) (ip_dim p) (ip_props p) [])).

End Fill.

(** the expansion of the whole description *)
Definition Expands (ss : Prop) (El : list parsed -> parsed -> list parsed -> list processed -> option processed -> Prop) (Eff : svd_evc -> svd_evc -> Prop) (ps : list svd_periph) (l : list iper) : Prop :=
  exists oss, Forall2 (Outs ss El Eff 32 (map PaPer ps)) (map PaPer ps) oss /\ Permutation (concat oss) (map PrPer l) /\ StronglySorted (leP iper_le) l.
Definition Expansion (ps : list svd_periph) : list iper -> Prop := Expands (QuietBases ps) (Elab ps) (EffEvc ps) ps.
Definition PlainExpansion (ps : list svd_periph) : list iper -> Prop := Expands True Plainly eq ps.

(** [o] occurs in the resolved peripherals [l], at any depth *)
Inductive Occ (l : list iper) : processed -> Prop :=
| Occ_per p : In p l -> Occ l (PrPer p)
| Occ_top p x : In p l -> In x (ip_rcs p) -> Occ l (PrRc x)
| Occ_deep c ch x : Occ l (PrRc (IClu c ch)) -> In x ch -> Occ l (PrRc x)
| Occ_fld r f : Occ l (PrRc (IReg r)) -> In f (ir_fields r) -> Occ l (PrFld f).
(** the finished values of [e], being one of [sc], as they occur in [l] *)
Definition StandsFor (ps : list svd_periph) (l : list iper) (sc : list parsed) (e : parsed) (ks : list parsed) (vs : list processed) (tv : option processed) (os : list processed) : Prop :=
  Elab ps sc e ks vs tv /\ vs <> [] /\ (exists ctx, Forall2 (Filled (QuietBases ps) (Elab ps) (EffEvc ps) (negb (is_some tv)) ctx ks) vs os) /\ forall o, In o os -> Occ l o.
