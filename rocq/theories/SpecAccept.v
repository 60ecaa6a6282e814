(** * SpecAccept: the rules a description has to keep to be accepted (C49, C50).
    Only the data types and the notations of PropsDim/SpecElem (dim placeholders, dimIndex, bit positions) are used. *)
From Verif Require Import Base PyStr PyInt Types DimModel ElemModel FinalModel ResolveModel SpecDim SpecElem SpecEnum SpecDevice SpecDeclared SpecExpand EnumFacts PropsDim.

(** ** The elements of the description (C49) *)
(** Either name and display name are without the placeholder; or the element is an array ("[%s]"; not for fields) or a list ("%s"; not for
    peripherals) of [n >= 1] elements, the display name of the same sort, and the dimIndex of a list gives [n] names. *)
Definition DimRules (e : parsed) : Prop :=
  (~ has_placeholder (parsed_name e) /\ forall s, parsed_display e = Some s -> ~ has_placeholder s) \/
  exists n, sd_dim (parsed_dim e) = Some n /\ 1 <= n /\
    ((is_array (parsed_name e) /\ level_of e <> LField /\ (forall s, parsed_display e = Some s -> is_array s \/ ~ has_placeholder s)) \/
     (has_placeholder (parsed_name e) /\ ~ is_array (parsed_name e) /\ level_of e <> LPeripheral /\
      (forall s, parsed_display e = Some s -> ~ is_array s) /\ exists l, Index n (sd_index (parsed_dim e)) l /\ Z.of_nat (length l) = n)).

(** decimal, hexadecimal or (with don't-care bits) binary *)
Definition hex_char (c : ascii) : Prop := In c ["0"; "1"; "2"; "3"; "4"; "5"; "6"; "7"; "8"; "9"; "a"; "b"; "c"; "d"; "e"; "f"; "A"; "B"; "C"; "D"; "E"; "F"]%char.
Inductive ValueText : string -> Prop :=
| VT_dec s : digit_string s -> ValueText s
| VT_hex p s : p = "0x" \/ p = "0X" -> s <> "" -> all_chars hex_char s -> ValueText (p ++ s)
| VT_bin p s : bin_prefix p -> wild_literal s -> ValueText (p ++ s).
Definition no_text (o : option string) : Prop := o = None \/ o = Some "".
(** the values are readable, and at most one entry, without a value, is the default *)
Definition ContainerRules (width : Z) (c : svd_evc) : Prop :=
  (forall v, In v (sevc_evs c) -> no_text (sev_value v) \/ exists t, sev_value v = Some t /\ ValueText t) /\
  ((forall v, In v (sevc_evs c) -> sev_default v <> Some true) \/
   0 <= width /\ exists l1 d l2, sevc_evs c = l1 ++ d :: l2 /\ no_text (sev_value d) /\ forall v, In v (l1 ++ l2) -> sev_default v <> Some true).
(** at most one container, or one for reading and one for writing *)
Definition UsageRules (cs : list svd_evc) : Prop :=
  (length cs <= 1)%nat \/ map sevc_usage cs = [Some U_READ; Some U_WRITE] \/ map sevc_usage cs = [Some U_WRITE; Some U_READ].
Definition FieldRules (f : svd_field) : Prop :=
  exists m l, Bits f None m l /\ UsageRules (sf_evcs f) /\ forall c, In c (sf_evcs f) -> ContainerRules (m - l + 1) c.

Definition stated_size (e : parsed) : option Z :=
  match e with PaPer p => op_size (sp_props p) | PaRc (SReg r) => op_size (sr_props r) | PaRc (SClu c _) => op_size (sc_props c) | _ => None end.
Definition ElementRules (ps : list svd_periph) : Prop :=
  ps <> [] /\ forall e, Declared ps e -> level_of e <> LEnum ->
    DimRules e /\ (forall s, stated_size e = Some s -> 0 <= s) /\ (forall f, e = PaFld f -> FieldRules f).

(** ** The resolved device (C50) *)
Definition ifield_name (f : ifield) : string := fb_name (if_b f).
Definition reserved_name (s : string) : bool := String.eqb (lower s) "reserved".
(** two fields share a bit, and can both be read, or both be written *)
Definition Clash (accs : list (option access)) (f g : ifield) : Prop :=
  (fb_lsb (if_b f) <= fb_msb (if_b g) /\ fb_lsb (if_b g) <= fb_msb (if_b f)) /\
  exists a b, nearest (if_access f :: accs) = Some a /\ nearest (if_access g :: accs) = Some b /\
    (readable a /\ readable b \/ writable a /\ writable b).
Definition FieldsFine (accs : list (option access)) (l : list ifield) : Prop :=
  let kept := filter (fun f => negb (reserved_name (ifield_name f))) l in
  NoDup (map ifield_name kept) /\
  (forall f c v, In f kept -> In c (if_evcs f) -> In v (ievc_evs c) -> iev_value v <> None) /\
  ForallOrdPairs (fun f g => ~ Clash accs f g) kept.

(** the name that has to be unique among the siblings *)
Definition i_lookup_name (x : irc) : string :=
  match x with
  | IReg r => match rb_altgroup (ir_b r) with None | Some "" => rb_name (ir_b r) | Some g => (rb_name (ir_b r) ++ "_" ++ g)%string end
  | IClu c _ => cb_name (ic_b c)
  end.
Definition cluster_names (l : list irc) : list string := flat_map (fun x => match x with IClu c _ => [cb_name (ic_b c)] | IReg _ => [] end) l.
Definition SiblingsFine (l : list irc) : Prop :=
  NoDup (map i_lookup_name l) /\ forall c ch a, In (IClu c ch) l -> cb_altclu (ic_b c) = Some a -> In a (cluster_names l).

Definition the_props (x : irc) : oprops := match x with IReg r => ir_props r | IClu c _ => ic_props c end.
Definition size_at (chain : list oprops) (x : irc) (s : Z) : Prop := nearest (map op_size (the_props x :: chain)) = Some s.
Definition fit_size (s : Z) : Prop := s = 8 \/ s = 16 \/ s = 32 \/ s = 64 \/ s = 128.

(** [Kept chain x] / [Dropped chain x]: [x] (with the register properties [chain] of the enclosing levels) keeps the rules and appears in the
    processed device / keeps the rules but is left out; neither of them: [x] breaks a rule.  [Sift chain l ks]: [ks] is what is kept of [l] *)
Inductive Kept : list oprops -> irc -> Prop :=
| Kept_reg chain r s : size_at chain (IReg r) s -> fit_size s -> reserved_name (rb_name (ir_b r)) = false ->
    (rb_altreg (ir_b r) = None \/ rb_altgroup (ir_b r) = None) -> FieldsFine (map op_access (ir_props r :: chain)) (ir_fields r) -> Kept chain (IReg r)
| Kept_clu chain c l s ks : size_at chain (IClu c l) s -> fit_size s -> Sift (ic_props c :: chain) l ks -> SiblingsFine ks -> ks <> [] -> Kept chain (IClu c l)
with Dropped : list oprops -> irc -> Prop :=
| Drop_size chain x s : size_at chain x s -> s mod 8 <> 0 -> Dropped chain x
| Drop_reserved chain r s : size_at chain (IReg r) s -> fit_size s -> reserved_name (rb_name (ir_b r)) = true -> Dropped chain (IReg r)
| Drop_empty chain c l s : size_at chain (IClu c l) s -> fit_size s -> Sift (ic_props c :: chain) l [] -> Dropped chain (IClu c l)
with Sift : list oprops -> list irc -> list irc -> Prop :=
| Sift_nil chain : Sift chain [] []
| Sift_keep chain x l ks : Kept chain x -> Sift chain l ks -> Sift chain (x :: l) (x :: ks)
| Sift_drop chain x l ks : Dropped chain x -> Sift chain l ks -> Sift chain (x :: l) ks.

(** peripherals: [dev] are the properties of the device *)
Definition per_size (dev : oprops) (p : iper) (s : Z) : Prop := nearest [op_size (ip_props p); op_size dev] = Some s.
Definition PerChildren (dev : oprops) (p : iper) (ks : list irc) : Prop := Sift [ip_props p; dev] (ip_rcs p) ks /\ SiblingsFine ks.
Definition PerKept (dev : oprops) (p : iper) : Prop :=
  (exists ks, PerChildren dev p ks /\ ks <> []) /\ (exists s, per_size dev p s /\ s mod 8 = 0) /\ pb_abs (ip_b p) <> [].
Definition PerDropped (dev : oprops) (p : iper) : Prop :=
  PerChildren dev p [] \/ (exists ks s, PerChildren dev p ks /\ per_size dev p s /\ s mod 8 <> 0).
Inductive PerSift (dev : oprops) : list iper -> list iper -> Prop :=
| PSift_nil : PerSift dev [] []
| PSift_keep p l ks : PerKept dev p -> PerSift dev l ks -> PerSift dev (p :: l) (p :: ks)
| PSift_drop p l ks : PerDropped dev p -> PerSift dev l ks -> PerSift dev (p :: l) ks.

Definition all_props (p : props) : oprops := mk_oprops (Some (p_size p)) (Some (p_access p)) (Some (p_prot p)) (Some (p_rv p)) (Some (p_rm p)).
(** the names of the peripherals that are kept differ, and whatever a kept peripheral names as alternatePeripheral is one of them *)
Definition Acceptable (d : idevice) : Prop :=
  exists ks, PerSift (all_props (db_props (idv_b d))) (idv_periphs d) ks /\ NoDup (map (fun p => pb_name (ip_b p)) ks) /\
    forall p a, In p ks -> pb_altper (ip_b p) = Some a -> In a (map (fun p => pb_name (ip_b p)) ks).

(** ** Derived peripherals (C52) *)
(** [p] is derived from [q]: it states the name of [q], which no other peripheral has (and which is no path) *)
Definition PlainBase (ps : list svd_periph) (p q : svd_periph) : Prop :=
  exists path l1 l2, sp_derived p = Some path /\ split_on "." path = [path] /\ ps = l1 ++ q :: l2 /\ sp_name q = path /\
    forall r, In r (l1 ++ l2) -> sp_name r <> path.
(** [p] is not derived, or derived (directly or not) from a peripheral that is not *)
Inductive Grounded (ps : list svd_periph) : svd_periph -> Prop :=
| Gr_own p : sp_derived p = None -> Grounded ps p
| Gr_via p q : PlainBase ps p q -> Grounded ps q -> Grounded ps p.
(** the dim that [p] states, or else that of its base *)
Inductive DimVia (ps : list svd_periph) : svd_periph -> Z -> Prop :=
| DV_own p n : sd_dim (sp_dim p) = Some n -> DimVia ps p n
| DV_via p q n : sd_dim (sp_dim p) = None -> PlainBase ps p q -> DimVia ps q n -> DimVia ps p n.

(** Only peripherals are derived; each of them in the end from one that is not.  An array states its dim or takes it over. *)
Definition PeripheralRules (ps : list svd_periph) (p : svd_periph) : Prop :=
  Grounded ps p /\ (~ has_placeholder (sp_name p) \/ is_array (sp_name p) /\ exists n, DimVia ps p n /\ 1 <= n).
Definition DerivedRules (ps : list svd_periph) : Prop :=
  ps <> [] /\ (forall p, In p ps -> PeripheralRules ps p) /\ (forall e s, Declared ps e -> stated_size e = Some s -> 0 <= s) /\
  forall e, Declared ps e -> level_of e <> LPeripheral -> derived_of e = None /\ (level_of e <> LEnum -> DimRules e) /\ (forall f, e = PaFld f -> FieldRules f).

(** ** Derived elements at every level (C56) *)
(** [name] is the name of an instance of the array or list [x]: each placeholder is replaced by a text without "%" *)
Definition InstanceName (x : parsed) (name : string) : Prop :=
  exists ix, (forall a b, ix <> (a ++ "%" ++ b)%string) /\
    (is_array (parsed_name x) /\ Subst "[%s]" ix (parsed_name x) name \/
     ~ is_array (parsed_name x) /\ has_placeholder (parsed_name x) /\ Subst "%s" ix (parsed_name x) name).
(** [e] is derived from [b], which stands beside it: [e] states the name of [b] (no path); no other element of the same kind among [sibs], and no
    instance of an array or list among them, has that name *)
Definition SiblingBase (sibs : list parsed) (e b : parsed) : Prop :=
  exists path l1 l2, derived_of e = Some path /\ split_on "." path = [path] /\ sibs = l1 ++ b :: l2 /\ level_of b = level_of e /\ parsed_name b = path /\
    (forall x, In x (l1 ++ l2) -> level_of x = level_of e -> parsed_name x <> path) /\
    (forall x, In x sibs -> level_of x = level_of e -> ~ InstanceName x path).
(** what [e] contains: its own children and those of its base *)
Inductive Content (sibs : list parsed) : parsed -> list parsed -> Prop :=
| Co_own e : derived_of e = None -> Content sibs e (kids_of e)
| Co_via e b kb : SiblingBase sibs e b -> Content sibs b kb -> Content sibs e (kids_of e ++ kb).
(** the elements that stand side by side: the peripherals, and the contents of each element *)
Inductive Group (ps : list svd_periph) : list parsed -> Prop :=
| Gp_top : Group ps (map PaPer ps)
| Gp_in sibs e ks : Group ps sibs -> In e sibs -> Content sibs e ks -> Group ps ks.

(** what an element states, or else takes over from its base *)
Inductive Takes {A} (stated : parsed -> option A) (sibs : list parsed) : parsed -> option A -> Prop :=
| Tk_stated e x : stated e = Some x -> Takes stated sibs e (Some x)
| Tk_none e : stated e = None -> derived_of e = None -> Takes stated sibs e None
| Tk_via e b o : stated e = None -> SiblingBase sibs e b -> Takes stated sibs b o -> Takes stated sibs e o.
(** bit positions: those of the base complete what the field states *)
Inductive BitsVia (sibs : list parsed) : svd_field -> Z -> Z -> Prop :=
| BV_own f m l : sf_derived f = None -> Bits f None m l -> BitsVia sibs f m l
| BV_via f b m0 l0 m l : SiblingBase sibs (PaFld f) (PaFld b) -> BitsVia sibs b m0 l0 -> Bits f (Some (m0, l0)) m l -> BitsVia sibs f m l.

(** as [DimRules], for what the element states or takes over; a displayName that is taken over is without the placeholder *)
Definition DimRulesAt (sibs : list parsed) (e : parsed) : Prop :=
  exists display, Takes parsed_display sibs e display /\ (parsed_display e = None -> forall s, display = Some s -> ~ has_placeholder s) /\
  ((~ has_placeholder (parsed_name e) /\ forall s, display = Some s -> ~ has_placeholder s) \/
   exists n, Takes (fun x => sd_dim (parsed_dim x)) sibs e (Some n) /\ 1 <= n /\
    ((is_array (parsed_name e) /\ level_of e <> LField /\ (forall s, display = Some s -> is_array s \/ ~ has_placeholder s)) \/
     (has_placeholder (parsed_name e) /\ ~ is_array (parsed_name e) /\ level_of e <> LPeripheral /\
      (forall s, display = Some s -> ~ is_array s) /\ exists ix l, Takes (fun x => sd_index (parsed_dim x)) sibs e ix /\ Index n ix l /\ Z.of_nat (length l) = n))).
(** the bit positions, and the enumerated value containers, its own and those of its base *)
Definition FieldRulesAt (sibs : list parsed) (f : svd_field) : Prop :=
  exists m l es, BitsVia sibs f m l /\ Content sibs (PaFld f) (map PaEvc es) /\ UsageRules es /\ forall c, In c es -> ContainerRules (m - l + 1) c.
(** Any peripheral, cluster, register or field may be derived from one that stands beside it (in the end, from one that is not derived), if
    nothing inside of an element that may be a base is derived. *)
Definition SiblingRules (ps : list svd_periph) : Prop :=
  ps <> [] /\ (forall a e, MayBeBase ps a -> Inside a e -> derived_of e = None) /\
  (forall e, Declared ps e -> (level_of e = LEnum -> derived_of e = None) /\ forall s, stated_size e = Some s -> 0 <= s) /\
  forall sibs e, Group ps sibs -> In e sibs ->
    (exists ks, Content sibs e ks) /\ (level_of e <> LEnum -> DimRulesAt sibs e) /\ (forall f, e = PaFld f -> FieldRulesAt sibs f).
