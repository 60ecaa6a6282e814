(** * SpecElem: specifications for single elements: field bits, memory map. *)
From Verif Require Import Base PyStr Types SpecDim.

(** the text "[a:b]" possibly followed by further characters (the code accepts a prefix match) *)
Definition bit_range_text (s : string) (a b : string) : Prop :=
  digit_string a /\ digit_string b /\ exists rest, s = ("[" ++ a ++ ":" ++ b ++ "]" ++ rest)%string.

(** own value, or else the base's *)
Definition own_or {A} (own : option A) (base : option A) : option A := match own with Some a => Some a | None => base end.

(** [Bits f base msb lsb]: the bit position that a field description denotes, [base] = (msb, lsb) of the base field.
    bitRange wins over lsb/msb, which wins over bitOffset/bitWidth. *)
Definition has_pair (f : svd_field) (base : option (Z * Z)) (m l : Z) : Prop :=
  (sf_lsb f <> None \/ sf_msb f <> None) /\ own_or (sf_lsb f) (option_map snd base) = Some l /\
  own_or (sf_msb f) (option_map fst base) = Some m.
Definition has_offset (f : svd_field) (base : option (Z * Z)) (m l : Z) : Prop :=
  (sf_bit_offset f <> None \/ sf_bit_width f <> None) /\ own_or (sf_bit_offset f) (option_map snd base) = Some l /\
  exists w, own_or (sf_bit_width f) (option_map (fun b => fst b - snd b + 1) base) = Some w /\ m = l + w - 1.
Inductive Bits (f : svd_field) (base : option (Z * Z)) : Z -> Z -> Prop :=
| Bits_range : forall s a b, sf_bit_range f = Some s -> bit_range_text s a b ->
    Bits f base (Z.max (dec_val 0 a) (dec_val 0 b)) (Z.min (dec_val 0 a) (dec_val 0 b))
| Bits_pair : forall m l, sf_bit_range f = None -> has_pair f base m l -> Bits f base m l
| Bits_offset : forall m l, sf_bit_range f = None -> (forall m' l', ~ has_pair f base m' l') -> has_offset f base m l -> Bits f base m l.

(** [s] lists the elements of [l] in ascending order of [key], elements with the same key in the order of [l] *)
Definition Listed {A} (key : A -> Z) (l s : list A) : Prop :=
  Permutation l s /\ StronglySorted (fun a b => key a <= key b) s /\ forall k, filter (fun a => key a =? k) s = filter (fun a => key a =? k) l.

(** a byte is allocated by an address block *)
Definition block_byte (start : Z) (a : addr_block) (x : Z) : Prop :=
  start + ab_offset a <= x <= start + ab_offset a + ab_size a - 1.
