(** * EnumModel: processing of enumerated value containers.
    /repo/src/svdsuite/process.py:1184-1344. *)
From Verif Require Import Base PyStr PyInt Types.

(** itertools.product("01", repeat=n), process.py:1291: lexicographic order *)
Fixpoint product01 (n : nat) : list (list ascii) :=
  match n with
  | O => [[]]
  | S k => map (cons "0"%char) (product01 k) ++ map (cons "1"%char) (product01 k)
  end.

(** process.py:1298-1302 _replace_x_with_combination *)
Definition replace_x_with_combination (s : string) (comb : list ascii) : string :=
  fold_left (fun t b => replace_first_char "x" (String b EmptyString) t) comb s.

(** process.py:1293-1296 _replace_x_combinations *)
Definition replace_x_combinations (s : string) : list string :=
  map (replace_x_with_combination s) (product01 (count_char "x" s)).

(** int(b, 2) inside the try block of process.py:1272-1286: ValueError becomes ProcessException *)
Definition int2_or_pe (s : string) : M Z :=
  match py_int 2 s with
  | Some v => ret v
  | None => raise ProcessException "Error processing input"
  end.

(** process.py:1288-1291 _process_binary_value_with_wildcard *)
Definition process_binary_value_with_wildcard (s : string) : M (list Z) :=
  if contains "x" (lower s) then mapM int2_or_pe (replace_x_combinations (lower s))
  else v <- int2_or_pe s ;; ret [v].

(** process.py:1272-1286 _convert_enumerated_value *)
Definition convert_enumerated_value (input : string) : M (list Z) :=
  let s := replace "#" "0b" (lower input) in
  if startswith "0b" s then process_binary_value_with_wildcard (sdrop 2 s)
  else if startswith "0x" s then
    match py_int 16 s with Some v => ret [v] | None => raise ProcessException "Error processing input" end
  else if isdigit s then
    match py_int 10 s with Some v => ret [v] | None => raise ProcessException "Error processing input" end
  else raise ProcessException "Unrecognized format for input".

(** Python truthiness of [None | str] *)
Definition truthy_str (o : option string) : bool :=
  match o with Some EmptyString | None => false | Some _ => true end.

(** process.py:1238-1245: the name of one expanded value *)
Definition wildcard_name (name vtext : string) (v : Z) : string :=
  let substring := if startswith "0x" (lower vtext) then sdrop 2 vtext else lower vtext in
  if contains "x" (lower substring) then (name ++ "_" ++ str_of_Z v)%string else name.

(** process.py:1216-1249 _process_enumerated_value_resolve_wildcard *)
Definition resolve_wildcard (p : svd_ev) : M (list iev) :=
  values <- match sev_value p with
            | Some (String _ _ as t) => vs <- convert_enumerated_value t ;; ret (map (fun v => Some v) vs)
            | _ => ret [None]
            end ;;
  let one (v : option Z) : M (list iev) :=
    if String.eqb (lower (sev_name p)) "reserved" then warn W_EnumReserved ;;; ret []
    else
      let name := match v, sev_value p with
                  | Some z, Some (String _ _ as t) => wildcard_name (sev_name p) t z
                  | _, _ => sev_name p
                  end in
      ret [mk_iev name (sev_descr p) v (default false (sev_default p))] in
  ls <- mapM one values ;;
  ret (List.concat ls).

(** process.py:1305-1344 _EnumeratedValueValidator state *)
Record validator := mk_val { vl_names : list string; vl_values : list (Z * string); vl_default : option iev }.
Definition validator_init := mk_val [] [] None.

Definition has_value (v : option Z) (l : list (Z * string)) : bool :=
  match v with Some z => existsb (fun p => fst p =? z) l | None => false end.

(** process.py:1311-1341 is_value_valid.  Returns the new state and the value when it is valid
    (the code resets the value of a default entry in place). *)
Definition is_value_valid (st : validator) (v : iev) : M (validator * option iev) :=
  if mem_str (iev_name v) (vl_names st) then warn (W_EnumDupName (iev_name v)) ;;; ret (st, None)
  else if has_value (iev_value v) (vl_values st) then
    warn (W_EnumDupValue (iev_name v) (default 0 (iev_value v))) ;;; ret (st, None)
  else
    v' <- (if iev_default v then
             (match iev_value v with Some z => warn (W_EnumDefaultValue (iev_name v) z) | None => ret tt end) ;;;
             let v0 := mk_iev (iev_name v) (iev_descr v) None true in
             raise_if (is_some (vl_default st)) ProcessException "Multiple default values found" ;;;
             ret v0
           else ret v) ;;
    ret (mk_val (iev_name v' :: vl_names st)
                (match iev_value v' with Some z => (z, iev_name v') :: vl_values st | None => vl_values st end)
                (if iev_default v then Some v' else vl_default st), Some v').

(** the double loop of process.py:1203-1208 over all expanded values *)
Fixpoint validate_all (st : validator) (l : list iev) : M (validator * list iev) :=
  match l with
  | [] => ret (st, [])
  | v :: l' =>
      r <- is_value_valid st v ;;
      q <- validate_all (fst r) l' ;;
      ret (fst q, match snd r with Some v' => v' :: snd q | None => snd q end)
  end.

Fixpoint process_evs_loop (st : validator) (ps : list svd_ev) : M (validator * list iev) :=
  match ps with
  | [] => ret (st, [])
  | p :: ps' =>
      vs <- resolve_wildcard p ;;
      r <- validate_all st vs ;;
      q <- process_evs_loop (fst r) ps' ;;
      ret (fst q, snd r ++ snd q)
  end.

(** process.py:1251-1270 _extend_enumerated_values_with_default (set iteration order modelled as ascending;
    the result is sorted afterwards and the added values are distinct, so the order is unobservable) *)
Definition extend_with_default (vs : list iev) (d : iev) (lsb msb : Z) : M (list iev) :=
  raise_if (msb - lsb + 1 <? 0) TypeError "range(float)" ;;;
  let covered v := existsb (fun x => match iev_value x with Some z => z =? v | None => false end) vs in
  let uncovered := filter (fun v => negb (covered v)) (zrange 0 (2 ^ (msb - lsb + 1))) in
  let added := map (fun v => mk_iev (iev_name d ++ "_" ++ str_of_Z v)%string (iev_descr d) (Some v) false) uncovered in
  ret (filter (fun x => negb (iev_default x)) (vs ++ added)).

Definition iev_key (x : iev) : Z := default 0 (iev_value x).

(** process.py:1196-1214 _process_enumerated_values *)
Definition process_enumerated_values (ps : list svd_ev) (lsb msb : Z) : M (list iev) :=
  r <- process_evs_loop validator_init ps ;;
  vs <- match vl_default (fst r) with
        | Some d => extend_with_default (snd r) d lsb msb
        | None => ret (snd r)
        end ;;
  ret (isort (zkey_le iev_key) vs).

(** process.py:1185-1195 create_enumerated_value_container *)
Definition create_evc (p : svd_evc) (lsb msb : Z) : M ievc :=
  vs <- process_enumerated_values (sevc_evs p) lsb msb ;;
  ret (mk_ievc (sevc_name p) (sevc_header p) (default U_READ_WRITE (sevc_usage p)) vs).
