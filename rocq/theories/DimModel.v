(** * DimModel: dim expansion.  /repo/src/svdsuite/process.py:471-503 and 1091-1181. *)
From Verif Require Import Base PyStr PyInt Types.

(** the element class passed as [type(parsed_element)] *)
Inductive elem_kind := KPeripheral | KCluster | KRegister | KField.

(** re.match(r"[0-9]+\-[0-9]+", s): a prefix match *)
Definition re_num_range (s : string) : bool :=
  let '(a, r) := span is_digit s in
  negb (String.eqb a "") &&
  match r with String c (String d _) => Ascii.eqb c "-" && is_digit d | _ => false end.

(** re.match(r"[A-Z]-[A-Z]", s) *)
Definition re_letter_range (s : string) : bool :=
  match s with String a (String b (String c _)) => is_upper a && Ascii.eqb b "-" && is_upper c | _ => false end.

(** re.match(r"[_0-9a-zA-Z]+", s) *)
Definition re_word (s : string) : bool := match s with String c _ => is_word c | EmptyString => false end.

(** re.match(r"[_0-9a-zA-Z]+(,\s*[_0-9a-zA-Z]+)+", s): word characters, a comma, optional blanks, a word character.
    (Greedy matching without backtracking is exact: the comma is no word character, and blanks are none either.) *)
Definition re_word_list (s : string) : bool :=
  let '(a, r) := span is_word s in
  negb (String.eqb a "") &&
  match r with
  | String c r' => Ascii.eqb c "," && re_word (snd (span is_space r'))
  | EmptyString => false
  end.

(** process.py:1113-1147 _process_dim_index (dim is an int here; dim < 1 re-checked) *)
Definition process_dim_index (dim : Z) (dim_index : option string) : M (list string) :=
  raise_if (dim <? 1) ProcessException "dim value must be greater than 0" ;;;
  lst <-
    match dim_index with
    | None => ret (map str_of_Z (zrange 0 dim))
    | Some s =>
        if re_num_range s then
          match split_on "-" s with
          | [a; b] =>
              match py_int 10 a, py_int 10 b with
              | Some x, Some y =>
                  raise_if (y <? x) ProcessException "dim index start value must be less than end value" ;;;
                  ret (map str_of_Z (zrange x (y + 1)))
              | _, _ => raise ValueError "int(dim_index)"
              end
          | _ => raise ValueError "unpack dim_index.split"
          end
        else if re_letter_range s then
          match split_on "-" s with
          | [a; b] =>
              match a, b with
              | String x EmptyString, String y EmptyString =>
                  raise_if (code y <=? code x)%N ProcessException "dim index start value must be less than end value" ;;;
                  ret (map (fun i => String (ascii_of_N (Z.to_N i)) EmptyString)
                           (zrange (Z.of_N (code x)) (Z.of_N (code y) + 1)))
              | _, _ => raise TypeError "ord()"
              end
          | _ => raise ValueError "unpack dim_index.split"
          end
        else if re_word_list s then ret (split_on "," (remove_spaces s))
        else if re_word s then ret [s]
        else raise ProcessException "can't resolve dim index"
    end ;;
  raise_if (negb (Z.of_nat (length lst) =? dim)) ProcessException "dim index does not match the dim value" ;;;
  ret lst.

(** process.py:1149-1163 _process_dim_array *)
Definition process_dim_array (name : string) (display : option string) (dim : Z) : M (list string * list (option string)) :=
  raise_if (match display with Some d => negb (contains "[%s]" d) && contains "%s" d | None => false end)
    ProcessException "display_name can't be a list if name is an array" ;;;
  let idx := map str_of_Z (zrange 0 dim) in
  ret (map (fun i => replace "[%s]" i name) idx,
       map (fun i => option_map (replace "[%s]" i) display) idx).

(** process.py:1165-1181 _process_dim_list *)
Definition process_dim_list (name : string) (display : option string) (dim : Z) (dim_index : option string)
  : M (list string * list (option string)) :=
  raise_if (match display with Some d => contains "[%s]" d | None => false end)
    ProcessException "display_name can't be an array if name is a list" ;;;
  idx <- process_dim_index dim dim_index ;;
  ret (map (fun i => replace "%s" i name) idx,
       map (fun i => option_map (replace "%s" i) display) idx).

(** process.py:1092-1111 process_dim *)
Definition process_dim (name : string) (display : option string) (dim : option Z) (dim_index : option string) (k : elem_kind)
  : M (list string * list (option string)) :=
  match dim with
  | None => ret ([name], [display])
  | Some d =>
      raise_if (d <? 1) ProcessException "dim value must be greater than 0" ;;;
      if contains "[%s]" name then
        match k with KField => raise ProcessException "Fields cannot use dim arrays"
                   | _ => process_dim_array name display d end
      else if contains "%s" name then
        match k with KPeripheral => raise ProcessException "Peripherals cannot use dim lists"
                   | _ => process_dim_list name display d dim_index end
      else raise ProcessException "can't resolve dim without %s"
  end.

(** process.py:471-503 _extract_and_process_dimension on the effective dim/dim_index/display_name
    (element's own value or else the base's) *)
Definition extract_dimension (name : string) (display : option string) (dim : option Z) (dim_index : option string)
  (k : elem_kind) : M (bool * list string * list (option string)) :=
  raise_if (match dim with None => contains "%s" name | Some _ => false end) ProcessException "Dim is None, but name contains %s" ;;;
  dim' <- match dim with
          | Some d => if contains "%s" name then ret (Some d) else warn (W_DimNoPlaceholder name) ;;; ret None
          | None => ret None
          end ;;
  raise_if (match display, dim' with Some d, None => contains "%s" d | _, _ => false end)
    ProcessException "Dim is None, but display_name contains %s" ;;;
  r <- process_dim name display dim' dim_index k ;;
  ret (is_some dim', fst r, snd r).
