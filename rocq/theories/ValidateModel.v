(** * ValidateModel: validate.py over an arbitrary XML library and file system

    lxml and the file system are parameters: reading the document and the schema file (with the fallbacks of
    XmlReadModel), compiling a schema, the verdict of a schema about a tree, and what [assertValid] raises. *)
From Verif Require Import Base PyStr PyInt XmlReadModel.

(** validate.py:9-23: the members of SVDSchemaVersion, in source order *)
Definition schema_versions : list string :=
  ["1.0"; "1.1"; "1.2"; "1.3.1"; "1.3.2"; "1.3.3"; "1.3.4"; "1.3.5"; "1.3.6"; "1.3.7"; "1.3.8"; "1.3.9"; "1.3.10"; "1.3.11"].

(** The files in /repo/src/svdsuite/schema *)
Definition packaged_schemas : list string :=
  ["1.0.xsd"; "1.1.xsd"; "1.2.xsd"; "1.3.1.xsd"; "1.3.10.xsd"; "1.3.11.xsd"; "1.3.2.xsd"; "1.3.3.xsd"; "1.3.4.xsd"; "1.3.5.xsd";
   "1.3.6.xsd"; "1.3.7.xsd"; "1.3.8.xsd"; "1.3.9.xsd"].

(** packaging.version.Version of a text of digits and dots: its release segment.  Other forms of PEP 440 (epochs, pre-, post- and
    development releases, a leading "v") do not occur in the enumeration; they are [None] here, like the texts that raise InvalidVersion. *)
Fixpoint numbers (parts : list string) : option (list Z) :=
  match parts with
  | [] => Some []
  | p :: parts' => match py_int 10 p, numbers parts' with Some n, Some l => Some (n :: l) | _, _ => None end
  end.
Definition release (s : string) : option (list Z) :=
  if sforallb (fun c => is_digit c || Ascii.eqb c ".") s then numbers (split_on "." s) else None.

(** packaging/version.py _cmpkey: trailing zeros do not count *)
Fixpoint strip_zeros (l : list Z) : list Z :=
  match l with
  | [] => []
  | x :: l' => match strip_zeros l' with
               | [] => if x =? 0 then [] else [x]
               | r => x :: r
               end
  end.

(** [<=] of Python tuples *)
Fixpoint tuple_le (a b : list Z) : bool :=
  match a, b with
  | [], _ => true
  | _ :: _, [] => false
  | x :: a', y :: b' => if x =? y then tuple_le a' b' else x <? y
  end.

Definition version_le (a b : string * list Z) : bool := tuple_le (strip_zeros (snd a)) (strip_zeros (snd b)).

(** validate.py:25-29 get_latest, for an enumeration with the given values; [None] = an exception (InvalidVersion, IndexError) *)
Fixpoint with_keys (values : list string) : option (list (string * list Z)) :=
  match values with
  | [] => Some []
  | v :: vs => match release v, with_keys vs with Some k, Some l => Some ((v, k) :: l) | _, _ => None end
  end.
Definition get_latest (values : list string) : option string :=
  match with_keys values with
  | None => None
  | Some l => match rev (isort version_le l) with [] => None | (v, _) :: _ => Some v end
  end.

(** What a call of the validator ends with: a returned verdict, ValidatorException, or an exception of the library
    (syntax errors, I/O errors, invalid schemas, DocumentInvalid) *)
Inductive verdict (X : Type) := Returned (b : bool) | SchemaNotFound (path : string) | LibraryError (e : X).
Arguments Returned {X}. Arguments SchemaNotFound {X}. Arguments LibraryError {X}.

Section Validate.
  (** [S] state of a source being read, [T] trees, [C] compiled schemas, [X] exceptions *)
  Context {S T C X : Type}.
  Context (lib : S -> option string -> bool -> S * attempt T X).   (* etree.parse / etree.fromstring with an XMLParser *)
  Context (directory : string).                                    (* os.path.dirname(__file__) *)
  Context (file_exists : string -> bool) (file_open : string -> S + X).
  Context (compile : T -> C + X) (valid : C -> T -> bool) (assert_valid : C -> T -> option X).

  (** validate.py:60 *)
  Definition xsd_path (version : string) : string := (directory ++ "/schema/" ++ version ++ ".xsd")%string.

  (** validate.py:54-71 _validate.  The fallback warnings of reading the schema file are returned with the verdict. *)
  Definition validate_tree (t : T) (get_exception : bool) (version : string) : list (string * bool) * verdict X :=
    let path := xsd_path version in
    if negb (file_exists path) then ([], SchemaNotFound path)
    else match file_open path with
         | inr e => ([], LibraryError e)
         | inl stream =>
             match snd (safe_parse lib stream) with
             | Raised e => ([], LibraryError e)
             | Parsed x fb =>
                 let ws := match fb with None => [] | Some w => [w] end in
                 match compile x with
                 | inr e => (ws, LibraryError e)
                 | inl schema =>
                     if negb (valid schema t) then
                       if get_exception then
                         match assert_valid schema t with
                         | Some e => (ws, LibraryError e)
                         | None => (ws, Returned false)
                         end
                       else (ws, Returned false)
                     else (ws, Returned true)
                 end
             end
         end.

  (** validate.py:37-52 validate_xml_file, validate_xml_content, validate_xml_str: the document is read first.
      [src] is the path, the bytes, or the encoded text.  A version not given is the latest. *)
  Definition validate (src : S) (get_exception : bool) (version : option string) : list (string * bool) * verdict X :=
    match snd (safe_parse lib src) with
    | Raised e => ([], LibraryError e)
    | Parsed t fb =>
        let ws := match fb with None => [] | Some w => [w] end in
        let v := match version with Some v => v | None => match get_latest schema_versions with Some v => v | None => "" end end in
        let '(ws', r) := validate_tree t get_exception v in (ws ++ ws', r)
    end.
End Validate.
