(** * XmlReadModel: util/xml_parse.py over an arbitrary XML library

    The library call [etree.parse(path, parser=XMLParser(encoding=enc, recover=r))] is any function of a state (the file
    system, the position of a stream), the encoding ([None] = not given) and the recover flag. It returns a tree, raises
    XMLSyntaxError (caught by the code) or raises something else (OSError, LookupError: not caught).
    [safe_parse] and [safe_fromstring] have the same structure; they differ only in the library function called. *)
From Verif Require Import Base.

Inductive attempt (T X : Type) := Tree (t : T) | Syntax (e : X) | Fatal (e : X).
Arguments Tree {T X}. Arguments Syntax {T X}. Arguments Fatal {T X}.

(** result of the whole call: a tree or a raised exception, and the fallback warning (encoding, recover) if one was issued *)
Inductive read_result (T X : Type) := Parsed (t : T) (fallback : option (string * bool)) | Raised (e : X).
Arguments Parsed {T X}. Arguments Raised {T X}.

(** xml_parse.py:10 *)
Definition common_encodings : list string := ["utf-8"; "windows-1252"; "iso-8859-1"; "utf-16"; "ascii"].

Section Read.
  Context {S T X : Type} (lib : S -> option string -> bool -> S * attempt T X).

  (** the loops of xml_parse.py:22-33 and 35-46 (58-69, 71-82): [inr] = returned or raised, [inl] = loop ended *)
  Fixpoint try_encodings (recover : bool) (encs : list string) (s : S) : S + (S * read_result T X) :=
    match encs with
    | [] => inl s
    | enc :: encs' =>
        match lib s (Some enc) recover with
        | (s', Tree t) => inr (s', Parsed t (Some (enc, recover)))
        | (s', Syntax _) => try_encodings recover encs' s'
        | (s', Fatal e) => inr (s', Raised e)
        end
    end.

  (** xml_parse.py:13-48 [safe_parse], 52-88 [safe_fromstring] *)
  Definition safe_parse (s : S) : S * read_result T X :=
    match lib s None false with
    | (s1, Tree t) => (s1, Parsed t None)
    | (s1, Fatal e) => (s1, Raised e)
    | (s1, Syntax original) =>
        match try_encodings false common_encodings s1 with
        | inr r => r
        | inl s2 => match try_encodings true common_encodings s2 with
                    | inr r => r
                    | inl s3 => (s3, Raised original)
                    end
        end
    end.
End Read.
