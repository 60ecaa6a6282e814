(** * SpecText: what a number, a boolean and a keyword look like in a file (for C25, C26)

    Independent of the conversion functions: a grammar of numerals with their values. *)
From Verif Require Import Base.

(** [c] is the digit [d] of base [b]; letters in either case *)
Definition digit_names : list (list ascii) :=
  [["0"]; ["1"]; ["2"]; ["3"]; ["4"]; ["5"]; ["6"]; ["7"]; ["8"]; ["9"];
   ["a"; "A"]; ["b"; "B"]; ["c"; "C"]; ["d"; "D"]; ["e"; "E"]; ["f"; "F"]]%char.
Definition IsDigit (b : Z) (c : ascii) (d : Z) : Prop :=
  0 <= d < b /\ In c (nth (Z.to_nat d) digit_names []).

(** the rest of a digit string: [acc] is the value of the digits before; single underscores may separate digits *)
Inductive DigitsFrom (b : Z) : Z -> string -> Z -> Prop :=
| df_end acc : DigitsFrom b acc "" acc
| df_digit acc c d s v : IsDigit b c d -> DigitsFrom b (acc * b + d) s v -> DigitsFrom b acc (String c s) v
| df_under acc c d s v : IsDigit b c d -> DigitsFrom b (acc * b + d) s v -> DigitsFrom b acc (String "_" (String c s)) v.

(** a non-empty digit string of base [b] with value [v] *)
Definition Digits (b : Z) (s : string) (v : Z) : Prop :=
  exists c d s', s = String c s' /\ IsDigit b c d /\ DigitsFrom b d s' v.

(** decimal (leading zeros allowed), or a prefix, optionally an underscore, and digits of that base *)
Definition Unsigned (s : string) (v : Z) : Prop :=
  Digits 10 s v \/
  exists p b u r, In (p, b) [("0x", 16); ("0X", 16); ("0o", 8); ("0O", 8); ("0b", 2); ("0B", 2)] /\
    (u = "" \/ u = "_") /\ s = (p ++ u ++ r)%string /\ Digits b r v.

Definition Sign (sg : string) (v n : Z) : Prop := (sg = "" /\ n = v) \/ (sg = "+" /\ n = v) \/ (sg = "-" /\ n = - v).

(** blanks: space, tab, line feed, vertical tab, form feed, carriage return *)
Definition Blank (c : ascii) : Prop := In (N_of_ascii c) [9; 10; 11; 12; 13; 32]%N.
Definition Blanks (s : string) : Prop := forall c, In c (list_ascii_of_string s) -> Blank c.

Definition Numeral (s : string) (n : Z) : Prop :=
  exists w1 w2 sg t v, s = (w1 ++ sg ++ t ++ w2)%string /\ Blanks w1 /\ Blanks w2 /\ Sign sg v n /\ Unsigned t v.

Definition NoHash (s : string) : Prop := ~ In "#"%char (list_ascii_of_string s).

(** ** Texts *)
(** equal up to the case of ASCII letters *)
Definition SameUpToCase (s t : string) : Prop :=
  Forall2 (fun a b => a = b \/ exists k, (k < 26)%nat /\
     ((a = ascii_of_nat (65 + k) /\ b = ascii_of_nat (97 + k)) \/ (a = ascii_of_nat (97 + k) /\ b = ascii_of_nat (65 + k))))
    (list_ascii_of_string s) (list_ascii_of_string t).
(** white space as removed by str.strip(): tab to carriage return, the separators 28 to 31, space *)
Definition Space (c : ascii) : Prop := (9 <= N_of_ascii c <= 13)%N \/ (28 <= N_of_ascii c <= 32)%N.
(** [t] is [s] without its surrounding white space *)
Definition Stripped (s t : string) : Prop :=
  exists w1 w2, s = (w1 ++ t ++ w2)%string /\
    (forall c, In c (list_ascii_of_string w1) -> Space c) /\ (forall c, In c (list_ascii_of_string w2) -> Space c) /\
    (forall c r, t = String c r -> ~ Space c) /\ (forall c r, t = (r ++ String c "")%string -> ~ Space c).
(** every '#' stands for the prefix 0b *)
Fixpoint unhash (s : string) : string :=
  match s with "" => "" | String c r => if Ascii.eqb c "#" then ("0b" ++ unhash r)%string else String c (unhash r) end.
