(** * SpecEnum: what the don't-care notation of enumerated values means.
    Independent of the code: CMSIS-SVD, element <value> of <enumeratedValue>. *)
From Verif Require Import Base.

(** a don't-care literal: binary digits and x/X, at least one *)
Definition wild_char (c : ascii) : Prop := In c ["0"; "1"; "x"; "X"]%char.
Fixpoint all_chars (P : ascii -> Prop) (s : string) : Prop :=
  match s with EmptyString => True | String c s' => P c /\ all_chars P s' end.
Definition wild_literal (s : string) : Prop := s <> "" /\ all_chars wild_char s.

(** [v] matches the literal: it fits in as many bits as the literal has digits and each digit that is not
    a don't-care equals the corresponding bit of [v] (leftmost digit = most significant bit). *)
Definition matches (s : string) (v : Z) : Prop :=
  0 <= v < 2 ^ Z.of_nat (String.length s) /\
  forall i c, (i < String.length s)%nat -> String.get i s = Some c ->
    (c = "0"%char -> Z.testbit v (Z.of_nat (String.length s - 1 - i)) = false) /\
    (c = "1"%char -> Z.testbit v (Z.of_nat (String.length s - 1 - i)) = true).
