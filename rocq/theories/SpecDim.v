(** * SpecDim: the meaning of dim descriptions (CMSIS-SVD dimElementGroup), independent of the code. *)
From Verif Require Import Base PyStr.

(** [Subst ph i s r]: [r] is [s] with every occurrence of the placeholder [ph] replaced by [i] *)
Inductive Subst (ph i : string) : string -> string -> Prop :=
| Subst_none : forall s, (forall a b, s <> (a ++ ph ++ b)%string) -> Subst ph i s s
| Subst_one : forall a s r, (forall x y, a <> (x ++ ph ++ y)%string) -> Subst ph i s r ->
    Subst ph i (a ++ ph ++ s)%string (a ++ i ++ r)%string.

(** decimal digit strings and their value *)
Definition digit_string (s : string) : Prop := s <> "" /\ sforallb is_digit s = true.
Fixpoint dec_val (acc : Z) (s : string) : Z :=
  match s with EmptyString => acc | String c s' => dec_val (acc * 10 + (Z.of_N (N_of_ascii c) - 48)) s' end.

(** words of a comma separated list *)
Definition word (s : string) : Prop := s <> "" /\ sforallb is_word s = true.
Definition blanks (s : string) : Prop := sforallb is_space s = true.
(** "w, w, ..., w" with optional white space after each comma *)
Inductive WordList : string -> list string -> Prop :=
| WL_last : forall w, word w -> WordList w [w]
| WL_cons : forall w sp s ws, word w -> blanks sp -> WordList s ws -> WordList (w ++ "," ++ sp ++ s)%string (w :: ws).
