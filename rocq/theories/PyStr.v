(** * PyStr: the Python [str] operations used by SVDSuite, on byte strings.

    Strings are UTF-8 byte sequences; case mapping and character classes are those of ASCII
    (a simplification: non-ASCII letters/digits/blanks are treated as ordinary characters). *)
From Verif Require Import Base.

Definition code (c : ascii) : N := N_of_ascii c.
Definition in_code_range (lo hi : N) (c : ascii) : bool := ((lo <=? code c) && (code c <=? hi))%N.

Definition is_upper := in_code_range 65 90.
Definition is_lower := in_code_range 97 122.
Definition is_digit := in_code_range 48 57.            (* [0-9], \d, str.isdigit per character *)
(** str.isspace / re \s, ASCII part: 9-13, 28-31, 32 *)
Definition is_space (c : ascii) : bool := in_code_range 9 13 c || in_code_range 28 32 c.
(** blanks skipped by int(): 9-13, 32 *)
Definition is_cspace (c : ascii) : bool := in_code_range 9 13 c || (code c =? 32)%N.
(** [_0-9a-zA-Z] *)
Definition is_word (c : ascii) : bool := (code c =? 95)%N || is_digit c || is_lower c || is_upper c.

Definition lower_char (c : ascii) : ascii := if is_upper c then ascii_of_N (code c + 32) else c.
Definition upper_char (c : ascii) : ascii := if is_lower c then ascii_of_N (code c - 32) else c.

Fixpoint smap (f : ascii -> ascii) (s : string) : string :=
  match s with EmptyString => EmptyString | String c s' => String (f c) (smap f s') end.
Definition lower := smap lower_char.   (* str.lower() *)
Definition upper := smap upper_char.   (* str.upper() *)

Fixpoint sforallb (p : ascii -> bool) (s : string) : bool :=
  match s with EmptyString => true | String c s' => p c && sforallb p s' end.

(** s.isdigit(): non-empty and all digits *)
Definition isdigit (s : string) : bool :=
  match s with EmptyString => false | _ => sforallb is_digit s end.

(** s.startswith(p) *)
Fixpoint startswith (p s : string) : bool :=
  match p, s with
  | EmptyString, _ => true
  | String a p', String b s' => Ascii.eqb a b && startswith p' s'
  | _, EmptyString => false
  end.

(** sub in s *)
Fixpoint contains (sub s : string) : bool :=
  startswith sub s || match s with EmptyString => false | String _ s' => contains sub s' end.

(** s[n:] *)
Fixpoint sdrop (n : nat) (s : string) : string :=
  match n, s with O, _ => s | S n', String _ s' => sdrop n' s' | S _, EmptyString => EmptyString end.

(** s.replace(old, new), non-empty [old]: left to right, non overlapping.
    [skip] counts characters of the occurrence still to be dropped. *)
Fixpoint replace_aux (old new : string) (skip : nat) (s : string) : string :=
  match s with
  | EmptyString => EmptyString
  | String c s' =>
      match skip with
      | S k => replace_aux old new k s'
      | O => if startswith old s
             then (new ++ replace_aux old new (String.length old - 1) s')%string
             else String c (replace_aux old new 0 s')
      end
  end.
Definition replace (old new s : string) : string := replace_aux old new 0 s.

(** s.replace(c, new, 1) for a single character c *)
Fixpoint replace_first_char (c : ascii) (new : string) (s : string) : string :=
  match s with
  | EmptyString => EmptyString
  | String d s' => if Ascii.eqb c d then (new ++ s')%string else String d (replace_first_char c new s')
  end.

(** s.count(c) *)
Fixpoint count_char (c : ascii) (s : string) : nat :=
  match s with EmptyString => 0 | String d s' => (if Ascii.eqb c d then 1 else 0) + count_char c s' end%nat.

(** s.split(c): always at least one part *)
Fixpoint split_on (c : ascii) (s : string) : list string :=
  match s with
  | EmptyString => [EmptyString]
  | String d s' =>
      if Ascii.eqb c d then EmptyString :: split_on c s'
      else match split_on c s' with
           | [] => [String d EmptyString]
           | p :: ps => String d p :: ps
           end
  end.

(** re.sub(r"\s+", "", s) *)
Fixpoint remove_spaces (s : string) : string :=
  match s with
  | EmptyString => EmptyString
  | String c s' => if is_space c then remove_spaces s' else String c (remove_spaces s')
  end.

Fixpoint lstrip_by (p : ascii -> bool) (s : string) : string :=
  match s with EmptyString => EmptyString | String c s' => if p c then lstrip_by p s' else s end.
Fixpoint rstrip_by (p : ascii -> bool) (s : string) : string :=
  match s with
  | EmptyString => EmptyString
  | String c s' =>
      match rstrip_by p s' with
      | EmptyString => if p c then EmptyString else String c EmptyString
      | r => String c r
      end
  end.
Definition strip_by p s := rstrip_by p (lstrip_by p s).
Definition strip := strip_by is_space.      (* str.strip() *)

(** length of the longest prefix satisfying [p]; the rest *)
Fixpoint span (p : ascii -> bool) (s : string) : string * string :=
  match s with
  | EmptyString => (EmptyString, EmptyString)
  | String c s' => if p c then let '(a, b) := span p s' in (String c a, b) else (EmptyString, s)
  end.

Definition seqb := String.eqb.
Definition mem_str (x : string) (l : list string) : bool := existsb (String.eqb x) l.

(** ** Lemmas *)
Lemma mem_str_In x l : mem_str x l = true <-> In x l.
Proof.
  unfold mem_str. rewrite existsb_exists. split.
  - intros (y & Hy & He). apply String.eqb_eq in He. now subst.
  - intros H. exists x. split; auto. apply String.eqb_refl.
Qed.
Lemma mem_str_nIn x l : mem_str x l = false <-> ~ In x l.
Proof. rewrite <- mem_str_In. destruct (mem_str x l); split; congruence. Qed.

Lemma sapp_nil_r s : (s ++ "")%string = s.
Proof. induction s as [|c s IH]; cbn; [reflexivity|now rewrite IH]. Qed.
Lemma sapp_assoc a b c : (a ++ (b ++ c) = (a ++ b) ++ c)%string.
Proof. induction a as [|x a IH]; cbn; [reflexivity|now rewrite IH]. Qed.
Lemma slen_app a b : String.length (a ++ b) = (String.length a + String.length b)%nat.
Proof. induction a as [|x a IH]; cbn; [reflexivity|now rewrite IH]. Qed.
Lemma sapp_inj_l a b c : (a ++ b = a ++ c)%string -> b = c.
Proof. induction a as [|x a IH]; cbn; intros H; [exact H|]. inversion H; auto. Qed.
Lemma sapp_inj_len a b c d : String.length a = String.length b -> (a ++ c = b ++ d)%string -> a = b /\ c = d.
Proof.
  revert b; induction a as [|x a IH]; intros [|y b]; cbn; intros Hl H; try discriminate; [auto|].
  inversion H; subst. destruct (IH b) as [-> ->]; auto.
Qed.

Lemma startswith_spec p s : startswith p s = true <-> exists r, s = (p ++ r)%string.
Proof.
  revert s; induction p as [|a p IH]; intros s; cbn [startswith].
  - split; [intros _; now exists s|reflexivity].
  - destruct s as [|b s].
    + split; [discriminate|]. intros [r H]; discriminate.
    + rewrite andb_true_iff, IH, Ascii.eqb_eq. split.
      * intros [-> [r ->]]. now exists r.
      * intros [r H]. inversion H; subst. split; eauto.
Qed.

Lemma contains_spec sub s : contains sub s = true <-> exists a b, s = (a ++ sub ++ b)%string.
Proof.
  induction s as [|c s IH]; cbn [contains]; rewrite orb_true_iff, startswith_spec.
  - split.
    + intros [[r H]|H]; [|discriminate]. exists "", r. exact H.
    + intros (a & b & H). left. destruct a; [|discriminate]. now exists b.
  - rewrite IH. split.
    + intros [[r H]|(a & b & ->)]; [now exists "", r|now exists (String c a), b].
    + intros (a & b & H). destruct a as [|d a]; [left; now exists b|].
      right. cbn in H. inversion H; subst. eauto.
Qed.

(** number of non-overlapping occurrences replaced *)
Fixpoint occ_aux (old : string) (skip : nat) (s : string) : nat :=
  match s with
  | EmptyString => 0
  | String c s' =>
      match skip with
      | S k => occ_aux old k s'
      | O => if startswith old s then S (occ_aux old (String.length old - 1) s') else occ_aux old 0 s'
      end
  end.

Lemma contains_occ old s : old <> "" -> contains old s = true -> (0 < occ_aux old 0 s)%nat.
Proof.
  intros Hne. induction s as [|c s IH]; intros H.
  - exfalso. destruct old as [|b o]; [congruence|]. cbn in H. discriminate.
  - cbn [contains] in H. cbn [occ_aux].
    destruct (startswith old (String c s)); [lia|]. apply IH, H.
Qed.

Lemma replace_none old new s : contains old s = false -> replace old new s = s.
Proof.
  unfold replace. induction s as [|c s IH]; intros H; [reflexivity|].
  cbn [contains] in H. apply orb_false_iff in H as [H1 H2].
  cbn [replace_aux]. rewrite H1. now rewrite IH.
Qed.

Lemma replace_aux_len old new1 new2 : (String.length new1 < String.length new2)%nat -> forall s k,
  (String.length (replace_aux old new1 k s) + occ_aux old k s <= String.length (replace_aux old new2 k s))%nat.
Proof.
  intros Hlt. induction s as [|c s IH]; intros k; cbn [replace_aux occ_aux]; [cbn; lia|].
  destruct k as [|k]; [|apply IH].
  destruct (startswith old (String c s)).
  - rewrite !slen_app. specialize (IH (String.length old - 1)%nat). lia.
  - cbn [String.length]. specialize (IH 0%nat). lia.
Qed.

(** Substituting two strings for the same placeholder gives different results (C06). *)
Lemma replace_inj old s i j :
  old <> "" -> contains old s = true -> replace old i s = replace old j s -> i = j.
Proof.
  intros Hne Hc Heq. unfold replace in Heq.
  assert (Hpos := contains_occ _ _ Hne Hc).
  assert (Hlen : String.length i = String.length j).
  { destruct (Nat.lt_trichotomy (String.length i) (String.length j)) as [H|[H|H]]; auto.
    - pose proof (replace_aux_len old i j H s 0). rewrite Heq in H0. lia.
    - pose proof (replace_aux_len old j i H s 0). rewrite Heq in H0. lia. }
  clear Hc.
  assert (Hgen : forall k, replace_aux old i k s = replace_aux old j k s -> (1 <= occ_aux old k s)%nat -> i = j).
  { clear Heq Hpos. induction s as [|c s IH]; intros k; cbn [replace_aux occ_aux]; [lia|].
    destruct k as [|k]; [|apply IH].
    destruct (startswith old (String c s)).
    - intros H _. apply sapp_inj_len in H as [H _]; auto.
    - intros H Hp. inversion H. eapply IH; eauto. }
  eapply Hgen; eauto.
Qed.

Lemma lower_char_idem c : lower_char (lower_char c) = lower_char c.
Proof. destruct c as [[] [] [] [] [] [] [] []]; reflexivity. Qed.
Lemma lower_idem s : lower (lower s) = lower s.
Proof. unfold lower. induction s as [|c s IH]; cbn [smap]; [reflexivity|]. now rewrite lower_char_idem, IH. Qed.
Lemma lower_app a b : lower (a ++ b) = (lower a ++ lower b)%string.
Proof. unfold lower. induction a as [|c a IH]; cbn; [reflexivity|]. now rewrite IH. Qed.
