(** * PyInt: Python's [int(text, base)], [str(int)] and [hex]-style formatting. *)
From Verif Require Import Base PyStr.
From Coq Require Import ZifyBool ZifyN ZifyNat.

(** digit value of a character, as in CPython's [_PyLong_DigitValue] *)
Definition digit_val (c : ascii) : option Z :=
  let n := Z.of_N (code c) in
  if is_digit c then Some (n - 48)
  else if is_lower c then Some (n - 87)
  else if is_upper c then Some (n - 55)
  else None.

Definition c_us : ascii := "_".

(** digits with single underscores between them; [prev] = the previous character was a digit *)
Fixpoint digits_go (b : Z) (s : string) (acc : Z) (prev : bool) : option Z :=
  match s with
  | EmptyString => if prev then Some acc else None
  | String c s' =>
      if Ascii.eqb c c_us then (if prev then digits_go b s' acc false else None)
      else match digit_val c with
           | Some d => if d <? b then digits_go b s' (acc * b + d) true else None
           | None => None
           end
  end.

(** drop the "0x"/"0o"/"0b" prefix of base [b] and one underscore after it *)
Definition strip_prefix (b : Z) (s : string) : string :=
  match s with
  | String z (String p r) =>
      if Ascii.eqb z "0" &&
         ((b =? 16) && Ascii.eqb (lower_char p) "x" || (b =? 8) && Ascii.eqb (lower_char p) "o"
          || (b =? 2) && Ascii.eqb (lower_char p) "b")
      then match r with String u r' => if Ascii.eqb u c_us then r' else r | EmptyString => r end
      else s
  | _ => s
  end.

(** base 0: the base announced by the prefix, and whether a non-zero value is an error
    ("old C-style octal": 0123) *)
Definition detect_base (s : string) : Z * bool :=
  match s with
  | String z r =>
      if Ascii.eqb z "0" then
        match r with
        | String p _ =>
            if Ascii.eqb (lower_char p) "x" then (16, false)
            else if Ascii.eqb (lower_char p) "o" then (8, false)
            else if Ascii.eqb (lower_char p) "b" then (2, false)
            else (10, true)
        | EmptyString => (10, true)
        end
      else (10, false)
  | EmptyString => (10, false)
  end.

Definition split_sign (s : string) : bool * string :=
  match s with
  | String c r => if Ascii.eqb c "-" then (true, r) else if Ascii.eqb c "+" then (false, r) else (false, s)
  | EmptyString => (false, s)
  end.

(** [int(s, base)]; [None] = ValueError.  CPython Objects/longobject.c PyLong_FromString
    (the 4300 digit limit is not modelled). *)
Definition py_int (base : Z) (s : string) : option Z :=
  let t := strip_by is_cspace s in
  let '(neg, u) := split_sign t in
  let '(b, zero_only) := if base =? 0 then detect_base u else (base, false) in
  match digits_go b (strip_prefix b u) 0 false with
  | None => None
  | Some v => if zero_only && negb (v =? 0) then None else Some (if neg then - v else v)
  end.

(** ** Formatting *)
Definition digit_char (d : Z) : ascii := ascii_of_N (Z.to_N (if d <? 10 then d + 48 else d + 87)).

Fixpoint to_digits (fuel : nat) (b n : Z) (acc : string) : string :=
  match fuel with
  | O => acc
  | S f => let acc' := String (digit_char (n mod b)) acc in
           if n / b =? 0 then acc' else to_digits f b (n / b) acc'
  end.

Definition nat_str (b n : Z) : string := to_digits (S (Z.to_nat (Z.log2 n))) b n "".

(** str(n), decimal *)
Definition str_of_Z (n : Z) : string := if n <? 0 then String "-" (nat_str 10 (- n)) else nat_str 10 n.
(** f"{n:#x}" *)
Definition hex_of_Z (n : Z) : string :=
  if n <? 0 then ("-0x" ++ nat_str 16 (- n))%string else ("0x" ++ nat_str 16 n)%string.

(** ** Lemmas *)
Definition good_base (b : Z) : Prop := 2 <= b <= 16.

Definition dchars : list ascii := map digit_char (zrange 0 16).

Lemma digit_char_val d : 0 <= d < 16 -> digit_val (digit_char d) = Some d.
Proof.
  intros H. assert (Hd : In d (zrange 0 16)) by now apply zrange_in.
  revert d H Hd. assert (forallb (fun d => match digit_val (digit_char d) with Some e => e =? d | None => false end) (zrange 0 16) = true) by (vm_compute; reflexivity).
  rewrite forallb_forall in H. intros d _ Hd. specialize (H d Hd).
  destruct (digit_val (digit_char d)); [|discriminate]. f_equal. lia.
Qed.

Lemma digit_char_not c d : 0 <= d < 16 -> forallb (fun e => negb (Ascii.eqb (digit_char e) c)) (zrange 0 16) = true ->
  Ascii.eqb (digit_char d) c = false.
Proof.
  intros H Hf. rewrite forallb_forall in Hf. specialize (Hf d). rewrite zrange_in in Hf.
  specialize (Hf H). now apply negb_true_iff in Hf.
Qed.

Lemma digit_char_us d : 0 <= d < 16 -> Ascii.eqb (digit_char d) c_us = false.
Proof. intros H. apply digit_char_not; auto. Qed.

Lemma to_digits_parse b : good_base b -> forall fuel n acc,
  0 <= n -> Z.log2 n < Z.of_nat fuel ->
  forall a p, digits_go b (to_digits fuel b n acc) a p =
    digits_go b acc (a * b ^ (Z.of_nat (String.length (to_digits fuel b n acc) - String.length acc)) + n) true
    /\ (String.length acc < String.length (to_digits fuel b n acc))%nat.
Proof.
  intros Hb. unfold good_base in Hb.
  induction fuel as [|f IH]; intros n acc Hn Hf a p; [pose proof (Z.log2_nonneg n); lia|].
  cbn [to_digits].
  assert (Hm : 0 <= n mod b < b) by (apply Z.mod_pos_bound; lia).
  destruct (Z.eqb_spec (n / b) 0) as [H0|H0].
  - assert (n mod b = n) by (rewrite Z.mod_eq by lia; lia). rewrite H in *.
    split; [|cbn [String.length]; lia].
    cbn [digits_go]. rewrite digit_char_us by lia. rewrite digit_char_val by lia.
    replace (n <? b) with true by lia.
    replace (String.length (String (digit_char n) acc) - String.length acc)%nat with 1%nat by (cbn [String.length]; lia).
    change (Z.of_nat 1) with 1. rewrite Z.pow_1_r. reflexivity.
  - assert (Hq : 0 <= n / b) by (apply Z.div_pos; lia).
    assert (Hn0 : 0 < n) by (destruct (Z.eq_dec n 0); [subst; rewrite Z.div_0_l in H0; lia|lia]).
    assert (Hlog : Z.log2 (n / b) < Z.of_nat f).
    { assert (Z.log2 (n / b) <= Z.log2 (n / 2)).
      { apply Z.log2_le_mono. apply Z.div_le_compat_l; lia. }
      assert (Hn2 : 2 <= n) by (assert (b * (n / b) <= n) by (apply Z.mul_div_le; lia); nia).
      assert (Z.log2 (n / 2) = Z.log2 n - 1).
      { change 2 with (2 ^ 1) at 1. rewrite <- Z.shiftr_div_pow2 by lia. rewrite Z.log2_shiftr by lia.
        assert (1 <= Z.log2 n) by (apply Z.log2_le_pow2; lia). lia. }
      lia. }
    set (acc' := String (digit_char (n mod b)) acc).
    destruct (IH (n / b) acc' Hq Hlog a p) as [IH1 IH2].
    split; [|unfold acc' in IH2 at 1; cbn [String.length] in IH2; lia].
    rewrite IH1. unfold acc' at 1. cbn [digits_go].
    rewrite digit_char_us by lia. rewrite digit_char_val by lia.
    replace (n mod b <? b) with true by lia.
    f_equal.
    set (L := String.length (to_digits f b (n / b) acc')) in *.
    assert (HL : (L - String.length acc = S (L - String.length acc'))%nat).
    { unfold acc' in *; cbn [String.length] in *; lia. }
    rewrite HL, Nat2Z.inj_succ, Z.pow_succ_r by lia.
    pose proof (Z.div_mod n b ltac:(lia)) as Hdm.
    set (P := b ^ _). set (q := n / b) in *. set (r := n mod b) in *.
    transitivity (a * (b * P) + (b * q + r)); [ring|lia].
Qed.

Lemma nat_str_parse b n a p : good_base b -> 0 <= n ->
  digits_go b (nat_str b n) a p = Some (a * b ^ Z.of_nat (String.length (nat_str b n)) + n).
Proof.
  intros Hb Hn. unfold nat_str.
  destruct (to_digits_parse b Hb (S (Z.to_nat (Z.log2 n))) n "" Hn) with (a := a) (p := p) as [H _].
  { pose proof (Z.log2_nonneg n). lia. }
  rewrite H. cbn [digits_go String.length]. now rewrite Nat.sub_0_r.
Qed.

(** every character of a formatted number is a digit character *)
Lemma to_digits_chars b : good_base b -> forall fuel n acc, 0 <= n ->
  forall (P : ascii -> bool), (forall d, 0 <= d < b -> P (digit_char d) = true) ->
  sforallb P acc = true -> sforallb P (to_digits fuel b n acc) = true.
Proof.
  intros Hb. unfold good_base in Hb. induction fuel as [|f IH]; intros n acc Hn P HP Hacc; cbn [to_digits]; [auto|].
  assert (Hm : 0 <= n mod b < b) by (apply Z.mod_pos_bound; lia).
  destruct (n / b =? 0).
  - cbn [sforallb]. now rewrite HP, Hacc.
  - apply IH; auto; [apply Z.div_pos; lia|]. cbn [sforallb]. now rewrite HP, Hacc.
Qed.

Lemma nat_str_chars b n P : good_base b -> 0 <= n -> (forall d, 0 <= d < b -> P (digit_char d) = true) ->
  sforallb P (nat_str b n) = true.
Proof. intros. unfold nat_str. eapply to_digits_chars; eauto. Qed.

Lemma nat_str_nonempty b n : good_base b -> 0 <= n -> nat_str b n <> "".
Proof.
  intros Hb Hn H. pose proof (nat_str_parse b n 0 false Hb Hn) as Hp. rewrite H in Hp. cbn in Hp. discriminate.
Qed.

(** leading digit is not 0 except for 0 itself *)
Lemma to_digits_lead b : good_base b -> forall fuel n acc, 0 < n -> Z.log2 n < Z.of_nat fuel ->
  exists d r, 0 < d < b /\ to_digits fuel b n acc = String (digit_char d) r.
Proof.
  intros Hb. unfold good_base in Hb. induction fuel as [|f IH]; intros n acc Hn Hf; [pose proof (Z.log2_nonneg n); lia|].
  cbn [to_digits]. assert (Hm : 0 <= n mod b < b) by (apply Z.mod_pos_bound; lia).
  destruct (Z.eqb_spec (n / b) 0) as [H0|H0].
  - assert (n mod b = n) by (rewrite Z.mod_eq by lia; lia). exists (n mod b), acc. split; [lia|reflexivity].
  - assert (Hq : 0 <= n / b) by (apply Z.div_pos; lia).
    apply IH; [lia|].
    assert (Z.log2 (n / b) <= Z.log2 (n / 2)) by (apply Z.log2_le_mono, Z.div_le_compat_l; lia).
    assert (Hn2 : 2 <= n) by (assert (b * (n / b) <= n) by (apply Z.mul_div_le; lia); nia).
    assert (Z.log2 (n / 2) = Z.log2 n - 1).
    { change 2 with (2 ^ 1) at 1. rewrite <- Z.shiftr_div_pow2 by lia. rewrite Z.log2_shiftr by lia.
      assert (1 <= Z.log2 n) by (apply Z.log2_le_pow2; lia). lia. }
    lia.
Qed.

Lemma nat_str_lead b n : good_base b -> 0 < n -> exists d r, 0 < d < b /\ nat_str b n = String (digit_char d) r.
Proof.
  intros Hb Hn. unfold nat_str. apply to_digits_lead; auto. pose proof (Z.log2_nonneg n); lia.
Qed.
Lemma nat_str_0 b : good_base b -> nat_str b 0 = "0".
Proof.
  intros Hb. unfold good_base in Hb. unfold nat_str.
  change (Z.to_nat (Z.log2 0)) with O. cbn [to_digits]. rewrite Z.mod_0_l, Z.div_0_l by lia. reflexivity.
Qed.

(** strings without blanks are not changed by stripping *)
Lemma rstrip_none p s : sforallb (fun c => negb (p c)) s = true -> rstrip_by p s = s.
Proof.
  induction s as [|c s IH]; cbn [sforallb rstrip_by]; [reflexivity|].
  rewrite andb_true_iff, negb_true_iff. intros [H1 H2]. rewrite IH by assumption.
  destruct s; [now rewrite H1|reflexivity].
Qed.
Lemma strip_none p s : sforallb (fun c => negb (p c)) s = true -> strip_by p s = s.
Proof.
  intros H. unfold strip_by. replace (lstrip_by p s) with s; [now apply rstrip_none|].
  destruct s as [|c s]; cbn [lstrip_by]; [reflexivity|].
  cbn [sforallb] in H. apply andb_true_iff in H as [H _]. apply negb_true_iff in H. now rewrite H.
Qed.

Lemma digit_sweep (P : ascii -> bool) : forallb (fun d => P (digit_char d)) (zrange 0 16) = true ->
  forall d, 0 <= d < 16 -> P (digit_char d) = true.
Proof. intros H d Hd. rewrite forallb_forall in H. apply H. now apply zrange_in. Qed.

Lemma split_sign_digit d r : 0 <= d < 16 -> split_sign (String (digit_char d) r) = (false, String (digit_char d) r).
Proof.
  intros H. unfold split_sign.
  assert (H1 : Ascii.eqb (digit_char d) "-" = false) by (now apply digit_char_not).
  assert (H2 : Ascii.eqb (digit_char d) "+" = false) by (now apply digit_char_not).
  now rewrite H1, H2.
Qed.

Lemma strip_prefix_10 s : strip_prefix 10 s = s.
Proof.
  unfold strip_prefix. destruct s as [|z [|p r]]; try reflexivity.
  cbn [Z.eqb Pos.eqb andb orb]. rewrite andb_false_r. reflexivity.
Qed.

Lemma no_cspace_nat b n : good_base b -> 0 <= n -> sforallb (fun c => negb (is_cspace c)) (nat_str b n) = true.
Proof.
  intros Hb Hn. apply nat_str_chars; auto. intros d Hd. unfold good_base in Hb.
  apply (digit_sweep (fun c => negb (is_cspace c))); [vm_compute; reflexivity|lia].
Qed.

Lemma nat_str_head b n : good_base b -> 0 <= n -> exists d r, 0 <= d < b /\ (d = 0 -> n = 0 /\ r = EmptyString) /\ nat_str b n = String (digit_char d) r.
Proof.
  intros Hb Hn. destruct (Z.eq_dec n 0) as [->|Hn0].
  - exists 0, ""%string. unfold good_base in Hb. repeat split; try lia.
  - destruct (nat_str_lead b n Hb) as (d & r & Hd & H); [lia|]. exists d, r. repeat split; auto; lia.
Qed.

Lemma good10 : good_base 10. Proof. unfold good_base; lia. Qed.
Lemma good16 : good_base 16. Proof. unfold good_base; lia. Qed.

(** decimal round trip, bases 10 and 0 *)
Lemma py_int_str base n : base = 10 \/ base = 0 -> py_int base (str_of_Z n) = Some n.
Proof.
  intros Hbase. unfold str_of_Z.
  assert (Hpos : forall m, 0 <= m -> forall neg : bool,
    (let '(b, zero_only) := if base =? 0 then detect_base (nat_str 10 m) else (base, false) in
     match digits_go b (strip_prefix b (nat_str 10 m)) 0 false with
     | None => None
     | Some v => if zero_only && negb (v =? 0) then None else Some (if neg then - v else v) end)
    = Some (if neg then - m else m)).
  { intros m Hm neg.
    assert (Hd : fst (if base =? 0 then detect_base (nat_str 10 m) else (base, false)) = 10
                 /\ (snd (if base =? 0 then detect_base (nat_str 10 m) else (base, false)) = true -> m = 0)).
    { destruct Hbase as [Hb0|Hb0]; rewrite Hb0; [split; [reflexivity|discriminate]|].
      cbn [Z.eqb]. destruct (nat_str_head 10 m good10 Hm) as (d & r & Hd & Hd0 & ->).
      cbn [detect_base]. destruct (Ascii.eqb (digit_char d) "0") eqn:Hz.
      - assert (d = 0).
        { assert (H := digit_char_val d ltac:(lia)). apply Ascii.eqb_eq in Hz. rewrite Hz in H. cbn in H. congruence. }
        destruct (Hd0 H) as [-> ->]. cbn. auto.
      - cbn. split; [reflexivity|discriminate]. }
    destruct (if base =? 0 then detect_base (nat_str 10 m) else (base, false)) as [b z].
    cbn [fst snd] in Hd. destruct Hd as [-> Hz].
    rewrite strip_prefix_10, nat_str_parse by (auto using good10).
    rewrite Z.mul_0_l, Z.add_0_l.
    destruct z; [rewrite Hz by reflexivity; reflexivity|reflexivity]. }
  unfold py_int. destruct (n <? 0) eqn:Hn.
  - rewrite strip_none.
    2:{ cbn [sforallb]. rewrite no_cspace_nat by (auto using good10; lia). reflexivity. }
    cbn [split_sign Ascii.eqb Bool.eqb andb].
    etransitivity; [apply (Hpos (- n) ltac:(lia) true)|]. f_equal. lia.
  - rewrite strip_none by (apply no_cspace_nat; [apply good10|lia]).
    destruct (nat_str_head 10 n good10) as (d & r & Hd & _ & Hs); [lia|].
    rewrite Hs, split_sign_digit by lia. rewrite <- Hs. exact (Hpos n ltac:(lia) false).
Qed.

(** hexadecimal round trip, bases 16 and 0 *)
Lemma py_int_hex base n : base = 16 \/ base = 0 -> py_int base (hex_of_Z n) = Some n.
Proof.
  intros Hbase. unfold hex_of_Z, py_int.
  assert (Hp : forall m, 0 <= m ->
     digits_go 16 (strip_prefix 16 ("0x" ++ nat_str 16 m)) 0 false = Some m).
  { intros m Hm.
    destruct (nat_str_head 16 m good16 Hm) as (d & r & Hd & _ & Hs).
    assert (Hst : strip_prefix 16 ("0x" ++ nat_str 16 m) = nat_str 16 m).
    { rewrite Hs. change (strip_prefix 16 ("0x" ++ String (digit_char d) r))
        with (if Ascii.eqb (digit_char d) c_us then r else String (digit_char d) r).
      now rewrite digit_char_us. }
    rewrite Hst, nat_str_parse by (auto using good16). f_equal; lia. }
  destruct (n <? 0) eqn:Hn.
  - rewrite strip_none.
    2:{ apply (no_cspace_nat 16); [apply good16|lia]. }
    cbn [append split_sign Ascii.eqb Bool.eqb andb].
    replace (if base =? 0 then detect_base (String "0" (String "x" (nat_str 16 (- n)))) else (base, false)) with (16, false)
      by (destruct Hbase as [Hb0|Hb0]; rewrite Hb0; reflexivity).
    change (String "0" (String "x" (nat_str 16 (- n)))) with ("0x" ++ nat_str 16 (- n))%string.
    rewrite (Hp (- n)) by lia. cbn [andb]. f_equal. lia.
  - rewrite strip_none.
    2:{ apply (no_cspace_nat 16); [apply good16|lia]. }
    cbn [append split_sign Ascii.eqb Bool.eqb andb].
    replace (if base =? 0 then detect_base (String "0" (String "x" (nat_str 16 n))) else (base, false)) with (16, false)
      by (destruct Hbase as [Hb0|Hb0]; rewrite Hb0; reflexivity).
    change (String "0" (String "x" (nat_str 16 n))) with ("0x" ++ nat_str 16 n)%string.
    rewrite (Hp n) by lia. reflexivity.
Qed.

Lemma str_of_Z_inj n m : str_of_Z n = str_of_Z m -> n = m.
Proof.
  intros H. pose proof (py_int_str 10 n (or_introl eq_refl)). rewrite H in H0.
  rewrite py_int_str in H0 by auto. congruence.
Qed.
