(** * TextFacts: numbers and keywords read from texts (lemmas for C25, C26, C27) *)
From Verif Require Import Base PyStr PyInt Types ParseModel SerializeModel SpecText.
From Coq Require Import ZifyBool ZifyN ZifyNat.

Lemma IsDigit_val b c d : b <= 16 -> (IsDigit b c d <-> digit_val c = Some d /\ d < b).
Proof.
  intros Hb. unfold IsDigit. split.
  - intros [Hd Hin]. split; [|lia].
    assert (H : In d (zrange 0 16)) by (apply zrange_in; lia). clear Hd.
    assert (Hall : forallb (fun d => forallb (fun c => match digit_val c with Some e => e =? d | None => false end)
               (nth (Z.to_nat d) digit_names [])) (zrange 0 16) = true) by (vm_compute; reflexivity).
    rewrite forallb_forall in Hall. specialize (Hall d H). rewrite forallb_forall in Hall. specialize (Hall c Hin).
    destruct (digit_val c); [|discriminate]. f_equal. lia.
  - intros [Hv Hd].
    assert (Hall : forall c d, digit_val c = Some d -> d < 16 -> (0 <= d /\ In c (nth (Z.to_nat d) digit_names []))).
    { clear. intros c d.
      assert (Hc : forallb (fun c => match digit_val c with
                    | Some d => (16 <=? d) || ((0 <=? d) && existsb (Ascii.eqb c) (nth (Z.to_nat d) digit_names []))
                    | None => true end) (map (fun n => ascii_of_nat n) (seq 0 256)) = true) by (vm_compute; reflexivity).
      rewrite forallb_forall in Hc. intros Hv Hd. specialize (Hc c).
      rewrite Hv in Hc. assert (Hin : In c (map (fun n => ascii_of_nat n) (seq 0 256))).
      { apply in_map_iff. exists (nat_of_ascii c). split; [apply ascii_nat_embedding|].
        apply in_seq. pose proof (nat_ascii_bounded c). lia. }
      specialize (Hc Hin). apply orb_true_iff in Hc as [Hc|Hc]; [lia|].
      apply andb_true_iff in Hc as [H1 H2]. split; [lia|].
      apply existsb_exists in H2 as (x & Hx & He). apply Ascii.eqb_eq in He. now subst. }
    destruct (Hall c d Hv ltac:(lia)). repeat split; auto; lia.
Qed.

Lemma digits_go_spec b s : b <= 16 -> forall acc v,
  (digits_go b s acc true = Some v <-> DigitsFrom b acc s v) /\
  (digits_go b s acc false = Some v <->
     exists c d s', s = String c s' /\ IsDigit b c d /\ DigitsFrom b (acc * b + d) s' v).
Proof.
  intros Hb. induction s as [|c s IH]; intros acc v; cbn [digits_go].
  - split; split.
    + intros H; injection H as <-. constructor.
    + inversion 1; reflexivity.
    + discriminate.
    + intros (c & d & s' & H & _); discriminate.
  - assert (Hus : digit_val c_us = None) by reflexivity.
    assert (Hdig : (if Ascii.eqb c c_us then None else match digit_val c with
               | Some d => if d <? b then digits_go b s (acc * b + d) true else None | None => None end) = Some v
             <-> exists d, IsDigit b c d /\ DigitsFrom b (acc * b + d) s v).
    { destruct (Ascii.eqb c c_us) eqn:He.
      - apply Ascii.eqb_eq in He. subst c. split; [discriminate|]. intros (d & Hd & _).
        apply (IsDigit_val b _ _ Hb) in Hd as [Hd _]. congruence.
      - destruct (digit_val c) as [d|] eqn:Hv.
        + destruct (d <? b) eqn:Hlt.
          * rewrite (proj1 (IH (acc * b + d) v)). split.
            -- intros H. exists d. split; [apply (IsDigit_val b _ _ Hb); split; [auto|lia]|auto].
            -- intros (d' & Hd & H). apply (IsDigit_val b _ _ Hb) in Hd as [Hd _]. rewrite Hv in Hd. now injection Hd as <-.
          * split; [discriminate|]. intros (d' & Hd & _). apply (IsDigit_val b _ _ Hb) in Hd as [Hd Hd']. rewrite Hv in Hd.
            injection Hd as <-. lia.
        + split; [discriminate|]. intros (d & Hd & _). apply (IsDigit_val b _ _ Hb) in Hd as [Hd _]. congruence. }
    split.
    + destruct (Ascii.eqb c c_us) eqn:He.
      * apply Ascii.eqb_eq in He. subst c. rewrite (proj2 (IH acc v)). split.
        -- intros (c & d & s' & -> & Hd & H). now apply (df_under b acc c d).
        -- inversion 1; subst.
           ++ exfalso. apply (IsDigit_val b _ _ Hb) in H3 as [H3 _]. discriminate.
           ++ eauto 10.
      * rewrite Hdig. split.
        -- intros (d & Hd & H). eapply df_digit; eauto.
        -- inversion 1; subst; [eauto|]. discriminate.
    + destruct (Ascii.eqb c c_us) eqn:He.
      * split; [discriminate|]. intros (c' & d & s' & H & Hd & _). injection H as <- <-.
        exfalso. apply Ascii.eqb_eq in He. subst c. apply (IsDigit_val b _ _ Hb) in Hd as [Hd _]. discriminate.
      * rewrite Hdig. split.
        -- intros (d & Hd & H). eauto 10.
        -- intros (c' & d & s' & H & Hd & H'). injection H as <- <-. eauto.
Qed.

Lemma digits_go_Digits b s v : b <= 16 -> (digits_go b s 0 false = Some v <-> Digits b s v).
Proof.
  intros Hb. rewrite (proj2 (digits_go_spec b s Hb 0 v)). unfold Digits.
  split; intros (c & d & s' & H1 & H2 & H3); exists c, d, s'; repeat split; auto; try apply H2;
    replace (0 * b + d) with d in * by lia; auto.
Qed.

(** ** Characters of numerals *)
Definition word_char (c : ascii) : bool := is_word c.

Lemma IsDigit_word b c d : b <= 16 -> IsDigit b c d -> is_word c = true.
Proof.
  intros Hb [Hd Hin].
  assert (H : In d (zrange 0 16)) by (apply zrange_in; lia).
  assert (Hall : forallb (fun d => forallb is_word (nth (Z.to_nat d) digit_names [])) (zrange 0 16) = true) by (vm_compute; reflexivity).
  rewrite forallb_forall in Hall. specialize (Hall d H). rewrite forallb_forall in Hall. auto.
Qed.
Lemma DigitsFrom_word b acc s v : b <= 16 -> DigitsFrom b acc s v -> sforallb is_word s = true.
Proof.
  intros Hb. induction 1; cbn [sforallb]; auto.
  - now rewrite (IsDigit_word b c d Hb H), IHDigitsFrom.
  - now rewrite (IsDigit_word b c d Hb H), IHDigitsFrom.
Qed.
Lemma Digits_word b s v : b <= 16 -> Digits b s v -> sforallb is_word s = true.
Proof.
  intros Hb (c & d & s' & -> & Hd & H). cbn [sforallb].
  now rewrite (IsDigit_word b c d Hb Hd), (DigitsFrom_word b d s' v).
Qed.

Lemma sforallb_app p a b : sforallb p (a ++ b) = sforallb p a && sforallb p b.
Proof. induction a as [|c a IH]; cbn [append sforallb]; [reflexivity|]. now rewrite IH, andb_assoc. Qed.
Lemma sforallb_impl (p q : ascii -> bool) s : (forall c, p c = true -> q c = true) -> sforallb p s = true -> sforallb q s = true.
Proof.
  intros H. induction s as [|c s IH]; cbn [sforallb]; auto.
  rewrite !andb_true_iff. intros [H1 H2]. auto.
Qed.
Lemma sforallb_forall p s : sforallb p s = true <-> forall c, In c (list_ascii_of_string s) -> p c = true.
Proof.
  induction s as [|c s IH]; cbn [sforallb list_ascii_of_string]; [split; [intros _ c []|auto]|].
  rewrite andb_true_iff, IH. split.
  - intros [H1 H2] c' [<-|Hc]; auto.
  - intros H. split; [apply H; left; auto|intros c' Hc; apply H; right; auto].
Qed.

Lemma char_sweep (P : ascii -> bool) : forallb P (map (fun n => ascii_of_nat n) (seq 0 256)) = true -> forall c, P c = true.
Proof.
  intros H c. rewrite forallb_forall in H. apply H. apply in_map_iff. exists (nat_of_ascii c).
  split; [apply ascii_nat_embedding|]. apply in_seq. pose proof (nat_ascii_bounded c). lia.
Qed.
Lemma word_not_space c : is_word c = true -> negb (is_cspace c) = true.
Proof.
  intros H. pose proof (char_sweep (fun c => negb (is_word c) || negb (is_cspace c)) eq_refl c) as Hs.
  cbn beta in Hs. rewrite H in Hs. exact Hs.
Qed.
Lemma Blank_iff c : Blank c <-> is_cspace c = true.
Proof.
  unfold Blank, is_cspace, in_code_range, code. split.
  - intros H; cbn in H. repeat (destruct H as [<-|H]; [reflexivity|]). destruct H.
  - intros H. apply orb_true_iff in H. cbn.
    assert (Hc : forall n, N_of_ascii c = n -> n = N_of_ascii c) by (intros; congruence).
    destruct (N.eq_dec (N_of_ascii c) 9), (N.eq_dec (N_of_ascii c) 10), (N.eq_dec (N_of_ascii c) 11),
      (N.eq_dec (N_of_ascii c) 12), (N.eq_dec (N_of_ascii c) 13), (N.eq_dec (N_of_ascii c) 32); auto 10; lia.
Qed.
Lemma Blanks_iff s : Blanks s <-> sforallb is_cspace s = true.
Proof.
  unfold Blanks. rewrite sforallb_forall. split; intros H c Hc; apply Blank_iff; auto.
Qed.

(** ** Stripping *)
Lemma lstrip_padded p w t : sforallb p w = true -> lstrip_by p (w ++ t) = lstrip_by p t.
Proof.
  induction w as [|c w IH]; cbn [append sforallb lstrip_by]; [reflexivity|].
  rewrite andb_true_iff. intros [-> H]. auto.
Qed.
Lemma rstrip_blank p w : sforallb p w = true -> rstrip_by p w = "".
Proof.
  induction w as [|c w IH]; cbn [sforallb rstrip_by]; [reflexivity|].
  rewrite andb_true_iff. intros [H1 H2]. now rewrite IH, H1.
Qed.
Lemma rstrip_padded p t w : sforallb (fun c => negb (p c)) t = true -> sforallb p w = true -> rstrip_by p (t ++ w) = t.
Proof.
  intros Ht Hw. induction t as [|c t IH]; cbn [append rstrip_by]; [now apply rstrip_blank|].
  cbn [sforallb] in Ht. apply andb_true_iff in Ht as [H1 H2]. apply negb_true_iff in H1.
  rewrite IH by assumption. destruct t; [now rewrite H1|reflexivity].
Qed.
Lemma strip_padded p w1 t w2 : t <> "" -> sforallb p w1 = true -> sforallb p w2 = true ->
  sforallb (fun c => negb (p c)) t = true -> strip_by p (w1 ++ t ++ w2) = t.
Proof.
  intros Hne H1 H2 Ht. unfold strip_by. rewrite lstrip_padded by assumption.
  destruct t as [|c t]; [congruence|]. cbn [append lstrip_by].
  assert (Hc := Ht). cbn [sforallb] in Hc. apply andb_true_iff in Hc as [Hc _]. apply negb_true_iff in Hc. rewrite Hc.
  change (String c (t ++ w2)) with (String c t ++ w2)%string. now apply rstrip_padded.
Qed.
Lemma lstrip_spec p s : exists w, s = (w ++ lstrip_by p s)%string /\ sforallb p w = true.
Proof.
  induction s as [|c s (w & H1 & H2)]; cbn [lstrip_by]; [now exists ""|].
  destruct (p c) eqn:Hc.
  - exists (String c w). cbn [append sforallb]. rewrite <- H1, Hc. auto.
  - now exists "".
Qed.
Lemma rstrip_spec p s : exists w, s = (rstrip_by p s ++ w)%string /\ sforallb p w = true.
Proof.
  induction s as [|c s (w & H1 & H2)]; cbn [rstrip_by]; [now exists ""|].
  destruct (rstrip_by p s) as [|c' r] eqn:Hr.
  - cbn [append] in H1. subst w. destruct (p c) eqn:Hc; cbn [append].
    + exists (String c s). cbn [sforallb]. now rewrite Hc, H2.
    + exists s. auto.
  - exists w. cbn [append] in *. split; [congruence|auto].
Qed.
Lemma strip_spec p s : exists w1 w2, s = (w1 ++ strip_by p s ++ w2)%string /\ sforallb p w1 = true /\ sforallb p w2 = true.
Proof.
  unfold strip_by. destruct (lstrip_spec p s) as (w1 & H1 & H1').
  destruct (rstrip_spec p (lstrip_by p s)) as (w2 & H2 & H2').
  exists w1, w2. rewrite <- H2, <- H1. auto.
Qed.

(** ** [int(s, 10)] and [int(s, 0)] *)
Lemma split_sign_spec s : exists sg, s = (sg ++ snd (split_sign s))%string /\ (sg = "" \/ sg = "+" \/ sg = "-") /\
   fst (split_sign s) = String.eqb sg "-".
Proof.
  destruct s as [|c r]; cbn [split_sign]; [now exists ""; auto|].
  destruct (Ascii.eqb c "-") eqn:H1; [apply Ascii.eqb_eq in H1; subst; exists "-"; auto|].
  destruct (Ascii.eqb c "+") eqn:H2; [apply Ascii.eqb_eq in H2; subst; exists "+"; auto|].
  exists ""; auto.
Qed.
Lemma Sign_bool sg v : sg = "" \/ sg = "+" \/ sg = "-" -> Sign sg v (if String.eqb sg "-" then - v else v).
Proof. unfold Sign. intros [->|[->| ->]]; cbn; auto 10. Qed.

Lemma split_sign_app sg t v n : Sign sg v n -> (exists c r, t = String c r /\ is_word c = true) ->
  split_sign (sg ++ t) = (String.eqb sg "-", t) /\ n = if String.eqb sg "-" then - v else v.
Proof.
  intros Hs (c & r & -> & Hc).
  destruct Hs as [[-> ->]|[[-> ->]|[-> ->]]]; cbn [append]; (split; [|reflexivity]); try reflexivity.
  cbn [split_sign].
  pose proof (char_sweep (fun c => negb (is_word c) || (negb (Ascii.eqb c "-") && negb (Ascii.eqb c "+"))) eq_refl c) as Hw.
  cbn beta in Hw. rewrite Hc in Hw. cbn [negb orb] in Hw. apply andb_true_iff in Hw as [H1 H2].
  apply negb_true_iff in H1, H2. now rewrite H1, H2.
Qed.

Lemma py_int_10_Numeral s n : py_int 10 s = Some n -> Numeral s n.
Proof.
  unfold py_int. destruct (strip_spec is_cspace s) as (w1 & w2 & Hs & H1 & H2).
  set (t := strip_by is_cspace s) in *. clearbody t.
  destruct (split_sign_spec t) as (sg & Ht & Hsg & Hneg).
  destruct (split_sign t) as [neg u]. cbn [fst snd] in *. cbn [Z.eqb Pos.eqb].
  rewrite strip_prefix_10.
  destruct (digits_go 10 u 0 false) as [v|] eqn:Hd; [|discriminate]. cbn [andb].
  intros H; injection H as <-. apply digits_go_Digits in Hd; [|lia].
  exists w1, w2, sg, u, v. subst. repeat split; auto; try (now apply Blanks_iff).
  - now rewrite <- !sapp_assoc in *.
  - now apply Sign_bool.
  - now left.
Qed.

Lemma py_int_0_Numeral s n : py_int 0 s = Some n -> Numeral s n.
Proof.
  unfold py_int. destruct (strip_spec is_cspace s) as (w1 & w2 & Hs & H1 & H2).
  set (t := strip_by is_cspace s) in *. clearbody t.
  destruct (split_sign_spec t) as (sg & Ht & Hsg & Hneg).
  destruct (split_sign t) as [neg u]. cbn [fst snd] in *. cbn [Z.eqb].
  destruct (detect_base u) as [b z] eqn:Hb.
  destruct (digits_go b (strip_prefix b u) 0 false) as [v|] eqn:Hd; [|discriminate].
  destruct (z && negb (v =? 0)) eqn:Hz; [discriminate|]. intros H; injection H as <-.
  assert (Hu : Unsigned u v).
  { unfold detect_base in Hb. destruct u as [|c0 r].
    { injection Hb as <- <-. rewrite strip_prefix_10 in Hd. left. now apply digits_go_Digits. }
    destruct (Ascii.eqb c0 "0") eqn:Hc0.
    2:{ injection Hb as <- <-. rewrite strip_prefix_10 in Hd. left. now apply digits_go_Digits. }
    apply Ascii.eqb_eq in Hc0. subst c0. destruct r as [|p r].
    { injection Hb as <- <-. rewrite strip_prefix_10 in Hd. left. now apply digits_go_Digits. }
    assert (Hpre : forall b0 lo up, b0 <= 16 ->
       (forall q, Ascii.eqb (lower_char q) lo = true -> q = lo \/ q = up) ->
       strip_prefix b (String "0" (String p r)) =
         (match r with String u0 r' => if Ascii.eqb u0 c_us then r' else r | EmptyString => r end) ->
       In (String "0" (String lo ""), b) [("0x", 16); ("0X", 16); ("0o", 8); ("0O", 8); ("0b", 2); ("0B", 2)] ->
       In (String "0" (String up ""), b) [("0x", 16); ("0X", 16); ("0o", 8); ("0O", 8); ("0b", 2); ("0B", 2)] ->
       b = b0 -> Ascii.eqb (lower_char p) lo = true -> Unsigned (String "0" (String p r)) v).
    { intros b0 lo up Hb16 Hlu Hst Hlo Hup -> Hp. rewrite Hst in Hd. right.
      assert (Hin : In (String "0" (String p ""), b0) [("0x", 16); ("0X", 16); ("0o", 8); ("0O", 8); ("0b", 2); ("0B", 2)])
        by (destruct (Hlu p Hp) as [->| ->]; auto).
      exists (String "0" (String p "")), b0.
      destruct r as [|u0 r'].
      - exists "", "". split; [exact Hin|]. split; [auto|]. split; [reflexivity|]. now apply digits_go_Digits.
      - destruct (Ascii.eqb u0 c_us) eqn:Hu0.
        + apply Ascii.eqb_eq in Hu0. subst u0. exists "_", r'. split; [exact Hin|]. split; [auto|]. split; [reflexivity|]. now apply digits_go_Digits.
        + exists "", (String u0 r'). split; [exact Hin|]. split; [auto|]. split; [reflexivity|]. now apply digits_go_Digits. }
    destruct (Ascii.eqb (lower_char p) "x") eqn:Hx.
    { injection Hb as <- <-. apply (Hpre 16 "x"%char "X"%char); auto; try lia; try (cbn; solve [auto 10]).
      - intros q Hq. pose proof (char_sweep (fun q => negb (Ascii.eqb (lower_char q) "x") || (Ascii.eqb q "x" || Ascii.eqb q "X")) eq_refl q) as Hs'.
        cbn beta in Hs'. rewrite Hq in Hs'. cbn [negb orb] in Hs'. apply orb_true_iff in Hs' as [Hs'|Hs']; apply Ascii.eqb_eq in Hs'; auto.
      - unfold strip_prefix. rewrite Hx. reflexivity. }
    destruct (Ascii.eqb (lower_char p) "o") eqn:Ho.
    { injection Hb as <- <-. apply (Hpre 8 "o"%char "O"%char); auto; try lia; try (cbn; solve [auto 10]).
      - intros q Hq. pose proof (char_sweep (fun q => negb (Ascii.eqb (lower_char q) "o") || (Ascii.eqb q "o" || Ascii.eqb q "O")) eq_refl q) as Hs'.
        cbn beta in Hs'. rewrite Hq in Hs'. cbn [negb orb] in Hs'. apply orb_true_iff in Hs' as [Hs'|Hs']; apply Ascii.eqb_eq in Hs'; auto.
      - unfold strip_prefix. rewrite Hx, Ho. reflexivity. }
    destruct (Ascii.eqb (lower_char p) "b") eqn:Hbb.
    { injection Hb as <- <-. apply (Hpre 2 "b"%char "B"%char); auto; try lia; try (cbn; solve [auto 10]).
      - intros q Hq. pose proof (char_sweep (fun q => negb (Ascii.eqb (lower_char q) "b") || (Ascii.eqb q "b" || Ascii.eqb q "B")) eq_refl q) as Hs'.
        cbn beta in Hs'. rewrite Hq in Hs'. cbn [negb orb] in Hs'. apply orb_true_iff in Hs' as [Hs'|Hs']; apply Ascii.eqb_eq in Hs'; auto.
      - unfold strip_prefix. rewrite Hx, Ho, Hbb. reflexivity. }
    injection Hb as <- <-. rewrite strip_prefix_10 in Hd. left. now apply digits_go_Digits. }
  exists w1, w2, sg, u, v. subst. repeat split; auto; try (now apply Blanks_iff).
  - now rewrite <- !sapp_assoc in *.
  - now apply Sign_bool.
Qed.

(** a numeral is read by one of the two attempts *)
Lemma Unsigned_word t v : Unsigned t v -> sforallb is_word t = true /\ exists c r, t = String c r /\ is_word c = true.
Proof.
  intros H.
  assert (Hw : sforallb is_word t = true /\ t <> "").
  { destruct H as [H|(p & b & u & r & Hin & Hu & -> & H)].
    - split; [apply (Digits_word 10 t v); [lia|auto]|]. destruct H as (c & d & s' & -> & _). discriminate.
    - assert (Hb : b <= 16 /\ sforallb is_word p = true /\ p <> "").
      { cbn in Hin. repeat (destruct Hin as [Hin|Hin]; [injection Hin as <- <-; repeat split; [lia|discriminate]|]). destruct Hin. }
      destruct Hb as (Hb & Hp & Hne). rewrite !sforallb_app, Hp, (Digits_word b r v Hb H).
      split; [destruct Hu as [->| ->]; reflexivity|]. destruct p; [congruence|discriminate]. }
  destruct Hw as [Hw Hne]. split; [auto|]. destruct t as [|c r]; [congruence|]. exists c, r. split; auto.
  cbn [sforallb] in Hw. now apply andb_true_iff in Hw as [? _].
Qed.

Lemma Numeral_py_int s n : Numeral s n ->
  py_int 0 s = Some n \/ (py_int 0 s = None /\ py_int 10 s = Some n).
Proof.
  intros (w1 & w2 & sg & t & v & -> & H1 & H2 & Hsg & Hu).
  destruct (Unsigned_word t v Hu) as [Hw Hhd].
  apply Blanks_iff in H1, H2. unfold py_int.
  rewrite (sapp_assoc sg t w2), strip_padded; auto.
  2:{ destruct Hhd as (c & r & -> & _). destruct sg; discriminate. }
  2:{ rewrite sforallb_app. rewrite (sforallb_impl _ _ t word_not_space Hw).
      destruct Hsg as [[-> _]|[[-> _]|[-> _]]]; reflexivity. }
  destruct (split_sign_app sg t v n Hsg Hhd) as [-> ->]. cbn [Z.eqb Pos.eqb].
  destruct Hu as [Hd|(p & b & u & r & Hin & Hu & -> & Hd)].
  - rewrite strip_prefix_10.
    assert (Hdet : fst (detect_base t) = 10).
    { destruct Hd as (c & d & s' & -> & Hd & Hf). cbn [detect_base].
      destruct (Ascii.eqb c "0") eqn:Hc; [|reflexivity].
      destruct s' as [|c2 s2]; [reflexivity|].
      assert (Hc2 : is_digit c2 = true \/ c2 = "_"%char).
      { inversion Hf; subst; [left|auto]. apply (IsDigit_val 10) in H4 as [H4 H5]; [|lia].
        pose proof (char_sweep (fun c => match digit_val c with Some d => (10 <=? d) || is_digit c | None => true end) eq_refl c2) as Hs.
        cbn beta in Hs. rewrite H4 in Hs. apply orb_true_iff in Hs as [Hs|Hs]; [lia|exact Hs]. }
      pose proof (char_sweep (fun c => negb (is_digit c || Ascii.eqb c "_")
        || (negb (Ascii.eqb (lower_char c) "x") && negb (Ascii.eqb (lower_char c) "o") && negb (Ascii.eqb (lower_char c) "b"))) eq_refl c2) as Hs.
      cbn beta in Hs.
      assert (Hor : is_digit c2 || Ascii.eqb c2 "_" = true) by (destruct Hc2 as [->| ->]; reflexivity).
      rewrite Hor in Hs. cbn [negb orb] in Hs. apply andb_true_iff in Hs as [Hs Hs3]. apply andb_true_iff in Hs as [Hs1 Hs2].
      apply negb_true_iff in Hs1, Hs2, Hs3. now rewrite Hs1, Hs2, Hs3. }
    destruct (detect_base t) as [b z]. cbn [fst] in Hdet. subst b. rewrite strip_prefix_10.
    assert (Hg : digits_go 10 t 0 false = Some v) by (apply digits_go_Digits; [lia|auto]).
    rewrite Hg. cbn [andb]. destruct (z && negb (v =? 0)); auto.
  - left.
    assert (Hcases : b <= 16 /\ detect_base (p ++ u ++ r) = (b, false) /\
      strip_prefix b (p ++ u ++ r) = (match (u ++ r)%string with String u0 r' => if Ascii.eqb u0 c_us then r' else (u ++ r)%string | EmptyString => (u ++ r)%string end)).
    { cbn in Hin. repeat (destruct Hin as [Hin|Hin]; [injection Hin as <- <-; repeat split; try lia; reflexivity|]). destruct Hin. }
    destruct Hcases as (Hb & Hdet & Hst). rewrite Hdet, Hst.
    assert (Hr : (match (u ++ r)%string with String u0 r' => if Ascii.eqb u0 c_us then r' else (u ++ r)%string | EmptyString => (u ++ r)%string end) = r).
    { destruct Hu as [->| ->]; cbn [append]; [|reflexivity].
      destruct Hd as (c & d & s' & -> & Hd & _). destruct (Ascii.eqb c c_us) eqn:Hc; [|reflexivity].
      apply Ascii.eqb_eq in Hc. subst c. apply (IsDigit_val b) in Hd as [Hd _]; [discriminate|auto]. }
    rewrite Hr. assert (Hg : digits_go b r 0 false = Some v) by (apply digits_go_Digits; [lia|auto]).
    rewrite Hg. reflexivity.
Qed.

(** ** [_to_int] *)
Lemma NoHash_contains s : NoHash s <-> contains "#" s = false.
Proof.
  unfold NoHash. induction s as [|c s IH]; cbn [list_ascii_of_string contains]; [cbn; intuition|].
  cbn [startswith]. rewrite orb_false_iff, <- IH.
  destruct (Ascii.eqb "#" c) eqn:Hc.
  - apply Ascii.eqb_eq in Hc. subst. cbn [andb]. split; [intros H; exfalso; apply H; left; reflexivity|intros [H _]; destruct s; discriminate].
  - cbn [andb]. split.
    + intros H. split; [destruct s; auto|]. intros Hin. apply H. right. exact Hin.
    + intros [_ H] [Hin|Hin]; [subst; discriminate|auto].
Qed.
Lemma replace_hash_nohash s : NoHash s -> replace "#" "0b" s = s.
Proof. intros H. apply replace_none, NoHash_contains, H. Qed.

Lemma to_int_shape s : (exists n, to_int s = ret n) \/ to_int s = raise NotImplementedError "_to_int".
Proof. unfold to_int. destruct (py_int 0 _); eauto. destruct (py_int 10 _); eauto. Qed.

Lemma to_int_iff s n : to_int s = ret n <-> Numeral (replace "#" "0b" s) n.
Proof.
  unfold to_int, ret, raise. split.
  - destruct (py_int 0 _) eqn:H0; [intros H; injection H as <-; now apply py_int_0_Numeral|].
    destruct (py_int 10 _) eqn:H1; [intros H; injection H as <-; now apply py_int_10_Numeral|discriminate].
  - intros H. destruct (Numeral_py_int _ _ H) as [->|[-> ->]]; reflexivity.
Qed.

Lemma word_no_hash s : sforallb (fun c => is_word c || Ascii.eqb c "-") s = true -> NoHash s.
Proof.
  rewrite sforallb_forall. intros H Hin. specialize (H _ Hin). discriminate.
Qed.
Lemma nat_str_word b n : good_base b -> 0 <= n -> sforallb (fun c => is_word c || Ascii.eqb c "-") (nat_str b n) = true.
Proof.
  intros Hb Hn. apply nat_str_chars; auto. intros d Hd. unfold good_base in Hb.
  apply (digit_sweep (fun c => is_word c || Ascii.eqb c "-")); [vm_compute; reflexivity|lia].
Qed.
Lemma str_of_Z_word n : sforallb (fun c => is_word c || Ascii.eqb c "-") (str_of_Z n) = true.
Proof.
  unfold str_of_Z. destruct (n <? 0) eqn:H; [cbn [sforallb]; rewrite nat_str_word by (auto using good10; lia); reflexivity|].
  apply nat_str_word; [apply good10|lia].
Qed.
Lemma hex_of_Z_word n : sforallb (fun c => is_word c || Ascii.eqb c "-") (hex_of_Z n) = true.
Proof.
  unfold hex_of_Z. destruct (n <? 0) eqn:H; rewrite sforallb_app, nat_str_word by (auto using good16; lia); reflexivity.
Qed.
Lemma to_int_str n : to_int (str_of_Z n) = ret n.
Proof. unfold to_int. rewrite replace_hash_nohash by (apply word_no_hash, str_of_Z_word). now rewrite py_int_str by auto. Qed.
Lemma to_int_hex n : to_int (hex_of_Z n) = ret n.
Proof. unfold to_int. rewrite replace_hash_nohash by (apply word_no_hash, hex_of_Z_word). now rewrite py_int_hex by auto. Qed.

Lemma word_not_pyspace c : is_word c || Ascii.eqb c "-" = true -> negb (is_space c) = true.
Proof.
  intros H. pose proof (char_sweep (fun c => negb (is_word c || Ascii.eqb c "-") || negb (is_space c)) eq_refl c) as Hs.
  cbn beta in Hs. rewrite H in Hs. exact Hs.
Qed.
Lemma strip_word s : sforallb (fun c => is_word c || Ascii.eqb c "-") s = true -> strip s = s.
Proof. intros H. apply strip_none. eapply sforallb_impl; [apply word_not_pyspace|exact H]. Qed.
Lemma strip_str n : strip (str_of_Z n) = str_of_Z n.
Proof. apply strip_word, str_of_Z_word. Qed.
Lemma strip_hex n : strip (hex_of_Z n) = hex_of_Z n.
Proof. apply strip_word, hex_of_Z_word. Qed.

(** ** [_to_bool] and the attribute enumerations *)
Lemma to_bool_text b : to_bool (bool_text b) = ret b.
Proof. destruct b; reflexivity. Qed.
Lemma cpu_value_rt c : cpu_from_str (cpu_value c) = Some c. Proof. destruct c; reflexivity. Qed.
Lemma endian_value_rt c : endian_from_str (endian_value c) = Some c. Proof. destruct c; reflexivity. Qed.
Lemma protection_value_rt c : protection_from_str (protection_value c) = Some c. Proof. destruct c; reflexivity. Qed.
Lemma sau_access_value_rt c : sau_access_from_str (sau_access_value c) = Some c. Proof. destruct c; reflexivity. Qed.
Lemma access_value_rt c : access_from_str (access_value c) = ret (Some c). Proof. destruct c; reflexivity. Qed.
Lemma ab_usage_value_rt c : ab_usage_from_str (ab_usage_value c) = Some c. Proof. destruct c; reflexivity. Qed.
Lemma data_type_value_rt c : data_type_from_str (data_type_value c) = Some c. Proof. destruct c; reflexivity. Qed.
Lemma mwv_value_rt c : mwv_from_str (mwv_value c) = Some c. Proof. destruct c; reflexivity. Qed.
Lemma read_action_value_rt c : read_action_from_str (read_action_value c) = Some c. Proof. destruct c; reflexivity. Qed.
Lemma enum_usage_value_rt c : enum_usage_from_str (enum_usage_value c) = Some c. Proof. destruct c; reflexivity. Qed.

Lemma enum_find_sound {A} (value : A -> string) all label a : enum_find value all label = Some a -> value a = label.
Proof. unfold enum_find. intros H. apply find_some in H as [_ H]. now apply String.eqb_eq in H. Qed.
Lemma enum_find_none {A} (value : A -> string) all label : enum_find value all label = None -> forall a, In a all -> value a <> label.
Proof. unfold enum_find. intros H a Ha Hl. apply (find_none _ _ H) in Ha. rewrite Hl, String.eqb_refl in Ha. discriminate. Qed.
