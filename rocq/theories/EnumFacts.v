(** * EnumFacts: lemmas about EnumModel. *)
From Verif Require Import Base PyStr PyInt Types EnumModel SpecEnum.
From Coq Require Import ZifyBool ZifyNat.

(** ** Don't-care expansion *)
Definition lw_char (c : ascii) : bool := Ascii.eqb c "0" || Ascii.eqb c "1" || Ascii.eqb c "x".
Definition bin_char (c : ascii) : bool := Ascii.eqb c "0" || Ascii.eqb c "1".

Fixpoint expand (s : string) : list string :=
  match s with
  | EmptyString => [EmptyString]
  | String c s' => if Ascii.eqb c "x" then map (String "0") (expand s') ++ map (String "1") (expand s')
                   else map (String c) (expand s')
  end.

Lemma replace_comb_cons c s comb : Ascii.eqb "x" c = false ->
  replace_x_with_combination (String c s) comb = String c (replace_x_with_combination s comb).
Proof.
  intros Hc. unfold replace_x_with_combination. revert s.
  induction comb as [|b comb IH]; intros s; cbn [fold_left]; [reflexivity|].
  cbn [replace_first_char]. rewrite Hc. apply IH.
Qed.

Lemma replace_comb_x b s comb : Ascii.eqb "x" b = false ->
  replace_x_with_combination (String "x" s) (b :: comb) = String b (replace_x_with_combination s comb).
Proof.
  intros Hb. unfold replace_x_with_combination at 1. cbn [fold_left replace_first_char].
  replace (Ascii.eqb "x" "x") with true by reflexivity. cbn [append].
  exact (replace_comb_cons b s comb Hb).
Qed.

Lemma replace_x_combinations_expand s : replace_x_combinations s = expand s.
Proof.
  unfold replace_x_combinations.
  induction s as [|c s IH]; cbn [count_char expand]; [reflexivity|].
  rewrite (Ascii.eqb_sym c "x"). destruct (Ascii.eqb "x" c) eqn:Hc.
  - apply Ascii.eqb_eq in Hc. subst c. cbn [plus product01]. rewrite map_app, !map_map, <- IH, !map_map.
    f_equal; apply map_ext; intros comb; now rewrite replace_comb_x.
  - cbn [plus]. rewrite <- IH, map_map. apply map_ext. intros comb. now rewrite replace_comb_cons.
Qed.

(** value of a string of binary digits *)
Definition bit_of (c : ascii) : Z := if Ascii.eqb c "1" then 1 else 0.
Fixpoint bval (s : string) (acc : Z) : Z :=
  match s with EmptyString => acc | String c s' => bval s' (acc * 2 + bit_of c) end.

Lemma bval_acc s acc : bval s acc = acc * 2 ^ Z.of_nat (String.length s) + bval s 0.
Proof.
  revert acc; induction s as [|c s IH]; intros acc; cbn [bval String.length]; [lia|].
  rewrite (IH (acc * 2 + bit_of c)), (IH (0 * 2 + bit_of c)).
  rewrite Nat2Z.inj_succ, Z.pow_succ_r by lia. ring.
Qed.

Lemma bit_of_range c : 0 <= bit_of c <= 1.
Proof. unfold bit_of; destruct (Ascii.eqb c "1"); lia. Qed.

Lemma bval_range s : 0 <= bval s 0 < 2 ^ Z.of_nat (String.length s).
Proof.
  induction s as [|c s IH]; cbn [bval String.length]; [cbn; lia|].
  rewrite bval_acc. rewrite Nat2Z.inj_succ, Z.pow_succ_r by lia.
  pose proof (bit_of_range c). nia.
Qed.

Lemma bin_digits_go s : sforallb bin_char s = true -> forall acc p,
  digits_go 2 s acc p = match s with EmptyString => if p then Some acc else None | _ => Some (bval s acc) end.
Proof.
  induction s as [|c s IH]; cbn [sforallb]; intros H acc p; [reflexivity|].
  apply andb_true_iff in H as [Hc Hs]. cbn [digits_go].
  assert (Hv : Ascii.eqb c c_us = false /\ digit_val c = Some (bit_of c)).
  { unfold bin_char in Hc. apply orb_true_iff in Hc as [Hc|Hc]; apply Ascii.eqb_eq in Hc; subst; split; reflexivity. }
  destruct Hv as [Hu ->]. rewrite Hu. pose proof (bit_of_range c).
  replace (bit_of c <? 2) with true by lia. rewrite IH by assumption.
  cbn [bval]. destruct s; reflexivity.
Qed.

Lemma py_int_bin s : s <> "" -> sforallb bin_char s = true -> py_int 2 s = Some (bval s 0).
Proof.
  intros Hne H. unfold py_int. rewrite strip_none.
  2:{ clear Hne. induction s as [|c s IH]; cbn [sforallb] in *; [reflexivity|].
      apply andb_true_iff in H as [Hc Hs]. rewrite IH by assumption. rewrite andb_true_r.
      unfold bin_char in Hc. apply orb_true_iff in Hc as [Hc|Hc]; apply Ascii.eqb_eq in Hc; subst; reflexivity. }
  destruct s as [|c s]; [congruence|].
  assert (Hsg : split_sign (String c s) = (false, String c s)).
  { cbn [sforallb] in H. apply andb_true_iff in H as [Hc _]. unfold bin_char in Hc.
    apply orb_true_iff in Hc as [Hc|Hc]; apply Ascii.eqb_eq in Hc; subst; reflexivity. }
  rewrite Hsg. change (2 =? 0) with false. cbn [fst snd].
  assert (Hst : strip_prefix 2 (String c s) = String c s).
  { unfold strip_prefix. destruct s as [|d s]; [reflexivity|].
    cbn [sforallb] in H. apply andb_true_iff in H as [_ H]. apply andb_true_iff in H as [Hd _].
    replace (Ascii.eqb (lower_char d) "b") with false.
    2:{ unfold bin_char in Hd. apply orb_true_iff in Hd as [Hd|Hd]; apply Ascii.eqb_eq in Hd; subst; reflexivity. }
    cbn [Z.eqb Pos.eqb andb orb]. now rewrite andb_false_r. }
  rewrite Hst, bin_digits_go by assumption. reflexivity.
Qed.

Lemma expand_bin s : sforallb lw_char s = true -> forall t, In t (expand s) ->
  sforallb bin_char t = true /\ String.length t = String.length s.
Proof.
  induction s as [|c s IH]; cbn [sforallb expand]; intros H t Ht.
  - destruct Ht as [<-|[]]. auto.
  - apply andb_true_iff in H as [Hc Hs]. specialize (IH Hs).
    destruct (Ascii.eqb c "x") eqn:Hx.
    + apply in_app_or in Ht as [Ht|Ht]; apply in_map_iff in Ht as (u & <- & Hu); destruct (IH u Hu) as [H1 H2];
        cbn [sforallb String.length]; rewrite H1, H2; auto.
    + apply in_map_iff in Ht as (u & <- & Hu). destruct (IH u Hu) as [H1 H2]. cbn [sforallb String.length].
      rewrite H1, H2. unfold lw_char in Hc. rewrite Hx, orb_false_r in Hc. unfold bin_char. rewrite Hc. auto.
Qed.

Definition wild_values (s : string) : list Z := map (fun t => bval t 0) (expand s).

Lemma mapM_int2_expand s : s <> "" -> sforallb lw_char s = true -> mapM int2_or_pe (expand s) = ret (wild_values s).
Proof.
  intros Hne Hs. rewrite (mapM_ext _ (fun t => ret (bval t 0))).
  - apply mapM_ret.
  - intros t Ht. destruct (expand_bin s Hs t Ht) as [H1 H2].
    unfold int2_or_pe. rewrite py_int_bin; auto.
    intros ->. destruct s; [congruence|discriminate].
Qed.

(** recursive form of [matches] on lower-case literals *)
Fixpoint rmatch (s : string) (v : Z) : Prop :=
  match s with
  | EmptyString => v = 0
  | String c s' =>
      let n := Z.of_nat (String.length s') in
      (0 <= v < 2 ^ n /\ c <> "1"%char /\ rmatch s' v) \/
      (2 ^ n <= v < 2 ^ (n + 1) /\ c <> "0"%char /\ rmatch s' (v - 2 ^ n))
  end.

Lemma bval_cons c t : bval (String c t) 0 = bit_of c * 2 ^ Z.of_nat (String.length t) + bval t 0.
Proof. cbn [bval]. rewrite bval_acc. f_equal. Qed.

Lemma wild_values_rmatch s : sforallb lw_char s = true -> forall v, In v (wild_values s) <-> rmatch s v.
Proof.
  induction s as [|c s IH]; cbn [sforallb]; intros H v.
  - cbn. split; [intros [<-|[]]; reflexivity|intros ->; auto].
  - apply andb_true_iff in H as [Hc Hs]. specialize (IH Hs).
    set (n := Z.of_nat (String.length s)).
    assert (Hlen : forall t, In t (expand s) -> Z.of_nat (String.length t) = n).
    { intros t Ht. destruct (expand_bin s Hs t Ht) as [_ H2]. unfold n. now rewrite H2. }
    assert (H0 : forall b v, In v (map (fun t => bval (String b t) 0) (expand s)) <-> In (v - bit_of b * 2 ^ n) (wild_values s)).
    { intros b w. unfold wild_values. rewrite !in_map_iff. split.
      - intros (t & Ht & Hin). exists t. split; auto. rewrite bval_cons, (Hlen t Hin) in Ht. lia.
      - intros (t & Ht & Hin). exists t. split; auto. rewrite bval_cons, (Hlen t Hin). lia. }
    assert (Hr : forall w, In w (wild_values s) -> 0 <= w < 2 ^ n).
    { unfold wild_values. intros w Hw. apply in_map_iff in Hw as (t & <- & Ht). rewrite <- (Hlen t Ht). apply bval_range. }
    assert (Hp : 2 ^ (n + 1) = 2 * 2 ^ n) by (rewrite Z.pow_add_r by lia; lia).
    cbn [rmatch]. fold n.
    unfold wild_values. cbn [expand]. destruct (Ascii.eqb c "x") eqn:Hx.
    + rewrite map_app, !map_map, in_app_iff, !H0. apply Ascii.eqb_eq in Hx. subst c.
      change (bit_of "0") with 0. change (bit_of "1") with 1. rewrite Z.mul_0_l, Z.sub_0_r, Z.mul_1_l, !IH.
      split.
      * intros [Hv|Hv]; [left|right]; apply IH in Hv as Hv'; apply Hr in Hv'; repeat split; auto; try lia; discriminate.
      * intros [(_ & _ & Hv)|(_ & _ & Hv)]; auto.
    + rewrite map_map, H0. unfold lw_char in Hc. rewrite Hx, orb_false_r in Hc. apply orb_true_iff in Hc.
      destruct Hc as [Hc|Hc]; apply Ascii.eqb_eq in Hc; subst c.
      * change (bit_of "0") with 0. rewrite Z.mul_0_l, Z.sub_0_r, IH. split.
        -- intros Hv. left. apply IH in Hv as Hv'. apply Hr in Hv'. repeat split; auto; try lia; discriminate.
        -- intros [(_ & _ & Hv)|(_ & Hn & _)]; auto. congruence.
      * change (bit_of "1") with 1. rewrite Z.mul_1_l, IH. split.
        -- intros Hv. right. apply IH in Hv as Hv'. apply Hr in Hv'. repeat split; auto; try lia; discriminate.
        -- intros [(_ & Hn & _)|(_ & _ & Hv)]; auto. congruence.
Qed.

Lemma testbit_top n v : 0 <= n -> 0 <= v < 2 ^ (n + 1) -> Z.testbit v n = negb (v <? 2 ^ n).
Proof.
  intros Hn Hv. rewrite Z.pow_add_r in Hv by lia. change (2 ^ 1) with 2 in Hv.
  assert (0 < 2 ^ n) by (apply Z.pow_pos_nonneg; lia).
  destruct (Z.ltb_spec v (2 ^ n)); cbn [negb].
  - destruct (Z.eq_dec v 0) as [->|Hv0]; [apply Z.testbit_0_l|].
    apply Z.bits_above_log2; [lia|]. apply Z.log2_lt_pow2; lia.
  - apply Z.testbit_true; [lia|].
    replace v with (v - 2 ^ n + 1 * 2 ^ n) by ring. rewrite Z.div_add by lia.
    rewrite Z.div_small by lia. reflexivity.
Qed.

Lemma testbit_low n v i : 0 <= i < n -> Z.testbit (v - 2 ^ n) i = Z.testbit v i.
Proof.
  intros Hi.
  assert (H : (v - 2 ^ n) mod 2 ^ n = v mod 2 ^ n).
  { replace (v - 2 ^ n) with (v + (-1) * 2 ^ n) by ring. apply Z.mod_add. apply Z.pow_nonzero; lia. }
  rewrite <- (Z.mod_pow2_bits_low (v - 2 ^ n) n i) by lia.
  rewrite <- (Z.mod_pow2_bits_low v n i) by lia. now rewrite H.
Qed.

Lemma rmatch_matches s : sforallb lw_char s = true -> forall v, rmatch s v <-> matches s v.
Proof.
  induction s as [|c s IH]; cbn [sforallb]; intros H v.
  - cbn [rmatch]. unfold matches. cbn [String.length]. split.
    + intros ->. split; [cbn; lia|]. intros i c Hi; lia.
    + intros [Hv _]. cbn in Hv. lia.
  - apply andb_true_iff in H as [Hc Hs]. specialize (IH Hs). cbn [rmatch].
    unfold matches. cbn [String.length]. rewrite Nat2Z.inj_succ. set (n := Z.of_nat (String.length s)).
    assert (Hn : 0 <= n) by lia.
    assert (Hpow : 2 ^ Z.succ n = 2 * 2 ^ n) by (apply Z.pow_succ_r; lia).
    assert (Hpow1 : 2 ^ (n + 1) = 2 * 2 ^ n) by (rewrite Z.pow_add_r by lia; lia).
    assert (Hpos : 0 < 2 ^ n) by (apply Z.pow_pos_nonneg; lia).
    split.
    + intros Hm.
      assert (Hv : 0 <= v < 2 ^ (n + 1)) by (destruct Hm as [(Hv & _)|(Hv & _)]; lia).
      split; [lia|]. intros i d Hi Hg. destruct i as [|i].
      * cbn [String.get] in Hg. injection Hg as <-.
        replace (Z.of_nat (S (String.length s) - 1 - 0)) with n by lia.
        rewrite (testbit_top n v Hn Hv).
        destruct Hm as [(Hv' & H1 & _)|(Hv' & H0 & _)]; (split; intros ->; [try congruence|try congruence]); lia.
      * cbn [String.get] in Hg.
        replace (Z.of_nat (S (String.length s) - 1 - S i)) with (Z.of_nat (String.length s - 1 - i)) by lia.
        destruct Hm as [(Hv' & _ & Hm)|(Hv' & _ & Hm)]; apply IH in Hm; destruct Hm as [_ Hm];
          specialize (Hm i d ltac:(lia) Hg); [exact Hm|].
        rewrite testbit_low in Hm by lia. exact Hm.
    + intros [Hv Hm].
      assert (Htail : forall w, (forall j, 0 <= j < n -> Z.testbit w j = Z.testbit v j) -> 0 <= w < 2 ^ n -> matches s w).
      { intros w Hw Hr. split; [exact Hr|]. intros i d Hi Hg.
        specialize (Hm (S i) d ltac:(lia) Hg).
        replace (Z.of_nat (S (String.length s) - 1 - S i)) with (Z.of_nat (String.length s - 1 - i)) in Hm by lia.
        rewrite Hw by lia. exact Hm. }
      specialize (Hm 0%nat c ltac:(lia) eq_refl).
      replace (Z.of_nat (S (String.length s) - 1 - 0)) with n in Hm by lia.
      rewrite (testbit_top n v Hn ltac:(lia)) in Hm. destruct Hm as [Hm0 Hm1].
      destruct (Z.ltb_spec v (2 ^ n)) as [Hlt|Hge].
      * left. split; [lia|]. split; [intros ->; specialize (Hm1 eq_refl); discriminate|].
        apply IH, Htail; auto; lia.
      * right. split; [lia|]. split; [intros ->; specialize (Hm0 eq_refl); discriminate|].
        apply IH, Htail; [|lia]. intros j Hj. apply testbit_low; lia.
Qed.

Lemma StronglySorted_app {A} (R : A -> A -> Prop) l1 l2 :
  StronglySorted R l1 -> StronglySorted R l2 -> (forall x y, In x l1 -> In y l2 -> R x y) -> StronglySorted R (l1 ++ l2).
Proof.
  induction l1 as [|x l1 IH]; intros H1 H2 H; cbn [app]; [exact H2|].
  apply StronglySorted_inv in H1 as [Hs Hf]. constructor.
  - apply IH; auto. intros; apply H; simpl; auto.
  - apply Forall_app. split; [exact Hf|]. apply Forall_forall. intros y Hy. apply H; simpl; auto.
Qed.

Lemma StronglySorted_map_mono {A} (R : A -> A -> Prop) (f : A -> A) l :
  (forall x y, R x y -> R (f x) (f y)) -> StronglySorted R l -> StronglySorted R (map f l).
Proof.
  intros Hf. induction l as [|x l IH]; intros H; cbn [map]; [constructor|].
  apply StronglySorted_inv in H as [H1 H2]. constructor; [auto|].
  rewrite Forall_map. eapply Forall_impl; [|exact H2]. cbn. auto.
Qed.

Lemma wild_values_sorted s : sforallb lw_char s = true -> StronglySorted Z.lt (wild_values s).
Proof.
  induction s as [|c s IH]; cbn [sforallb]; intros H; [repeat constructor|].
  apply andb_true_iff in H as [Hc Hs]. specialize (IH Hs).
  set (n := Z.of_nat (String.length s)).
  assert (Hlen : forall t, In t (expand s) -> Z.of_nat (String.length t) = n).
  { intros t Ht. destruct (expand_bin s Hs t Ht) as [_ H2]. unfold n. now rewrite H2. }
  assert (Hm : forall b, map (fun t => bval (String b t) 0) (expand s) = map (fun v => bit_of b * 2 ^ n + v) (wild_values s)).
  { intros b. unfold wild_values. rewrite map_map. apply map_ext_in. intros t Ht. now rewrite bval_cons, (Hlen t Ht). }
  assert (Hr : forall w, In w (wild_values s) -> 0 <= w < 2 ^ n).
  { unfold wild_values. intros w Hw. apply in_map_iff in Hw as (t & <- & Ht). rewrite <- (Hlen t Ht). apply bval_range. }
  assert (Hmono : forall b, StronglySorted Z.lt (map (fun v => bit_of b * 2 ^ n + v) (wild_values s))).
  { intros b. apply StronglySorted_map_mono; auto. intros; lia. }
  unfold wild_values. cbn [expand]. destruct (Ascii.eqb c "x").
  - rewrite map_app, !map_map, !Hm. apply StronglySorted_app; auto.
    intros x y Hx Hy. apply in_map_iff in Hx as (a & <- & Ha), Hy as (b & <- & Hb).
    change (bit_of "0") with 0. change (bit_of "1") with 1. apply Hr in Ha, Hb. lia.
  - rewrite map_map, Hm. apply Hmono.
Qed.

(** ** From literals to the converter *)
Lemma all_chars_forallb (p : ascii -> bool) (P : ascii -> Prop) s :
  (forall c, P c -> p c = true) -> all_chars P s -> sforallb p s = true.
Proof. intros H. induction s as [|c s IH]; cbn; [reflexivity|]. intros [Hc Hs]. now rewrite H, IH. Qed.

Lemma lower_wild s : all_chars wild_char s -> sforallb lw_char (lower s) = true.
Proof.
  unfold lower. induction s as [|c s IH]; cbn [all_chars smap sforallb]; [reflexivity|].
  intros [Hc Hs]. rewrite IH by assumption. rewrite andb_true_r.
  unfold wild_char in Hc. cbn in Hc. destruct Hc as [<-|[<-|[<-|[<-|[]]]]]; reflexivity.
Qed.

Lemma lower_length s : String.length (lower s) = String.length s.
Proof. unfold lower. induction s as [|c s IH]; cbn; [reflexivity|now rewrite IH]. Qed.
Lemma lower_get s i : String.get i (lower s) = option_map lower_char (String.get i s).
Proof. unfold lower. revert i; induction s as [|c s IH]; intros [|i]; cbn; auto. Qed.

Lemma matches_lower s v : all_chars wild_char s -> (matches (lower s) v <-> matches s v).
Proof.
  intros Hw. unfold matches. rewrite lower_length.
  assert (Hget : forall i c, String.get i s = Some c -> wild_char c).
  { clear v. induction s as [|d s IH]; intros [|i] c; cbn [String.get]; try discriminate.
    - intros H; injection H as <-. apply Hw.
    - apply IH, Hw. }
  assert (H01 : forall c d, wild_char c -> (d = "0" \/ d = "1")%char -> (lower_char c = d <-> c = d)).
  { intros c d Hc Hd. unfold wild_char in Hc. cbn in Hc.
    destruct Hc as [<-|[<-|[<-|[<-|[]]]]], Hd as [-> | ->]; split; intros H; try reflexivity; try discriminate H. }
  split; intros [Hr Hm]; (split; [exact Hr|]); intros i c Hi Hg.
  - specialize (Hm i (lower_char c) Hi). rewrite lower_get, Hg in Hm. specialize (Hm eq_refl).
    rewrite !H01 in Hm by eauto. exact Hm.
  - rewrite lower_get in Hg. destruct (String.get i s) as [d|] eqn:Hd; [|discriminate].
    injection Hg as <-. specialize (Hm i d Hi Hd). rewrite !H01 by eauto. exact Hm.
Qed.

Lemma contains_hash_lw s : sforallb lw_char s = true -> contains "#" s = false.
Proof.
  induction s as [|c s IH]; cbn [sforallb contains]; [reflexivity|].
  intros H. apply andb_true_iff in H as [Hc Hs]. rewrite IH by assumption. rewrite orb_false_r.
  unfold lw_char in Hc. apply orb_true_iff in Hc as [Hc|Hc]; [apply orb_true_iff in Hc as [Hc|Hc]|];
    apply Ascii.eqb_eq in Hc; subst; reflexivity.
Qed.

Lemma contains_x_lw s : sforallb lw_char s = true -> contains "x" s = false -> sforallb bin_char s = true.
Proof.
  induction s as [|c s IH]; cbn [sforallb contains]; [reflexivity|].
  intros H Hx. apply andb_true_iff in H as [Hc Hs]. apply orb_false_iff in Hx as [Hx Hxs].
  rewrite IH by assumption. rewrite andb_true_r. unfold lw_char in Hc. unfold bin_char.
  destruct (Ascii.eqb c "x") eqn:E; [|now rewrite orb_false_r in Hc].
  apply Ascii.eqb_eq in E. subst. cbn in Hx. discriminate.
Qed.

Lemma expand_noX s : contains "x" s = false -> expand s = [s].
Proof.
  induction s as [|c s IH]; cbn [contains expand]; [reflexivity|].
  intros Hx. apply orb_false_iff in Hx as [Hx Hxs]. rewrite IH by assumption.
  destruct (Ascii.eqb c "x") eqn:E; [|reflexivity].
  apply Ascii.eqb_eq in E. subst. cbn in Hx. discriminate.
Qed.

Lemma binary_wild s : s <> "" -> sforallb lw_char s = true ->
  process_binary_value_with_wildcard s = ret (wild_values s).
Proof.
  intros Hne Hs. unfold process_binary_value_with_wildcard.
  assert (Hl : lower s = s).
  { unfold lower. clear Hne. induction s as [|c s IH]; cbn [sforallb smap] in *; [reflexivity|].
    apply andb_true_iff in Hs as [Hc Hs]. rewrite IH by assumption. f_equal.
    unfold lw_char in Hc. apply orb_true_iff in Hc as [Hc|Hc]; [apply orb_true_iff in Hc as [Hc|Hc]|];
    apply Ascii.eqb_eq in Hc; subst; reflexivity. }
  rewrite Hl. destruct (contains "x" s) eqn:Hx.
  - rewrite replace_x_combinations_expand. now apply mapM_int2_expand.
  - unfold int2_or_pe. rewrite py_int_bin; [|exact Hne|now apply contains_x_lw].
    rewrite bind_ret_l. unfold wild_values. now rewrite expand_noX.
Qed.

(** the prefixes announcing a binary literal *)
Definition bin_prefix (p : string) : Prop := In p ["0b"; "0B"; "#"].

Lemma convert_wild p s : bin_prefix p -> wild_literal s ->
  convert_enumerated_value (p ++ s)%string = ret (wild_values (lower s)).
Proof.
  intros Hp [Hne Hw]. unfold convert_enumerated_value.
  assert (Hlw := lower_wild s Hw).
  assert (Hr : replace "#" "0b" (lower (p ++ s)) = ("0b" ++ lower s)%string).
  { rewrite lower_app. unfold bin_prefix in Hp. cbn in Hp. destruct Hp as [<-|[<-|[<-|[]]]].
    - apply replace_none. cbn. now apply contains_hash_lw.
    - apply replace_none. cbn. now apply contains_hash_lw.
    - change (replace "#" "0b" (lower "#" ++ lower s)) with ("0b" ++ replace "#" "0b" (lower s))%string.
      now rewrite replace_none by (now apply contains_hash_lw). }
  rewrite Hr. change (startswith "0b" ("0b" ++ lower s)) with true. cbn iota.
  change (sdrop 2 ("0b" ++ lower s)) with (lower s).
  apply binary_wild; [|exact Hlw]. destruct s; [congruence|discriminate].
Qed.

Lemma wild_values_spec s : wild_literal s ->
  StronglySorted Z.lt (wild_values (lower s)) /\ forall v, In v (wild_values (lower s)) <-> matches s v.
Proof.
  intros [Hne Hw]. assert (Hlw := lower_wild s Hw). split; [now apply wild_values_sorted|].
  intros v. rewrite wild_values_rmatch, rmatch_matches, matches_lower by assumption. reflexivity.
Qed.
