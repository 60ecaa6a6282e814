(** * PropsConvert: C30, converting a processed device back to a description keeps all information. *)
From Verif Require Import Base PyStr PyInt Types FinalModel ResolveModel ProcessModel ConvertModel SpecProcess SpecDevice FinalFacts PropsDevice.
From Verif Require Import SpecText TextFacts PropsText SpecConvert ParseModel SerializeModel SpecRoundTrip PropsRoundTrip Samples.

Lemma Forall2_map_l {A B} (R : B -> A -> Prop) (f : A -> B) l : (forall a, In a l -> R (f a) a) -> Forall2 R (map f l) l.
Proof. induction l as [|a l IH]; intros H; cbn [map]; constructor; [apply H; left; auto|apply IH; intros; apply H; right; auto]. Qed.
Lemma numeral_str n : Numeral (str_of_Z n) n.
Proof.
  apply C25_reads_numerals; [|apply C25_written_read].
  intros Hin. pose proof (str_of_Z_word n) as H. revert Hin H. generalize (str_of_Z n). induction s as [|c s IH]; cbn; [tauto|].
  intros [->|Hin] H; [vm_compute in H; discriminate|]. apply andb_true_iff in H as [_ H]. auto.
Qed.

(** ** Every attribute of the processed device appears in the description *)
Lemma shows_conv_props p : shows_props (conv_props p) p.
Proof. repeat split. Qed.
Lemma shows_conv_ev v : shows_ev (conv_ev v) v.
Proof. unfold shows_ev, conv_ev. cbn. split; [auto|]. split; [auto|]. split; [|discriminate]. eexists. split; [reflexivity|apply numeral_str]. Qed.
Lemma shows_conv_evc c : shows_evc (conv_evc c) c.
Proof. unfold shows_evc, conv_evc. cbn. do 4 (split; [reflexivity|]). apply Forall2_map_l. intros; apply shows_conv_ev. Qed.
Lemma shows_conv_field f : shows_field (conv_field f) f.
Proof.
  unfold shows_field, conv_field. cbn. split; [repeat split|]. do 12 (split; [reflexivity|]).
  apply Forall2_map_l. intros; apply shows_conv_evc.
Qed.
Lemma shows_conv_reg r : shows_reg (conv_reg r) r.
Proof.
  unfold shows_reg, conv_reg. cbn. split; [repeat split|]. split; [apply shows_conv_props|]. do 11 (split; [reflexivity|]).
  apply Forall2_map_l. intros; apply shows_conv_field.
Qed.
Lemma shows_conv_rc x : shows_rc (conv_rc x) x.
Proof.
  induction x as [r|c l IH] using rc_ind'; cbn [conv_rc]; constructor.
  - apply shows_conv_reg.
  - unfold shows_clu, conv_clu. cbn. split; [repeat split|]. split; [apply shows_conv_props|]. repeat split.
  - apply Forall2_map_l. now apply Forall_forall.
Qed.
Lemma shows_conv_per p : shows_per (conv_per p) p.
Proof.
  unfold shows_per, conv_per. cbn. split; [repeat split|]. split; [apply shows_conv_props|]. do 10 (split; [reflexivity|]).
  split; [apply Forall2_map_l; intros; repeat split|]. do 2 (split; [reflexivity|]). apply Forall2_map_l. intros; apply shows_conv_rc.
Qed.
Theorem C30_shows_everything : forall dev, shows_device (conv_device dev) dev.
Proof.
  intros dev. unfold shows_device, conv_device. cbn. split; [apply shows_conv_props|]. do 7 (split; [reflexivity|]).
  split; [|do 4 (split; [reflexivity|]); apply Forall2_map_l; intros; apply shows_conv_per].
  destruct (db_cpu (dv_b dev)) as [c|]; cbn; [|exact I]. unfold shows_cpu, conv_cpu. cbn. do 16 (split; [reflexivity|]).
  destruct (cpu_sau c) as [s|]; cbn; [|exact I]. unfold shows_sau. cbn. do 2 (split; [reflexivity|]).
  apply Forall2_map_l. intros; repeat split.
Qed.

Ltac both A B := let H := fresh in pose proof (eq_trans (eq_sym A) B) as H; try (injection H as H); clear A B.
(** ** A description shows at most one processed device: also what it does not repeat (absolute addresses, ends, sizes in
    bytes, flattened registers, bit ranges) is determined *)
Lemma Forall2_unique {A B} (R : A -> B -> Prop) (P : B -> Prop) l : forall m m',
  (forall a b b', R a b -> R a b' -> P b -> P b' -> b = b') -> Forall P m -> Forall P m' -> Forall2 R l m -> Forall2 R l m' -> m = m'.
Proof.
  induction l as [|a l IH]; intros m m' H Pm Pm' F F'; inversion F; inversion F'; subst; [reflexivity|].
  inversion Pm; inversion Pm'; subst. f_equal; [eapply H; eauto|eapply IH; eauto].
Qed.
Lemma shows_props_unique s p p' : shows_props s p -> shows_props s p' -> p = p'.
Proof. intros (A1 & A2 & A3 & A4 & A5) (B1 & B2 & B3 & B4 & B5). destruct p, p'; cbn in *. congruence. Qed.
Lemma numeral_unique t n m : Numeral t n -> Numeral t m -> n = m.
Proof. intros A B. destruct (Numeral_py_int _ _ A) as [A1|[A1 A2]], (Numeral_py_int _ _ B) as [B1|[B1 B2]]; congruence. Qed.
Lemma shows_evc_unique s c c' : shows_evc s c -> shows_evc s c' -> c = c'.
Proof.
  intros (A1 & A2 & A3 & _ & A5) (B1 & B2 & B3 & _ & B5).
  assert (E : evc_evs c = evc_evs c').
  { eapply (Forall2_unique shows_ev (fun _ => True)); eauto; try (apply Forall_forall; auto).
    intros v a b (P1 & P2 & (t & P3 & P4) & _) (Q1 & Q2 & (t' & Q3 & Q4) & _) _ _. destruct a, b; cbn in *.
    rewrite P3 in Q3. injection Q3 as <-. rewrite (numeral_unique _ _ _ P4 Q4). congruence. }
  destruct c, c'; cbn in *. congruence.
Qed.
Definition tidy_field (f : field) : Prop :=
  f_bit_offset f = f_lsb f /\ f_bit_width f = f_msb f - f_lsb f + 1 /\ f_bit_range f = (f_msb f, f_lsb f).
Lemma shows_field_unique s f f' : tidy_field f -> tidy_field f' -> shows_field s f -> shows_field s f' -> f = f'.
Proof.
  intros (T1 & T2 & T3) (U1 & U2 & U3) (_ & A1 & A2 & A3 & A4 & _ & _ & _ & A5 & A6 & A7 & A8 & _ & A9)
    (_ & B1 & B2 & B3 & B4 & _ & _ & _ & B5 & B6 & B7 & B8 & _ & B9).
  assert (E : f_evcs f = f_evcs f').
  { eapply (Forall2_unique shows_evc (fun _ => True)); eauto; try (apply Forall_forall; auto).
    intros c a b Ha Hb _ _. eapply shows_evc_unique; eauto. }
  assert (Eb : f_b f = f_b f') by (destruct (f_b f), (f_b f'); cbn in *; congruence).
  unfold f_lsb, f_msb in *. rewrite Eb in *.
  assert (Ea : f_access f = f_access f') by congruence.
  destruct f, f'; cbn in *. congruence.
Qed.
Lemma good_fields_tidy size fs : good_fields size fs -> Forall tidy_field fs.
Proof. intros (_ & _ & _ & H). eapply Forall_impl; [|exact H]. cbn. intros f (_ & A & B & C & _). unfold tidy_field. auto. Qed.
Lemma shows_rcs_unique l : Forall (fun x => forall base s x', Good base x -> Good base x' -> shows_rc s x -> shows_rc s x' -> x = x') l ->
  forall base ss l', (forall x, In x l -> Good base x) -> (forall x, In x l' -> Good base x) ->
  Forall2 shows_rc ss l -> Forall2 shows_rc ss l' -> l = l'.
Proof.
  induction 1 as [|x l Hx Hl IH]; intros base ss l' G G' F F'; inversion F; subst; inversion F'; subst; [reflexivity|].
  f_equal.
  - eapply Hx; [apply G; left; reflexivity|apply G'; left; reflexivity|eassumption|eassumption].
  - eapply (IH base); [intros; apply G; right; assumption|intros; apply G'; right; assumption|eassumption|eassumption].
Qed.
Lemma shows_rc_unique x : forall base s x', Good base x -> Good base x' -> shows_rc s x -> shows_rc s x' -> x = x'.
Proof.
  induction x as [r|c l IH] using rc_ind'; intros base s x' G G' S S'.
  - inversion S; subst; inversion S'; subst; inversion G; subst; inversion G'; subst; f_equal.
    match goal with A : shows_reg _ r, B : shows_reg _ ?r' |- r = ?r' =>
      destruct A as (_ & A0 & A1 & A2 & A3 & A4 & A5 & A6 & A7 & A8 & A9 & A10 & _ & A11);
      destruct B as (_ & B0 & B1 & B2 & B3 & B4 & B5 & B6 & B7 & B8 & B9 & B10 & _ & B11);
      assert (Eb : r_b r = r_b r') by (destruct (r_b r), (r_b r'); cbn in *; congruence);
      assert (Ep : r_props r = r_props r') by (eapply shows_props_unique; eauto);
      assert (Ef : r_fields r = r_fields r')
        by (eapply (Forall2_unique shows_field tidy_field); eauto using good_fields_tidy; intros; eapply shows_field_unique; eauto);
      assert (Ebase : r_base r = r_base r') by congruence end.
    match goal with |- ?a = ?b => destruct a, b; cbn in *; congruence end.
  - inversion S as [|s1 c1 ss xs Sc Sl]; subst. inversion S' as [|s2 c' ss' l' Sc' Sl']; subst.
    inversion G as [|b1 c1 l1 G1 G2 G3 G4 G5 G6 G7]; subst. inversion G' as [|b2 c2 l2 K1 K2 K3 K4 K5 K6 K7]; subst.
    destruct Sc as (_ & A0 & A1 & A2 & A3 & A4 & A5 & _). destruct Sc' as (_ & B0 & B1 & B2 & B3 & B4 & B5 & _).
    assert (Eb : c_b c = c_b c') by (destruct (c_b c), (c_b c'); cbn in *; congruence).
    assert (Ep : c_props c = c_props c') by (eapply shows_props_unique; eauto).
    assert (Ebase : c_base c = c_base c') by congruence. rewrite <- Ebase in K4.
    assert (El : l = l') by (eapply (shows_rcs_unique l IH); eauto). subst l'. f_equal.
    destruct c, c'; cbn in *. subst. reflexivity.
Qed.
Lemma shows_per_unique s p p' : GoodPer p -> GoodPer p' -> shows_per s p -> shows_per s p' -> p = p'.
Proof.
  intros G G' (_ & A0 & A1 & A2 & A3 & A4 & A5 & A6 & A7 & A8 & A9 & A10 & A11 & A12 & _ & A13)
    (_ & B0 & B1 & B2 & B3 & B4 & B5 & B6 & B7 & B8 & B9 & B10 & B11 & B12 & _ & B13).
  assert (Eab : pb_abs (pr_b p) = pb_abs (pr_b p')).
  { eapply (Forall2_unique shows_ab (fun _ => True)); eauto; try (apply Forall_forall; auto).
    intros x a b (P1 & P2 & P3 & P4) (Q1 & Q2 & Q3 & Q4) _ _. destruct a, b; cbn in *. congruence. }
  assert (Eb : pr_b p = pr_b p').
  { clear - Eab A1 A2 A3 A4 A5 A6 A7 A8 A9 A10 A12 B1 B2 B3 B4 B5 B6 B7 B8 B9 B10 B12. destruct (pr_b p), (pr_b p'); cbn in *. subst.
    f_equal; congruence. }
  assert (Ep : pr_props p = pr_props p') by (eapply shows_props_unique; eauto).
  destruct G, G'. rewrite <- Eb in *.
  assert (El : pr_rcs p = pr_rcs p').
  { eapply (shows_rcs_unique (pr_rcs p)); eauto. apply Forall_forall. intros x _. apply shows_rc_unique. }
  destruct p, p'; cbn in *. subst. reflexivity.
Qed.
Lemma shows_sau_region_unique s r r' : shows_sau_region s r -> shows_sau_region s r' -> r = r'.
Proof. intros (A1 & A2 & A3 & A4 & A5) (B1 & B2 & B3 & B4 & B5). destruct r, r'; cbn in *. congruence. Qed.
Lemma shows_sau_unique s r r' : shows_sau s r -> shows_sau s r' -> r = r'.
Proof.
  intros (A1 & A2 & A3) (B1 & B2 & B3). assert (E : sauc_regions r = sauc_regions r').
  { eapply (Forall2_unique shows_sau_region (fun _ => True)); eauto; try (apply Forall_forall; auto). intros; eapply shows_sau_region_unique; eauto. }
  destruct r, r'; cbn in *. congruence.
Qed.
Lemma shows_cpu_unique s c c' : shows_cpu s c -> shows_cpu s c' -> c = c'.
Proof.
  intros (A1 & A2 & A3 & A4 & A5 & A6 & A7 & A8 & A9 & A10 & A11 & A12 & A13 & A14 & A15 & A16 & A17)
    (B1 & B2 & B3 & B4 & B5 & B6 & B7 & B8 & B9 & B10 & B11 & B12 & B13 & B14 & B15 & B16 & B17).
  assert (E : cpu_sau c = cpu_sau c').
  { destruct (scpu_sau s), (cpu_sau c), (cpu_sau c'); cbn in *; try tauto. f_equal. eapply shows_sau_unique; eauto. }
  both A1 B1; both A2 B2; both A3 B3; both A4 B4; both A5 B5; both A6 B6; both A7 B7; both A8 B8; both A9 B9; both A10 B10;
  both A11 B11; both A12 B12; both A13 B13; both A14 B14; both A15 B15; both A16 B16. clear A17 B17.
  destruct c, c'; cbn in *. subst. reflexivity.
Qed.

(** The full property: two processed devices shown by the same description are equal. *)
Theorem C30_nothing_lost : forall s d1 ws1 dev1 d2 ws2 dev2,
  Processes d1 ws1 dev1 -> Processes d2 ws2 dev2 -> shows_device s dev1 -> shows_device s dev2 -> dev1 = dev2.
Proof.
  intros s d1 ws1 dev1 d2 ws2 dev2 P1 P2. destruct (processes_good _ _ _ P1) as [G1 _]. destruct (processes_good _ _ _ P2) as [G2 _].
  intros (A0 & A1 & A2 & A3 & A4 & A5 & A6 & A7 & A8 & A9 & A10 & A11 & A12 & A13)
    (B0 & B1 & B2 & B3 & B4 & B5 & B6 & B7 & B8 & B9 & B10 & B11 & B12 & B13).
  assert (Ep : db_props (dv_b dev1) = db_props (dv_b dev2)) by (eapply shows_props_unique; eauto).
  assert (Ec : db_cpu (dv_b dev1) = db_cpu (dv_b dev2)).
  { destruct (sdv_cpu s), (db_cpu (dv_b dev1)), (db_cpu (dv_b dev2)); cbn in *; try tauto. f_equal. eapply shows_cpu_unique; eauto. }
  assert (El : dv_periphs dev1 = dv_periphs dev2).
  { eapply (Forall2_unique shows_per GoodPer); [|apply Forall_forall; apply (gd_pers _ G1)|apply Forall_forall; apply (gd_pers _ G2)|eassumption|eassumption].
    intros; eapply shows_per_unique; eauto. }
  assert (Eb : dv_b dev1 = dv_b dev2).
  { both A1 B1; both A2 B2; both A3 B3; both A4 B4; both A5 B5; both A6 B6; both A7 B7; both A9 B9; both A10 B10; both A11 B11; both A12 B12.
    clear A0 B0 A8 B8 A13 B13 El G1 G2 P1 P2. destruct (dv_b dev1), (dv_b dev2); cbn in *. subst. reflexivity. }
  destruct dev1, dev2; cbn in *. congruence.
Qed.

(** Exporting: a processed device without blank or padded texts, converted, written as XML and parsed again, is still shown
    completely by what is read. *)
Theorem C30_exported : forall dev ws doc doc',
  named_device (conv_device dev) -> faithful_device (conv_device dev) ->
  serialize_device (conv_device dev) = (ws, Ok doc) -> RereadDoc doc doc' ->
  exists ws' s, parse_device doc' = (ws', Ok s) /\ shows_device s dev /\
    sdv_xs s = "CMSIS-SVD.xsd" /\ sdv_schema s = "1.3".
Proof.
  intros dev ws doc doc' Hn Hf Hs Hr. destruct (C27_round_trip_partial _ _ _ _ Hn Hf Hs Hr) as [ws' H].
  exists ws', (conv_device dev). split; [exact H|]. split; [apply C30_shows_everything|]. split; reflexivity.
Qed.

(** the processed sample device, with nested clusters, can be exported *)
Example C30_sample : exists dev, Processes sample (fst sample_result) dev /\ named_device (conv_device dev) /\
  faithful_device (conv_device dev) /\ length (flat_map pr_regs (dv_periphs dev)) = 16%nat.
Proof.
  exists (the_device sample_result). split; [exact sample_accepted|]. split; [|split].
  - vm_compute. repeat first [discriminate | exact I | apply conj | apply Forall_nil | apply Forall_cons | apply named_r | apply named_c | (intros ? ?; discriminate)].
  - apply kept_device_iff. vm_compute. reflexivity.
  - vm_compute. reflexivity.
Qed.

Print Assumptions C30_nothing_lost.
Print Assumptions C30_exported.
