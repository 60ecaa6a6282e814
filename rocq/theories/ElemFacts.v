(** * ElemFacts: field bits, derived elements, CPU, memory map. *)
From Verif Require Import Base PyStr PyInt Types DimModel EnumModel ElemModel FinalModel MapModel SpecDevice SpecDim SpecElem DimFacts FinalFacts.
From Coq Require Import ZifyBool ZifyNat ZifyN.

(** ** Bit notations *)
Lemma span_spec p s : fst (span p s) = "" \/ sforallb p (fst (span p s)) = true.
Proof.
  right. induction s as [|c s IH]; cbn [span]; [reflexivity|]. destruct (p c) eqn:E; [|reflexivity].
  destruct (span p s) as [a b]. cbn [fst sforallb] in *. now rewrite E, IH.
Qed.
Lemma span_app p s : s = (fst (span p s) ++ snd (span p s))%string /\ sforallb p (fst (span p s)) = true.
Proof.
  induction s as [|c s IH]; cbn [span]; [auto|]. destruct (p c) eqn:E; [|auto].
  destruct (span p s) as [a b]. cbn [fst snd append sforallb] in *. destruct IH as [-> ->]. now rewrite E.
Qed.

Lemma re_bit_range_sound s a b : re_bit_range s = Some (a, b) -> bit_range_text s a b.
Proof.
  unfold re_bit_range. destruct s as [|c r]; [discriminate|]. destruct (Ascii.eqb_spec c "[") as [->|]; [|discriminate].
  destruct (span is_digit r) as [a' r1] eqn:E1. destruct r1 as [|c1 r2]; [discriminate|].
  destruct (Ascii.eqb_spec c1 ":") as [->|]; [|discriminate].
  destruct (span is_digit r2) as [b' r3] eqn:E2. destruct r3 as [|c2 r4]; [discriminate|].
  destruct (Ascii.eqb_spec c2 "]") as [->|]; cbn [andb]; [|discriminate].
  destruct (String.eqb_spec a' "") as [|Ha]; cbn [negb andb]; [discriminate|].
  destruct (String.eqb_spec b' "") as [|Hb]; cbn [negb andb]; [discriminate|]. intros H; injection H as <- <-.
  pose proof (span_app is_digit r) as [H1 H2]. pose proof (span_app is_digit r2) as [H3 H4]. rewrite E1 in *. rewrite E2 in *. cbn [fst snd] in *.
  split; [split; auto|]. split; [split; auto|]. exists r4. cbn [append]. now rewrite H1, H3.
Qed.
Lemma re_bit_range_complete s a b : bit_range_text s a b -> re_bit_range s = Some (a, b).
Proof.
  intros ((Ha & Hda) & (Hb & Hdb) & rest & ->). unfold re_bit_range. cbn [append].
  change (Ascii.eqb "[" "[") with true. cbn iota.
  rewrite (span_all is_digit a (String ":" (b ++ String "]" rest))) by auto.
  change (Ascii.eqb ":" ":") with true. cbn iota.
  rewrite (span_all is_digit b (String "]" rest)) by auto. change (Ascii.eqb "]" "]") with true.
  destruct (String.eqb_spec a "") as [|_]; [contradiction|]. destruct (String.eqb_spec b "") as [|_]; [contradiction|]. reflexivity.
Qed.

Definition base_bits (b : field_base) : Z * Z := (fb_msb b, fb_lsb b).
Lemma own_or_merge {A B} (own : option B) (f : A -> option B) (g : A -> B) base : (forall a, f a = Some (g a)) ->
  merge own f base = own_or own (option_map g base).
Proof. intros H. unfold merge, of_base, obind, or_if_none, own_or. destruct own, base; cbn; auto. Qed.

Definition own_pair (f : svd_field) (base : option (Z * Z)) : option (Z * Z) :=
  if is_some (sf_lsb f) || is_some (sf_msb f) then
    match own_or (sf_lsb f) (option_map snd base), own_or (sf_msb f) (option_map fst base) with Some l, Some m => Some (m, l) | _, _ => None end
  else None.
Definition own_off (f : svd_field) (base : option (Z * Z)) : option (Z * Z) :=
  if is_some (sf_bit_offset f) || is_some (sf_bit_width f) then
    match own_or (sf_bit_offset f) (option_map snd base), own_or (sf_bit_width f) (option_map (fun b => fst b - snd b + 1) base) with
    | Some o, Some w => Some (o + w - 1, o) | _, _ => None end
  else None.
Lemma own_pair_spec f base m l : own_pair f base = Some (m, l) <-> has_pair f base m l.
Proof.
  unfold own_pair, has_pair. split.
  - destruct (is_some (sf_lsb f) || is_some (sf_msb f)) eqn:E; [|discriminate].
    destruct (own_or (sf_lsb f) _) as [l'|], (own_or (sf_msb f) _) as [m'|]; try discriminate. intros H; injection H as <- <-.
    split; auto. destruct (sf_lsb f), (sf_msb f); try discriminate; (left; congruence) || (right; congruence).
  - intros (H & -> & ->). destruct (sf_lsb f), (sf_msb f); try reflexivity. destruct H; congruence.
Qed.
Lemma own_off_spec f base m l : own_off f base = Some (m, l) <-> has_offset f base m l.
Proof.
  unfold own_off, has_offset. split.
  - destruct (is_some (sf_bit_offset f) || is_some (sf_bit_width f)) eqn:E; [|discriminate].
    destruct (own_or (sf_bit_offset f) _) as [l'|], (own_or (sf_bit_width f) _) as [m'|]; try discriminate. intros H; injection H as <- <-.
    split; [|split; [reflexivity|exists m'; auto]]. destruct (sf_bit_offset f), (sf_bit_width f); try discriminate; (left; congruence) || (right; congruence).
  - intros (H & -> & w & -> & ->). destruct (sf_bit_offset f), (sf_bit_width f); try reflexivity. destruct H; congruence.
Qed.

Lemma field_bits_eq f base : process_field_msb_lsb f base =
  (s3 <- match sf_bit_range f with
        | None => ret (match own_pair f (option_map base_bits base) with Some p => Some p | None => own_off f (option_map base_bits base) end)
        | Some br =>
            match re_bit_range br with
            | Some (a, b) =>
                match py_int 10 a, py_int 10 b with
                | Some m, Some l =>
                    if m <? l then warn (W_BitRangeSwapped m l) ;;; ret (Some (l, m)) else ret (Some (m, l))
                | _, _ => raise ValueError "int(bit_range)"
                end
            | None => raise ProcessException "Invalid bit range format"
            end
        end ;;
  match s3 with
  | None => raise ProcessException "Field must have bit_offset and bit_width, lsb and msb, or bit_range"
  | Some (m, l) => warn_if (m <? l) (W_FieldMsbLsb (sf_name f) m l) ;;; ret (m, l)
  end).
Proof.
  unfold process_field_msb_lsb. apply f_equal2; [|reflexivity]. destruct (sf_bit_range f); [reflexivity|].
  f_equal. unfold own_pair, own_off.
  rewrite (own_or_merge (sf_bit_offset f) (fun b => Some (fb_lsb b)) fb_lsb) by reflexivity.
  rewrite (own_or_merge (sf_bit_width f) (fun b => Some (fb_msb b - fb_lsb b + 1)) (fun b => fb_msb b - fb_lsb b + 1)) by reflexivity.
  rewrite (own_or_merge (sf_lsb f) (fun b => Some (fb_lsb b)) fb_lsb) by reflexivity.
  rewrite (own_or_merge (sf_msb f) (fun b => Some (fb_msb b)) fb_msb) by reflexivity.
  replace (option_map fb_lsb base) with (option_map snd (option_map base_bits base)) by (now destruct base).
  replace (option_map fb_msb base) with (option_map fst (option_map base_bits base)) by (now destruct base).
  replace (option_map (fun b => fb_msb b - fb_lsb b + 1) base) with (option_map (fun b => fst b - snd b + 1) (option_map base_bits base)) by (now destruct base).
  destruct (is_some (sf_lsb f) || is_some (sf_msb f)); [|reflexivity].
  repeat match goal with |- context [match own_or ?a ?b with _ => _ end] => destruct (own_or a b) end; reflexivity.
Qed.

Lemma field_bits_spec f base m l : (exists ws, process_field_msb_lsb f base = (ws, Ok (m, l))) <-> Bits f (option_map base_bits base) m l.
Proof.
  rewrite field_bits_eq. split.
  - intros [ws H]. apply bind_ok in H as (w1 & s3 & w2 & H1 & H & ->). destruct s3 as [[m' l']|]; [|minv].
    apply bind_ok in H as (w3 & [] & w4 & _ & H & ->). apply ret_ok in H as [E _]. injection E as -> ->.
    destruct (sf_bit_range f) as [br|] eqn:Ebr.
    + destruct (re_bit_range br) as [[a b]|] eqn:Er; [|minv]. apply re_bit_range_sound in Er.
      destruct Er as (Ha & Hb & Hrest). rewrite !py_int_dec in H1 by assumption.
      assert (HB : Bits f (option_map base_bits base) (Z.max (dec_val 0 a) (dec_val 0 b)) (Z.min (dec_val 0 a) (dec_val 0 b))).
      { eapply Bits_range; [exact Ebr|]. split; auto. }
      destruct (dec_val 0 a <? dec_val 0 b) eqn:Elt.
      * apply bind_ok in H1 as (? & ? & ? & _ & H1 & _). apply ret_ok in H1 as [E _]. injection E as <- <-.
        rewrite Z.max_r, Z.min_l in HB by lia. exact HB.
      * apply ret_ok in H1 as [E _]. injection E as <- <-. rewrite Z.max_l, Z.min_r in HB by lia. exact HB.
    + apply ret_ok in H1 as [E _]. destruct (own_pair f (option_map base_bits base)) as [p|] eqn:Ep.
      * injection E as ->. apply Bits_pair; auto. now apply own_pair_spec.
      * apply Bits_offset; auto; [|now apply own_off_spec]. intros m' l' Hp. apply own_pair_spec in Hp. congruence.
  - intros HB. 
    assert (Hfin : forall s3 m l, s3 = Some (m, l) -> exists ws, match s3 with
        | None => raise ProcessException "Field must have bit_offset and bit_width, lsb and msb, or bit_range"
        | Some (m, l) => warn_if (m <? l) (W_FieldMsbLsb (sf_name f) m l) ;;; ret (m, l) end = (ws, Ok (m, l))).
    { intros s3 m' l' ->. unfold warn_if, warn, ret, bind. destruct (m' <? l'); eexists; reflexivity. }
    destruct HB as [s a b Hbr Ht|m l Hbr Hp|m l Hbr Hnp Ho].
    + rewrite Hbr. rewrite (re_bit_range_complete _ _ _ Ht). destruct Ht as (Ha & Hb & _). rewrite !py_int_dec by assumption.
      destruct (dec_val 0 a <? dec_val 0 b) eqn:Elt.
      * rewrite Z.max_r, Z.min_l by lia. destruct (Hfin _ (dec_val 0 b) (dec_val 0 a) eq_refl) as [ws Hws].
        rewrite bind_assoc. unfold warn at 1. unfold bind at 1. rewrite bind_ret_l, Hws. eexists; reflexivity.
      * rewrite Z.max_l, Z.min_r by lia. rewrite bind_ret_l. apply (Hfin _ _ _ eq_refl).
    + rewrite Hbr, bind_ret_l. apply own_pair_spec in Hp. rewrite Hp. apply (Hfin _ _ _ eq_refl).
    + rewrite Hbr, bind_ret_l. apply own_off_spec in Ho. destruct (own_pair f (option_map base_bits base)) as [[m' l']|] eqn:Ep.
      * apply own_pair_spec in Ep. now apply Hnp in Ep.
      * rewrite Ho. apply (Hfin _ _ _ eq_refl).
Qed.

(** when no notation applies the field is rejected *)
Lemma field_bits_reject f base : (forall m l, ~ Bits f (option_map base_bits base) m l) ->
  exists ws e, process_field_msb_lsb f base = (ws, Err e) /\ ex_class e = ProcessException.
Proof.
  intros Hno. destruct (process_field_msb_lsb f base) as [ws [[m l]|e]] eqn:E.
  - exfalso. apply (Hno m l). apply field_bits_spec. eauto.
  - exists ws, e. split; [reflexivity|]. rewrite field_bits_eq in E. apply bind_err in E as [E|(w1 & s3 & w2 & _ & E & _)].
    + destruct (sf_bit_range f) as [br|]; [|minv]. destruct (re_bit_range br) as [[a b]|] eqn:Er.
      * apply re_bit_range_sound in Er as (Ha & Hb & _). rewrite !py_int_dec in E by assumption.
        destruct (_ <? _) in E; [|minv]. apply bind_err in E as [E|(? & ? & ? & _ & E & _)]; minv.
      * apply raise_err in E as [-> _]. reflexivity.
    + destruct s3 as [[m l]|]; [|apply raise_err in E as [-> _]; reflexivity].
      apply bind_err in E as [E|(? & ? & ? & _ & E & _)]; minv.
Qed.
Lemma field_bits_err f base ws e : process_field_msb_lsb f base = (ws, Err e) -> ex_class e = ProcessException.
Proof.
  intros E. destruct (field_bits_reject f base) as (ws' & e' & E' & He).
  - intros m l HB. apply field_bits_spec in HB as [w H]. congruence.
  - congruence.
Qed.

(** ** Memory map *)
Lemma build_map_rc_spec x : forall base, Good base x ->
  map mr_processed (build_map_rc base x) = regs_of x /\ Forall (fun m => mr_address m = r_base (mr_processed m)) (build_map_rc base x).
Proof.
  induction x as [r|c l IH] using rc_ind'; intros base HG; cbn [build_map_rc regs_of].
  - inversion HG; subst. split; [reflexivity|]. constructor; [|constructor]. cbn. lia.
  - inversion HG as [|? ? ? Hb Hms Hne Hch Hs He Hsz]; subst. rewrite <- Hb. clear Hs He Hsz Hne HG.
    induction l as [|y l IHl]; cbn [flat_map]; [split; [reflexivity|constructor]|].
    inversion IH as [|? ? Hy Hl]; subst. destruct (Hy (c_base c)) as [H1 H2]; [apply Hch; now left|].
    destruct IHl as [H3 H4]; auto. { intros z Hz. apply Hch. now right. }
    rewrite map_app, H1, H3. split; [reflexivity|]. apply Forall_app. auto.
Qed.
Lemma build_map_rcs_spec base l : (forall x, In x l -> Good base x) ->
  map mr_processed (flat_map (build_map_rc base) l) = flat_map regs_of l /\
  Forall (fun m => mr_address m = r_base (mr_processed m)) (flat_map (build_map_rc base) l).
Proof.
  induction l as [|y l IHl]; cbn [flat_map]; intros Hch; [split; [reflexivity|constructor]|].
  destruct (build_map_rc_spec y base) as [H1 H2]; [apply Hch; now left|]. destruct IHl as [H3 H4]. { intros z Hz. apply Hch. now right. }
  rewrite map_app, H1, H3. split; [reflexivity|]. apply Forall_app. auto.
Qed.

(** the attributes a map register shows are those of its register *)
Definition shows (m : map_reg) : Prop :=
  let r := mr_processed m in
  mr_size m = p_size (r_props r) /\ mr_access m = p_access (r_props r) /\ mr_prot m = p_prot (r_props r) /\
  mr_rv m = p_rv (r_props r) /\ mr_rm m = p_rm (r_props r) /\ mr_name m = rb_name (r_b r) /\
  mr_display m = rb_display (r_b r) /\ mr_descr m = rb_descr (r_b r) /\ mr_fields m = r_fields r.
Lemma build_map_shows x : forall base, Forall shows (build_map_rc base x).
Proof.
  induction x as [r|c l IH] using rc_ind'; intros base; cbn [build_map_rc].
  - constructor; [|constructor]. repeat split.
  - induction IH as [|y l Hy Hl IHl]; cbn [flat_map]; [constructor|]. apply Forall_app. auto.
Qed.

Lemma last_in {A} (l : list A) d : l <> [] -> In (last l d) l.
Proof. induction l as [|x [|y l] IH]; intros H; [congruence|now left|right; apply IH; discriminate]. Qed.
Lemma sorted_last (l : list addr_block) d a : StronglySorted (leP (zkey_le ab_offset)) l -> In a l -> ab_offset a <= ab_offset (last l d).
Proof.
  induction l as [|x l IH]; intros Hs Ha; [destruct Ha|]. apply StronglySorted_inv in Hs as [Hs Hf].
  destruct l as [|y l]; [destruct Ha as [<-|[]]; cbn; lia|]. change (last (x :: y :: l) d) with (last (y :: l) d).
  destruct Ha as [<-|Ha]; [|now apply IH]. rewrite Forall_forall in Hf. 
  assert (Hl : In (last (y :: l) d) (y :: l)) by (apply last_in; discriminate). apply Hf in Hl. unfold leP, zkey_le in Hl. lia.
Qed.

Lemma allocated_range_ok start abs ws lo hi : get_allocated_range start abs = (ws, Ok (lo, hi)) ->
  ws = [] /\ abs <> [] /\
  (exists a, In a abs /\ lo = start + ab_offset a /\ forall b, In b abs -> ab_offset a <= ab_offset b) /\
  (exists a, In a abs /\ hi = start + ab_offset a + ab_size a - 1 /\ forall b, In b abs -> ab_offset b <= ab_offset a).
Proof.
  unfold get_allocated_range. intros H. 
  assert (Hs : StronglySorted (leP (zkey_le ab_offset)) (isort (zkey_le ab_offset) abs))
    by (apply isort_sorted; [apply zkey_le_total|apply zkey_le_trans]).
  assert (Hin : forall a, In a (isort (zkey_le ab_offset) abs) <-> In a abs) by (intros; apply isort_in).
  destruct (isort (zkey_le ab_offset) abs) as [|f s] eqn:Es; [minv|].
  apply ret_ok in H as [E ->]. injection E as <- <-. split; [reflexivity|]. split; [intros ->; discriminate|]. split.
  - exists f. split; [apply Hin; now left|]. split; [reflexivity|]. intros b Hb. apply Hin in Hb. apply StronglySorted_inv in Hs as [_ Hf].
    destruct Hb as [<-|Hb]; [lia|]. rewrite Forall_forall in Hf. apply Hf in Hb. unfold leP, zkey_le in Hb. lia.
  - exists (last (f :: s) f). split; [apply Hin, last_in; discriminate|]. split; [reflexivity|]. intros b Hb. apply Hin in Hb.
    now apply sorted_last.
Qed.
Lemma allocated_range_total start abs : abs <> [] -> exists lo hi, get_allocated_range start abs = ([], Ok (lo, hi)).
Proof.
  intros H. unfold get_allocated_range. destruct (isort (zkey_le ab_offset) abs) eqn:E; [now apply isort_nil in E|]. repeat eexists.
Qed.

Lemma build_map_ok d : GoodDev d -> exists l, build_map d = ([], Ok l) /\
  StronglySorted (fun a b => mp_address a <= mp_address b) l /\
  map mp_processed l = dv_periphs d /\
  Forall (fun m => mp_name m = per_name (mp_processed m) /\ mp_descr m = pb_descr (pr_b (mp_processed m)) /\
                   mp_address m = pb_base (pr_b (mp_processed m)) /\
                   map mr_processed (mp_regs m) = flat_map regs_of (pr_rcs (mp_processed m)) /\
                   Forall (fun r => mr_address r = r_base (mr_processed r) /\ shows r) (mp_regs m) /\
                   get_allocated_range (pb_base (pr_b (mp_processed m))) (pb_abs (pr_b (mp_processed m))) = ([], Ok (mp_range m))) l.
Proof.
  intros HG.
  assert (H : exists l, mapM build_map_peripheral (dv_periphs d) = ([], Ok l) /\ map mp_processed l = dv_periphs d /\
    Forall (fun m => mp_name m = per_name (mp_processed m) /\ mp_descr m = pb_descr (pr_b (mp_processed m)) /\
                   mp_address m = pb_base (pr_b (mp_processed m)) /\
                   map mr_processed (mp_regs m) = flat_map regs_of (pr_rcs (mp_processed m)) /\
                   Forall (fun r => mr_address r = r_base (mr_processed r) /\ shows r) (mp_regs m) /\
                   get_allocated_range (pb_base (pr_b (mp_processed m))) (pb_abs (pr_b (mp_processed m))) = ([], Ok (mp_range m))) l).
  { assert (HP := gd_pers _ HG). clear HG. induction (dv_periphs d) as [|p ps IH]; cbn [mapM].
    - exists []. repeat split; constructor.
    - destruct IH as (l & Hl & Hm & HF). { intros q Hq. apply HP. now right. }
      assert (Hp : GoodPer p) by (apply HP; now left).
      destruct (allocated_range_total (pb_base (pr_b p)) (pb_abs (pr_b p)) (gp_abs _ Hp)) as (lo & hi & Hr).
      unfold build_map_peripheral at 1. rewrite Hr, Hl. unfold bind. cbn [ret app].
      eexists. split; [reflexivity|]. cbn [map mp_processed]. rewrite Hm. split; [reflexivity|]. constructor; [|exact HF].
      cbn. destruct (build_map_rcs_spec (pb_base (pr_b p)) (pr_rcs p) (gp_rcs _ Hp)) as [H1 H2].
      repeat split; auto. apply Forall_forall. intros r Hr'. rewrite Forall_forall in H2. split; [auto|].
      apply in_flat_map in Hr' as (x & _ & Hx). assert (HS := build_map_shows x (pb_base (pr_b p))). rewrite Forall_forall in HS. auto. }
  destruct H as (l & Hl & Hm & HF). exists l. unfold build_map. rewrite Hl. unfold bind. cbn [ret app].
  assert (Hs : StronglySorted (fun a b => mp_address a <= mp_address b) l).
  { assert (Hps := gd_sorted _ HG). rewrite <- Hm in Hps. clear - Hps HF. induction l as [|m l IH]; [constructor|].
    cbn [map] in Hps. apply StronglySorted_inv in Hps as [Hps Hf]. inversion HF as [|? ? Hm0 HF']; subst. constructor; [auto|].
    apply Forall_forall. intros z Hz. rewrite Forall_forall in Hf, HF'. assert (Hz' := HF' z Hz).
    specialize (Hf (mp_processed z) (in_map _ _ _ Hz)). apply pair_le_before in Hf. unfold per_key in Hf. cbn [fst] in Hf.
    destruct Hm0 as (_ & _ & -> & _), Hz' as (_ & _ & -> & _). lia. }
  rewrite isort_id. { repeat split; auto. }
  eapply StronglySorted_impl; [|exact Hs]. unfold leP, zkey_le. intros; lia.
Qed.

(** ** Stable sorting *)
Lemma isort_listed {A} (key : A -> Z) l : Listed key l (isort (zkey_le key) l).
Proof.
  split; [apply isort_perm|]. split.
  - assert (H := isort_sorted (zkey_le key) (zkey_le_total key) (zkey_le_trans key) l). induction H as [|x m H IH HF]; constructor; auto.
    eapply Forall_impl; [|exact HF]. intros y Hy. unfold leP, zkey_le in Hy. lia.
  - intros k. destruct (filter (fun a => key a =? k) l) as [|x m] eqn:E.
    + destruct (filter (fun a => key a =? k) (isort (zkey_le key) l)) as [|x m] eqn:E2; [reflexivity|exfalso]. assert (Hx : In x (filter (fun a => key a =? k) (isort (zkey_le key) l))) by (rewrite E2; now left). apply filter_In in Hx as [Hx Hk]. apply (proj1 (isort_in (zkey_le key) l x)) in Hx. assert (K : In x (filter (fun a => key a =? k) l)) by (apply filter_In; split; assumption). rewrite E in K. destruct K.
    + assert (Hx : In x (filter (fun a => key a =? k) l)) by (rewrite E; now left). apply filter_In in Hx as [_ Hx]. apply Z.eqb_eq in Hx.
      rewrite <- E. assert (X : forall a, (key a =? k) = eqv (zkey_le key) x a). { intros a. unfold eqv, zkey_le. rewrite Hx. lia. }
      rewrite (filter_ext _ _ X), (filter_ext _ _ X). apply isort_stable; [apply zkey_le_total|apply zkey_le_trans].
Qed.
Lemma listed_sorted {A} (key : A -> Z) l : StronglySorted (fun a b => key a <= key b) l -> forall s, Listed key l s -> s = l.
Proof.
  induction l as [|a l IH]; intros HS s (HP & HS2 & HF); [apply Permutation_nil; exact HP|]. destruct s as [|b s]; [apply Permutation_sym, Permutation_nil in HP; discriminate|].
  apply StronglySorted_inv in HS as [HS HA], HS2 as [HS2 HB]. rewrite Forall_forall in HA, HB.
  assert (K : key a = key b). { assert (K1 : In a (b :: s)) by (eapply Permutation_in; [exact HP|now left]). assert (K2 : In b (a :: l)) by (eapply Permutation_in; [apply Permutation_sym, HP|now left]). destruct K1 as [<-|K1]; [reflexivity|]. destruct K2 as [<-|K2]; [reflexivity|]. specialize (HA _ K2). specialize (HB _ K1). lia. }
  assert (E := HF (key a)). cbn [filter] in E. rewrite <- K, Z.eqb_refl in E. injection E as <- _. f_equal. apply IH; [exact HS|]. split; [eapply Permutation_cons_inv; exact HP|]. split; [exact HS2|].
  intros k. specialize (HF k). cbn [filter] in HF. destruct (key b =? k); [now injection HF|exact HF].
Qed.
