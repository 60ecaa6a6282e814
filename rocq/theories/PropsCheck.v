(** * PropsCheck: the checks of Process: C16, C17, C18, C19. *)
From Verif Require Import Base PyStr PyInt Types ElemModel FinalModel ResolveModel ProcessModel SpecProcess SpecDevice SpecImage.
From Verif Require Import FinalFacts AltFacts OverlapFacts OverlapFacts2 ImageFacts EffectFacts Samples PropsDevice.

Lemma resolver_warnings d w i : Resolves d w i -> Forall resolver_warning w.
Proof. intros (fuel & ps & H & _). assert (E := re_resolve fuel (sdv_periphs d)). rewrite H in E. apply E. Qed.
Lemma in_fin_warn w w1 w2 : Forall resolver_warning w1 -> ~ resolver_warning w -> In w (w1 ++ w2) -> In w w2.
Proof. intros H Hn Hi. apply in_app_or in Hi. destruct Hi as [Hi|Hi]; [|exact Hi]. rewrite Forall_forall in H. elim (Hn (H _ Hi)). Qed.

(** ** C17 *)
(** the byte ranges of the two elements have a byte in common *)
Definition ranges_intersect (x y : rc) : Prop := exists b, abs_addr x <= b <= last_byte x /\ abs_addr y <= b <= last_byte y.

Lemma earlier_in {A} (l : list A) y x : Earlier l y x -> In y l /\ In x l.
Proof. intros (l1 & l2 & l3 & ->). split; rewrite in_app_iff; right; [now left|]. right. apply in_or_app. right. now left. Qed.
Lemma sorted_earlier {A} (R : A -> A -> Prop) l y x : StronglySorted R l -> Earlier l y x -> R y x.
Proof.
  intros HS (l1 & l2 & l3 & ->). induction l1 as [|a l1 IH]; cbn in HS.
  - inversion HS as [|? ? _ HF]; subst. rewrite Forall_forall in HF. apply HF, in_or_app. right. now left.
  - apply IH. now inversion HS.
Qed.

Theorem C17_overlaps_reported : forall d ws dev, Processes d ws dev ->
  forall p s x y, In p (dv_periphs dev) -> Siblings (pr_rcs p) s -> Earlier s y x -> el_altgroup x = None -> el_altgroup y = None ->
  ranges_intersect x y -> ~ permitted s x y -> In (W_RcOverlap (el_name x) (el_name y)) ws.
Proof.
  intros d ws dev H p s x y Hp Hs He Hx Hy (b & Hb1 & Hb2) Hn. destruct (processes_inv _ _ _ H) as (i & w1 & w2 & _ & Hf & ->).
  apply in_or_app. right. eapply finalize_rc_reported; eauto. repeat split; auto. lia.
Qed.

(** conversely every overlap warning is about two siblings [y], [x] such that [x] starts inside [y] and the overlap is not permitted; or
    the peripheral the siblings belong to was dropped with the warning that its size is no multiple of 8 *)
Theorem C17_overlaps_justified : forall d ws dev, Processes d ws dev ->
  forall a b, In (W_RcOverlap a b) ws ->
  (exists p s x y, In p (dv_periphs dev) /\ Siblings (pr_rcs p) s /\ Earlier s y x /\ el_altgroup x = None /\ el_altgroup y = None /\
     abs_addr y <= abs_addr x <= last_byte y /\ ~ permitted s x y /\ a = el_name x /\ b = el_name y) \/
  (exists n, In (W_PeriphSize n) ws).
Proof.
  intros d ws dev H a b Hi. destruct (processes_good _ _ _ H) as [G _]. destruct (processes_inv _ _ _ H) as (i & w1 & w2 & HR & Hf & ->).
  apply (in_fin_warn _ _ _ (resolver_warnings _ _ _ HR)) in Hi; [|exact (fun x => x)].
  destruct (finalize_rc_justified _ _ _ Hf a b Hi) as [(p & s & x & y & Hp & Hs & (He & Hx & Hy & Hl & Hn) & Ea & Eb)|(p & _ & Hw)].
  - left. exists p, s, x, y. repeat split; auto. destruct (per_siblings _ _ _ G Hp Hs) as (bb & [HS _] & _).
    assert (Hle := sorted_earlier _ _ _ _ HS He). apply rc_le_before in Hle. destruct Hle as [Hl'|[Hl' _]]; lia.
  - right. eexists. apply in_or_app. right. exact Hw.
Qed.
Example C17_nonvacuous : In (W_RcOverlap "R3" "R1") (fst sample_result) /\ ~ In (W_RcOverlap "R2" "R1") (fst sample_result).
Proof. split; [vm_compute; tauto|]. vm_compute. intuition discriminate. Qed.

(** ** C18 *)
Definition eff_intersect (x y : per) : Prop :=
  exists b, pb_base (pr_b x) <= b <= pr_end_eff x /\ pb_base (pr_b y) <= b <= pr_end_eff y.
Definition spec_intersect (x y : per) : Prop :=
  exists b, pb_base (pr_b x) <= b <= pr_end x /\ pb_base (pr_b y) <= b <= pr_end y.

Theorem C18_overlaps_reported : forall d ws dev, Processes d ws dev ->
  forall x y, Earlier (dv_periphs dev) y x -> ~ per_permitted (dv_periphs dev) x y ->
  (eff_intersect x y -> In (W_PeriphOverlapEff (pb_name (pr_b x)) (pb_name (pr_b y))) ws) /\
  (spec_intersect x y -> In (W_PeriphOverlapSpec (pb_name (pr_b x)) (pb_name (pr_b y))) ws).
Proof.
  intros d ws dev H x y He Hn. destruct (processes_inv _ _ _ H) as (i & w1 & w2 & _ & Hf & ->).
  destruct (finalize_per_collisions _ _ _ Hf) as [H1 H2]. split; intros (b & Hb1 & Hb2); apply in_or_app; right.
  - apply H1. exists x, y. repeat split; auto. lia.
  - apply H2. exists x, y. repeat split; auto. lia.
Qed.
Theorem C18_overlaps_justified : forall d ws dev, Processes d ws dev -> forall a b,
  (In (W_PeriphOverlapEff a b) ws -> exists x y, Earlier (dv_periphs dev) y x /\ ~ per_permitted (dv_periphs dev) x y /\
     pb_base (pr_b y) <= pb_base (pr_b x) <= pr_end_eff y /\ a = pb_name (pr_b x) /\ b = pb_name (pr_b y)) /\
  (In (W_PeriphOverlapSpec a b) ws -> exists x y, Earlier (dv_periphs dev) y x /\ ~ per_permitted (dv_periphs dev) x y /\
     pb_base (pr_b y) <= pb_base (pr_b x) <= pr_end y /\ a = pb_name (pr_b x) /\ b = pb_name (pr_b y)).
Proof.
  intros d ws dev H a b. destruct (processes_good _ _ _ H) as [G _]. destruct (processes_inv _ _ _ H) as (i & w1 & w2 & HR & Hf & ->).
  destruct (finalize_per_collisions _ _ _ Hf) as [H1 H2].
  assert (Hs : forall x y, Earlier (dv_periphs dev) y x -> pb_base (pr_b y) <= pb_base (pr_b x)).
  { intros x y He. assert (Hle := sorted_earlier _ _ _ _ (gd_sorted _ G) He). apply pair_le_before in Hle. cbn in Hle. destruct Hle as [?|[? _]]; lia. }
  split; intros Hi; apply (in_fin_warn _ _ _ (resolver_warnings _ _ _ HR)) in Hi; try exact (fun x => x).
  - apply H1 in Hi. destruct Hi as (x & y & (He & Hl & Hn) & -> & ->). exists x, y. assert (Hx := Hs _ _ He). repeat split; auto.
  - apply H2 in Hi. destruct Hi as (x & y & (He & Hl & Hn) & -> & ->). exists x, y. assert (Hx := Hs _ _ He). repeat split; auto.
Qed.
(** two peripherals at the same place: reported, unless one is the declared alternate of the other *)
Definition clash_sample (alt : option string) :=
  s_dev [s_per "A" 0 [s_reg "R" 0 [] None None] None None; s_per "B" 0 [s_reg "R" 0 [] None None] alt None].
Example C18_nonvacuous :
  fst (process_device 20 (clash_sample None)) = [W_PeriphOverlapEff "B" "A"; W_PeriphOverlapSpec "B" "A"] /\
  fst (process_device 20 (clash_sample (Some "A"))) = [].
Proof. split; vm_compute; reflexivity. Qed.

(** ** C19 *)
(** registers: exactly the connected family, for every (even cyclic or dangling) declaration *)
Theorem C19_family : forall decls s, NoDup (map fst decls) ->
  exists r, compute_allowed false decls (Some s) = ([], Ok r) /\ forall x, In x r <-> Family decls s x.
Proof.
  intros decls s N. destruct (compute_allowed_spec decls false s N) as [(r & H1 & H2 & _)|(H & _)]; [|discriminate]. now exists r.
Qed.
(** peripherals and clusters: the same if every member of the family is declared; otherwise KeyError *)
Theorem C19_family_strict : forall decls s, NoDup (map fst decls) ->
  ((forall x, Family decls s x -> In x (map fst decls)) ->
     exists r, compute_allowed true decls (Some s) = ([], Ok r) /\ forall x, In x r <-> Family decls s x) /\
  (forall x, Family decls s x -> ~ In x (map fst decls) -> exists n, compute_allowed true decls (Some s) = ([], Err (E KeyError n))).
Proof.
  intros decls s N. destruct (compute_allowed_spec decls true s N) as [(r & H1 & H2 & H3)|(_ & x & Hx & Hn & He)]; split.
  - intros _. now exists r.
  - intros x Hx Hn. elim Hn. apply H3; [reflexivity|]. now apply H2.
  - intros Ha. elim Hn. now apply Ha.
  - intros _ _ _. now exists x.
Qed.
Example C19_nonvacuous :
  let decls := [("A", Some "B"); ("B", Some "C"); ("C", Some "A"); ("D", Some "A"); ("E", None)] in
  NoDup (map fst decls) /\ compute_allowed false decls (Some "A") = ([], Ok ["D"; "C"; "B"; "A"])%string /\
  Family decls "A" "D" /\ ~ Family decls "A" "E".
Proof.
  cbn zeta. assert (N : NoDup (map fst [("A", Some "B"); ("B", Some "C"); ("C", Some "A"); ("D", Some "A"); ("E", None)])).
  { cbn. repeat constructor; cbn; intuition discriminate. }
  split; [exact N|]. split; [vm_compute; reflexivity|]. destruct (C19_family _ "A" N) as (r & Hr & Hi).
  vm_compute in Hr. injection Hr as <-. split; [apply Hi; cbn; tauto|]. intros Hf. apply Hi in Hf. cbn in Hf. intuition discriminate.
Qed.

(** ** C16 *)
Lemma fop_earlier {A} (R : A -> A -> Prop) l : ForallOrdPairs R l -> forall y x, Earlier l y x -> R y x.
Proof.
  intros H y x (l1 & l2 & l3 & ->). induction l1 as [|a l1 IH]; cbn in H; inversion H as [|? ? HF HO]; subst.
  - rewrite Forall_forall in HF. apply HF, in_or_app. right. now left.
  - now apply IH.
Qed.
(** accepted: two fields of a register that are both readable or both writable share no bit *)
Theorem C16_no_shared_bits : forall d ws dev, Processes d ws dev ->
  forall p o r f g, In p (dv_periphs dev) -> Below (pr_rcs p) o (Reg r) -> Earlier (r_fields r) f g ->
  (readable (f_access f) /\ readable (f_access g) \/ writable (f_access f) /\ writable (f_access g)) ->
  ~ exists b, bit_of f b /\ bit_of g b.
Proof.
  intros d ws dev H p o r f g Hp Hb He Hc (b & B1 & B2). destruct (processes_good _ _ _ H) as [G _].
  destruct (per_below _ _ _ _ G Hp Hb) as (b' & Hg & _). inversion Hg; subst.
  match goal with X : good_fields _ _ |- _ => destruct X as (_ & _ & X2 & _) end.
  apply (fop_earlier _ _ X2 _ _ He). split; [exact Hc|]. unfold intersect, bit_of in *. lia.
Qed.

(** exactly: for fields with distinct names, with an access, and with numbers for all enumerated values, the register's field list is
    accepted if and only if no two of its non-reserved fields clash; then the result consists of exactly these fields *)
Definition ireadable (f : ifield) : Prop := if_access f <> Some WRITE_ONLY.
Definition iwritable (f : ifield) : Prop := if_access f <> Some READ_ONLY.
Definition iclash (f g : ifield) : Prop :=
  (ireadable f /\ ireadable g \/ iwritable f /\ iwritable g) /\
  fb_lsb (if_b f) <= fb_msb (if_b g) /\ fb_lsb (if_b g) <= fb_msb (if_b f).
Definition unreserved (l : list ifield) : list ifield := filter (fun f => negb (String.eqb (lower (fb_name (if_b f))) "reserved")) l.

Lemma fop_perm {A} (R : A -> A -> Prop) l l' : (forall x y, R x y -> R y x) -> Permutation l l' -> ForallOrdPairs R l -> ForallOrdPairs R l'.
Proof.
  intros Hs HP. induction HP as [|x l l' HP IH|x y l|l l' l'' _ IH1 _ IH2]; intros H.
  - constructor.
  - inversion H; subst. constructor; [|auto]. eapply Permutation_Forall; eauto.
  - inversion H as [|? ? Hy H']; subst. inversion H' as [|? ? Hx H'']; subst. inversion Hy; subst.
    repeat constructor; auto.
  - auto.
Qed.
Lemma fop_map {A B} (f : A -> B) (R : B -> B -> Prop) l : ForallOrdPairs R (map f l) <-> ForallOrdPairs (fun x y => R (f x) (f y)) l.
Proof.
  induction l as [|x l IH]; cbn; split; intros H; try constructor; inversion H; subst.
  - now apply Forall_map.
  - now apply IH.
  - now apply Forall_map.
  - now apply IH.
Qed.
Lemma fop_iff2 {A B} (P : A -> B -> Prop) (R : A -> A -> Prop) (S : B -> B -> Prop) l m : Forall2 P l m ->
  (forall a b c e, P a b -> P c e -> (R a c <-> S b e)) -> ForallOrdPairs R l <-> ForallOrdPairs S m.
Proof.
  intros HF Hi. induction HF as [|a b l m Hab HF IH]; split; intros H; try constructor; inversion H as [|? ? H1 H2]; subst.
  - clear -Hab HF Hi H1. induction HF as [|c e l m Hce HF IH]; constructor; inversion H1; subst; [now apply (Hi a b c e)|auto].
  - now apply IH.
  - clear -Hab HF Hi H1. induction HF as [|c e l m Hce HF IH]; constructor; inversion H1; subst; [now apply (Hi a b c e)|auto].
  - now apply IH.
Qed.

Lemma enum_values_total l lsb msb : (forall v, In v l -> iev_value v <> None) -> exists ws r, fin_enum_values l lsb msb = (ws, Ok r).
Proof.
  induction l as [|v l IH]; intros H; cbn [fin_enum_values]; [now repeat eexists|].
  destruct (iev_value v) as [z|] eqn:E; [|now elim (H v (or_introl eq_refl))].
  destruct IH as (ws & r & Hr); [intros; apply H; now right|]. rewrite Hr. destruct (_ || _); cbn; eauto.
Qed.
Lemma mapM_total {A B} (f : A -> M B) l : (forall x, In x l -> exists ws r, f x = (ws, Ok r)) -> exists ws r, mapM f l = (ws, Ok r).
Proof.
  induction l as [|x l IH]; intros H; cbn; [now repeat eexists|].
  destruct (H x (or_introl eq_refl)) as (w & r & ->). destruct IH as (w' & r' & Hr); [intros; apply H; now right|]. cbn. rewrite Hr. cbn. eauto.
Qed.
Definition valued (f : ifield) : Prop := forall c v, In c (if_evcs f) -> In v (ievc_evs c) -> iev_value v <> None.
Lemma containers_total f : valued f -> forall lsb msb, exists ws r, fin_enum_containers (if_evcs f) lsb msb = (ws, Ok r).
Proof.
  intros H lsb msb. unfold fin_enum_containers.
  destruct (mapM_total (fun c => vs <- fin_enum_values (ievc_evs c) lsb msb ;; ret (mk_evc (ievc_name c) (ievc_header c) (ievc_usage c) vs)) (if_evcs f)) as (ws & r & Hr).
  - intros c Hc. destruct (enum_values_total (ievc_evs c) lsb msb) as (ws & r & Hr); [intros v Hv; now apply (H c)|]. rewrite Hr. cbn. eauto.
  - rewrite Hr. cbn. eauto.
Qed.
(** the processed field *)
Definition field_of (f : ifield) (g : field) : Prop := f_b g = if_b f /\ if_access f = Some (f_access g).
Lemma fields_loop_total l : forall seen, NoDup (map (fun f => fb_name (if_b f)) (unreserved l)) ->
  (forall f, In f (unreserved l) -> ~ In (fb_name (if_b f)) seen /\ if_access f <> None /\ valued f) ->
  exists ws r, fin_fields_loop seen l = (ws, Ok r) /\ Forall2 field_of (unreserved l) r.
Proof.
  induction l as [|f l IH]; intros seen HN Ha; cbn [fin_fields_loop unreserved filter].
  - exists [], []. split; [reflexivity|constructor].
  - unfold is_reserved. cbn [unreserved filter] in HN, Ha. destruct (String.eqb (lower (fb_name (if_b f))) "reserved") eqn:E; cbn [negb] in *.
    + destruct (IH seen HN) as (ws & r & Hr & HF). { exact Ha. } rewrite Hr. cbn. eauto.
    + fold (unreserved l) in HN, Ha |- *. cbn [map] in HN. inversion HN as [|? ? Hni HN']; subst.
      destruct (Ha f (or_introl eq_refl)) as (Hs & Hac & Hv).
      assert (Em : mem_str (fb_name (if_b f)) seen = false).
      { destruct (mem_str (fb_name (if_b f)) seen) eqn:Em; [|reflexivity]. elim Hs. unfold mem_str in Em. apply existsb_exists in Em.
        destruct Em as (z & Hz & Ez). apply String.eqb_eq in Ez. now subst. }
      rewrite Em. unfold raise_if. rewrite bind_ret_l.
      destruct (containers_total f Hv (fb_lsb (if_b f)) (fb_msb (if_b f))) as (w1 & evcs & ->). cbn [bind].
      unfold field_from. destruct (if_access f) as [a|] eqn:Eac; [|congruence]. rewrite bind_ret_l.
      destruct (IH (fb_name (if_b f) :: seen) HN') as (w2 & r & Hr & HF).
      { intros g Hg. destruct (Ha g (or_intror Hg)) as (H1 & H2 & H3). repeat split; auto. intros [Heq|Hin]; [|auto].
        apply Hni. rewrite Heq. now apply (in_map (fun f => fb_name (if_b f))). }
      rewrite Hr. cbn [bind]. eexists. eexists. split; [reflexivity|]. constructor; [|exact HF]. split; cbn; auto.
Qed.
Lemma no_clash_sym f g : no_clash f g -> no_clash g f.
Proof. unfold no_clash, conflict, intersect. tauto. Qed.
Lemma iclash_field f f' g g' : field_of f g -> field_of f' g' -> ~ iclash f f' <-> no_clash g g'.
Proof.
  intros [B1 A1] [B2 A2]. unfold iclash, no_clash, conflict, intersect, ireadable, iwritable, readable, writable. rewrite A1, A2, B1, B2.
  assert (forall a b : access, Some a <> Some b <-> a <> b) by (intros; split; congruence). rewrite !H. tauto.
Qed.
Lemma sort_fields_perm l : Permutation l (isort (zkey_le f_lsb) l). Proof. apply isort_perm. Qed.

Theorem C16_accepted_iff : forall l size,
  NoDup (map (fun f => fb_name (if_b f)) (unreserved l)) -> (forall f, In f (unreserved l) -> if_access f <> None /\ valued f) ->
  (exists ws fs, fin_fields l size = (ws, Ok fs) /\ exists r, Forall2 field_of (unreserved l) r /\ Permutation r fs) <->
  ForallOrdPairs (fun f g => ~ iclash f g) (unreserved l).
Proof.
  intros l size HN Ha. destruct (fields_loop_total l [] HN) as (ws & r & Hr & HF). { intros f Hf. split; [auto|]. now apply Ha. }
  assert (Hiff : ForallOrdPairs (fun f g => ~ iclash f g) (unreserved l) <-> ForallOrdPairs no_clash (isort (zkey_le f_lsb) r)).
  { rewrite (fop_iff2 field_of (fun f g => ~ iclash f g) no_clash _ _ HF) by (intros; now apply iclash_field). split; apply fop_perm; try exact no_clash_sym.
    - apply isort_perm.
    - symmetry. apply isort_perm. }
  rewrite Hiff. unfold fin_fields. rewrite Hr. cbn [bind].
  assert (Hc := check_fields_iff size (isort (zkey_le f_lsb) r) [] []). split.
  - intros (w & fs & H & _). destruct (check_fields [] [] size (isort (zkey_le f_lsb) r)) as [w' [[]|e]] eqn:Ec; cbn in H; [|congruence].
    apply Hc. eauto.
  - intros H. destruct (proj2 Hc) as [w' Hw]. { split; [exact H|]. intros f _. split; intros _ g []. }
    rewrite Hw. cbn. eexists. eexists. split; [reflexivity|]. exists r. split; [exact HF|]. apply isort_perm.
Qed.
(** and otherwise ProcessException is raised *)
Theorem C16_rejected : forall l size,
  NoDup (map (fun f => fb_name (if_b f)) (unreserved l)) -> (forall f, In f (unreserved l) -> if_access f <> None /\ valued f) ->
  ~ ForallOrdPairs (fun f g => ~ iclash f g) (unreserved l) ->
  exists ws e, fin_fields l size = (ws, Err e) /\ ex_class e = ProcessException.
Proof.
  intros l size HN Ha Hn. destruct (fields_loop_total l [] HN) as (ws & r & Hr & HF). { intros f Hf. split; [auto|]. now apply Ha. }
  unfold fin_fields. rewrite Hr. cbn [bind]. destruct (check_fields [] [] size (isort (zkey_le f_lsb) r)) as [w' [[]|e]] eqn:Ec; cbn.
  - elim Hn. apply (C16_accepted_iff l size HN Ha). unfold fin_fields. rewrite Hr. cbn. rewrite Ec. cbn. eexists. eexists. split; [reflexivity|].
    exists r. split; [exact HF|apply isort_perm].
  - eexists. eexists. split; [reflexivity|]. eapply check_fields_err; eassumption.
Qed.
Example C16_nonvacuous :
  let f n l m a := mk_ifield (mk_fb n None l m MWV_MODIFY None None) (mk_idim None None None) (Some a) [] in
  let ok := [f "G" 4 7 READ_ONLY; f "H" 6 9 WRITE_ONLY; f "Reserved" 0 31 READ_WRITE; f "F" 0 3 READ_WRITE] in
  (exists ws fs, fin_fields ok 32 = (ws, Ok fs) /\ map f_name fs = ["F"; "G"; "H"]%string) /\
  (exists ws e, fin_fields (f "I" 7 7 READ_ONLY :: ok) 32 = (ws, Err e) /\ ex_class e = ProcessException).
Proof. cbn zeta. split; eexists; eexists; (split; [vm_compute; reflexivity|reflexivity]). Qed.

Print Assumptions C16_no_shared_bits.
Print Assumptions C16_accepted_iff.
Print Assumptions C16_rejected.
Print Assumptions C17_overlaps_reported.
Print Assumptions C17_overlaps_justified.
Print Assumptions C18_overlaps_reported.
Print Assumptions C18_overlaps_justified.
Print Assumptions C19_family.
Print Assumptions C19_family_strict.
