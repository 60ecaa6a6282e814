(** * PropsAgain: processing the description of a processed device (C31). *)
From Verif Require Import Base PyStr Types DimModel ElemModel FinalModel ConvertModel ResolveModel ProcessModel SpecProcess SpecDevice SpecAgain.
From Verif Require Import FinalFacts FuelFacts PropsDim PropsDevice AgainFacts AgainExpand Samples.

(** ** C31: the description of a processed device is accepted iff at least one peripheral is left and no name carries a placeholder; the
    outcome is the device itself, except that enumerated values with a name that already occurred are left out and that the size of every
    cluster and peripheral becomes the largest size of the elements in it. *)
Theorem C31_again : forall d ws dev, Processes d ws dev ->
  forall dev', (exists ws', Processes (conv_device dev) ws' dev') <-> Rereadable dev /\ dev' = again_dev dev.
Proof. exact again_iff. Qed.

(** *** a fixed point is reached at once *)
Lemma first_idem l : first_names [] (first_names [] l) = first_names [] l.
Proof. destruct (first_nodup l []) as [H1 _]. apply first_id; [exact H1|intros v _ []]. Qed.
Lemma again_reg_idem r : again_reg (again_reg r) = again_reg r.
Proof.
  unfold again_reg. cbn. f_equal. rewrite map_map. apply map_ext. intros f. unfold again_field. cbn. f_equal. rewrite map_map. apply map_ext. intros c. unfold again_evc. cbn. now rewrite first_idem.
Qed.
Lemma again_idem x : again (again x) = again x.
Proof.
  induction x as [r|c l IH] using rc_ind'; cbn [again]; [now rewrite again_reg_idem|].
  assert (E : map again (map again l) = map again l) by (rewrite map_map; apply map_ext_in; rewrite Forall_forall in IH; exact IH). rewrite E. reflexivity.
Qed.
Lemma again_dev_idem dev : again_dev (again_dev dev) = again_dev dev.
Proof.
  unfold again_dev. cbn. f_equal. rewrite map_map. apply map_ext. intros p. unfold again_per. cbn [pr_b pr_props pr_end pr_end_eff pr_size pr_size_eff pr_rcs pr_regs].
  assert (E : map again (map again (pr_rcs p)) = map again (pr_rcs p)) by (rewrite map_map; apply map_ext, again_idem). assert (E2 : map again_reg (map again_reg (pr_regs p)) = map again_reg (pr_regs p)) by (rewrite map_map; apply map_ext, again_reg_idem).
  rewrite E, E2. reflexivity.
Qed.
Lemma names_again y : NamesOk y -> NamesOk (again y).
Proof.
  induction y as [r|c l IH] using rc_ind'; intros H; inversion H as [? H1 H2 H3|? ? H1 H2]; subst; cbn [again]; constructor; auto.
  - intros f Hf. cbn in Hf. apply in_map_iff in Hf as (g & <- & Hg). exact (H3 g Hg).
  - rewrite Forall_forall in IH. intros x Hx. apply in_map_iff in Hx as (z & <- & Hz). auto.
Qed.
Lemma reread_again dev : Rereadable dev -> Rereadable (again_dev dev).
Proof.
  rewrite !rereadable_iff. intros [R1 R2]. cbn [again_dev dv_periphs]. split; [destruct (dv_periphs dev); [congruence|discriminate]|]. intros p Hp. apply in_map_iff in Hp as (q & <- & Hq). destruct (R2 q Hq) as [N1 N2]. split; [exact N1|].
  cbn [again_per pr_rcs]. intros x Hx. apply in_map_iff in Hx as (z & <- & Hz). apply names_again. auto.
Qed.
Theorem C31_settles : forall d ws dev ws' dev', Processes d ws dev -> Processes (conv_device dev) ws' dev' ->
  exists ws'', Processes (conv_device dev') ws'' dev'.
Proof.
  intros d ws dev ws' dev' H H'. destruct (proj1 (C31_again _ _ _ H dev') (ex_intro (fun w => Processes _ w _) ws' H')) as [R ->]. apply (C31_again _ _ _ H'). split; [now apply reread_again|]. symmetry. apply again_dev_idem.
Qed.

(** *** when nothing changes *)
Inductive SetOk : rc -> Prop :=
| SO_reg r : (forall f c, In f (r_fields r) -> In c (f_evcs f) -> NoDup (map ev_name (evc_evs c))) -> SetOk (Reg r)
| SO_clu c l : (forall x, In x l -> SetOk x) -> IsLargest (p_size (c_props c)) l -> SetOk (Clu c l).
Lemma largest_is l : l <> [] -> (forall x, In x l -> machine_size (p_size (el_props x))) -> forall s, largest_size l = s <-> IsLargest s l.
Proof.
  intros Hne HM. assert (K : IsLargest (largest_size l) l).
  { split.
    - revert Hne HM. induction l as [|a l IH]; intros Hne HM; [congruence|]. change (largest_size (a :: l)) with (Z.max (p_size (el_props a)) (largest_size l)). assert (Ha := HM a (or_introl eq_refl)). apply machine_nn in Ha.
      destruct (Z.max_spec (p_size (el_props a)) (largest_size l)) as [[L ->]|[L ->]]; [|exists a; split; [now left|reflexivity]].
      destruct l as [|b l]; [unfold largest_size in L; cbn in L; lia|]. destruct IH as (x & Hx & E); [discriminate|intros; apply HM; now right|]. exists x. split; [now right|exact E].
    - clear Hne HM. induction l as [|a l IH]; intros x Hx; [destruct Hx|]. change (largest_size (a :: l)) with (Z.max (p_size (el_props a)) (largest_size l)). destruct Hx as [<-|Hx]; [lia|]. specialize (IH x Hx). lia. }
  intros s. split; [intros <-; exact K|]. intros [(x & Hx & <-) H]. destruct K as [(y & Hy & Ey) K]. specialize (K x Hx). specialize (H y Hy). lia.
Qed.
Lemma map_fix {A} (h : A -> A) l : map h l = l <-> forall x, In x l -> h x = x.
Proof.
  split; [|intros H; rewrite <- (map_id l) at 2; now apply map_ext_in]. induction l as [|a l IH]; intros E x Hx; [destruct Hx|]. cbn in E. injection E as E1 E2. destruct Hx as [<-|Hx]; auto.
Qed.
Lemma again_reg_fix r : again_reg r = r <-> forall f c, In f (r_fields r) -> In c (f_evcs f) -> NoDup (map ev_name (evc_evs c)).
Proof.
  assert (EC : forall c, again_evc c = c <-> NoDup (map ev_name (evc_evs c))).
  { intros c. split.
    - intros E. rewrite <- E. apply (first_nodup (evc_evs c) []).
    - intros H. unfold again_evc. rewrite first_id; [destruct c; reflexivity|exact H|intros v _ []]. }
  assert (EF : forall f, again_field f = f <-> forall c, In c (f_evcs f) -> NoDup (map ev_name (evc_evs c))).
  { intros f. transitivity (map again_evc (f_evcs f) = f_evcs f).
    - split; [intros E; exact (f_equal f_evcs E)|]. unfold again_field. intros ->. destruct f; reflexivity.
    - rewrite map_fix. split; intros H c Hc; apply EC, H, Hc. }
  transitivity (map again_field (r_fields r) = r_fields r).
  - split; [intros E; exact (f_equal r_fields E)|]. unfold again_reg. intros ->. destruct r; reflexivity.
  - rewrite map_fix. split; intros H f; [intros c Hf; now apply EF, H|]. intros Hf. apply EF. intros c. now apply H.
Qed.
Lemma again_fix y : forall b, Good b y -> (again y = y <-> SetOk y).
Proof.
  induction y as [r|c l IH] using rc_ind'; intros b HG; inversion HG as [? ? G1 G2 G3 G4 G5|? ? ? G1 G2 G3 G4 G5 G6 G7]; subst; cbn [again].
  - split.
    + intros E. constructor. apply again_reg_fix. exact (f_equal (fun x => match x with Reg q => q | Clu _ _ => r end) E).
    + intros H. inversion H; subst. f_equal. now apply again_reg_fix.
  - rewrite Forall_forall in IH. assert (HM : forall x, In x l -> machine_size (p_size (el_props x))) by (intros x Hx; eapply Good_machine; eauto). split.
    + intros E. assert (E2 : map again l = l) by (injection E; auto). rewrite E2 in E. assert (E1 : largest_size l = p_size (c_props c)) by exact (f_equal (fun x => p_size (el_props x)) E).
      constructor; [|now apply largest_is]. intros x Hx. apply (IH x Hx _ (G4 x Hx)). now apply (proj1 (map_fix again l) E2).
    + intros H. inversion H as [|? ? H1 H2]; subst. assert (E2 : map again l = l) by (apply map_fix; intros x Hx; apply (IH x Hx _ (G4 x Hx)); auto). rewrite E2. apply largest_is in H2; auto. rewrite H2. destruct c as [? [] ? ? ?]; reflexivity.
Qed.
Lemma set_below l o x : (forall y, In y l -> SetOk y) -> Below l o x -> SetOk x.
Proof. apply below_ind. intros c ch y H Hy. inversion H; subst; auto. Qed.
Lemma set_intro l : (forall o r f c, Below l o (Reg r) -> In f (r_fields r) -> In c (f_evcs f) -> NoDup (map ev_name (evc_evs c))) ->
  (forall o c ch, Below l o (Clu c ch) -> IsLargest (p_size (c_props c)) ch) -> forall y, In y l -> SetOk y.
Proof.
  intros H1 H2 y. revert l H1 H2. induction y as [r|c ch IH] using rc_ind'; intros l H1 H2 Hy.
  - assert (Hb : Below l (rb_offset (r_b r)) (Reg r)) by now constructor. constructor. intros f c. exact (H1 _ _ f c Hb).
  - assert (Hb : Below l (cb_offset (c_b c)) (Clu c ch)) by now constructor. rewrite Forall_forall in IH. constructor; [|exact (H2 _ _ _ Hb)]. intros x Hx. apply (IH x Hx ch); [| |exact Hx]; intros.
    + eapply H1; eauto. eapply Below_deep; eauto.
    + eapply H2. eapply Below_deep; eauto.
Qed.
Lemma again_per_fix p : GoodPer p -> (again_per p = p <-> IsLargest (p_size (pr_props p)) (pr_rcs p) /\ forall x, In x (pr_rcs p) -> SetOk x).
Proof.
  intros G. assert (HM : forall x, In x (pr_rcs p) -> machine_size (p_size (el_props x))) by (intros x Hx; eapply Good_machine; exact (gp_rcs _ G x Hx)).
  assert (EX : map again (pr_rcs p) = pr_rcs p <-> forall x, In x (pr_rcs p) -> SetOk x) by (rewrite map_fix; split; intros H x Hx; apply (again_fix x _ (gp_rcs _ G x Hx)), H, Hx).
  rewrite <- EX, <- (largest_is _ (gp_ne _ G) HM). split.
  - intros E. assert (E1 : map again (pr_rcs p) = pr_rcs p) by exact (f_equal pr_rcs E). assert (E2 := f_equal (fun q => p_size (pr_props q)) E). cbn [again_per pr_props sized p_size] in E2. rewrite E1 in E2. auto.
  - intros [E1 E2]. unfold again_per. assert (E3 : map again_reg (pr_regs p) = pr_regs p) by (rewrite (gp_regs _ G), <- extract_all_again, E2; reflexivity). rewrite E2, E3, E1. destruct p as [? [] ? ? ? ? ? ?]; reflexivity.
Qed.
Lemma settled_iff dev : GoodDev dev -> (again_dev dev = dev <-> Settled dev).
Proof.
  intros G. assert (E : again_dev dev = dev <-> forall p, In p (dv_periphs dev) -> IsLargest (p_size (pr_props p)) (pr_rcs p) /\ forall x, In x (pr_rcs p) -> SetOk x).
  { transitivity (map again_per (dv_periphs dev) = dv_periphs dev).
    - split; [intros E; exact (f_equal dv_periphs E)|]. unfold again_dev. intros ->. destruct dev; reflexivity.
    - rewrite map_fix. split; intros H p Hp; apply (again_per_fix p (gd_pers _ G p Hp)), H, Hp. }
  rewrite E. split.
  - intros H. constructor.
    + intros p o r f c Hp Hb. assert (K := set_below _ _ _ (proj2 (H p Hp)) Hb). inversion K; subst; eauto.
    + intros p o c ch Hp Hb. assert (K := set_below _ _ _ (proj2 (H p Hp)) Hb). inversion K; subst; auto.
    + intros p Hp. apply H, Hp.
  - intros [S1 S2 S3] p Hp. split; [exact (S3 p Hp)|]. apply set_intro; eauto.
Qed.
Theorem C31_identity_iff : forall d ws dev, Processes d ws dev -> ((exists ws', Processes (conv_device dev) ws' dev) <-> Rereadable dev /\ Settled dev).
Proof.
  intros d ws dev H. rewrite (C31_again _ _ _ H dev). destruct (processes_good _ _ _ H) as [G _]. rewrite <- (settled_iff _ G). intuition congruence.
Qed.

(** *** the claim fails in general *)
(** (1) a "reserved" register of 32 bits, left out of the device, determines the size of its cluster and of the peripheral *)
Definition shrink_sample : svd_device :=
  s_dev [ s_per "A" 4096 [ s_clu noprops "C" 0 None [ s_reg_dim nodim (mk_oprops (Some 8) None None None None) "R" 0 [] None None; s_reg "reserved" 4 [] None None ] None ] None None ].
(** (2) the generated name of an enumerated value coincides with another one *)
Definition twin_sample : svd_device :=
  s_dev [ s_per "A" 4096 [ s_reg "R" 0 [ s_field "F" (Some 0) (Some 0) None [s_evc None [s_ev "A_1" "0"; mk_sev "A" None None (Some true)] None] None ] None None ] None None ].
(** (3) no peripheral is left *)
Definition bare_sample : svd_device := s_dev [ s_per "A" 4096 [ s_clu noprops "C" 0 None [] None ] None None ].
(** (4) a name keeps a placeholder *)
Definition percent_sample : svd_device :=
  s_dev [ s_per "A" 4096 [ s_reg_dim (mk_sdim (Some 1) (Some 4) None None None) noprops "R[%s]%s" 0 [] None None ] None None ].
Definition rerun (d : svd_device) : M device := process_device 20 (conv_device (the_device (process_device 20 d))).
Definition first_run (d : svd_device) : device := the_device (process_device 20 d).
Lemma by_run d : match process_device 20 d with (_, Ok _) => True | _ => False end -> Processes d (fst (process_device 20 d)) (first_run d).
Proof. intros H. exists 20%nat. unfold first_run, the_device. destruct (process_device 20 d) as [w [v|e]]; [reflexivity|destruct H]. Qed.
Theorem C31_idempotent_refuted :
  (exists d ws dev ws' dev', Processes d ws dev /\ Processes (conv_device dev) ws' dev' /\
    map (fun p => p_size (pr_props p)) (dv_periphs dev) = [32] /\ map (fun p => p_size (pr_props p)) (dv_periphs dev') = [8]) /\
  (exists d ws dev ws' dev', Processes d ws dev /\ Processes (conv_device dev) ws' dev' /\
    flat_map (fun p => flat_map (fun r => flat_map (fun f => flat_map (fun c => map ev_name (evc_evs c)) (f_evcs f)) (r_fields r)) (pr_regs p)) (dv_periphs dev) = ["A_1"; "A_1"] /\
    flat_map (fun p => flat_map (fun r => flat_map (fun f => flat_map (fun c => map ev_name (evc_evs c)) (f_evcs f)) (r_fields r)) (pr_regs p)) (dv_periphs dev') = ["A_1"]) /\
  (exists d ws dev, Processes d ws dev /\ dv_periphs dev = [] /\ ~ exists ws' dev', Processes (conv_device dev) ws' dev') /\
  (exists d ws dev, Processes d ws dev /\ outline dev = [("A", [("R0%s", 4096)])] /\ ~ exists ws' dev', Processes (conv_device dev) ws' dev').
Proof.
  assert (P1 := by_run shrink_sample Logic.I). assert (P2 := by_run twin_sample Logic.I). assert (P3 := by_run bare_sample Logic.I). assert (P4 := by_run percent_sample Logic.I).
  split; [|split; [|split]].
  - exists shrink_sample, (fst (process_device 20 shrink_sample)), (first_run shrink_sample), (fst (rerun shrink_sample)), (the_device (rerun shrink_sample)). split; [exact P1|]. split; [exists 20%nat; vm_compute; reflexivity|]. split; vm_compute; reflexivity.
  - exists twin_sample, (fst (process_device 20 twin_sample)), (first_run twin_sample), (fst (rerun twin_sample)), (the_device (rerun twin_sample)). split; [exact P2|]. split; [exists 20%nat; vm_compute; reflexivity|]. split; vm_compute; reflexivity.
  - exists bare_sample, (fst (process_device 20 bare_sample)), (first_run bare_sample). split; [exact P3|]. split; [vm_compute; reflexivity|]. intros (w & dev' & H). apply (rd_some (first_run bare_sample)); [|vm_compute; reflexivity]. exact (proj1 (proj1 (C31_again _ _ _ P3 dev') (ex_intro (fun w => Processes _ w _) w H))).
  - exists percent_sample, (fst (process_device 20 percent_sample)), (first_run percent_sample). split; [exact P4|]. split; [vm_compute; reflexivity|]. intros (w & dev' & H). assert (R := proj1 (proj1 (C31_again _ _ _ P4 dev') (ex_intro (fun w => Processes _ w _) w H))).
    assert (X : existsb (fun p => existsb (fun x => match x with Reg r => String.eqb (rb_name (r_b r)) "R0%s" | Clu _ _ => false end) (pr_rcs p)) (dv_periphs (first_run percent_sample)) = true) by (vm_compute; reflexivity).
    apply existsb_exists in X as (p & Hp & X). apply existsb_exists in X as ([r|c l] & Hr & X); [|discriminate]. apply String.eqb_eq in X. refine (rd_rc _ R p (rb_offset (r_b r)) (Reg r) Hp (Below_reg _ _ Hr) _). cbn [el_name]. rewrite X. exists "R0", "". reflexivity.
Qed.

(** *** witness: the sample device (arrays, nested and derived elements, generated enumerated values, dropped elements) is unchanged *)
Example C31_nonvacuous : Processes sample (fst sample_result) (the_device sample_result) /\ Rereadable (the_device sample_result) /\ Settled (the_device sample_result) /\
  (exists ws', Processes (conv_device (the_device sample_result)) ws' (the_device sample_result)) /\ dv_periphs (the_device sample_result) <> [].
Proof.
  assert (H := sample_accepted). split; [exact H|]. assert (K : exists ws', Processes (conv_device (the_device sample_result)) ws' (the_device sample_result)) by (eexists; exists 20%nat; vm_compute; reflexivity).
  destruct (proj1 (C31_identity_iff _ _ _ H) K) as [R S]. split; [exact R|]. split; [exact S|]. split; [exact K|apply R].
Qed.

Print Assumptions C31_again.
Print Assumptions C31_settles.
Print Assumptions C31_identity_iff.
Print Assumptions C31_idempotent_refuted.
