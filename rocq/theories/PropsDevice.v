(** * PropsDevice: properties of accepted devices: C11, C13, C15, C16, C17, C18, C19, C20, C21, C22, C41. *)
From Verif Require Import Base PyStr PyInt Types ElemModel FinalModel ResolveModel ProcessModel SpecProcess SpecDevice SpecImage.
From Verif Require Import FinalFacts AltFacts OverlapFacts OverlapFacts2 ImageFacts Samples.

(** the resolver's result for the description [d]: the expanded, derived elements, before inheritance and validation *)
Definition Resolves (d : svd_device) (ws : list warning) (i : idevice) : Prop :=
  exists fuel ps, resolve_peripherals fuel (sdv_periphs d) = (ws, Ok ps) /\ i = mk_idev (process_device_base d) ps.

Lemma wrap_ok {A} (m : M A) ws a : wrap m = (ws, Ok a) -> m = (ws, Ok a).
Proof. destruct m as [w [x|e]]; cbn; congruence. Qed.

Lemma processes_inv d ws dev : Processes d ws dev ->
  exists i w1 w2, Resolves d w1 i /\ finalize (inherit_properties i) = (w2, Ok dev) /\ ws = w1 ++ w2.
Proof.
  intros [fuel H]. unfold process_device in H. apply bind_ok in H. destruct H as (w1 & ps & w2 & H1 & H2 & ->).
  apply wrap_ok in H1. exists (mk_idev (process_device_base d) ps), w1, w2. repeat split; [|exact H2]. exists fuel, ps. now split.
Qed.
Lemma processes_good d ws dev : Processes d ws dev -> GoodDev dev /\ dv_b dev = process_device_base d.
Proof.
  intros H. destruct (processes_inv _ _ _ H) as (i & w1 & w2 & (fuel & ps & _ & ->) & Hf & _).
  destruct (finalize_good _ _ _ Hf) as [G E]. split; [exact G|]. rewrite E. reflexivity.
Qed.
Lemma per_siblings dev q s : GoodDev dev -> In q (dv_periphs dev) -> Siblings (pr_rcs q) s -> exists b, good_sibs s /\ forall y, In y s -> Good b y.
Proof.
  intros G Hq Hs. destruct (gd_pers _ G q Hq). now apply (Good_siblings (pb_base (pr_b q)) (pr_rcs q)).
Qed.
Lemma per_below dev q o x : GoodDev dev -> In q (dv_periphs dev) -> Below (pr_rcs q) o x -> exists b, Good b x /\ abs_addr x = pb_base (pr_b q) + o.
Proof.
  intros G Hq Hs. destruct (gd_pers _ G q Hq). now apply (Good_below (pb_base (pr_b q)) (pr_rcs q)).
Qed.

(** ** C13 *)
Theorem C13_absolute_addresses : forall d ws dev, Processes d ws dev ->
  forall p o x, In p (dv_periphs dev) -> Below (pr_rcs p) o x -> abs_addr x = pb_base (pr_b p) + o.
Proof. intros d ws dev H p o x Hp Hx. destruct (processes_good _ _ _ H) as [G _]. now destruct (per_below _ _ _ _ G Hp Hx) as (b & _ & E). Qed.

(** the deepest register of the sample lies three levels down *)
Example C13_nonvacuous : exists p o r, In p (dv_periphs (the_device sample_result)) /\ Below (pr_rcs p) o (Reg r) /\ o = 64 + 8 + 4 /\ r_base r = 4096 + o.
Proof.
  destruct (dv_periphs (the_device sample_result)) as [|p l] eqn:E; [vm_compute in E; discriminate|].
  vm_compute in E. injection E as <- _. eexists. eexists. eexists. split; [left; reflexivity|]. cbn [pr_rcs]. split.
  - eapply Below_deep; [do 5 right; left; reflexivity|]. eapply Below_deep; [right; left; reflexivity|]. eapply Below_reg. right. left. reflexivity.
  - split; reflexivity.
Qed.

(** ** C15 *)
Theorem C15_unique_names : forall d ws dev, Processes d ws dev ->
  NoDup (map (fun p => pb_name (pr_b p)) (dv_periphs dev)) /\
  (forall p s, In p (dv_periphs dev) -> Siblings (pr_rcs p) s -> NoDup (map lookup_name s)) /\
  (forall p o r, In p (dv_periphs dev) -> Below (pr_rcs p) o (Reg r) -> NoDup (map (fun f => fb_name (f_b f)) (r_fields r))).
Proof.
  intros d ws dev H. destruct (processes_good _ _ _ H) as [G _]. split; [exact (gd_names _ G)|]. split.
  - intros p s Hp Hs. destruct (per_siblings _ _ _ G Hp Hs) as (b & [_ N] & _).
    erewrite map_ext; [exact N|]. intros x. symmetry. apply rc_dup_lookup.
  - intros p o r Hp Hb. destruct (per_below _ _ _ _ G Hp Hb) as (b & Hg & _). inversion Hg; subst.
    match goal with X : good_fields _ _ |- _ => destruct X as [N _] end. exact N.
Qed.

(** ** C21 *)
Theorem C21_flattened_registers : forall d ws dev, Processes d ws dev ->
  forall p, In p (dv_periphs dev) ->
  Permutation (pr_regs p) (flat_map regs_of (pr_rcs p)) /\ StronglySorted reg_before (pr_regs p).
Proof.
  intros d ws dev H p Hp. destruct (processes_good _ _ _ H) as [G _]. destruct (gd_pers _ G p Hp). rewrite gp_regs. split.
  - apply extract_registers_perm.
  - apply extract_registers_sorted.
Qed.
Lemma regs_of_below l r : In r (flat_map regs_of l) <-> exists o, Below l o (Reg r).
Proof.
  split.
  - assert (Hx : forall x, In r (regs_of x) -> forall l, In x l -> exists o, Below l o (Reg r)).
    { induction x as [q|c ch IH] using rc_ind'; intros Hr l' Hin; cbn in Hr.
      - destruct Hr as [->|[]]. eexists. now constructor.
      - apply in_flat_map in Hr. destruct Hr as (y & Hy & Hr). rewrite Forall_forall in IH. destruct (IH y Hy Hr ch Hy) as [o Ho].
        eexists. eapply Below_deep; eassumption. }
    intros H. apply in_flat_map in H. destruct H as (x & Hin & Hr). now apply (Hx x).
  - intros [o H]. remember (Reg r) as y eqn:Ey. induction H as [l q Hin|l c ch Hin|l c ch o x Hin Hb IH]; try discriminate.
    + injection Ey as ->. apply in_flat_map. exists (Reg r). split; [exact Hin|]. now left.
    + apply in_flat_map. exists (Clu c ch). split; [exact Hin|]. cbn. now apply IH.
Qed.
(** in terms of places: the flat list contains exactly the registers found at any depth of the tree *)
Theorem C21_flattened_registers_in : forall d ws dev, Processes d ws dev ->
  forall p r, In p (dv_periphs dev) -> (In r (pr_regs p) <-> exists o, Below (pr_rcs p) o (Reg r)).
Proof.
  intros d ws dev H p r Hp. destruct (C21_flattened_registers d ws dev H p Hp) as [P _]. rewrite <- regs_of_below. split; intros Hr.
  - eapply Permutation_in; eassumption.
  - eapply Permutation_in; [apply Permutation_sym|]; eassumption.
Qed.
Example C21_nonvacuous : map (fun p => (length (pr_regs p), length (pr_rcs p))) (dv_periphs (the_device sample_result)) = [(8, 6); (8, 6)]%nat.
Proof. vm_compute. reflexivity. Qed.

(** ** C22 *)
(** [e] is the largest last byte of the elements of [l] *)
Definition Encloses (l : list rc) (e : Z) : Prop := (forall x, In x l -> last_byte x <= e) /\ exists x, In x l /\ last_byte x = e.

Theorem C22_extents : forall d ws dev, Processes d ws dev -> forall p, In p (dv_periphs dev) ->
  Encloses (pr_rcs p) (pr_end_eff p) /\ pr_size_eff p = pr_end_eff p - pb_base (pr_b p) + 1 /\
  (forall o c ch, Below (pr_rcs p) o (Clu c ch) -> Encloses ch (c_end c) /\ c_size c = c_end c - c_base c + 1) /\
  (forall a, In a (pb_abs (pr_b p)) -> pb_base (pr_b p) + ab_offset a + ab_size a - 1 <= pr_end p) /\
  (exists a, In a (pb_abs (pr_b p)) /\ pb_base (pr_b p) + ab_offset a + ab_size a - 1 = pr_end p).
Proof.
  intros d ws dev H p Hp. destruct (processes_good _ _ _ H) as [G _]. assert (GP := gd_pers _ G p Hp). destruct GP.
  assert (En : forall l e, l <> [] -> e = max_list (map last_byte l) -> Encloses l e).
  { intros l e Hne ->. split.
    - intros x Hx. apply max_list_ge. now apply in_map.
    - assert (Hi : In (max_list (map last_byte l)) (map last_byte l)) by (apply max_list_in; destruct l; [congruence|discriminate]).
      apply in_map_iff in Hi. destruct Hi as (x & E & Hx). now exists x. }
  repeat split.
  - apply En; assumption.
  - now apply En.
  - assumption.
  - destruct (per_below _ _ _ _ G Hp H0) as (b & Hg & _). inversion Hg; subst. apply En; [assumption|].
    match goal with X : c_end c = _ |- _ => rewrite X end. f_equal. apply map_ext_in. intros y Hy. eapply Good_rc_bytes; eauto.
  - destruct (per_below _ _ _ _ G Hp H0) as (b & Hg & _). inversion Hg; subst. apply En; [assumption|].
    match goal with X : c_end c = _ |- _ => rewrite X end. f_equal. apply map_ext_in. intros y Hy. eapply Good_rc_bytes; eauto.
  - destruct (per_below _ _ _ _ G Hp H0) as (b & Hg & _). now inversion Hg.
  - intros a Ha. rewrite gp_end. apply max_list_ge. apply in_map_iff. now exists a.
  - rewrite gp_end. assert (Hi : In (max_list (map (fun ab => pb_base (pr_b p) + ab_offset ab + ab_size ab - 1) (pb_abs (pr_b p))))
      (map (fun ab => pb_base (pr_b p) + ab_offset ab + ab_size ab - 1) (pb_abs (pr_b p)))).
    { apply max_list_in. destruct (pb_abs (pr_b p)); [congruence|discriminate]. }
    apply in_map_iff in Hi. destruct Hi as (a & E & Ha). exists a. split; [exact Ha|lia].
Qed.
Example C22_nonvacuous : map (fun p => (pr_end_eff p, pr_size_eff p)) (dv_periphs (the_device sample_result)) = [(4175, 80); (8271, 80)].
Proof. vm_compute. reflexivity. Qed.

(** ** C20 *)
(** [DevImage]: every resolved element has its image in the processed device, or is omitted for one of the announced reasons with the
    corresponding warning, and nothing else is in the processed device (see SpecImage) *)
Theorem C20_nothing_lost : forall d ws dev, Processes d ws dev ->
  exists i w1 w2, ws = w1 ++ w2 /\ Resolves d w1 i /\ DevImage w2 i dev.
Proof.
  intros d ws dev H. destruct (processes_inv _ _ _ H) as (i & w1 & w2 & HR & Hf & ->). exists i, w1, w2. repeat split; auto.
  all: apply finalize_image in Hf; apply Hf.
Qed.
(** the sample loses one field ("Reserved") and one cluster ("Empty") per peripheral, with four warnings *)
Example C20_nonvacuous : (length (filter (fun w => match w with W_FieldReserved | W_ClusterEmpty _ => true | _ => false end) (fst sample_result)) = 4)%nat.
Proof. vm_compute. reflexivity. Qed.

(** ** C11 *)
(** the device level: given value or else read-write, any, 0, 0xFFFFFFFF *)
Definition device_level (d : svd_device) : oprops :=
  let p := sdv_props d in
  mk_oprops (nearest [op_size p; Some 32]) (nearest [op_access p; Some READ_WRITE]) (nearest [op_prot p; Some ANY])
            (nearest [op_rv p; Some 0]) (nearest [op_rm p; Some (2 ^ 32 - 1)]).
Lemma device_level_eq d : dev_oprops (process_device_base d) = device_level d.
Proof. unfold dev_oprops, process_device_base, device_level. destruct (sdv_props d) as [a b c e f]. destruct a, b, c, e, f; reflexivity. Qed.

(** for every register/cluster of the processed device: the resolved element at the same path, with its own properties and those of the
    enclosing levels up to the device; the processed values are those of the nearest level that specifies them.
    Fields: access from the field, else the register, else the enclosing levels. *)
Theorem C11_nearest_level : forall d ws dev, Processes d ws dev ->
  exists i w1, Resolves d w1 i /\
  forall p path y, In p (dv_periphs dev) -> PBelow (pr_rcs p) path y ->
  exists ip encl x, In ip (idv_periphs i) /\ pb_name (ip_b ip) = pb_name (pr_b p) /\ IBelow (ip_rcs ip) path (i_props x :: encl) x /\
    i_name x = el_name y /\ nearest_props (i_props x :: encl ++ [ip_props ip; device_level d]) (el_props y) /\
    (forall r g, y = Reg r -> In g (r_fields r) -> exists f,
       match x with IReg q => In f (ir_fields q) | IClu _ _ => False end /\
       fb_name (if_b f) = fb_name (f_b g) /\
       nearest (if_access f :: op_access (i_props x) :: map op_access (encl ++ [ip_props ip; device_level d])) = Some (f_access g)).
Proof.
  intros d ws dev H. destruct (processes_inv _ _ _ H) as (i & w1 & w2 & HR & Hf & ->). exists i, w1. split; [exact HR|].
  apply finalize_image in Hf. destruct Hf as (_ & ys & HA & HP). destruct HR as (fuel & ps & _ & ->). cbn [idv_b idv_periphs] in *.
  rewrite device_level_eq in HA. intros p path y Hp Hy.
  destruct (PersAlign_in _ _ _ _ HA p) as (ip & Hip & HI). { eapply Permutation_in; [symmetry; exact HP|exact Hp]. }
  inversion HI as [? ? zs Hb Hnp HAl HPz]; subst.
  destruct (image_path _ _ _ _ _ _ _ HAl HPz Hy) as (encl & x & HIB & HIm).
  exists ip, encl, x. split; [exact Hip|]. split; [now rewrite Hb|]. split; [exact HIB|]. split; [exact (image_name _ _ _ _ HIm)|].
  split; [exact (image_props _ _ _ _ HIm)|].
  intros r g -> Hg. inversion HIm as [? q q' gs Hb' Hn' Hnp' HFA HPg|]; subst.
  destruct (FieldsAlign_in _ _ _ _ _ HFA g) as (f & Hf & HFI). { eapply Permutation_in; [symmetry; exact (proj1 HPg)|exact Hg]. }
  exists f. split; [exact Hf|]. split; [symmetry; exact (fi_name _ _ _ _ _ HFI)|]. exact (fi_access _ _ _ _ _ HFI).
Qed.
(** register X of the sample: read-only and reset value 7 come from cluster D, protection and reset mask from the device *)
Example C11_nonvacuous : match dv_periphs (the_device sample_result) with
  | p :: _ => option_map (fun r => (rb_name (r_b r), r_props r)) (nth_error (pr_regs p) 7)
  | [] => None end = Some ("X"%string, mk_props 32 READ_ONLY ANY 7 4294967295).
Proof. vm_compute. reflexivity. Qed.

(** ** C41 *)
Definition own_offset (x : rc) : Z := match x with Reg r => rb_offset (r_b r) | Clu c _ => cb_offset (c_b c) end.
(** natural alignment, at most 4 bytes *)
Definition aligned (x : rc) : Prop := own_offset x mod Z.min (p_size (el_props x) / 8) 4 = 0.

Lemma below_one y o z : Below [y] o z -> z = y \/ exists c ch o', y = Clu c ch /\ Below ch o' z.
Proof.
  intros H. inversion H as [l r Hin|l c ch Hin|l c ch o' z' Hin Hb]; subst.
  - left. destruct Hin as [<-|[]]. reflexivity.
  - left. destruct Hin as [<-|[]]. reflexivity.
  - right. destruct Hin as [->|[]]. eauto.
Qed.
Lemma below_in l o z : Below l o z -> exists y, In y l /\ Below [y] o z.
Proof.
  intros H. inversion H as [? r Hin|? c ch Hin|? c ch o' z' Hin Hb]; subst; eexists; (split; [exact Hin|]).
  - apply Below_reg. now left.
  - eapply Below_clu. now left.
  - eapply Below_deep; [left; reflexivity|exact Hb].
Qed.
Lemma fin_rc_aligned x : forall base w y, fin_rc x base = (w, Ok (Some y)) ->
  forall o z, Below [y] o z -> ~ aligned z -> In (W_RcUnaligned (el_name z)) w.
Proof.
  induction x as [r|c l IH] using irc_ind'; intros base w y H o z Hz Ha.
  - apply fin_rc_ok in H. destruct H as (s & Hs & [(_ & H & _)|(Hm & w' & -> & [(_ & H & _)|(_ & _ & fs & p & _ & Hp & Hps & H)])]); try discriminate.
    injection H as ->. destruct (below_one _ _ _ Hz) as [->|(c & ch & o' & ? & _)]; [|discriminate].
    apply in_or_app. left. unfold aligned in Ha. cbn in Ha. cbn [irc_offset irc_name]. cbn. rewrite Hps in Ha. unfold needed_alignment.
    replace (_ =? 0) with false by lia. now left.
  - apply fin_rc_ok in H. destruct H as (s & Hs & [(_ & H & _)|(Hm & w' & -> & ch & wc & Hch & [(_ & H & _)|(_ & -> & p & Hp & Hps & H)])]); try discriminate.
    injection H as ->. destruct (below_one _ _ _ Hz) as [->|(c' & ch' & o' & [= <- <-] & Hz')].
    + apply in_or_app. left. unfold aligned in Ha. cbn in Ha. cbn [irc_offset irc_name]. cbn. rewrite Hps in Ha. unfold needed_alignment.
      replace (_ =? 0) with false by lia. now left.
    + apply in_or_app. right. destruct (below_in _ _ _ Hz') as (y & Hy & Hyz).
      apply fin_rcs_ok in Hch. destruct Hch as (ys & w1 & w2 & HL & _ & -> & _ & ->).
      apply isort_in in Hy. apply in_or_app. left. clear -HL IH Hy Hyz Ha.
      revert Hy. induction HL as [|x l y0 ys w ws Hf HL IHL|x l ys w ws Hf HL IHL]; intros Hy.
      * destruct Hy.
      * apply Forall_cons_iff in IH. destruct IH as [IHx IH]. apply in_or_app. destruct Hy as [->|Hy].
        -- left. eapply IHx; eassumption.
        -- right. now apply IHL.
      * apply Forall_cons_iff in IH. destruct IH as [_ IH]. apply in_or_app. right. now apply IHL.
Qed.

Theorem C41_machine_sizes : forall d ws dev, Processes d ws dev ->
  forall p o x, In p (dv_periphs dev) -> Below (pr_rcs p) o x ->
  In (p_size (el_props x)) [8; 16; 32; 64; 128] /\ (~ aligned x -> In (W_RcUnaligned (el_name x)) ws).
Proof.
  intros d ws dev H p o x Hp Hx. destruct (processes_good _ _ _ H) as [G _]. split.
  - destruct (per_below _ _ _ _ G Hp Hx) as (b & Hg & _). inversion Hg; subst; cbn [el_props];
    match goal with X : machine_size _ |- _ => unfold machine_size in X end; cbn [In]; intuition lia.
  - intros Ha. destruct (processes_inv _ _ _ H) as (i & w1 & w2 & _ & Hf & ->). apply in_or_app. right.
    unfold finalize in Hf. apply bind_ok in Hf. destruct Hf as (w3 & s & w4 & Hs & Hr & ->). apply ret_ok in Hr. destruct Hr as [<- ->].
    apply fin_pers_ok in Hs. destruct Hs as (ys & w5 & w6 & HL & _ & -> & _ & ->). cbn [dv_periphs] in Hp. apply isort_in in Hp.
    apply in_or_app. left. apply in_or_app. left. clear -HL Hp Hx Ha.
    induction HL as [|q l y ys w ws Hq HL IH|q l ys w ws Hq HL IH].
    + destruct Hp.
    + apply in_or_app. destruct Hp as [->|Hp]; [left|right; now apply IH].
      apply fin_per_ok in Hq. destruct Hq as (rcs & w1 & w2 & Hr & -> & [(_ & Hq & _)|(_ & [(s & _ & _ & Hq & _)|(pp & _ & _ & _ & Hq)])]); try discriminate.
      injection Hq as ->. cbn [pr_rcs] in Hx. apply in_or_app. left. destruct (below_in _ _ _ Hx) as (y & Hy & Hyx).
      apply fin_rcs_ok in Hr. destruct Hr as (ys' & w3 & w4 & HL' & _ & -> & _ & ->). apply isort_in in Hy. apply in_or_app. left.
      clear -HL' Hy Hyx Ha. induction HL' as [|z l' y0 ys w ws Hf HL IH|z l' ys w ws Hf HL IH].
      * destruct Hy.
      * apply in_or_app. destruct Hy as [->|Hy]; [left|right; now apply IH]. eapply fin_rc_aligned; eassumption.
      * apply in_or_app. right. now apply IH.
    + apply in_or_app. right. now apply IH.
Qed.
(** a size that is a multiple of 8 but no machine size is rejected, at any place that is reached *)
Theorem C41_other_sizes_rejected : forall x base s, op_size (i_props x) = Some s -> s mod 8 = 0 -> ~ In s [8; 16; 32; 64; 128] ->
  exists ws e, fin_rc x base = (ws, Err e) /\ ex_class e = ProcessException.
Proof.
  intros x base s Hs H8 Hn. destruct (fin_rc x base) as [ws [o|e]] eqn:E.
  - apply fin_rc_ok in E. destruct E as (s' & Hs' & [(H & _)|(Hm & _)]); assert (s' = s) by (destruct x; cbn in *; congruence); subst s'.
    + congruence.
    + exfalso. apply Hn. unfold machine_size in Hm. cbn. intuition lia.
  - exists ws, e. split; [reflexivity|].
    assert (Hp : irc_props x = i_props x) by (destruct x; reflexivity).
    assert (E' : fin_rc x base = raise ProcessException "Unsupported register size").
    { cbn in Hn. destruct x as [r|c l]; cbn [fin_rc]; rewrite Hp, Hs; replace (s mod 8 =? 0) with true by lia; cbn [negb];
      unfold to_byte, get_alignment; replace (s mod 8 =? 0) with true by lia; cbn [negb]; unfold raise_if; rewrite !bind_ret_l;
      assert (Hd := Z.div_mod s 8 ltac:(lia));
      repeat match goal with |- context [s / 8 =? ?k] => replace (s / 8 =? k) with false by lia end; reflexivity. }
    rewrite E' in E. unfold raise in E. injection E as _ <-. reflexivity.
Qed.
Example C41_nonvacuous : In (W_RcUnaligned "R3") (fst sample_result) /\
  (exists e, Rejects (s_dev [s_per "A" 0 [s_reg_dim nodim (sized 24) "R" 0 [] None None] None None]) e /\ ex_class e = ProcessException).
Proof.
  split; [vm_compute; tauto|]. eexists. split; [exists 20%nat; eexists; split; [vm_compute; reflexivity|discriminate]|reflexivity].
Qed.

Print Assumptions C11_nearest_level.
Print Assumptions C13_absolute_addresses.
Print Assumptions C15_unique_names.
Print Assumptions C20_nothing_lost.
Print Assumptions C21_flattened_registers.
Print Assumptions C22_extents.
Print Assumptions C41_machine_sizes.
Print Assumptions C41_other_sizes_rejected.
