(** * PropsExport: C54, from file to file *)
From Verif Require Import Base PyStr PyInt Types DimModel EnumModel ElemModel FinalModel ConvertModel ParseModel SerializeModel XmlReadModel ResolveModel ProcessModel SpecProcess.
From Verif Require Import SpecText TextFacts SpecParse SpecRoundTrip SpecConvert SpecAgain SpecExport RoundTrip ExportFacts PropsDevice PropsParse PropsRoundTrip PropsConvert PropsAgain Samples SamplesParse.

Lemma Forall2_head {A B} (R : A -> B -> Prop) a b l m : Forall2 R (a :: l) (b :: m) -> R a b.
Proof. intros H. now inversion H. Qed.

(** ** What is read is trimmed *)
Lemma strip_twice s : strip (strip s) = strip s.
Proof.
  destruct (String.eqb_spec (strip s) "") as [E|E]; [now rewrite E|].
  destruct (strip s) as [|c t] eqn:Es; [congruence|]. enough (H : solid (String c t)) by apply H. rewrite <- Es. apply solid_iff. rewrite Es. unfold strip, strip_by in Es. split.
  - cbn. assert (K : forall u, match lstrip_by is_space u with String d _ => is_space d = false | EmptyString => True end).
    { induction u as [|d u IH]; cbn; [exact Logic.I|]. destruct (is_space d) eqn:E1; [exact IH|exact E1]. }
    specialize (K s). destruct (lstrip_by is_space s) as [|d u]; [discriminate Es|]. cbn in Es. destruct (rstrip_by is_space u); [rewrite K in Es|]; injection Es as <- _; exact K.
  - rewrite <- Es. assert (K : forall u, rstrip_by is_space u = "" \/ tailed (rstrip_by is_space u)).
    { induction u as [|d u IH]; [now left|]. cbn [rstrip_by]. destruct (rstrip_by is_space u) as [|d' u'].
      - destruct (is_space d) eqn:E1; [now left|right; exact E1].
      - right. destruct IH as [IH|IH]; [discriminate IH|exact IH]. }
    destruct (K (lstrip_by is_space s)) as [K'|K']; [rewrite Es in K'; discriminate K'|exact K'].
Qed.
Lemma stripped_trimmed s t : Stripped s t -> strip t = t.
Proof. intros H. apply stripped_iff in H as ->. apply strip_twice. Qed.
Lemma text_trimmed n e o : Text n e o -> Forall (fun s => strip s = s) (opt_list o).
Proof. intros (r & _ & H). destruct o as [t|]; [|constructor]. destruct r; [|destruct H]. constructor; [|constructor]. eapply stripped_trimmed; exact H. Qed.
Lemma must_trimmed n e v : Must Is n e v -> strip v = v.
Proof. intros (t & H & <-). apply text_trimmed in H. now inversion H. Qed.
Lemma attr_trimmed n e o : Attr n e o -> Forall (fun s => strip s = s) (opt_list o).
Proof. intros [[_ ->]|(v & t & l1 & l2 & _ & _ & H & ->)]; [constructor|]. constructor; [|constructor]. eapply stripped_trimmed; exact H. Qed.
Lemma Forall2_all {A B} (R : A -> B -> Prop) (P : B -> Prop) l m : (forall a b, R a b -> P b) -> Forall2 R l m -> Forall P m.
Proof. intros H H2. induction H2; constructor; eauto. Qed.
Lemma children_all {A} n (R : xml -> A -> Prop) (P : A -> Prop) e l : (forall c a, R c a -> P a) -> Children n R e l -> Forall P l.
Proof. intros H (es & _ & H2). eapply Forall2_all; eauto. Qed.
Lemma sections_all {A} s n (R : xml -> A -> Prop) (P : A -> Prop) e l : (forall c a, R c a -> P a) -> Sections s n R e l -> Forall P l.
Proof. intros H (secs & parts & _ & H2 & ->). apply Forall_concat. eapply Forall2_all; [|exact H2]. intros a b Hc. eapply children_all; eauto. Qed.

Notation trims := (Forall (fun s => strip s = s)).
Ltac trim := repeat first [apply Forall_cons | apply Forall_nil | apply Forall_app; split]; try solve [eapply text_trimmed; eassumption | eapply must_trimmed; eassumption | eapply attr_trimmed; eassumption].
Lemma evc_trims e c : reads_evc e c -> trims (texts_evc c).
Proof.
  intros (_ & H1 & H2 & _ & H3). unfold texts_evc. trim. apply Forall_map. eapply children_all; [|exact H3]. intros x v (Hv & _). cbn. eapply must_trimmed; exact Hv.
Qed.
Lemma dim_trims e d : reads_dim e d -> trims (opt_list (sd_index d)).
Proof. intros (_ & _ & H & _). eapply text_trimmed; exact H. Qed.
Lemma field_trims e f : reads_field e f -> trims (texts_field f) /\ trims (opt_list (sd_index (sf_dim f))).
Proof.
  intros (_ & H1 & _ & _ & _ & _ & _ & _ & _ & _ & _ & _ & H2 & H3). split; [|eapply dim_trims; exact H3]. unfold texts_field. trim.
  apply Forall_flat_map. eapply children_all; [|exact H2]. apply evc_trims.
Qed.
Lemma reg_trims e r : reads_reg e r -> trims (texts_reg r) /\ trims (indexes_reg r).
Proof.
  intros (_ & H1 & H2 & _ & H3 & H4 & _ & _ & _ & _ & _ & H5 & H6 & _). split.
  - unfold texts_reg. trim. apply Forall_flat_map. eapply sections_all; [|exact H5]. intros x f Hf. eapply field_trims; exact Hf.
  - unfold indexes_reg. apply Forall_app. split; [eapply dim_trims; exact H6|]. apply Forall_flat_map. eapply sections_all; [|exact H5]. intros x f Hf. cbn. eapply field_trims; exact Hf.
Qed.
Lemma clu_trims e c : reads_clu e c -> trims (texts_clu c) /\ trims (opt_list (sd_index (sc_dim c))).
Proof. intros (_ & H1 & _ & H2 & H3 & _ & H4 & _). split; [|eapply dim_trims; exact H4]. unfold texts_clu. trim. Qed.
Lemma rcs_trims l rs : reads_rcs l rs -> Forall (fun x => trims (texts_rc x) /\ trims (indexes_rc x)) rs.
Proof.
  induction 1 as [|e l r rs _ Hr _ IH|e l c ch rs _ Hc _ IH1 _ IH2|]; [constructor| | |assumption]; constructor; try assumption; cbn [texts_rc indexes_rc].
  - eapply reg_trims; exact Hr.
  - destruct (clu_trims _ _ Hc) as [C1 C2]. split; apply Forall_app; (split; [assumption|]); apply Forall_flat_map; (eapply Forall_impl; [|exact IH1]); now intros x [].
Qed.
Lemma per_trims e p : reads_per e p -> trims (texts_per p) /\ trims (indexes_per p).
Proof.
  intros (_ & H1 & H2 & _ & H3 & H4 & H5 & H6 & H7 & _ & _ & _ & H8 & (secs & _ & H9) & H10 & _). apply rcs_trims in H9. split.
  - unfold texts_per. trim.
    + apply Forall_map. eapply children_all; [|exact H8]. intros x i (Hi & _). cbn. eapply must_trimmed; exact Hi.
    + apply Forall_flat_map. eapply Forall_impl; [|exact H9]. now intros x [].
  - unfold indexes_per. apply Forall_app. split; [eapply dim_trims; exact H10|]. apply Forall_flat_map. eapply Forall_impl; [|exact H9]. now intros x [].
Qed.
(** Every description that was read from a file has trimmed texts. *)
Theorem C54_read_trimmed doc ws d : parse_device doc = (ws, Ok d) -> Trimmed d.
Proof.
  intros H. assert (R : reads_device doc d) by (apply C28_reads; eauto).
  destruct R as (_ & _ & H1 & H2 & H3 & H4 & H5 & _ & _ & HC & H6 & H7 & _ & _ & _ & ps & _ & HP).
  assert (HP' : Forall (fun p => trims (texts_per p) /\ trims (indexes_per p)) (sdv_periphs d)) by (eapply children_all; [|exact HP]; apply per_trims).
  constructor.
  - unfold texts_device. trim.
    + destruct HC as [[_ ->]|(c & v & _ & (_ & HR & _) & ->)]; [constructor|]. cbn. constructor; [eapply must_trimmed; exact HR|constructor].
    + apply Forall_flat_map. eapply Forall_impl; [|exact HP']. now intros x [].
  - unfold indexes_device. apply Forall_flat_map. eapply Forall_impl; [|exact HP']. now intros x [].
  - unfold sau_names. destruct HC as [[_ ->]|(c & v & _ & HR & ->)]; [constructor|]. cbn [opt_list flat_map]. rewrite app_nil_r.
    destruct HR as (_ & _ & _ & _ & _ & _ & _ & _ & _ & _ & _ & _ & _ & _ & _ & _ & HS). destruct HS as [[_ ->]|(c' & s & _ & (_ & _ & HS) & ->)]; [constructor|]. cbn [opt_list flat_map]. rewrite app_nil_r.
    apply Forall_flat_map. eapply children_all; [|exact HS]. intros x r (_ & Hr & _). cbn. eapply attr_trimmed; exact Hr.
Qed.

(** ** From file to file *)
(** A description without empty texts is read from a file and accepted.  Writing the processed device to a file and reading that
    file again succeeds: the description read shows the whole device, and processing it gives [again_dev dev] precisely when [dev]
    is one whose description can be processed again. *)
Theorem C54_file_to_file : forall doc0 w0 d ws dev w doc doc',
  parse_device doc0 = (w0, Ok d) -> Filled d -> Processes d ws dev -> dv_periphs dev <> [] ->
  serialize_device (conv_device dev) = (w, Ok doc) -> RereadDoc doc doc' ->
  exists w' s, parse_device doc' = (w', Ok s) /\ shows_device s dev /\
    forall dev', (exists ws', Processes s ws' dev') <-> Rereadable dev /\ dev' = again_dev dev.
Proof.
  intros doc0 w0 d ws dev w doc doc' H0 F HP Hne Hs Hr. assert (T := C54_read_trimmed _ _ _ H0).
  destruct (conv_device_ok _ _ _ T F HP Hne) as [HF HN]. destruct (C27_round_trip_partial _ _ _ _ HN HF Hs Hr) as [w' Hp].
  exists w', (conv_device dev). split; [exact Hp|]. split; [apply C30_shows_everything|]. exact (C31_again _ _ _ HP).
Qed.

(** If moreover no name still carries a placeholder, enumerated value names are distinct and sizes are the largest ones, the device that
    was written is the device that is read; in any case the registers are the same, up to enumerated values of equal name. *)
Theorem C54_same_device : forall doc0 w0 d ws dev w doc doc',
  parse_device doc0 = (w0, Ok d) -> Filled d -> Processes d ws dev -> Rereadable dev ->
  serialize_device (conv_device dev) = (w, Ok doc) -> RereadDoc doc doc' ->
  exists w' s ws' dev', parse_device doc' = (w', Ok s) /\ Processes s ws' dev' /\
    (Settled dev -> dev' = dev) /\
    map (fun p => (pr_b p, map (fun r => (r_b r, r_props r, r_base r, map (fun f => (f_b f, f_access f)) (r_fields r))) (pr_regs p))) (dv_periphs dev') =
    map (fun p => (pr_b p, map (fun r => (r_b r, r_props r, r_base r, map (fun f => (f_b f, f_access f)) (r_fields r))) (pr_regs p))) (dv_periphs dev).
Proof.
  intros doc0 w0 d ws dev w doc doc' H0 F HP HR Hs Hr.
  destruct (C54_file_to_file _ _ _ _ _ _ _ _ H0 F HP (rd_some _ HR) Hs Hr) as (w' & s & Hp & _ & HI).
  destruct (proj2 (HI (again_dev dev)) (conj HR eq_refl)) as [ws' HP']. exists w', s, ws', (again_dev dev). split; [exact Hp|]. split; [exact HP'|]. split.
  - intros HS. destruct (proj2 (C31_identity_iff _ _ _ HP) (conj HR HS)) as [ws2 H2]. destruct (proj1 (C31_again _ _ _ HP dev) (ex_intro (fun w => Processes _ w _) ws2 H2)) as [_ E]. now symmetry.
  - cbn [again_dev dv_periphs]. rewrite map_map. apply map_ext. intros p. cbn [again_per pr_b pr_regs]. f_equal. rewrite map_map. apply map_ext. intros r.
    cbn [again_reg r_b r_props r_base r_fields]. f_equal. rewrite map_map. apply map_ext. intros f. reflexivity.
Qed.

(** ** A file that meets the hypotheses, and files that do not *)
Definition file_of (d : svd_device) : xml_doc := mk_doc (doc_nsmap (device_xml d)) (reread (doc_root (device_xml d))).
Definition listed (name index : string) (n : Z) : svd_rc := s_reg_dim (mk_sdim (Some n) (Some 4) (Some index) None None) noprops name 0 [] None None.
Definition export_sample : svd_device :=
  s_dev [s_per "Q" 8192 [] None (Some "P"); s_per "P" 4096 [listed "%s" "A, B" 2;
    s_reg "R" 16 [s_field "F" (Some 0) (Some 1) None [s_evc None [s_ev "on" "0b1x"; mk_sev "rest" None None (Some true)] None] None] None None] None None].
Definition outcome (d : svd_device) : device := the_device (process_device 20 d).
Example C54_sample :
  exists w0 ws w doc doc', parse_device (file_of export_sample) = (w0, Ok export_sample) /\ Filled export_sample /\
    Processes export_sample ws (outcome export_sample) /\ Rereadable (outcome export_sample) /\
    serialize_device (conv_device (outcome export_sample)) = (w, Ok doc) /\ RereadDoc doc doc' /\
    outline (outcome export_sample) = [("P", [("A", 4096); ("B", 4100); ("R", 4112)]); ("Q", [("A", 8192); ("B", 8196); ("R", 8208)])].
Proof.
  assert (HP : exists ws, Processes export_sample ws (outcome export_sample)) by (eexists; exists 20%nat; unfold outcome, the_device; vm_compute; reflexivity).
  destruct HP as [ws HP].
  eexists _, ws, _, (device_xml (conv_device (outcome export_sample))), (file_of (conv_device (outcome export_sample))). split; [vm_compute; reflexivity|]. split; [|split; [exact HP|split; [|split; [|split]]]].
  - constructor; vm_compute; repeat (constructor; [try discriminate|]); try constructor; try discriminate; intuition discriminate.
  - apply (C31_again _ _ _ HP (outcome (conv_device (outcome export_sample)))). eexists. exists 20%nat. unfold outcome, the_device. vm_compute. reflexivity.
  - vm_compute. reflexivity.
  - split; [reflexivity|]. apply reread_ok. vm_compute. reflexivity.
  - vm_compute. reflexivity.
Qed.

(** A part of a dimIndex that is empty makes an empty name, and the file that is written cannot be read; an empty display name is lost. *)
Definition empty_part : svd_device := s_dev [s_per "P" 4096 [listed "%s" "A,B,,C" 4] None None].
Definition empty_display : svd_device :=
  s_dev [s_per "P" 4096 [SReg (mk_sreg nodim noprops "R" (Some "") None None None 0 None None None None [] None)] None None].
Definition blank_file : xml_doc :=
  let d := device_xml (s_dev [s_per "P" 4096 [SReg (mk_sreg nodim noprops "R" (Some " ") None None None 0 None None None None [] None)] None None] ) in
  mk_doc (doc_nsmap d) (reread (doc_root d)).
Theorem C54_empty_refuted :
  (exists w0 ws w doc doc' w' e, parse_device (file_of empty_part) = (w0, Ok empty_part) /\ Processes empty_part ws (outcome empty_part) /\
     dv_periphs (outcome empty_part) <> [] /\ serialize_device (conv_device (outcome empty_part)) = (w, Ok doc) /\ RereadDoc doc doc' /\
     parse_device doc' = (w', Err e) /\ ex_class e = ParserException) /\
  (exists w0 ws w doc doc' w' s, parse_device blank_file = (w0, Ok empty_display) /\ Processes empty_display ws (outcome empty_display) /\
     dv_periphs (outcome empty_display) <> [] /\ serialize_device (conv_device (outcome empty_display)) = (w, Ok doc) /\ RereadDoc doc doc' /\
     parse_device doc' = (w', Ok s) /\ ~ shows_device s (outcome empty_display)).
Proof.
  split.
  - eexists _, _, _, (device_xml (conv_device (outcome empty_part))), (file_of (conv_device (outcome empty_part))), _, _. split; [vm_compute; reflexivity|].
    split; [exists 20%nat; unfold outcome, the_device; vm_compute; reflexivity|]. split; [vm_compute; discriminate|]. split; [vm_compute; reflexivity|].
    split; [split; [reflexivity|apply reread_ok; vm_compute; reflexivity]|]. split; vm_compute; reflexivity.
  - eexists _, _, _, (device_xml (conv_device (outcome empty_display))), (file_of (conv_device (outcome empty_display))), _, _. split; [vm_compute; reflexivity|].
    split; [exists 20%nat; unfold outcome, the_device; vm_compute; reflexivity|]. split; [vm_compute; discriminate|]. split; [vm_compute; reflexivity|].
    split; [split; [reflexivity|apply reread_ok; vm_compute; reflexivity]|]. split; [vm_compute; reflexivity|]. intros (_ & _ & _ & _ & _ & _ & _ & _ & _ & _ & _ & _ & _ & H).
    vm_compute in H. apply Forall2_head in H as (_ & _ & _ & _ & _ & _ & _ & _ & _ & _ & _ & _ & _ & _ & _ & H).
    apply Forall2_head in H. inversion H as [s r (_ & _ & _ & E & _)|]; subst. discriminate E.
Qed.

Print Assumptions C54_read_trimmed.
Print Assumptions C54_file_to_file.
Print Assumptions C54_same_device.
Print Assumptions C54_empty_refuted.
