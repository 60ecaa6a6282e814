(** * SchemaKept: valid documents survive being written and read again (for C58) *)
From Verif Require Import Base PyStr PyInt Types ParseModel SpecText SpecParse SpecSchema SpecConform SpecRoundTrip SerializeModel TextFacts
  PropsText PropsParse PropsRoundTrip SpecExport PropsExport SchemaFacts SchemaText SchemaRead.

(** a file holds no element with an empty text: libxml2 gives no text then *)
Definition FromFile (doc : xml_doc) : Prop := forall e, Within (doc_root doc) e -> xml_text e <> Some "".

Lemma otxt_full ty o : otxt ty o -> nullable (language Rewritable ty) = false -> ok_raw o.
Proof. intros H Hn s Hs. eapply simple_nonempty; [exact (H s Hs)|exact Hn]. Qed.
Lemma text_ok ty n e o : Text n e o -> otxt ty o -> nullable (language Rewritable ty) = false -> ok_text o.
Proof.
  intros Ht Ho Hn s ->. split; [eapply simple_nonempty; [exact (Ho s eq_refl)|exact Hn]|]. apply text_trimmed in Ht. now inversion Ht.
Qed.
Lemma attr_ok n e o : Attr n e o -> ok_attr o.
Proof. intros Ht s ->. apply attr_trimmed in Ht. now inversion Ht. Qed.
Lemma must_ok n e v : Must Is n e v -> trimmed v.
Proof. apply must_trimmed. Qed.
Lemma txt_full ty s : txt ty s -> nullable (language Rewritable ty) = false -> s <> "".
Proof. intros H Hn. eapply simple_nonempty; eauto. Qed.
Lemma forall2_and {A B} (R : A -> B -> Prop) (C P : B -> Prop) l m : (forall a b, R a b -> C b -> P b) -> Forall2 R l m -> Forall C m -> Forall P m.
Proof. intros H H2. induction H2; intros HC; constructor; inversion HC; subst; eauto. Qed.
Lemma children_and {A} n (R : xml -> A -> Prop) (C P : A -> Prop) e l : (forall c a, R c a -> C a -> P a) -> Children n R e l -> Forall C l -> Forall P l.
Proof. intros H (es & _ & H2). eapply forall2_and; eauto. Qed.
Ltac nn := vm_compute; reflexivity.

Lemma ev_kept e v : reads_ev e v -> conform_ev v -> faithful_ev v /\ sev_name v <> "".
Proof.
  intros (R1 & R2 & R3 & R4) (C1 & C2 & C3 & C4). split; [|eapply txt_full; [exact C1|nn]].
  split; [eapply must_ok; eauto|]. split; [eapply otxt_full; [exact C2|nn]|]. eapply text_ok; [exact R3|exact C3|nn].
Qed.
Lemma evs_kept n e l : Children n reads_ev e l -> Forall conform_ev l -> Forall faithful_ev l /\ Forall (fun v => sev_name v <> "") l.
Proof.
  intros H C. split; (eapply children_and; [|exact H|exact C]); intros c a Hr Hc; now destruct (ev_kept _ _ Hr Hc).
Qed.
Lemma dim_kept e d : reads_dim e d -> conform_dim d -> faithful_dim d /\ named_dim d.
Proof.
  intros (R1 & R2 & R3 & R4 & R5) (C1 & C2 & C3 & C4 & C5 & C6 & C7). unfold faithful_dim, named_dim.
  assert (Hd : forall i, sd_dai d = Some i -> (ok_text (sdai_header i) /\ Forall faithful_ev (sdai_evs i)) /\ Forall (fun v => sev_name v <> "") (sdai_evs i)).
  { intros i Hi. rewrite Hi in R5. destruct R5 as [[_ Hq]|(c & v & _ & (Rh & Re) & Hq)]; [discriminate|]. injection Hq as <-.
    destruct (C6 i Hi) as (Ch & _ & Ce). destruct (evs_kept _ _ _ Re Ce) as [F N]. split; [split; [eapply text_ok; [exact Rh|exact Ch|nn]|exact F]|exact N]. }
  split; [split; [eapply text_ok; [exact R3|exact C4|nn]|split; [eapply text_ok; [exact R4|exact C5|nn]|intros i Hi; now apply Hd]]|].
  destruct (sd_dai d) as [i|]; [now apply Hd|exact Logic.I].
Qed.
Lemma evc_kept e c : reads_evc e c -> conform_evc c -> faithful_evc c /\ Forall (fun v => sev_name v <> "") (sevc_evs c).
Proof.
  intros (R1 & R2 & R3 & R4 & R5) (C1 & C2 & C3 & C4). destruct (evs_kept _ _ _ R5 C4) as [F N]. split; [|exact N].
  split; [eapply text_ok; [exact R2|exact C2|nn]|]. split; [eapply text_ok; [exact R3|exact C3|nn]|]. split; [eapply attr_ok; eauto|exact F].
Qed.
Lemma field_kept e f : reads_field e f -> conform_field f -> faithful_field f /\ named_field f.
Proof.
  intros (R1 & R2 & R3 & R4 & R5 & R6 & R7 & R8 & R9 & R10 & R11 & R12 & R13 & R14) (C1 & C2 & C3 & C4 & C5 & C6 & C7 & C8).
  destruct (dim_kept _ _ R14 C2) as [FD ND]. destruct C5 as (_ & _ & _ & _ & B1 & B2). split.
  - split; [exact FD|]. split; [eapply must_ok; eauto|]. split; [eapply otxt_full; [exact C4|nn]|]. unfold ok_pair.
    split; [|split; [|split; [eapply text_ok; [exact R8|exact B1|nn]|]]].
    1,2: destruct (sf_lsb f), (sf_msb f), (sf_bit_offset f), (sf_bit_width f), (sf_bit_range f); try contradiction; split; congruence.
    split; [|eapply attr_ok; eauto]. eapply children_and; [|exact R13|exact C7]. intros c a Hr Hc. now destruct (evc_kept _ _ Hr Hc).
  - split; [eapply txt_full; [exact C3|nn]|]. split; [exact ND|]. eapply children_and; [|exact R13|exact C7]. intros c a Hr Hc. now destruct (evc_kept _ _ Hr Hc).
Qed.
Lemma sections_and {A} s n (R : xml -> A -> Prop) (C P : A -> Prop) e l :
  (forall c a, R c a -> C a -> P a) -> Sections s n R e l -> Forall C l -> Forall P l.
Proof.
  intros H (secs & parts & _ & H2 & ->). intros HC. clear e. induction H2 as [|x y l m Hxy _ IH]; cbn in *; [constructor|].
  apply Forall_app in HC as [H3 H4]. apply Forall_app. split; [eapply children_and; eauto|auto].
Qed.
Lemma reg_kept e r : reads_reg e r -> conform_reg r -> faithful_reg r /\ named_reg r.
Proof.
  intros (R1 & R2 & R3 & R4 & R5 & R6 & R7 & R8 & R9 & R10 & R11 & R12 & R13 & R14)
    (C1 & C2 & C3 & C4 & C5 & C6 & C7 & C8 & C9 & C10 & C11 & C12).
  destruct (dim_kept _ _ R13 C2) as [FD ND].
  assert (HF : forall c f, reads_field c f -> conform_field f -> faithful_field f) by (intros c f Hr Hc; now destruct (field_kept _ _ Hr Hc)).
  assert (HN : forall c f, reads_field c f -> conform_field f -> named_field f) by (intros c f Hr Hc; now destruct (field_kept _ _ Hr Hc)).
  split.
  - split; [exact FD|]. split; [eapply must_ok; eauto|]. split; [eapply text_ok; [exact R3|exact C4|nn]|]. split; [eapply otxt_full; [exact C5|nn]|].
    split; [eapply text_ok; [exact R5|exact C6|nn]|]. split; [eapply text_ok; [exact R6|exact C7|nn]|].
    split; [eapply sections_and; [exact HF|exact R12|exact C12]|eapply attr_ok; eauto].
  - split; [eapply txt_full; [exact C3|nn]|]. split; [exact ND|eapply sections_and; [exact HN|exact R12|exact C12]].
Qed.
Lemma clu_kept e c : reads_clu e c -> conform_clu c -> faithful_clu c /\ sc_name c <> "" /\ named_dim (sc_dim c).
Proof.
  intros (R1 & R2 & R3 & R4 & R5 & R6 & R7 & R8) (C1 & C2 & C3 & C4 & C5 & C6 & C7 & C8 & C9). destruct (dim_kept _ _ R7 C2) as [FD ND]. split.
  - split; [exact FD|]. split; [eapply must_ok; eauto|]. split; [eapply otxt_full; [exact C4|nn]|].
    split; [eapply text_ok; [exact R4|exact C6|nn]|]. split; [eapply text_ok; [exact R5|exact C7|nn]|eapply attr_ok; eauto].
  - split; [eapply txt_full; [exact C3|nn]|exact ND].
Qed.
Lemma rcs_kept l rs : reads_rcs l rs -> Forall conform_rc rs -> Forall faithful_rc rs /\ Forall named_rc rs.
Proof.
  induction 1 as [|e l r rs _ Hr _ IH|e l c ch rs _ Hc _ IH1 _ IH2|e l rs _ _ _ IH]; intros HC; [split; constructor| | |now apply IH];
    inversion HC as [|x y Hx Hy]; subst; inversion Hx as [r' Hr'|c' l' Hc' Hl']; subst.
  - destruct (reg_kept _ _ Hr Hr') as [F N]. destruct (IH Hy) as [F' N']. split; (constructor; [now constructor|assumption]).
  - destruct (clu_kept _ _ Hc Hc') as (F & N1 & N2). destruct (IH1 Hl') as [F1 F2]. destruct (IH2 Hy) as [F' N']. split; (constructor; [now constructor|assumption]).
Qed.
Lemma within_child root e c : Within root e -> In c (xml_kids e) -> Within root c.
Proof. intros. eapply within_kid; eauto. Qed.
Lemma int_kept root e i : (forall x, Within root x -> xml_text x <> Some "") -> Within root e -> reads_int e i -> conform_int i ->
  trimmed (int_name i) /\ ok_raw (int_descr i) /\ int_name i <> "".
Proof.
  intros HF Hw (R1 & R2 & _) C. split; [eapply must_ok; eauto|]. split; [|eapply txt_full; [exact C|nn]].
  intros s Hs ->. destruct R2 as (_ & [[_ Hq]|(c & Hl & Ht)]); [congruence|]. destruct Hl as (l1 & l2 & Hk & _).
  apply (HF c); [|congruence]. eapply within_kid; [exact Hw|]. rewrite Hk. apply in_app_iff. right. now left.
Qed.
Lemma all_named_in n l es c : AllNamed n l es -> In c es -> In c l.
Proof. intros H Hi. apply all_named_iff in H. subst. now apply filter_In in Hi. Qed.
Lemma per_kept root e p : (forall x, Within root x -> xml_text x <> Some "") -> Within root e -> reads_per e p -> conform_per p ->
  faithful_per p /\ named_per p.
Proof.
  intros HF Hw (R1 & R2 & R3 & R4 & R5 & R6 & R7 & R8 & R9 & R10 & R11 & R12 & R13 & (secs & _ & R14) & R15 & R16)
    (C1 & C2 & C3 & C4 & C5 & C6 & C7 & C8 & C9 & C10 & C11 & C12 & C13 & C14 & C15 & C16).
  destruct (dim_kept _ _ R15 C2) as [FD ND]. destruct (rcs_kept _ _ R14 C16) as [FR NR].
  assert (HI : Forall (fun i => trimmed (int_name i) /\ ok_raw (int_descr i) /\ int_name i <> "") (sp_ints p)).
  { destruct R13 as (es & Ha & Hf). assert (He : forall c, In c es -> Within root c) by (intros c Hc; eapply within_kid; [exact Hw|eapply all_named_in; eauto]).
    clear -HF He Hf C15. induction Hf as [|x y l m Hxy _ IH]; [constructor|]. inversion C15; subst. constructor; [|apply IH; auto; intros c Hc; apply He; now right].
    eapply int_kept; eauto. apply He. now left. }
  split.
  - split; [exact FD|]. split; [eapply must_ok; eauto|]. split; [eapply text_ok; [exact R3|exact C4|nn]|]. split; [eapply otxt_full; [exact C5|nn]|].
    split; [eapply text_ok; [exact R5|exact C6|nn]|]. split; [eapply text_ok; [exact R6|exact C7|nn]|]. split; [eapply text_ok; [exact R7|exact C8|nn]|].
    split; [eapply text_ok; [exact R8|exact C9|nn]|]. split; [eapply text_ok; [exact R9|exact C10|nn]|]. split; [eapply otxt_full; [exact C11|nn]|].
    split; [eapply Forall_impl; [|exact HI]; intros a (Ha & Hb & Hc); auto|]. split; [exact FR|eapply attr_ok; eauto].
  - split; [eapply txt_full; [exact C3|nn]|]. split; [exact ND|]. split; [eapply Forall_impl; [|exact HI]; intros a (Ha & Hb & Hc); auto|exact NR].
Qed.
Lemma device_kept doc d : FromFile doc -> reads_device doc d -> conform_device d -> faithful_device d /\ named_device d.
Proof.
  intros HF (R0 & R1 & R2 & R3 & R4 & R5 & R6 & R7 & R8 & R9 & R10 & R11 & R12 & R13 & R14 & (ps & Hps & R15))
    (C1 & C2 & C3 & C4 & C5 & C6 & C7 & C8 & C9 & C10 & C11 & C12 & C13 & C14 & C15 & C16).
  assert (HP : Forall (fun p => faithful_per p /\ named_per p) (sdv_periphs d)).
  { assert (Hw : Within (doc_root doc) ps).
    { eapply within_kid; [constructor|]. destruct Hps as (l1 & l2 & Hk & _). rewrite Hk. apply in_app_iff. right. now left. }
    destruct R15 as (es & Ha & Hf). assert (He : forall c, In c es -> Within (doc_root doc) c) by (intros c Hc; eapply within_kid; [exact Hw|eapply all_named_in; eauto]).
    clear -HF He Hf C16. induction Hf as [|x y l m Hxy _ IH]; [constructor|]. inversion C16; subst. constructor; [|apply IH; auto; intros c Hc; apply He; now right].
    eapply per_kept; eauto. apply He. now left. }
  assert (HC : forall c, sdv_cpu d = Some c -> faithful_cpu c /\ scpu_rev c <> "").
  { intros c Hc. rewrite Hc in R9. destruct R9 as [[_ Hq]|(x & v & _ & Hr & Hq)]; [discriminate|]. injection Hq as <-.
    destruct (C9 c Hc) as (Cr & _). destruct Hr as (_ & Hrev & Hr). do 14 (destruct Hr as [_ Hr]). split; [|eapply txt_full; [exact Cr|nn]].
    split; [eapply must_ok; eauto|]. intros s Hs. rewrite Hs in Hr. destruct Hr as [[_ Hq]|(y & v & _ & (_ & _ & Hr) & Hq)]; [discriminate|]. injection Hq as <-.
    eapply children_all; [|exact Hr]. intros z r (_ & Ha & _). eapply attr_ok; eauto. }
  split.
  - split.
    { destruct R0 as (u & _ & Hu). destruct u as [uri|]; [|subst; rewrite Hu; reflexivity]. destruct Hu as (o & Ho & He). destruct o as [s|]; cbn in He; rewrite He; [|reflexivity].
      apply attr_trimmed in Ho. now inversion Ho. }
    split; [apply attr_trimmed in R1; now inversion R1|]. split; [eapply text_ok; [exact R2|exact C2|nn]|]. split; [eapply text_ok; [exact R3|exact C3|nn]|].
    split; [eapply must_ok; eauto|]. split; [eapply text_ok; [exact R5|exact C5|nn]|]. split; [eapply must_ok; eauto|].
    split; [eapply otxt_full; [exact C8|nn]|]. split; [intros c Hc; now apply HC|]. split; [eapply text_ok; [exact R10|exact C10|nn]|].
    split; [eapply text_ok; [exact R11|exact C11|nn]|]. eapply Forall_impl; [|exact HP]. intros a [Ha Hb]; assumption.
  - split; [eapply txt_full; [exact C4|nn]|]. split; [eapply txt_full; [exact C6|nn]|]. split; [intros c Hc; now apply HC|]. split; [exact C15|].
    eapply Forall_impl; [|exact HP]. intros a [Ha Hb]; assumption.
Qed.
