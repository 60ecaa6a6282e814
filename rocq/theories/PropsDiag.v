(** * PropsDiag: diagnostics about single elements (C44) and structural rejections (C45). *)
From Verif Require Import Base PyStr PyInt Types ElemModel FinalModel ResolveModel ProcessModel SpecProcess SpecDevice SpecImage.
From Verif Require Import FinalFacts OverlapFacts2 DiagFacts EffectFacts Samples PropsDevice PropsCheck.
From Coq Require Import ZifyBool.

(** ** C44 *)
(** [b] follows [a] immediately in [l] *)
Definition Adjacent {A} (l : list A) (a b : A) : Prop := exists l1 l2, l = l1 ++ a :: b :: l2.

(** every element of the processed device with one of these defects is reported *)
Theorem C44_defects_reported : forall d ws dev, Processes d ws dev -> forall p, In p (dv_periphs dev) ->
  (pb_base (pr_b p) mod 4 <> 0 -> In (W_PeriphUnaligned (pb_name (pr_b p))) ws) /\
  (forall a b, Adjacent (pb_abs (pr_b p)) a b -> ab_offset b < ab_offset a + ab_size a ->
     In (W_AddrBlockOverlap (ab_offset b) (ab_offset a)) ws) /\
  (forall o x, Below (pr_rcs p) o x -> ~ aligned x -> In (W_RcUnaligned (el_name x)) ws) /\
  (forall o r f, Below (pr_rcs p) o (Reg r) -> In f (r_fields r) -> p_size (r_props r) <= fb_msb (f_b f) ->
     In (W_FieldExceeds (fb_name (f_b f)) (fb_msb (f_b f)) (p_size (r_props r))) ws).
Proof.
  intros d ws dev H p Hp. destruct (processes_inv _ _ _ H) as (i & w1 & w2 & HR & Hf & ->).
  destruct (finalize_diag _ _ _ Hf) as [F _]. destruct (F p Hp) as [F1 F2]. split; [|split; [|split]].
  - intros Hm. apply in_or_app. right. apply F2. left. now split.
  - intros a b (l1 & l2 & E) Hl. apply in_or_app. right. apply F2. right. exists l1, a, b, l2. auto.
  - intros o x Hb Ha. apply in_or_app. right. eapply F1; [exact Hb|]. left. split; [reflexivity|].
    unfold aligned, own_offset in Ha. unfold el_offset, needed_alignment. exact Ha.
  - intros o r f Hb Hin Hl. apply in_or_app. right. eapply F1; [exact Hb|]. right. exists r, f. auto.
Qed.

(** conversely these warnings are about elements with the defect; unless a peripheral was dropped because of its size, or (for the
    unaligned registers and clusters) a reserved register or an empty cluster was dropped: the warnings of dropped elements remain *)
Theorem C44_diagnostics_justified : forall d ws dev, Processes d ws dev ->
  (forall n, ~ In (W_PeriphSize n) ws) ->
  (forall n, In (W_PeriphUnaligned n) ws -> exists p, In p (dv_periphs dev) /\ pb_name (pr_b p) = n /\ pb_base (pr_b p) mod 4 <> 0) /\
  (forall u v, In (W_AddrBlockOverlap u v) ws -> exists p a b, In p (dv_periphs dev) /\ Adjacent (pb_abs (pr_b p)) a b /\
     ab_offset b < ab_offset a + ab_size a /\ u = ab_offset b /\ v = ab_offset a) /\
  (forall n m s, In (W_FieldExceeds n m s) ws -> exists p o r f, In p (dv_periphs dev) /\ Below (pr_rcs p) o (Reg r) /\
     In f (r_fields r) /\ fb_name (f_b f) = n /\ fb_msb (f_b f) = m /\ p_size (r_props r) = s /\ s <= m) /\
  (~ In W_RegReserved ws -> (forall n, ~ In (W_ClusterEmpty n) ws) ->
   forall n, In (W_RcUnaligned n) ws -> exists p o x, In p (dv_periphs dev) /\ Below (pr_rcs p) o x /\ el_name x = n /\ ~ aligned x).
Proof.
  intros d ws dev H Hns. destruct (processes_inv _ _ _ H) as (i & w1 & w2 & HR & Hf & ->).
  destruct (finalize_diag _ _ _ Hf) as [_ F]. assert (Hrw := resolver_warnings _ _ _ HR).
  assert (Hn2 : forall n, ~ In (W_PeriphSize n) w2). { intros n Hi. apply (Hns n). apply in_or_app. now right. }
  split; [|split; [|split]].
  - intros n Hi. apply (in_fin_warn _ _ _ Hrw) in Hi; [|exact (fun x => x)].
    destruct (F _ Hi (or_introl I)) as [(q & Hq & [[(E & Hm)|(l1 & a & b & l2 & _ & _ & E)]|(o & z & _ & [(E & _)|(r & f & _ & _ & _ & E)])])|[(n' & Hs)|[[] _]]]; try discriminate.
    + injection E as E. exists q. auto.
    + now apply Hn2 in Hs.
  - intros u v Hi. apply (in_fin_warn _ _ _ Hrw) in Hi; [|exact (fun x => x)].
    destruct (F _ Hi (or_introl I)) as [(q & Hq & [[(E & Hm)|(l1 & a & b & l2 & Hab & Hl & E)]|(o & z & _ & [(E & _)|(r & f & _ & _ & _ & E)])])|[(n' & Hs)|[[] _]]]; try discriminate.
    + injection E as -> ->. exists q, a, b. split; [exact Hq|]. split; [exists l1, l2; exact Hab|]. auto.
    + now apply Hn2 in Hs.
  - intros n m s Hi. apply (in_fin_warn _ _ _ Hrw) in Hi; [|exact (fun x => x)].
    destruct (F _ Hi (or_intror I)) as [(q & Hq & [[(E & Hm)|(l1 & a & b & l2 & Hab & Hl & E)]|(o & z & Hb & [(E & _)|(r & f & -> & Hin & Hl & E)])])|[(n' & Hs)|[[] _]]]; try discriminate.
    + injection E as -> -> ->. exists q, o, r, f. auto 8.
    + now apply Hn2 in Hs.
  - intros Hr Hc n Hi. apply (in_fin_warn _ _ _ Hrw) in Hi; [|exact (fun x => x)].
    destruct (F _ Hi (or_intror I)) as [(q & Hq & [[(E & Hm)|(l1 & a & b & l2 & Hab & Hl & E)]|(o & z & Hb & [(E & Hm)|(r & f & -> & Hin & Hl & E)])])|[(n' & Hs)|[_ [Hd|[n' Hd]]]]]; try discriminate.
    + injection E as ->. exists q, o, z. split; [exact Hq|]. split; [exact Hb|]. split; [reflexivity|]. unfold aligned, own_offset. unfold el_offset, needed_alignment in Hm. exact Hm.
    + now apply Hn2 in Hs.
    + elim Hr. apply in_or_app. now right.
    + elim (Hc n'). apply in_or_app. now right.
Qed.

(** a peripheral at 0x1002 with overlapping address blocks, an unaligned register and a field beyond bit 31 *)
Definition diag_sample := s_dev [
  mk_sper nodim noprops "P" None None None None None None None None 4098
    [mk_sab 0 64 AB_REGISTERS None; mk_sab 32 64 AB_REGISTERS None] []
    [s_reg "R" 2 [s_field "F" (Some 30) (Some 33) None [] None] None None; s_reg "S" 8 [] None None] None].
Example C44_nonvacuous : exists dev, Processes diag_sample [W_RcUnaligned "R"; W_FieldExceeds "F" 33 32 ; W_PeriphUnaligned "P"; W_AddrBlockOverlap 32 0] dev.
Proof. eexists. exists 20%nat. vm_compute. reflexivity. Qed.

(** ** C45 *)
(** an accepted device has no peripheral without address blocks or registers, no cluster without registers, no register with both an
    alternate register and an alternate group, and no register or field named "reserved" *)
Theorem C45_accepted_structure : forall d ws dev, Processes d ws dev -> forall p, In p (dv_periphs dev) ->
  pb_abs (pr_b p) <> [] /\ pr_rcs p <> [] /\
  (forall o c ch, Below (pr_rcs p) o (Clu c ch) -> ch <> []) /\
  (forall o r, Below (pr_rcs p) o (Reg r) -> (rb_altreg (r_b r) = None \/ rb_altgroup (r_b r) = None) /\
     lower (rb_name (r_b r)) <> "reserved" /\ forall f, In f (r_fields r) -> lower (fb_name (f_b f)) <> "reserved").
Proof.
  intros d ws dev H p Hp. destruct (processes_good _ _ _ H) as [G _]. destruct (gd_pers _ G p Hp) as [? ? ? ? ? ? ? ? ? ?].
  split; [assumption|]. split; [assumption|]. split.
  - intros o c ch Hb. destruct (per_below _ _ _ _ G Hp Hb) as (b & Hg & _). inversion Hg; subst. assumption.
  - intros o r Hb. destruct (per_below _ _ _ _ G Hp Hb) as (b & Hg & _).
    inversion Hg as [? ? _ _ Hr Halt (_ & _ & _ & HF)|]; subst. split; [exact Halt|]. split.
    + intros E. unfold is_reserved in Hr. rewrite E in Hr. discriminate.
    + intros f Hf E. rewrite Forall_forall in HF. destruct (HF f Hf) as [Hres _]. unfold is_reserved, f_name in Hres. rewrite E in Hres. discriminate.
Qed.

(** a register that names both alternates is rejected with ProcessException wherever it is (unless dropped for its name or size) *)
Theorem C45_both_alternates_rejected : forall r base s a g, op_size (ir_props r) = Some s -> In s [8; 16; 32; 64; 128] ->
  lower (rb_name (ir_b r)) <> "reserved" -> rb_altreg (ir_b r) = Some a -> rb_altgroup (ir_b r) = Some g ->
  exists ws e, fin_rc (IReg r) base = (ws, Err e) /\ ex_class e = ProcessException.
Proof.
  intros r base s a g Hs Hm Hn Ha Hg. cbn [fin_rc irc_props irc_offset irc_name]. rewrite Hs.
  assert (Hr : is_reserved (rb_name (ir_b r)) = false).
  { unfold is_reserved. destruct (String.eqb _ _) eqn:E; [|reflexivity]. apply String.eqb_eq in E. contradiction. }
  rewrite Hr, Ha, Hg. cbn in Hm.
  destruct Hm as [<-|[<-|[<-|[<-|[<-|[]]]]]]; 
    match goal with |- context [to_byte ?s] => change (negb (s mod 8 =? 0)) with false; change (to_byte s) with (@ret Z (s / 8)) end; rewrite bind_ret_l;
    match goal with |- context [get_alignment ?s] => let v := eval vm_compute in (get_alignment s) in change (get_alignment s) with v end;
    unfold bind, warn_if, raise_if; cbn -[Z.modulo]; destruct (negb _); eexists; eexists; split; reflexivity.
Qed.

(** a peripheral with registers but without address blocks is rejected with ProcessException (unless dropped for its size) *)
Theorem C45_no_blocks_rejected : forall p ws rcs s, fin_rcs (fun y => fin_rc y (pb_base (ip_b p))) (ip_rcs p) = (ws, Ok rcs) -> rcs <> [] ->
  op_size (ip_props p) = Some s -> s mod 8 = 0 -> pb_abs (ip_b p) = [] ->
  exists ws' e, fin_per p = (ws', Err e) /\ ex_class e = ProcessException.
Proof.
  intros p ws rcs s Hr Hne Hs H8 Ha. unfold fin_per. rewrite Hr. cbn [bind]. destruct rcs as [|x rcs]; [congruence|].
  rewrite Hs, Ha. destruct (s mod 8 =? 0) eqn:E; [|lia]. cbn. destruct (negb (pb_base (ip_b p) mod 4 =? 0)); cbn; eexists; eexists; split; reflexivity.
Qed.

Example C45_nonvacuous :
  Rejects (s_dev [s_per "P" 0 [SReg (mk_sreg nodim noprops "R" None None (Some "g") (Some "S") 0 None None None None [] None)] None None])
    (E ProcessException "Register cannot have both alternate_register and alternate_group") /\
  Rejects (s_dev [mk_sper nodim noprops "P" None None None None None None None None 0 [] [] [s_reg "R" 0 [] None None] None])
    (E ProcessException "Peripheral has no address blocks").
Proof. split; exists 20%nat; eexists; (split; [vm_compute; reflexivity|discriminate]). Qed.

Print Assumptions C44_defects_reported.
Print Assumptions C44_diagnostics_justified.
Print Assumptions C45_accepted_structure.
Print Assumptions C45_both_alternates_rejected.
Print Assumptions C45_no_blocks_rejected.
