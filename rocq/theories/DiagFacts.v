(** * DiagFacts: the diagnostics of the finalization pass about single elements (alignment, field outside of its register,
    overlapping address blocks). *)
From Verif Require Import Base PyStr PyInt Types FinalModel SpecDevice FinalFacts OverlapFacts OverlapFacts2.
From Coq Require Import ZifyBool ZifyNat ZifyN.
Ltac Zify.zify_post_hook ::= Z.div_mod_to_equations.

Definition el_offset (x : rc) : Z := match x with Reg r => rb_offset (r_b r) | Clu c _ => cb_offset (c_b c) end.
(** the diagnostics about [x] itself *)
Definition Diag (x : rc) (w : warning) : Prop :=
  w = W_RcUnaligned (el_name x) /\ el_offset x mod needed_alignment (p_size (el_props x)) <> 0 \/
  exists r f, x = Reg r /\ In f (r_fields r) /\ p_size (r_props r) <= f_msb f /\ w = W_FieldExceeds (f_name f) (f_msb f) (p_size (r_props r)).
Definition is_unaligned (w : warning) : Prop := match w with W_RcUnaligned _ => True | _ => False end.
Definition is_diag (w : warning) : Prop := match w with W_RcUnaligned _ | W_FieldExceeds _ _ _ => True | _ => False end.
Definition dropping (ws : list warning) : Prop := In W_RegReserved ws \/ exists n, In (W_ClusterEmpty n) ws.

Lemma dropping_incl a b : incl a b -> dropping a -> dropping b.
Proof. intros Hi [H|[n H]]; [left|right; exists n]; apply Hi, H. Qed.

Lemma fin_fields_diag l size ws s : fin_fields l size = (ws, Ok s) -> forall d, is_diag d ->
  (In d ws <-> exists f, In f s /\ size <= f_msb f /\ d = W_FieldExceeds (f_name f) (f_msb f) size).
Proof.
  intros H d Hd. apply fin_fields_ok in H as (ys & w1 & w2 & HL & _ & -> & Hc & ->). apply check_fields_warn in Hc. subst w2.
  assert (Hno : ~ In d w1).
  { clear - HL Hd. induction HL as [|x l y ys evcs w ws Hr He Hf HL IH|x l ys ws Hr HL IH].
    - intros [].
    - intros Hin. apply in_app_or in Hin as [Hin|Hin]; [|now apply IH]. apply fin_enum_containers_warn in He. rewrite Forall_forall in He.
      destruct (He _ Hin) as (n & v & ->). exact Hd.
    - intros [<-|Hin]; [exact Hd|now apply IH]. }
  split.
  - intros Hin. apply in_app_or in Hin as [Hin|Hin]; [contradiction|]. apply in_flat_map in Hin as (f & Hf & Hw).
    unfold exceeds in Hw. destruct (size <=? f_msb f) eqn:E; [|destruct Hw]. destruct Hw as [<-|[]]. exists f. repeat split; auto. lia.
  - intros (f & Hf & Hl & ->). apply in_or_app. right. apply in_flat_map. exists f. split; [exact Hf|]. unfold exceeds.
    destruct (size <=? f_msb f) eqn:E; [now left|lia].
Qed.

Definition diag_spec (s : list rc) (w : list warning) : Prop :=
  (forall o z d, Below s o z -> Diag z d -> In d w) /\
  (forall d, In d w -> is_diag d -> (exists o z, Below s o z /\ Diag z d) \/ is_unaligned d /\ dropping w).

Lemma Below_mono l l' o x : incl l l' -> Below l o x -> Below l' o x.
Proof. intros Hi H. destruct H; [apply Below_reg|apply Below_clu|eapply Below_deep]; eauto. Qed.
Lemma Below_single l o x : Below l o x -> exists y, In y l /\ Below [y] o x.
Proof.
  intros H. destruct H as [l r Hin|l c ch Hin|l c ch o x Hin H]; eexists; (split; [exact Hin|]).
  - apply Below_reg. now left.
  - apply Below_clu. now left.
  - eapply Below_deep; [now left|exact H].
Qed.

Lemma Below_one y o z : Below [y] o z -> z = y \/ exists c ch o', y = Clu c ch /\ Below ch o' z.
Proof.
  intros H. inversion H as [l r Hin|l c ch Hin|l c ch o' x Hin H']; subst; cbn in Hin; destruct Hin as [Hin|[]]; auto.
  right. subst y. eauto.
Qed.

Lemma rc_overlaps_warn regs clus l : forall ivs ws, check_rc_overlaps regs clus ivs l = (ws, Ok tt) -> Forall is_rc_overlap ws.
Proof.
  assert (Hitem : forall item allowed alt ivs ws r, check_item item allowed alt ivs = (ws, r) -> Forall is_rc_overlap ws).
  { intros item allowed alt ivs ws r H. destruct (check_item_spec item allowed alt ivs) as (ws' & H' & Hi). rewrite H in H'. injection H' as -> _.
    apply Forall_forall. intros w Hw. apply Hi in Hw as (e & n & _ & _ & -> & _). exact I. }
  assert (Hca : forall strict alts s ws r, compute_allowed strict alts s = (ws, Ok r) -> ws = []).
  { intros strict alts s ws r. unfold compute_allowed. destruct s as [s|]; [|intros H; now apply ret_ok in H as [_ ->]].
    generalize (alternates_fuel alts) as fuel. intros fuel. generalize ([s]) as st. generalize (@nil string) as al. revert ws r.
    induction fuel as [|f IH]; intros ws r al st H; destruct st as [|c st]; cbn [alternates_loop] in H; try (now apply ret_ok in H as [_ ->]).
    - discriminate.
    - destruct (mem_str c al); [eapply IH; exact H|]. destruct (lookup c alts); [eapply IH; exact H|].
      destruct strict; [discriminate|]. eapply IH; exact H. }
  induction l as [|item l IH]; intros ivs ws H; cbn [check_rc_overlaps] in H; [apply ret_ok in H as [_ ->]; constructor|].
  destruct item as [r|c ch].
  - destruct (rb_altgroup (r_b r)); [eapply IH; exact H|].
    apply bind_ok in H as (w1 & al & w2 & H1 & H & ->). apply bind_ok in H as (w3 & [] & w4 & H3 & H & ->).
    rewrite (Hca _ _ _ _ _ H1). cbn [app]. apply Forall_app. split; [eapply Hitem; exact H3|eapply IH; exact H].
  - apply bind_ok in H as (w1 & al & w2 & H1 & H & ->). apply bind_ok in H as (w3 & [] & w4 & H3 & H & ->).
    rewrite (Hca _ _ _ _ _ H1). cbn [app]. apply Forall_app. split; [eapply Hitem; exact H3|eapply IH; exact H].
Qed.

Definition opt_list {A} (o : option A) : list A := match o with Some a => [a] | None => [] end.

Lemma fin_rcs_diag f l ws s :
  (forall x w o, In x l -> f x = (w, Ok o) -> diag_spec (opt_list o) w) -> fin_rcs f l = (ws, Ok s) -> diag_spec s ws.
Proof.
  intros Hf H. apply fin_rcs_ok in H as (ys & w1 & w2 & HL & Hn & -> & Hc & ->). apply rc_overlaps_warn in Hc.
  assert (HD : diag_spec ys w1).
  { clear - Hf HL. induction HL as [|x l y ys w ws Hx HL IH|x l ys w ws Hx HL IH].
    - split; [|intros ? []]. intros o z d Hb. apply Below_single in Hb as (y & [] & _).
    - destruct (Hf x w (Some y)) as [A1 A2]; [now left|exact Hx|]. destruct IH as [B1 B2]. { intros; eapply Hf; eauto. now right. }
      split.
      + intros o z d Hb Hd. apply in_or_app. apply Below_single in Hb as (y' & [<-|Hy'] & Hb).
        * left. eapply A1; eauto.
        * right. eapply B1; eauto. eapply Below_mono; [|exact Hb]. now intros ? [<-|[]].
      + intros d Hin Hd. apply in_app_or in Hin as [Hin|Hin].
        * destruct (A2 d Hin Hd) as [(o & z & Hb & Hz)|[Hu Hdr]].
          -- left. exists o, z. split; [|exact Hz]. eapply Below_mono; [|exact Hb]. intros ? [<-|[]]. now left.
          -- right. split; [exact Hu|]. eapply dropping_incl; [|exact Hdr]. apply incl_appl, incl_refl.
        * destruct (B2 d Hin Hd) as [(o & z & Hb & Hz)|[Hu Hdr]].
          -- left. exists o, z. split; [|exact Hz]. eapply Below_mono; [|exact Hb]. apply incl_tl, incl_refl.
          -- right. split; [exact Hu|]. eapply dropping_incl; [|exact Hdr]. apply incl_appr, incl_refl.
    - destruct (Hf x w None) as [A1 A2]; [now left|exact Hx|]. destruct IH as [B1 B2]. { intros; eapply Hf; eauto. now right. }
      split.
      + intros o z d Hb Hd. apply in_or_app. right. eapply B1; eauto.
      + intros d Hin Hd. apply in_app_or in Hin as [Hin|Hin].
        * destruct (A2 d Hin Hd) as [(o & z & Hb & Hz)|[Hu Hdr]].
          -- apply Below_single in Hb as (y & [] & _).
          -- right. split; [exact Hu|]. eapply dropping_incl; [|exact Hdr]. apply incl_appl, incl_refl.
        * destruct (B2 d Hin Hd) as [(o & z & Hb & Hz)|[Hu Hdr]].
          -- left. exists o, z. now split.
          -- right. split; [exact Hu|]. eapply dropping_incl; [|exact Hdr]. apply incl_appr, incl_refl. }
  destruct HD as [D1 D2]. split.
  - intros o z d Hb Hd. apply in_or_app. left. eapply D1; [|exact Hd]. eapply Below_mono; [|exact Hb]. intros y Hy. now apply isort_in in Hy.
  - intros d Hin Hd. apply in_app_or in Hin as [Hin|Hin].
    + destruct (D2 d Hin Hd) as [(o & z & Hb & Hz)|[Hu Hdr]].
      * left. exists o, z. split; [|exact Hz]. eapply Below_mono; [|exact Hb]. intros y Hy. now apply isort_in.
      * right. split; [exact Hu|]. eapply dropping_incl; [|exact Hdr]. apply incl_appl, incl_refl.
    + rewrite Forall_forall in Hc. apply Hc in Hin. destruct d; contradiction.
Qed.

Lemma fin_rc_diag x : forall base w o, fin_rc x base = (w, Ok o) -> diag_spec (opt_list o) w.
Proof.
  induction x as [r|c l IH] using irc_ind'; intros base ws o H;
    apply fin_rc_ok in H as (s & Hs & [(_ & -> & ->)|(Hms & w & -> & H)]);
    try (split; [intros o z d Hb; apply Below_single in Hb as (y & [] & _)|intros d [<-|[]] []]).
  - cbn [irc_offset irc_name] in *. destruct H as [(_ & -> & ->)|(Hr & Halt & fs & p & Hf & Hp & Hps & ->)].
    + split; [intros o z d Hb; apply Below_single in Hb as (y & [] & _)|]. intros d Hin Hd. right.
      apply in_app_or in Hin as [Hin|[<-|[]]]; [|destruct Hd].
      split; [destruct (_ mod _ =? 0) in Hin; [destruct Hin|destruct Hin as [<-|[]]; exact I]|].
      left. apply in_or_app. right. now left.
    + assert (HF := fin_fields_diag _ _ _ _ Hf). cbn [opt_list]. split.
      * intros o z d Hb Hd. apply in_or_app. apply Below_one in Hb as [->|(? & ? & ? & E & _)]; [|discriminate].
        destruct Hd as [(-> & Hm)|(r' & f & E & Hin & Hl & ->)].
        -- left. rewrite <- Hps in *. cbn [el_offset el_name el_props r_b r_props] in *. destruct (_ =? 0) eqn:E0; [|now left]. lia.
        -- right. injection E as <-. cbn [r_props r_fields] in *. rewrite Hps in *. apply HF; [exact I|]. exists f. auto.
      * intros d Hin Hd. left. eexists. eexists. split; [apply Below_reg; now left|]. apply in_app_or in Hin as [Hin|Hin].
        -- left. destruct (_ =? 0) eqn:E0 in Hin; [destruct Hin|]. destruct Hin as [<-|[]]. split; [reflexivity|]. cbn. rewrite Hps. lia.
        -- right. apply HF in Hin; [|exact Hd]. destruct Hin as (f & H1 & H2 & ->). eexists. exists f. split; [reflexivity|]. cbn. rewrite Hps. auto.
  - cbn [irc_offset irc_name] in *. destruct H as (ch & w1 & Hch & H).
    assert (HD : diag_spec ch w1). { eapply fin_rcs_diag; [|exact Hch]. intros x w' o' Hx. rewrite Forall_forall in IH. now apply IH. }
    destruct H as [(-> & -> & ->)|(Hne & -> & p & Hp & Hps & H)].
    + split; [intros o z d Hb; apply Below_single in Hb as (y & [] & _)|]. intros d Hin Hd. right.
      split; [|right; exists (cb_name (ic_b c)); apply in_or_app; right; apply in_or_app; right; now left].
      apply in_app_or in Hin as [Hin|Hin]; [destruct (_ mod _ =? 0) in Hin; [destruct Hin|destruct Hin as [<-|[]]; exact I]|].
      apply in_app_or in Hin as [Hin|[<-|[]]]; [|destruct Hd]. destruct HD as [_ HD]. destruct (HD d Hin Hd) as [(o & z & Hb & _)|[Hu _]]; [|exact Hu].
      apply Below_single in Hb as (y & [] & _).
    + cbn zeta in H. subst o. cbn [opt_list]. destruct HD as [D1 D2]. split.
      * intros o z d Hb Hd. apply in_or_app. apply Below_one in Hb as [->|(? & ? & o' & E & Hb')].
        -- destruct Hd as [(-> & Hm)|(r' & f & E & _)]; [|discriminate].
           left. rewrite <- Hps in *. cbn [el_offset el_name el_props c_b c_props] in *. destruct (_ =? 0) eqn:E0; [|now left]. lia.
        -- injection E as <- <-. right. eapply D1; eauto.
      * intros d Hin Hd. apply in_app_or in Hin as [Hin|Hin].
        -- left. eexists. eexists. split; [apply Below_clu; now left|]. left.
           destruct (_ =? 0) eqn:E0 in Hin; [destruct Hin|]. destruct Hin as [<-|[]]. split; [reflexivity|]. cbn. rewrite Hps. lia.
        -- destruct (D2 d Hin Hd) as [(o & z & Hb & Hz)|[Hu Hdr]].
           ++ left. eexists. exists z. split; [|exact Hz]. eapply Below_deep; [now left|exact Hb].
           ++ right. split; [exact Hu|]. eapply dropping_incl; [|exact Hdr]. apply incl_appr, incl_refl.
Qed.

(** ** Address blocks and peripherals *)
Lemma address_blocks_diag l : forall ws, check_address_blocks l = (ws, Ok tt) -> forall d,
  In d ws <-> exists l1 a b l2, l = l1 ++ a :: b :: l2 /\ ab_offset b < ab_offset a + ab_size a /\ d = W_AddrBlockOverlap (ab_offset b) (ab_offset a).
Proof.
  induction l as [|a l IH]; intros ws H d.
  - cbn in H. apply ret_ok in H as [_ ->]. split; [intros []|]. intros (l1 & x & y & l2 & E & _). destruct l1; discriminate.
  - destruct l as [|b l]; cbn [check_address_blocks] in H.
    + apply ret_ok in H as [_ ->]. split; [intros []|]. intros (l1 & x & y & l2 & E & _). destruct l1 as [|? [|? ?]]; discriminate.
    + apply bind_ok in H as (w1 & [] & w2 & H1 & H & ->). apply warn_if_ok in H1. subst w1. rewrite in_app_iff, (IH _ H). split.
      * intros [Hin|(l1 & x & y & l2 & E & Hl & ->)].
        -- exists [], a, b, l. destruct (_ <? _) eqn:E in Hin; [|destruct Hin]. destruct Hin as [<-|[]]. repeat split. lia.
        -- exists (a :: l1), x, y, l2. rewrite E. repeat split. exact Hl.
      * intros ([|z l1] & x & y & l2 & E & Hl & ->).
        -- injection E as -> -> _. left. destruct (_ <? _) eqn:E; [now left|lia].
        -- injection E as -> E. right. eauto 8.
Qed.

(** diagnostics about the peripheral itself *)
Definition PDiag (p : per) (w : warning) : Prop :=
  w = W_PeriphUnaligned (per_name p) /\ pb_base (pr_b p) mod 4 <> 0 \/
  exists l1 a b l2, pb_abs (pr_b p) = l1 ++ a :: b :: l2 /\ ab_offset b < ab_offset a + ab_size a /\ w = W_AddrBlockOverlap (ab_offset b) (ab_offset a).
Definition is_pdiag (w : warning) : Prop := match w with W_PeriphUnaligned _ | W_AddrBlockOverlap _ _ => True | _ => False end.

Lemma fin_per_diag p ws o : fin_per p = (ws, Ok o) ->
  (forall q, o = Some q -> diag_spec (pr_rcs q) ws /\ forall d, is_pdiag d -> (In d ws <-> PDiag q d)) /\
  (o = None -> forall d, In d ws -> is_pdiag d \/ is_diag d -> (exists n, In (W_PeriphSize n) ws) \/ is_unaligned d /\ dropping ws).
Proof.
  intros H. unfold fin_per in H. apply bind_ok in H as (w1 & rcs & w2 & H1 & H & ->).
  assert (Hw1 : Forall rc_warning w1). { eapply fin_rcs_warn; [|exact H1]. intros x w' o' _. apply fin_rc_warn. }
  assert (HD : diag_spec rcs w1). { eapply fin_rcs_diag; [|exact H1]. intros x w' o' _. apply fin_rc_diag. }
  rewrite Forall_forall in Hw1.
  destruct rcs as [|x0 rcs0].
  { minv. split; [discriminate|]. intros _ d Hin Hd. right. apply in_app_or in Hin as [Hin|[<-|[]]]; [|destruct Hd as [[]|[]]].
    assert (Hd' : is_diag d). { destruct Hd as [Hd|Hd]; [|exact Hd]. apply Hw1 in Hin. destruct d; contradiction. }
    destruct HD as [_ HD]. destruct (HD d Hin Hd') as [(o & z & Hb & _)|[Hu Hdr]].
    - apply Below_single in Hb as (y & [] & _).
    - split; [exact Hu|]. eapply dropping_incl; [|exact Hdr]. apply incl_appl, incl_refl. }
  remember (x0 :: rcs0) as rcs eqn:Er. assert (Hne : rcs <> []) by (subst; discriminate). clear Er.
  apply bind_ok in H as (w3 & [] & w4 & H2 & H & ->). apply warn_if_ok in H2. subst w3.
  match type of H with (if ?c then _ else _) = _ => destruct c end.
  { minv. split; [discriminate|]. intros _ d _ _. left. exists (pb_name (ip_b p)). apply in_or_app. right. apply in_or_app. right. now left. }
  apply bind_ok in H as (w5 & [] & w6 & H3 & H & ->). apply raise_if_ok in H3 as [_ ->]. cbn [app].
  apply bind_ok in H as (w7 & [] & w8 & H4 & H & ->). assert (HB := address_blocks_diag _ _ H4).
  apply bind_ok in H as (w9 & pp & w10 & H5 & H & ->). apply reg_prop_ok in H5 as [_ ->]. apply ret_ok in H as [<- ->]. rewrite !app_nil_r.
  split; [|discriminate]. intros q E. injection E as <-. cbn [pr_rcs]. split.
  - destruct HD as [D1 D2]. split.
    + intros o z d Hb Hd. apply in_or_app. left. eapply D1; eauto.
    + intros d Hin Hd. apply in_app_or in Hin as [Hin|Hin].
      * destruct (D2 d Hin Hd) as [Hl|[Hu Hdr]]; [now left|right]. split; [exact Hu|]. eapply dropping_incl; [|exact Hdr]. apply incl_appl, incl_refl.
      * exfalso. apply in_app_or in Hin as [Hin|Hin].
        -- destruct (negb _) in Hin; [|destruct Hin]. destruct Hin as [<-|[]]. destruct Hd.
        -- apply HB in Hin as (l1 & a & b & l2 & _ & _ & ->). destruct Hd.
  - intros d Hd. unfold PDiag, per_name. cbn [pr_b]. rewrite !in_app_iff, HB. split.
    + intros [Hin|[Hin|Hin]].
      * exfalso. apply Hw1 in Hin. destruct d; contradiction.
      * left. destruct (negb _) eqn:E in Hin; [|destruct Hin]. destruct Hin as [<-|[]]. split; [reflexivity|]. lia.
      * right. exact Hin.
    + intros [(-> & Hm)|Hin]; [right; left|right; right; exact Hin]. destruct (negb _) eqn:E; [now left|lia].
Qed.

Lemma finalize_diag d ws dev : finalize d = (ws, Ok dev) ->
  (forall q, In q (dv_periphs dev) -> (forall o z w, Below (pr_rcs q) o z -> Diag z w -> In w ws) /\ (forall w, PDiag q w -> In w ws)) /\
  (forall w, In w ws -> is_pdiag w \/ is_diag w ->
     (exists q, In q (dv_periphs dev) /\ (PDiag q w \/ exists o z, Below (pr_rcs q) o z /\ Diag z w)) \/
     (exists n, In (W_PeriphSize n) ws) \/ is_unaligned w /\ dropping ws).
Proof.
  intros H.
  unfold finalize in H. apply bind_ok in H as (w1 & ps & w2 & H1 & H & ->). apply ret_ok in H as [<- ->]. rewrite app_nil_r in *.
  apply fin_pers_ok in H1 as (ys & w3 & w4 & HL & Hn & -> & Hc & ->). cbn [dv_periphs].
  assert (Hpd : forall q w, PDiag q w -> is_pdiag w).
  { intros q w [(-> & _)|(l1 & a & b & l2 & _ & _ & ->)]; exact I. }
  split.
  - intros q Hq. apply isort_in in Hq.
    assert (Hg : (forall o z w, Below (pr_rcs q) o z -> Diag z w -> In w w3) /\ (forall w, PDiag q w -> In w w3)).
    { clear Hc Hn. induction HL as [|p l z ys w ws Hf HL IH|p l ys w ws Hf HL IH]; [destruct Hq| |].
      - destruct Hq as [<-|Hq].
        + apply fin_per_diag in Hf as [Hf _]. destruct (Hf z eq_refl) as [[D1 _] D2]. split.
          * intros o x d' Hb Hd. apply in_or_app. left. eapply D1; eauto.
          * intros d' Hd. apply in_or_app. left. apply D2; eauto.
        + destruct (IH Hq) as [I1 I2]. split; intros; apply in_or_app; right; eauto.
      - destruct (IH Hq) as [I1 I2]. split; intros; apply in_or_app; right; eauto. }
    destruct Hg as [G1 G2]. split; intros; apply in_or_app; left; eauto.
  - intros w Hin Hw. apply in_app_or in Hin as [Hin|Hin].
    2:{ apply (check_per_collisions _ _ _ (isort_perm per_le ys) Hn Hc) in Hin as (x & y & [[_ ->]|[_ ->]]); destruct Hw as [[]|[]]. }
    assert (Hg : (exists q, In q ys /\ (PDiag q w \/ exists o z, Below (pr_rcs q) o z /\ Diag z w)) \/
       (exists n, In (W_PeriphSize n) w3) \/ is_unaligned w /\ dropping w3).
    { clear Hc Hn. induction HL as [|p l z ys wx ws Hf HL IH|p l ys wx ws Hf HL IH]; [destruct Hin| |].
      - apply in_app_or in Hin as [Hin|Hin].
        + apply fin_per_diag in Hf as [Hf _]. destruct (Hf z eq_refl) as [[_ D1] D2]. destruct Hw as [Hw|Hw].
          * left. exists z. split; [now left|]. left. now apply D2.
          * destruct (D1 w Hin Hw) as [Hl|[Hu Hdr]]; [left; exists z; split; [now left|now right]|right; right].
            split; [exact Hu|]. eapply dropping_incl; [|exact Hdr]. apply incl_appl, incl_refl.
        + destruct (IH Hin) as [(q & Hq & Hl)|[[n Hs]|[Hu Hdr]]].
          * left. exists q. split; [now right|exact Hl].
          * right. left. exists n. apply in_or_app. now right.
          * right. right. split; [exact Hu|]. eapply dropping_incl; [|exact Hdr]. apply incl_appr, incl_refl.
      - apply in_app_or in Hin as [Hin|Hin].
        + apply fin_per_diag in Hf as [_ Hf]. right. destruct (Hf eq_refl w Hin Hw) as [[n Hs]|[Hu Hdr]].
          * left. exists n. apply in_or_app. now left.
          * right. split; [exact Hu|]. eapply dropping_incl; [|exact Hdr]. apply incl_appl, incl_refl.
        + destruct (IH Hin) as [(q & Hq & Hl)|[[n Hs]|[Hu Hdr]]].
          * left. exists q. split; [exact Hq|exact Hl].
          * right. left. exists n. apply in_or_app. now right.
          * right. right. split; [exact Hu|]. eapply dropping_incl; [|exact Hdr]. apply incl_appr, incl_refl. }
    destruct Hg as [(q & Hq & Hl)|[[n Hs]|[Hu Hdr]]].
    + left. exists q. split; [now apply isort_in|exact Hl].
    + right. left. exists n. apply in_or_app. now left.
    + right. right. split; [exact Hu|]. eapply dropping_incl; [|exact Hdr]. apply incl_appl, incl_refl.
Qed.
