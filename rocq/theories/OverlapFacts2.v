(** * OverlapFacts2: overlap warnings of peripherals, and the device level. *)
From Verif Require Import Base PyStr Types FinalModel SpecDevice FinalFacts AltFacts OverlapFacts.
From Coq Require Import ZifyBool ZifyNat ZifyN.

Definition per_blocked (allowed : list string) (alts : list (string * option string)) (me n : string) : Prop :=
  match allowed with
  | [] => ~ (lookup n alts = Some (Some me) /\ me <> "")
  | _ => ~ In n allowed
  end.

Lemma check_per_intervals_spec mkw p allowed alts ivs :
  exists ws, check_per_intervals mkw p allowed alts ivs = (ws, Ok tt) /\
  forall w, In w ws <-> exists e n, In (e, n) ivs /\ pb_base (pr_b p) <= e /\ w = mkw (per_name p) n /\
                                    per_blocked allowed alts (per_name p) n.
Proof.
  unfold check_per_intervals.
  match goal with |- exists ws, iterM ?f _ = _ /\ _ => destruct (iterM_total f ivs) as (ws & H1 & H2) end.
  - intros [e n]. destruct (pb_base (pr_b p) <=? e); [|eexists; reflexivity]. destruct allowed; unfold warn_if, warn, ret.
    + match goal with |- context [if ?c then _ else _] => destruct c end; eexists; reflexivity.
    + destruct (negb _); eexists; reflexivity.
  - exists ws. split; [exact H1|]. intros w. rewrite H2. clear H1 H2.
    assert (Hcond : forall n, match lookup n alts with
                       | Some (Some (String _ _ as a)) => negb (String.eqb a (per_name p))
                       | _ => true end = true <-> ~ (lookup n alts = Some (Some (per_name p)) /\ per_name p <> "")).
    { intros n. destruct (lookup n alts) as [[[|c a]|]|].
      - split; [|reflexivity]. intros _ [E Hne]. injection E as E. congruence.
      - rewrite negb_true_iff, String.eqb_neq. split; [intros H [E _]; injection E as E; congruence|].
        intros H E. apply H. rewrite <- E. split; congruence.
      - split; [|reflexivity]. intros _ [E _]. discriminate.
      - split; [|reflexivity]. intros _ [E _]. discriminate. }
    split.
    + intros ([e n] & Hin & Hw). exists e, n. split; [exact Hin|]. destruct (pb_base (pr_b p) <=? e) eqn:Ele; [|destruct Hw].
      split; [lia|]. unfold per_blocked. destruct allowed as [|a allowed]; unfold warn_if, warn, ret in Hw.
      * rewrite <- Hcond.
        match type of Hw with In _ (fst (if ?c then _ else _)) => destruct c eqn:E end; cbn [fst] in Hw; [|destruct Hw].
        destruct Hw as [<-|[]]. auto.
      * destruct (mem_str n (a :: allowed)) eqn:E; cbn [negb fst] in Hw; [destruct Hw|]; destruct Hw as [<-|[]].
        split; [reflexivity|]. now apply mem_str_nIn.
    + intros (e & n & Hin & Hle & -> & Hb). exists (e, n). split; [exact Hin|]. replace (pb_base (pr_b p) <=? e) with true by lia.
      unfold per_blocked in Hb. destruct allowed as [|a allowed]; unfold warn_if, warn, ret.
      * apply Hcond in Hb. rewrite Hb. now left.
      * destruct (mem_str n (a :: allowed)) eqn:E; cbn [negb fst]; [|now left]. apply mem_str_In in E. contradiction.
Qed.

Definition pnot_permitted (alts : list (string * option string)) (x : per) (n : string) : Prop :=
  match pb_altper (pr_b x) with
  | Some a => ~ Family alts a n
  | None => ~ (In (n, Some (per_name x)) alts /\ per_name x <> "")
  end.

Lemma per_blocked_spec alts x n ws allowed : NoDup (map fst alts) ->
  compute_allowed true alts (pb_altper (pr_b x)) = (ws, Ok allowed) ->
  per_blocked allowed alts (per_name x) n <-> pnot_permitted alts x n.
Proof.
  intros Hn H. apply compute_allowed_ok in H as [_ H]; [|exact Hn]. unfold per_blocked, pnot_permitted.
  destruct (pb_altper (pr_b x)) as [a|].
  - destruct H as [Hne Hf]. destruct allowed as [|b allowed]; [congruence|]. now rewrite (Hf n).
  - subst allowed. split; intros H [H1 H2]; apply H; split; auto.
    + now apply lookup_nodup.
    + now apply lookup_in.
Qed.

Lemma check_per_spec alts l : NoDup (map fst alts) -> forall eff spec ws,
  check_per_overlaps alts eff spec l = (ws, Ok tt) ->
  forall w, In w ws <-> exists l1 x l2 e n, l = l1 ++ x :: l2 /\ pb_base (pr_b x) <= e /\ pnot_permitted alts x n /\
    (In (e, n) (eff ++ map (fun p => (pr_end_eff p, per_name p)) l1) /\ w = W_PeriphOverlapEff (per_name x) n \/
     In (e, n) (spec ++ map (fun p => (pr_end p, per_name p)) l1) /\ w = W_PeriphOverlapSpec (per_name x) n).
Proof.
  intros Hn. induction l as [|x l IH]; intros eff spec ws H w.
  - cbn in H. minv. split; [intros []|]. intros (l1 & x & l2 & e & n & E & _). destruct l1; discriminate.
  - cbn [check_per_overlaps] in H. apply bind_ok in H as (w0 & allowed & w0' & H0 & H & ->).
    apply bind_ok in H as (w1 & [] & w2' & H1 & H & ->). apply bind_ok in H as (w2 & [] & w3 & H2 & H & ->).
    destruct (check_per_intervals_spec W_PeriphOverlapEff x allowed alts eff) as (w1' & E1 & S1). rewrite H1 in E1. injection E1 as <-.
    destruct (check_per_intervals_spec W_PeriphOverlapSpec x allowed alts spec) as (w2'' & E2 & S2). rewrite H2 in E2. injection E2 as <-.
    assert (Hw0 : w0 = []) by (now apply compute_allowed_ok in H0 as [-> _]). subst w0. cbn [app].
    rewrite !in_app_iff, S1, S2, (IH _ _ _ H w). split.
    + intros [(e & n & Hin & Hle & -> & Hb)|[(e & n & Hin & Hle & -> & Hb)|(l1 & y & l2 & e & n & -> & Hle & Hnp & Hrest)]].
      * exists [], x, l, e, n. cbn [app map]. rewrite !app_nil_r. split; [reflexivity|]. split; [exact Hle|].
        split; [eapply per_blocked_spec; eauto|]. left. auto.
      * exists [], x, l, e, n. cbn [app map]. rewrite !app_nil_r. split; [reflexivity|]. split; [exact Hle|].
        split; [eapply per_blocked_spec; eauto|]. right. auto.
      * exists (x :: l1), y, l2, e, n. split; [reflexivity|]. split; [exact Hle|]. split; [exact Hnp|].
        cbn [map]. rewrite <- !app_assoc in Hrest. exact Hrest.
    + intros (l1 & y & l2 & e & n & E & Hle & Hnp & Hin). destruct l1 as [|x' l1]; cbn [app] in E; injection E as -> ->.
      * cbn [map] in Hin. rewrite !app_nil_r in Hin. destruct Hin as [[Hin ->]|[Hin ->]]; [left|right; left]; exists e, n;
          (split; [exact Hin|]; split; [exact Hle|]; split; [reflexivity|]; eapply per_blocked_spec; eauto).
      * right. right. exists l1, y, l2, e, n. split; [reflexivity|]. split; [exact Hle|]. split; [exact Hnp|].
        cbn [map] in Hin. rewrite <- !app_assoc. exact Hin.
Qed.

(** two peripherals of the device colliding in their effective / specified ranges *)
Definition per_collision_eff (l : list per) (x y : per) : Prop :=
  Earlier l y x /\ pb_base (pr_b x) <= pr_end_eff y /\ ~ per_permitted l x y.
Definition per_collision_spec (l : list per) (x y : per) : Prop :=
  Earlier l y x /\ pb_base (pr_b x) <= pr_end y /\ ~ per_permitted l x y.

Lemma pnot_permitted_spec ys s x y : Permutation ys s -> In y s -> NoDup (map per_name s) ->
  pnot_permitted (map (fun p => (per_name p, pb_altper (pr_b p))) ys) x (per_name y) <-> ~ per_permitted s x y.
Proof.
  intros Hp Hy Hn.
  assert (Hd : forall z, In z (map (fun p => (per_name p, pb_altper (pr_b p))) ys) <-> In z (per_decls s)).
  { intros z. unfold per_decls. split; apply Permutation_in; [|symmetry]; now apply Permutation_map. }
  unfold pnot_permitted, per_permitted. destruct (pb_altper (pr_b x)) as [a|].
  - split; intros H Hf; apply H; (eapply Family_incl; [|exact Hf]; intros z; apply Hd).
  - split; intros H [H1 H2]; apply H; (split; [|exact H2]).
    + apply Hd. apply in_map_iff. exists y. split; [|exact Hy]. now rewrite H1.
    + apply Hd in H1. unfold per_decls in H1. apply in_map_iff in H1 as (z & E & Hz). injection E as En Ea.
      assert (z = y); [|now subst]. clear - Hn Hy Hz En.
      revert Hn Hy Hz. induction s as [|q s IH]; cbn [map]; intros Hn Hy Hz; [destruct Hy|].
      inversion Hn as [|? ? Hq Hs]; subst. destruct Hy as [->|Hy], Hz as [->|Hz]; auto.
      * exfalso. apply Hq. apply in_map_iff. exists z. auto.
      * exfalso. apply Hq. apply in_map_iff. exists y. split; auto.
Qed.

Lemma check_per_collisions ys s ws : Permutation ys s -> NoDup (map per_name ys) ->
  check_per_overlaps (map (fun p => (per_name p, pb_altper (pr_b p))) ys) [] [] s = (ws, Ok tt) ->
  forall w, In w ws <-> exists x y,
    per_collision_eff s x y /\ w = W_PeriphOverlapEff (per_name x) (per_name y) \/
    per_collision_spec s x y /\ w = W_PeriphOverlapSpec (per_name x) (per_name y).
Proof.
  intros Hp Hn H w.
  assert (Hns : NoDup (map per_name s)) by (eapply Permutation_NoDup; [apply Permutation_map, Hp|exact Hn]).
  assert (Hk : NoDup (map fst (map (fun p => (per_name p, pb_altper (pr_b p))) ys))) by (rewrite map_map; exact Hn).
  rewrite (check_per_spec _ _ Hk _ _ _ H w). cbn [app]. split.
  - intros (l1 & x & l2 & e & n & -> & Hle & Hnp & [[Hin ->]|[Hin ->]]);
      apply in_map_iff in Hin as (y & E & Hy); injection E as <- <-; exists x, y; [left|right];
      (split; [|reflexivity]); (rewrite (pnot_permitted_spec _ _ _ _ Hp) in Hnp; [|apply in_or_app; now left|exact Hns]);
      apply in_split in Hy as (m1 & m2 & ->); (split; [exists m1, m2, l2; now rewrite <- app_assoc|]); auto.
  - intros (x & y & [(((l1 & l2 & l3 & ->) & Hle & Hnp) & ->)|(((l1 & l2 & l3 & ->) & Hle & Hnp) & ->)]).
    + exists (l1 ++ y :: l2), x, l3, (pr_end_eff y), (per_name y). split; [now rewrite <- app_assoc|]. split; [exact Hle|].
      split; [eapply pnot_permitted_spec; eauto; apply in_or_app; right; now left|].
      left. split; [|reflexivity]. apply in_map_iff. exists y. split; [reflexivity|]. apply in_or_app. right. now left.
    + exists (l1 ++ y :: l2), x, l3, (pr_end y), (per_name y). split; [now rewrite <- app_assoc|]. split; [exact Hle|].
      split; [eapply pnot_permitted_spec; eauto; apply in_or_app; right; now left|].
      right. split; [|reflexivity]. apply in_map_iff. exists y. split; [reflexivity|]. apply in_or_app. right. now left.
Qed.

(** ** Kinds of warnings *)
(** warnings that the register/cluster pass can issue *)
Definition rc_warning (w : warning) : Prop :=
  match w with W_RcSize _ | W_RcUnaligned _ | W_ClusterEmpty _ | W_RegReserved | W_RcOverlap _ _ => True | _ => field_warning w end.

Lemma Loop_warn f l ys ws : (forall x w o, In x l -> f x = (w, Ok o) -> Forall rc_warning w) -> Loop f l ys ws -> Forall rc_warning ws.
Proof.
  intros Hf HL. revert Hf. induction HL as [|x l y ys w ws Hx HL IH|x l ys w ws Hx HL IH]; intros Hf.
  - constructor.
  - apply Forall_app; split; [eapply Hf; [now left|exact Hx]|]. apply IH. intros z w' o Hz. apply Hf. now right.
  - apply Forall_app; split; [eapply Hf; [now left|exact Hx]|]. apply IH. intros z w' o Hz. apply Hf. now right.
Qed.
Lemma fin_rcs_warn f l ws s : (forall x w o, In x l -> f x = (w, Ok o) -> Forall rc_warning w) -> fin_rcs f l = (ws, Ok s) -> Forall rc_warning ws.
Proof.
  intros Hf H. apply fin_rcs_ok in H as (ys & w1 & w2 & HL & Hn & -> & Hc & ->). apply Forall_app. split; [eapply Loop_warn; eauto|].
  apply Forall_forall. intros w Hw. apply (check_rc_collisions _ _ _ (isort_perm _ _) Hn Hc) in Hw as (x & y & _ & ->). exact I.
Qed.
Lemma fin_rc_warn x : forall base w o, fin_rc x base = (w, Ok o) -> Forall rc_warning w.
Proof.
  induction x as [r|c l IH] using irc_ind'; intros base ws o H;
    apply fin_rc_ok in H as (s & Hs & [(_ & -> & ->)|(Hms & w & -> & H)]); try (constructor; [exact I|constructor]);
    (apply Forall_app; split; [destruct (_ mod _ =? 0); repeat constructor|]).
  - destruct H as [(_ & -> & ->)|(Hr & Halt & fs & p & Hf & Hp & Hps & ->)]; [repeat constructor|].
    apply fin_fields_warn in Hf. eapply Forall_impl; [|exact Hf]. intros []; cbn; auto.
  - destruct H as (ch & w1 & Hch & H).
    assert (HO : Forall rc_warning w1).
    { eapply fin_rcs_warn; [|exact Hch]. intros x w' o' Hx Hx'. rewrite Forall_forall in IH. exact (IH x Hx _ _ _ Hx'). }
    destruct H as [(-> & -> & ->)|(Hne & -> & _)]; [|exact HO]. apply Forall_app. split; [exact HO|repeat constructor].
Qed.
Lemma check_address_blocks_warn l ws r : check_address_blocks l = (ws, r) -> Forall (fun w => exists a b, w = W_AddrBlockOverlap a b) ws.
Proof.
  revert ws r. induction l as [|a l IH]; intros ws r H; [inversion H; constructor|].
  destruct l as [|b l]; [inversion H; constructor|].
  change (check_address_blocks (a :: b :: l)) with
    (warn_if (ab_offset b <? ab_offset a + ab_size a) (W_AddrBlockOverlap (ab_offset b) (ab_offset a)) ;;; check_address_blocks (b :: l)) in H.
  destruct (check_address_blocks (b :: l)) as [w' r'] eqn:E. unfold warn_if, warn, ret, bind in H.
  destruct (ab_offset b <? ab_offset a + ab_size a); injection H as <- <-; cbn [app]; [constructor|]; eauto.
Qed.
Definition per_warning (w : warning) : Prop :=
  match w with W_PeriphEmpty _ | W_PeriphUnaligned _ | W_PeriphSize _ | W_AddrBlockOverlap _ _ => True | _ => rc_warning w end.
Lemma rc_per_warning w : rc_warning w -> per_warning w.
Proof. destruct w; cbn; auto. Qed.
Definition per_own_warning (w : warning) : Prop :=
  match w with W_PeriphEmpty _ | W_PeriphUnaligned _ | W_PeriphSize _ | W_AddrBlockOverlap _ _ => True | _ => False end.
Lemma fin_per_tail p w1 w2 rcs o : fin_per p = (w1 ++ w2, Ok o) ->
  fin_rcs (fun y => fin_rc y (pb_base (ip_b p))) (ip_rcs p) = (w1, Ok rcs) -> Forall per_own_warning w2.
Proof.
  intros H H1. unfold fin_per in H. rewrite H1 in H. apply bind_ok in H as (w1' & rcs' & w2' & H1' & H & E).
  injection H1' as <- <-. apply app_inv_head in E. subst w2'.
  destruct rcs as [|x rcs]; [minv; repeat constructor|].
  apply bind_ok in H as (w3 & [] & w4 & H2 & H & ->). apply warn_if_ok in H2. subst w3. apply Forall_app. split.
  { destruct (negb _); repeat constructor. }
  match type of H with (if ?c then _ else _) = _ => destruct c end; [minv; repeat constructor|].
  apply bind_ok in H as (w5 & [] & w6 & H3 & H & ->). apply raise_if_ok in H3 as [_ ->]. cbn [app].
  apply bind_ok in H as (w7 & [] & w8 & H4 & H & ->). apply Forall_app. split.
  { apply check_address_blocks_warn in H4. eapply Forall_impl; [|exact H4]. intros w (a & b & ->). exact I. }
  apply bind_ok in H as (w9 & pp & w10 & H5 & H & ->). apply reg_prop_ok in H5 as [_ ->]. apply ret_ok in H as [_ ->]. constructor.
Qed.
Lemma fin_per_warn p ws o : fin_per p = (ws, Ok o) -> Forall per_warning ws.
Proof.
  intros H. unfold fin_per in H. apply bind_ok in H as (w1 & rcs & w2 & H1 & H & ->).
  apply Forall_app. split.
  { eapply Forall_impl; [apply rc_per_warning|]. eapply fin_rcs_warn; [|exact H1]. intros x w' o' _. apply fin_rc_warn. }
  destruct rcs as [|x rcs]; [minv; repeat constructor|].
  apply bind_ok in H as (w3 & [] & w4 & H2 & H & ->). apply warn_if_ok in H2. subst w3. apply Forall_app. split.
  { destruct (negb _); repeat constructor. }
  match type of H with (if ?c then _ else _) = _ => destruct c end; [minv; repeat constructor|].
  apply bind_ok in H as (w5 & [] & w6 & H3 & H & ->). apply raise_if_ok in H3 as [_ ->]. cbn [app].
  apply bind_ok in H as (w7 & [] & w8 & H4 & H & ->). apply Forall_app. split.
  { apply check_address_blocks_warn in H4. eapply Forall_impl; [|exact H4]. intros w (a & b & ->). exact I. }
  apply bind_ok in H as (w9 & pp & w10 & H5 & H & ->). apply reg_prop_ok in H5 as [_ ->]. apply ret_ok in H as [_ ->]. constructor.
Qed.
Lemma PLoop_warn l ys ws : PLoop l ys ws -> Forall per_warning ws.
Proof.
  induction 1 as [|x l y ys w ws Hf HL IH|x l ys w ws Hf HL IH]; [constructor| |]; (apply Forall_app; split; [eapply fin_per_warn; eauto|auto]).
Qed.

(** ** Device level *)
Lemma finalize_per_collisions d ws dev : finalize d = (ws, Ok dev) ->
  (forall a b, In (W_PeriphOverlapEff a b) ws <->
     exists x y, per_collision_eff (dv_periphs dev) x y /\ a = per_name x /\ b = per_name y) /\
  (forall a b, In (W_PeriphOverlapSpec a b) ws <->
     exists x y, per_collision_spec (dv_periphs dev) x y /\ a = per_name x /\ b = per_name y).
Proof.
  intros H. unfold finalize in H. apply bind_ok in H as (w1 & ps & w2 & H1 & H & ->). apply ret_ok in H as [<- ->]. rewrite app_nil_r.
  apply fin_pers_ok in H1 as (ys & w3 & w4 & HL & Hn & -> & Hc & ->). cbn [dv_periphs].
  assert (Hiff := check_per_collisions _ _ _ (isort_perm per_le ys) Hn Hc). apply PLoop_warn in HL. rewrite Forall_forall in HL.
  split; intros a b; rewrite in_app_iff, Hiff; split.
  - intros [Hin|(x & y & [[Hcol E]|[_ E]])]; [apply HL in Hin as []| |discriminate]. injection E as -> ->. eauto.
  - intros (x & y & Hcol & -> & ->). right. eauto.
  - intros [Hin|(x & y & [[_ E]|[Hcol E]])]; [apply HL in Hin as []|discriminate|]. injection E as -> ->. eauto.
  - intros (x & y & Hcol & -> & ->). right. eauto.
Qed.

Lemma finalize_rc_reported d ws dev : finalize d = (ws, Ok dev) ->
  forall q s x y, In q (dv_periphs dev) -> Siblings (pr_rcs q) s -> rc_collision s x y ->
  In (W_RcOverlap (el_name x) (el_name y)) ws.
Proof.
  intros H q s x y Hq HS Hcol.
  unfold finalize in H. apply bind_ok in H as (w1 & ps & w2 & H1 & H & ->). apply ret_ok in H as [<- ->]. rewrite app_nil_r.
  apply fin_pers_ok in H1 as (ys & w3 & w4 & HL & Hn & -> & Hc & ->). cbn [dv_periphs] in Hq. apply isort_in in Hq.
  apply in_or_app. left. clear Hc Hn. induction HL as [|p l z ys w ws Hf HL IH|p l ys w ws Hf HL IH]; [destruct Hq| |].
  - destruct Hq as [->|Hq]; [|apply in_or_app; right; auto]. apply in_or_app. left.
    apply fin_per_ok in Hf as (rcs & w5 & w6 & Hr & -> & [(_ & Ho & _)|(_ & [(s' & _ & _ & Ho & _)|(pp & _ & _ & _ & Ho)])]); try discriminate.
    cbn zeta in Ho. injection Ho as ->. apply in_or_app. left. apply fin_rcs_overlaps' in Hr as [Hr _]. eapply Hr; eauto.
  - apply in_or_app; right; auto.
Qed.
Lemma finalize_rc_justified d ws dev : finalize d = (ws, Ok dev) ->
  forall a b, In (W_RcOverlap a b) ws ->
  (exists q s x y, In q (dv_periphs dev) /\ Siblings (pr_rcs q) s /\ rc_collision s x y /\ a = el_name x /\ b = el_name y) \/
  (exists p, In p (idv_periphs d) /\ In (W_PeriphSize (pb_name (ip_b p))) ws).
Proof.
  intros H a b Hin.
  unfold finalize in H. apply bind_ok in H as (w1 & ps & w2 & H1 & H & ->). apply ret_ok in H as [<- ->]. rewrite app_nil_r in *.
  apply fin_pers_ok in H1 as (ys & w3 & w4 & HL & Hn & -> & Hc & ->). cbn [dv_periphs].
  apply in_app_or in Hin as [Hin|Hin].
  2:{ apply (check_per_collisions _ _ _ (isort_perm per_le ys) Hn Hc) in Hin as (x & y & [[_ E]|[_ E]]); discriminate. }
  assert (Hgoal : (exists q s x y, In q ys /\ Siblings (pr_rcs q) s /\ rc_collision s x y /\ a = el_name x /\ b = el_name y) \/
                  (exists p, In p (idv_periphs d) /\ In (W_PeriphSize (pb_name (ip_b p))) w3)).
  { clear Hc Hn. induction HL as [|p l z ys w ws Hf HL IH|p l ys w ws Hf HL IH]; [destruct Hin| |]; apply in_app_or in Hin as [Hin|Hin].
    - assert (Hf' := Hf).
      apply fin_per_ok in Hf as (rcs & w5 & w6 & Hr & -> & [(_ & Ho & _)|(_ & [(s' & _ & _ & Ho & _)|(pp & _ & _ & _ & Ho)])]); try discriminate.
      assert (Ht := fin_per_tail _ _ _ _ _ Hf' Hr). rewrite Forall_forall in Ht.
      apply in_app_or in Hin as [Hin|Hin]; [|apply Ht in Hin as []].
      apply fin_rcs_overlaps' in Hr as [_ Hr]. destruct (Hr a b Hin) as (s & x & y & HS & Hcol & Ha & Hb).
      left. exists z, s, x, y. cbn zeta in Ho. injection Ho as ->. cbn [pr_rcs]. split; [now left|]. auto.
    - destruct (IH Hin) as [(q & s & x & y & Hq & Hrest)|(q & Hq & Hw)].
      + left. exists q, s, x, y. split; [now right|exact Hrest].
      + right. exists q. split; [now right|]. apply in_or_app. now right.
    - assert (Hf' := Hf).
      apply fin_per_ok in Hf as (rcs & w5 & w6 & Hr & -> & [(-> & _ & _)|(_ & [(s' & _ & _ & _ & Hw)|(pp & _ & _ & _ & Ho)])]).
      + assert (Ht := fin_per_tail _ _ _ _ _ Hf' Hr). rewrite Forall_forall in Ht.
        apply in_app_or in Hin as [Hin|Hin]; [|apply Ht in Hin as []].
        apply fin_rcs_overlaps' in Hr as [_ Hr]. destruct (Hr a b Hin) as (s & x & y & HS & ((l1 & l2 & l3 & E) & _) & _).
        inversion HS as [|? ? ? ? Hbad]; subst; [destruct l1; discriminate|destruct Hbad].
      + right. exists p. split; [now left|]. apply in_or_app. left. apply in_or_app. now right.
      + cbn zeta in Ho. discriminate.
    - destruct (IH Hin) as [(q & s & x & y & Hq & Hrest)|(q & Hq & Hw)].
      + left. exists q, s, x, y. split; [exact Hq|exact Hrest].
      + right. exists q. split; [now right|]. apply in_or_app. now right. }
  destruct Hgoal as [(q & s & x & y & Hq & Hrest)|(q & Hq & Hw)].
  - left. exists q, s, x, y. split; [now apply isort_in|exact Hrest].
  - right. exists q. split; [exact Hq|]. apply in_or_app. now left.
Qed.
