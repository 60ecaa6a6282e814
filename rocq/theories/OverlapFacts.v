(** * OverlapFacts: the overlap warnings of registers, clusters and peripherals. *)
From Verif Require Import Base PyStr Types FinalModel SpecDevice FinalFacts AltFacts.
From Coq Require Import ZifyBool ZifyNat ZifyN.

Lemma iterM_total {A} (f : A -> M unit) l : (forall x, exists w, f x = (w, Ok tt)) ->
  exists ws, iterM f l = (ws, Ok tt) /\ forall w, In w ws <-> exists x, In x l /\ In w (fst (f x)).
Proof.
  intros Hf. induction l as [|x l IH]; cbn [iterM].
  - exists []. split; [reflexivity|]. intros w; split; [intros []|intros (x & [] & _)].
  - destruct (Hf x) as [w1 H1]. destruct IH as (w2 & H2 & H3). exists (w1 ++ w2). split.
    + rewrite H1, H2. reflexivity.
    + intros w. rewrite in_app_iff, H3. split.
      * intros [Hw|(y & Hy & Hw)]; [exists x; rewrite H1; simpl; auto|exists y; simpl; auto].
      * intros (y & [<-|Hy] & Hw); [left; now rewrite H1 in Hw|right; eauto].
Qed.

Definition blocked (allowed : list string) (alt : option string) (me n : string) : Prop :=
  match allowed with [] => alt <> Some me | _ => ~ In n allowed end.

Lemma check_item_spec item allowed alt_of ivs :
  exists ws, check_item item allowed alt_of ivs = (ws, Ok tt) /\
  forall w, In w ws <-> exists e n, In (e, n) ivs /\ rc_base item <= e /\ w = W_RcOverlap (rc_name item) n /\
                                    blocked allowed (alt_of n) (rc_name item) n.
Proof.
  unfold check_item.
  match goal with |- exists ws, iterM ?f _ = _ /\ _ => destruct (iterM_total f ivs) as (ws & H1 & H2) end.
  - intros [e n]. destruct (rc_base item <=? e); [|eexists; reflexivity]. destruct allowed; unfold warn_if, warn, ret.
    + destruct (negb _); eexists; reflexivity.
    + destruct (negb _); eexists; reflexivity.
  - exists ws. split; [exact H1|]. intros w. rewrite H2. clear H1 H2. split.
    + intros ([e n] & Hin & Hw). exists e, n. split; [exact Hin|]. destruct (rc_base item <=? e) eqn:Ele; [|destruct Hw].
      split; [lia|]. unfold blocked. destruct allowed as [|a allowed]; unfold warn_if, warn, ret in Hw.
      * destruct (option_eqb String.eqb (alt_of n) (Some (rc_name item))) eqn:E; cbn [negb fst] in Hw; [destruct Hw|]; destruct Hw as [<-|[]].
        split; [reflexivity|]. intros Ha. apply opt_eqb_spec in Ha. congruence.
      * destruct (mem_str n (a :: allowed)) eqn:E; cbn [negb fst] in Hw; [destruct Hw|]; destruct Hw as [<-|[]].
        split; [reflexivity|]. now apply mem_str_nIn.
    + intros (e & n & Hin & Hle & -> & Hb). exists (e, n). split; [exact Hin|]. replace (rc_base item <=? e) with true by lia.
      unfold blocked in Hb. destruct allowed as [|a allowed]; unfold warn_if, warn, ret.
      * destruct (option_eqb String.eqb (alt_of n) (Some (rc_name item))) eqn:E; cbn [negb fst]; [|now left].
        apply opt_eqb_spec in E. contradiction.
      * destruct (mem_str n (a :: allowed)) eqn:E; cbn [negb fst]; [|now left]. apply mem_str_In in E. contradiction.
Qed.

(** *** registers and clusters *)
Definition item_alts (regs : list (string * reg)) (clus : list (string * clu)) (x : rc) : list (string * option string) :=
  match x with
  | Reg _ => map (fun p => (fst p, rb_altreg (r_b (snd p)))) regs
  | Clu _ _ => map (fun p => (fst p, cb_altclu (c_b (snd p)))) clus
  end.
Definition item_alt (x : rc) : option string := match x with Reg r => rb_altreg (r_b r) | Clu c _ => cb_altclu (c_b c) end.

Lemma lookup_map {A B} (f : A -> option B) n (l : list (string * A)) :
  obind (lookup n l) f = obind (lookup n (map (fun p => (fst p, f (snd p))) l)) (fun o => o).
Proof.
  unfold lookup. induction l as [|[k a] l IH]; cbn [map find fst]; [reflexivity|]. destruct (String.eqb k n); cbn; auto.
Qed.

Lemma check_item_ext x allowed f g ivs : (forall n, f n = g n) -> check_item x allowed f ivs = check_item x allowed g ivs.
Proof.
  intros H. unfold check_item. induction ivs as [|[e n] ivs IH]; cbn [iterM]; [reflexivity|]. now rewrite IH, H.
Qed.

(** [x] may not overlap an earlier element named [n] *)
Definition not_permitted regs clus (x : rc) (n : string) : Prop :=
  match item_alt x with
  | Some a => ~ Family (item_alts regs clus x) a n
  | None => ~ In (n, Some (rc_name x)) (item_alts regs clus x)
  end.

Lemma blocked_not_permitted regs clus x n ws allowed strict :
  NoDup (map fst (item_alts regs clus x)) ->
  compute_allowed strict (item_alts regs clus x) (item_alt x) = (ws, Ok allowed) ->
  blocked allowed (obind (lookup n (item_alts regs clus x)) (fun o => o)) (rc_name x) n <-> not_permitted regs clus x n.
Proof.
  intros Hn H. apply compute_allowed_ok in H as [_ H]; [|exact Hn]. unfold blocked, not_permitted.
  destruct (item_alt x) as [a|].
  - destruct H as [Hne Hf]. destruct allowed as [|b allowed]; [congruence|]. now rewrite (Hf n).
  - subst allowed. destruct (lookup n (item_alts regs clus x)) as [o|] eqn:E; cbn.
    + apply lookup_in in E. split.
      * intros Ho Hin. apply (lookup_nodup _ _ _ Hn) in Hin, E. congruence.
      * intros Hin ->. contradiction.
    + apply lookup_none in E. split; [|congruence]. intros _ Hin. apply E. apply in_map_iff. exists (n, Some (rc_name x)). auto.
Qed.

(** what is compared with later items *)
Definition iv_of (y : rc) : list (Z * string) := match rc_altgroup y with Some _ => [] | None => [(rc_end y, rc_name y)] end.

Lemma check_rc_spec regs clus l : NoDup (map fst regs) -> NoDup (map fst clus) -> forall ivs ws,
  check_rc_overlaps regs clus ivs l = (ws, Ok tt) ->
  forall w, In w ws <-> exists l1 x l2 e n, l = l1 ++ x :: l2 /\ rc_altgroup x = None /\
    In (e, n) (ivs ++ flat_map iv_of l1) /\ rc_base x <= e /\ not_permitted regs clus x n /\ w = W_RcOverlap (rc_name x) n.
Proof.
  intros Hnr Hnc. 
  assert (Hna : forall x, NoDup (map fst (item_alts regs clus x))).
  { intros [r|c ch]; cbn [item_alts]; rewrite map_map; cbn [fst]; [exact Hnr|exact Hnc]. }
  induction l as [|x l IH]; intros ivs ws H w.
  - cbn in H. minv. split; [intros []|]. intros (l1 & x & l2 & e & n & E & _). destruct l1; discriminate.
  - assert (Hskip : rc_altgroup x <> None -> check_rc_overlaps regs clus ivs (x :: l) = check_rc_overlaps regs clus ivs l).
    { destruct x as [r|c ch]; cbn [rc_altgroup check_rc_overlaps]; [|congruence]. destruct (rb_altgroup (r_b r)); congruence. }
    destruct (rc_altgroup x) as [g|] eqn:Eg.
    + rewrite Hskip in H by discriminate. rewrite (IH _ _ H w). split.
      * intros (l1 & y & l2 & e & n & -> & Hy). exists (x :: l1), y, l2, e, n. split; [reflexivity|]. cbn [flat_map].
        unfold iv_of at 1. rewrite Eg. exact Hy.
      * intros (l1 & y & l2 & e & n & E & Hy). destruct l1 as [|x' l1]; cbn [app] in E; injection E as -> ->.
        { destruct Hy as [Hy _]. congruence. }
        exists l1, y, l2, e, n. split; [reflexivity|]. cbn [flat_map] in Hy. unfold iv_of at 1 in Hy. rewrite Eg in Hy. exact Hy.
    + clear Hskip.
      assert (H' : exists strict allowed w0 w1 w2, compute_allowed strict (item_alts regs clus x) (item_alt x) = (w0, Ok allowed) /\
        check_item x allowed (fun n => obind (lookup n (item_alts regs clus x)) (fun o => o)) ivs = (w1, Ok tt) /\
        check_rc_overlaps regs clus (ivs ++ [(rc_end x, rc_name x)]) l = (w2, Ok tt) /\ ws = w1 ++ w2).
      { destruct x as [r|c ch]; cbn [check_rc_overlaps rc_altgroup] in *; [rewrite Eg in H|].
        - apply bind_ok in H as (w0 & allowed & w0' & H0 & H & ->). apply bind_ok in H as (w1 & [] & w2 & H1 & H & ->).
          exists false, allowed, w0, w1, w2. split; [exact H0|]. split; [|split; [exact H|]].
          + rewrite <- H1. apply check_item_ext. intros n. symmetry. apply (lookup_map (fun x => rb_altreg (r_b x))).
          + apply compute_allowed_ok in H0 as [-> _]; [reflexivity|apply (Hna (Reg r))].
        - apply bind_ok in H as (w0 & allowed & w0' & H0 & H & ->). apply bind_ok in H as (w1 & [] & w2 & H1 & H & ->).
          exists true, allowed, w0, w1, w2. split; [exact H0|]. split; [|split; [exact H|]].
          + rewrite <- H1. apply check_item_ext. intros n. symmetry. apply (lookup_map (fun x => cb_altclu (c_b x))).
          + apply compute_allowed_ok in H0 as [-> _]; [reflexivity|apply (Hna (Clu c ch))]. }
      destruct H' as (strict & allowed & w0 & w1 & w2 & H0 & H1 & H2 & ->).
      destruct (check_item_spec x allowed (fun n => obind (lookup n (item_alts regs clus x)) (fun o => o)) ivs) as (w1' & H1' & Hw1).
      rewrite H1 in H1'. injection H1' as <-.
      rewrite in_app_iff, Hw1, (IH _ _ H2 w). split.
      * intros [(e & n & Hin & Hle & -> & Hb)|(l1 & y & l2 & e & n & -> & Hy & Hin & Hrest)].
        -- exists [], x, l, e, n. cbn [app flat_map]. rewrite app_nil_r. split; [reflexivity|]. split; [exact Eg|].
           split; [exact Hin|]. split; [exact Hle|]. split; [|reflexivity]. eapply blocked_not_permitted in Hb; eauto.
        -- exists (x :: l1), y, l2, e, n. split; [reflexivity|]. split; [exact Hy|]. split; [|exact Hrest].
           cbn [flat_map]. unfold iv_of at 1. rewrite Eg. now rewrite app_assoc.
      * intros (l1 & y & l2 & e & n & E & Hy & Hin & Hle & Hnp & ->). destruct l1 as [|x' l1]; cbn [app] in E; injection E as -> ->.
        -- left. exists e, n. cbn [flat_map] in Hin. rewrite app_nil_r in Hin. split; [exact Hin|]. split; [exact Hle|].
           split; [reflexivity|]. eapply blocked_not_permitted; eauto.
        -- right. exists l1, y, l2, e, n. split; [reflexivity|]. split; [exact Hy|].
           cbn [flat_map] in Hin. unfold iv_of at 1 in Hin. rewrite Eg, app_assoc in Hin. auto.
Qed.

(** ** Translation to the specification *)
Lemma reg_alts_decls l : item_alts (reg_lookup l) (clu_lookup l) (Reg (mk_reg (mk_rb "" None None None None 0 None MWV_MODIFY None None) (mk_props 0 READ_ONLY ANY 0 0) [] 0)) = reg_decls l.
Proof.
  cbn [item_alts]. unfold reg_lookup, reg_decls. induction l as [|x l IH]; cbn [flat_map map]; [reflexivity|].
  rewrite map_app, IH. destruct x as [r|c ch]; cbn [map fst snd app]; [|reflexivity]. now rewrite rc_dup_lookup.
Qed.
Lemma clu_alts_decls l : map (fun p => (fst p, cb_altclu (c_b (snd p)))) (clu_lookup l) = clu_decls l.
Proof.
  unfold clu_lookup, clu_decls. induction l as [|x l IH]; cbn [flat_map map]; [reflexivity|].
  rewrite map_app, IH. destruct x as [r|c ch]; cbn [map fst snd app]; reflexivity.
Qed.
Lemma Family_incl d1 d2 s x : incl d1 d2 -> Family d1 s x -> Family d2 s x.
Proof.
  intros H. induction 1 as [|x y _ IH Hin|x y _ IH Hin]; [constructor|eapply Fam_up; eauto|eapply Fam_down; eauto].
Qed.
Lemma decls_perm l1 l2 : Permutation l1 l2 -> Permutation (reg_decls l1) (reg_decls l2) /\ Permutation (clu_decls l1) (clu_decls l2).
Proof. intros H. unfold reg_decls, clu_decls. split; now apply Permutation_flat_map. Qed.

Lemma not_permitted_spec ys s x n : Permutation ys s ->
  not_permitted (reg_lookup ys) (clu_lookup ys) x n <-> forall y, el_name y = n -> ~ permitted s x y.
Proof.
  intros Hp. destruct (decls_perm _ _ Hp) as [Hpr Hpc].
  assert (Hrd : forall z, In z (reg_decls ys) <-> In z (reg_decls s)) by (intros; split; apply Permutation_in; [|symmetry]; assumption).
  assert (Hcd : forall z, In z (clu_decls ys) <-> In z (clu_decls s)) by (intros; split; apply Permutation_in; [|symmetry]; assumption).
  assert (Hex : exists y, el_name y = n).
  { exists (Clu (mk_clu (mk_cb n None None None 0) (mk_props 0 READ_ONLY ANY 0 0) 0 0 0) []). reflexivity. }
  unfold not_permitted, permitted. destruct x as [r|c ch]; cbn [item_alt el_name rc_name].
  - replace (item_alts (reg_lookup ys) (clu_lookup ys) (Reg r)) with (reg_decls ys) by (symmetry; apply reg_alts_decls).
    destruct (rb_altreg (r_b r)) as [a|].
    + split; [intros H y <- Hf; apply H|intros H Hf; destruct Hex as [y Hy]; apply (H y Hy); rewrite Hy];
        (eapply Family_incl; [|exact Hf]; intros z; apply Hrd).
    + split; [intros H y <- Hf; apply H; now apply Hrd|intros H Hf; destruct Hex as [y Hy]; apply (H y Hy); rewrite Hy; now apply Hrd].
  - cbn [item_alts]. rewrite clu_alts_decls. destruct (cb_altclu (c_b c)) as [a|].
    + split; [intros H y <- Hf; apply H|intros H Hf; destruct Hex as [y Hy]; apply (H y Hy); rewrite Hy];
        (eapply Family_incl; [|exact Hf]; intros z; apply Hcd).
    + split; [intros H y <- Hf; apply H; now apply Hcd|intros H Hf; destruct Hex as [y Hy]; apply (H y Hy); rewrite Hy; now apply Hcd].
Qed.

Lemma reg_lookup_keys l : incl (map fst (reg_lookup l)) (map rc_dup_name l) /\ (NoDup (map rc_dup_name l) -> NoDup (map fst (reg_lookup l))).
Proof.
  induction l as [|x l [IH1 IH2]]; cbn; [split; [intros ? []|constructor]|].
  destruct x as [r|c ch]; cbn [app map fst].
  - split; [intros z [<-|Hz]; [now left|right; auto]|]. intros H. inversion H; subst. constructor; auto. 
  - split; [intros z Hz; right; auto|]. intros H. inversion H; subst. auto.
Qed.
Lemma clu_lookup_keys l : incl (map fst (clu_lookup l)) (map rc_dup_name l) /\ (NoDup (map rc_dup_name l) -> NoDup (map fst (clu_lookup l))).
Proof.
  induction l as [|x l [IH1 IH2]]; cbn; [split; [intros ? []|constructor]|].
  destruct x as [r|c ch]; cbn [app map fst].
  - split; [intros z Hz; right; auto|]. intros H. inversion H; subst. auto.
  - split; [intros z [<-|Hz]; [now left|right; auto]|]. intros H. inversion H; subst. constructor; auto. 
Qed.

(** two siblings whose address ranges collide without permission *)
Definition rc_collision (s : list rc) (x y : rc) : Prop :=
  Earlier s y x /\ el_altgroup x = None /\ el_altgroup y = None /\ abs_addr x <= last_byte y /\ ~ permitted s x y.

Lemma permitted_name s x y z : el_name y = el_name z -> permitted s x y -> permitted s x z.
Proof. intros H. unfold permitted. rewrite H. auto. Qed.

Lemma check_rc_collisions ys s ws : Permutation ys s -> NoDup (map rc_dup_name ys) ->
  check_rc_overlaps (reg_lookup ys) (clu_lookup ys) [] s = (ws, Ok tt) ->
  forall w, In w ws <-> exists x y, rc_collision s x y /\ w = W_RcOverlap (el_name x) (el_name y).
Proof.
  intros Hp Hn H w.
  rewrite (check_rc_spec _ _ _ (proj2 (reg_lookup_keys ys) Hn) (proj2 (clu_lookup_keys ys) Hn) _ _ H w). cbn [app]. split.
  - intros (l1 & x & l2 & e & n & -> & Hx & Hin & Hle & Hnp & ->).
    apply in_flat_map in Hin as (y & Hy & Hin). unfold iv_of in Hin. destruct (rc_altgroup y) eqn:Ey; [destruct Hin|].
    destruct Hin as [Hin|[]]. injection Hin as <- <-. apply in_split in Hy as (m1 & m2 & ->).
    exists x, y. split; [|reflexivity]. change (abs_addr x <= last_byte y) in Hle. unfold rc_collision.
    split; [exists m1, m2, l2; now rewrite <- app_assoc|].
    split; [destruct x; auto|]. split; [destruct y; auto|]. split; [exact Hle|].
    rewrite (not_permitted_spec _ _ _ _ Hp) in Hnp. apply Hnp. symmetry; apply rc_name_el.
  - intros (x & y & ((l1 & l2 & l3 & ->) & Hx & Hy & Hle & Hnp) & ->).
    exists (l1 ++ y :: l2), x, l3, (rc_end y), (rc_name y). split; [now rewrite <- app_assoc|].
    split; [destruct x; auto|]. split.
    { rewrite flat_map_app. apply in_or_app. right. cbn [flat_map]. apply in_or_app. left. unfold iv_of.
      replace (rc_altgroup y) with (el_altgroup y) by (now destruct y). rewrite Hy. now left. }
    split; [exact Hle|]. split; [|reflexivity].
    rewrite (not_permitted_spec _ _ _ _ Hp). intros z Hz Hpz. apply Hnp. eapply permitted_name; [|exact Hpz].
    rewrite Hz. apply rc_name_el.
Qed.

(** warnings of the field pass are of other kinds *)
Definition is_rc_overlap (w : warning) : Prop := match w with W_RcOverlap _ _ => True | _ => False end.
Lemma fin_enum_values_warn l lsb msb : forall ws r, fin_enum_values l lsb msb = (ws, r) ->
  Forall (fun w => exists n v, w = W_EnumOutOfRange n v) ws.
Proof.
  induction l as [|v l IH]; intros ws r H; cbn [fin_enum_values] in H.
  - inversion H. constructor.
  - destruct (iev_value v) as [z|]; [|inversion H; constructor].
    destruct ((z <? 0) || (2 ^ (msb - lsb + 1) - 1 <? z)).
    + cbn [bind warn] in H. destruct (fin_enum_values l lsb msb) as [w' r'] eqn:E. injection H as <- <-. cbn [app].
      constructor; eauto.
    + destruct (fin_enum_values l lsb msb) as [w' [r'|e]] eqn:E; cbn [bind ret] in H; injection H as <- <-; rewrite ?app_nil_r; eauto.
Qed.
Lemma fin_enum_containers_warn l lsb msb ws r : fin_enum_containers l lsb msb = (ws, Ok r) ->
  Forall (fun w => exists n v, w = W_EnumOutOfRange n v) ws.
Proof.
  intros H. unfold fin_enum_containers in H. apply bind_ok in H as (w1 & x & w2 & H1 & H & ->). apply ret_ok in H as [_ ->]. rewrite app_nil_r.
  clear r. revert w1 x H1. induction l as [|c l IH]; intros w1 x H1; cbn [mapM] in H1.
  - minv. constructor.
  - apply bind_ok in H1 as (w3 & y & w4 & H3 & H1 & ->). apply bind_ok in H1 as (w5 & ys & w6 & H5 & H1 & ->). apply ret_ok in H1 as [_ ->].
    apply bind_ok in H3 as (w7 & vs & w8 & H7 & H3 & ->). apply ret_ok in H3 as [_ ->]. rewrite !app_nil_r.
    apply Forall_app. split; [|eauto]. eapply fin_enum_values_warn; eauto.
Qed.
Definition field_warning (w : warning) : Prop :=
  match w with W_EnumOutOfRange _ _ | W_FieldReserved | W_FieldExceeds _ _ _ => True | _ => False end.
Lemma check_fields_warn size l : forall rd wr ws, check_fields rd wr size l = (ws, Ok tt) -> ws = flat_map (exceeds size) l.
Proof.
  induction l as [|f l IH]; intros rd wr ws H; [cbn in H; minv; reflexivity|]. rewrite check_fields_eq in H.
  apply bind_ok in H as (w1 & [] & w2 & H1 & H & ->). apply warn_if_ok in H1.
  apply bind_ok in H as (w3 & [] & w4 & H3 & H & ->). apply raise_if_ok in H3 as [_ ->].
  apply bind_ok in H as (w5 & [] & w6 & H5 & H & ->). apply raise_if_ok in H5 as [_ ->].
  cbn [app flat_map]. rewrite (IH _ _ _ H), H1. unfold exceeds. reflexivity.
Qed.
Lemma fin_fields_warn l size ws s : fin_fields l size = (ws, Ok s) -> Forall field_warning ws.
Proof.
  intros H. apply fin_fields_ok in H as (ys & w1 & w2 & HL & _ & _ & Hc & ->). apply Forall_app. split.
  - clear - HL. induction HL as [|x l y ys evcs w ws Hr He Hf HL IH|x l ys ws Hr HL IH]; [constructor| |constructor; [exact I|auto]].
    apply Forall_app. split; [|auto]. apply fin_enum_containers_warn in He. eapply Forall_impl; [|exact He].
    intros w0 (n & v & ->). exact I.
  - apply check_fields_warn in Hc. subst w2. apply Forall_forall. intros w Hw. apply in_flat_map in Hw as (f & _ & Hw).
    unfold exceeds in Hw. destruct (_ <=? _); [|destruct Hw]. destruct Hw as [<-|[]]. exact I.
Qed.

(** ** The whole tree *)
Definition reported (s : list rc) (ws : list warning) : Prop :=
  forall s', Siblings s s' -> forall x y, rc_collision s' x y -> In (W_RcOverlap (el_name x) (el_name y)) ws.
Definition justified (s : list rc) (ws : list warning) : Prop :=
  forall a b, In (W_RcOverlap a b) ws -> exists s' x y, Siblings s s' /\ rc_collision s' x y /\ a = el_name x /\ b = el_name y.

Lemma reported_incl s w1 w2 : incl w1 w2 -> reported s w1 -> reported s w2.
Proof. intros Hi H s' HS x y Hc. apply Hi. eapply H; eauto. Qed.

Lemma fin_rcs_overlaps f l ws s :
  (forall x, In x l -> forall w o, f x = (w, Ok o) ->
     match o with Some (Clu c ch) => reported ch w /\ justified ch w | _ => forall a b, ~ In (W_RcOverlap a b) w end) ->
  fin_rcs f l = (ws, Ok s) -> reported s ws /\ justified s ws.
Proof.
  intros Hf H. apply fin_rcs_ok in H as (ys & w1 & w2 & HL & Hn & -> & Hc & ->).
  assert (Hiff := check_rc_collisions ys _ w2 (isort_perm rc_le ys) Hn Hc). split.
  - intros s' HS x y Hcol. inversion HS as [|? c ch ? Hin HS']; subst.
    + apply in_or_app. right. apply Hiff. eauto.
    + apply isort_in in Hin. apply in_or_app. left. clear - Hf HL Hin HS' Hcol.
      revert Hf. induction HL as [|z l z' ys w ws Hz HL IH|z l ys w ws Hz HL IH]; intros Hf; [destruct Hin| |].
      * destruct Hin as [->|Hin].
        -- apply in_or_app. left. specialize (Hf z (or_introl eq_refl) _ _ Hz). cbn in Hf. destruct Hf as [Hf _]. eapply Hf; eauto.
        -- apply in_or_app. right. apply IH; auto. intros; eapply Hf; eauto. now right.
      * apply in_or_app. right. apply IH; auto. intros; eapply Hf; eauto. now right.
  - intros a b Hin. apply in_app_or in Hin as [Hin|Hin].
    + assert (Hd : exists c ch s' x y, In (Clu c ch) ys /\ Siblings ch s' /\ rc_collision s' x y /\ a = el_name x /\ b = el_name y).
      { clear - Hf HL Hin. revert Hf. induction HL as [|z l z' ys w ws Hz HL IH|z l ys w ws Hz HL IH]; intros Hf; [destruct Hin| |].
        - apply in_app_or in Hin as [Hin|Hin].
          + specialize (Hf z (or_introl eq_refl) _ _ Hz). destruct z' as [r|c ch].
            * exfalso. eapply Hf; eauto.
            * destruct Hf as [_ Hf]. destruct (Hf a b Hin) as (s' & x & y & H). exists c, ch, s', x, y. split; [now left|exact H].
          + destruct IH as (c & ch & s' & x & y & H1 & H2); auto. { intros; eapply Hf; eauto. now right. }
            exists c, ch, s', x, y. split; [now right|exact H2].
        - apply in_app_or in Hin as [Hin|Hin].
          + specialize (Hf z (or_introl eq_refl) _ _ Hz). exfalso. eapply Hf; eauto.
          + destruct IH as (c & ch & s' & x & y & H1 & H2); auto. { intros; eapply Hf; eauto. now right. }
            exists c, ch, s', x, y. auto. }
      destruct Hd as (c & ch & s' & x & y & Hc' & HS & H). exists s', x, y. split; [|exact H]. eapply Sib_deep; [|exact HS].
      apply isort_in. exact Hc'.
    + apply Hiff in Hin as (x & y & Hcol & E). injection E as -> ->. exists (isort rc_le ys), x, y. split; [constructor|]. auto.
Qed.

Lemma fin_rc_overlaps x : forall base w o, fin_rc x base = (w, Ok o) ->
  match o with Some (Clu c ch) => reported ch w /\ justified ch w | _ => forall a b, ~ In (W_RcOverlap a b) w end.
Proof.
  induction x as [r|c l IH] using irc_ind'; intros base ws o H;
    apply fin_rc_ok in H as (s & Hs & [(_ & -> & ->)|(Hms & w & -> & H)]); try (intros a b [E|[]]; discriminate).
  - destruct H as [(_ & -> & ->)|(Hr & Halt & fs & p & Hf & Hp & Hps & ->)].
    + intros a b Hin. apply in_app_or in Hin as [Hin|Hin].
      { destruct (_ mod _ =? 0) in Hin; [destruct Hin|]; destruct Hin as [E|[]]; discriminate. }
      destruct Hin as [E|[]]; discriminate.
    + intros a b Hin. apply in_app_or in Hin as [Hin|Hin].
      { destruct (_ mod _ =? 0) in Hin; [destruct Hin|]; destruct Hin as [E|[]]; discriminate. }
      apply fin_fields_warn in Hf. rewrite Forall_forall in Hf. apply (Hf _ Hin).
  - destruct H as (ch & w1 & Hch & H).
    assert (HO : reported ch w1 /\ justified ch w1).
    { eapply fin_rcs_overlaps; [|exact Hch]. intros x Hx w' o' Hx'. rewrite Forall_forall in IH. exact (IH x Hx _ _ _ Hx'). }
    destruct H as [(-> & -> & ->)|(Hne & -> & p & Hp & Hps & H)].
    + intros a b Hin. apply in_app_or in Hin as [Hin|Hin].
      { destruct (_ mod _ =? 0) in Hin; [destruct Hin|]; destruct Hin as [E|[]]; discriminate. }
      apply in_app_or in Hin as [Hin|[E|[]]]; [|discriminate]. apply HO in Hin as (s' & x & y & HS & (((l1 & l2 & l3 & E) & _) & _)).
      inversion HS as [|? ? ? ? Hbad]; subst; [destruct l1; discriminate|destruct Hbad].
    + cbn zeta in H. subst o. split.
      * eapply reported_incl; [|apply HO]. apply incl_appr, incl_refl.
      * intros a b Hin. apply in_app_or in Hin as [Hin|Hin]; [|now apply HO].
        destruct (_ mod _ =? 0) in Hin; [destruct Hin|]; destruct Hin as [E|[]]; discriminate.
Qed.

Lemma fin_rcs_overlaps' base l ws s : fin_rcs (fun y => fin_rc y base) l = (ws, Ok s) -> reported s ws /\ justified s ws.
Proof. apply fin_rcs_overlaps. intros x _ w o. apply fin_rc_overlaps. Qed.
