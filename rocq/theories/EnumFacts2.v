(** * EnumFacts2: invariants of the enumerated value validator and the default extension. *)
From Verif Require Import Base PyStr PyInt Types EnumModel.
From Coq Require Import ZifyBool ZifyNat.

Definition somes (l : list (option Z)) : list Z := flat_map (fun o => match o with Some z => [z] | None => [] end) l.
Definition vals (l : list iev) : list Z := somes (map iev_value l).

Lemma vals_app l1 l2 : vals (l1 ++ l2) = vals l1 ++ vals l2.
Proof. unfold vals, somes. now rewrite map_app, flat_map_app. Qed.
Lemma vals_in l z : In z (vals l) <-> exists v, In v l /\ iev_value v = Some z.
Proof.
  unfold vals, somes. rewrite in_flat_map. split.
  - intros (o & Ho & Hz). apply in_map_iff in Ho as (v & <- & Hv). exists v. split; auto.
    destruct (iev_value v); [destruct Hz as [->|[]]; reflexivity|destruct Hz].
  - intros (v & Hv & He). exists (Some z). split; [|simpl; auto]. rewrite <- He. now apply in_map.
Qed.

(** invariant: the validator state describes the list of accepted values *)
Record VInv (st : validator) (vs : list iev) : Prop := {
  vi_names : forall n, In n (vl_names st) <-> In n (map iev_name vs);
  vi_values : forall z, In z (map fst (vl_values st)) <-> In z (vals vs);
  vi_nd_names : NoDup (map iev_name vs);
  vi_nd_vals : NoDup (vals vs);
  vi_default : forall v, In v vs -> iev_default v = true -> vl_default st = Some v /\ iev_value v = None;
  vi_default_in : forall d, vl_default st = Some d -> In d vs /\ iev_default d = true }.

Lemma VInv_init : VInv validator_init [].
Proof. constructor; cbn; try tauto; try constructor; try discriminate. Qed.

Lemma has_value_spec z l : existsb (fun p : Z * string => fst p =? z) l = true <-> In z (map fst l).
Proof.
  rewrite existsb_exists, in_map_iff. split.
  - intros (p & Hp & He). exists p. split; [lia|auto].
  - intros (p & <- & Hp). exists p. split; [auto|lia].
Qed.

Lemma NoDup_snoc {A} (l : list A) x : NoDup l -> ~ In x l -> NoDup (l ++ [x]).
Proof.
  intros H Hx. apply (Permutation_NoDup (Permutation_app_comm [x] l)). cbn. now constructor.
Qed.

(** a default entry loses its value *)
Definition reset_default (v : iev) : iev := if iev_default v then mk_iev (iev_name v) (iev_descr v) None true else v.

Lemma is_value_valid_ok st vs v ws st' r :
  VInv st vs -> is_value_valid st v = (ws, Ok (st', r)) ->
  match r with
  | Some v' => VInv st' (vs ++ [v']) /\ v' = reset_default v
               /\ ~ In (iev_name v) (map iev_name vs)
               /\ (forall z, iev_value v = Some z -> ~ In z (vals vs))
               /\ ws = (if iev_default v then match iev_value v with Some z => [W_EnumDefaultValue (iev_name v) z] | None => [] end else [])
  | None => st' = st /\ ((In (iev_name v) (map iev_name vs) /\ ws = [W_EnumDupName (iev_name v)])
                         \/ (exists z, iev_value v = Some z /\ In z (vals vs) /\ ws = [W_EnumDupValue (iev_name v) z]))
  end.
Proof.
  intros HI H. unfold is_value_valid in H.
  destruct (mem_str (iev_name v) (vl_names st)) eqn:Hn.
  { minv. split; auto. left. split; auto. apply (vi_names _ _ HI). now apply mem_str_In. }
  apply mem_str_nIn in Hn. rewrite (vi_names _ _ HI) in Hn.
  destruct (has_value (iev_value v) (vl_values st)) eqn:Hv.
  { minv. split; auto. right.
    unfold has_value in Hv. destruct (iev_value v) as [z|]; [|discriminate].
    apply has_value_spec in Hv. exists z. repeat split. now apply (vi_values _ _ HI). }
  assert (Hv' : forall z, iev_value v = Some z -> ~ In z (vals vs)).
  { intros z Hz. rewrite Hz in Hv. cbn [has_value] in Hv. intros Hin. apply (vi_values _ _ HI) in Hin.
    apply has_value_spec in Hin. congruence. }
  minv.
  assert (Ha : a = reset_default v /\ (iev_default v = true -> vl_default st = None)
               /\ ws0 = (if iev_default v then match iev_value v with Some z => [W_EnumDefaultValue (iev_name v) z] | None => [] end else [])).
  { unfold reset_default. destruct (iev_default v) eqn:Hd; minv.
    - split; [auto|]. split.
      + intros _. destruct (vl_default st); [discriminate|reflexivity].
      + destruct (iev_value v); minv; cbn [app]; rewrite ?app_nil_r; reflexivity.
    - split; [auto|]. split; [discriminate|reflexivity]. }
  destruct Ha as [-> [Hdef Hws]].
  assert (Hname : iev_name (reset_default v) = iev_name v) by (unfold reset_default; destruct (iev_default v); reflexivity).
  assert (Hdf : iev_default (reset_default v) = iev_default v)
    by (unfold reset_default; destruct (iev_default v) eqn:E; auto).
  assert (Hval : iev_default v = true -> iev_value (reset_default v) = None)
    by (unfold reset_default; intros ->; reflexivity).
  assert (Hvn : forall z, iev_value (reset_default v) = Some z -> iev_value v = Some z).
  { intros z. unfold reset_default; destruct (iev_default v); [discriminate|auto]. }
  assert (Hvals1 : vals [reset_default v] = match iev_value (reset_default v) with Some z => [z] | None => [] end).
  { unfold vals, somes. cbn. destruct (iev_value (reset_default v)); reflexivity. }
  split; [|repeat split; auto; now rewrite app_nil_r].
  destruct HI as [I1 I2 I3 I4 I5 I6]. constructor; cbn [vl_names vl_values vl_default].
  - intros n. rewrite map_app, in_app_iff. cbn. rewrite I1. rewrite Hname. tauto.
  - intros z. rewrite vals_app, in_app_iff, Hvals1.
    destruct (iev_value (reset_default v)) as [y|]; cbn; rewrite I2; tauto.
  - rewrite map_app. cbn. apply NoDup_snoc; auto. now rewrite Hname.
  - rewrite vals_app, Hvals1. destruct (iev_value (reset_default v)) as [y|] eqn:Ey; [|now rewrite app_nil_r].
    apply NoDup_snoc; auto.
  - intros x Hx Hxd. apply in_app_or in Hx as [Hx|[<-|[]]].
    + destruct (I5 x Hx Hxd) as [Hs Hnone]. destruct (iev_default v); [rewrite (Hdef eq_refl) in Hs; discriminate|auto].
    + rewrite Hdf in Hxd. rewrite Hxd. auto.
  - intros d Hd. destruct (iev_default v) eqn:Ed.
    + injection Hd as <-. split; [apply in_or_app; simpl; auto|]. now rewrite Hdf.
    + destruct (I6 d Hd). split; [apply in_or_app|]; auto.
Qed.

Lemma is_value_valid_ok' st vs v ws p :
  VInv st vs -> is_value_valid st v = (ws, Ok p) ->
  VInv (fst p) (vs ++ match snd p with Some v' => [v'] | None => [] end)
  /\ (forall v', snd p = Some v' -> v' = reset_default v)
  /\ ((forall n, ~ In (W_EnumDupName n) ws) -> (forall n z, ~ In (W_EnumDupValue n z) ws) -> snd p = Some (reset_default v)).
Proof.
  intros HI H. destruct p as [st' r]. apply (is_value_valid_ok _ _ _ _ _ _ HI) in H. cbn [fst snd].
  destruct r as [v'|].
  - destruct H as (H1 & H2 & _ & _ & _). split; [exact H1|]. split; [intros w Hw; congruence|intros; congruence].
  - destruct H as [-> H]. rewrite app_nil_r. split; [exact HI|]. split; [discriminate|].
    intros Hn Hv. exfalso. destruct H as [[_ ->]|(z & _ & _ & ->)]; [eapply Hn|eapply Hv]; simpl; auto.
Qed.

Definition no_dup_warning (ws : list warning) : Prop :=
  (forall n, ~ In (W_EnumDupName n) ws) /\ (forall n z, ~ In (W_EnumDupValue n z) ws).
Lemma no_dup_app ws1 ws2 : no_dup_warning (ws1 ++ ws2) <-> no_dup_warning ws1 /\ no_dup_warning ws2.
Proof.
  unfold no_dup_warning. split.
  - intros [H1 H2]. split; split; intros; intro Hin; [eapply H1|eapply H2|eapply H1|eapply H2]; apply in_or_app; eauto.
  - intros [[H1 H2] [H3 H4]]. split; intros; intros Hin; apply in_app_or in Hin as [Hin|Hin];
      [eapply H1|eapply H3|eapply H2|eapply H4]; eauto.
Qed.

Lemma validate_all_ok l : forall st vs ws p,
  VInv st vs -> validate_all st l = (ws, Ok p) ->
  VInv (fst p) (vs ++ snd p)
  /\ (forall v, In v (snd p) -> exists u, In u l /\ v = reset_default u)
  /\ (no_dup_warning ws -> snd p = map reset_default l).
Proof.
  induction l as [|v l IH]; intros st vs ws p HI H; cbn [validate_all] in H; minv.
  - cbn. rewrite app_nil_r. split; [auto|]. split; [intros v []|auto].
  - apply (is_value_valid_ok' _ _ _ _ _ HI) in Hm as (H1 & H2 & H3).
    apply (IH _ _ _ _ H1) in Hm0 as (H4 & H5 & H6). cbn [fst snd].
    split; [|split].
    + rewrite <- app_assoc in H4. destruct (snd a) as [v'|]; exact H4.
    + intros w Hw. destruct (snd a) as [v'|] eqn:Ea.
      * destruct Hw as [<-|Hw]; [exists v; split; simpl; auto|].
        destruct (H5 w Hw) as (u & ? & ?). exists u; simpl; auto.
      * destruct (H5 w Hw) as (u & ? & ?). exists u; simpl; auto.
    + intros Hnd. rewrite app_nil_r in Hnd. apply no_dup_app in Hnd as [[Hn1 Hn2] Hnd2].
      rewrite (H3 Hn1 Hn2), (H6 Hnd2). reflexivity.
Qed.

Lemma process_evs_loop_ok ps : forall st vs ws p,
  VInv st vs -> process_evs_loop st ps = (ws, Ok p) ->
  VInv (fst p) (vs ++ snd p)
  /\ (forall v, In v (snd p) -> exists q w us u, In q ps /\ resolve_wildcard q = (w, Ok us) /\ In u us /\ v = reset_default u)
  /\ (no_dup_warning ws -> forall q w us, In q ps -> resolve_wildcard q = (w, Ok us) ->
        forall u, In u us -> In (reset_default u) (snd p))
  /\ (forall q, In q ps -> exists w us, resolve_wildcard q = (w, Ok us)).
Proof.
  induction ps as [|q ps IH]; intros st vs ws p HI H; cbn [process_evs_loop] in H; minv.
  - cbn. rewrite app_nil_r. split; [auto|]. split; [intros v []|]. split; [intros _ q w us []|intros q []].
  - apply (validate_all_ok _ _ _ _ _ HI) in Hm0 as (H1 & H2 & H3).
    apply (IH _ _ _ _ H1) in Hm1 as (H4 & H5 & H6 & H7). cbn [fst snd].
    rewrite app_assoc. split; [exact H4|]. split; [|split].
    + intros v Hv. apply in_app_or in Hv as [Hv|Hv].
      * destruct (H2 v Hv) as (u & Hu & ->). exists q, ws0, a, u. simpl; auto.
      * destruct (H5 v Hv) as (q' & w & us & u & ? & ? & ? & ?). exists q', w, us, u. simpl; auto.
    + intros Hnd q' w us [<-|Hq] Hr u Hu.
      * rewrite app_nil_r in Hnd. apply no_dup_app in Hnd as [_ Hnd]. apply no_dup_app in Hnd as [Hnd _].
        rewrite Hm in Hr. injection Hr as <- <-. apply in_or_app. left. rewrite (H3 Hnd). now apply in_map.
      * rewrite app_nil_r in Hnd. apply no_dup_app in Hnd as [_ Hnd]. apply no_dup_app in Hnd as [_ Hnd].
        apply in_or_app. right. eapply H6; eauto.
    + intros q' [<-|Hq]; eauto.
Qed.

(** ** Default extension *)
Lemma extend_ok vs d lsb msb ws r :
  extend_with_default vs d lsb msb = (ws, Ok r) ->
  NoDup (vals vs) -> (forall v, In v vs -> iev_default v = true -> iev_value v = None) ->
  0 <= msb - lsb + 1 /\ ws = []
  /\ (forall v, In v r <-> (In v vs /\ iev_default v = false) \/
        (exists z, 0 <= z < 2 ^ (msb - lsb + 1) /\ ~ In z (vals vs)
                   /\ v = mk_iev (iev_name d ++ "_" ++ str_of_Z z) (iev_descr d) (Some z) false))
  /\ NoDup (vals r)
  /\ (forall z, In z (vals r) <-> In z (vals vs) \/ 0 <= z < 2 ^ (msb - lsb + 1)).
Proof.
  intros H Hnd Hdef. unfold extend_with_default in H.
  apply bind_ok in H as (w1 & u1 & w2 & Hc & H & ->). apply raise_if_ok in Hc as [Hc ->].
  apply ret_ok in H as [Hr ->].
  set (w := msb - lsb + 1) in *.
  set (covered := fun v => existsb (fun x => match iev_value x with Some z => z =? v | None => false end) vs) in *.
  assert (Hcov : forall z, covered z = true <-> In z (vals vs)).
  { intros z. unfold covered. rewrite existsb_exists, vals_in. split.
    - intros (x & Hx & He). exists x. split; auto. destruct (iev_value x); [f_equal; lia|discriminate].
    - intros (x & Hx & He). exists x. rewrite He. split; auto. lia. }
  set (unc := filter (fun v => negb (covered v)) (zrange 0 (2 ^ w))).
  set (mk := fun v : Z => mk_iev (iev_name d ++ "_" ++ str_of_Z v)%string (iev_descr d) (Some v) false).
  change (filter (fun x => negb (iev_default x)) (vs ++ map mk unc) = r) in Hr. subst r.
  assert (Hunc : forall z, In z unc <-> 0 <= z < 2 ^ w /\ ~ In z (vals vs)).
  { intros z. unfold unc. rewrite filter_In, zrange_in, negb_true_iff, <- Hcov.
    destruct (covered z); intuition congruence. }
  assert (Hadd : vals (map mk unc) = unc).
  { unfold vals, somes. rewrite map_map. clearbody unc. clear. induction unc as [|z u IHu]; cbn; [reflexivity|]. now f_equal. }
  assert (Hvf : vals (filter (fun x => negb (iev_default x)) vs) = vals vs).
  { clear - Hdef. induction vs as [|v vs IH]; cbn [filter]; [reflexivity|].
    assert (IH' := IH (fun u Hu => Hdef u (or_intror Hu))). clear IH.
    destruct (iev_default v) eqn:Hd; cbn [negb].
    - change (v :: vs) with ([v] ++ vs). rewrite vals_app, IH'. unfold vals at 2. cbn.
      rewrite (Hdef v (or_introl eq_refl) Hd). reflexivity.
    - change (v :: filter (fun x => negb (iev_default x)) vs) with ([v] ++ filter (fun x => negb (iev_default x)) vs).
      change (v :: vs) with ([v] ++ vs). now rewrite !vals_app, IH'. }
  assert (Hfa : filter (fun x => negb (iev_default x)) (map mk unc) = map mk unc).
  { clearbody unc. clear. induction unc as [|z u IHu]; cbn; [reflexivity|]. now f_equal. }
  repeat split; try lia.
  - intros Hin. rewrite filter_app, Hfa in Hin. apply in_app_or in Hin as [Hin|Hin].
    + apply filter_In in Hin as [H1 H2]. left. now rewrite negb_true_iff in H2.
    + apply in_map_iff in Hin as (z & <- & Hz). right. exists z. apply Hunc in Hz. unfold mk. tauto.
  - intros [[H1 H2]|(z & H1 & H2 & ->)]; rewrite filter_app, Hfa; apply in_or_app.
    + left. apply filter_In. now rewrite H2.
    + right. apply in_map_iff. exists z. split; [reflexivity|]. now apply Hunc.
  - rewrite filter_app, Hfa, vals_app, Hvf, Hadd. apply NoDup_app_intro; auto.
    + unfold unc. apply NoDup_filter, zrange_nodup.
    + intros z Hz Hz'. apply Hunc in Hz'. tauto.
  - rewrite filter_app, Hfa, vals_app, Hvf, Hadd, in_app_iff, Hunc. tauto.
  - rewrite filter_app, Hfa, vals_app, Hvf, Hadd, in_app_iff, Hunc.
    intros Hz. destruct (in_dec Z.eq_dec z (vals vs)); tauto.
Qed.
