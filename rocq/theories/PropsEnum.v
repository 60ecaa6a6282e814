(** * PropsEnum: C01-C04, enumerated values. *)
From Verif Require Import Base PyStr PyInt Types EnumModel FinalModel SpecEnum EnumFacts EnumFacts2 EnumFacts3.

(** ** C01 *)

(** has a don't-care digit *)
Definition has_dont_care (s : string) : Prop := exists i, String.get i s = Some "x"%char \/ String.get i s = Some "X"%char.

Lemma has_dont_care_lower s : contains "x" (lower s) = true <-> has_dont_care s.
Proof.
  induction s as [|c s IH]; cbn [lower smap contains startswith].
  - split; [discriminate|]. intros [[|i] [H|H]]; discriminate.
  - fold (lower s) in *. rewrite orb_true_iff, andb_true_r, Ascii.eqb_eq. rewrite IH. split.
    + intros [H|[i H]]; [|exists (S i); exact H]. exists 0%nat. cbn.
      destruct c as [[] [] [] [] [] [] [] []]; cbn in H; try discriminate; auto.
    + intros [[|i] H]; [left|right; exists i; exact H]. cbn in H. destruct H as [H|H]; injection H as ->; reflexivity.
Qed.

Lemma wildcard_name_bin name p s v : bin_prefix p -> wild_literal s ->
  (has_dont_care s -> wildcard_name name (p ++ s) v = (name ++ "_" ++ str_of_Z v)%string) /\
  (~ has_dont_care s -> wildcard_name name (p ++ s) v = name).
Proof.
  intros Hp Hw. unfold wildcard_name.
  assert (Hn : startswith "0x" (lower (p ++ s)) = false).
  { rewrite lower_app. destruct Hp as [<-|[<-|[<-|[]]]]; reflexivity. }
  rewrite Hn. assert (Hll : forall t, lower (lower t) = lower t).
  { induction t as [|c t IH]; [reflexivity|]. cbn. fold (lower t) (lower (lower t)). rewrite IH. f_equal.
    destruct c as [[] [] [] [] [] [] [] []]; reflexivity. }
  rewrite Hll, lower_app.
  assert (Hc : contains "x" (lower p ++ lower s) = contains "x" (lower s)).
  { destruct Hp as [<-|[<-|[<-|[]]]]; reflexivity. }
  rewrite Hc. destruct (contains "x" (lower s)) eqn:E.
  - apply has_dont_care_lower in E. split; [reflexivity|tauto].
  - split; [|reflexivity]. intros H. apply has_dont_care_lower in H. congruence.
Qed.

Lemma validate_all_clean l : forall st,
  (forall v, In v l -> iev_default v = false) ->
  (forall v, In v l -> ~ In (iev_name v) (vl_names st)) -> NoDup (map iev_name l) ->
  (forall v z, In v l -> iev_value v = Some z -> ~ In z (map fst (vl_values st))) -> NoDup (vals l) ->
  exists st', validate_all st l = ([], Ok (st', l)) /\ vl_default st' = vl_default st.
Proof.
  induction l as [|v l IH]; intros st Hd Hn Hnd Hv Hvd; [exists st; split; reflexivity|].
  cbn [validate_all]. unfold is_value_valid.
  replace (mem_str (iev_name v) (vl_names st)) with false.
  2: { symmetry. apply Bool.not_true_is_false. rewrite mem_str_In. apply Hn. now left. }
  replace (has_value (iev_value v) (vl_values st)) with false.
  2: { symmetry. apply Bool.not_true_is_false. unfold has_value. destruct (iev_value v) as [z|] eqn:Ez; [|discriminate].
       rewrite has_value_spec. eapply Hv; [now left|exact Ez]. }
  rewrite (Hd v (or_introl eq_refl)), bind_ret_l.
  set (st1 := mk_val _ _ _).
  cbn [map] in Hnd. inversion Hnd as [|? ? Hnin Hnd' E1]; subst.
  change (v :: l) with ([v] ++ l) in Hvd. rewrite vals_app in Hvd.
  destruct (IH st1) as (st' & Hst & Hdef).
  - intros u Hu. apply Hd. now right.
  - intros u Hu [E|Hin]; [|apply (Hn u (or_intror Hu) Hin)]. apply Hnin. rewrite E. now apply in_map.
  - exact Hnd'.
  - intros u z Hu Hz Hin. unfold st1 in Hin. cbn [vl_values] in Hin. destruct (iev_value v) as [zv|] eqn:Ev.
    + destruct Hin as [E|Hin]; [|eapply Hv; [right; exact Hu|exact Hz|exact Hin]]. cbn in E. subst zv.
      cbn [vals map somes flat_map] in Hvd. unfold vals at 1 in Hvd. cbn [map somes flat_map] in Hvd. rewrite Ev in Hvd. cbn [app] in Hvd.
      inversion Hvd as [|? ? Hx _ E1]; subst. apply Hx. apply vals_in. eauto.
    + eapply Hv; [right; exact Hu|exact Hz|exact Hin].
  - clear - Hvd. induction (vals [v]) as [|z t IH]; [exact Hvd|]. apply IH. now inversion Hvd.
  - exists st'. rewrite bind_ret_l. cbn [fst snd]. rewrite Hst. split; [reflexivity|exact Hdef].
Qed.

Lemma sorted_id (l : list iev) : StronglySorted Z.lt (map iev_key l) -> isort (zkey_le iev_key) l = l.
Proof.
  induction l as [|x l IH]; intros H; [reflexivity|]. cbn [map] in H. inversion H as [|? ? Hs Hf E]; subst.
  cbn [isort]. rewrite (IH Hs). destruct l as [|y l]; [reflexivity|]. cbn [map] in Hf. inversion Hf as [|? ? Hxy _ E2]; subst.
  cbn [insert]. unfold zkey_le at 1. replace (iev_key x <=? iev_key y) with true by lia. reflexivity.
Qed.

(** C01, one enumerated value on its own: processing a container whose only entry carries a don't-care literal [s] (written
    0b..., 0B... or #...) succeeds without a warning; the resulting values are strictly ascending and are exactly the
    integers matching the literal; each is named <name>_<value> when there is a don't-care digit. *)
Theorem C01_wildcard_single : forall c p pre s lsb msb,
  sevc_evs c = [p] -> sev_value p = Some (pre ++ s)%string -> bin_prefix pre -> wild_literal s ->
  lower (sev_name p) <> "reserved" -> sev_default p <> Some true ->
  exists r, create_evc c lsb msb = ([], Ok r) /\
    StronglySorted Z.lt (map (fun v => default 0 (iev_value v)) (ievc_evs r)) /\
    (forall v, In (Some v) (map iev_value (ievc_evs r)) <-> matches s v) /\
    (forall v, In v (ievc_evs r) -> exists z, iev_value v = Some z /\ iev_descr v = sev_descr p /\
       (has_dont_care s -> iev_name v = (sev_name p ++ "_" ++ str_of_Z z)%string) /\
       (~ has_dont_care s -> iev_name v = sev_name p)).
Proof.
  intros c p pre s lsb msb Hc Hv Hp Hw Hr Hd. unfold create_evc, process_enumerated_values. rewrite Hc. cbn [process_evs_loop].
  destruct (wild_values_spec s Hw) as [Hsort Hin].
  set (zs := wild_values (lower s)) in *.
  set (mk := fun z => mk_iev (wildcard_name (sev_name p) (pre ++ s) z) (sev_descr p) (Some z) false).
  assert (Hdf : default false (sev_default p) = false) by (destruct (sev_default p) as [[]|]; cbn; congruence).
  assert (Hrw : resolve_wildcard p = ([], Ok (map mk zs))).
  { unfold resolve_wildcard. rewrite Hv. destruct (pre ++ s)%string as [|c0 t0] eqn:Et.
    - destruct Hp as [<-|[<-|[<-|[]]]]; discriminate.
    - rewrite <- Et, (convert_wild _ _ Hp Hw), !bind_ret_l. fold zs.
      replace (String.eqb (lower (sev_name p)) "reserved") with false by (symmetry; now apply String.eqb_neq).
      rewrite Hdf, mapM_ret, bind_ret_l. unfold ret. do 2 f_equal. rewrite map_map. rewrite <- flat_map_concat_map.
      rewrite Et. clear. unfold mk. induction zs; [reflexivity|]. cbn. now rewrite IHzs. }
  rewrite Hrw. change (([], Ok (map mk zs))) with (ret (map mk zs)). rewrite bind_ret_l.
  assert (Hvals : forall l, vals (map mk l) = l).
  { intros l. unfold vals, somes. rewrite map_map. cbn. induction l; [reflexivity|]. cbn. now rewrite IHl. }
  assert (Hnd : NoDup zs).
  { clear - Hsort. induction Hsort as [|z l Hs IH Hf]; constructor; auto. intros H. rewrite Forall_forall in Hf. specialize (Hf _ H). lia. }
  destruct (validate_all_clean (map mk zs) validator_init) as (st' & Hst & Hdef).
  - intros v Hv'. apply in_map_iff in Hv' as (z & <- & _). reflexivity.
  - intros v _ [].
  - rewrite map_map. unfold mk at 1. cbn [iev_name].
    destruct (contains "x" (lower s)) eqn:Ex.
    + apply has_dont_care_lower in Ex.
      rewrite (map_ext _ (fun z => (sev_name p ++ "_" ++ str_of_Z z)%string)).
      2: { intros z. now apply wildcard_name_bin. }
      apply FinFun.Injective_map_NoDup; [|exact Hnd]. intros a b E.
      assert (E2 : str_of_Z a = str_of_Z b); [|now apply str_of_Z_inj].
      clear - E. induction (sev_name p) as [|x n IH]; cbn in E; injection E; auto.
    + assert (Hlw := lower_wild s (proj2 Hw)). unfold zs, wild_values. rewrite (expand_noX _ Ex). cbn. constructor; [intros []|constructor].
  - intros v z _ _ [].
  - now rewrite Hvals.
  - rewrite Hst. change (([], Ok (st', map mk zs))) with (ret (st', map mk zs)). rewrite bind_ret_l. cbn [process_evs_loop fst snd].
    rewrite !bind_ret_l. cbn [fst snd]. rewrite Hdef. cbn [validator_init vl_default]. rewrite !bind_ret_l, app_nil_r.
    assert (Hk : map iev_key (map mk zs) = zs) by (rewrite map_map; cbn; apply map_id).
    rewrite (sorted_id (map mk zs)) by (now rewrite Hk).
    eexists. split; [reflexivity|]. cbn [ievc_evs]. split; [|split].
    + change (fun v => default 0 (iev_value v)) with iev_key. now rewrite Hk.
    + intros v. rewrite map_map. cbn. rewrite <- Hin. rewrite in_map_iff. split; [intros (z & E & Hz); injection E as <-; exact Hz|eauto].
    + intros v Hv'. apply in_map_iff in Hv' as (z & <- & _). exists z. cbn. repeat split; now apply wildcard_name_bin.
Qed.

(** C01, inside any container (no default entry, nothing reported as duplicate): the matching integers of every don't-care
    literal are all present under the right name, and every value present stems from one of the entries. *)
Theorem C01_wildcard_container : forall c lsb msb ws r,
  create_evc c lsb msb = (ws, Ok r) -> (forall n, ~ In (W_EnumDupName n) ws) -> (forall n z, ~ In (W_EnumDupValue n z) ws) ->
  (forall p, In p (sevc_evs c) -> sev_default p <> Some true) ->
  forall p pre s, In p (sevc_evs c) -> sev_value p = Some (pre ++ s)%string -> bin_prefix pre -> wild_literal s ->
  lower (sev_name p) <> "reserved" -> has_dont_care s ->
  (forall z, matches s z -> In (mk_iev (sev_name p ++ "_" ++ str_of_Z z) (sev_descr p) (Some z) false) (ievc_evs r)) /\
  (forall z, ~ matches s z -> In (mk_iev (sev_name p ++ "_" ++ str_of_Z z) (sev_descr p) (Some z) false) (ievc_evs r) ->
     exists q t w zs, In q (sevc_evs c) /\ q <> p /\ sev_value q = Some t /\ convert_enumerated_value t = (w, Ok zs) /\ In z zs).
Proof.
  intros c lsb msb ws r H Hdn Hdv Hnod p pre s Hpin Hv Hp Hw Hr Hdc.
  unfold create_evc in H. minv. rename Hm into H. cbn [ievc_evs].
  rewrite app_nil_r in Hdn, Hdv.
  apply pev_inv in H as (w0 & st & acc & Hl & HI & _ & Hc).
  destruct (process_evs_loop_ok (sevc_evs c) _ [] _ _ VInv_init Hl) as (_ & Hprov & Hcomp & Hres). cbn [fst snd app] in *.
  assert (Hrs : is_reserved (sev_name p) = false) by (unfold is_reserved; now apply String.eqb_neq).
  assert (Hne : (pre ++ s)%string <> "") by (destruct Hp as [<-|[<-|[<-|[]]]]; discriminate).
  destruct (wild_values_spec s Hw) as [_ Hin].
  assert (Hnodef : vl_default st = None).
  { destruct (vl_default st) as [d|] eqn:Ed; [|reflexivity]. exfalso. destruct (vi_default_in _ _ HI d Ed) as [Hdin Hdd].
    destruct (Hprov d Hdin) as (q & w & us & u & Hq & Hrq & Hu & ->). destruct (resolve_wildcard_ok _ _ _ Hrq) as [_ Hok].
    destruct (Hok u Hu) as (_ & Hdf & _).
    assert (iev_default u = true) by (unfold reset_default in Hdd; destruct (iev_default u) eqn:Ex; auto; congruence).
    rewrite H in Hdf. specialize (Hnod q Hq). destruct (sev_default q) as [[]|]; cbn in Hdf; congruence. }
  destruct Hc as [(_ & Hperm & ->)|(d & r0 & Hd & _)]; [|congruence].
  assert (Hdf : default false (sev_default p) = false) by (specialize (Hnod p Hpin); destruct (sev_default p) as [[]|]; cbn; congruence).
  split.
  - intros z Hz. apply (Permutation_in _ Hperm). destruct (Hres p Hpin) as (wp & up & Hrp).
    assert (Hx := resolve_wildcard_complete _ _ _ _ _ _ z Hrp Hrs Hv Hne (convert_wild _ _ Hp Hw)).
    rewrite Hin in Hx. specialize (Hx Hz). rewrite Hdf in Hx. destruct (wildcard_name_bin (sev_name p) pre s z Hp Hw) as [Hn _].
    rewrite (Hn Hdc) in Hx. exact (Hcomp (conj Hdn Hdv) p wp up Hpin Hrp _ Hx).
  - intros z Hz Hin1. apply (Permutation_in _ (Permutation_sym Hperm)) in Hin1.
    destruct (Hprov _ Hin1) as (q & w & us & u & Hq & Hrq & Hu & E).
    destruct (resolve_wildcard_ok _ _ _ Hrq) as [_ Hok]. destruct (Hok u Hu) as (_ & Hdfu & Hval).
    assert (Hu2 : iev_value u = Some z).
    { unfold reset_default in E. destruct (iev_default u); [discriminate|]. now rewrite <- E. }
    rewrite Hu2 in Hval. destruct Hval as (t & w1 & zs & H1 & _ & H3 & H4 & _). exists q, t, w1, zs. repeat split; auto.
    intros ->. rewrite Hv in H1. injection H1 as <-. rewrite (convert_wild _ _ Hp Hw) in H3. apply ret_ok in H3 as [<- _].
    apply Hz. now apply Hin.
Qed.

Example C01_nonvacuous :
  wild_literal "1x0X" /\ has_dont_care "1x0X" /\
  match create_evc (mk_sevc None None None [mk_sev "A" None (Some "0b1x0X") None] None) 0 3 with
  | (ws, Ok r) => ws = [] /\ map (fun v => (iev_name v, iev_value v)) (ievc_evs r) =
      [("A_8", Some 8); ("A_9", Some 9); ("A_12", Some 12); ("A_13", Some 13)]%string
  | _ => False
  end.
Proof.
  split; [split; [discriminate|cbn; unfold wild_char; cbn; intuition]|]. split; [exists 1%nat; left; reflexivity|].
  vm_compute. split; reflexivity.
Qed.

(** ** C02 *)
(** whatever enumerated values a container lists and whatever bits the field has: the values of the finished container are
    strictly ascending (hence distinct) and fit in the field *)
Theorem C02_values_distinct_ascending_in_range : forall c lsb msb ws r ws' vs,
  create_evc c lsb msb = (ws, Ok r) -> fin_enum_values (ievc_evs r) lsb msb = (ws', Ok vs) ->
  StronglySorted Z.lt (map ev_value vs) /\ NoDup (map ev_value vs) /\
  (forall v, In v vs -> 0 <= ev_value v <= 2 ^ (msb - lsb + 1) - 1).
Proof.
  intros c lsb msb ws r ws' vs H1 H2. unfold create_evc in H1. minv. cbn [ievc_evs] in H2.
  destruct (container_values_ok _ _ _ _ _ _ _ _ _ Hm H2) as [Hs Hr]. split; [exact Hs|]. split; [|exact Hr].
  clear - Hs. induction Hs as [|z l Hs IH Hf]; constructor; auto. intros H. rewrite Forall_forall in Hf. specialize (Hf _ H). lia.
Qed.

Example C02_nonvacuous :
  match create_evc (mk_sevc None None None [mk_sev "B" None (Some "3") None; mk_sev "A" None (Some "#x") None; mk_sev "C" None (Some "0x9") None] None) 4 5 with
  | (_, Ok r) => match fin_enum_values (ievc_evs r) 4 5 with
                 | (ws, Ok vs) => map ev_value vs = [0; 1; 3] /\ ws = [W_EnumOutOfRange "C" 9]
                 | _ => False end
  | _ => False
  end.
Proof. vm_compute. split; reflexivity. Qed.

(** ** C03 *)
Lemma sorted_same_members (l1 l2 : list Z) : StronglySorted Z.lt l1 -> StronglySorted Z.lt l2 ->
  (forall z, In z l1 <-> In z l2) -> l1 = l2.
Proof.
  intros H1. revert l2. induction H1 as [|x l1 Hs IH Hf]; intros l2 H2 Hin.
  - destruct l2 as [|y l2]; [reflexivity|]. exfalso. apply (Hin y). now left.
  - destruct l2 as [|y l2]; [exfalso; apply (Hin x); now left|]. inversion H2 as [|? ? Hs2 Hf2 E]; subst.
    rewrite Forall_forall in Hf, Hf2.
    assert (x = y).
    { destruct (proj1 (Hin x) (or_introl eq_refl)) as [->|Hx]; [reflexivity|].
      destruct (proj2 (Hin y) (or_introl eq_refl)) as [->|Hy]; [reflexivity|]. specialize (Hf _ Hy). specialize (Hf2 _ Hx). lia. }
    subst y. f_equal. apply IH; [exact Hs2|]. intros z. specialize (Hin z). cbn in Hin. split; intros Hz.
    + destruct (proj1 Hin (or_intror Hz)) as [->|H]; [|exact H]. specialize (Hf _ Hz). lia.
    + destruct (proj2 Hin (or_intror Hz)) as [->|H]; [|exact H]. specialize (Hf2 _ Hz). lia.
Qed.
(** A container with a default entry (not itself carrying a value, nothing ignored as duplicate): the finished container has
    exactly the values 0 .. 2^width-1; the explicitly listed ones keep name and description; all others are called
    <default>_<value> and carry the default's description. *)
Theorem C03_default_completes : forall c lsb msb ws r ws' vs d,
  create_evc c lsb msb = (ws, Ok r) -> fin_enum_values (ievc_evs r) lsb msb = (ws', Ok vs) ->
  (forall n, ~ In (W_EnumDupName n) ws) -> (forall n z, ~ In (W_EnumDupValue n z) ws) ->
  In d (sevc_evs c) -> sev_default d = Some true -> lower (sev_name d) <> "reserved" -> sev_value d = None ->
  map ev_value vs = zrange 0 (2 ^ (msb - lsb + 1)) /\
  (forall v, In v (ievc_evs r) -> iev_default v = false) /\
  (forall p t w zs z, In p (sevc_evs c) -> sev_default p <> Some true -> lower (sev_name p) <> "reserved" ->
     sev_value p = Some t -> t <> "" -> convert_enumerated_value t = (w, Ok zs) -> In z zs -> 0 <= z < 2 ^ (msb - lsb + 1) ->
     In (mk_ev (wildcard_name (sev_name p) t z) (sev_descr p) z) vs) /\
  (forall v, In v vs ->
     (exists p t w zs, In p (sevc_evs c) /\ sev_default p <> Some true /\ sev_value p = Some t /\
        convert_enumerated_value t = (w, Ok zs) /\ In (ev_value v) zs /\
        ev_name v = wildcard_name (sev_name p) t (ev_value v) /\ ev_descr v = sev_descr p) \/
     (ev_name v = (sev_name d ++ "_" ++ str_of_Z (ev_value v))%string /\ ev_descr v = sev_descr d)).
Proof.
  intros c lsb msb ws r ws' vs d H1 H2 Hn1 Hn2 Hd Hdd Hdr Hdv. unfold create_evc in H1. minv. cbn [ievc_evs] in *.
  rewrite app_nil_r in Hn1, Hn2.
  assert (Hrs : forall n, lower n <> "reserved" -> is_reserved n = false) by (intros n Hn; unfold is_reserved; now apply String.eqb_neq).
  destruct (default_completes _ _ _ _ _ d Hm (conj Hn1 Hn2) Hd Hdd (Hrs _ Hdr)) as (Hw & Hnd & Hall & Hndef & Hexp & Hoth).
  destruct (container_values_ok _ _ _ _ _ _ _ _ _ Hm H2) as [Hs Hrange].
  apply fin_enum_values_ok in H2 as (Evs & Hsome & _).
  assert (Hmem : forall v z, In v a -> iev_value v = Some z -> 0 <= z < 2 ^ (msb - lsb + 1) -> In (mk_ev (iev_name v) (iev_descr v) z) vs).
  { intros v z Hv Hz Hr. rewrite Evs. apply in_map_iff. exists v. rewrite Hz. split; [reflexivity|]. apply filter_In. rewrite Hz. split; [exact Hv|lia]. }
  assert (Hback : forall v, In v vs -> exists u, In u a /\ iev_value u = Some (ev_value v) /\ ev_name v = iev_name u /\ ev_descr v = iev_descr u).
  { intros v Hv. rewrite Evs in Hv. apply in_map_iff in Hv as (u & <- & Hu). apply filter_In in Hu as [Hu Hz]. exists u.
    destruct (iev_value u); [cbn; auto|discriminate]. }
  split; [|split; [exact Hndef|split]].
  - apply sorted_same_members; [exact Hs|apply zrange_sorted|]. intros z. rewrite zrange_in. split.
    + intros Hz. apply in_map_iff in Hz as (v & <- & Hv). specialize (Hrange v Hv). lia.
    + intros Hz. specialize (Hall z Hz). apply vals_in in Hall as (v & Hv & Hvz). apply in_map_iff.
      exists (mk_ev (iev_name v) (iev_descr v) z). split; [reflexivity|]. now apply Hmem.
  - intros p t w zs z Hp Hpd Hpr Hpv Hne Hc Hz Hr.
    apply (Hmem (mk_iev (wildcard_name (sev_name p) t z) (sev_descr p) (Some z) false) z); [|reflexivity|exact Hr].
    eapply Hexp; eauto. destruct (sev_default p) as [[]|]; cbn; congruence.
  - intros v Hv. destruct (Hback v Hv) as (u & Hu & Huz & -> & ->). destruct (Hoth u _ Hu Huz) as [(p & t & w & zs & Hp & Hpd & Hpt & _ & Hc & Hz & E1 & E2)|[(_ & E1 & E2)|(t & w & zs & z' & Ht & _)]].
    + left. exists p, t, w, zs. repeat split; auto. intros Hx. rewrite Hx in Hpd. discriminate.
    + right. auto.
    + congruence.
Qed.

Example C03_nonvacuous :
  match create_evc (mk_sevc None None None [mk_sev "on" None (Some "#1x") None; mk_sev "dflt" (Some "d") None (Some true)] None) 2 4 with
  | (ws, Ok r) => ws = [] /\ match fin_enum_values (ievc_evs r) 2 4 with
                 | (_, Ok vs) => map (fun v => (ev_name v, ev_value v)) vs =
                    [("dflt_0", 0); ("dflt_1", 1); ("on_2", 2); ("on_3", 3); ("dflt_4", 4); ("dflt_5", 5); ("dflt_6", 6); ("dflt_7", 7)]%string
                 | _ => False end
  | _ => False
  end.
Proof. vm_compute. split; reflexivity. Qed.

(** ** C04 *)
(** names are unique when no entry is a default.  (Missing for the full claim: containers with a default, where it is false.) *)
Theorem C04_names_unique_partial : forall c lsb msb ws r ws' vs,
  create_evc c lsb msb = (ws, Ok r) -> fin_enum_values (ievc_evs r) lsb msb = (ws', Ok vs) ->
  (forall p, In p (sevc_evs c) -> sev_default p <> Some true) ->
  NoDup (map iev_name (ievc_evs r)) /\ NoDup (map ev_name vs).
Proof.
  intros c lsb msb ws r ws' vs H1 H2 Hd. unfold create_evc in H1. minv. cbn [ievc_evs] in *.
  assert (Hnd := names_unique_no_default _ _ _ _ _ Hm Hd). split; [exact Hnd|].
  apply fin_enum_values_ok in H2 as (-> & _). rewrite map_map. cbn [ev_name].
  clear - Hnd. induction a as [|v l IH]; cbn; [constructor|]. cbn in Hnd. inversion Hnd; subst.
  destruct (iev_value v) as [z|]; [|auto]. destruct (_ && _); [|auto]. cbn. constructor; [|auto].
  intros H. apply H1. apply in_map_iff in H as (u & E & Hu). apply filter_In in Hu as [Hu _]. rewrite <- E. now apply in_map.
Qed.

(** the claim is false with a default: the generated name <default>_<value> can coincide with an explicit name *)
Theorem C04_names_unique_refuted : exists c lsb msb r vs,
  create_evc c lsb msb = ([], Ok r) /\ fin_enum_values (ievc_evs r) lsb msb = ([], Ok vs) /\ ~ NoDup (map ev_name vs).
Proof.
  exists (mk_sevc None None None [mk_sev "A_1" None (Some "0") None; mk_sev "A" None None (Some true)] None), 0, 0.
  eexists. eexists. split; [vm_compute; reflexivity|]. split; [vm_compute; reflexivity|]. cbn. intros H. inversion H as [|? ? Hn _ E]; subst.
  apply Hn. now left.
Qed.

Example C04_nonvacuous :
  match create_evc (mk_sevc None None None [mk_sev "A" None (Some "0") None; mk_sev "A" None (Some "1") None; mk_sev "B" None (Some "2") None] None) 0 3 with
  | (ws, Ok r) => map iev_name (ievc_evs r) = ["A"; "B"]%string /\ ws = [W_EnumDupName "A"]
  | _ => False
  end.
Proof. vm_compute. split; reflexivity. Qed.

Print Assumptions C01_wildcard_single.
Print Assumptions C01_wildcard_container.
Print Assumptions C02_values_distinct_ascending_in_range.
Print Assumptions C03_default_completes.
Print Assumptions C04_names_unique_partial.
Print Assumptions C04_names_unique_refuted.
