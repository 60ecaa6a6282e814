(** * EnumFacts3: properties of processed enumerated value containers. *)
From Verif Require Import Base PyStr PyInt Types EnumModel FinalModel SpecEnum EnumFacts EnumFacts2.
From Coq Require Import ZifyBool ZifyNat.

Definition iev_le := zkey_le iev_key.

Lemma iev_sorted l : StronglySorted (leP iev_le) (isort iev_le l).
Proof. apply isort_sorted; [apply zkey_le_total|apply zkey_le_trans]. Qed.

Lemma vals_perm l1 l2 : Permutation l1 l2 -> Permutation (vals l1) (vals l2).
Proof. intros H. unfold vals, somes. apply Permutation_flat_map, Permutation_map, H. Qed.

(** the accepted entries before and after the default extension *)
Lemma pev_inv ps lsb msb ws vs :
  process_enumerated_values ps lsb msb = (ws, Ok vs) ->
  exists w0 st acc, process_evs_loop validator_init ps = (w0, Ok (st, acc)) /\ VInv st acc
    /\ StronglySorted (leP iev_le) vs
    /\ ((vl_default st = None /\ Permutation acc vs /\ ws = w0) \/
        (exists d r, vl_default st = Some d /\ extend_with_default acc d lsb msb = ([], Ok r) /\ Permutation r vs /\ ws = w0)).
Proof.
  intros H. unfold process_enumerated_values in H.
  apply bind_ok in H as (w0 & [st acc] & w1 & H1 & H & ->). cbn [fst snd] in H.
  apply bind_ok in H as (w2 & r & w3 & H2 & H & ->). apply ret_ok in H as [<- ->].
  exists w0, st, acc.
  destruct (process_evs_loop_ok ps _ [] _ _ VInv_init H1) as (HI & _ & _ & _). cbn [fst snd app] in HI.
  split; [exact H1|]. split; [exact HI|]. split; [apply iev_sorted|].
  destruct (vl_default st) as [d|] eqn:Ed.
  - right. exists d, r.
    assert (Hnd := vi_nd_vals _ _ HI).
    destruct (extend_ok acc d lsb msb w2 r H2 Hnd) as (_ & -> & _).
    { intros v Hv Hd. now apply (vi_default _ _ HI v Hv Hd). }
    repeat split; auto; [apply isort_perm|now rewrite !app_nil_r].
  - left. apply ret_ok in H2 as [-> ->]. repeat split; auto; [apply isort_perm|now rewrite !app_nil_r].
Qed.

Lemma pev_nodup ps lsb msb ws vs :
  process_enumerated_values ps lsb msb = (ws, Ok vs) -> NoDup (vals vs) /\ StronglySorted (leP iev_le) vs.
Proof.
  intros H. apply pev_inv in H as (w0 & st & acc & _ & HI & Hs & Hc). split; [|exact Hs].
  assert (Hnd := vi_nd_vals _ _ HI).
  destruct Hc as [(_ & Hp & _)|(d & r & _ & He & Hp & _)].
  - eapply Permutation_NoDup; [apply vals_perm, Hp|exact Hnd].
  - destruct (extend_ok _ _ _ _ _ _ He Hnd) as (_ & _ & _ & Hr & _).
    { intros v Hv Hd. now apply (vi_default _ _ HI v Hv Hd). }
    eapply Permutation_NoDup; [apply vals_perm, Hp|exact Hr].
Qed.

(** ** Finalization of a container *)
Lemma fin_enum_values_ok l lsb msb : forall ws r, fin_enum_values l lsb msb = (ws, Ok r) ->
  r = map (fun v => mk_ev (iev_name v) (iev_descr v) (default 0 (iev_value v)))
        (filter (fun v => match iev_value v with Some z => (0 <=? z) && (z <=? 2 ^ (msb - lsb + 1) - 1) | None => false end) l)
  /\ (forall v, In v l -> iev_value v <> None)
  /\ ws = map (fun v => W_EnumOutOfRange (iev_name v) (default 0 (iev_value v)))
        (filter (fun v => match iev_value v with Some z => negb ((0 <=? z) && (z <=? 2 ^ (msb - lsb + 1) - 1)) | None => false end) l).
Proof.
  induction l as [|v l IH]; intros ws r H; cbn [fin_enum_values] in H.
  - minv. repeat split; auto.
  - cbn [filter]. destruct (iev_value v) as [z|] eqn:Ev; [|minv].
    destruct ((z <? 0) || (2 ^ (msb - lsb + 1) - 1 <? z)) eqn:Eb.
    + minv. destruct (IH _ _ Hk) as (-> & Hn & ->).
      replace ((0 <=? z) && (z <=? 2 ^ (msb - lsb + 1) - 1)) with false by lia. cbn [negb map].
      rewrite Ev. cbn [default]. repeat split; auto. intros u [<-|Hu]; [congruence|auto].
    + minv. destruct (IH _ _ Hm) as (-> & Hn & ->).
      replace ((0 <=? z) && (z <=? 2 ^ (msb - lsb + 1) - 1)) with true by lia. cbn [negb map].
      rewrite Ev, app_nil_r. cbn [default]. repeat split; auto. intros u [<-|Hu]; [congruence|auto].
Qed.

Lemma sorted_filter {A} (R : A -> A -> Prop) p l : StronglySorted R l -> StronglySorted R (filter p l).
Proof.
  induction l as [|x l IH]; intros H; cbn [filter]; [constructor|].
  apply StronglySorted_inv in H as [H1 H2]. destruct (p x); [|auto]. constructor; auto.
  rewrite Forall_forall in *. intros y Hy. apply filter_In in Hy as [Hy _]. auto.
Qed.

(** strictly ascending values once no entry is left without a value *)
Lemma vals_strict l : StronglySorted (leP iev_le) l -> NoDup (vals l) -> (forall v, In v l -> iev_value v <> None) ->
  StronglySorted Z.lt (map (fun v => default 0 (iev_value v)) l).
Proof.
  induction l as [|v l IH]; intros Hs Hnd Hn; cbn [map]; [constructor|].
  apply StronglySorted_inv in Hs as [Hs Hf].
  change (v :: l) with ([v] ++ l) in Hnd. rewrite vals_app in Hnd. apply NoDup_app_inv in Hnd as (_ & Hnd & Hdis).
  constructor; [apply IH; auto; intros; apply Hn; simpl; auto|].
  rewrite Forall_map. rewrite Forall_forall in *. intros u Hu. specialize (Hf u Hu).
  unfold leP, iev_le, zkey_le, iev_key in Hf.
  assert (Hv := Hn v (or_introl eq_refl)). assert (Hu' := Hn u (or_intror Hu)).
  destruct (iev_value v) as [x|] eqn:Ev; [|congruence]. destruct (iev_value u) as [y|] eqn:Eu; [|congruence].
  cbn [default] in *. assert (x <> y).
  { intros ->. apply (Hdis y); [unfold vals, somes; cbn; rewrite Ev; simpl; auto|]. apply vals_in. eauto. }
  lia.
Qed.

(** C02 for one container: create, then finalize with the same field *)
Lemma container_values_ok ps lsb msb lsb' msb' ws vs ws' r :
  process_enumerated_values ps lsb msb = (ws, Ok vs) ->
  fin_enum_values vs lsb' msb' = (ws', Ok r) ->
  StronglySorted Z.lt (map ev_value r) /\ (forall v, In v r -> 0 <= ev_value v <= 2 ^ (msb' - lsb' + 1) - 1).
Proof.
  intros H1 H2. apply pev_nodup in H1 as [Hnd Hs]. apply fin_enum_values_ok in H2 as (-> & Hn & _).
  split.
  - rewrite map_map. cbn [ev_value].
    set (p := fun v : iev => match iev_value v with Some z => (0 <=? z) && (z <=? 2 ^ (msb' - lsb' + 1) - 1) | None => false end).
    change (fun x : iev => default 0 (iev_value x)) with iev_key.
    assert (Hall := vals_strict vs Hs Hnd Hn).
    change (fun v : iev => default 0 (iev_value v)) with iev_key in Hall.
    clear - Hall. induction vs as [|v vs IH]; cbn [filter map]; [constructor|].
    cbn [map] in Hall. apply StronglySorted_inv in Hall as [Hs Hf]. destruct (p v); cbn [map]; [|auto].
    constructor; auto. rewrite Forall_map, Forall_forall in *. intros u Hu. apply filter_In in Hu as [Hu _]. auto.
  - intros v Hv. apply in_map_iff in Hv as (u & <- & Hu). apply filter_In in Hu as [_ Hu]. cbn [ev_value].
    destruct (iev_value u) as [z|]; [cbn [default]; lia|discriminate].
Qed.

(** ** Provenance of expanded entries *)
Lemma resolve_wildcard_ok p ws us :
  resolve_wildcard p = (ws, Ok us) ->
  (is_reserved (sev_name p) = true -> us = []) /\
  forall u, In u us ->
    iev_descr u = sev_descr p /\ iev_default u = default false (sev_default p) /\
    match iev_value u with
    | Some z => exists t w zs, sev_value p = Some t /\ t <> "" /\ convert_enumerated_value t = (w, Ok zs) /\ In z zs
                 /\ iev_name u = wildcard_name (sev_name p) t z
    | None => iev_name u = sev_name p /\ (sev_value p = None \/ sev_value p = Some "")
    end.
Proof.
  intros H. unfold resolve_wildcard in H.
  apply bind_ok in H as (w1 & values & w2 & Hv & H & ->).
  apply bind_ok in H as (w3 & ls & w4 & Hl & H & ->). apply ret_ok in H as [<- ->].
  split.
  - intros Hr. unfold is_reserved in Hr. rewrite Hr in Hl.
    assert (Hall : forall y, In y ls -> y = []).
    { intros y Hy. destruct (mapM_ok_In _ _ _ _ Hl y Hy) as (x & w & _ & Hx). minv. reflexivity. }
    clear - Hall. induction ls as [|y ls IH]; cbn; [reflexivity|].
    rewrite (Hall y) by (simpl; auto). apply IH. intros; apply Hall; simpl; auto.
  - intros u Hu. apply in_concat in Hu as (y & Hy & Hu).
    destruct (mapM_ok_In _ _ _ _ Hl y Hy) as (v & w & Hin & Hx). cbv beta in Hx.
    destruct (String.eqb (lower (sev_name p)) "reserved"); [minv; destruct Hu|].
    apply ret_ok in Hx as [<- ->]. destruct Hu as [<-|[]]. cbn [iev_descr iev_default iev_value iev_name].
    split; [reflexivity|]. split; [reflexivity|].
    destruct (sev_value p) as [[|c t]|] eqn:Ev.
    + apply ret_ok in Hv as [<- ->]. destruct Hin as [<-|[]]. auto.
    + apply bind_ok in Hv as (w5 & zs & w6 & Hc & Hv & ->). apply ret_ok in Hv as [<- ->].
      apply in_map_iff in Hin as (z & <- & Hz). exists (String c t), w5, zs. repeat split; auto. discriminate.
    + apply ret_ok in Hv as [<- ->]. destruct Hin as [<-|[]]. auto.
Qed.

(** entries whose text was converted do appear *)
Lemma resolve_wildcard_complete p ws us t w zs z :
  resolve_wildcard p = (ws, Ok us) -> is_reserved (sev_name p) = false -> sev_value p = Some t -> t <> "" ->
  convert_enumerated_value t = (w, Ok zs) -> In z zs ->
  In (mk_iev (wildcard_name (sev_name p) t z) (sev_descr p) (Some z) (default false (sev_default p))) us.
Proof.
  intros H Hr Ht Hne Hc Hz. unfold resolve_wildcard in H. unfold is_reserved in Hr. rewrite Hr, Ht in H.
  destruct t as [|c t]; [congruence|].
  apply bind_ok in H as (w1 & values & w2 & Hv & H & ->).
  rewrite Hc in Hv. injection Hv as _ <-.
  rewrite mapM_ret, bind_ret_l in H. apply ret_ok in H as [<- ->].
  apply in_concat. rewrite map_map. eexists. split; [apply in_map_iff; exists z; split; [reflexivity|exact Hz]|].
  cbn. auto.
Qed.

Lemma resolve_wildcard_novalue p ws us :
  resolve_wildcard p = (ws, Ok us) -> is_reserved (sev_name p) = false -> (sev_value p = None \/ sev_value p = Some "") ->
  us = [mk_iev (sev_name p) (sev_descr p) None (default false (sev_default p))].
Proof.
  intros H Hr Hv. unfold resolve_wildcard in H. unfold is_reserved in Hr. rewrite Hr in H.
  assert (He : match sev_value p with Some (String _ _ as t) => vs <- convert_enumerated_value t ;; ret (map (fun v => Some v) vs) | _ => ret [None] end = ret [None])
    by (destruct Hv as [-> | ->]; reflexivity).
  rewrite He, bind_ret_l in H.
  destruct Hv as [Hv|Hv]; rewrite Hv in H; cbn in H; congruence.
Qed.

(** ** C03: default completes the container *)
Lemma default_completes ps lsb msb ws vs d :
  process_enumerated_values ps lsb msb = (ws, Ok vs) ->
  no_dup_warning ws ->
  In d ps -> sev_default d = Some true -> is_reserved (sev_name d) = false ->
  0 <= msb - lsb + 1
  /\ NoDup (vals vs)
  /\ (forall z, 0 <= z < 2 ^ (msb - lsb + 1) -> In z (vals vs))
  /\ (forall v, In v vs -> iev_default v = false)
  /\ (* explicitly named values keep their names *)
     (forall p t w zs z, In p ps -> default false (sev_default p) = false -> is_reserved (sev_name p) = false ->
        sev_value p = Some t -> t <> "" -> convert_enumerated_value t = (w, Ok zs) -> In z zs ->
        In (mk_iev (wildcard_name (sev_name p) t z) (sev_descr p) (Some z) false) vs)
  /\ (* every other value is named after the default *)
     (forall v z, In v vs -> iev_value v = Some z ->
        (exists p t w zs, In p ps /\ default false (sev_default p) = false /\ sev_value p = Some t /\ t <> ""
            /\ convert_enumerated_value t = (w, Ok zs) /\ In z zs
            /\ iev_name v = wildcard_name (sev_name p) t z /\ iev_descr v = sev_descr p)
        \/ (0 <= z < 2 ^ (msb - lsb + 1) /\ iev_name v = (sev_name d ++ "_" ++ str_of_Z z)%string /\ iev_descr v = sev_descr d
            \/ exists t w zs z', sev_value d = Some t /\ convert_enumerated_value t = (w, Ok zs) /\ In z' zs /\
               iev_name v = (wildcard_name (sev_name d) t z' ++ "_" ++ str_of_Z z)%string /\ iev_descr v = sev_descr d)).
Proof.
  intros H Hnd Hd Hdd Hdr.
  destruct (pev_nodup _ _ _ _ _ H) as [Hndv _].
  apply pev_inv in H as (w0 & st & acc & Hl & HI & Hs & Hc).
  destruct (process_evs_loop_ok ps _ [] _ _ VInv_init Hl) as (_ & Hprov & Hcomp & Hres). cbn [fst snd app] in *.
  assert (Hw : ws = w0) by (destruct Hc as [(_ & _ & ->)|(? & ? & _ & _ & _ & ->)]; reflexivity). subst w0.
  specialize (Hcomp Hnd).
  (* the default entry is accepted *)
  assert (Hdacc : exists u wd ud, resolve_wildcard d = (wd, Ok ud) /\ In u ud /\ In (reset_default u) acc /\ iev_default u = true).
  { destruct (Hres d Hd) as (wd & ud & Hrd).
    assert (Hex : exists u, In u ud).
    { destruct (sev_value d) as [[|c t]|] eqn:Ev.
      - rewrite (resolve_wildcard_novalue _ _ _ Hrd Hdr) by auto. eexists; left; reflexivity.
      - unfold resolve_wildcard in Hrd. unfold is_reserved in Hdr. rewrite Hdr, Ev in Hrd.
        apply bind_ok in Hrd as (w1 & values & w2 & Hv & Hrd & ->).
        rewrite mapM_ret, bind_ret_l in Hrd. apply ret_ok in Hrd as [<- ->].
        apply bind_ok in Hv as (w5 & zs & w6 & Hcv & Hv & ->). apply ret_ok in Hv as [<- ->].
        assert (Hzs : exists z, In z zs).
        { clear - Hcv. unfold convert_enumerated_value in Hcv.
          destruct (startswith "0b" (replace "#" "0b" (lower (String c t)))).
          - unfold process_binary_value_with_wildcard in Hcv. set (s := sdrop 2 _) in Hcv.
            destruct (contains "x" (lower s)).
            + rewrite replace_x_combinations_expand in Hcv.
              assert (Hne : expand (lower s) <> []).
              { clear. induction (lower s) as [|a b IH]; cbn [expand]; [discriminate|].
                destruct (Ascii.eqb a "x"); destruct (expand b); cbn; congruence. }
              destruct (expand (lower s)) as [|e es]; [congruence|]. cbn [mapM] in Hcv. minv. exists a; simpl; auto.
            + minv. exists a; simpl; auto.
          - destruct (startswith "0x" _).
            + destruct (py_int 16 _); minv. eexists; simpl; auto.
            + destruct (isdigit _); [|minv]. destruct (py_int 10 _); minv. eexists; simpl; auto. }
        destruct Hzs as [z Hz]. eexists. apply in_concat. rewrite map_map. eexists.
        split; [apply in_map_iff; exists z; split; [reflexivity|exact Hz]|simpl; auto].
      - rewrite (resolve_wildcard_novalue _ _ _ Hrd Hdr) by auto. eexists; left; reflexivity. }
    destruct Hex as [u Hu]. exists u, wd, ud. repeat split; auto.
    - eapply Hcomp; eauto.
    - destruct (resolve_wildcard_ok _ _ _ Hrd) as [_ Hp]. destruct (Hp u Hu) as (_ & -> & _). now rewrite Hdd. }
  destruct Hdacc as (u & wd & ud & Hrd & Hu & Huacc & Hud).
  assert (Hrdef : iev_default (reset_default u) = true) by (unfold reset_default; now rewrite Hud).
  destruct (vi_default _ _ HI _ Huacc Hrdef) as [Hst Hunone].
  destruct Hc as [(Hnone & _)|(d' & r & Hd' & He & Hp & _)]; [congruence|].
  rewrite Hst in Hd'. injection Hd' as <-.
  assert (Hvnd := vi_nd_vals _ _ HI).
  assert (Hdefnone : forall v, In v acc -> iev_default v = true -> iev_value v = None).
  { intros v Hv Hdv. now apply (vi_default _ _ HI v Hv Hdv). }
  destruct (extend_ok _ _ _ _ _ _ He Hvnd Hdefnone) as (Hwd & _ & Hin & _ & Hvals).
  split; [lia|]. split; [exact Hndv|]. split; [|split; [|split]].
  - intros z Hz. apply (Permutation_in _ (vals_perm _ _ Hp)). apply Hvals. auto.
  - intros v Hv. apply (Permutation_in _ (Permutation_sym Hp)) in Hv. apply Hin in Hv as [[_ Hv]|(z & _ & _ & ->)]; auto.
  - intros p t w zs z Hpin Hpd Hpr Hpt Hne Hpc Hz.
    apply (Permutation_in _ Hp). apply Hin. left. split; [|reflexivity].
    destruct (Hres p Hpin) as (wp & up & Hrp).
    assert (Hc' := resolve_wildcard_complete _ _ _ _ _ _ _ Hrp Hpr Hpt Hne Hpc Hz). rewrite Hpd in Hc'.
    exact (Hcomp p wp up Hpin Hrp _ Hc').
  - intros v z Hv Hz. apply (Permutation_in _ (Permutation_sym Hp)) in Hv.
    apply Hin in Hv as [[Hv Hvd]|(z' & Hz' & Hnz & ->)].
    + left. destruct (Hprov v Hv) as (q & w & us & x & Hq & Hrq & Hx & ->).
      unfold reset_default in *. destruct (iev_default x) eqn:Hxd; [cbn in Hvd; discriminate|].
      destruct (resolve_wildcard_ok _ _ _ Hrq) as [_ Hok]. destruct (Hok x Hx) as (Hds & Hdf & Hval).
      rewrite Hz in Hval. destruct Hval as (t & w' & zs & H1 & H2 & H3 & H4 & H5).
      exists q, t, w', zs. repeat split; auto. now rewrite <- Hdf, Hxd.
    + right. cbn [iev_value] in Hz. injection Hz as ->. cbn [iev_name iev_descr].
      destruct (resolve_wildcard_ok _ _ _ Hrd) as [_ Hok]. destruct (Hok u Hu) as (Hds & _ & Hval).
      assert (Hn1 : iev_name (reset_default u) = iev_name u) by (unfold reset_default; now rewrite Hud).
      assert (Hn2 : iev_descr (reset_default u) = iev_descr u) by (unfold reset_default; now rewrite Hud).
      rewrite Hn1, Hn2, Hds.
      destruct (iev_value u) as [zu|].
      * destruct Hval as (t & w' & zs & H1 & H2 & H3 & H4 & H5). right. exists t, w', zs, zu.
        rewrite H5. repeat split; auto.
      * destruct Hval as [-> _]. left. auto.
Qed.

(** ** C04: names *)
Lemma names_unique_no_default ps lsb msb ws vs :
  process_enumerated_values ps lsb msb = (ws, Ok vs) ->
  (forall p, In p ps -> sev_default p <> Some true) ->
  NoDup (map iev_name vs).
Proof.
  intros H Hnd. apply pev_inv in H as (w0 & st & acc & Hl & HI & _ & Hc).
  destruct (process_evs_loop_ok ps _ [] _ _ VInv_init Hl) as (_ & Hprov & _ & _). cbn [fst snd app] in *.
  destruct Hc as [(_ & Hp & _)|(d & r & Hd & _)].
  - eapply Permutation_NoDup; [apply Permutation_map, Hp|apply (vi_nd_names _ _ HI)].
  - exfalso. destruct (vi_default_in _ _ HI d Hd) as [Hin Hdd].
    destruct (Hprov d Hin) as (q & w & us & x & Hq & Hrq & Hx & ->).
    destruct (resolve_wildcard_ok _ _ _ Hrq) as [_ Hok]. destruct (Hok x Hx) as (_ & Hdf & _).
    assert (iev_default x = true) by (unfold reset_default in Hdd; destruct (iev_default x) eqn:Ex; auto; congruence).
    rewrite H in Hdf. specialize (Hnd q Hq). destruct (sev_default q) as [[]|]; cbn in Hdf; congruence.
Qed.
