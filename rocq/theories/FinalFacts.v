(** * FinalFacts: invariants of the finalization pass (FinalModel). *)
From Verif Require Import Base PyStr PyInt Types FinalModel SpecDevice.
From Coq Require Import ZifyBool ZifyNat ZifyN.
Ltac Zify.zify_post_hook ::= Z.div_mod_to_equations.

(** ** The specification's vocabulary agrees with the model's helpers *)
Lemma rc_name_el x : rc_name x = el_name x. Proof. now destruct x. Qed.
Lemma rc_base_abs x : rc_base x = abs_addr x. Proof. now destruct x. Qed.
Lemma rc_dup_lookup x : rc_dup_name x = lookup_name x.
Proof.
  destruct x as [r|c l]; cbn; [|reflexivity]. unfold lookup_name; cbn.
  destruct (rb_altgroup (r_b r)) as [[|c g]|]; reflexivity.
Qed.

Lemma str_cmp_compare a b : str_cmp a b = String.compare a b.
Proof.
  revert b; induction a as [|x a IH]; intros [|y b]; cbn [str_cmp String.compare]; reflexivity.
Qed.

Lemma rc_le_before x y : rc_le x y = true -> rc_before x y.
Proof.
  unfold rc_le, cmp_le, rc_key_cmp, rc_key, pair_cmp, rc_before; cbn [fst snd].
  rewrite (rc_base_abs x), (rc_base_abs y), (rc_name_el x), (rc_name_el y).
  replace (rc_altgroup x) with (el_altgroup x) by now destruct x.
  replace (rc_altgroup y) with (el_altgroup y) by now destruct y.
  destruct (Z.compare_spec (abs_addr x) (abs_addr y)) as [He|Hl|Hg]; [|now left|intros HH; discriminate HH].
  intros H. right. split; [exact He|].
  destruct (el_altgroup x) as [g|], (el_altgroup y) as [h|]; cbn [alt_key opt_lt fst snd Z.compare] in *.
  3: left; exact I.
  2: discriminate H.
  - cbn in H. unfold str_lt. change str_cmp with String.compare in H.
    destruct (String.compare g h) eqn:Eg; [|now left|discriminate].
    apply String.compare_eq_iff in Eg. subst h. right. split; [reflexivity|].
    destruct (String.compare (el_name x) (el_name y)) eqn:En; auto; [|discriminate].
    right. now apply String.compare_eq_iff.
  - cbn in H. right. split; [reflexivity|]. unfold str_lt. change str_cmp with String.compare in H.
    destruct (String.compare (el_name x) (el_name y)) eqn:En; auto; [|discriminate].
    right. now apply String.compare_eq_iff.
Qed.

Lemma is_rc_cmp : is_cmp rc_key_cmp.
Proof. unfold rc_key_cmp. repeat apply pair_cmp_is; first [apply Z_cmp_is|apply str_cmp_is]. Qed.
Lemma is_reg_cmp : is_cmp (pair_cmp Z.compare str_cmp).
Proof. repeat apply pair_cmp_is; first [apply Z_cmp_is|apply str_cmp_is]. Qed.
Lemma rc_le_total x y : rc_le x y = false -> rc_le y x = true.
Proof. apply (cmp_le_total _ is_rc_cmp). Qed.
Lemma rc_le_trans x y z : rc_le x y = true -> rc_le y z = true -> rc_le x z = true.
Proof. apply (cmp_le_trans _ is_rc_cmp). Qed.
Lemma reg_le_total x y : reg_le x y = false -> reg_le y x = true.
Proof. apply (cmp_le_total _ is_reg_cmp). Qed.
Lemma reg_le_trans x y z : reg_le x y = true -> reg_le y z = true -> reg_le x z = true.
Proof. apply (cmp_le_trans _ is_reg_cmp). Qed.
Lemma per_le_total x y : per_le x y = false -> per_le y x = true.
Proof. apply (cmp_le_total _ is_reg_cmp). Qed.
Lemma per_le_trans x y z : per_le x y = true -> per_le y z = true -> per_le x z = true.
Proof. apply (cmp_le_trans _ is_reg_cmp). Qed.

Lemma pair_le_before (a b : Z * string) : cmp_le (pair_cmp Z.compare str_cmp) a b = true ->
  fst a < fst b \/ fst a = fst b /\ (str_lt (snd a) (snd b) \/ snd a = snd b).
Proof.
  unfold cmp_le, pair_cmp. destruct (Z.compare_spec (fst a) (fst b)) as [He|Hl|Hg]; [|now left|intros HH; discriminate HH].
  intros H. right. split; [exact He|]. unfold str_lt. change str_cmp with String.compare in H.
  destruct (String.compare (snd a) (snd b)) eqn:E; auto; [|discriminate]. right. now apply String.compare_eq_iff.
Qed.

Lemma StronglySorted_impl {A} (P Q : A -> A -> Prop) l : (forall x y, P x y -> Q x y) -> StronglySorted P l -> StronglySorted Q l.
Proof.
  intros H. induction 1 as [|x l Hs IH Hf]; constructor; auto. eapply Forall_impl; [|exact Hf]. intros y. apply H.
Qed.

(** ** Maximum of a list *)
Lemma fold_max_ge l : forall a, a <= fold_left Z.max l a /\ forall x, In x l -> x <= fold_left Z.max l a.
Proof.
  induction l as [|y l IH]; intros a; cbn [fold_left]; [split; [lia|intros ? []]|].
  destruct (IH (Z.max a y)) as [H1 H2]. split; [lia|]. intros x [<-|Hx]; [lia|auto].
Qed.
Lemma fold_max_in l : forall a, fold_left Z.max l a = a \/ In (fold_left Z.max l a) l.
Proof.
  induction l as [|y l IH]; intros a; cbn [fold_left]; [auto|].
  destruct (IH (Z.max a y)) as [H|H]; [|right; now right]. rewrite H.
  destruct (Z.max_spec a y) as [[_ ->]|[_ ->]]; [right; now left|now left].
Qed.
Lemma max_list_ge l x : In x l -> x <= max_list l.
Proof.
  destruct l as [|a l]; [intros []|]. unfold max_list. destruct (fold_max_ge l a) as [H1 H2]. intros [<-|H]; auto.
Qed.
Lemma max_list_in l : l <> [] -> In (max_list l) l.
Proof.
  destruct l as [|a l]; [congruence|]. intros _. unfold max_list. destruct (fold_max_in l a) as [->|H]; simpl; auto.
Qed.

(** ** The loops *)
Inductive Loop (f : irc -> M (option rc)) : list irc -> list rc -> list warning -> Prop :=
| Loop_nil : Loop f [] [] []
| Loop_keep : forall x l y ys w ws, f x = (w, Ok (Some y)) -> Loop f l ys ws -> Loop f (x :: l) (y :: ys) (w ++ ws)
| Loop_drop : forall x l ys w ws, f x = (w, Ok None) -> Loop f l ys ws -> Loop f (x :: l) ys (w ++ ws).

Lemma NoDup_snoc' {A} (l : list A) x : NoDup l -> ~ In x l -> NoDup (l ++ [x]).
Proof.
  intros Hl Hx. apply NoDup_app_intro; auto; [repeat constructor; auto|]. intros y Hy [<-|[]]. contradiction.
Qed.

Lemma fin_loop_ok f l : forall acc ws r, fin_loop f l acc = (ws, Ok r) -> NoDup (map rc_dup_name acc) ->
  exists ys, r = acc ++ ys /\ Loop f l ys ws /\ NoDup (map rc_dup_name r).
Proof.
  induction l as [|x l IH]; intros acc ws r H Hnd; cbn [fin_loop] in H.
  - minv. exists []. rewrite app_nil_r. repeat split; auto. constructor.
  - apply bind_ok in H as (w1 & o & w2 & Hf & H & ->). destruct o as [y|].
    + apply bind_ok in H as (w3 & [] & w4 & Hr & H & ->). apply raise_if_ok in Hr as [Hmem ->].
      apply mem_str_nIn in Hmem.
      destruct (IH _ _ _ H) as (ys & -> & HL & Hn).
      { rewrite map_app. cbn [map]. now apply NoDup_snoc'. }
      exists (y :: ys). rewrite <- app_assoc. cbn [app]. rewrite <- app_assoc in Hn. repeat split; auto. now apply Loop_keep.
    + destruct (IH _ _ _ H Hnd) as (ys & -> & HL & Hn). exists ys. repeat split; auto. now apply Loop_drop.
Qed.

Lemma fin_rcs_ok f l ws s : fin_rcs f l = (ws, Ok s) ->
  exists ys w1 w2, Loop f l ys w1 /\ NoDup (map rc_dup_name ys) /\ s = isort rc_le ys /\
    check_rc_overlaps (reg_lookup ys) (clu_lookup ys) [] s = (w2, Ok tt) /\ ws = w1 ++ w2.
Proof.
  intros H. unfold fin_rcs in H. apply bind_ok in H as (w1 & r & w2 & H1 & H & ->).
  destruct (fin_loop_ok _ _ _ _ _ H1) as (ys & E & HL & Hn); [constructor|]. cbn [app] in E. subst r.
  apply bind_ok in H as (w3 & [] & w4 & H2 & H & ->). apply ret_ok in H as [<- ->]. rewrite app_nil_r.
  exists ys, w1, w3. auto.
Qed.

Lemma Loop_in f l ys ws : Loop f l ys ws -> forall y, In y ys -> exists x w, In x l /\ f x = (w, Ok (Some y)).
Proof.
  induction 1 as [|x l y ys w ws Hf HL IH|x l ys w ws Hf HL IH]; intros z Hz.
  - destruct Hz.
  - destruct Hz as [<-|Hz]; [exists x, w; simpl; auto|]. destruct (IH z Hz) as (x' & w' & ? & ?). exists x', w'; simpl; auto.
  - destruct (IH z Hz) as (x' & w' & ? & ?). exists x', w'; simpl; auto.
Qed.
Lemma Loop_cover f l ys ws : Loop f l ys ws -> forall x, In x l ->
  (exists y w, In y ys /\ f x = (w, Ok (Some y)) /\ incl w ws) \/ (exists w, f x = (w, Ok None) /\ incl w ws).
Proof.
  induction 1 as [|x l y ys w ws Hf HL IH|x l ys w ws Hf HL IH]; intros z Hz.
  - destruct Hz.
  - destruct Hz as [<-|Hz].
    + left. exists y, w. repeat split; simpl; auto. now apply incl_appl, incl_refl.
    + destruct (IH z Hz) as [(y' & w' & H1 & H2 & H3)|(w' & H2 & H3)]; [left; exists y', w'|right; exists w']; repeat split; simpl; auto;
        now apply incl_appr.
  - destruct Hz as [<-|Hz].
    + right. exists w. split; auto. now apply incl_appl, incl_refl.
    + destruct (IH z Hz) as [(y' & w' & H1 & H2 & H3)|(w' & H2 & H3)]; [left; exists y', w'|right; exists w']; repeat split; simpl; auto;
        now apply incl_appr.
Qed.

(** ** One register or cluster *)
Definition machine_size (s : Z) : Prop := s = 8 \/ s = 16 \/ s = 32 \/ s = 64 \/ s = 128.
(** registers need alignment min(bytes, 4) *)
Definition needed_alignment (s : Z) : Z := Z.min (s / 8) 4.

Lemma get_alignment_ok b ws a : get_alignment b = (ws, Ok a) -> (b = 1 \/ b = 2 \/ b = 4 \/ b = 8 \/ b = 16) /\ a = Z.min b 4 /\ ws = [].
Proof.
  unfold get_alignment. intros H.
  repeat match type of H with (if ?c then _ else _) = _ => destruct c eqn:?; [apply ret_ok in H as [<- ->]; repeat split; lia|] end.
  minv.
Qed.
Lemma reg_prop_ok p ws q : reg_prop_validator p = (ws, Ok q) -> p = oprops_of_props q /\ ws = [].
Proof.
  destruct p as [s a pr v m]; unfold reg_prop_validator; cbn [op_size op_access op_prot op_rv op_rm].
  destruct s, a, pr, v, m; intros H; minv; auto.
Qed.

(** every success of [fin_rc]: the element is kept or dropped with a warning *)
Lemma fin_rc_ok x base ws o : fin_rc x base = (ws, Ok o) ->
  exists s, op_size (irc_props x) = Some s /\
  (s mod 8 <> 0 /\ o = None /\ ws = [W_RcSize (irc_name x)] \/
   machine_size s /\ exists w, ws = (if irc_offset x mod needed_alignment s =? 0 then [] else [W_RcUnaligned (irc_name x)]) ++ w /\
   match x with
   | IReg r =>
       is_reserved (rb_name (ir_b r)) = true /\ o = None /\ w = [W_RegReserved] \/
       is_reserved (rb_name (ir_b r)) = false /\ (rb_altreg (ir_b r) = None \/ rb_altgroup (ir_b r) = None) /\
       exists fs p, fin_fields (ir_fields r) s = (w, Ok fs) /\ ir_props r = oprops_of_props p /\ p_size p = s /\
                    o = Some (Reg (mk_reg (ir_b r) p fs (base + rb_offset (ir_b r))))
   | IClu c l =>
       exists ch w1, fin_rcs (fun y => fin_rc y (base + cb_offset (ic_b c))) l = (w1, Ok ch) /\
       (ch = [] /\ o = None /\ w = w1 ++ [W_ClusterEmpty (cb_name (ic_b c))] \/
        ch <> [] /\ w = w1 /\ exists p, ic_props c = oprops_of_props p /\ p_size p = s /\
          let e := max_list (map (fun ch => rc_base ch + rc_bytes ch - 1) ch) in
          o = Some (Clu (mk_clu (ic_b c) p (base + cb_offset (ic_b c)) e (e - (base + cb_offset (ic_b c)) + 1)) ch))
   end).
Proof.
  intros H.
  assert (H' : match op_size (irc_props x) with
               | None => False
               | Some s => if negb (s mod 8 =? 0) then ws = [W_RcSize (irc_name x)] /\ o = None
                   else exists w2, (machine_size s /\ ws = (if irc_offset x mod needed_alignment s =? 0 then [] else [W_RcUnaligned (irc_name x)]) ++ w2 /\
                      match x with
                      | IClu c l =>
                          (children <- fin_rcs (fun y => fin_rc y (base + cb_offset (ic_b c))) l ;;
                           match children with
                           | [] => warn (W_ClusterEmpty (cb_name (ic_b c))) ;;; ret None
                           | _ =>
                               let e := max_list (map (fun ch => rc_base ch + rc_bytes ch - 1) children) in
                               p <- reg_prop_validator (ic_props c) ;;
                               ret (Some (Clu (mk_clu (ic_b c) p (base + cb_offset (ic_b c)) e (e - (base + cb_offset (ic_b c)) + 1)) children))
                           end) = (w2, Ok o)
                      | IReg r =>
                          (if is_reserved (rb_name (ir_b r)) then warn W_RegReserved ;;; ret None
                           else
                             raise_if (is_some (rb_altreg (ir_b r)) && is_some (rb_altgroup (ir_b r))) ProcessException
                               "Register cannot have both alternate_register and alternate_group" ;;;
                             fs <- fin_fields (ir_fields r) s ;;
                             p <- reg_prop_validator (ir_props r) ;;
                             ret (Some (Reg (mk_reg (ir_b r) p fs (base + rb_offset (ir_b r)))))) = (w2, Ok o)
                      end)
               end).
  { destruct x as [r|c l]; cbn [fin_rc] in H; cbn [irc_props irc_offset irc_name] in *.
    - destruct (op_size (ir_props r)) as [s|]; [|minv]. destruct (negb (s mod 8 =? 0)) eqn:E8.
      { minv. auto. }
      apply bind_ok in H as (w1 & bytes & w2 & Hb & H & ->). unfold to_byte in Hb. rewrite E8 in Hb. cbn [raise_if] in Hb.
      rewrite bind_ret_l in Hb. apply ret_ok in Hb as [<- ->].
      apply bind_ok in H as (w3 & al & w4 & Ha & H & ->). apply get_alignment_ok in Ha as (Hs & -> & ->).
      apply bind_ok in H as (w5 & [] & w6 & Hw & H & ->). apply warn_if_ok in Hw. subst w5.
      exists w6. split; [unfold machine_size; lia|]. split; [|exact H]. cbn [app]. unfold needed_alignment.
      destruct (_ mod Z.min _ _ =? 0); reflexivity.
    - destruct (op_size (ic_props c)) as [s|]; [|minv]. destruct (negb (s mod 8 =? 0)) eqn:E8.
      { minv. auto. }
      apply bind_ok in H as (w1 & bytes & w2 & Hb & H & ->). unfold to_byte in Hb. rewrite E8 in Hb. cbn [raise_if] in Hb.
      rewrite bind_ret_l in Hb. apply ret_ok in Hb as [<- ->].
      apply bind_ok in H as (w3 & al & w4 & Ha & H & ->). apply get_alignment_ok in Ha as (Hs & -> & ->).
      apply bind_ok in H as (w5 & [] & w6 & Hw & H & ->). apply warn_if_ok in Hw. subst w5.
      exists w6. split; [unfold machine_size; lia|]. split; [|exact H]. cbn [app]. unfold needed_alignment.
      destruct (_ mod Z.min _ _ =? 0); reflexivity. }
  clear H. destruct (op_size (irc_props x)) as [s|] eqn:Es; [|destruct H']. exists s. split; [reflexivity|].
  destruct (negb (s mod 8 =? 0)) eqn:E8.
  { left. destruct H' as [-> ->]. repeat split; auto. lia. }
  right. destruct H' as (w & Hms & -> & H). split; [exact Hms|]. exists w. split; [reflexivity|].
  destruct x as [r|c l]; cbn [irc_props] in Es.
  - destruct (is_reserved (rb_name (ir_b r))) eqn:Er.
    { left. minv. auto. }
    right. split; [reflexivity|]. apply bind_ok in H as (w1 & [] & w2 & H1 & H & ->). apply raise_if_ok in H1 as [Hra ->].
    split. { destruct (rb_altreg (ir_b r)), (rb_altgroup (ir_b r)); auto; discriminate. }
    apply bind_ok in H as (w3 & fs & w4 & H2 & H & ->). apply bind_ok in H as (w5 & p & w6 & H3 & H & ->).
    apply reg_prop_ok in H3 as [Hp ->]. apply ret_ok in H as [<- ->]. exists fs, p. rewrite !app_nil_r. cbn [app].
    split; [exact H2|]. split; [exact Hp|]. split; [|reflexivity]. rewrite Hp in Es. cbn in Es. now injection Es.
  - apply bind_ok in H as (w1 & ch & w2 & H1 & H & ->). exists ch, w1. split; [exact H1|].
    destruct ch as [|y ch].
    + left. minv. auto.
    + right. split; [discriminate|]. apply bind_ok in H as (w5 & p & w6 & H3 & H & ->).
      apply reg_prop_ok in H3 as [Hp ->]. apply ret_ok in H as [<- ->]. rewrite !app_nil_r. split; [reflexivity|].
      exists p. split; [exact Hp|]. split; [|reflexivity]. rewrite Hp in Es. cbn in Es. now injection Es.
Qed.

(** ** Fields *)
Lemma is_evc_cmp : is_cmp (pair_cmp str_cmp Z.compare).
Proof. repeat apply pair_cmp_is; first [apply Z_cmp_is|apply str_cmp_is]. Qed.
Lemma fin_enum_containers_sorted l lsb msb w r : fin_enum_containers l lsb msb = (w, Ok r) -> StronglySorted (leP evc_le) r.
Proof.
  intros H. unfold fin_enum_containers in H. apply bind_ok in H as (w1 & cs & w2 & _ & H & _). apply ret_ok in H as [<- _].
  apply isort_sorted; unfold evc_le; intros; [eapply cmp_le_total|eapply cmp_le_trans]; eauto using is_evc_cmp.
Qed.
Inductive FLoop : list ifield -> list field -> list warning -> Prop :=
| FLoop_nil : FLoop [] [] []
| FLoop_keep : forall x l y ys evcs w ws, is_reserved (fb_name (if_b x)) = false ->
    fin_enum_containers (if_evcs x) (fb_lsb (if_b x)) (fb_msb (if_b x)) = (w, Ok evcs) ->
    field_from x evcs = ([], Ok y) -> FLoop l ys ws -> FLoop (x :: l) (y :: ys) (w ++ ws)
| FLoop_drop : forall x l ys ws, is_reserved (fb_name (if_b x)) = true -> FLoop l ys ws -> FLoop (x :: l) ys (W_FieldReserved :: ws).

Lemma field_from_ok x evcs ws y : field_from x evcs = (ws, Ok y) -> exists a, if_access x = Some a /\ ws = [] /\
  y = mk_field (if_b x) a (fb_lsb (if_b x)) (fb_msb (if_b x) - fb_lsb (if_b x) + 1) (fb_msb (if_b x), fb_lsb (if_b x)) evcs.
Proof.
  unfold field_from. destruct (if_access x) as [a|]; intros H; minv. eauto.
Qed.

Lemma fin_fields_loop_ok l : forall seen ws r, fin_fields_loop seen l = (ws, Ok r) ->
  FLoop l r ws /\ NoDup (map f_name r) /\ (forall n, In n seen -> ~ In n (map f_name r)).
Proof.
  induction l as [|x l IH]; intros seen ws r H; cbn [fin_fields_loop] in H.
  - minv. repeat split; [constructor|constructor|]. intros n _ [].
  - destruct (is_reserved (fb_name (if_b x))) eqn:Er.
    + apply bind_ok in H as (w1 & [] & w2 & H1 & H & ->). apply warn_ok in H1. subst w1.
      destruct (IH _ _ _ H) as (H1 & H2 & H3). repeat split; auto. now apply FLoop_drop.
    + apply bind_ok in H as (w1 & [] & w2 & H1 & H & ->). apply raise_if_ok in H1 as [Hmem ->]. apply mem_str_nIn in Hmem.
      apply bind_ok in H as (w3 & evcs & w4 & H2 & H & ->). apply bind_ok in H as (w5 & y & w6 & H3 & H & ->).
      apply bind_ok in H as (w7 & r' & w8 & H4 & H & ->). apply ret_ok in H as [<- ->].
      destruct (field_from_ok _ _ _ _ H3) as (a & Ha & -> & Hy).
      destruct (IH _ _ _ H4) as (H5 & H6 & H7). cbn [app]. rewrite app_nil_r.
      assert (Hn : f_name y = fb_name (if_b x)) by now subst y.
      repeat split.
      * eapply FLoop_keep; eauto.
      * cbn [map]. constructor; [|exact H6]. rewrite Hn. apply H7. now left.
      * intros n Hin. cbn [map]. rewrite Hn. intros [<-|Hin2]; [contradiction|]. apply (H7 n); simpl; auto.
Qed.

Definition is_read (a : access) : bool := match a with WRITE_ONLY => false | _ => true end.
Definition is_write (a : access) : bool := match a with READ_ONLY => false | _ => true end.
Definition exceeds (size : Z) (f : field) : list warning :=
  if size <=? f_msb f then [W_FieldExceeds (f_name f) (f_msb f) size] else [].

Lemma check_fields_eq rd wr size f l : check_fields rd wr size (f :: l) =
  (warn_if (size <=? f_msb f) (W_FieldExceeds (f_name f) (f_msb f) size) ;;;
   raise_if (is_read (f_access f) && existsb (fields_overlap f) rd) ProcessException "overlap in read access" ;;;
   raise_if (is_write (f_access f) && existsb (fields_overlap f) wr) ProcessException "overlap in write access" ;;;
   check_fields (if is_read (f_access f) then rd ++ [f] else rd) (if is_write (f_access f) then wr ++ [f] else wr) size l).
Proof.
  cbn [check_fields]. destruct (f_access f); cbn [is_read is_write andb raise_if]; rewrite ?bind_ret_l; try reflexivity.
Qed.

Lemma overlap_intersect f g : fields_overlap f g = true <-> intersect f g.
Proof. unfold fields_overlap, intersect, f_lsb, f_msb. lia. Qed.
Lemma existsb_overlap f l : existsb (fields_overlap f) l = false <-> forall g, In g l -> ~ intersect f g.
Proof.
  split.
  - intros H g Hg Hi. assert (existsb (fields_overlap f) l = true); [|congruence].
    apply existsb_exists. exists g. split; auto. now apply overlap_intersect.
  - intros H. destruct (existsb (fields_overlap f) l) eqn:E; [|reflexivity].
    apply existsb_exists in E as (g & Hg & Ho). apply overlap_intersect in Ho. now apply H in Ho.
Qed.

(** [Ordered R l]: [R x y] for every [x] before [y] *)
Definition no_clash (f g : field) : Prop := ~ (conflict f g /\ intersect f g).

Lemma check_fields_iff size l : forall rd wr,
  (exists ws, check_fields rd wr size l = (ws, Ok tt)) <->
  (ForallOrdPairs no_clash l /\
   forall f, In f l -> (readable (f_access f) -> forall g, In g rd -> ~ intersect f g) /\
                       (writable (f_access f) -> forall g, In g wr -> ~ intersect f g)).
Proof.
  assert (Hrd : forall a, is_read a = true <-> readable a) by (intros []; cbn; unfold readable; split; congruence).
  assert (Hwr : forall a, is_write a = true <-> writable a) by (intros []; cbn; unfold writable; split; congruence).
  assert (Hsym : forall f g, intersect f g -> intersect g f) by (unfold intersect; intuition).
  induction l as [|f l IH]; intros rd wr.
  - split; [intros _; split; [constructor|intros ? []]|]. intros _. exists []. reflexivity.
  - rewrite check_fields_eq. split.
    + intros [ws H]. apply bind_ok in H as (w1 & [] & w2 & _ & H & _). apply bind_ok in H as (w3 & [] & w4 & H1 & H & _).
      apply bind_ok in H as (w5 & [] & w6 & H2 & H & _). apply raise_if_ok in H1 as [H1 _], H2 as [H2 _].
      destruct (proj1 (IH _ _) (ex_intro _ _ H)) as [Hord Hall]. split.
      * constructor; [|exact Hord]. apply Forall_forall. intros g Hg [Hc Hi].
        destruct (Hall g Hg) as [Hr Hw]. destruct Hc as [[Hf Hg']|[Hf Hg']].
        -- apply Hrd in Hf. rewrite Hf in Hr. apply (Hr Hg' f); [apply in_or_app; simpl; auto|auto].
        -- apply Hwr in Hf. rewrite Hf in Hw. apply (Hw Hg' f); [apply in_or_app; simpl; auto|auto].
      * intros g [<-|Hg].
        -- split; intros Ha.
           ++ apply Hrd in Ha. rewrite Ha in H1. cbn [andb] in H1. now apply existsb_overlap.
           ++ apply Hwr in Ha. rewrite Ha in H2. cbn [andb] in H2. now apply existsb_overlap.
        -- destruct (Hall g Hg) as [Hr Hw]. split; intros Ha k Hk.
           ++ apply Hr; auto. destruct (is_read _); [apply in_or_app|]; auto.
           ++ apply Hw; auto. destruct (is_write _); [apply in_or_app|]; auto.
    + intros [Hord Hall]. inversion Hord as [|? ? Hf Hord']; subst.
      destruct (Hall f) as [Hr Hw]; [now left|].
      assert (H1 : is_read (f_access f) && existsb (fields_overlap f) rd = false).
      { destruct (is_read (f_access f)) eqn:E; [|reflexivity]. cbn [andb]. apply existsb_overlap. apply Hr. now apply Hrd. }
      assert (H2 : is_write (f_access f) && existsb (fields_overlap f) wr = false).
      { destruct (is_write (f_access f)) eqn:E; [|reflexivity]. cbn [andb]. apply existsb_overlap. apply Hw. now apply Hwr. }
      rewrite H1, H2. cbn [raise_if]. rewrite !bind_ret_l.
      destruct (proj2 (IH (if is_read (f_access f) then rd ++ [f] else rd) (if is_write (f_access f) then wr ++ [f] else wr))) as [ws Hws].
      { split; [exact Hord'|]. intros g Hg. rewrite Forall_forall in Hf. specialize (Hf g Hg).
        destruct (Hall g) as [Hr' Hw']; [now right|]. split; intros Ha k Hk.
        - destruct (is_read (f_access f)) eqn:E; [|now apply Hr']. apply in_app_or in Hk as [Hk|[<-|[]]]; [now apply Hr'|].
          intros Hi. apply Hf. split; [left|apply Hsym, Hi]. split; [now apply Hrd|exact Ha].
        - destruct (is_write (f_access f)) eqn:E; [|now apply Hw']. apply in_app_or in Hk as [Hk|[<-|[]]]; [now apply Hw'|].
          intros Hi. apply Hf. split; [right|apply Hsym, Hi]. split; [now apply Hwr|exact Ha]. }
      rewrite Hws. unfold warn_if, warn, ret, bind. destruct (size <=? f_msb f); eexists; reflexivity.
Qed.

(** the overlap check can only fail with ProcessException *)
Lemma check_fields_err size l : forall rd wr ws e, check_fields rd wr size l = (ws, Err e) -> ex_class e = ProcessException.
Proof.
  induction l as [|f l IH]; intros rd wr ws e H; [apply ret_err in H as []|]. rewrite check_fields_eq in H.
  apply bind_err in H as [H|(w1 & [] & w2 & _ & H & _)]; [apply warn_if_err in H as []|].
  apply bind_err in H as [H|(w3 & [] & w4 & _ & H & _)]; [apply raise_if_err in H as (_ & _ & ->); reflexivity|].
  apply bind_err in H as [H|(w5 & [] & w6 & _ & H & _)]; [apply raise_if_err in H as (_ & _ & ->); reflexivity|].
  eapply IH; eauto.
Qed.

Lemma fin_fields_ok l size ws s : fin_fields l size = (ws, Ok s) ->
  exists ys w1 w2, FLoop l ys w1 /\ NoDup (map f_name ys) /\ s = isort (zkey_le f_lsb) ys /\
    check_fields [] [] size s = (w2, Ok tt) /\ ws = w1 ++ w2.
Proof.
  intros H. unfold fin_fields in H. apply bind_ok in H as (w1 & r & w2 & H1 & H & ->).
  apply bind_ok in H as (w3 & [] & w4 & H2 & H & ->). apply ret_ok in H as [<- ->].
  destruct (fin_fields_loop_ok _ _ _ _ H1) as (HL & Hn & _). exists r, w1, w3. rewrite app_nil_r. auto.
Qed.

(** ** Invariant of finished trees *)
Definition good_fields (size : Z) (fs : list field) : Prop :=
  NoDup (map f_name fs) /\ StronglySorted (fun f g => f_lsb f <= f_lsb g) fs /\ ForallOrdPairs no_clash fs /\
  Forall (fun f => is_reserved (f_name f) = false /\ f_bit_offset f = f_lsb f /\ f_bit_width f = f_msb f - f_lsb f + 1 /\
                   f_bit_range f = (f_msb f, f_lsb f) /\ StronglySorted (leP evc_le) (f_evcs f)) fs.

Definition good_sibs (l : list rc) : Prop :=
  StronglySorted (leP rc_le) l /\ NoDup (map rc_dup_name l).

Inductive Good : Z -> rc -> Prop :=
| Good_reg : forall base r, r_base r = base + rb_offset (r_b r) -> machine_size (p_size (r_props r)) ->
    is_reserved (rb_name (r_b r)) = false -> (rb_altreg (r_b r) = None \/ rb_altgroup (r_b r) = None) ->
    good_fields (p_size (r_props r)) (r_fields r) -> Good base (Reg r)
| Good_clu : forall base c l, c_base c = base + cb_offset (c_b c) -> machine_size (p_size (c_props c)) -> l <> [] ->
    (forall x, In x l -> Good (c_base c) x) -> good_sibs l ->
    c_end c = max_list (map (fun ch => rc_base ch + rc_bytes ch - 1) l) ->
    c_size c = c_end c - c_base c + 1 ->
    Good base (Clu c l).

Lemma good_sibs_isort ys : NoDup (map rc_dup_name ys) -> good_sibs (isort rc_le ys).
Proof.
  intros H. split; [apply isort_sorted; [apply rc_le_total|apply rc_le_trans]|].
  eapply Permutation_NoDup; [|exact H]. apply Permutation_map, isort_perm.
Qed.

Lemma fin_fields_good l size ws s : fin_fields l size = (ws, Ok s) -> good_fields size s.
Proof.
  intros H. apply fin_fields_ok in H as (ys & w1 & w2 & HL & Hn & -> & Hc & ->).
  assert (HF : Forall (fun f => is_reserved (f_name f) = false /\ f_bit_offset f = f_lsb f /\ f_bit_width f = f_msb f - f_lsb f + 1 /\
                   f_bit_range f = (f_msb f, f_lsb f) /\ StronglySorted (leP evc_le) (f_evcs f)) ys).
  { clear - HL. induction HL as [|x l y ys evcs w ws Hr He Hf HL IH|x l ys ws Hr HL IH]; auto.
    constructor; auto. apply field_from_ok in Hf as (a & _ & _ & ->). cbn. apply fin_enum_containers_sorted in He. auto. }
  split; [|split; [|split]].
  - eapply Permutation_NoDup; [|exact Hn]. apply Permutation_map, isort_perm.
  - eapply StronglySorted_impl; [|apply isort_sorted; [apply zkey_le_total|apply zkey_le_trans]]. unfold leP, zkey_le. intros; lia.
  - apply (check_fields_iff size _ [] []). eauto.
  - eapply Permutation_Forall; [apply isort_perm|exact HF].
Qed.

Lemma fin_rc_good x : forall base ws y, fin_rc x base = (ws, Ok (Some y)) -> Good base y.
Proof.
  induction x as [r|c l IH] using irc_ind'; intros base ws y H;
    apply fin_rc_ok in H as (s & Hs & [(_ & H & _)|(Hms & w & _ & H)]); try discriminate.
  - destruct H as [(_ & H & _)|(Hr & Halt & fs & p & Hf & Hp & Hps & H)]; [discriminate|]. injection H as ->.
    constructor; cbn; auto; [now rewrite Hps|]. rewrite Hps. eapply fin_fields_good; eauto.
  - destruct H as (ch & w1 & Hch & [(_ & H & _)|(Hne & _ & p & Hp & Hps & H)]); [discriminate|]. cbn zeta in H. injection H as ->.
    apply fin_rcs_ok in Hch as (ys & w2 & w3 & HL & Hn & -> & _ & _).
    constructor; cbn; auto; [now rewrite Hps| |now apply good_sibs_isort].
    intros z Hz. apply isort_in in Hz. destruct (Loop_in _ _ _ _ HL z Hz) as (x & w4 & Hx & Hfx).
    rewrite Forall_forall in IH. eapply IH; eauto.
Qed.

Lemma fin_rcs_good base l ws s : fin_rcs (fun y => fin_rc y base) l = (ws, Ok s) -> good_sibs s /\ forall x, In x s -> Good base x.
Proof.
  intros H. apply fin_rcs_ok in H as (ys & w2 & w3 & HL & Hn & -> & _ & _). split; [now apply good_sibs_isort|].
  intros z Hz. apply isort_in in Hz. destruct (Loop_in _ _ _ _ HL z Hz) as (x & w4 & Hx & Hfx). eapply fin_rc_good; eauto.
Qed.

(** consequences for every element below *)
Lemma Good_below base l o x : (forall y, In y l -> Good base y) -> Below l o x ->
  exists b, Good b x /\ abs_addr x = base + o.
Proof.
  intros Hl HB. revert base Hl. induction HB as [l r Hin|l c ch Hin|l c ch o x Hin HB IH]; intros base Hl.
  - specialize (Hl _ Hin). exists base. split; auto. inversion Hl; subst. assumption.
  - specialize (Hl _ Hin). exists base. split; auto. inversion Hl; subst. assumption.
  - specialize (Hl _ Hin). inversion Hl as [|? ? ? Hb Hms Hne Hch Hs He Hsz]; subst.
    destruct (IH (c_base c) Hch) as (b & Hg & Ha). exists b. split; auto. lia.
Qed.
Lemma Good_siblings base l s : (forall y, In y l -> Good base y) -> good_sibs l -> Siblings l s ->
  exists b, good_sibs s /\ forall y, In y s -> Good b y.
Proof.
  intros Hl Hg HS. revert base Hl Hg. induction HS as [l|l c ch s Hin HS IH]; intros base Hl Hg.
  - exists base. auto.
  - specialize (Hl _ Hin). inversion Hl as [|? ? ? Hb Hms Hne Hch Hs He Hsz]; subst. eapply IH; eauto.
Qed.

Lemma Good_rc_bytes base x : Good base x -> rc_base x + rc_bytes x - 1 = last_byte x.
Proof. destruct 1 as [base r|base c l]; cbn; [reflexivity|lia]. Qed.

(** ** Peripherals *)
Inductive PLoop : list iper -> list per -> list warning -> Prop :=
| PLoop_nil : PLoop [] [] []
| PLoop_keep : forall x l y ys w ws, fin_per x = (w, Ok (Some y)) -> PLoop l ys ws -> PLoop (x :: l) (y :: ys) (w ++ ws)
| PLoop_drop : forall x l ys w ws, fin_per x = (w, Ok None) -> PLoop l ys ws -> PLoop (x :: l) ys (w ++ ws).

Lemma fin_pers_loop_ok l : forall acc ws r, fin_pers_loop l acc = (ws, Ok r) -> NoDup (map per_name acc) ->
  exists ys, r = acc ++ ys /\ PLoop l ys ws /\ NoDup (map per_name r).
Proof.
  induction l as [|x l IH]; intros acc ws r H Hnd; cbn [fin_pers_loop] in H.
  - minv. exists []. rewrite app_nil_r. repeat split; auto. constructor.
  - apply bind_ok in H as (w1 & o & w2 & Hf & H & ->). destruct o as [y|].
    + apply bind_ok in H as (w3 & [] & w4 & Hr & H & ->). apply raise_if_ok in Hr as [Hmem ->].
      apply mem_str_nIn in Hmem.
      destruct (IH _ _ _ H) as (ys & -> & HL & Hn).
      { rewrite map_app. cbn [map]. now apply NoDup_snoc'. }
      exists (y :: ys). rewrite <- app_assoc. cbn [app]. rewrite <- app_assoc in Hn. repeat split; auto. now apply PLoop_keep.
    + destruct (IH _ _ _ H Hnd) as (ys & -> & HL & Hn). exists ys. repeat split; auto. now apply PLoop_drop.
Qed.

Lemma PLoop_in l ys ws : PLoop l ys ws -> forall y, In y ys -> exists x w, In x l /\ fin_per x = (w, Ok (Some y)).
Proof.
  induction 1 as [|x l y ys w ws Hf HL IH|x l ys w ws Hf HL IH]; intros z Hz.
  - destruct Hz.
  - destruct Hz as [<-|Hz]; [exists x, w; simpl; auto|]. destruct (IH z Hz) as (x' & w' & ? & ?). exists x', w'; simpl; auto.
  - destruct (IH z Hz) as (x' & w' & ? & ?). exists x', w'; simpl; auto.
Qed.
Lemma PLoop_cover l ys ws : PLoop l ys ws -> forall x, In x l ->
  (exists y w, In y ys /\ fin_per x = (w, Ok (Some y)) /\ incl w ws) \/ (exists w, fin_per x = (w, Ok None) /\ incl w ws).
Proof.
  induction 1 as [|x l y ys w ws Hf HL IH|x l ys w ws Hf HL IH]; intros z Hz.
  - destruct Hz.
  - destruct Hz as [<-|Hz].
    + left. exists y, w. repeat split; simpl; auto. now apply incl_appl, incl_refl.
    + destruct (IH z Hz) as [(y' & w' & H1 & H2 & H3)|(w' & H2 & H3)]; [left; exists y', w'|right; exists w']; repeat split; simpl; auto;
        now apply incl_appr.
  - destruct Hz as [<-|Hz].
    + right. exists w. split; auto. now apply incl_appl, incl_refl.
    + destruct (IH z Hz) as [(y' & w' & H1 & H2 & H3)|(w' & H2 & H3)]; [left; exists y', w'|right; exists w']; repeat split; simpl; auto;
        now apply incl_appr.
Qed.

Lemma check_address_blocks_tt l ws e : check_address_blocks l = (ws, Err e) -> False.
Proof.
  revert ws e. induction l as [|a l IH]; intros ws e H; [apply ret_err in H as []|].
  destruct l as [|b l]; [apply ret_err in H as []|]. cbn [check_address_blocks] in H.
  apply bind_err in H as [H|(? & ? & ? & _ & H & _)]; [apply warn_if_err in H as []|]. eapply IH. exact H.
Qed.

Lemma fin_per_ok p ws o : fin_per p = (ws, Ok o) ->
  exists rcs w1 w2, fin_rcs (fun y => fin_rc y (pb_base (ip_b p))) (ip_rcs p) = (w1, Ok rcs) /\ ws = w1 ++ w2 /\
  (rcs = [] /\ o = None /\ w2 = [W_PeriphEmpty (pb_name (ip_b p))] \/
   rcs <> [] /\
   ((exists s, op_size (ip_props p) = Some s /\ s mod 8 <> 0 /\ o = None /\ In (W_PeriphSize (pb_name (ip_b p))) w2) \/
    exists pp, ip_props p = oprops_of_props pp /\ p_size pp mod 8 = 0 /\ pb_abs (ip_b p) <> [] /\
      let e := max_list (map (fun r => pb_base (ip_b p) + rc_offset r + rc_bytes r - 1) rcs) in
      o = Some (mk_per (ip_b p) pp (max_list (map (fun ab => pb_base (ip_b p) + ab_offset ab + ab_size ab - 1) (pb_abs (ip_b p))))
                  e (fold_left Z.add (map ab_size (pb_abs (ip_b p))) 0) (e - pb_base (ip_b p) + 1) rcs (extract_registers rcs)))).
Proof.
  intros H. unfold fin_per in H. apply bind_ok in H as (w1 & rcs & w2 & H1 & H & ->). exists rcs, w1, w2. split; [exact H1|]. split; [reflexivity|].
  destruct rcs as [|x rcs].
  - left. minv. auto.
  - right. split; [discriminate|]. apply bind_ok in H as (w3 & [] & w4 & H2 & H & ->).
    destruct (op_size (ip_props p)) as [s|] eqn:Es.
    + destruct (negb (s mod 8 =? 0)) eqn:E8.
      * left. exists s. minv. split; [reflexivity|]. split; [lia|]. split; [reflexivity|]. apply in_or_app. right. now left.
      * right. apply bind_ok in H as (w5 & [] & w6 & H3 & H & ->). apply raise_if_ok in H3 as [Hab ->].
        apply bind_ok in H as (w7 & [] & w8 & H4 & H & ->). apply bind_ok in H as (w9 & pp & w10 & H5 & H & ->).
        apply reg_prop_ok in H5 as [Hp ->]. apply ret_ok in H as [<- ->]. exists pp. split; [exact Hp|].
        split; [rewrite Hp in Es; cbn in Es; injection Es as <-; lia|]. split; [intros E; rewrite E in Hab; discriminate|]. reflexivity.
    + exfalso. apply bind_ok in H as (w5 & [] & w6 & H3 & H & ->). apply bind_ok in H as (w7 & [] & w8 & H4 & H & ->).
      apply bind_ok in H as (w9 & pp & w10 & H5 & H & ->). apply reg_prop_ok in H5 as [Hp ->]. rewrite Hp in Es. discriminate.
Qed.

(** ** Flattening of the register tree *)
Lemma extract_rc_perm x : Permutation (extract_rc x) (regs_of x).
Proof.
  induction x as [r|c l IH] using rc_ind'; cbn [extract_rc regs_of]; [reflexivity|].
  rewrite <- isort_perm. induction IH as [|y l Hy Hl IHl]; cbn [flat_map]; [reflexivity|]. now apply Permutation_app.
Qed.
Lemma extract_registers_perm l : Permutation (extract_registers l) (flat_map regs_of l).
Proof.
  unfold extract_registers. rewrite <- isort_perm. induction l as [|y l IH]; cbn [flat_map]; [reflexivity|].
  apply Permutation_app; [apply extract_rc_perm|exact IH].
Qed.
Lemma extract_registers_sorted l : StronglySorted reg_before (extract_registers l).
Proof.
  eapply StronglySorted_impl; [|apply isort_sorted; [apply reg_le_total|apply reg_le_trans]].
  intros x y H. apply pair_le_before in H. exact H.
Qed.

Record GoodPer (q : per) : Prop := {
  gp_sibs : good_sibs (pr_rcs q);
  gp_ne : pr_rcs q <> [];
  gp_rcs : forall x, In x (pr_rcs q) -> Good (pb_base (pr_b q)) x;
  gp_abs : pb_abs (pr_b q) <> [];
  gp_size : p_size (pr_props q) mod 8 = 0;
  gp_regs : pr_regs q = extract_registers (pr_rcs q);
  gp_end : pr_end q = max_list (map (fun ab => pb_base (pr_b q) + ab_offset ab + ab_size ab - 1) (pb_abs (pr_b q)));
  gp_end_eff : pr_end_eff q = max_list (map last_byte (pr_rcs q));
  gp_size_eff : pr_size_eff q = pr_end_eff q - pb_base (pr_b q) + 1;
  gp_psize : pr_size q = fold_left Z.add (map ab_size (pb_abs (pr_b q))) 0 }.

Lemma fin_per_good p ws q : fin_per p = (ws, Ok (Some q)) -> GoodPer q.
Proof.
  intros H. apply fin_per_ok in H as (rcs & w1 & w2 & Hr & -> & [(_ & H & _)|(Hne & [(s & _ & _ & H & _)|(pp & Hp & H8 & Hab & H)])]);
    try discriminate.
  cbn zeta in H. injection H as ->. apply fin_rcs_good in Hr as [Hs Hg].
  constructor; cbn [pr_rcs pr_b pr_props pr_regs pr_end pr_end_eff pr_size pr_size_eff]; auto.
  f_equal. apply map_ext_in. intros x Hx. specialize (Hg x Hx). destruct Hg as [base r|base c l]; cbn; lia.
Qed.

Lemma fin_pers_ok l ws s : fin_pers l = (ws, Ok s) ->
  exists ys w1 w2, PLoop l ys w1 /\ NoDup (map per_name ys) /\ s = isort per_le ys /\
    check_per_overlaps (map (fun p => (per_name p, pb_altper (pr_b p))) ys) [] [] s = (w2, Ok tt) /\ ws = w1 ++ w2.
Proof.
  intros H. unfold fin_pers in H. apply bind_ok in H as (w1 & r & w2 & H1 & H & ->).
  destruct (fin_pers_loop_ok _ _ _ _ H1) as (ys & E & HL & Hn); [constructor|]. cbn [app] in E. subst r.
  apply bind_ok in H as (w3 & [] & w4 & H2 & H & ->). apply ret_ok in H as [<- ->]. rewrite app_nil_r.
  exists ys, w1, w3. auto.
Qed.

Record GoodDev (d : device) : Prop := {
  gd_pers : forall q, In q (dv_periphs d) -> GoodPer q;
  gd_names : NoDup (map per_name (dv_periphs d));
  gd_sorted : StronglySorted (leP per_le) (dv_periphs d) }.

Lemma finalize_good d ws dev : finalize d = (ws, Ok dev) -> GoodDev dev /\ dv_b dev = idv_b d.
Proof.
  intros H. unfold finalize in H. apply bind_ok in H as (w1 & ps & w2 & H1 & H & ->). apply ret_ok in H as [<- ->].
  apply fin_pers_ok in H1 as (ys & w3 & w4 & HL & Hn & -> & _ & _). split; [|reflexivity]. constructor; cbn [dv_periphs].
  - intros q Hq. apply isort_in in Hq. destruct (PLoop_in _ _ _ HL q Hq) as (x & w & _ & Hx). eapply fin_per_good; eauto.
  - eapply Permutation_NoDup; [|exact Hn]. apply Permutation_map, isort_perm.
  - apply isort_sorted; [apply per_le_total|apply per_le_trans].
Qed.
