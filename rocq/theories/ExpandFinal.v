(** * ExpandFinal: the bottom-up pass over the finished graph yields the expansion of SpecExpand. *)
From Coq Require Import Relations.
From Verif Require Import Base PyStr Types DimModel EnumModel ElemModel ResolveModel GraphFacts ReplicateFacts ResolveWF ResolveInv TopoFacts SpecDeclared SpecElem SpecExpand DescribeFacts PropsDim ExpandInv ExpandBuild ExpandStep ExpandNode ExpandRounds ExpandShare TermFacts ExpandLeft ExpandScope.

Definition val (g : graph) (i : nat) : option processed := match get_node g i with Some n => n_processed n | None => None end.
Definition with_val (n : node) (v : option processed) : node := mk_node (n_name n) (n_level n) (n_done n) (n_parsed n) v (n_tmpl n).
Definition Vals (g : graph) (l : list nat) (vs : list processed) : Prop := map (val g) l = map Some vs.
Lemma Vals_app g a b va vb : Vals g a va -> Vals g b vb -> Vals g (a ++ b) (va ++ vb).
Proof. unfold Vals. intros H1 H2. now rewrite !map_app, H1, H2. Qed.
Lemma perm_map_Some {A} (l : list A) : forall k, Permutation (map Some l) (map Some k) -> Permutation l k.
Proof.
  intros k H. set (f := fun x : option A => match x with Some a => [a] | None => [] end).
  assert (K : forall m, flat_map f (map Some m) = m) by (induction m as [|a m IH]; cbn; [reflexivity|now rewrite IH]).
  rewrite <- (K l), <- (K k). clear K. induction H; cbn; auto.
  - now apply Permutation_app_head.
  - rewrite !app_assoc. apply Permutation_app_tail. apply Permutation_app_comm.
  - etransitivity; eassumption.
Qed.
Lemma Vals_perm g a b va vb : Permutation a b -> Vals g a va -> Vals g b vb -> Permutation va vb.
Proof. unfold Vals. intros H H1 H2. apply perm_map_Some. rewrite <- H1, <- H2. now apply Permutation_map. Qed.
Lemma Vals_In g l vs i : Vals g l vs -> In i l -> exists v, In v vs /\ val g i = Some v.
Proof. unfold Vals. intros H Hi. apply (in_map (val g)) in Hi. rewrite H in Hi. apply in_map_iff in Hi as (v & H1 & H2). eauto. Qed.
Lemma Vals_In' g l vs v : Vals g l vs -> In v vs -> exists i, In i l /\ val g i = Some v.
Proof. unfold Vals. intros H Hi. apply (in_map Some) in Hi. rewrite <- H in Hi. apply in_map_iff in Hi as (i & H1 & H2). eauto. Qed.

Lemma fill_kind ps b z ks v o : Filled (QuietBases ps) (Elab ps) (EffEvc ps) b z ks v o -> kind_level o = kind_level v.
Proof. destruct 1; reflexivity. Qed.
Lemma children_vals g cs ws vs : processed_children g cs = (ws, Ok vs) -> Vals g (filter (fun i => negb (is_tmpl g i)) cs) vs.
Proof.
  unfold processed_children. generalize (filter (fun i => negb (is_tmpl g i)) cs). intros l H. apply mapM_ok_Forall2 in H. unfold Vals. induction H as [|i v l vs (w & H) HF IH]; [reflexivity|]. cbn. rewrite IH. f_equal.
  destruct (is_elem g i); [|minv]. apply node_processed_ok in H as (n & Hn & Hp). unfold val. now rewrite Hn.
Qed.
Lemma as_vals {A} (as_ : processed -> M A) (mk : A -> processed) vs ws xs : (forall v w a, as_ v = (w, Ok a) -> v = mk a) -> mapM as_ vs = (ws, Ok xs) -> vs = map mk xs.
Proof. intros Ha H. apply mapM_ok_Forall2 in H. induction H as [|v x vs xs (w & H) HF IH]; [reflexivity|]. cbn. now rewrite IH, (Ha _ _ _ H). Qed.

(** the size is the largest size of the children that are no templates *)
Lemma calc_spec gs cs ws s : calculate_size gs cs = (ws, Ok s) ->
  exists ss, Forall2 (fun c x => exists v w, val gs c = Some v /\ child_size gs c v = (w, Ok x)) (filter (fun i => negb (is_tmpl gs i)) cs) ss /\ s = fold_right Z.max (-1) ss.
Proof.
  unfold calculate_size. intros H. apply bind_ok in H as (w1 & m & w2 & H & H' & _). apply bind_ok in H' as (w3 & u & w4 & _ & H' & _). apply ret_ok in H' as [<- _]. clear u w2 w3 w4 ws.
  assert (K : forall z, foldM (fun m i => v <- node_processed gs i ;; match v with PrRc _ => if is_tmpl gs i then ret m else s <- child_size gs i v ;; ret (if m <? s then s else m) | _ => raise ResolveException "node is not of type Register or Cluster" end) z cs = (w1, Ok m) ->
    exists ss, Forall2 (fun c x => exists v w, val gs c = Some v /\ child_size gs c v = (w, Ok x)) (filter (fun i => negb (is_tmpl gs i)) cs) ss /\ m = fold_left Z.max ss z).
  { clear H. revert w1. induction cs as [|c cs IH]; intros w1 z H; cbn [foldM] in H.
    - apply ret_ok in H as [<- _]. exists []. split; [constructor|reflexivity].
    - apply bind_ok in H as (w2 & z' & w3 & H1 & H & _). destruct (IH _ _ H) as (ss & K1 & K2). apply bind_ok in H1 as (w4 & v & w5 & H1 & H2 & _). apply node_processed_ok in H1 as (n & Hn & Hp).
      destruct v as [p|x|f]; try solve [minv]. cbn [filter]. destruct (is_tmpl gs c) eqn:Et.
      + apply ret_ok in H2 as [<- _]. exists ss. auto.
      + cbn [negb]. apply bind_ok in H2 as (w6 & y & w7 & H2 & H3 & _). apply ret_ok in H3 as [<- _]. exists (y :: ss). split.
        * constructor; [|exact K1]. exists (PrRc x), w6. split; [unfold val; now rewrite Hn|exact H2].
        * cbn [fold_left]. rewrite K2. f_equal. destruct (Z.ltb_spec z y); lia. }
  destruct (K _ H) as (ss & K1 & K2). exists ss. split; [exact K1|]. rewrite K2. rewrite fold_symmetric; [reflexivity|intros; lia|intros; lia].
Qed.

(** only the root is the device *)
Lemma only_root (ps : Sys) g KS x nx : Iv ps nobody g KS -> get_node g x = Some nx -> n_level nx = LDevice -> x = 0%nat.
Proof. intros (_ & V & _) Hx Hl. destruct (Nat.eq_dec x 0) as [->|H0]; [reflexivity|]. destruct (v_node _ _ _ _ V _ _ H0 Hx) as (L1 & L2 & _). rewrite Hl in L1. destruct (n_parsed nx) as [|?|[?|? ?]|?|?]; try discriminate. destruct L2. Qed.

Section Final.
  Context (ps : list svd_periph).
  Context (g : graph) (KS : nat -> list parsed) (NL : forall a c n, get_node g c = Some n -> n_level n = LCluster -> ~ In (a, c, DERIVE) (g_edges g)) (I : Iv (strict ps) nobody g KS) (Hsh : Sh g) (Done : forall i n, get_node g i = Some n -> n_done n = true).
  Let Wf := proj1 I.
  Let V := proj1 (proj2 I).
  Let E := proj2 (proj2 I).

  Lemma no_ph a b : ~ In (a, b, PLACEHOLDER) (g_edges g).
  Proof.
    assert (K : forall a b path, get_slot g a = Some (NPh path) -> ~ In (a, b, PLACEHOLDER) (g_edges g)).
    { intros x y path Hx H. destruct (w_ph _ E _ _ H) as [(q & n & _ & Hn & Hd & _)|(Hx' & _)]; [rewrite (Done _ _ Hn) in Hd; discriminate|]. rewrite (ph_not_elem _ _ _ Hx) in Hx'. discriminate. }
    intros H. destruct (w_ph _ E _ _ H) as [(q & n & Hs & _)|(_ & q & c & Hs & Hc)]; [exact (K _ _ _ Hs H)|exact (K _ _ _ Hs Hc)].
  Qed.
  Lemma succ_cases i c : In c (successors g i) <-> In c (ckids (g_edges g) i) \/ In (i, c, DERIVE) (g_edges g).
  Proof.
    rewrite successors_In. unfold Step. rewrite ckids_In. split.
    - intros (t & H). destruct (is_child t) eqn:Et; [left; eauto|]. destruct t; try discriminate; [destruct (no_ph _ _ H)|now right].
    - intros [(t & H & _)|H]; eauto.
  Qed.
  (** a derivation edge that is still there *)
  Lemma leftover i n c : get_node g i = Some n -> In (i, c, DERIVE) (g_edges g) -> exists nc, get_node g c = Some nc /\ n_level nc = n_level n /\ c <> 0%nat /\ i <> 0%nat /\ n_level n <> LCluster.
  Proof.
    intros Hi H. destruct (w_der _ E _ _ H) as (na & nc & K1 & K2 & K3 & K4). rewrite Hi in K1. injection K1 as <-. exists nc. split; [exact K2|]. split; [auto|].
    assert (Hic : i <> c) by (intros ->; apply (wf_acyclic _ Wf c c); [exists DERIVE; exact H|apply rt_refl]).
    assert (Hlev : forall x nx, get_node g x = Some nx -> n_level nx = LDevice -> x = 0%nat).
    { intros x nx Hx Hl. destruct (Nat.eq_dec x 0) as [->|H0]; [reflexivity|]. destruct (v_node _ _ _ _ V _ _ H0 Hx) as (L1 & L2 & _). rewrite Hl in L1. destruct (n_parsed nx) as [|?|[?|? ?]|?|?]; try discriminate. destruct L2. }
    assert (Hroot := v_root _ _ _ _ V).
    assert (H0 : c <> 0%nat). { intros ->. rewrite Hroot in K2. injection K2 as <-. cbn in K3. apply Hic. now apply (Hlev i n). }
    split; [exact H0|]. split; [intros ->; rewrite Hroot in Hi; injection Hi as <-; cbn in K3; symmetry in K3; apply H0; now apply (Hlev c nc)|].
    intros Hl. apply (NL i c nc K2); [congruence|exact H].
  Qed.
  Lemma done_value i n : i <> 0%nat -> get_node g i = Some n -> ~ is_evc (n_parsed n) -> exists v, n_processed n = Some v /\ kind_level v = n_level n /\ Bare v.
  Proof.
    intros H0 Hi He. destruct (v_node _ _ _ _ V _ _ H0 Hi) as (_ & _ & _ & H). destruct (H (Done _ _ Hi)) as [(e0 & e' & K & _)|[_ (sc & vs & tv & v & _ & K2 & _ & _ & K3 & K4)]]; [rewrite K in He; destruct He; exact Logic.I|].
    exists v. auto.
  Qed.
  Lemma evc_level i n : i <> 0%nat -> get_node g i = Some n -> is_evc (n_parsed n) <-> n_level n = LEnum.
  Proof. intros H0 Hi. destruct (v_node _ _ _ _ V _ _ H0 Hi) as (L1 & _). rewrite L1. destruct (n_parsed n) as [|?|[?|? ?]|?|?]; cbn; split; intros; try discriminate; try contradiction; auto. Qed.

  Lemma elab_single sc e ks vs tv : Elab ps sc e ks vs tv -> tv = None -> ~ has_placeholder (parsed_name e).
  Proof. intros H ->. inversion H as [? ? ? ? _ HD|? ? ? ? ? ? ? ? ? ? ? _ _ _ _ _ _ _ HD]; subst; inversion HD; subst; assumption. Qed.
  Lemma device_root x nx : get_node g x = Some nx -> n_level nx = LDevice -> x = 0%nat.
  Proof. exact (only_root (strict ps) g KS x nx I). Qed.

  (** ** The state of the pass *)
  Definition down (z : Z) (v : processed) : Z := match v with PrPer p => inner z (op_size (ip_props p)) | PrRc (IClu c _) => inner z (op_size (ic_props c)) | _ => z end.
  Context (Cx : nat -> Z -> Prop).
  Context (Cx_top : forall c, In c (ckids (g_edges g) 0%nat) -> Cx c 32).
  Context (Cx_down : forall i n v c z, get_node g i = Some n -> n_processed n = Some v -> In c (ckids (g_edges g) i) -> Cx i z -> Cx c (down z v)).

  Definition kids (i : nat) : list nat := filter (fun j => negb (is_tmpl g j)) (ckids (g_edges g) i).
  Definition sized_kind (v : processed) : Prop := kind_level v = LPeripheral \/ kind_level v = LCluster.
  Definition Finished (gs : graph) (i : nat) (v o : processed) : Prop :=
    (forall z b, Cx i z -> (b = true -> Solo g i) -> Filled (QuietBases ps) (Elab ps) (EffEvc ps) b z (KS i) v o) /\ kind_level o = kind_level v /\
    (sized_kind v -> ckids (g_edges g) i <> [] -> exists xs s, processed_size o = Some s /\ Vals gs (kids i) (map PrRc xs) /\
      forall z, Cx i z -> QuietBases ps \/ Solo g i \/ Forall has_size xs -> s = largest (inner z (processed_size v)) xs).
  Record SI (P : list nat) (gs : graph) : Prop := {
    si_edges : g_edges gs = g_edges g;
    si_len : length (g_slots gs) = length (g_slots g);
    si_closed : forall j c, In j P -> Step g j c -> In c P;
    si_node : forall i, get_node gs i = option_map (fun n => with_val n (val gs i)) (get_node g i);
    si_orig : forall i n, get_node g i = Some n -> n_tmpl n = true \/ ~ In i P -> val gs i = n_processed n;
    si_done : forall i n v, In i P -> get_node g i = Some n -> n_tmpl n = false -> n_processed n = Some v -> exists o, val gs i = Some o /\ Finished gs i v o }.

  Lemma si_tmpl P gs i : SI P gs -> is_tmpl gs i = is_tmpl g i.
  Proof. intros S. unfold is_tmpl. rewrite (si_node _ _ S). destruct (get_node g i); reflexivity. Qed.
  Lemma si_kind P gs c nc : SI P gs -> c <> 0%nat -> get_node g c = Some nc -> n_level nc <> LEnum -> exists o, val gs c = Some o /\ kind_level o = n_level nc.
  Proof.
    intros S H0 Hc Hl. destruct (done_value _ _ H0 Hc) as (v & K1 & K2 & _); [now rewrite (evc_level _ _ H0 Hc)|].
    destruct (n_tmpl nc) eqn:Et; [|destruct (in_dec Nat.eq_dec c P) as [K|K]].
    - exists v. rewrite (si_orig _ _ S _ _ Hc) by auto. auto.
    - destruct (si_done _ _ S _ _ _ K Hc Et K1) as (o & L1 & _ & L2 & _). exists o. split; [exact L1|congruence].
    - exists v. rewrite (si_orig _ _ S _ _ Hc) by auto. auto.
  Qed.

  Lemma fam_outs P gs z sc e fam : SI P gs -> Fam (strict ps) nobody g KS sc e fam -> ~ is_evc e -> (forall c, In c fam -> In c P /\ Cx c z) ->
    exists os, Outs (QuietBases ps) (Elab ps) (EffEvc ps) z sc e os /\ Vals gs (filter (fun j => negb (is_tmpl g j)) fam) os.
  Proof.
    intros S HF He HP. destruct HF as [e c n H1 H2 H3|e c n H1 H2 H3|e0 e' c n H1 H2 H3 H4|e c n v H1 H2 H3 H4 H5 H6|e c n js vs tv H1 H2 H3 H4 H5 H6 H7].
    - rewrite (Done _ _ H1) in H2. discriminate.
    - destruct H1.
    - destruct He. exact Logic.I.
    - destruct (HP c (or_introl eq_refl)) as [Hc Hz]. destruct (si_done _ _ S _ _ _ Hc H1 H3 H5) as (o & K1 & K2 & _). exists [o]. split.
      + eapply Outs_intro; [exact H6|]. constructor; [|constructor]. apply K2; [exact Hz|]. intros _. apply (single_solo g c n Hsh H1). rewrite H4. exact (elab_single _ _ _ _ _ H6 eq_refl).
      + cbn. unfold is_tmpl. rewrite H1, H3. cbn. unfold Vals. cbn. now rewrite K1.
    - assert (K : exists os, Forall2 (Filled (QuietBases ps) (Elab ps) (EffEvc ps) false z (KS c)) vs os /\ Vals gs js os /\ filter (fun j => negb (is_tmpl g j)) js = js).
      { assert (HP' : forall j, In j js -> In j P /\ Cx j z) by (intros j Hj; apply HP; now right). clear - S H7 HP'. induction H7 as [|j v js vs H HF IH]; [exists []; repeat split; constructor|].
        destruct IH as (os & K1 & K2 & K3); [intros x Hx; apply HP'; now right|]. destruct H as (nj & L1 & L2 & L3 & L4 & L5 & L6). destruct (HP' j (or_introl eq_refl)) as [Hj Hz].
        destruct (si_done _ _ S _ _ _ Hj L1 L3 L5) as (o & M1 & M2 & _). exists (o :: os). split; [constructor; [rewrite <- L6; apply M2; [exact Hz|discriminate]|exact K1]|]. split; [unfold Vals in *; cbn; now rewrite M1, K2|].
        cbn. unfold is_tmpl at 1. rewrite L1, L3. cbn. now rewrite K3. }
      destruct K as (os & K1 & K2 & K3). exists os. split; [eapply Outs_intro; eassumption|]. cbn. unfold is_tmpl at 1. rewrite H1, H3. cbn. rewrite K3. exact K2.
  Qed.
  Lemma fams_outs P gs z sc es fams : SI P gs -> Forall2 (Fam (strict ps) nobody g KS sc) es fams -> (forall e, In e es -> ~ is_evc e) -> (forall c, In c (concat fams) -> In c P /\ Cx c z) ->
    exists oss, Forall2 (Outs (QuietBases ps) (Elab ps) (EffEvc ps) z sc) es oss /\ Vals gs (filter (fun j => negb (is_tmpl g j)) (concat fams)) (concat oss).
  Proof.
    intros S HF. induction HF as [|e fam es fams H HF IH]; intros He HP; [exists []; split; [constructor|reflexivity]|].
    destruct IH as (oss & K1 & K2); [intros x Hx; apply He; now right|intros c Hc; apply HP; cbn; apply in_app_iff; now right|].
    destruct (fam_outs P gs z sc e fam S H) as (os & L1 & L2); [apply He; now left|intros c Hc; apply HP; cbn; apply in_app_iff; now left|].
    exists (os :: oss). split; [now constructor|]. cbn. rewrite filter_app. now apply Vals_app.
  Qed.
  Lemma filter_perm {A} (p : A -> bool) l l' : Permutation l l' -> Permutation (filter p l) (filter p l').
  Proof. induction 1; cbn; repeat (match goal with |- context [if ?b then _ else _] => destruct b end); auto; try constructor; etransitivity; eassumption. Qed.
  Lemma kids_outs P gs i n z vs : SI P gs -> get_node g i = Some n -> n_level n <> LField -> (forall c, In c (ckids (g_edges g) i) -> In c P /\ Cx c z) -> Vals gs (kids i) vs ->
    exists oss, Forall2 (Outs (QuietBases ps) (Elab ps) (EffEvc ps) z (KS i)) (KS i) oss /\ Permutation (concat oss) vs.
  Proof.
    intros S Hi Hl HP HV. destruct (v_kids _ _ _ _ V i (proj2 (is_elem_node _ _) (ex_intro _ _ Hi))) as (fams & K1 & K2).
    destruct (fams_outs P gs z _ _ _ S K2) as (oss & L1 & L2).
    - intros e He K. assert (HB := v_prov _ _ _ _ V _ _ _ Hi He). destruct HB as [[_ HB]|(e0 & _ & HB1 & HB2)]; [destruct e; contradiction || discriminate|].
      destruct e; try contradiction. destruct e0 as [|?|[?|? ?]|?|?]; cbn in HB2; try contradiction; try (apply in_map_iff in HB2 as (y & HB2 & _); discriminate). cbn in HB1. congruence.
    - intros c Hc. apply HP. eapply Permutation_in; [symmetry; exact K1|exact Hc].
    - exists oss. split; [exact L1|]. eapply Vals_perm; [|exact L2|exact HV]. unfold kids. apply filter_perm. now symmetry.
  Qed.
  (** what the pass looks at are the children *)
  Lemma real_children P gs i n : SI P gs -> get_node g i = Some n -> n_level n <> LEnum ->
    (forall c o, In c (successors g i) -> is_tmpl g c = false -> val gs c = Some o -> n_level n = LCluster \/ kind_level o <> n_level n) ->
    Permutation (filter (fun j => negb (is_tmpl g j)) (successors g i)) (kids i).
  Proof.
    intros S Hi Hl Hk. apply NoDup_Permutation; [apply NoDup_filter, successors_NoDup|apply NoDup_filter, (v_nd _ _ _ _ V)|]. intros c. unfold kids. rewrite !filter_In, succ_cases. split; [|tauto].
    intros [[H|H] Ht]; [auto|]. exfalso. destruct (leftover _ _ _ Hi H) as (nc & K1 & K2 & K3 & K4 & K5). destruct (si_kind _ _ _ _ S K3 K1) as (o & L1 & L2); [congruence|].
    destruct (Hk c o) as [K|K]; auto; [apply succ_cases; now right|now apply negb_true_iff|congruence].
  Qed.
  Lemma kids_nil i n : get_node g i = Some n -> ckids (g_edges g) i = [] <-> KS i = [].
  Proof.
    intros Hi. destruct (v_kids _ _ _ _ V i (proj2 (is_elem_node _ _) (ex_intro _ _ Hi))) as (fams & K1 & K2). split; intros K.
    - rewrite K in K1. apply Permutation_nil in K1. revert K1. clear K. destruct K2 as [|e fam es fams HF _]; [reflexivity|]. cbn. intros K1. apply app_eq_nil in K1 as [K1 _]. rewrite K1 in HF. inversion HF.
    - rewrite K in K2. inversion K2; subst. cbn in K1. now apply Permutation_sym, Permutation_nil in K1.
  Qed.

  (** ** One visit *)
  Context (Low : nat -> nat -> Prop).
  Context (HS : forall P gs i n v xs z s ws, SI P gs -> i <> 0%nat -> get_node g i = Some n -> n_tmpl n = false -> n_processed n = Some v -> sized_kind v -> ~ In i P ->
    (forall c, Step g i c -> In c P) -> (forall j, In j P -> Low j i) -> Cx i z -> calculate_size gs (successors g i) = (ws, Ok s) -> Permutation (filter (fun j => negb (is_tmpl g j)) (successors g i)) (kids i) -> Vals gs (kids i) (map PrRc xs) ->
    QuietBases ps \/ Solo g i \/ Forall has_size xs -> s = largest (inner z (processed_size v)) xs).

  Lemma si_skip P gs i : SI P gs -> ~ In i P -> (forall c, Step g i c -> In c P) -> (forall n v, get_node g i = Some n -> n_tmpl n = false -> n_processed n = Some v -> Finished gs i v v) -> SI (i :: P) gs.
  Proof.
    intros S Hi Hc HF. constructor; try apply S.
    - intros j c [<-|Hj] Hs; right; [auto|]. eapply (si_closed _ _ S); eassumption.
    - intros j n Hn [K|K]; apply (si_orig _ _ S _ _ Hn); [now left|right]. intros K2. apply K. now right.
    - intros j n v [<-|Hj] Hn Ht Hv; [|eapply (si_done _ _ S); eassumption]. exists v. split; [rewrite (si_orig _ _ S _ _ Hn) by auto; exact Hv|]. eapply HF; eassumption.
  Qed.
  Lemma si_set P gs i n v o : SI P gs -> ~ In i P -> (forall c, Step g i c -> In c P) -> get_node g i = Some n -> n_tmpl n = false -> n_processed n = Some v -> Finished gs i v o -> SI (i :: P) (set_processed gs i o).
  Proof.
    intros S Hi Hc Hn Ht Hv HF. assert (Hgs : get_node gs i = Some (with_val n (val gs i))) by (rewrite (si_node _ _ S), Hn; reflexivity).
    set (m := with_val n (Some o)). assert (Hsl : forall j, get_slot (set_processed gs i o) j = if Nat.eqb i j then Some (NElem m) else get_slot gs j).
    { intros j. unfold set_processed. rewrite Hgs. exact (set_node_slot _ _ _ _ Hgs j). }
    assert (Hsame : forall j, j <> i -> get_node (set_processed gs i o) j = get_node gs j) by (intros j Hj; apply get_node_same; rewrite Hsl; destruct (Nat.eqb_spec i j); congruence).
    assert (Hnew : get_node (set_processed gs i o) i = Some m) by (apply get_node_slot; now rewrite Hsl, Nat.eqb_refl).
    assert (Hval : forall j, j <> i -> val (set_processed gs i o) j = val gs j) by (intros j Hj; unfold val; now rewrite Hsame).
    assert (Hvi : val (set_processed gs i o) i = Some o) by (unfold val; now rewrite Hnew).
    assert (Hfin : forall j w u, (forall c, Step g j c -> In c P) -> Finished gs j w u -> Finished (set_processed gs i o) j w u).
    { intros j w u Hj (F1 & F2 & F3). split; [exact F1|]. split; [exact F2|]. intros K1 K2. destruct (F3 K1 K2) as (xs & s & L1 & L2 & L3). exists xs, s. split; [exact L1|]. split; [|exact L3].
      unfold Vals in *. rewrite <- L2. apply map_ext_in. intros c Kc. apply Hval. intros ->. apply Hi. apply Hj. unfold kids in Kc. apply filter_In in Kc as [Kc _]. apply ckids_In in Kc as (t & Kc & _). exists t. exact Kc. }
    constructor.
    - unfold set_processed. rewrite Hgs. apply (si_edges _ _ S).
    - unfold set_processed. rewrite Hgs. unfold set_node. cbn. rewrite <- (si_len _ _ S). clear. unfold set_nth. rewrite ?length_app. revert i. generalize (g_slots gs). intros l. induction l as [|a l IH]; intros [|i]; cbn; auto.
    - intros j c [<-|Hj] Hs; right; [auto|]. eapply (si_closed _ _ S); eassumption.
    - intros j. destruct (Nat.eq_dec j i) as [->|Hj]; [rewrite Hnew, Hvi, Hn; reflexivity|]. rewrite Hsame, Hval by auto. apply (si_node _ _ S).
    - intros j nj Hnj Hor. destruct (Nat.eq_dec j i) as [->|Hj].
      + exfalso. rewrite Hn in Hnj. injection Hnj as <-. destruct Hor as [K|K]; [congruence|]. apply K. now left.
      + rewrite Hval by auto. apply (si_orig _ _ S _ _ Hnj). destruct Hor as [K|K]; [now left|right]. intros K2. apply K. now right.
    - intros j nj w Hj Hnj Htj Hvj. destruct (Nat.eq_dec j i) as [->|Hji].
      + rewrite Hn in Hnj. injection Hnj as <-. rewrite Hv in Hvj. injection Hvj as <-. exists o. split; [exact Hvi|]. now apply Hfin.
      + destruct Hj as [->|Hj]; [congruence|]. destruct (si_done _ _ S _ _ _ Hj Hnj Htj Hvj) as (u & K1 & K2). exists u. split; [now rewrite Hval|]. apply Hfin; [|exact K2]. intros c Kc. eapply (si_closed _ _ S); eassumption.
  Qed.

  Lemma Forall2_perm {A B} (R : A -> B -> Prop) l k : Permutation l k -> forall l', Forall2 R l l' -> exists k', Forall2 R k k' /\ Permutation l' k'.
  Proof.
    induction 1 as [|x l k HP IH|x y l|l k m _ IH1 _ IH2]; intros l' HF.
    - inversion HF; subst. exists []. auto.
    - inversion HF as [|? y ? l2 H1 H2]; subst. destruct (IH _ H2) as (k' & K1 & K2). exists (y :: k'). auto.
    - inversion HF as [|? a ? l2 H1 H2]; subst. inversion H2 as [|? b ? l3 H3 H4]; subst. exists (b :: a :: l3). split; [auto|constructor].
    - destruct (IH1 _ HF) as (k1 & K1 & K2). destruct (IH2 _ K1) as (k2 & K3 & K4). exists k2. split; [exact K3|etransitivity; eassumption].
  Qed.
  Lemma evcs_filled P gs i n f cs ws z bb : SI P gs -> get_node g i = Some n -> n_level n = LField -> finalize_evcs gs (fb_lsb (if_b f)) (fb_msb (if_b f)) (successors g i) = (ws, Ok cs) ->
    Filled (QuietBases ps) (Elab ps) (EffEvc ps) bb z (KS i) (PrFld f) (PrFld (mk_ifield (if_b f) (if_dim f) (if_access f) cs)).
  Proof.
    intros S Hi Hl H. assert (HU : usages_ok (map ievc_usage cs)).
    { eapply (finalize_evcs_ok (fun _ => True)); [intros x nx _; exact Logic.I|exact H]. }
    unfold finalize_evcs in H. apply bind_ok in H as (w1 & cs' & w2 & Hm & H & _). assert (cs' = cs) as ->.
    { apply bind_ok in H as (? & ? & ? & _ & H & _). apply bind_ok in H as (? & ? & ? & _ & H & _). apply bind_ok in H as (? & ? & ? & _ & H & _). apply ret_ok in H. tauto. }
    clear H. apply mapM_ok_Forall2 in Hm.
    set (EV := fun c x => exists n e w, get_node g c = Some n /\ n_parsed n = PaEvc e /\ create_evc e (fb_lsb (if_b f)) (fb_msb (if_b f)) = (w, Ok x)).
    assert (HEV : Forall2 EV (successors g i) cs).
    { clear - Hm S. induction Hm as [|c x l l' (w & H) HF IH]; constructor; [|exact IH]. rewrite (si_node _ _ S) in H. destruct (get_node g c) as [nc|] eqn:Ec; cbn in H; [|minv].
      destruct (n_parsed nc) as [| | | |e] eqn:Ep; try solve [minv]. exists nc, e, w. auto. }
    assert (HP : Permutation (successors g i) (ckids (g_edges g) i)).
    { apply NoDup_Permutation; [apply successors_NoDup|apply (v_nd _ _ _ _ V)|]. intros c. rewrite succ_cases. split; [|tauto]. intros [K|K]; [exact K|]. exfalso.
      destruct (leftover _ _ _ Hi K) as (nc & K1 & K2 & K3 & _). assert (Kc : In c (successors g i)) by (apply succ_cases; now right).
      assert (L : exists e, n_parsed nc = PaEvc e). { clear - HEV Kc K1. induction HEV as [|c' x l l' (m & e & w & H1 & H2 & _) HF IH]; [destruct Kc|]. destruct Kc as [->|Kc]; [|auto]. rewrite K1 in H1. injection H1 as <-. eauto. }
      destruct L as [e L]. destruct (v_node _ _ _ _ V _ _ K3 K1) as (L1 & _). rewrite L in L1. cbn in L1. congruence. }
    destruct (v_kids _ _ _ _ V i (proj2 (is_elem_node _ _) (ex_intro _ _ Hi))) as (fams & F1 & F2).
    destruct (Forall2_perm _ _ _ (Permutation_trans HP F1) _ HEV) as (ics & G1 & G2).
    assert (HK : exists es, KS i = map PaEvc es).
    { assert (K : forall e, In e (KS i) -> exists x, e = PaEvc x).
      { intros e He. destruct (v_prov _ _ _ _ V _ _ _ Hi He) as [[K _]|(e0 & _ & K1 & K2)]; [congruence|]. destruct e0 as [|?|[?|? ?]|?|?]; cbn in K1; try congruence. cbn in K2. apply in_map_iff in K2 as (x & <- & _). eauto. }
      revert K. generalize (KS i). clear. intros l. induction l as [|e l IH]; intros K; [exists []; reflexivity|]. destruct IH as [es ->]; [intros x Hx; apply K; now right|]. destruct (K e (or_introl eq_refl)) as [x ->]. exists (x :: es). reflexivity. }
    destruct HK as [es HK]. eapply (Fill_fld (QuietBases ps) (Elab ps) (EffEvc ps) bb z (KS i) f es ics cs); [exact HK| |now symmetry|exact HU].
    rewrite HK in F2 at 2. revert F2. generalize (KS i). intros sc F2. clear - F2 G1 Done. revert fams ics F2 G1. induction es as [|e es IH]; intros fams ics F2 G1; cbn in F2; inversion F2 as [|? fam ? fams' HF HR]; subst; cbn in G1.
    - inversion G1; subst. constructor.
    - assert (K : exists c n e', fam = [c] /\ get_node g c = Some n /\ n_parsed n = PaEvc e' /\ EffEvc ps e e').
      { inversion HF as [? c n H1 H2|? c n []|e0 e' c n H1 H2 H3 H4|? c n v H1 H2 H3 H4 H5 H6|? c n js vs tv H1 H2 H3 H4 H5 H6]; subst.
        - rewrite (Done _ _ H1) in H2. discriminate.
        - exists c, n, e'. auto.
        - exfalso. clear - H6. inversion H6 as [? ? ? ? _ HD|? ? ? ? ? ? ? ? ? ? ? _ _ _ _ _ _ _ HD]; subst; inversion HD; subst; match goal with H : Attributes (PaEvc _) _ _ |- _ => exact H end.
        - exfalso. clear - H6. inversion H6 as [? ? ? ? _ HD|? ? ? ? ? ? ? ? ? ? ? _ _ _ _ _ _ _ HD]; subst; inversion HD; subst; match goal with H : Attributes (PaEvc _) _ _ |- _ => exact H end. }
      destruct K as (c & n & e' & -> & K1 & K2 & K3). cbn in G1. inversion G1 as [|? x ? xs (n2 & e2 & w & L1 & L2 & L3) HR2]; subst. rewrite K1 in L1. injection L1 as <-. rewrite K2 in L2. injection L2 as <-.
      constructor; [eauto|]. eapply IH; eassumption.
  Qed.
  Lemma leaf_finished P gs i n v : SI P gs -> i <> 0%nat -> get_node g i = Some n -> successors g i = [] -> n_processed n = Some v -> Finished gs i v v.
  Proof.
    intros S H0 Hi Hs Hv. assert (Hck : ckids (g_edges g) i = []).
    { destruct (ckids (g_edges g) i) as [|c l] eqn:Ec; [reflexivity|]. assert (K : In c (successors g i)) by (apply succ_cases; left; rewrite Ec; now left). rewrite Hs in K. destruct K. }
    assert (HK := proj1 (kids_nil _ _ Hi) Hck). split; [|split; [reflexivity|intros _ K; contradiction]]. intros z bb _ _. rewrite HK.
    assert (Hb : Bare v). { destruct (v_node _ _ _ _ V _ _ H0 Hi) as (_ & _ & _ & H). destruct (H (Done _ _ Hi)) as [(e0 & e' & _ & _ & _ & _ & K & _)|[_ (sc & vs & tv & w & _ & K2 & _ & _ & K3 & _)]]; [congruence|]. rewrite Hv in K2. injection K2 as <-. exact K3. }
    destruct v as [p|[r|c l]|f]; cbn in Hb.
    - destruct p as [b d pr rcs]. cbn in Hb. subst rcs. apply Fill_per_leaf.
    - destruct r as [b d pr fs]. cbn in Hb. subst fs. apply (Fill_reg (QuietBases ps) (Elab ps) (EffEvc ps) bb z [] (mk_ireg b d pr []) [] []); constructor.
    - subst l. apply Fill_clu_leaf.
    - destruct f as [b d a es]. cbn in Hb. subst es. apply (Fill_fld (QuietBases ps) (Elab ps) (EffEvc ps) bb z [] (mk_ifield b d a []) [] [] []); [reflexivity|constructor|constructor|now left].
  Qed.

  Lemma Vals_perm_ex gs a b va : Permutation a b -> Vals gs a va -> exists vb, Vals gs b vb /\ Permutation va vb.
  Proof.
    unfold Vals. intros HP. revert va. induction HP as [|x l k HP IH|x y l|l k m H1 IH1 H2 IH2]; intros va H.
    - destruct va; [|discriminate]. exists []. auto.
    - destruct va as [|v va]; [discriminate|]. cbn in H. injection H as K1 K2. destruct (IH _ K2) as (vb & L1 & L2). exists (v :: vb). cbn. rewrite K1, L1. auto.
    - destruct va as [|v [|u va]]; try discriminate. cbn in H. injection H as K1 K2 K3. exists (u :: v :: va). cbn. rewrite K1, K2, K3. split; [reflexivity|constructor].
    - destruct (IH1 _ H) as (vb & L1 & L2). destruct (IH2 _ L1) as (vc & L3 & L4). exists vc. split; [exact L3|etransitivity; eassumption].
  Qed.
  Lemma perm_map_inv {A B} (f : A -> B) l k : Permutation (map f l) k -> exists l', k = map f l' /\ Permutation l l'.
  Proof. intros H. apply Permutation_sym, Permutation_map_inv in H as (l' & K1 & K2). exists l'. split; [exact K1|]. exact K2. Qed.
  Lemma largest_perm z xs ys : Permutation xs ys -> largest z xs = largest z ys.
  Proof. unfold largest. induction 1; cbn; try lia. Qed.
  Lemma has_size_perm xs ys : Permutation xs ys -> Forall has_size xs -> Forall has_size ys.
  Proof. intros HP H. rewrite Forall_forall in *. intros x Hx. apply H. eapply Permutation_in; [symmetry; exact HP|exact Hx]. Qed.

  Lemma calc_rc gs cs ws s c : calculate_size gs cs = (ws, Ok s) -> In c cs -> exists x, val gs c = Some (PrRc x).
  Proof.
    unfold calculate_size. intros H. apply bind_ok in H as (w1 & m & w2 & H & _ & _). revert H. generalize (-1). clear s ws w2. revert w1 m. induction cs as [|d cs IH]; intros w1 m z H Hc; [destruct Hc|].
    cbn [foldM] in H. apply bind_ok in H as (w2 & z' & w3 & H1 & H & _). destruct Hc as [<-|Hc]; [|eapply IH; eassumption].
    apply bind_ok in H1 as (w4 & v & w5 & H1 & H2 & _). apply node_processed_ok in H1 as (n & Hn & Hp). destruct v as [p|x|f]; try solve [minv]. exists x. unfold val. now rewrite Hn.
  Qed.
  Lemma rcs_values P gs i n ws r : SI P gs -> i <> 0%nat -> get_node g i = Some n -> n_level n = LPeripheral \/ n_level n = LCluster -> finalize_rcs gs (successors g i) = (ws, Ok r) -> successors g i <> [] ->
    exists xs w, calculate_size gs (successors g i) = (w, Ok (fst r)) /\ Permutation xs (snd r) /\ StronglySorted (leP irc_le) (snd r) /\ Vals gs (kids i) (map PrRc xs) /\
      Permutation (filter (fun j => negb (is_tmpl g j)) (successors g i)) (kids i) /\ ckids (g_edges g) i <> [].
  Proof.
    intros S H0 Hi Hl H Hne. unfold finalize_rcs in H. apply bind_ok in H as (w1 & s & w2 & H1 & H & _). apply bind_ok in H as (w3 & vs & w4 & H2 & H & _). apply bind_ok in H as (w5 & ys & w6 & H3 & H & _).
    apply ret_ok in H as [<- _]. cbn [fst snd]. assert (Hrc : forall c, In c (successors g i) -> exists x, val gs c = Some (PrRc x)) by (intros c; apply (calc_rc _ _ _ _ _ H1)).
    assert (Hreal : Permutation (filter (fun j => negb (is_tmpl g j)) (successors g i)) (kids i)).
    { apply (real_children P gs i n S Hi); [destruct Hl as [Hl|Hl]; rewrite Hl; discriminate|]. intros c o Hc _ Ho. destruct (Hrc c Hc) as [x Hx]. destruct Hl as [Hl|Hl]; [right|now left]. rewrite Hx in Ho. injection Ho as <-. rewrite Hl. destruct x; discriminate. }
    apply children_vals in H2. assert (E1 : filter (fun j => negb (is_tmpl gs j)) (successors g i) = filter (fun j => negb (is_tmpl g j)) (successors g i)) by (apply filter_ext; intros j; now rewrite (si_tmpl _ _ j S)).
    rewrite E1 in H2. apply (as_vals as_irc PrRc) in H3; [|intros; eapply as_irc_ok; eassumption]. subst vs.
    destruct (Vals_perm_ex _ _ _ _ Hreal H2) as (vb & L1 & L2). apply perm_map_inv in L2 as (xs & -> & L2). exists xs, w1. split; [exact H1|].
    split; [rewrite <- L2; apply isort_perm|]. split; [apply zs_sorted|]. split; [exact L1|]. split; [exact Hreal|].
    destruct (successors g i) as [|c l] eqn:Es; [contradiction|]. destruct (proj1 (succ_cases i c)) as [K|K]; [rewrite Es; now left|intros K2; rewrite K2 in K; destruct K|].
    exfalso. destruct (leftover _ _ _ Hi K) as (nc & K1 & K2 & K3 & K4 & K5). destruct Hl as [Hl|Hl]; [|contradiction]. destruct (si_kind _ _ _ _ S K3 K1) as (o & M1 & M2); [congruence|].
    destruct (Hrc c) as [x Hx]; [now left|]. rewrite Hx in M1. injection M1 as <-. destruct x; cbn in M2; congruence.
  Qed.

  Definition RI (P : list nat) (res : option (list iper)) : Prop := forall l, res = Some l ->
    exists oss, Forall2 (Outs (QuietBases ps) (Elab ps) (EffEvc ps) 32 (KS 0%nat)) (KS 0%nat) oss /\ Permutation (concat oss) (map PrPer l) /\ StronglySorted (leP iper_le) l.

  Lemma si_visit P gs res i ws gs' res' : SI P gs -> RI P res -> ~ In i P -> (forall c, Step g i c -> In c P) -> (forall j, In j P -> Low j i) -> visit g (gs, res) i = (ws, Ok (gs', res')) -> SI (i :: P) gs' /\ RI (i :: P) res'.
  Proof.
    intros S R Hi Hc HLo H. unfold visit in H. assert (Hck : forall c, In c (ckids (g_edges g) i) -> In c P) by (intros c K; apply ckids_In in K as (t & K & _); apply Hc; now exists t).
    destruct (Nat.eq_dec i 0) as [->|H0].
    { (* the device *)
      assert (Hroot := v_root _ _ _ _ V). assert (SK : SI (0%nat :: P) gs) by (apply si_skip; auto; intros n v K1 _ K2; rewrite Hroot in K1; injection K1 as <-; discriminate K2).
      destruct (successors g 0%nat) as [|c0 l0] eqn:Es; [apply ret_ok in H as [E0 _]; injection E0 as <- <-; auto|]. rewrite <- Es in *. clear c0 l0 Es.
      unfold finalize_node in H. assert (Hg := si_node _ _ S 0%nat). rewrite Hroot in Hg. cbn in Hg. rewrite Hg in H. cbn in H.
      apply bind_ok in H as (w1 & vs & w2 & H1 & H & _). apply bind_ok in H as (w3 & xs & w4 & H2 & H & _). apply ret_ok in H as [E0 _]. injection E0 as <- <-. split; [exact SK|].
      intros l El. injection El as <-. apply children_vals in H1. rewrite (filter_ext _ (fun j => negb (is_tmpl g j))) in H1 by (intros j; now rewrite (si_tmpl _ _ j S)).
      apply (as_vals as_per PrPer) in H2; [|intros; eapply as_per_ok; eassumption]. subst vs.
      assert (Hreal : Permutation (filter (fun j => negb (is_tmpl g j)) (successors g 0%nat)) (kids 0%nat)).
      { eapply (real_children P gs 0%nat _ S Hroot); [discriminate|]. intros c o Kc Kt Ko. right. destruct (Vals_In _ _ _ c H1) as (v & L1 & L2); [apply filter_In; split; [exact Kc|now rewrite Kt]|].
        apply in_map_iff in L1 as (p & <- & _). rewrite L2 in Ko. injection Ko as <-. discriminate. }
      destruct (Vals_perm_ex _ _ _ _ Hreal H1) as (vb & L1 & L2).
      destruct (kids_outs P gs 0%nat _ 32 vb S Hroot) as (oss & M1 & M2); [discriminate|auto|exact L1|]. exists oss. split; [exact M1|]. split; [|apply zs_sorted].
      rewrite M2, <- L2. apply Permutation_map, isort_perm. }
    assert (RI' : RI (i :: P) res) by exact R.
    destruct (successors g i) as [|c0 l0] eqn:Es.
    { apply ret_ok in H as [E0 _]; injection E0 as <- <-. split; [|exact RI']. apply si_skip; auto. intros n v Hn _ Hv. eapply leaf_finished; eassumption. }
    rewrite <- Es in *. assert (Hne : successors g i <> []) by (rewrite Es; discriminate). clear c0 l0 Es.
    unfold finalize_node in H. rewrite (si_node _ _ S) in H. destruct (get_node g i) as [n|] eqn:Hn; cbn [option_map] in H; [|minv]. cbn [with_val n_tmpl n_level] in H.
    destruct (n_tmpl n) eqn:Ht. { apply ret_ok in H as [E0 _]; injection E0 as <- <-. split; [|exact RI']. apply si_skip; auto. intros m v K1 K2. rewrite Hn in K1. injection K1 as <-. congruence. }
    assert (Hnp : forall w v, node_processed gs i = (w, Ok v) -> n_processed n = Some v).
    { intros w v K. apply node_processed_ok in K as (m & K1 & K2). rewrite <- (si_orig _ _ S _ _ Hn) by auto. unfold val. now rewrite K1. }
    destruct (n_level n) eqn:El.
    - exfalso. destruct (v_node _ _ _ _ V _ _ H0 Hn) as (L1 & L2 & _). rewrite El in L1. destruct (n_parsed n) as [|?|[?|? ?]|?|?]; try discriminate. destruct L2.
    - apply bind_ok in H as (w1 & v & w2 & H1 & H & _). apply bind_ok in H as (w3 & r & w4 & H2 & H & _). destruct v as [p|x|f]; try solve [minv]. apply ret_ok in H as [E0 _]. injection E0 as <- <-. split; [|exact RI'].
      apply Hnp in H1. destruct (rcs_values P gs i n _ r S H0 Hn (or_introl El) H2 Hne) as (xs & w & L1 & L2 & L3 & L4 & L5 & L6).
      assert (HSz : forall z, Cx i z -> QuietBases ps \/ Solo g i \/ Forall has_size xs -> fst r = largest (inner z (op_size (ip_props p))) xs).
      { intros z Hz Hx. exact (HS P gs i n (PrPer p) xs z (fst r) w S H0 Hn Ht H1 (or_introl eq_refl) Hi Hc HLo Hz L1 L5 L4 Hx). }
      eapply si_set; try eassumption. split; [|split; [reflexivity|]].
      + intros z bb Hz Hbb. destruct (kids_outs P gs i n (inner z (op_size (ip_props p))) (map PrRc xs) S Hn) as (oss & M1 & M2); [congruence| |exact L4|].
        { intros c Kc. split; [auto|]. exact (Cx_down i n (PrPer p) c z Hn H1 Kc Hz). }
        eapply Fill_per; [intros K; apply L6; now apply (kids_nil _ _ Hn)|exact M1|rewrite M2; now apply Permutation_map|exact L3|].
        intros K. rewrite (HSz z Hz). { now apply largest_perm. } destruct K as [K|[K|K]]; [now left|right; left; auto|right; right]. eapply has_size_perm; [symmetry; exact L2|exact K].
      + intros _ _. exists xs, (fst r). split; [reflexivity|]. split; [exact L4|]. exact HSz.
    - apply bind_ok in H as (w1 & v & w2 & H1 & H & _). apply bind_ok in H as (w3 & r & w4 & H2 & H & _). destruct v as [p|[q|c l]|f]; try solve [minv]. apply ret_ok in H as [E0 _]. injection E0 as <- <-. split; [|exact RI'].
      apply Hnp in H1. destruct (rcs_values P gs i n _ r S H0 Hn (or_intror El) H2 Hne) as (xs & w & L1 & L2 & L3 & L4 & L5 & L6).
      assert (HSz : forall z, Cx i z -> QuietBases ps \/ Solo g i \/ Forall has_size xs -> fst r = largest (inner z (op_size (ic_props c))) xs).
      { intros z Hz Hx. exact (HS P gs i n (PrRc (IClu c l)) xs z (fst r) w S H0 Hn Ht H1 (or_intror eq_refl) Hi Hc HLo Hz L1 L5 L4 Hx). }
      eapply si_set; try eassumption. split; [|split; [reflexivity|]].
      + intros z bb Hz Hbb. destruct (kids_outs P gs i n (inner z (op_size (ic_props c))) (map PrRc xs) S Hn) as (oss & M1 & M2); [congruence| |exact L4|].
        { intros c' Kc. split; [auto|]. exact (Cx_down i n (PrRc (IClu c l)) c' z Hn H1 Kc Hz). }
        eapply Fill_clu; [intros K; apply L6; now apply (kids_nil _ _ Hn)|exact M1|rewrite M2; now apply Permutation_map|exact L3|].
        intros K. rewrite (HSz z Hz). { now apply largest_perm. } destruct K as [K|[K|K]]; [now left|right; left; auto|right; right]. eapply has_size_perm; [symmetry; exact L2|exact K].
      + intros _ _. exists xs, (fst r). split; [reflexivity|]. split; [exact L4|]. exact HSz.
    - apply bind_ok in H as (w1 & v & w2 & H1 & H & _). apply bind_ok in H as (w3 & vs & w4 & H2 & H & _). apply bind_ok in H as (w5 & fs & w6 & H3 & H & _). destruct v as [p|[q|c l]|f]; try solve [minv]. apply ret_ok in H as [E0 _]. injection E0 as <- <-. split; [|exact RI'].
      apply Hnp in H1. apply children_vals in H2. rewrite (filter_ext _ (fun j => negb (is_tmpl g j))) in H2 by (intros j; now rewrite (si_tmpl _ _ j S)).
      apply (as_vals as_fld PrFld) in H3; [|intros; eapply as_fld_ok; eassumption]. subst vs.
      assert (Hreal : Permutation (filter (fun j => negb (is_tmpl g j)) (successors g i)) (kids i)).
      { eapply (real_children P gs i n S Hn); [congruence|]. intros c o Kc Kt Ko. right. destruct (Vals_In _ _ _ c H2) as (v & L1 & L2); [apply filter_In; split; [exact Kc|now rewrite Kt]|].
        apply in_map_iff in L1 as (p & <- & _). rewrite L2 in Ko. injection Ko as <-. rewrite El. discriminate. }
      destruct (Vals_perm_ex _ _ _ _ Hreal H2) as (vb & L1 & L2).
      eapply si_set; try eassumption. split; [|split; [reflexivity|intros [K|K]; discriminate K]].
      intros z bb Hz Hbb. destruct (kids_outs P gs i n z vb S Hn) as (oss & M1 & M2); [congruence| |exact L1|].
      { intros c Kc. split; [auto|]. exact (Cx_down i n (PrRc (IReg q)) c z Hn H1 Kc Hz). }
      eapply (Fill_reg (QuietBases ps) (Elab ps) (EffEvc ps) bb z (KS i) q oss (isort ifield_le fs)); [exact M1|rewrite M2, <- L2; apply Permutation_map, isort_perm|apply zs_sorted].
    - apply bind_ok in H as (w1 & v & w2 & H1 & H & _). destruct v as [p|x|f]; try solve [minv]. apply bind_ok in H as (w3 & cs & w4 & H2 & H & _). apply ret_ok in H as [E0 _]. injection E0 as <- <-. split; [|exact RI'].
      apply Hnp in H1. eapply si_set; try eassumption. split; [|split; [reflexivity|intros [K|K]; discriminate K]]. intros z bb _ _. eapply evcs_filled; eassumption.
    - minv.
  Qed.
End Final.

Section Pass.
  Context (ps : list svd_periph).
  Context (g : graph) (KS : nat -> list parsed) (NL : forall a c n, get_node g c = Some n -> n_level n = LCluster -> ~ In (a, c, DERIVE) (g_edges g)) (I : Iv (strict ps) nobody g KS) (Hsh : Sh g) (Done : forall i n, get_node g i = Some n -> n_done n = true).
  Context (Cx : nat -> Z -> Prop).
  Context (Cx_top : forall c, In c (ckids (g_edges g) 0%nat) -> Cx c 32).
  Context (Cx_down : forall i n v c z, get_node g i = Some n -> n_processed n = Some v -> In c (ckids (g_edges g) i) -> Cx i z -> Cx c (down z v)).
  Context (Low : nat -> nat -> Prop).
  Context (HS : forall P gs i n v xs z s ws, SI ps g KS Cx P gs -> i <> 0%nat -> get_node g i = Some n -> n_tmpl n = false -> n_processed n = Some v -> sized_kind v -> ~ In i P ->
    (forall c, Step g i c -> In c P) -> (forall j, In j P -> Low j i) -> Cx i z -> calculate_size gs (successors g i) = (ws, Ok s) -> Permutation (filter (fun j => negb (is_tmpl g j)) (successors g i)) (kids g i) -> Vals gs (kids g i) (map PrRc xs) ->
    QuietBases ps \/ Solo g i \/ Forall has_size xs -> s = largest (inner z (processed_size v)) xs).

  Lemma si_fold order : forall P gs res ws gs' res', NoDup order -> (forall i, In i order -> ~ In i P) ->
    (forall a b, Step g a b -> In a order -> In b P \/ exists l1 l2 l3, order = l1 ++ b :: l2 ++ a :: l3) ->
    (forall l1 a l2 j, order = l1 ++ a :: l2 -> In j P \/ In j l1 -> Low j a) ->
    SI ps g KS Cx P gs -> RI ps KS P res -> foldM (visit g) (gs, res) order = (ws, Ok (gs', res')) -> exists P', RI ps KS P' res'.
  Proof.
    induction order as [|i order IH]; intros P gs res ws gs' res' Hn Hd Hf Hlo S R H; cbn [foldM] in H.
    - apply ret_ok in H as [E _]. injection E as <- <-. eauto.
    - apply bind_ok in H as (w1 & [gs1 res1] & w2 & H1 & H & _). apply NoDup_cons_iff in Hn as [Hi Hn].
      assert (K : forall c, Step g i c -> In c P).
      { intros c Kc. destruct (Hf _ _ Kc (or_introl eq_refl)) as [K|(l1 & l2 & l3 & K)]; [exact K|]. exfalso. apply Hi. destruct l1 as [|x l1]; cbn in K; injection K as -> K; rewrite K; [|apply in_app_iff; right; right]; apply in_app_iff; right; now left. }
      destruct (si_visit ps g KS NL I Hsh Done Cx Cx_top Cx_down Low HS P gs res i w1 gs1 res1 S R) as [S1 R1]; [apply Hd; now left|exact K|intros j Hj; exact (Hlo [] i order j eq_refl (or_introl Hj))|exact H1|].
      eapply (IH (i :: P)); [exact Hn| | | |exact S1|exact R1|exact H].
      + intros j Hj [<-|Kj]; [contradiction|]. apply (Hd j); [now right|exact Kj].
      + intros a b Hab Ha. destruct (Hf a b Hab (or_intror Ha)) as [Kb|(l1 & l2 & l3 & Kb)]; [left; now right|]. destruct l1 as [|x l1]; cbn in Kb; injection Kb as -> Kb; [left; now left|right; eauto].
      + intros l1 a l2 j El Hj. apply (Hlo (i :: l1) a l2 j); [cbn; now rewrite El|]. destruct Hj as [[<-|Hj]|Hj]; [right; now left|now left|right; now right].
  Qed.
  Lemma si_start : SI ps g KS Cx [] g.
  Proof.
    constructor; try reflexivity.
    - intros j c [].
    - intros i. unfold val. destruct (get_node g i) as [n|]; [|reflexivity]. cbn. now destruct n.
    - intros i n Hn _. unfold val. now rewrite Hn.
    - intros i n v [].
  Qed.
  Lemma pass_expansion ht ws r l : Heights g ht -> (forall j i, (ht j <= ht i)%nat -> Low j i) -> bottom_up_traversal g = (ws, Ok r) -> snd r = Some l ->
    exists oss, Forall2 (Outs (QuietBases ps) (Elab ps) (EffEvc ps) 32 (KS 0%nat)) (KS 0%nat) oss /\ Permutation (concat oss) (map PrPer l) /\ StronglySorted (leP iper_le) l.
  Proof.
    intros Hh Hl H El. destruct (bottom_up_traversal_order g (proj1 I)) as (order & HP & HF & HE & HO). rewrite HE in H. destruct r as [gs' res']. cbn in El. subst res'.
    destruct (si_fold order [] g None ws gs' (Some l)) as (P' & R); auto.
    - eapply Permutation_NoDup; [symmetry; exact HP|apply node_indices_NoDup].
    - intros l1 a l2 j Eo [[]|Hj]. apply Hl. exact (HO ht Hh l1 a l2 j Eo Hj).
    - apply si_start.
    - intros k K; discriminate K.
  Qed.
End Pass.

Lemma has_size_largest z gs : forall l xs ss, Forall has_size xs -> Vals gs l (map PrRc xs) -> Forall2 (fun c x => exists v w, val gs c = Some v /\ child_size gs c v = (w, Ok x)) l ss -> fold_right Z.max (-1) ss = largest z xs.
Proof.
  intros l. induction l as [|c l IH]; intros xs ss HF HV H; inversion H as [|? y ? ss' (v & w & H1 & H2) H3]; subst; destruct xs as [|x xs]; try discriminate HV; [reflexivity|].
  unfold Vals in HV. cbn in HV. injection HV as K1 K2. apply Forall_inv_tail in HF as HF'. apply Forall_inv in HF. cbn. change (fold_right Z.max (-1) (map (size_in z) xs)) with (largest z xs). rewrite (IH xs ss' HF' K2 H3). f_equal.
  rewrite H1 in K1. injection K1 as ->. unfold has_size in HF. unfold child_size in H2. unfold size_in. destruct x as [r|c' l']; cbn in H2, HF |- *; (destruct (op_size _) as [s|]; [|contradiction]); apply ret_ok in H2 as [K _]; now symmetry.
Qed.

(** ** The size that holds around a node *)
Section Context_.
  Context (ps : list svd_periph).
  Context (g : graph) (KS : nat -> list parsed) (NL : forall a c n, get_node g c = Some n -> n_level n = LCluster -> ~ In (a, c, DERIVE) (g_edges g)) (I : Iv (strict ps) nobody g KS) (Hsh : Sh g) (Done : forall i n, get_node g i = Some n -> n_done n = true).
  Let V := proj1 (proj2 I).
  Let E := proj2 (proj2 I).
  Inductive Around : nat -> Z -> Prop :=
  | Ar_top c : Kid g 0%nat c -> Around c 32
  | Ar_down i n v c z : get_node g i = Some n -> n_processed n = Some v -> Kid g i c -> Around i z -> Around c (down z v).
  Lemma co_down p q np nq vp vq z : get_node g p = Some np -> get_node g q = Some nq -> n_processed np = Some vp -> n_processed nq = Some vq -> p <> 0%nat -> q <> 0%nat -> n_level np = n_level nq -> nsize np = nsize nq -> down z vp = down z vq.
  Proof.
    intros Hp Hq Hvp Hvq Hp0 Hq0 Hl Hs. unfold nsize in Hs. rewrite Hvp, Hvq in Hs.
    assert (K : forall x nx v, get_node g x = Some nx -> x <> 0%nat -> n_processed nx = Some v -> kind_level v = n_level nx).
    { intros x nx v Hx H0 Hv. destruct (v_node _ _ _ _ V _ _ H0 Hx) as (_ & _ & _ & H). destruct (H (Done _ _ Hx)) as [(e0 & e' & _ & _ & _ & _ & K & _)|[_ (sc & vs & tv & w & _ & K2 & _ & _ & _ & K3)]]; [congruence|]. rewrite Hv in K2. injection K2 as <-. exact K3. }
    assert (Kp := K _ _ _ Hp Hp0 Hvp). assert (Kq := K _ _ _ Hq Hq0 Hvq). rewrite Hl, <- Kq in Kp. clear - Kp Hs.
    destruct vp as [p|[r|c l]|f], vq as [p'|[r'|c' l']|f']; cbn in *; try discriminate; try reflexivity; now rewrite Hs.
  Qed.
  Lemma kid_elems p c : Kid g p c -> is_elem g p = true /\ is_elem g c = true.
  Proof. intros K. apply ckids_In in K as (t & K & Kt). exact (w_child _ E _ _ _ K Kt). Qed.
  Lemma around_sub t t0 z : (forall x, Kid g x t -> Kid g x t0) -> Around t z -> Around t0 z.
  Proof. intros H K. destruct K as [c K|i n v c z H1 H2 H3 H4]; [apply Ar_top; auto|]. eapply Ar_down; eauto. Qed.
  Lemma around_root c z : Around c z -> c <> 0%nat.
  Proof. intros H ->. assert (K : exists x, Kid g x 0%nat) by (destruct H; eauto). destruct K as [x K].
    assert (R := sh_root _ Hsh _ (proj1 (kid_elems _ _ K))). apply ckids_In in K as (t & K & _). apply (wf_acyclic _ (proj1 I) x 0%nat); [exists t; exact K|].
    clear - R. unfold Rooted in R. induction R as [a b Hk|a|a b c _ IH1 _ IH2]; [|apply rt_refl|eapply rt_trans; eassumption]. apply ckids_In in Hk as (t & Hk & _). apply rt_step. exists t. exact Hk.
  Qed.
  Lemma around_fun_gen c z : Around c z -> forall t z', (forall x, Kid g x c -> Kid g x t) -> Around t z' -> z = z'.
  Proof.
    assert (Hroot := v_root _ _ _ _ V).
    assert (Hno : forall q t, Kid g 0%nat t -> Kid g q t -> q = 0%nat).
    { intros q t K1 K2. destruct (Nat.eq_dec q 0) as [|Hne]; [assumption|]. destruct (sh_co _ Hsh _ _ _ K1 K2 (not_eq_sym Hne)) as (np & nq & x & L1 & L2 & _ & _ & L3 & _). rewrite Hroot in L1. injection L1 as <-. cbn in L3. symmetry in L3. exact (device_root ps g KS I _ _ L2 L3). }
    induction 1 as [c K|i n v c z H1 H2 H3 H4 IH]; intros t z' Hsub Ht.
    - apply Hsub in K. destruct Ht as [t K2|q nq vq t z' L1 L2 L3 L4]; [reflexivity|]. rewrite (Hno _ _ K L3) in L1. rewrite Hroot in L1. injection L1 as <-. discriminate L2.
    - apply Hsub in H3. destruct Ht as [t K2|q nq vq t z' L1 L2 L3 L4].
      + rewrite (Hno _ _ K2 H3) in H1. rewrite Hroot in H1. injection H1 as <-. discriminate H2.
      + destruct (Nat.eq_dec i q) as [<-|Hne].
        * rewrite H1 in L1. injection L1 as <-. rewrite H2 in L2. injection L2 as <-. f_equal. apply (IH i); auto.
        * destruct (sh_co _ Hsh _ _ _ H3 L3 Hne) as (np & nq' & t0 & M1 & M2 & _ & _ & M3 & M4 & _ & _ & M5 & M6). rewrite H1 in M1. injection M1 as <-. rewrite L1 in M2. injection M2 as <-.
          rewrite (IH t0 z' M5 (around_sub _ _ _ M6 L4)). exact (co_down i q n nq v vq z' H1 L1 H2 L2 (around_root _ _ H4) (around_root _ _ L4) M3 M4).
  Qed.
  Lemma around_fun c z z' : Around c z -> Around c z' -> z = z'.
  Proof. intros H1 H2. exact (around_fun_gen _ _ H1 c z' (fun x K => K) H2). Qed.
  Lemma parent_value p np c : get_node g p = Some np -> p <> 0%nat -> Kid g p c -> exists v, n_processed np = Some v.
  Proof.
    intros Hp H0 K. destruct (v_node _ _ _ _ V _ _ H0 Hp) as (_ & _ & _ & H). destruct (H (Done _ _ Hp)) as [(e0 & e' & _ & _ & _ & _ & _ & K2 & _)|[_ (sc & vs & tv & w & _ & K2 & _)]]; [|eauto].
    apply (kids_nil ps g KS I _ _ Hp) in K2. unfold Kid in K. rewrite K2 in K. destruct K.
  Qed.
  Lemma around_ex i : Rooted g i -> i = 0%nat \/ exists z, Around i z.
  Proof.
    intros H. apply clos_rt_rtn1 in H. induction H as [|y i K _ IH]; [now left|right]. destruct (Nat.eq_dec y 0) as [->|H0]; [exists 32; now apply Ar_top|]. destruct IH as [IH|[z IH]]; [contradiction|].
    destruct (kid_elems _ _ K) as [Ky _]. apply is_elem_node in Ky as [ny Ky]. destruct (parent_value _ _ _ Ky H0 K) as [v Hv]. exists (down z v). eapply Ar_down; eauto.
  Qed.
  Notation SI := (SI ps g KS Around).
  Lemma parents_same P gs c : SI P gs -> get_element_parents gs c = get_element_parents g c.
  Proof.
    intros S. unfold get_element_parents, in_edges. rewrite (si_edges _ _ _ _ _ _ S). f_equal. apply filter_ext. intros e. f_equal. unfold is_elem. rewrite (si_node _ _ _ _ _ _ S). destruct (get_node g (e_src e)); reflexivity.
  Qed.
  Lemma parents_gs P gs c p l : SI P gs -> get_element_parents gs c = p :: l -> Kid g p c.
  Proof.
    intros S H. assert (Ep := parents_same P gs c S).
    rewrite Ep in H. apply (parents_ckids _ _ _ E). rewrite H. now left.
  Qed.
  Lemma closed_parents P gs i : SI P gs -> ~ In i P -> forall p, Kid g p i -> ~ In p P.
  Proof. intros S Hi p K K2. apply Hi. apply (si_closed _ _ _ _ _ _ S p i K2). apply ckids_In in K as (t & K & _). now exists t. Qed.
  Lemma parent_size_around P gs : SI P gs -> forall f i z ws x, (forall p, Kid g p i -> ~ In p P) -> Around i z -> parent_size gs f i = (ws, Ok x) -> x = z.
  Proof.
    intros S. induction f as [|f IH]; intros i z ws x Hi Hz H; cbn [parent_size] in H; [minv|].
    destruct (get_element_parents gs i) as [|p l] eqn:Ep.
    { exfalso. assert (K : exists p, Kid g p i) by (destruct Hz; eauto). destruct K as [p K]. apply (parents_ckids _ _ _ E) in K. assert (Ep' := parents_same P gs i S).
      rewrite <- Ep', Ep in K. destruct K. }
    assert (K := parents_gs _ _ _ _ _ S Ep). destruct (kid_elems _ _ K) as [Kp _]. apply is_elem_node in Kp as [np Kp]. rewrite (si_node _ _ _ _ _ _ S), Kp in H. cbn [option_map with_val n_level] in H.
    assert (HpP : ~ In p P) by exact (Hi p K). assert (HqP := closed_parents P gs p S HpP).
    destruct (Nat.eq_dec p 0) as [->|H0].
    - rewrite (v_root _ _ _ _ V) in Kp. injection Kp as <-. cbn in H. apply ret_ok in H as [<- _]. exact (around_fun _ _ _ (Ar_top _ K) Hz).
    - destruct (parent_value _ _ _ Kp H0 K) as [v Hv]. destruct (around_ex p) as [K2|[zp Hzp]]; [apply (sh_root _ Hsh), is_elem_node; eauto|contradiction|].
      assert (Hd := around_fun _ _ _ (Ar_down _ _ _ _ _ Kp Hv K Hzp) Hz). rewrite <- Hd.
      destruct (n_level np) eqn:El; [destruct H0; exact (device_root ps g KS I _ _ Kp El)| | | | |];
        (apply bind_ok in H as (w1 & v' & w2 & H1 & H & _); apply node_processed_ok in H1 as (m & M1 & M2); assert (Kv : v' = v) by (assert (Q := si_orig _ _ _ _ _ _ S _ _ Kp (or_intror HpP)); unfold val in Q; rewrite M1, M2, Hv in Q; now injection Q); subst v';
         destruct v as [q|[r|cc ll]|ff]; try solve [minv]; cbn [processed_size down] in *; (destruct (op_size _) as [sz|] eqn:Es; [apply ret_ok in H as [<- _]; reflexivity|]; cbn [inner]; exact (IH _ _ _ _ HqP Hzp H))).
  Qed.
  Lemma solo_largest P gs i n v z : SI P gs -> get_node g i = Some n -> i <> 0%nat -> ~ In i P -> n_processed n = Some v -> sized_kind v -> Solo g i -> Around i z ->
    forall l xs ss, (forall c, In c l -> Kid g i c) -> Vals gs l (map PrRc xs) -> Forall2 (fun c x => exists v w, val gs c = Some v /\ child_size gs c v = (w, Ok x)) l ss -> fold_right Z.max (-1) ss = largest (inner z (processed_size v)) xs.
  Proof.
    intros S Hi H0 HiP Hv Hk Hso Hz l. induction l as [|c l IH]; intros xs ss HK HV H; inversion H as [|? y ? ss' (v0 & w & H1 & H2) H3]; subst; destruct xs as [|x xs]; try discriminate HV; [reflexivity|].
    unfold Vals in HV. cbn in HV. injection HV as K1 K2. cbn. change (fold_right Z.max (-1) (map (size_in (inner z (processed_size v))) xs)) with (largest (inner z (processed_size v)) xs). rewrite (IH xs ss' (fun d Hd => HK d (or_intror Hd)) K2 H3). f_equal.
    rewrite H1 in K1. injection K1 as ->. assert (Kc := HK c (or_introl eq_refl)). unfold child_size in H2.
    assert (Hps : forall w y, parent_size gs (Datatypes.S (length (g_slots gs))) c = (w, Ok y) -> y = inner z (processed_size v)).
    { clear w y H H1 H2 H3. intros w y H. cbn [parent_size] in H. destruct (get_element_parents gs c) as [|p lp] eqn:Ep.
      { exfalso. assert (Ep' := parents_same P gs c S). apply (parents_ckids _ _ _ E) in Kc. rewrite <- Ep', Ep in Kc. destruct Kc. }
      assert (Kp := parents_gs _ _ _ _ _ S Ep). assert (p = i) as -> by (exact (Hso c p Kc Kp)). rewrite (si_node _ _ _ _ _ _ S), Hi in H. cbn [option_map with_val n_level] in H.
      destruct (n_level n) eqn:El; [destruct H0; exact (device_root ps g KS I _ _ Hi El)| | | | |];
        (apply bind_ok in H as (w1 & v' & w2 & H1 & H & _); apply node_processed_ok in H1 as (m & M1 & M2); assert (Kv : v' = v) by (assert (Q := si_orig _ _ _ _ _ _ S _ _ Hi (or_intror HiP)); unfold val in Q; rewrite M1, M2, Hv in Q; now injection Q); subst v';
         destruct v as [q|[r|cc ll]|ff]; try solve [minv]; cbn [processed_size] in *; (destruct (op_size _) as [sz|] eqn:Es; [apply ret_ok in H as [<- _]; reflexivity|]; cbn [inner]; exact (parent_size_around P gs S _ _ _ _ _ (closed_parents P gs i S HiP) Hz H))). }
    unfold size_in. destruct x as [r|c' l']; cbn [processed_size] in H2; cbn; (destruct (op_size _) as [s|]; [apply ret_ok in H2 as [K _]; now symmetry|exact (Hps _ _ H2)]).
  Qed.
  (** ** Instances that are filled with the same children *)
  Section Quiet.
    Context (ND : forall a c m, get_node g c = Some m -> n_level m <> LEnum -> ~ In (a, c, DERIVE) (g_edges g)).
    Context (ht : nat -> nat) (Hh : Heights g ht) (Hq : QuietBases ps).
    Lemma kid_step p c : Kid g p c -> Step g p c.
    Proof. intros K. apply ckids_In in K as (t & K & _). now exists t. Qed.
    Lemma kid_node p c : Kid g p c -> exists np nc, get_node g p = Some np /\ get_node g c = Some nc /\ n_level np <> LEnum.
    Proof.
      intros K. destruct (kid_elems _ _ K) as [Kp Kc]. apply is_elem_node in Kp as [np Kp]. apply is_elem_node in Kc as [nc Kc]. exists np, nc. split; [exact Kp|]. split; [exact Kc|].
      destruct (child_level _ _ _ _ _ _ _ V Kp K) as (_ & nc' & Hnc & Elc & Hlt). rewrite Kc in Hnc. injection Hnc as <-. intros E0. rewrite E0 in Hlt. destruct Hlt as [Hlt|[Hlt _]]; [destruct (n_level nc); cbn in Hlt; lia|discriminate].
    Qed.
    Lemma step_kid p np c : get_node g p = Some np -> n_level np <> LEnum -> Step g p c -> Kid g p c.
    Proof.
      intros Hp Hl Hs. apply successors_In, (succ_cases ps g KS I Done) in Hs. destruct Hs as [K|K]; [exact K|]. exfalso.
      destruct (w_der _ E _ _ K) as (na & nc & Q1 & Q2 & Q3 & _). rewrite Hp in Q1. injection Q1 as <-. apply (ND p c nc Q2); [congruence|exact K].
    Qed.
    Lemma twin_height h : forall p q c, (ht p <= h)%nat -> Kid g p c -> Kid g q c -> ht p = ht q.
    Proof.
      induction h as [|h IH]; intros p q c Hle Kp Kq; [assert (X := height_step g ht _ _ Hh (kid_step _ _ Kp)); lia|].
      destruct (kid_node _ _ Kp) as (np & nc & Np & _ & Lp). destruct (kid_node _ _ Kq) as (nq & _ & Nq & _ & Lq).
      assert (Hpair : forall d e, (ht d <= h)%nat -> Alike g d e -> ht d = ht e).
      { intros d e Hd (nd & ne & A1 & A2 & _ & _ & _ & _ & (A7 & A7') & _ & [(k & K1 & K2)|[K1 K2]]); [exact (IH d e k Hd K1 K2)|].
        assert (Z0 : forall x nx, get_node g x = Some nx -> n_level nx <> LEnum -> (forall k, ~ Kid g x k) -> ht x = 0%nat).
        { intros x nx Hx Hlx Hno. assert (ht x <= 0)%nat; [|lia]. apply (height_le g ht x 0 Hh). intros k Hk. destruct (Hno k). exact (step_kid _ _ _ Hx Hlx Hk). }
        rewrite (Z0 d nd A1 A7' K1), (Z0 e ne A2 ltac:(congruence) K2). reflexivity. }
      apply Nat.le_antisymm.
      - apply (height_le g ht p _ Hh). intros d Hd. assert (Ld := height_step g ht _ _ Hh Hd). apply (step_kid _ _ _ Np Lp) in Hd. destruct (sh_tw _ Hsh _ _ _ _ Kp Kq Hd) as [K|(e & K & HA)]; [exact (height_step g ht _ _ Hh (kid_step _ _ K))|].
        rewrite (Hpair d e ltac:(lia) HA). exact (height_step g ht _ _ Hh (kid_step _ _ K)).
      - apply (height_le g ht q _ Hh). intros e He. apply (step_kid _ _ _ Nq Lq) in He. destruct (sh_tw _ Hsh _ _ _ _ Kq Kp He) as [K|(d & K & HA)]; [exact (height_step g ht _ _ Hh (kid_step _ _ K))|].
        assert (Ld := height_step g ht _ _ Hh (kid_step _ _ K)). assert (HA' : Alike g d e).
        { destruct HA as (nd & ne & A1 & A2 & A3 & A4 & A5 & A6 & (A7 & A7') & A8 & A9). exists ne, nd. split; [exact A2|]. split; [exact A1|]. split; [exact A4|]. split; [exact A3|]. split; [exact A6|]. split; [exact A5|]. split; [split; congruence|]. split; [congruence|].
          destruct A9 as [(k & K1 & K2)|[K1 K2]]; [left; eauto|right; auto]. }
        rewrite <- (Hpair d e ltac:(lia) HA'). exact Ld.
    Qed.
    Lemma filled_size b z ks v o : Filled (QuietBases ps) (Elab ps) (EffEvc ps) b z ks v o -> ks = [] \/ ~ sized_kind v -> processed_size o = processed_size v.
    Proof.
      intros H Hor. destruct H; try reflexivity; exfalso; (destruct Hor as [Hor|Hor]; [contradiction|]); apply Hor; [right|left]; reflexivity.
    Qed.
    Definition same_size (gs : graph) (p q : nat) : Prop := exists o o', val gs p = Some o /\ val gs q = Some o' /\ processed_size o = processed_size o'.
    Lemma kids_cover gs p q c xs ys : (forall d e, Kid g p d -> Kid g q e -> Alike g d e -> same_size gs d e) -> Kid g p c -> Kid g q c -> Vals gs (kids g p) (map PrRc xs) -> Vals gs (kids g q) (map PrRc ys) ->
      forall x, In x xs -> exists y, In y ys /\ processed_size (PrRc x) = processed_size (PrRc y).
    Proof.
      intros HA Kp Kq Vp Vq x Hx. destruct (Vals_In' _ _ _ (PrRc x) Vp) as (d & Hd & Vd); [now apply in_map|]. unfold kids in Hd. apply filter_In in Hd as [Hd Ht].
      destruct (sh_tw _ Hsh _ _ _ _ Kp Kq Hd) as [K|(e & K & HAl)].
      - destruct (Vals_In _ _ _ d Vq) as (v & V1 & V2); [unfold kids; apply filter_In; split; [exact K|exact Ht]|]. rewrite Vd in V2. injection V2 as <-. apply in_map_iff in V1 as (y & E1 & V1). injection E1 as ->. eauto.
      - assert (HAl' := HAl). destruct HAl' as (nd & ne & _ & A2 & _ & _ & _ & A6 & _). destruct (Vals_In _ _ _ e Vq) as (v & V1 & V2); [unfold kids; apply filter_In; split; [exact K|]; unfold is_tmpl; now rewrite A2, A6|].
        apply in_map_iff in V1 as (y & <- & V1). destruct (HA d e Hd K HAl) as (o & o' & S1 & S2 & S3). rewrite Vd in S1. injection S1 as <-. rewrite V2 in S2. injection S2 as <-. eauto.
    Qed.
    Lemma size_in_eq z x y : processed_size (PrRc x) = processed_size (PrRc y) -> size_in z x = size_in z y.
    Proof. unfold size_in. destruct x as [r|c l], y as [r'|c' l']; cbn; intros ->; reflexivity. Qed.
    Lemma largest_in z xs x : In x xs -> size_in z x <= largest z xs.
    Proof. unfold largest. induction xs as [|y xs IH]; intros []; cbn; [subst; lia|]. specialize (IH H). lia. Qed.
    Lemma largest_le z xs B : -1 <= B -> (forall x, In x xs -> size_in z x <= B) -> largest z xs <= B.
    Proof. unfold largest. induction xs as [|y xs IH]; intros HB Hx; cbn; [exact HB|]. specialize (Hx y (or_introl eq_refl)) as Hy. specialize (IH HB (fun x K => Hx x (or_intror K))). lia. Qed.
    Lemma largest_low z xs : -1 <= largest z xs.
    Proof. unfold largest. induction xs as [|y xs IH]; cbn; lia. Qed.
    Lemma cover_le z xs ys : (forall x, In x xs -> exists y, In y ys /\ processed_size (PrRc x) = processed_size (PrRc y)) -> largest z xs <= largest z ys.
    Proof. intros H. apply largest_le; [apply largest_low|]. intros x Hx. destruct (H x Hx) as (y & Hy & Es). rewrite (size_in_eq z x y Es). now apply largest_in. Qed.
    Lemma twin_around p q c np nq z z' : Kid g p c -> Kid g q c -> get_node g p = Some np -> get_node g q = Some nq -> Around p z -> Around q z' -> z = z' /\ n_level np = n_level nq /\ nsize np = nsize nq.
    Proof.
      intros Kp Kq Hp Hq' Hz Hz'. destruct (Nat.eq_dec p q) as [<-|Hne].
      - rewrite Hp in Hq'. injection Hq' as <-. split; [exact (around_fun _ _ _ Hz Hz')|auto].
      - destruct (sh_co _ Hsh _ _ _ Kp Kq Hne) as (mp & mq & t & M1 & M2 & _ & _ & M3 & M4 & _ & _ & M5 & M6). rewrite Hp in M1. injection M1 as <-. rewrite Hq' in M2. injection M2 as <-.
        split; [exact (around_fun _ _ _ (around_sub _ _ _ M5 Hz) (around_sub _ _ _ M6 Hz'))|auto].
    Qed.
    Lemma alike_size P gs : SI P gs -> forall h p q, (ht p <= h)%nat -> In p P -> In q P -> p <> 0%nat -> q <> 0%nat -> Alike g p q -> same_size gs p q.
    Proof.
      intros S. induction h as [h IH] using lt_wf_ind. intros p q Hle HpP HqP Hp0 Hq0 HA. assert (HA' := HA). destruct HA' as (np & nq & A1 & A2 & A3 & A4 & A5 & A6 & (A7 & A7') & A8 & A9).
      destruct (done_value ps g KS I Done p np Hp0 A1) as (vp & Vp & Lp & _); [rewrite (evc_level ps g KS I p np Hp0 A1); exact A7'|].
      destruct (done_value ps g KS I Done q nq Hq0 A2) as (vq & Vq & Lq & _); [rewrite (evc_level ps g KS I q nq Hq0 A2); congruence|].
      destruct (si_done _ _ _ _ _ _ S _ _ _ HpP A1 A5 Vp) as (o & O1 & F1 & _ & F2). destruct (si_done _ _ _ _ _ _ S _ _ _ HqP A2 A6 Vq) as (o' & O1' & F1' & _ & F2').
      exists o, o'. split; [exact O1|]. split; [exact O1'|]. unfold nsize in A8. rewrite Vp, Vq in A8.
      destruct (around_ex p) as [K|[z Hz]]; [apply (sh_root _ Hsh), is_elem_node; eauto|contradiction|]. destruct (around_ex q) as [K|[z' Hz']]; [apply (sh_root _ Hsh), is_elem_node; eauto|contradiction|].
      assert (Hsk : sized_kind vp <-> sized_kind vq) by (unfold sized_kind; rewrite Lp, Lq, A7; tauto).
      assert (Hdec : sized_kind vp \/ ~ sized_kind vp) by (unfold sized_kind; destruct (kind_level vp); (left; (left; reflexivity) || (right; reflexivity)) || (right; intros [K|K]; discriminate)).
      assert (Hkeep : (KS p = [] /\ KS q = []) \/ ~ sized_kind vp -> processed_size o = processed_size o').
      { intros Hor. rewrite (filled_size false z (KS p) vp o (F1 z false Hz ltac:(discriminate))), (filled_size false z' (KS q) vq o' (F1' z' false Hz' ltac:(discriminate))); [exact A8| |]; tauto. }
      destruct Hdec as [Hk|Hk]; [|apply Hkeep; now right]. destruct A9 as [(c & Kp & Kq)|[K1 K2]].
      - assert (Cp : ckids (g_edges g) p <> []) by (intros K; unfold Kid in Kp; rewrite K in Kp; destruct Kp). assert (Cq : ckids (g_edges g) q <> []) by (intros K; unfold Kid in Kq; rewrite K in Kq; destruct Kq).
        destruct (F2 Hk Cp) as (xs & s & S1 & S2 & S3). destruct (F2' (proj1 Hsk Hk) Cq) as (ys & s' & S1' & S2' & S3').
        destruct (twin_around p q c np nq z z' Kp Kq A1 A2 Hz Hz') as (<- & _). rewrite S1, S1', (S3 z Hz (or_introl Hq)), (S3' z Hz' (or_introl Hq)), A8. f_equal.
        assert (Hth := twin_height _ p q c (le_n _) Kp Kq).
        assert (HIH : forall d e x y, Kid g x d -> Kid g y e -> x = p \/ x = q -> y = p \/ y = q -> Alike g d e -> same_size gs d e).
        { intros d e x y Kd Ke Hx Hy HAl. assert (Kdp : forall a b, a = p \/ a = q -> Kid g a b -> In b P /\ b <> 0%nat /\ (ht b < ht p)%nat).
          { intros a b Ha Kab. split; [apply (si_closed _ _ _ _ _ _ S a b); [destruct Ha as [-> | ->]; assumption|now apply kid_step]|]. split; [intros ->; exact (kid_not_root (strict ps) nobody g KS V E a Kab)|]. assert (X := height_step g ht _ _ Hh (kid_step _ _ Kab)). destruct Ha as [-> | ->]; lia. }
          destruct (Kdp x d Hx Kd) as (D1 & D2 & D3). destruct (Kdp y e Hy Ke) as (E1 & E2 & E3). exact (IH (ht d) ltac:(lia) d e (le_n _) D1 E1 D2 E2 HAl). }
        apply Z.le_antisymm; apply cover_le.
        + apply (kids_cover gs p q c xs ys); auto. intros d e Kd Ke. apply (HIH d e p q); auto.
        + apply (kids_cover gs q p c ys xs); auto. intros d e Kd Ke. apply (HIH d e q p); auto.
      - apply Hkeep. left. split; [apply (kids_nil ps g KS I _ _ A1)|apply (kids_nil ps g KS I _ _ A2)]; [destruct (ckids (g_edges g) p) as [|k l] eqn:Ek; [reflexivity|]; destruct (K1 k); unfold Kid; rewrite Ek; now left|].
        destruct (ckids (g_edges g) q) as [|k l] eqn:Ek; [reflexivity|]. destruct (K2 k). unfold Kid. rewrite Ek. now left.
    Qed.
    Lemma between z B : forall xs ss, Forall2 (fun x y => size_in z x <= y <= B) xs ss -> -1 <= B -> largest z xs <= fold_right Z.max (-1) ss <= B.
    Proof. unfold largest. induction 1 as [|x y xs ss H HF IH]; intros HB; cbn; [lia|]. specialize (IH HB). lia. Qed.
    Lemma quiet_largest P gs i n v z : SI P gs -> get_node g i = Some n -> i <> 0%nat -> ~ In i P -> (forall c, Step g i c -> In c P) -> (forall j, In j P -> (ht j <= ht i)%nat) -> n_processed n = Some v -> sized_kind v -> Around i z ->
      forall l xs ss, (forall c, In c l -> In c (kids g i)) -> Vals gs (kids g i) (map PrRc xs) -> Vals gs l (map PrRc xs) -> Forall2 (fun c x => exists v w, val gs c = Some v /\ child_size gs c v = (w, Ok x)) l ss ->
      fold_right Z.max (-1) ss = largest (inner z (processed_size v)) xs.
    Proof.
      intros S Hi H0 HiP Hc HLo Hv Hk Hz l xs ss Hl HVk HV HF. set (Z0 := inner z (processed_size v)). set (B := largest Z0 xs).
      assert (Hps : forall c x w y, In c (kids g i) -> val gs c = Some (PrRc x) -> processed_size (PrRc x) = None -> parent_size gs (Datatypes.S (length (g_slots gs))) c = (w, Ok y) -> Z0 <= y <= B).
      { intros c x w y Hkc Vc Hnone H. assert (Hkc' := Hkc). unfold kids in Hkc'. apply filter_In in Hkc' as [Kc Tc].
        assert (HxB : Z0 <= B). { destruct (Vals_In _ _ _ c HVk Hkc) as (v0 & V1 & V2). rewrite Vc in V2. injection V2 as <-. apply in_map_iff in V1 as (x' & E1 & V1). injection E1 as ->. assert (X := largest_in Z0 xs x V1).
          unfold size_in in X. destruct x as [r|c' l']; cbn in Hnone; rewrite Hnone in X; exact X. }
        cbn [parent_size] in H. destruct (get_element_parents gs c) as [|p lp] eqn:Ep.
        { exfalso. assert (Ep' := parents_same P gs c S). apply (parents_ckids _ _ _ E) in Kc. rewrite <- Ep', Ep in Kc. destruct Kc. }
        assert (Kp := parents_gs _ _ _ _ _ S Ep). destruct (kid_elems _ _ Kp) as [Ke _]. apply is_elem_node in Ke as [np Hp].
        assert (Hp0 : p <> 0%nat). { intros ->. destruct (Nat.eq_dec 0 i) as [<-|Hne]; [congruence|]. destruct (sh_co _ Hsh _ _ _ Kp Kc Hne) as (mp & mi & t & M1 & M2 & _ & _ & M3 & _). rewrite (v_root _ _ _ _ V) in M1. injection M1 as <-. cbn in M3. rewrite Hi in M2. injection M2 as <-. apply H0. symmetry in M3. exact (device_root ps g KS I _ _ Hi M3). }
        destruct (around_ex p) as [K|[zp Hzp]]; [apply (sh_root _ Hsh), is_elem_node; eauto|contradiction|].
        destruct (twin_around p i c np n zp z Kp Kc Hp Hi Hzp Hz) as (-> & Lpi & Spi). destruct (parent_value _ _ _ Hp Hp0 Kp) as [vp Hvp]. unfold nsize in Spi. rewrite Hvp, Hv in Spi.
        rewrite (si_node _ _ _ _ _ _ S), Hp in H. cbn [option_map with_val n_level] in H.
        assert (Hlev : kind_level vp = kind_level v).
        { assert (Ki : ~ is_evc (n_parsed n)). { rewrite (evc_level ps g KS I i n H0 Hi). destruct (kid_node _ _ Kc) as (n' & _ & N1 & _ & N2). congruence. }
          assert (Kpe : ~ is_evc (n_parsed np)). { rewrite (evc_level ps g KS I p np Hp0 Hp). destruct (kid_node _ _ Kp) as (n' & _ & N1 & _ & N2). congruence. }
          destruct (done_value ps g KS I Done i n H0 Hi Ki) as (v1 & X1 & X2 & _). destruct (done_value ps g KS I Done p np Hp0 Hp Kpe) as (v2 & Y1 & Y2 & _). congruence. }
        assert (Hreal : (n_tmpl np = true \/ ~ In p P) /\ (forall q, Kid g q p -> ~ In q P) \/ In p P /\ n_tmpl np = false).
        { assert (Hth := twin_height _ p i c (le_n _) Kp Kc). destruct (in_dec Nat.eq_dec p P) as [HpP|HpP].
          - destruct (n_tmpl np) eqn:Et; [left|now right]. split; [now left|]. intros q Kq HqP. specialize (HLo q HqP). assert (X := height_step g ht _ _ Hh (kid_step _ _ Kq)). lia.
          - left. split; [now right|]. exact (closed_parents P gs p S HpP). }
        destruct Hreal as [[Ho Hpar]|[HpP Ht]].
        - assert (y = Z0); [|subst y; lia]. unfold Z0. rewrite <- Spi.
          destruct (n_level np) eqn:El; [destruct Hp0; exact (device_root ps g KS I _ _ Hp El)| | | | |];
          (apply bind_ok in H as (w1 & v' & w2 & H1 & H & _); apply node_processed_ok in H1 as (m & M1 & M2); assert (Kv : v' = vp) by (assert (Q := si_orig _ _ _ _ _ _ S _ _ Hp Ho); unfold val in Q; rewrite M1, M2, Hvp in Q; now injection Q); subst v';
           destruct vp as [q|[r|cc ll]|ff]; try solve [minv]; cbn [processed_size] in *; (destruct (op_size _) as [sz|] eqn:Es; [apply ret_ok in H as [<- _]; reflexivity|]; cbn [inner]; exact (parent_size_around P gs S _ _ _ _ _ Hpar Hzp H))).
        - destruct (si_done _ _ _ _ _ _ S _ _ _ HpP Hp Ht Hvp) as (o & O1 & F1 & F0 & F2). assert (Cp : ckids (g_edges g) p <> []) by (intros K; unfold Kid in Kp; rewrite K in Kp; destruct Kp).
          assert (Hkp : sized_kind vp) by (unfold sized_kind; rewrite Hlev; exact Hk). destruct (F2 Hkp Cp) as (ys & s & S1 & S2 & S3). specialize (S3 z Hzp (or_introl Hq)). rewrite Spi in S3. fold Z0 in S3.
          assert (y = s) as ->.
          { destruct (n_level np) eqn:El; [destruct Hp0; exact (device_root ps g KS I _ _ Hp El)| | | | |];
            (apply bind_ok in H as (w1 & v' & w2 & H1 & H & _); apply node_processed_ok in H1 as (m & M1 & M2); assert (Kv : v' = o) by (unfold val in O1; rewrite M1, M2 in O1; now injection O1); subst v';
             destruct o as [q|[r|cc ll]|ff]; try solve [minv]; cbn [processed_size] in *; rewrite S1 in H; apply ret_ok in H as [<- _]; reflexivity). }
          assert (Hcp : In c (kids g p)) by (unfold kids; apply filter_In; split; [exact Kp|exact Tc]).
          split.
          + rewrite S3. destruct (Vals_In _ _ _ c S2 Hcp) as (v0 & V1 & V2). rewrite Vc in V2. injection V2 as <-. apply in_map_iff in V1 as (x' & E1 & V1). injection E1 as ->. assert (X := largest_in Z0 ys x V1).
            unfold size_in in X. destruct x as [r|c' l']; cbn in Hnone; rewrite Hnone in X; exact X.
          + rewrite S3. unfold B. apply cover_le. apply (kids_cover gs p i c ys xs); auto. intros d e Kd Ke HAl.
            assert (Dd : In d P /\ d <> 0%nat) by (split; [exact (si_closed _ _ _ _ _ _ S p d HpP (kid_step _ _ Kd))|intros ->; exact (kid_not_root (strict ps) nobody g KS V E p Kd)]).
            assert (De : In e P /\ e <> 0%nat) by (split; [exact (Hc e (kid_step _ _ Ke))|intros ->; exact (kid_not_root (strict ps) nobody g KS V E i Ke)]).
            exact (alike_size P gs S _ d e (le_n _) (proj1 Dd) (proj1 De) (proj2 Dd) (proj2 De) HAl). }
      assert (HB : Forall2 (fun x y => size_in Z0 x <= y <= B) xs ss).
      { assert (HBx : forall x, In x xs -> size_in Z0 x <= B) by (intros x; apply largest_in). clearbody B. clear HVk. revert xs ss HV HF HBx. induction l as [|c l IHl]; intros xs ss HV HF HBx; inversion HF as [|? y ? ss' (v0 & w & H1 & H2) H3]; subst; destruct xs as [|x xs]; try discriminate HV; [constructor|].
        unfold Vals in HV. cbn in HV. injection HV as K1 K2. constructor; [|apply IHl; auto; [intros d Hd; apply Hl; now right|intros x' Hx'; apply HBx; now right]].
        rewrite H1 in K1. injection K1 as ->. assert (HBc := HBx x (or_introl eq_refl)). unfold child_size in H2.
        destruct (processed_size (PrRc x)) as [sz|] eqn:Es; rewrite ?Es in H2.
        - apply ret_ok in H2 as [<- _]. assert (X : size_in Z0 x = if sz mod 8 =? 0 then sz else 0) by (unfold size_in; destruct x as [r|c' l']; cbn in Es; rewrite Es; reflexivity). rewrite X in HBc. rewrite X. split; [apply Z.le_refl|exact HBc].
        - assert (X : size_in Z0 x = Z0) by (unfold size_in; destruct x as [r|c' l']; cbn in Es; rewrite Es; reflexivity). rewrite X. exact (Hps c x w y (Hl c (or_introl eq_refl)) H1 Es H2). }
      assert (X := between Z0 B xs ss HB (largest_low Z0 xs)). unfold B in *. lia.
    Qed.
  End Quiet.
End Context_.

(** the resolver yields the expansion of the description *)
Theorem resolve_expansion ps fuel ws l : PlainBases ps -> resolve_peripherals fuel ps = (ws, Ok l) -> Expansion ps l.
Proof.
  intros PB H. assert (NDC := proj1 PB). unfold resolve_peripherals in H. apply bind_ok in H as (w1 & g0 & w2 & H1 & H & _). apply bind_ok in H as (w3 & g & w4 & H2 & H & _). apply bind_ok in H as (w5 & u & w6 & H3 & H & _). apply bind_ok in H as (w7 & r & w8 & H4 & H & _).
  destruct (unprocessed_nodes g) as [|x un] eqn:Eu; [|apply bind_ok in H3 as (? & ? & ? & _ & H3 & _); minv]. destruct (snd r) as [l'|] eqn:Er; [|minv]. apply ret_ok in H as [-> _].
  destruct (sc_final ps NDC fuel _ _ _ _ H1 H2) as (KS & I & Hsh & EK).
  assert (Done : forall i n, get_node g i = Some n -> n_done n = true).
  { intros i n Hn. destruct (n_done n) eqn:Ed; [reflexivity|]. assert (K : In i (unprocessed_nodes g)); [|rewrite Eu in K; destruct K].
    unfold unprocessed_nodes. apply filter_In. split; [apply node_indices_In; apply get_node_slot in Hn; congruence|]. unfold unprocessed. now rewrite Hn, Ed. }
  assert (NL : forall a c n, get_node g c = Some n -> n_level n = LCluster -> ~ In (a, c, DERIVE) (g_edges g)) by (intros a c n Hc Hl; exact (no_left ps KS fuel _ _ _ _ a c n PB H1 H2 (iv_loose ps nobody g KS I) Hc (Done _ _ Hc) (or_intror Hl))).
  destruct (heights_exist g (proj1 I)) as [ht Hh].
  unfold Expansion, Expands. rewrite <- EK. eapply (pass_expansion ps g KS NL I Hsh Done (Around g)) with (Low := fun j i => (ht j <= ht i)%nat); try exact H4; auto.
  - intros c K. now apply Ar_top.
  - intros i n v c z K1 K2 K3 K4. eapply Ar_down; eauto.
  - intros P gs i n v xs z s w S H0 Hn Ht Hv Hk Hi Hc HLo Hz Hcs HP HV Hor. destruct (calc_spec _ _ _ _ Hcs) as (ss & L1 & ->).
    rewrite (filter_ext _ (fun j => negb (is_tmpl g j))) in L1 by (intros j; now rewrite (si_tmpl _ _ _ _ _ _ j S)).
    destruct (Forall2_perm _ _ _ HP _ L1) as (ss' & M1 & M2). assert (E : fold_right Z.max (-1) ss = fold_right Z.max (-1) ss'). { clear - M2. induction M2; cbn; lia. }
    assert (HK : forall c, In c (kids g i) -> Kid g i c) by (intros c Kc; unfold kids in Kc; apply filter_In in Kc as [Kc _]; exact Kc).
    rewrite E. destruct Hor as [Hq|[Hso|Hhs]]; [| |eapply has_size_largest; eassumption].
    + assert (ND : forall a c m, get_node g c = Some m -> n_level m <> LEnum -> ~ In (a, c, DERIVE) (g_edges g)).
      { intros a c m Hm Hl K. assert (Hcases : pc (n_level m) \/ rf (n_level m)).
        { destruct (n_level m) eqn:El; unfold pc, rf; auto; [|congruence]. exfalso. assert (c = 0%nat) as -> by exact (only_root _ _ _ _ _ I Hm El).
          destruct (w_der _ (proj2 (proj2 I)) _ _ K) as (na & nb & Q1 & Q2 & Q3 & _). rewrite Hm in Q2. injection Q2 as <-. rewrite El in Q3. assert (a = 0%nat) as -> by exact (only_root _ _ _ _ _ I Q1 Q3).
          apply (wf_acyclic _ (proj1 I) 0%nat 0%nat); [exists DERIVE; exact K|apply rt_refl]. }
        destruct Hcases as [Hl'|Hl']; [exact (no_left ps KS fuel _ _ _ _ a c m PB H1 H2 (iv_loose ps nobody g KS I) Hm (Done _ _ Hm) Hl' K)|].
        refine (no_left_low ps KS fuel _ _ _ _ a c m PB _ H1 H2 (iv_loose ps nobody g KS I) Hm (Done _ _ Hm) Hl' K). intros x e X1 X2 [X3 X4]. apply X4. exact (Hq x e X1 X2 X3). }
      exact (quiet_largest ps g KS NL I Hsh Done ND ht Hh Hq P gs i n v z S Hn H0 Hi Hc HLo Hv Hk Hz (kids g i) xs ss' (fun c Kc => Kc) HV HV M1).
    + exact (solo_largest ps g KS I Hsh Done P gs i n v z S Hn H0 Hi Hv Hk Hso Hz (kids g i) xs ss' HK HV M1).
  - exact Hh.
  - auto.
Qed.
