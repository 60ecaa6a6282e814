(** * ExpandInv: the invariant of the resolver's graph that relates it to SpecExpand.
    [KS i]: the effective children of the element that node [i] stands for.  [W]: nodes that are being worked on. *)
From Coq Require Import Relations.
From Verif Require Import Base PyStr Types DimModel EnumModel ElemModel ResolveModel GraphFacts ReplicateFacts ResolveWF ResolveInv SpecDeclared SpecElem SpecExpand DescribeFacts PropsDim.

(** ** Children by edges *)
Definition ckids (es : list edge) (i : nat) : list nat := map e_dst (filter (fun e => is_child (e_typ e) && Nat.eqb (e_src e) i) es).
Lemma ckids_app a b i : ckids (a ++ b) i = ckids a i ++ ckids b i.
Proof. unfold ckids. now rewrite filter_app, map_app. Qed.
Lemma ckids_cons p c t es i : ckids ((p, c, t) :: es) i = if is_child t && Nat.eqb p i then c :: ckids es i else ckids es i.
Proof. unfold ckids. cbn. destruct (is_child t && Nat.eqb p i); reflexivity. Qed.
Lemma ckids_In es i c : In c (ckids es i) <-> exists t, In (i, c, t) es /\ is_child t = true.
Proof.
  unfold ckids. rewrite in_map_iff. split.
  - intros ([[a b] t] & E & H). apply filter_In in H as [H1 H2]. cbn in E, H2. subst b. apply andb_true_iff in H2 as [H2 H3]. apply Nat.eqb_eq in H3. subst a. eauto.
  - intros (t & H1 & H2). exists (i, c, t). split; [reflexivity|]. apply filter_In. split; [exact H1|]. cbn. rewrite H2, Nat.eqb_refl. reflexivity.
Qed.
Lemma ckids_perm es es' i : Permutation es es' -> Permutation (ckids es i) (ckids es' i).
Proof. intros H. unfold ckids. apply Permutation_map. induction H; cbn; repeat (match goal with |- context [if ?b then _ else _] => destruct b end); auto; try constructor; try (etransitivity; eassumption). Qed.
Lemma ckids_none es i : (forall c t, In (i, c, t) es -> is_child t = false) -> ckids es i = [].
Proof.
  intros H. destruct (ckids es i) as [|c l] eqn:E; [reflexivity|]. assert (Hc : In c (ckids es i)) by (rewrite E; now left).
  apply ckids_In in Hc as (t & H1 & H2). rewrite (H _ _ H1) in H2. discriminate.
Qed.

Definition lnum (l : level) : nat := match l with LDevice => 0 | LPeripheral => 1 | LCluster => 2 | LRegister => 3 | LField => 4 | LEnum => 5 end.
Lemma kids_level e0 e : In e (kids_of e0) -> (lnum (level_of e0) < lnum (level_of e))%nat \/ level_of e0 = LCluster /\ level_of e = LCluster.
Proof.
  destruct e0 as [|p|[r|c l]|f|x]; cbn; intros H; try contradiction; apply in_map_iff in H as (y & <- & _); cbn; try (left; lia);
    destruct y; cbn; try (left; lia). now right.
Qed.
Definition declared_name (e : parsed) : option string := match e with PaEvc e => sevc_name e | PaDev => None | _ => Some (parsed_name e) end.
Definition is_evc (e : parsed) : Prop := match e with PaEvc _ => True | _ => False end.

Section Inv.
  Context (ps : Sys).

  Definition Inst (g : graph) (KS : nat -> list parsed) (e : parsed) (c j : nat) (v : processed) : Prop :=
    exists n, get_node g j = Some n /\ n_done n = true /\ n_tmpl n = false /\ n_parsed n = e /\ n_processed n = Some v /\ KS j = KS c.
  (** the nodes that stand for one declared element below one parent, the effective children of which are [sc] *)
  Inductive Fam (W : nat -> Prop) (g : graph) (KS : nat -> list parsed) (sc : list parsed) : parsed -> list nat -> Prop :=
  | F_undone e c n : get_node g c = Some n -> n_done n = false -> n_parsed n = e -> Fam W g KS sc e [c]
  | F_work e c n : W c -> get_node g c = Some n -> n_parsed n = e -> Fam W g KS sc e [c]
  | F_evc e0 e' c n : get_node g c = Some n -> n_done n = true -> n_parsed n = PaEvc e' -> EffEvc ps e0 e' -> Fam W g KS sc (PaEvc e0) [c]
  | F_single e c n v : get_node g c = Some n -> n_done n = true -> n_tmpl n = false -> n_parsed n = e -> n_processed n = Some v ->
      sy_El ps sc e (KS c) [v] None -> Fam W g KS sc e [c]
  | F_many e c n js vs tv : get_node g c = Some n -> n_done n = true -> n_tmpl n = true -> n_parsed n = e -> n_processed n = Some tv ->
      sy_El ps sc e (KS c) vs (Some tv) -> Forall2 (Inst g KS e c) js vs -> Fam W g KS sc e (c :: js).

  Definition UndoneOk (W : nat -> Prop) (KS : nat -> list parsed) (i : nat) (n : node) : Prop :=
    n_processed n = None /\ n_tmpl n = false /\ n_name n = declared_name (n_parsed n) /\ (W i \/ KS i = kids_of (n_parsed n)).
  Definition EvcDone (KS : nat -> list parsed) (i : nat) (n : node) : Prop :=
    exists e0 e', n_parsed n = PaEvc e' /\ DeclaredEvc ps e0 /\ n_name n = sevc_name e0 /\ EffEvc ps e0 e' /\ n_processed n = None /\ KS i = [] /\ n_tmpl n = false.
  Definition ElemDone (KS : nat -> list parsed) (i : nat) (n : node) : Prop :=
    exists sc vs tv v, sy_El ps sc (n_parsed n) (KS i) vs tv /\ n_processed n = Some v /\ (if n_tmpl n then tv = Some v else In v vs) /\
      n_name n = Some (processed_name v) /\ Bare v /\ kind_level v = n_level n.
  Definition NodeOk (W : nat -> Prop) (KS : nat -> list parsed) (i : nat) (n : node) : Prop :=
    n_level n = level_of (n_parsed n) /\ Declared ps (n_parsed n) /\
    (n_done n = false -> UndoneOk W KS i n) /\ (n_done n = true -> EvcDone KS i n \/ ~ is_evc (n_parsed n) /\ ElemDone KS i n).
  Definition KidsOk (W : nat -> Prop) (g : graph) (KS : nat -> list parsed) (i : nat) : Prop :=
    exists fams, Permutation (ckids (g_edges g) i) (concat fams) /\ Forall2 (Fam W g KS (KS i)) (KS i) fams.
  (** an effective child stems from the element itself or, if that is derived, from one that may be a base *)
  Definition Below (n : node) (e : parsed) : Prop :=
    n_level n = LDevice /\ level_of e = LPeripheral \/ exists e0, (e0 = n_parsed n \/ MayBeBase ps e0 /\ derived_of (n_parsed n) <> None) /\ level_of e0 = n_level n /\ In e (kids_of e0).

  Record NInv (W : nat -> Prop) (g : graph) (KS : nat -> list parsed) : Prop := {
    v_root : get_node g 0%nat = Some root_node;
    v_node : forall i n, i <> 0%nat -> get_node g i = Some n -> NodeOk W KS i n;
    v_kids : forall i, is_elem g i = true -> KidsOk W g KS i;
    v_nd : forall i, NoDup (ckids (g_edges g) i);
    v_prov : forall i n e, get_node g i = Some n -> In e (KS i) -> Below n e }.

  Record EInv (g : graph) : Prop := {
    w_child : forall a b t, In (a, b, t) (g_edges g) -> is_child t = true -> is_elem g a = true /\ is_elem g b = true;
    w_ph : forall a b, In (a, b, PLACEHOLDER) (g_edges g) ->
      (exists path n, get_slot g a = Some (NPh path) /\ get_node g b = Some n /\ n_done n = false /\ derived_of (n_parsed n) = Some path) \/
      (is_elem g a = true /\ exists path c, get_slot g b = Some (NPh path) /\ In (b, c, PLACEHOLDER) (g_edges g));
    w_link : forall p h c, is_elem g p = true -> In (p, h, PLACEHOLDER) (g_edges g) -> In (h, c, PLACEHOLDER) (g_edges g) -> In c (ckids (g_edges g) p);
    w_der : forall a b, In (a, b, DERIVE) (g_edges g) -> exists na nb, get_node g a = Some na /\ get_node g b = Some nb /\ n_level na = n_level nb /\
      (n_done nb = true /\ n_level nb = LEnum \/ exists path, derived_of (n_parsed nb) = Some path /\ n_name na = Some (path_end path)) }.

  Lemma children_ckids g i : EInv g -> get_element_childrens g i = ckids (g_edges g) i.
  Proof.
    intros E. assert (H : forall es, incl es (g_edges g) ->
      map e_dst (filter (fun e => is_elem g (e_dst e) && is_child (e_typ e)) (filter (fun e => Nat.eqb (e_src e) i) es)) = ckids es i).
    { induction es as [|[[a b] t] es IH]; intros Hi; [reflexivity|]. rewrite ckids_cons. cbn [filter e_src e_dst e_typ fst snd].
      specialize (IH (fun x H => Hi x (or_intror H))). destruct (Nat.eqb a i); [|now rewrite andb_false_r]. cbn [filter e_src e_dst e_typ fst snd].
      destruct (is_child t) eqn:Et; [|rewrite andb_false_r; exact IH].
      destruct (w_child _ E a b t) as [_ ->]; [apply Hi; now left|exact Et|]. cbn. now rewrite IH. }
    unfold get_element_childrens, out_edges. apply H. apply incl_refl.
  Qed.
  Lemma parents_ckids g i p : EInv g -> In p (get_element_parents g i) <-> In i (ckids (g_edges g) p).
  Proof.
    intros E. rewrite element_parents_In, ckids_In. split; intros (t & H); exists t; [tauto|]. destruct H as [H1 H2]. conj; auto. apply (w_child _ E _ _ _ H1 H2).
  Qed.

  (** *** Families move with their nodes *)
  Definition undone_at (g : graph) (c : nat) : Prop := exists n, get_node g c = Some n /\ n_done n = false.
  Lemma Fam_map (W W' : nat -> Prop) g KS g' KS' (f : nat -> nat) sc sc' e nodes : incl sc sc' -> Fam W g KS sc e nodes ->
    (forall c, In c nodes -> get_node g' (f c) = get_node g c /\ (KS' (f c) = KS c \/ undone_at g c) /\ (W c -> W' (f c))) ->
    Fam W' g' KS' sc' e (map f nodes).
  Proof.
    intros Hsc H Hc.
    assert (Hk : forall c n, In c nodes -> get_node g c = Some n -> n_done n = true -> KS' (f c) = KS c).
    { intros c n Hi Hn Hd. destruct (Hc c Hi) as (_ & [K|(n' & K & K')] & _); [exact K|]. rewrite Hn in K. injection K as <-. rewrite Hd in K'. discriminate. }
    destruct H as [e c n H1 H2 H3|e c n H1 H2 H3|e0 e' c n H1 H2 H3 H4|e c n v H1 H2 H3 H4 H5 H6|e c n js vs tv H1 H2 H3 H4 H5 H6 H7];
      destruct (Hc c (or_introl eq_refl)) as (E & _ & Hw).
    - eapply F_undone; [rewrite E; eassumption| |]; auto.
    - eapply F_work; [auto|rewrite E; eassumption|]; auto.
    - eapply F_evc; [rewrite E; eassumption| | |]; eauto.
    - eapply F_single; [rewrite E; eassumption| | | | |]; eauto. rewrite (Hk c n); auto; [exact (sy_mono _ _ _ _ _ _ _ Hsc H6)|now left].
    - assert (Ek : KS' (f c) = KS c) by (eapply Hk; eauto; now left).
      cbn [map]. eapply F_many; [rewrite E; eassumption| | | | | |]; eauto; [rewrite Ek; exact (sy_mono _ _ _ _ _ _ _ Hsc H6)|].
      assert (Hc' : forall j, In j js -> get_node g' (f j) = get_node g j /\ (forall n0, get_node g j = Some n0 -> n_done n0 = true -> KS' (f j) = KS j)).
      { intros j Hj. split; [apply Hc; now right|]. intros n0. apply Hk. now right. }
      clear - H7 Hc' Ek. induction H7 as [|j v js vs H HF IH]; cbn [map]; constructor.
      + destruct H as (n & K1 & K2 & K3 & K4 & K5 & K6). destruct (Hc' j (or_introl eq_refl)) as [E1 E2]. exists n. rewrite E1, Ek, (E2 _ K1 K2). auto 8.
      + apply IH. intros x Hx. apply Hc'. now right.
  Qed.
  Lemma Fam_same (W W' : nat -> Prop) g KS g' KS' sc e nodes : Fam W g KS sc e nodes ->
    (forall c, In c nodes -> get_node g' c = get_node g c /\ (KS' c = KS c \/ undone_at g c) /\ (W c -> W' c)) -> Fam W' g' KS' sc e nodes.
  Proof. intros H Hc. rewrite <- (map_id nodes). eapply Fam_map; [apply incl_refl|eassumption|exact Hc]. Qed.
  Lemma Fams_map (W W' : nat -> Prop) g KS g' KS' (f : nat -> nat) sc sc' es fams : incl sc sc' -> Forall2 (Fam W g KS sc) es fams ->
    (forall c, In c (concat fams) -> get_node g' (f c) = get_node g c /\ (KS' (f c) = KS c \/ undone_at g c) /\ (W c -> W' (f c))) ->
    Forall2 (Fam W' g' KS' sc') es (map (map f) fams).
  Proof.
    intros Hsc. induction 1 as [|e fam es fams H HF IH]; intros Hc; cbn [map]; constructor.
    - eapply Fam_map; [exact Hsc|exact H|]. intros c Hin. apply Hc. cbn. apply in_app_iff. now left.
    - apply IH. intros c Hin. apply Hc. cbn. apply in_app_iff. now right.
  Qed.
  Lemma concat_map_map {A B} (f : A -> B) ll : concat (map (map f) ll) = map f (concat ll).
  Proof. induction ll as [|l ll IH]; cbn; [reflexivity|]. now rewrite map_app, IH. Qed.
  (** one node's children, renamed *)
  Lemma Kids_map (W W' : nat -> Prop) g KS g' KS' (f : nat -> nat) i j : KidsOk W g KS i -> Permutation (ckids (g_edges g') j) (map f (ckids (g_edges g) i)) -> KS' j = KS i ->
    (forall c, In c (ckids (g_edges g) i) -> get_node g' (f c) = get_node g c /\ (KS' (f c) = KS c \/ undone_at g c) /\ (W c -> W' (f c))) ->
    KidsOk W' g' KS' j.
  Proof.
    intros (fams & HP & HF) Hp Ek Hc. exists (map (map f) fams). split.
    - rewrite concat_map_map, Hp. now apply Permutation_map.
    - rewrite Ek. eapply Fams_map; [apply incl_refl|exact HF|]. intros c Hin. apply Hc. eapply Permutation_in; [symmetry; exact HP|exact Hin].
  Qed.
  Lemma Kids_same (W W' : nat -> Prop) g KS g' KS' i : KidsOk W g KS i -> Permutation (ckids (g_edges g') i) (ckids (g_edges g) i) -> KS' i = KS i ->
    (forall c, In c (ckids (g_edges g) i) -> get_node g' c = get_node g c /\ (KS' c = KS c \/ undone_at g c) /\ (W c -> W' c)) ->
    KidsOk W' g' KS' i.
  Proof. intros H Hp Ek Hc. eapply (Kids_map W W' g KS g' KS' (fun x => x)); eauto. rewrite map_id. exact Hp. Qed.

  (** *** Steps that keep the nodes and the child relation *)
  Lemma ninv_same W g KS g' : NInv W g KS -> (forall i, get_node g' i = get_node g i) -> (forall i, ckids (g_edges g') i = ckids (g_edges g) i) -> NInv W g' KS.
  Proof.
    intros V Hn Hc. constructor.
    - rewrite Hn. apply (v_root _ _ _ V).
    - intros i n Hi H. rewrite Hn in H. apply (v_node _ _ _ V); auto.
    - intros i Hi. assert (Hi' : is_elem g i = true) by (unfold is_elem in *; now rewrite Hn in Hi).
      eapply Kids_same; [apply (v_kids _ _ _ V _ Hi')| | |]; auto. rewrite Hc. reflexivity.
    - intros i. rewrite Hc. apply (v_nd _ _ _ V).
    - intros i n e H. rewrite Hn in H. eapply (v_prov _ _ _ V); eassumption.
  Qed.

  (** *** Levels *)
  Lemma Fam_level W g KS sc e nodes c : Fam W g KS sc e nodes -> In c nodes -> exists n, get_node g c = Some n /\ level_of (n_parsed n) = level_of e.
  Proof.
    intros [x y n H1 H2 H3|x y n H1 H2 H3|e0 e' y n H1 H2 H3 H4|x y n v H1 H2 H3 H4 H5 H6|x y n js vs tv H1 H2 H3 H4 H5 H6 H7] Hin.
    1-4: destruct Hin as [<-|[]]; exists n; split; [assumption|]; congruence || (rewrite H3; reflexivity).
    destruct Hin as [<-|Hin]; [exists n; split; [exact H1|congruence]|].
    clear - H7 Hin. induction H7 as [|j v js vs H HF IH]; [destruct Hin|]. destruct Hin as [<-|Hin]; [|auto].
    destruct H as (n & K1 & _ & _ & K4 & _). exists n. split; [exact K1|congruence].
  Qed.
  Lemma Fams_in W g KS sc es fams c : Forall2 (Fam W g KS sc) es fams -> In c (concat fams) -> exists e fam, In e es /\ In fam fams /\ Fam W g KS sc e fam /\ In c fam.
  Proof.
    induction 1 as [|e fam es fams H HF IH]; cbn; intros Hin; [destruct Hin|]. apply in_app_iff in Hin as [Hin|Hin].
    - exists e, fam. auto 6.
    - destruct (IH Hin) as (e' & fam' & ? & ? & ? & ?). exists e', fam'. auto 6.
  Qed.
  Definition lv_lt (a b : level) : Prop := (lnum a < lnum b)%nat \/ a = LCluster /\ b = LCluster.
  Lemma lv_lt_trans a b c : lv_lt a b -> lv_lt b c -> lv_lt a c.
  Proof. unfold lv_lt. intros [H|[-> ->]] [H'|[E ->]]; auto; [left; lia|]. rewrite E in H. now left. Qed.
  Lemma below_lt n e : Below n e -> lv_lt (n_level n) (level_of e).
  Proof. intros [[-> ->]|(e0 & _ & <- & H)]; [left; cbn; lia|]. apply kids_level in H. exact H. Qed.
  Lemma child_level W g KS i n c : NInv W g KS -> get_node g i = Some n -> In c (ckids (g_edges g) i) ->
    c <> 0%nat /\ exists nc, get_node g c = Some nc /\ n_level nc = level_of (n_parsed nc) /\ lv_lt (n_level n) (n_level nc).
  Proof.
    intros V Hn Hc. assert (He : is_elem g i = true) by (unfold is_elem; now rewrite Hn).
    destruct (v_kids _ _ _ V _ He) as (fams & HP & HF). apply (Permutation_in _ HP) in Hc.
    destruct (Fams_in _ _ _ _ _ _ _ HF Hc) as (e & fam & Hine & _ & Hfam & Hin). destruct (Fam_level _ _ _ _ _ _ _ Hfam Hin) as (nc & Hnc & Hl).
    assert (HB := below_lt _ _ (v_prov _ _ _ V _ _ _ Hn Hine)). rewrite <- Hl in HB.
    assert (H0 : c <> 0%nat). { intros ->. rewrite (v_root _ _ _ V) in Hnc. injection Hnc as <-. destruct HB as [HB|[_ HB]]; [cbn in HB; lia|discriminate]. }
    split; [exact H0|]. exists nc. destruct (v_node _ _ _ V _ _ H0 Hnc) as [El _]. rewrite El. auto.
  Qed.
  (** what a node reaches without derivation edges lies below it *)
  Lemma desc_below W g KS a d na : NInv W g KS -> EInv g -> get_node g a = Some na -> Desc g a d ->
    (exists nd, get_node g d = Some nd /\ d <> 0%nat /\ lv_lt (n_level na) (n_level nd)) \/
    (exists path, get_slot g d = Some (NPh path) /\ exists q nq, get_node g q = Some nq /\ (q = a \/ Desc g a q) /\ (n_level na = n_level nq \/ lv_lt (n_level na) (n_level nq)) /\ In (q, d, PLACEHOLDER) (g_edges g)).
  Proof.
    intros V E Ha H. apply clos_trans_tn1 in H. induction H as [d (t & Hin & Ht)|c d (t & Hin & Ht) Hac IH].
    - destruct (is_child t) eqn:Et.
      + left. destruct (child_level _ _ _ _ _ d V Ha) as (H0 & nd & Hnd & _ & Hlt); [apply ckids_In; eauto|]. eauto 6.
      + destruct t; try discriminate; try (now exfalso). destruct (w_ph _ E _ _ Hin) as [(path & n & Hs & _)|(_ & path & c & Hs & _)].
        * apply get_node_slot in Ha. congruence.
        * right. exists path. split; [exact Hs|]. exists a, na. auto 6.
    - apply clos_tn1_trans in Hac. destruct IH as [(nc & Hc & H0 & Hlt)|(path & Hs & q & nq & Hq & Hd & Hl & Hph)].
      + destruct (is_child t) eqn:Et.
        * left. destruct (child_level _ _ _ _ _ d V Hc) as (H1 & nd & Hnd & _ & Hlt2); [apply ckids_In; eauto|]. exists nd. split; [exact Hnd|]. split; [exact H1|]. eapply lv_lt_trans; eassumption.
        * destruct t; try discriminate; try (now exfalso). destruct (w_ph _ E _ _ Hin) as [(path & n & Hs & _)|(_ & path & x & Hs & _)].
          { apply get_node_slot in Hc. congruence. }
          right. exists path. split; [exact Hs|]. exists c, nc. auto 8.
      + left. assert (Hel : is_elem g q = true) by (unfold is_elem; now rewrite Hq).
        destruct (is_child t) eqn:Et.
        { destruct (w_child _ E _ _ _ Hin Et) as [Hc _]. unfold is_elem, get_node in Hc. rewrite Hs in Hc. discriminate. }
        destruct t; try discriminate; try (now exfalso).
        assert (Hck := w_link _ E _ _ _ Hel Hph Hin). destruct (child_level _ _ _ _ _ d V Hq Hck) as (H1 & nd & Hnd & _ & Hlt). exists nd. split; [exact Hnd|]. split; [exact H1|].
        destruct Hl as [->|Hl]; [exact Hlt|eapply lv_lt_trans; eassumption].
  Qed.

  (** *** What lies below an element stems from it or from elements that may be bases *)
  Definition Kid (g : graph) (p c : nat) : Prop := In c (ckids (g_edges g) p).
  Lemma is_elem_iff g i : is_elem g i = true <-> exists n, get_node g i = Some n.
  Proof. unfold is_elem. destruct (get_node g i); cbn; split; eauto; intros; try discriminate. destruct H; discriminate. Qed.
  Lemma ph_no_elem g h path : get_slot g h = Some (NPh path) -> is_elem g h = false.
  Proof. intros H. unfold is_elem, get_node. now rewrite H. Qed.
  Lemma desc_kids g b d : EInv g -> is_elem g b = true -> Desc g b d ->
    (is_elem g d = true -> clos_trans nat (Kid g) b d) /\ (forall c, is_elem g d = false -> In (d, c, PLACEHOLDER) (g_edges g) -> clos_trans nat (Kid g) b c).
  Proof.
    intros E Hbe H. apply clos_trans_tn1 in H.
    induction H as [d (t & He & Ht)|y d (t & He & Ht) _ [IH1 IH2]].
    - destruct (is_child t) eqn:Et.
      + destruct (w_child _ E _ _ _ He Et) as [_ K]. split; [intros _; apply t_step; apply ckids_In; eauto|intros c K2; congruence].
      + destruct t; try discriminate; [|destruct Ht; reflexivity]. destruct (w_ph _ E _ _ He) as [(q & x & K & _)|(_ & q & x & K & _)]; [rewrite (ph_no_elem _ _ _ K) in Hbe; discriminate|].
        split; [rewrite (ph_no_elem _ _ _ K); discriminate|]. intros c _ Kc. apply t_step. exact (w_link _ E _ _ _ Hbe He Kc).
    - destruct (is_child t) eqn:Et.
      + destruct (w_child _ E _ _ _ He Et) as [K0 K]. split; [intros _; eapply t_trans; [apply IH1, K0|apply t_step; apply ckids_In; eauto]|intros c K2; congruence].
      + destruct t; try discriminate; [|destruct Ht; reflexivity]. destruct (w_ph _ E _ _ He) as [(q & x & K & Kx & _)|(Ky & q & x & K & _)].
        * assert (Kde : is_elem g d = true) by (apply is_elem_iff; eauto). split; [intros _; apply IH2; [now apply (ph_no_elem _ _ _ K)|exact He]|congruence].
        * split; [rewrite (ph_no_elem _ _ _ K); discriminate|]. intros c _ Kc. eapply t_trans; [apply IH1, Ky|]. apply t_step. exact (w_link _ E _ _ _ Ky He Kc).
  Qed.
  Lemma Fam_parsed W g KS sc e nodes c nc : Fam W g KS sc e nodes -> In c nodes -> get_node g c = Some nc -> n_parsed nc = e \/ level_of e = LEnum /\ level_of (n_parsed nc) = LEnum.
  Proof.
    intros [x y n H1 H2 H3|x y n H1 H2 H3|e0 e' y n H1 H2 H3 H4|x y n v H1 H2 H3 H4 H5 H6|x y n js vs tv H1 H2 H3 H4 H5 H6 H7] Hin Hn.
    1-4: destruct Hin as [<-|[]]; rewrite Hn in *; try (injection H1 as <-); try (injection H2 as <-); auto.
    { right. rewrite H3. auto. }
    destruct Hin as [<-|Hin]; [left; congruence|]. left.
    clear - H7 Hin Hn. induction H7 as [|j v js vs H HF IH]; [destruct Hin|]. destruct Hin as [<-|Hin]; [|auto].
    destruct H as (n & K1 & _ & _ & K4 & _). congruence.
  Qed.
  Lemma child_origin W g KS i n c nc : NInv W g KS -> get_node g i = Some n -> Kid g i c -> get_node g c = Some nc ->
    n_level n = LDevice \/ n_level nc = LEnum \/ exists e0, (e0 = n_parsed n \/ MayBeBase ps e0 /\ derived_of (n_parsed n) <> None) /\ level_of e0 = n_level n /\ In (n_parsed nc) (kids_of e0).
  Proof.
    intros V Hn Hc Hnc. assert (He : is_elem g i = true) by (unfold is_elem; now rewrite Hn). destruct (child_level _ _ _ _ _ _ V Hn Hc) as (_ & nc' & Hnc' & Elc & _). rewrite Hnc in Hnc'. injection Hnc' as <-.
    destruct (v_kids _ _ _ V _ He) as (fams & HP & HF). apply (Permutation_in _ HP) in Hc.
    destruct (Fams_in _ _ _ _ _ _ _ HF Hc) as (e & fam & Hine & _ & Hfam & Hin). destruct (v_prov _ _ _ V _ _ _ Hn Hine) as [[K _]|(e0 & K1 & K2 & K3)]; [now left|]. right.
    destruct (Fam_parsed _ _ _ _ _ _ _ _ Hfam Hin Hnc) as [->|[_ K]]; [|left; congruence]. right. exists e0. auto.
  Qed.
  Lemma desc_inside W g KS b nb d nd : NInv W g KS -> EInv g -> b <> 0%nat -> get_node g b = Some nb -> MayBeBase ps (n_parsed nb) -> Desc g b d -> get_node g d = Some nd ->
    n_level nd = LEnum \/ exists a, MayBeBase ps a /\ Inside a (n_parsed nd) /\ (level_of a = n_level nb \/ lv_lt (n_level nb) (level_of a)).
  Proof.
    intros V E Hb0 Hb HM H Hd. destruct (v_node _ _ _ V _ _ Hb0 Hb) as (Elb & HD & _).
    assert (Hndev : n_level nb <> LDevice). { rewrite Elb. intros K. destruct (n_parsed nb) as [|?|[?|? ?]|?|?]; cbn in K; try discriminate. destruct HD. }
    assert (Hk : clos_trans nat (Kid g) b d) by (apply desc_kids; auto; unfold is_elem; [now rewrite Hb|now rewrite Hd]). clear H.
    assert (G : lv_lt (n_level nb) (n_level nd) /\ (n_level nd = LEnum \/ exists a, MayBeBase ps a /\ Inside a (n_parsed nd) /\ (level_of a = n_level nb \/ lv_lt (n_level nb) (level_of a)))); [|apply G].
    apply clos_trans_tn1 in Hk. revert nd Hd. induction Hk as [d K|y d K _ IH]; intros nd Hd.
    - destruct (child_level _ _ _ _ _ _ V Hb K) as (_ & nd' & Hnd & _ & Hlt). rewrite Hd in Hnd. injection Hnd as <-. split; [exact Hlt|].
      destruct (child_origin _ _ _ _ _ _ _ V Hb K Hd) as [L|[L|(e0 & L1 & L2 & L3)]]; [contradiction|now left|]. right. exists e0. split; [destruct L1 as [->|[L1 _]]; auto|]. split; [now apply Inside_kid|now left].
    - assert (exists ny, get_node g y = Some ny) as [ny Hy]. { apply is_elem_iff. apply ckids_In in K as (t & K1 & K2). apply (w_child _ E _ _ _ K1 K2). }
      destruct (IH _ Hy) as [Hlty Hy']. destruct (child_level _ _ _ _ _ _ V Hy K) as (_ & nd' & Hnd & _ & Hlt). rewrite Hd in Hnd. injection Hnd as <-. split; [eapply lv_lt_trans; eassumption|].
      destruct (child_origin _ _ _ _ _ _ _ V Hy K Hd) as [L|[L|(e0 & L1 & L2 & L3)]]; [|now left|].
      + exfalso. rewrite L in Hlty. destruct Hlty as [M|[_ M]]; [cbn in M; lia|discriminate].
      + right. destruct L1 as [->|[L1 _]].
        * destruct Hy' as [Hy'|(a & A1 & A2 & A3)]; [exfalso; rewrite Hy' in L2; destruct (n_parsed ny) as [|?|[?|? ?]|?|?]; try discriminate; destruct L3|].
          exists a. split; [exact A1|]. split; [eapply Inside_deep; eassumption|exact A3].
        * exists e0. split; [exact L1|]. split; [now apply Inside_kid|]. right. congruence.
  Qed.

  (** *** A new child *)
  Definition upd {A} (f : nat -> A) (i : nat) (a : A) : nat -> A := fun x => if Nat.eqb x i then a else f x.
  Lemma upd_eq {A} (f : nat -> A) i a : upd f i a i = a.
  Proof. unfold upd. now rewrite Nat.eqb_refl. Qed.
  Lemma upd_neq {A} (f : nat -> A) i a x : x <> i -> upd f i a x = f x.
  Proof. intros H. unfold upd. destruct (Nat.eqb_spec x i); congruence. Qed.
  Lemma get_node_same g g' i : get_slot g' i = get_slot g i -> get_node g' i = get_node g i.
  Proof. intros H. unfold get_node. now rewrite H. Qed.
  Lemma fresh_no_edge g c a b t : WF g -> get_slot g c = None -> In (a, b, t) (g_edges g) -> a <> c /\ b <> c.
  Proof. intros Wf Hc H. destruct (wf_edge _ Wf _ _ _ H) as [H1 H2]. split; congruence. Qed.
  Lemma is_elem_node g i : is_elem g i = true <-> exists n, get_node g i = Some n.
  Proof. unfold is_elem. destruct (get_node g i); cbn; split; eauto; intros; try discriminate. destruct H; discriminate. Qed.

  Lemma einv_add_child g g' p c t n : EInv g -> WF g -> is_elem g p = true -> is_child t = true -> get_slot g c = None -> get_slot g' c = Some (NElem n) ->
    (forall j, j <> c -> get_slot g' j = get_slot g j) -> g_edges g' = (p, c, t) :: g_edges g -> EInv g'.
  Proof.
    intros E Wf Hp Ht Hc Hc' Hs He.
    assert (Hn : forall j m, get_node g j = Some m -> get_node g' j = Some m).
    { intros j m H. rewrite (get_node_same g g'); [exact H|]. apply Hs. intros ->. apply get_node_slot in H. congruence. }
    assert (Hel : forall j, is_elem g j = true -> is_elem g' j = true) by (intros j; rewrite !is_elem_node; intros [m H]; eauto).
    assert (Hsl : forall j s, get_slot g j = Some s -> get_slot g' j = Some s) by (intros j s H; rewrite Hs; [exact H|congruence]).
    assert (Hcn : get_node g' c = Some n) by (now apply get_node_slot).
    constructor.
    - intros a b u H Hu. rewrite He in H. destruct H as [H|H]; [injection H as <- <- <-; split; [auto|apply is_elem_node; eauto]|].
      destruct (w_child _ E _ _ _ H Hu). auto.
    - intros a b H. rewrite He in H. destruct H as [H|H]; [injection H as -> -> ->; discriminate Ht|].
      destruct (w_ph _ E _ _ H) as [(path & m & H1 & H2 & H3)|(H1 & path & x & H2 & H3)]; [left; exists path, m; auto|right; split; auto; exists path, x; split; auto; rewrite He; now right].
    - intros q h x Hq H1 H2. rewrite He in H1, H2. destruct H1 as [H1|H1]; [injection H1 as -> -> ->; discriminate Ht|]. destruct H2 as [H2|H2]; [injection H2 as -> -> ->; discriminate Ht|].
      rewrite He, ckids_cons. assert (Hq' : is_elem g q = true).
      { apply is_elem_node in Hq as [m Hm]. apply is_elem_node. exists m. rewrite <- Hm. symmetry. apply get_node_same, Hs. apply (fresh_no_edge _ _ _ _ _ Wf Hc H1). }
      assert (Hin := w_link _ E _ _ _ Hq' H1 H2). destruct (is_child t && _); [now right|exact Hin].
    - intros a b H. rewrite He in H. destruct H as [H|H]; [injection H as -> -> ->; discriminate Ht|].
      destruct (w_der _ E _ _ H) as (na & nb & H1 & H2 & H3). exists na, nb. auto.
  Qed.

  Lemma ninv_add_child W g KS g' p np c t e : NInv W g KS -> EInv g -> WF g -> get_node g p = Some np -> p = 0%nat \/ W p /\ n_done np = false ->
    is_child t = true -> get_slot g c = None -> get_slot g' c = Some (NElem (mk_node (declared_name e) (level_of e) false e None false)) ->
    (forall j, j <> c -> get_slot g' j = get_slot g j) -> g_edges g' = (p, c, t) :: g_edges g -> Declared ps e -> Below np e ->
    NInv (fun x => W x \/ x = c) g' (upd (upd KS p (KS p ++ [e])) c []).
  Proof.
    intros V E Wf Hp Hpw Ht Hc Hc' Hs He HD HB. set (KS' := upd _ c []).
    assert (Hcp : c <> p) by (intros ->; apply get_node_slot in Hp; congruence).
    assert (Hc0 : c <> 0%nat) by (intros ->; assert (H := v_root _ _ _ V); apply get_node_slot in H; congruence).
    assert (Hn : forall j, j <> c -> get_node g' j = get_node g j) by (intros j H; apply get_node_same, Hs, H).
    assert (Hcn : get_node g' c = Some (mk_node (declared_name e) (level_of e) false e None false)) by (now apply get_node_slot).
    assert (Hck : forall j, ckids (g_edges g') j = if Nat.eqb p j then c :: ckids (g_edges g) j else ckids (g_edges g) j).
    { intros j. rewrite He, ckids_cons, Ht. reflexivity. }
    assert (Hfresh : forall i x, In x (ckids (g_edges g) i) -> x <> c /\ i <> c).
    { intros i x H. apply ckids_In in H as (u & H & _). destruct (fresh_no_edge _ _ _ _ _ Wf Hc H). auto. }
    assert (Hfam : forall i ni x, get_node g i = Some ni -> In x (ckids (g_edges g) i) -> get_node g' x = get_node g x /\ (KS' x = KS x \/ undone_at g x) /\ (W x -> W x \/ x = c)).
    { intros i ni x Hi Hx. destruct (Hfresh _ _ Hx) as [Hxc _]. split; [auto|]. split; [|auto]. unfold KS'. rewrite upd_neq by auto.
      destruct (Nat.eq_dec x p) as [->|Hxp]; [|left; now rewrite upd_neq]. right. destruct Hpw as [->|[_ Hd]]; [|exists np; auto].
      destruct (child_level _ _ _ _ _ _ V Hi Hx) as [Hx0 _]. congruence. }
    constructor.
    - rewrite Hn by auto. apply (v_root _ _ _ V).
    - intros i n Hi H. destruct (Nat.eq_dec i c) as [->|Hic].
      + rewrite Hcn in H. injection H as <-. split; [reflexivity|]. split; [exact HD|]. split; [|discriminate]. intros _. repeat split. left. now right.
      + rewrite Hn in H by auto. destruct (v_node _ _ _ V _ _ Hi H) as (H1 & H2 & H3 & H4). split; [exact H1|]. split; [exact H2|].
        assert (Hk : KS' i = KS i \/ W i /\ n_done n = false).
        { unfold KS'. rewrite upd_neq by auto. destruct (Nat.eq_dec i p) as [->|]; [|left; now rewrite upd_neq]. right. destruct Hpw as [->|Hw]; [congruence|]. rewrite Hp in H. injection H as <-. exact Hw. }
        split.
        * intros Hd. destruct (H3 Hd) as (K1 & K2 & K3 & K4). repeat split; auto. destruct Hk as [->|[Hk _]]; [destruct K4; auto|left; now left].
        * intros Hd. destruct Hk as [Hk|[_ Hk]]; [|congruence]. unfold EvcDone, ElemDone in *. rewrite Hk. auto.
    - intros i Hi. destruct (Nat.eq_dec i c) as [->|Hic].
      + exists []. rewrite Hck. destruct (Nat.eqb_spec p c); [congruence|]. unfold KS'. rewrite upd_eq. split; [|constructor]. cbn.
        rewrite ckids_none; [constructor|]. intros x u Hx. destruct (fresh_no_edge _ _ _ _ _ Wf Hc Hx). congruence.
      + apply is_elem_node in Hi as [ni Hi]. rewrite Hn in Hi by auto. assert (Hie : is_elem g i = true) by (apply is_elem_node; eauto).
        assert (VK := v_kids _ _ _ V _ Hie). destruct (Nat.eq_dec i p) as [->|Hip].
        * destruct VK as (fams & HP & HF). exists (fams ++ [[c]]). rewrite Hck, Nat.eqb_refl. split.
          { rewrite concat_app. cbn. rewrite HP. apply Permutation_cons_append. }
          assert (EKp : KS' p = KS p ++ [e]) by (unfold KS'; rewrite upd_neq, upd_eq by auto; reflexivity). rewrite EKp. apply Forall2_app.
          { rewrite <- (map_id fams), <- (map_ext _ _ (@map_id nat)). eapply Fams_map; [apply incl_appl, incl_refl|exact HF|]. intros x Hx. apply (Hfam p ni); auto. eapply Permutation_in; [symmetry; exact HP|exact Hx]. }
          constructor; [|constructor]. eapply F_undone; [exact Hcn|reflexivity|reflexivity].
        * eapply Kids_same; [exact VK| | |].
          { rewrite Hck. destruct (Nat.eqb_spec p i); [congruence|reflexivity]. }
          { unfold KS'. rewrite !upd_neq by auto. reflexivity. }
          intros x Hx. eapply Hfam; eassumption.
    - intros i. rewrite Hck. destruct (Nat.eqb_spec p i) as [->|]; [|apply (v_nd _ _ _ V)]. constructor; [|apply (v_nd _ _ _ V)].
      intros H. destruct (Hfresh _ _ H). congruence.
    - intros i n e0 H Hin. destruct (Nat.eq_dec i c) as [->|Hic]; [unfold KS' in Hin; rewrite upd_eq in Hin; destruct Hin|].
      rewrite Hn in H by auto. unfold KS' in Hin. rewrite upd_neq in Hin by auto. destruct (Nat.eq_dec i p) as [->|Hip].
      + rewrite upd_eq in Hin. apply in_app_iff in Hin as [Hin|[<-|[]]]; [eapply (v_prov _ _ _ V); eassumption|]. rewrite Hp in H. injection H as <-. exact HB.
      + rewrite upd_neq in Hin by auto. eapply (v_prov _ _ _ V); eassumption.
  Qed.
End Inv.
