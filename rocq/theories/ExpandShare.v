(** * ExpandShare: which nodes of the resolver's graph have several parents.
    Every element is reachable from the device, and nodes that share a child stem from one array or list. *)
From Coq Require Import Relations.
From Verif Require Import Base PyStr Types DimModel EnumModel ElemModel ResolveModel GraphFacts ReplicateFacts ResolveWF ResolveInv TopoFacts SpecDeclared SpecElem SpecSearch SearchFacts SpecExpand DescribeFacts PropsDim ExpandInv ExpandBuild ExpandStep ExpandNode ExpandRounds.

Definition Rooted (g : graph) (i : nat) : Prop := clos_refl_trans nat (Kid g) 0%nat i.
Definition nsize (n : node) : option Z := match n_processed n with Some v => processed_size v | None => None end.
Definition Multi (n : node) : Prop := has_placeholder (parsed_name (n_parsed n)).
Definition Co (g : graph) (p q : nat) : Prop := exists np nq t, get_node g p = Some np /\ get_node g q = Some nq /\ n_done np = true /\ n_done nq = true /\
  n_level np = n_level nq /\ nsize np = nsize nq /\ Multi np /\ Multi nq /\ (forall x, Kid g x p -> Kid g x t) /\ (forall x, Kid g x q -> Kid g x t).
(** finished instances that are filled with the same children *)
Definition Alike (g : graph) (d e : nat) : Prop := exists nd ne, get_node g d = Some nd /\ get_node g e = Some ne /\ n_done nd = true /\ n_done ne = true /\
  n_tmpl nd = false /\ n_tmpl ne = false /\ (n_level nd = n_level ne /\ n_level nd <> LEnum) /\ nsize nd = nsize ne /\ ((exists k, Kid g d k /\ Kid g e k) \/ (forall k, ~ Kid g d k) /\ forall k, ~ Kid g e k).
Record Sh (g : graph) : Prop := {
  sh_root : forall i, is_elem g i = true -> Rooted g i;
  sh_co : forall c p q, Kid g p c -> Kid g q c -> p <> q -> Co g p q;
  sh_tw : forall c p q d, Kid g p c -> Kid g q c -> Kid g p d -> Kid g q d \/ exists e, Kid g q e /\ Alike g d e }.

Lemma rooted_mono g g' i : (forall a b, Kid g a b -> Kid g' a b) -> Rooted g i -> Rooted g' i.
Proof. intros H. unfold Rooted. induction 1 as [a b K|a|a b c _ IH1 _ IH2]; [apply rt_step; auto|apply rt_refl|eapply rt_trans; eassumption]. Qed.
Lemma sh_same g g' : Sh g -> (forall p, ckids (g_edges g') p = ckids (g_edges g) p) -> (forall i, is_elem g' i = true -> is_elem g i = true) ->
  (forall i n, get_node g i = Some n -> n_done n = true -> get_node g' i = Some n) -> Sh g'.
Proof.
  intros S Hk He Hn. assert (K : forall a b, Kid g' a b <-> Kid g a b) by (intros a b; unfold Kid; now rewrite Hk). constructor.
  - intros i Hi. eapply rooted_mono; [|apply (sh_root _ S), He, Hi]. intros a b. apply K.
  - intros c p q Hp Hq Hne. apply K in Hp, Hq. destruct (sh_co _ S _ _ _ Hp Hq Hne) as (np & nq & t & H1 & H2 & H3 & H4 & H5 & H6 & H7 & H8 & H9 & H10).
    exists np, nq, t. split; [auto|]. split; [auto|]. split; [exact H3|]. split; [exact H4|]. split; [exact H5|]. split; [exact H6|]. split; [exact H7|]. split; [exact H8|].
    split; intros x Hx; apply K; apply K in Hx; auto.
  - intros c p q d Hp Hq Hd. apply K in Hp, Hq, Hd. destruct (sh_tw _ S _ _ _ _ Hp Hq Hd) as [H|(e & H & nd & ne & H1 & H2 & H3 & H4 & H5 & H6 & H7 & H8 & H9)]; [left; now apply K|right].
    exists e. split; [now apply K|]. exists nd, ne. split; [auto|]. split; [auto|]. split; [exact H3|]. split; [exact H4|]. split; [exact H5|]. split; [exact H6|]. split; [exact H7|]. split; [exact H8|].
    destruct H9 as [(k & H9 & H10)|[H9 H10]]; [left; exists k; split; now apply K|right; split; intros k Hk0; apply K in Hk0; [exact (H9 _ Hk0)|exact (H10 _ Hk0)]].
Qed.

(** ** The freshly built graph is a tree *)
Record Tr (g : graph) : Prop := {
  tr_wf : WF g;
  tr_root : forall i, is_elem g i = true -> Rooted g i;
  tr_one : forall c p q, Kid g p c -> Kid g q c -> p = q }.
Lemma tr_sh g : Tr g -> Sh g.
Proof.
  intros T. constructor; [apply T| |].
  - intros c p q Hp Hq Hne. destruct Hne. eapply (tr_one _ T); eassumption.
  - intros c p q d Hp Hq Hd. left. now rewrite <- (tr_one _ T _ _ _ Hp Hq).
Qed.
Definition TGrow (f : graph -> M graph) (p : nat) : Prop := forall g ws g', Tr g -> is_elem g p = true -> f g = (ws, Ok g') -> Tr g' /\ forall x, is_elem g x = true -> is_elem g' x = true.
Lemma keeps_elem g g' x : keeps g g' -> is_elem g x = true -> is_elem g' x = true.
Proof. intros K H. apply is_elem_node in H as [n H]. apply is_elem_node. exists n. rewrite get_node_slot in *. auto. Qed.
Lemma tr_element g p t name lv e d ws r : Tr g -> is_elem g p = true -> is_child t = true -> build_element g p t name lv e d = (ws, Ok r) ->
  Tr (fst r) /\ is_elem (fst r) (snd r) = true /\ forall x, is_elem g x = true -> is_elem (fst r) x = true.
Proof.
  intros T Hp Ht H. unfold build_element in H. apply bind_ok in H as (w1 & [g1 c] & w2 & H1 & H & _). assert (Hps : get_slot g p <> None) by (apply is_elem_node in Hp as [m Hp]; apply get_node_slot in Hp; congruence).
  apply add_child_spec in H1; [|apply T|exact Hps]. cbn [fst snd] in H1. destruct H1 as (Wf1 & Kp & Hc & Hc' & Hs & He & _).
  assert (Hce : is_elem g1 c = true) by (apply is_elem_node; eexists; apply get_node_slot; exact Hc').
  assert (Hkid : forall a b, Kid g1 a b <-> a = p /\ b = c \/ Kid g a b).
  { intros a b. unfold Kid. rewrite He, ckids_cons, Ht. cbn [andb]. destruct (Nat.eqb_spec p a) as [->|Hpa]; cbn [In]; split; intros K; try tauto.
    - destruct K as [<-|K]; auto.
    - destruct K as [[_ ->]|K]; auto.
    - destruct K as [[K _]|K]; [congruence|exact K]. }
  assert (Hfr : forall a, ~ Kid g a c) by (intros a K; apply ckids_In in K as (u & K & _); destruct (wf_edge _ (tr_wf _ T) _ _ _ K); congruence).
  assert (T1 : Tr g1).
  { constructor; [exact Wf1| |].
    - intros i Hi. destruct (Nat.eq_dec i c) as [->|Hic].
      + eapply rt_trans; [eapply rooted_mono; [|apply (tr_root _ T), Hp]; intros a b K; apply Hkid; now right|]. apply rt_step. apply Hkid. now left.
      + eapply rooted_mono; [|apply (tr_root _ T)]; [intros a b K; apply Hkid; now right|]. apply is_elem_node in Hi as [m Hi]. apply is_elem_node. exists m. rewrite <- Hi. symmetry. now apply get_node_same, Hs.
    - intros x a b Ha Hb. apply Hkid in Ha, Hb. destruct Ha as [[-> ->]|Ha], Hb as [[-> Hb']|Hb]; auto; [destruct (Hfr _ Hb)|subst x; destruct (Hfr _ Ha)|]. eapply (tr_one _ T); eassumption. }
  assert (K1 : forall x, is_elem g x = true -> is_elem g1 x = true) by (intros x; now apply keeps_elem).
  destruct d as [path|].
  - apply bind_ok in H as (w3 & g2 & w4 & H2 & H & _). apply ret_ok in H as [<- _]. cbn [fst snd] in *. apply add_ph_spec in H2 as (h & Wf2 & Kp2 & Hh & Hh' & Hs2 & He2 & _); [|exact Wf1|congruence].
    assert (Hk2 : forall a b, Kid g2 a b <-> Kid g1 a b) by (intros a b; unfold Kid; rewrite He2, ckids_cons; reflexivity).
    split; [|split; [now apply (keeps_elem g1)|intros x Hx; apply (keeps_elem g1); auto]]. constructor; [exact Wf2| |].
    + intros i Hi. eapply rooted_mono; [intros a b; apply Hk2|]. apply (tr_root _ T1). destruct (Nat.eq_dec i h) as [->|Hih]; [rewrite (ph_not_elem _ _ _ Hh') in Hi; discriminate|].
      apply is_elem_node in Hi as [m Hi]. apply is_elem_node. exists m. rewrite <- Hi. symmetry. now apply get_node_same, Hs2.
    + intros x a b Ha Hb. apply Hk2 in Ha, Hb. eapply (tr_one _ T1); eassumption.
  - apply ret_ok in H as [<- _]. cbn [fst snd] in *. auto.
Qed.
Lemma tr_list {A} (F : graph -> A -> M graph) p : forall l, (forall x, In x l -> TGrow (fun g => F g x) p) -> TGrow (fun g => foldM F g l) p.
Proof.
  induction l as [|x l IH]; intros HB g ws g' T Hp H; cbn in H; [apply ret_ok in H as [<- _]; auto|]. apply bind_ok in H as (w1 & g1 & w2 & H1 & H & _).
  destruct (HB x (or_introl eq_refl) _ _ _ T Hp H1) as [T1 K1]. destruct (IH (fun y Hy => HB y (or_intror Hy)) _ _ _ T1 (K1 _ Hp) H) as [T2 K2]. auto.
Qed.
Lemma tr_node {A} (F : nat -> graph -> A -> M graph) p t name lv e d l : is_child t = true -> (forall c x, In x l -> TGrow (fun g => F c g x) c) ->
  TGrow (fun g => gi <- build_element g p t name lv e d ;; foldM (F (snd gi)) (fst gi) l) p.
Proof.
  intros Ht HB g ws g' T Hp H. apply bind_ok in H as (w1 & r & w2 & H1 & H & _). destruct (tr_element _ _ _ _ _ _ _ _ _ T Hp Ht H1) as (T1 & Hc & K1).
  destruct (tr_list (F (snd r)) (snd r) l (HB (snd r)) _ _ _ T1 Hc H) as [T2 K2]. auto.
Qed.
Lemma tr_evc p e : TGrow (fun g => build_evc p g e) p.
Proof. apply (tr_node (fun _ g (_ : unit) => ret g) p CHILD_UNRESOLVED (sevc_name e) LEnum (PaEvc e) (sevc_derived e) []); [reflexivity|intros c x []]. Qed.
Lemma tr_field p f : TGrow (fun g => build_field p g f) p.
Proof. apply (tr_node build_evc p); [reflexivity|]. intros. apply tr_evc. Qed.
Lemma tr_rc x : forall p, TGrow (fun g => build_rc p g x) p.
Proof.
  induction x as [r|c l IH] using svd_rc_ind'; intros p.
  - apply (tr_node build_field p); [reflexivity|]. intros. apply tr_field.
  - rewrite Forall_forall in IH. apply (tr_node build_rc p); [reflexivity|]. intros c0 x Hx. now apply IH.
Qed.
Lemma tr_construct ps ws g : construct_graph ps = (ws, Ok g) -> Tr g.
Proof.
  rewrite construct_eq. intros H. eapply (tr_list build_per 0%nat ps); [| | |exact H].
  - intros p _. apply (tr_node build_rc 0%nat); [reflexivity|]. intros. apply tr_rc.
  - constructor; [exact WF_start| |intros c p q []]. intros i Hi. destruct i as [|[|i]]; [apply rt_refl|discriminate|discriminate].
  - reflexivity.
Qed.
Lemma tr_initialization ps ws g : initialization ps = (ws, Ok g) -> Sh g.
Proof.
  intros H. apply bind_ok in H as (w1 & g0 & w2 & H1 & H & _). apply tr_construct, tr_sh in H1. revert H. generalize (g_phs g0). intros l. revert g0 w2 H1. induction l as [|h l IH]; intros g0 w2 S H; cbn in H; [apply ret_ok in H as [<- _]; exact S|].
  apply bind_ok in H as (w3 & g1 & w4 & H1 & H & _). eapply IH; [|exact H]. unfold link_placeholder in H1. apply bind_ok in H1 as (w5 & [p|] & w6 & _ & H1 & _); [|apply ret_ok in H1 as [<- _]; exact S].
  apply add_edge_m_eq in H1 as (_ & -> & _). apply (sh_same _ _ S); [intros x; cbn [g_edges]; now rewrite ckids_cons|auto|auto].
Qed.

(** ** Resolving placeholders *)
Lemma sh_resolve_ph g h ws g' : EInv g -> Sh g -> resolve_placeholder g h = (ws, Ok g') -> Sh g'.
Proof.
  intros E S H. destruct (resolve_ph_inv _ _ _ _ H) as [->|(p & pn & c & n & path & b & Hp & Hpd & Hph & Hhc & Hh & Hc & Hb & Hr & Eg)]; [exact S|].
  assert (Hhe := ph_not_elem _ _ _ Hh).
  assert (Hn : forall i, get_node g' i = get_node g i).
  { intros i. rewrite Eg. unfold get_node. change (get_slot (mk_graph _ _ _ _) i) with (get_slot (remove_placeholder g h) i). rewrite (remove_ph_slot _ _ _ Hh).
    destruct (Nat.eqb_spec h i) as [->|]; [now rewrite Hh|reflexivity]. }
  apply (sh_same _ _ S).
  - intros i. rewrite Eg. cbn [g_edges]. rewrite ckids_cons. cbn [is_child andb]. apply ckids_filter. intros [[a x] t] Hi Ht. cbn in *. destruct (w_child _ E _ _ _ Hi Ht).
    destruct (Nat.eqb_spec a h), (Nat.eqb_spec x h); subst; congruence || reflexivity.
  - intros i. unfold is_elem. now rewrite Hn.
  - intros i m K _. now rewrite Hn.
Qed.

(** ** Depths *)
Inductive Path (g : graph) : nat -> nat -> Prop :=
| Path_0 : Path g 0 0
| Path_S k p c : Path g k p -> Kid g p c -> Path g (Datatypes.S k) c.
Section Depth.
  Context (ps : Sys) (W : nat -> Prop) (g : graph) (KS : nat -> list parsed) (V : NInv ps W g KS) (E : EInv g) (Hs : Sh g).
  Lemma kid_elems p c : Kid g p c -> is_elem g p = true /\ is_elem g c = true.
  Proof. intros K. apply ckids_In in K as (t & K1 & K2). exact (w_child _ E _ _ _ K1 K2). Qed.
  Lemma kid_not_root p : ~ Kid g p 0%nat.
  Proof. intros K. destruct (kid_elems _ _ K) as [Hp _]. apply is_elem_node in Hp as [np Hp]. destruct (child_level _ _ _ _ _ _ _ V Hp K) as [H _]. now apply H. Qed.
  Lemma path_exists i : is_elem g i = true -> exists k, Path g k i.
  Proof.
    intros H. apply (sh_root _ Hs) in H. apply clos_rt_rtn1 in H. induction H as [|y z K _ [k IH]]; [exists 0%nat; constructor|]. exists (Datatypes.S k). econstructor; eassumption.
  Qed.
  Lemma path_unique k : forall i k', Path g k i -> Path g k' i -> k = k'.
  Proof.
    induction k as [|k IH]; intros i k' H H'.
    - inversion H; subst. inversion H' as [|k0 p c _ K]; subst; [reflexivity|]. destruct (kid_not_root _ K).
    - inversion H as [|k0 p c Hp K]; subst. inversion H' as [|k1 p' c Hp' K']; subst; [destruct (kid_not_root _ K)|]. f_equal.
      destruct (Nat.eq_dec p p') as [->|Hne]; [eapply IH; eassumption|]. destruct (sh_co _ Hs _ _ _ K K' Hne) as (np & nq & t & L1 & L2 & _ & _ & L3 & _ & _ & _ & T1 & T2).
      assert (Hroot : forall x nx, get_node g x = Some nx -> n_level nx = LDevice -> x = 0%nat).
      { intros x nx Hx Hl. destruct (Nat.eq_dec x 0) as [|H0]; [assumption|]. destruct (v_node _ _ _ _ V _ _ H0 Hx) as (M1 & M2 & _). rewrite Hl in M1. destruct (n_parsed nx) as [|?|[?|? ?]|?|?]; try discriminate. destruct M2. }
      assert (V0 := v_root _ _ _ _ V).
      inversion Hp as [|k0 q c0 Hq Kq]; subst.
      { exfalso. apply Hne. rewrite V0 in L1. injection L1 as <-. cbn in L3. symmetry. exact (Hroot _ _ L2 (eq_sym L3)). }
      inversion Hp' as [|k1' q' c1 Hq' Kq']; subst.
      { exfalso. apply Hne. rewrite V0 in L2. injection L2 as <-. cbn in L3. exact (Hroot _ _ L1 L3). }
      apply (IH t); [exact (Path_S g k0 q t Hq (T1 _ Kq))|exact (Path_S g k1' q' t Hq' (T2 _ Kq'))].
  Qed.
  Lemma path_below b d k : clos_trans nat (Kid g) b d -> Path g k b -> exists j, Path g (Datatypes.S (k + j)) d.
  Proof.
    intros H Hk. apply clos_trans_tn1 in H. induction H as [d K|y d K _ [j IH]]; [exists 0%nat; rewrite Nat.add_0_r; econstructor; eassumption|].
    exists (Datatypes.S j). rewrite <- plus_n_Sm. econstructor; eassumption.
  Qed.
  (** a node and a node below it have no child in common *)
  Lemma depth_apart b d c : is_elem g b = true -> clos_trans nat (Kid g) b d -> Kid g b c -> Kid g d c -> False.
  Proof.
    intros Hb H K1 K2. destruct (path_exists _ Hb) as [k Hk]. destruct (path_below _ _ _ H Hk) as [j Hj].
    assert (F := path_unique _ _ _ (Path_S _ _ _ _ Hk K1) (Path_S _ _ _ _ Hj K2)). lia.
  Qed.
End Depth.

(** ** Copying the descendants of the base *)
Section Rep.
  Context (ps : Sys) (NDC : forall a e, MayBeBase ps a -> level_of a = LCluster -> Inside a e -> ~ derived_cluster e) (g : graph) (KS : nat -> list parsed) (b i : nat) (nb n : node) (g1 : graph) (m : list (nat * nat)).
  Context (I : Iv ps nobody g KS) (Hb : get_node g b = Some nb) (Hi : get_node g i = Some n) (Hl : n_level nb = n_level n) (Hcl : ~ Desc g b i)
    (Hi0 : i <> 0%nat) (Hd : n_done n = false) (R : Replicated g b i g1 m) (S : Sh g).
  Let Wf := proj1 I.
  Let V := proj1 (proj2 I).
  Let E := proj2 (proj2 I).
  Let Hbe : is_elem g b = true := proj2 (is_elem_node g b) (ex_intro _ nb Hb).

  Lemma kid_slots a c : Kid g a c -> get_slot g a <> None /\ get_slot g c <> None.
  Proof. intros K. apply ckids_In in K as (t & K & _). exact (wf_edge _ Wf _ _ _ K). Qed.
  Lemma kid_edge a c : Kid g a c -> exists t, In (a, c, t) (g_edges g) /\ is_child t = true.
  Proof. apply ckids_In. Qed.
  Lemma kid_img a c : a = b \/ (exists j, In (a, j) m) -> Kid g a c -> In (c, img m c) m.
  Proof. intros Ha K. apply kid_edge in K as (t & K1 & K2). exact (rep_img_node g b i g1 m R a c t Ha K1 K2). Qed.
  Lemma kid_to p c : Kid g1 p c <-> Kid g p c \/ p = i /\ (exists d, Kid g b d /\ c = img m d) \/ exists d, In (d, p) m /\ exists c0, Kid g d c0 /\ c = img m c0.
  Proof.
    split.
    - intros K. assert (Hp : get_slot g1 p <> None) by (apply ckids_In in K as (t & K & _); apply (wf_edge _ (rp_wf _ _ _ _ _ R) _ _ _ K)).
      destruct (rp_only _ _ _ _ _ R _ Hp) as [Ho|Ho].
      + destruct (Nat.eq_dec p i) as [->|Hpi].
        * eapply Permutation_in in K; [|exact (rep_ckids_target ps NDC g KS b i nb n g1 m I Hb Hi R)]. apply in_app_iff in K as [K|K]; [now left|right; left]. split; [reflexivity|]. apply in_map_iff in K as (d & <- & K). exists d. split; [exact K|reflexivity].
        * left. eapply Permutation_in in K; [exact K|]. exact (rep_ckids_old ps g KS b i g1 m I R p Ho Hpi).
      + right. right. apply in_map_iff in Ho as ([d j] & Ej & Ho). cbn in Ej. subst j. exists d. split; [exact Ho|]. eapply Permutation_in in K; [|exact (rep_ckids_copy ps g KS b i n g1 m I Hi R d p Ho)].
        apply in_map_iff in K as (c0 & <- & K). exists c0. split; [exact K|reflexivity].
    - intros [K|[[-> (d & K & ->)]|(d & Hm & c0 & K & ->)]].
      + destruct (Nat.eq_dec p i) as [->|Hpi].
        * eapply Permutation_in; [symmetry; exact (rep_ckids_target ps NDC g KS b i nb n g1 m I Hb Hi R)|]. apply in_app_iff. now left.
        * eapply Permutation_in; [symmetry; exact (rep_ckids_old ps g KS b i g1 m I R p (proj1 (kid_slots _ _ K)) Hpi)|exact K].
      + eapply Permutation_in; [symmetry; exact (rep_ckids_target ps NDC g KS b i nb n g1 m I Hb Hi R)|]. apply in_app_iff. right. now apply in_map.
      + eapply Permutation_in; [symmetry; exact (rep_ckids_copy ps g KS b i n g1 m I Hi R d p Hm)|]. now apply in_map.
  Qed.
  Lemma copy_fresh d j : In (d, j) m -> get_slot g j = None.
  Proof. intros H. now destruct (rep_fresh ps g KS b i g1 m I R d j H). Qed.
  Lemma kid_old p c : get_slot g c <> None -> Kid g1 p c <-> Kid g p c.
  Proof.
    intros Hc. rewrite kid_to. split; [|tauto]. intros [K|[[-> (d & K & ->)]|(d & Hm & c0 & K & ->)]]; [exact K| |].
    - destruct Hc. eapply copy_fresh, kid_img; [|exact K]. now left.
    - destruct Hc. eapply copy_fresh, kid_img; [|exact K]. right. eauto.
  Qed.
  Lemma img_inj c0 c1 c : In (c0, c) m -> In (c1, c) m -> c0 = c1.
  Proof. intros H1 H2. apply (pre_nd _ _ _ (rp_inj _ _ _ _ _ R)) in H1, H2. congruence. Qed.
  Lemma kid_new p c0 c : In (c0, c) m -> Kid g1 p c <-> p = i /\ Kid g b c0 \/ exists p0, In (p0, p) m /\ Kid g p0 c0.
  Proof.
    intros Hm. rewrite kid_to. split.
    - intros [K|[[-> (d & K & ->)]|(d & Hd' & c1 & K & ->)]].
      + destruct (proj2 (kid_slots _ _ K)). now apply (copy_fresh c0).
      + left. split; [reflexivity|]. assert (K2 := kid_img b d (or_introl eq_refl) K). now rewrite (img_inj _ _ _ Hm K2).
      + right. exists d. split; [exact Hd'|]. assert (K2 := kid_img d c1 (or_intror (ex_intro (fun j => In (d, j) m) p Hd')) K). now rewrite (img_inj _ _ _ Hm K2).
    - rewrite <- (img_In m c0 c (rp_fun _ _ _ _ _ R) Hm). intros [[-> K]|(p0 & Hp & K)]; [right; left|right; right]; eauto.
  Qed.
  Lemma kids_below d : clos_trans nat (Kid g) b d -> In (d, img m d) m.
  Proof. intros H. apply clos_trans_tn1 in H. induction H as [d K|y d K _ IH]; [apply (kid_img b); auto|apply (kid_img y); eauto]. Qed.
  Lemma parent_below d : clos_trans nat (Kid g) b d -> exists y, Kid g y d /\ (y = b \/ exists j, In (y, j) m).
  Proof.
    intros H. apply clos_trans_tn1 in H. destruct H as [d K|y d K H]; [exists b; auto|]. exists y. split; [exact K|]. right. exists (img m y). apply kids_below. now apply clos_tn1_trans.
  Qed.
  Lemma rep_rooted d : clos_trans nat (Kid g) b d -> Rooted g1 (img m d).
  Proof.
    assert (Hr : Rooted g1 i). { eapply rooted_mono; [|apply (sh_root _ S), is_elem_node; eauto]. intros a c K. apply kid_to. now left. }
    intros H. apply clos_trans_tn1 in H. induction H as [d K|y d K H IH].
    - eapply rt_trans; [exact Hr|]. apply rt_step. apply kid_to. right. left. eauto.
    - eapply rt_trans; [exact IH|]. apply rt_step. apply kid_to. right. right. exists y. split; [apply kids_below; now apply clos_tn1_trans|]. eauto.
  Qed.
  Lemma sh_rep : Sh g1.
  Proof.
    assert (Hmono : forall a c, Kid g a c -> Kid g1 a c) by (intros a c K; apply kid_to; now left).
    constructor.
    - intros x Hx. assert (Hs : get_slot g1 x <> None) by (apply is_elem_node in Hx as [nx Hx]; apply get_node_slot in Hx; congruence). destruct (rp_only _ _ _ _ _ R _ Hs) as [Ho|Ho].
      + eapply rooted_mono; [exact Hmono|]. apply (sh_root _ S). destruct (get_slot g x) as [s|] eqn:Es; [|congruence]. apply (rep_old g b i g1 m R) in Es as Es1. unfold is_elem, get_node in *. rewrite Es1 in Hx. now rewrite Es.
      + apply in_map_iff in Ho as ([d j] & Ej & Ho). cbn in Ej. subst j. rewrite <- (img_In m d x (rp_fun _ _ _ _ _ R) Ho). apply rep_rooted. apply (proj1 (desc_kids g b d E Hbe (rep_desc g b i g1 m R d x Ho))).
        unfold is_elem in *. rewrite <- (rep_node ps g KS b i g1 m I R d x Ho). exact Hx.
    - intros c p q Hp Hq Hne. destruct (get_slot g c) as [s|] eqn:Ec.
      + assert (Hc : get_slot g c <> None) by congruence. apply (kid_old p c Hc) in Hp. apply (kid_old q c Hc) in Hq.
        destruct (sh_co _ S _ _ _ Hp Hq Hne) as (np & nq & t & H1 & H2 & H3 & H4 & H5 & H6 & H7 & H8 & H9 & H10). exists np, nq, t.
        split; [now apply (rep_oldn g b i g1 m R)|]. split; [now apply (rep_oldn g b i g1 m R)|]. conj; auto.
        * intros x Hx. apply Hmono, H9. apply (kid_old x p); [apply (kid_slots _ _ Hp)|exact Hx].
        * intros x Hx. apply Hmono, H10. apply (kid_old x q); [apply (kid_slots _ _ Hq)|exact Hx].
      + assert (Hc0 : exists c0, In (c0, c) m).
        { assert (Hs : get_slot g1 c <> None) by (apply ckids_In in Hp as (t & K & _); apply (wf_edge _ (rp_wf _ _ _ _ _ R) _ _ _ K)). destruct (rp_only _ _ _ _ _ R _ Hs) as [Ho|Ho]; [congruence|].
          apply in_map_iff in Ho as ([d j] & Ej & Ho). cbn in Ej. subst j. eauto. }
        destruct Hc0 as [c0 Hc0].
        assert (Hmix : forall p0 p', In (p0, p') m -> Kid g b c0 -> Kid g p0 c0 -> False).
        { intros p0 p' Hm K1 K2. assert (Hpe : is_elem g p0 = true) by (apply kid_edge in K2 as (t & K3 & K4); apply (w_child _ E _ _ _ K3 K4)).
          assert (Hbel := proj1 (desc_kids g b p0 E Hbe (rep_desc g b i g1 m R p0 p' Hm)) Hpe). exact (depth_apart ps nobody g KS V E S b p0 c0 Hbe Hbel K1 K2). }
        apply (kid_new p c0 c Hc0) in Hp. apply (kid_new q c0 c Hc0) in Hq. destruct Hp as [[-> Hp]|(p0 & Hpm & Hp)], Hq as [[-> Hq]|(q0 & Hqm & Hq)]; [congruence|destruct (Hmix _ _ Hqm Hp Hq)|destruct (Hmix _ _ Hpm Hq Hp)|].
        assert (Hne0 : p0 <> q0). { intros <-. apply Hne. rewrite <- (img_In m p0 p (rp_fun _ _ _ _ _ R) Hpm). apply (img_In m p0 q (rp_fun _ _ _ _ _ R) Hqm). }
        destruct (sh_co _ S _ _ _ Hp Hq Hne0) as (np & nq & t & H1 & H2 & H3 & H4 & H5 & H6 & H7 & H8 & H9 & H10).
        assert (Hbel : clos_trans nat (Kid g) b p0) by (apply (proj1 (desc_kids g b p0 E Hbe (rep_desc g b i g1 m R p0 p Hpm))); apply is_elem_node; eauto).
        destruct (parent_below _ Hbel) as (y & Ky & Hy). assert (Ht : In (t, img m t) m) by (apply (kid_img y); auto).
        exists np, nq, (img m t). split; [rewrite (rep_node ps g KS b i g1 m I R p0 p Hpm); exact H1|]. split; [rewrite (rep_node ps g KS b i g1 m I R q0 q Hqm); exact H2|]. conj; auto.
        * intros x Hx. apply (kid_new x t _ Ht). apply (kid_new x p0 p Hpm) in Hx. destruct Hx as [[-> Hx]|(x0 & Hxm & Hx)]; [left; auto|right; eauto].
        * intros x Hx. apply (kid_new x t _ Ht). apply (kid_new x q0 q Hqm) in Hx. destruct Hx as [[-> Hx]|(x0 & Hxm & Hx)]; [left; auto|right; eauto].
    - intros c p q d Hp Hq Hd'. destruct (Nat.eq_dec p q) as [<-|Hne]; [now left|]. destruct (get_slot g c) as [s|] eqn:Ec.
      + assert (Hc : get_slot g c <> None) by congruence. apply (kid_old p c Hc) in Hp. apply (kid_old q c Hc) in Hq.
        assert (Hpi : p <> i). { intros ->. destruct (sh_co _ S _ _ _ Hp Hq Hne) as (np & nq & t & H1 & _ & H3 & _). rewrite Hi in H1. injection H1 as <-. congruence. }
        assert (Hkp : Kid g p d). { apply kid_to in Hd'. destruct Hd' as [K|[[K _]|(x & K & _)]]; [exact K|congruence|]. destruct (proj1 (kid_slots _ _ Hp)). exact (copy_fresh _ _ K). }
        destruct (sh_tw _ S _ _ _ _ Hp Hq Hkp) as [K|(e & K & nd & ne & H1 & H2 & H3 & H4 & H5 & H6 & H7 & H8 & H9)]; [left; auto|right]. exists e. split; [auto|].
        assert (Hleaf : forall x nx, get_node g x = Some nx -> n_done nx = true -> (forall k, ~ Kid g x k) -> forall k, ~ Kid g1 x k).
        { intros x nx Hx Hdx Hno k Hk. apply kid_to in Hk. destruct Hk as [Hk|[[-> _]|(y & Hk & _)]]; [exact (Hno _ Hk)|congruence|]. apply copy_fresh in Hk. apply get_node_slot in Hx. congruence. }
        exists nd, ne. split; [now apply (rep_oldn g b i g1 m R)|]. split; [now apply (rep_oldn g b i g1 m R)|]. conj; try exact (proj1 H7); try exact (proj2 H7); auto.
        destruct H9 as [(k & H9 & H10)|[H9 H10]]; [left; exists k; split; now apply Hmono|right; split; [exact (Hleaf d nd H1 H3 H9)|exact (Hleaf e ne H2 H4 H10)]].
      + assert (Hc0 : exists c0, In (c0, c) m).
        { assert (Hs : get_slot g1 c <> None) by (apply ckids_In in Hp as (t & K & _); apply (wf_edge _ (rp_wf _ _ _ _ _ R) _ _ _ K)). destruct (rp_only _ _ _ _ _ R _ Hs) as [Ho|Ho]; [congruence|].
          apply in_map_iff in Ho as ([x j] & Ej & Ho). cbn in Ej. subst j. eauto. }
        destruct Hc0 as [c0 Hc0].
        assert (Hmix : forall p0 p', In (p0, p') m -> Kid g b c0 -> Kid g p0 c0 -> False).
        { intros p0 p' Hm K1 K2. assert (Hpe : is_elem g p0 = true) by (apply kid_edge in K2 as (t & K3 & K4); apply (w_child _ E _ _ _ K3 K4)).
          assert (Hbel := proj1 (desc_kids g b p0 E Hbe (rep_desc g b i g1 m R p0 p' Hm)) Hpe). exact (depth_apart ps nobody g KS V E S b p0 c0 Hbe Hbel K1 K2). }
        apply (kid_new p c0 c Hc0) in Hp. apply (kid_new q c0 c Hc0) in Hq. destruct Hp as [[-> Hp]|(p0 & Hpm & Hp)], Hq as [[-> Hq]|(q0 & Hqm & Hq)]; [congruence|destruct (Hmix _ _ Hqm Hp Hq)|destruct (Hmix _ _ Hpm Hq Hp)|].
        assert (Hcopy : forall x0 x y, In (x0, x) m -> Kid g1 x y -> exists y0, In (y0, y) m /\ Kid g x0 y0).
        { intros x0 x y Hx Hy. apply kid_to in Hy. destruct Hy as [Hy|[[-> _]|(z & Hz & y0 & Hy & ->)]]; [destruct (proj1 (kid_slots _ _ Hy)); exact (copy_fresh _ _ Hx)|apply copy_fresh in Hx; apply get_node_slot in Hi; congruence|].
          rewrite (img_inj _ _ _ Hx Hz). exists y0. split; [|exact Hy]. apply (kid_img z); [right; eauto|exact Hy]. }
        assert (Hto : forall x0 x y0, In (x0, x) m -> Kid g x0 y0 -> Kid g1 x (img m y0)) by (intros x0 x y0 Hx Hy; apply kid_to; right; right; eauto).
        destruct (Hcopy _ _ _ Hpm Hd') as (d0 & Hdm & Hkd). destruct (sh_tw _ S _ _ _ _ Hp Hq Hkd) as [K|(e0 & K & nd & ne & H1 & H2 & H3 & H4 & H5 & H6 & H7 & H8 & H9)].
        * left. rewrite <- (img_In m d0 d (rp_fun _ _ _ _ _ R) Hdm). exact (Hto _ _ _ Hqm K).
        * right. exists (img m e0). split; [exact (Hto _ _ _ Hqm K)|]. assert (Hem : In (e0, img m e0) m) by (apply (kid_img q0); [right; eauto|exact K]).
          exists nd, ne. split; [rewrite (rep_node ps g KS b i g1 m I R d0 d Hdm); exact H1|]. split; [rewrite (rep_node ps g KS b i g1 m I R e0 _ Hem); exact H2|]. conj; try exact (proj1 H7); try exact (proj2 H7); auto.
          destruct H9 as [(k & H9 & H10)|[H9 H10]].
          -- left. exists (img m k). split; [exact (Hto _ _ _ Hdm H9)|exact (Hto _ _ _ Hem H10)].
          -- right. split; intros k Hk; [destruct (Hcopy _ _ _ Hdm Hk) as (k0 & _ & L); exact (H9 _ L)|destruct (Hcopy _ _ _ Hem Hk) as (k0 & _ & L); exact (H10 _ L)].
  Qed.
End Rep.

(** ** Marking a node as processed *)
Lemma described_many e bv vs tv : Described e bv vs (Some tv) -> has_placeholder (parsed_name e) /\ forall v, In v vs -> processed_size v = processed_size tv.
Proof.
  intros H. inversion H as [|? ? n idx ph H1 H2 H3 H4 H5 H6 H7 H8 H9 H10 H11]; subst. split.
  - destruct H5 as [(K & _)|(_ & _ & K & _)]; [|exact K]. destruct K as (a & b & K). exists (a ++ "[")%string, ("]" ++ b)%string. rewrite K, <- sapp_assoc. reflexivity.
  - intros v Hv. apply In_nth_error in Hv as [k Hv]. destruct (H6 _ _ Hv) as (ix & _ & _ & _ & K & _). eapply attributes_size; eassumption.
Qed.
Definition Solo (g : graph) (i : nat) : Prop := forall c p, Kid g i c -> Kid g p c -> p = i.
Lemma undone_solo g i n : Sh g -> get_node g i = Some n -> n_done n = false -> Solo g i.
Proof.
  intros S Hi Hd c p H1 H2. destruct (Nat.eq_dec p i) as [|Hne]; [assumption|]. destruct (sh_co _ S _ _ _ H1 H2 (not_eq_sym Hne)) as (np & nq & t & K1 & _ & K2 & _). rewrite Hi in K1. injection K1 as <-. congruence.
Qed.
Lemma single_solo g i n : Sh g -> get_node g i = Some n -> ~ has_placeholder (parsed_name (n_parsed n)) -> Solo g i.
Proof.
  intros S Hi Hd c p H1 H2. destruct (Nat.eq_dec p i) as [|Hne]; [assumption|]. destruct (sh_co _ S _ _ _ H1 H2 (not_eq_sym Hne)) as (np & nq & t & K1 & _ & _ & _ & _ & _ & K2 & _). rewrite Hi in K1. injection K1 as <-. contradiction.
Qed.
Section Mark.
  Context (ps : Sys) (NDC : forall a e, MayBeBase ps a -> level_of a = LCluster -> Inside a e -> ~ derived_cluster e).
  Lemma sh_prepared g KS i n base bv g1 : Iv ps nobody g KS -> Sh g -> i <> 0%nat -> get_node g i = Some n -> n_done n = false -> BaseOf g i n base bv -> Prepared g i base g1 -> Sh g1.
  Proof.
    intros I S Hi0 Hi Hd HB HP. destruct base as [b|]; [|cbn in HP; now subst]. destruct HP as (m & R).
    destruct HB as [(_ & HB & _)|(path & b' & nb & Hp & HB & Hbe & Hb & Hl & _)]; [discriminate|]. injection HB as <-.
    assert (Hder := base_edge _ _ _ Hbe). destruct (derived_edge ps NDC nobody g KS b i n path I Hi0 Hi Hd Hp Hder) as (nb' & Hb' & _ & _ & Hb0 & Hcl & Hdv & _).
    assert (I0 : Iv ps nobody (remove_edge g b i) KS) by (exact (iv_remove ps nobody g KS b i nb n I Hb Hi Hcl)). assert (Hcl0 : ~ Desc (remove_edge g b i) b i) by (intros K; exact (Hcl (desc_remove _ _ _ _ _ K))).
    apply (sh_rep ps NDC (remove_edge g b i) KS b i nb n g1 m); auto. apply (sh_same _ _ S); auto.
    intros x. apply ckids_remove. intros t Ht. rewrite (same_level_edges ps nobody g KS b i nb n t I Hb Hi Hcl Ht). reflexivity.
  Qed.
  Lemma sh_update g KS i n base bv v (tmpl : bool) ws g' : Iv ps nobody g KS -> Sh g -> i <> 0%nat -> get_node g i = Some n -> n_done n = false -> unlinked g i ->
    BaseOf g i n base bv -> update_node g i base v tmpl = (ws, Ok g') -> Sh g' /\ Solo g' i.
  Proof.
    intros I S Hi0 Hi Hd Hno HB H. destruct (update_node_spec _ _ _ _ _ _ _ _ (proj1 I) Hi H) as (g1 & HP & Hnp & Wf' & Hs & He & _). cbn zeta in *.
    assert (S1 := sh_prepared _ _ _ _ _ _ _ I S Hi0 Hi Hd HB HP). destruct (iv_prepared ps NDC _ _ _ _ _ _ _ I Hi0 Hi Hd Hno HB HP) as (KS1 & I1 & _ & _ & Hi1 & _).
    match type of He with _ = set_resolved _ _ ?x => set (cs := x) in * end.
    assert (Hcs : forall c, In c cs -> In c (ckids (g_edges g1) i)).
    { intros c Hc. apply element_childrens_In in Hc as (t & K1 & K2 & _). apply ckids_In. exists t. split; [|exact K2]. unfold set_node in K1. cbn in K1. exact K1. }
    destruct (set_resolved_facts i cs (g_edges g1)) as (C1 & _); [intros c t Hc Hin; exact (child_edges ps NDC (only i) g1 KS1 i n c t I1 Hi1 (Hcs _ Hc) Hin)|]. rewrite <- He in C1.
    split.
    - apply (sh_same _ _ S1); [exact C1| |].
      + intros x Hx. apply is_elem_node in Hx as [nx Hx]. apply is_elem_node. apply get_node_slot in Hx. rewrite Hs in Hx. destruct (Nat.eqb_spec i x) as [<-|]; [eauto|]. exists nx. now apply get_node_slot.
      + intros x nx Hx Hdx. rewrite <- Hx. apply get_node_same. rewrite Hs. destruct (Nat.eqb_spec i x) as [<-|]; [congruence|reflexivity].
    - intros c p H1 H2. unfold Kid in H1, H2. rewrite C1 in H1, H2. exact (undone_solo g1 i n S1 Hi1 Hd c p H1 H2).
  Qed.
  Lemma sh_instances gu g' i n n' (xs : list inst) vs tv : WF gu -> EInv gu -> Sh gu -> Solo gu i -> get_node gu i = Some n' -> n_level n' = n_level n -> n_level n <> LEnum -> n_tmpl n' = true -> n_done n' = true -> n_parsed n' = n_parsed n -> n_processed n' = Some tv ->
    has_placeholder (parsed_name (n_parsed n)) -> (forall v, In v vs -> processed_size v = processed_size tv) ->
    map (fun x => (i_par x, i_val x)) xs = list_prod (get_element_parents gu i) vs -> NoDup (map i_idx xs) ->
    (forall x, In x xs -> get_slot gu (i_idx x) = None /\ get_slot g' (i_idx x) = Some (NElem (inst_node n (i_val x)))) ->
    (forall j, ~ In j (map i_idx xs) -> get_slot g' j = get_slot gu j) ->
    g_edges g' = rev (map (fun jc => (fst jc, snd jc, CHILD_RESOLVED)) (list_prod (map i_idx xs) (get_element_childrens gu i))) ++ rev (map (fun x => (i_par x, i_idx x, CHILD_RESOLVED)) xs) ++ g_edges gu ->
    Sh g'.
  Proof.
    intros Wf E S Hsolo Hi Hlv Hle Htm Hdn Hpa Htv Hph Hsz Hxs Hnd Hx Ho He.
    assert (Hpar : forall x, In x xs -> Kid gu (i_par x) i /\ In (i_val x) vs).
    { intros x K. apply (in_map (fun x => (i_par x, i_val x))) in K. rewrite Hxs in K. apply in_prod_iff in K as [K1 K2]. split; [|exact K2]. now apply (parents_ckids _ _ _ E). }
    assert (Hkid : forall a b, Kid g' a b <-> In a (map i_idx xs) /\ Kid gu i b \/ (exists x, In x xs /\ a = i_par x /\ b = i_idx x) \/ Kid gu a b).
    { intros a b. unfold Kid. rewrite !ckids_In. rewrite He. setoid_rewrite in_app_iff. setoid_rewrite in_app_iff. split.
      - intros (t & [K|[K|K]] & Ht).
        + left. apply in_rev, in_map_iff in K as ([j c] & K & K2). cbn in K. injection K as -> -> _. apply in_prod_iff in K2 as [K2 K3]. split; [exact K2|]. rewrite (children_ckids _ _ E) in K3. now apply ckids_In in K3.
        + right. left. apply in_rev, in_map_iff in K as (x & K & K2). injection K as <- <- _. eauto.
        + right. right. eauto.
      - intros [[K1 K2]|[(x & K & -> & ->)|(t & K & Ht)]].
        + exists CHILD_RESOLVED. split; [|reflexivity]. left. apply in_rev. rewrite rev_involutive. apply in_map_iff. exists (a, b). split; [reflexivity|]. apply in_prod; [exact K1|]. rewrite (children_ckids _ _ E). now apply ckids_In.
        + exists CHILD_RESOLVED. split; [|reflexivity]. right. left. apply in_rev. rewrite rev_involutive. apply in_map_iff. eauto.
        + exists t. auto. }
    assert (Hfr : forall j, In j (map i_idx xs) -> get_slot gu j = None) by (intros j K; apply in_map_iff in K as (x & <- & K); now apply Hx).
    assert (Hks : forall a b, Kid gu a b -> ~ In a (map i_idx xs) /\ ~ In b (map i_idx xs)).
    { intros a b K. apply ckids_In in K as (t & K & _). destruct (wf_edge _ Wf _ _ _ K) as [K1 K2]. split; intros K3; apply Hfr in K3; contradiction. }
    assert (Hmono : forall a b, Kid gu a b -> Kid g' a b) by (intros a b K; apply Hkid; auto).
    assert (Hold : forall x nx, get_node gu x = Some nx -> get_node g' x = Some nx).
    { intros x nx K. rewrite <- K. apply get_node_same, Ho. intros K2. apply Hfr in K2. apply get_node_slot in K. congruence. }
    assert (Hii : ~ In i (map i_idx xs)) by (intros K; apply Hfr in K; apply get_node_slot in Hi; congruence).
    assert (Hpj : forall x a, In x xs -> Kid g' a (i_idx x) -> a = i_par x).
    { intros x a K1 K2. assert (Kin := in_map i_idx _ _ K1). apply Hkid in K2 as [[_ K2]|[(y & K3 & -> & K4)|K2]]; [destruct (Hks _ _ K2); contradiction| |destruct (Hks _ _ K2); contradiction].
      f_equal. clear - Hnd K1 K3 K4. induction xs as [|z zs IH]; [destruct K1|]. cbn in Hnd. inversion Hnd as [|? ? L1 L2]; subst. destruct K1 as [->|K1], K3 as [->|K3]; auto.
      - destruct L1. rewrite K4. now apply in_map.
      - destruct L1. rewrite <- K4. now apply in_map. }
    assert (Hpi : forall a, Kid g' a i -> Kid gu a i).
    { intros a K. apply Hkid in K as [[_ K]|[(x & K & _ & K2)|K]]; [|destruct Hii; rewrite K2; now apply in_map|exact K]. exfalso.
      apply ckids_In in K as (t & K & Ht). apply (wf_acyclic _ Wf i i); [exists t; exact K|apply rt_refl]. }
    assert (Hnode : forall p (c : nat), In p (map i_idx xs) \/ p = i -> exists np, get_node g' p = Some np /\ n_done np = true /\ n_level np = n_level n /\ nsize np = processed_size tv /\ Multi np /\ (forall x, Kid g' x p -> Kid g' x i)).
    { intros p c0 [K| ->].
      - apply in_map_iff in K as (x & <- & K). destruct (Hx _ K) as [_ K2]. exists (inst_node n (i_val x)). split; [now apply get_node_slot|]. split; [reflexivity|]. split; [reflexivity|]. split; [cbn; apply Hsz, Hpar, K|]. split; [exact Hph|].
        intros a Ka. apply (Hpj _ _ K) in Ka. subst a. apply Hmono, Hpar, K.
      - exists n'. split; [now apply Hold|]. split; [exact Hdn|]. split; [exact Hlv|]. split; [unfold nsize; now rewrite Htv|]. split; [unfold Multi; now rewrite Hpa|auto]. }
    constructor.
    - intros x K. destruct (in_dec Nat.eq_dec x (map i_idx xs)) as [Kin|Kin].
      + apply in_map_iff in Kin as (y & <- & Ky). destruct (Hpar _ Ky) as [Kp _]. apply rt_trans with (y := i_par y).
        * eapply rooted_mono; [exact Hmono|]. apply (sh_root _ S). apply ckids_In in Kp as (t & Kp & Kt). apply (w_child _ E _ _ _ Kp Kt).
        * apply rt_step. apply Hkid. right. left. exists y. auto.
      + eapply rooted_mono; [exact Hmono|]. apply (sh_root _ S). unfold is_elem in *. rewrite <- K. symmetry. f_equal. now rewrite (get_node_same _ _ _ (Ho _ Kin)).
    - intros c p q Kp Kq Hne.
      destruct (in_dec Nat.eq_dec c (map i_idx xs)) as [Kin|Kin]. { apply in_map_iff in Kin as (y & <- & Ky). apply (Hpj _ _ Ky) in Kp, Kq. congruence. }
      assert (Hcase : forall a, Kid g' a c -> In a (map i_idx xs) /\ Kid gu i c \/ Kid gu a c).
      { intros a K. apply Hkid in K as [K|[(x & K & _ & ->)|K]]; auto. destruct Kin. now apply in_map. }
      assert (Hmk : forall p q, In p (map i_idx xs) \/ p = i -> In q (map i_idx xs) \/ q = i -> Co g' p q).
      { intros a b Ka Kb. destruct (Hnode a 0%nat Ka) as (na & A1 & A2 & A3 & A4 & A5 & A6). destruct (Hnode b 0%nat Kb) as (nb & B1 & B2 & B3 & B4 & B5 & B6). exists na, nb, i.
        split; [exact A1|]. split; [exact B1|]. split; [exact A2|]. split; [exact B2|]. split; [congruence|]. split; [congruence|]. auto. }
      destruct (Hcase _ Kp) as [[P1 P2]|P], (Hcase _ Kq) as [[Q1 Q2]|Q].
      + apply Hmk; auto.
      + apply Hmk; [auto|]. right. exact (Hsolo c q P2 Q).
      + apply Hmk; [|auto]. right. exact (Hsolo c p Q2 P).
      + destruct (sh_co _ S _ _ _ P Q Hne) as (np & nq & t & H1 & H2 & H3 & H4 & H5 & H6 & H7 & H8 & H9 & H10). exists np, nq, t. split; [auto|]. split; [auto|]. split; [exact H3|]. split; [exact H4|]. split; [exact H5|]. split; [exact H6|]. split; [exact H7|]. split; [exact H8|].
        assert (Hup : forall y, ~ In y (map i_idx xs) -> (forall x, Kid gu x y -> Kid gu x t) -> forall x, Kid g' x y -> Kid g' x t).
        { intros y Ky Kt x K. apply Hkid in K as [[K1 K2]|[(z & K1 & _ & ->)|K]]; [apply Hkid; auto|destruct Ky; now apply in_map|auto]. }
        split; apply Hup; auto; [exact (proj1 (Hks _ _ P))|exact (proj1 (Hks _ _ Q))].
    - intros c p q d Kp Kq Kd. destruct (Nat.eq_dec p q) as [<-|Hne]; [now left|].
      destruct (in_dec Nat.eq_dec c (map i_idx xs)) as [Kin|Kin]. { apply in_map_iff in Kin as (y & <- & Ky). apply (Hpj _ _ Ky) in Kp, Kq. congruence. }
      assert (Hcase : forall a, Kid g' a c -> In a (map i_idx xs) /\ Kid gu i c \/ Kid gu a c).
      { intros a K. apply Hkid in K as [K|[(x & K & _ & ->)|K]]; auto. destruct Kin. now apply in_map. }
      assert (Hik : forall a y, In a (map i_idx xs) \/ a = i -> Kid g' a y -> Kid gu i y).
      { intros a y Ka K. apply Hkid in K as [[_ K]|[(x & K & -> & ->)|K]]; [exact K| |destruct Ka as [Ka| ->]; [destruct (Hks _ _ K); contradiction|exact K]].
        exfalso. destruct (Hpar _ K) as [K2 _]. destruct Ka as [Ka|Ka]; [destruct (Hks _ _ K2); contradiction|]. rewrite Ka in K2. apply ckids_In in K2 as (t & K2 & _). apply (wf_acyclic _ Wf i i); [exists t; exact K2|apply rt_refl]. }
      assert (Hki : forall a y, In a (map i_idx xs) \/ a = i -> Kid gu i y -> Kid g' a y) by (intros a y [Ka| ->] K; apply Hkid; auto).
      assert (Hmk : In p (map i_idx xs) \/ p = i -> In q (map i_idx xs) \/ q = i -> Kid g' q d) by (intros Kp' Kq'; exact (Hki q d Kq' (Hik p d Kp' Kd))).
      destruct (Hcase _ Kp) as [[P1 P2]|P], (Hcase _ Kq) as [[Q1 Q2]|Q].
      + left. apply Hmk; auto.
      + left. apply Hmk; [auto|]. right. exact (Hsolo c q P2 Q).
      + left. apply Hmk; [|auto]. right. exact (Hsolo c p Q2 P).
      + assert (Hnp : ~ In p (map i_idx xs)) by exact (proj1 (Hks _ _ P)).
        assert (Hleaf : forall x nx, get_node gu x = Some nx -> (forall k, ~ Kid gu x k) -> forall k, ~ Kid g' x k).
        { intros x nx Hx' Hno k Hk. apply Hkid in Hk as [[Hk _]|[(y & Hy & -> & _)|Hk]]; [apply Hfr in Hk; apply get_node_slot in Hx'; congruence|exact (Hno _ (proj1 (Hpar _ Hy)))|exact (Hno _ Hk)]. }
        apply Hkid in Kd as [[Kd _]|[(x & Hxi & -> & ->)|Kd]]; [contradiction| |].
        * right. destruct (Hpar _ Hxi) as [Kpi Hvv]. assert (Kqi : Kid gu q i). { destruct (sh_tw _ S _ _ _ _ P Q Kpi) as [K|(e & _ & nd & ne & H1 & _ & _ & _ & H5 & _)]; [exact K|]. rewrite Hi in H1. injection H1 as <-. congruence. }
          assert (Hy : exists y, In y xs /\ i_par y = q /\ i_val y = i_val x).
          { assert (K : In (q, i_val x) (map (fun x => (i_par x, i_val x)) xs)) by (rewrite Hxs; apply in_prod; [now apply (parents_ckids _ _ _ E)|exact Hvv]). apply in_map_iff in K as (y & K1 & K2). injection K1 as K3 K4. eauto. }
          destruct Hy as (y & Hyi & Hyp & Hyv). exists (i_idx y). split; [apply Hkid; right; left; exists y; auto|].
          exists (inst_node n (i_val x)), (inst_node n (i_val y)). split; [apply get_node_slot, Hx, Hxi|]. split; [apply get_node_slot, Hx, Hyi|]. rewrite Hyv.
          split; [reflexivity|]. split; [reflexivity|]. split; [reflexivity|]. split; [reflexivity|]. split; [split; [reflexivity|exact Hle]|]. split; [reflexivity|].
          assert (Hxm : In (i_idx x) (map i_idx xs)) by (now apply in_map). assert (Hym : In (i_idx y) (map i_idx xs)) by (now apply in_map).
          destruct (ckids (g_edges gu) i) as [|k ks] eqn:Ek.
          -- right. split; intros k Hk; apply Hik in Hk; auto; unfold Kid in Hk; rewrite Ek in Hk; destruct Hk.
          -- left. exists k. assert (Kk : Kid gu i k) by (unfold Kid; rewrite Ek; now left). split; apply Hki; auto.
        * destruct (sh_tw _ S _ _ _ _ P Q Kd) as [K|(e & K & nd & ne & H1 & H2 & H3 & H4 & H5 & H6 & H7 & H8 & H9)]; [left; auto|right]. exists e. split; [auto|].
          exists nd, ne. split; [auto|]. split; [auto|]. split; [exact H3|]. split; [exact H4|]. split; [exact H5|]. split; [exact H6|]. split; [exact H7|]. split; [exact H8|].
          destruct H9 as [(k & H9 & H10)|[H9 H10]]; [left; exists k; split; now apply Hmono|right; split; [exact (Hleaf d nd H1 H9)|exact (Hleaf e ne H2 H10)]].
  Qed.
  Theorem sh_process g KS i ws g' : Iv ps nobody g KS -> Elabs ps g KS i -> Sh g -> i <> 0%nat -> undone_at g i -> unlinked g i -> process_node g i = (ws, Ok g') -> Sh g'.
  Proof.
    intros I HEl S Hi0 (n & Hi & Hd) Hno H. destruct (process_node_inv _ _ _ _ H) as (n0 & base & bv & Hi2 & Hpd & HB & Hor). rewrite Hi in Hi2. injection Hi2 as <-.
    destruct Hor as [(e & He & w & H1)|(Hev & w & H1)].
    - destruct (iv_evc ps NDC _ _ _ _ _ _ _ _ _ I Hi0 Hi Hd Hno He HB H1) as (K1 & _ & K2 & K3 & _). apply (sh_same _ _ S); [exact K3| |].
      + intros x Hx. destruct (Nat.eq_dec x i) as [->|Hne]; [apply is_elem_node; eauto|]. unfold is_elem in *. now rewrite <- K2.
      + intros x m Hx Hdx. rewrite K2; [exact Hx|]. intros ->. congruence.
    - destruct (process_dimable_inv _ _ _ _ _ _ _ H1) as (w0 & isd & names & displays & w' & v & vs & Hdim & Hcr & w'' & Hup).
      destruct (base_value ps NDC _ _ _ _ _ _ I Hi0 Hi Hd Hev HB) as (Hk & _). assert (HDes := created_described _ _ _ _ _ _ _ _ _ Hk Hdim Hcr). assert (HF := created_facts _ _ _ _ _ _ _ _ _ Hk Hdim Hcr).
      destruct (v_node _ _ _ _ (proj1 (proj2 I)) _ _ Hi0 Hi) as (Elv & _).
      destruct (HF v (or_introl eq_refl)) as [Bv Kv]. destruct isd.
      + destruct (update_dim_node_spec _ _ _ _ _ _ _ _ (proj1 I) Hi Hup) as (gu & xs & (wu & Hu) & Wf' & Hkeep & _ & Hxs & Hnd & Hx & Ho & He).
        destruct (with_name_facts (parsed_name (n_parsed n)) v (n_parsed n) bv 0) as (N1 & _ & _ & _ & _ & N2 & N3 & _).
        set (tv := with_name (parsed_name (n_parsed n)) v) in *. assert (A1 : true = false -> map without_dim (v :: vs) = [tv]) by discriminate. assert (A2 : kind_level tv = n_level n) by congruence.
        destruct (iv_update_node ps NDC g KS i n base bv tv true wu gu (map without_dim (v :: vs)) I HEl Hi0 Hi Hd Hno Hev Hpd HB HDes A1 N1 (N2 Bv) A2 Hu)
          as (g1 & KS1 & n' & cs & I1 & Ek0 & Iu & Hst & Hi1 & Hno1 & L1 & L2 & L3 & L4 & L5 & L6 & L7 & L8 & L9 & _).
        destruct (sh_update _ _ _ _ _ _ _ _ _ _ I S Hi0 Hi Hd Hno HB Hu) as [Su So]. destruct (described_many _ _ _ _ HDes) as [M1 M2].
        apply (sh_instances gu g' i n n' xs (map without_dim (v :: vs)) tv); auto; [apply Iu|apply Iu| |].
        * apply get_node_slot. now rewrite L7, Nat.eqb_refl.
        * intros K. rewrite K in Elv. destruct (n_parsed n) as [|?|[?|? ?]|?|e] eqn:Epe; try discriminate. exact (Hev e eq_refl).
      + exact (proj1 (sh_update _ _ _ _ _ _ _ _ _ _ I S Hi0 Hi Hd Hno HB Hup)).
  Qed.

End Mark.
Section Run.
  Context (ps0 : list svd_periph) (NDC : forall a e, MayBeBase ps0 a -> level_of a = LCluster -> Inside a e -> ~ derived_cluster e).
  Local Notation ps := (loose ps0).
  Lemma sh_fold l : forall g KS ws g', Iv ps nobody g KS -> Sh g -> NoDup l -> ~ In 0%nat l -> (forall i, In i l -> undone_at g i /\ unlinked g i) -> foldM process_node g l = (ws, Ok g') ->
    exists KS', Iv ps nobody g' KS' /\ Sh g' /\ KS' 0%nat = KS 0%nat.
  Proof.
    induction l as [|i l IH]; intros g KS ws g' I S Hnd H0 Hl H; cbn in H; [injection H as _ <-; eauto|].
    apply bind_ok in H as (w1 & g1 & w2 & H1 & H & _). inversion Hnd as [|? ? Hni Hnd']; subst. destruct (Hl i (or_introl eq_refl)) as [Hu Hun].
    assert (Hi0 : i <> 0%nat) by (intros ->; apply H0; now left).
    destruct (weak_process ps0 NDC g KS i w1 g1 I Hi0 Hu Hun H1) as (KS1 & I1 & E1 & Hst). assert (S1 := sh_process ps NDC _ _ _ _ _ I (weak_elabs ps0 NDC g KS i I Hi0 Hu) S Hi0 Hu Hun H1).
    destruct (IH g1 KS1 w2 g' I1 S1 Hnd') as (KS' & I' & S' & E'); auto.
    - intros K. apply H0. now right.
    - intros j Hj. destruct (Hl j (or_intror Hj)). apply Hst; auto. intros ->. contradiction.
    - exists KS'. split; [exact I'|]. split; [exact S'|congruence].
  Qed.
  Lemma sh_rounds fuel : forall g KS prev ws g', Iv ps nobody g KS -> Sh g -> rounds fuel g prev = (ws, Ok g') -> exists KS', Iv ps nobody g' KS' /\ Sh g' /\ KS' 0%nat = KS 0%nat.
  Proof.
    induction fuel as [|fuel IH]; intros g KS prev ws g' I S H; cbn [rounds] in H; [minv|]. apply bind_ok in H as (w1 & g1 & w2 & H1 & H & _).
    assert (I1 : Iv ps nobody g1 KS) by (eapply iv_resolve_phs; [exact I|exact H1]).
    assert (S1 : Sh g1).
    { clear - I S H1. unfold resolve_placeholders in H1. revert H1. generalize (g_phs g). intros l. revert g w1 I S. induction l as [|h l IH]; intros g w1 I S H; cbn in H; [apply ret_ok in H as [<- _]; exact S|].
      apply bind_ok in H as (w2 & g2 & w3 & H2 & H & _). eapply IH; [| |exact H]; [eapply iv_resolve_ph; eassumption|]. eapply sh_resolve_ph; [apply I|exact S|exact H2]. }
    destruct (topological_sorted g1 (find_processable g1)) as [|x l] eqn:Et; [apply ret_ok in H as [<- _]; eauto|]. rewrite <- Et in *.
    apply bind_ok in H as (w3 & u & w4 & _ & H & _). apply bind_ok in H as (w5 & g2 & w6 & H2 & H & _).
    destruct (topological_sorted_spec g1 (find_processable g1) (proj1 I1)) as (Hnd & _ & Hin).
    destruct (sh_fold _ g1 KS w5 g2 I1 S1 Hnd) with (3 := H2) as (KS2 & I2 & S2 & E2).
    - intros K. apply Hin in K as [_ K]. unfold unprocessed in K. rewrite (v_root _ _ _ _ (proj1 (proj2 I1))) in K. discriminate.
    - intros i K. apply Hin in K as [K1 K2]. split.
      + unfold unprocessed in K2. destruct (get_node g1 i) as [n|] eqn:En; [|discriminate]. exists n. split; [exact En|]. now destruct (n_done n).
      + unfold find_processable in K1. apply filter_In in K1 as [_ K1]. intros a Ha. unfold has_incoming in K1. apply negb_true_iff in K1.
        assert (K : existsb (fun e => etype_eqb (e_typ e) PLACEHOLDER) (in_edges g1 i) = true); [|congruence]. apply existsb_exists. exists (a, i, PLACEHOLDER). split; [|reflexivity].
        unfold in_edges. apply filter_In. split; [exact Ha|]. cbn. apply Nat.eqb_refl.
    - destruct (IH _ _ _ _ _ I2 S2 H) as (KS' & I' & S' & E'). exists KS'. split; [exact I'|]. split; [exact S'|congruence].
  Qed.
  Lemma sh_final fuel w0 g0 ws g : initialization ps0 = (w0, Ok g0) -> rounds fuel g0 [] = (ws, Ok g) -> exists KS, Iv ps nobody g KS /\ Sh g /\ KS 0%nat = map PaPer ps0.
  Proof.
    intros H0 H. assert (S := tr_initialization _ _ _ H0). destruct (st_initialization ps _ _ H0) as (KS & (Wf & V & E & _) & E0). cbn [sy_ps loose] in E0. destruct (sh_rounds fuel g0 KS [] ws g) as (KS' & I & S' & E'); [split; auto|exact S|exact H|]. exists KS'. split; [exact I|]. split; [exact S'|congruence].
  Qed.
End Run.
