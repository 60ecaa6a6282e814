(** * LinkFacts: building trees of objects (for C63) *)
From Coq Require Import Permutation.
From Verif Require Import Base PyStr PyInt Types FinalModel ConvertModel LinkModel SpecLink.
Local Open Scope nat_scope.

Section Orphans.
Variable orphan : thing -> bool.
Definition par (i : nat) (x : tree) : option nat := if orphan (root x) then None else Some i.
Definition nopar (x : tree) : option nat := None.

(** the objects of a tree fill the range from [lo] to its root, in the order in which they have been made *)
Inductive Tree (h : store) : nat -> option nat -> nat -> tree -> Prop :=
| tree_intro lo p i t l l' : nth_error h i = Some (mk_obj t p (map fst l)) -> Permutation l l' -> Chain h lo i (par i) l' -> Tree h lo p i (Node t (map snd l))
with Chain (h : store) : nat -> nat -> (tree -> option nat) -> list (nat * tree) -> Prop :=
| chain_nil lo q : Chain h lo lo q []
| chain_cons lo hi q c x l : Tree h lo (q x) c x -> Chain h (S c) hi q l -> Chain h lo hi q ((c, x) :: l).
Scheme Tree_mut := Induction for Tree Sort Prop with Chain_mut := Induction for Chain Sort Prop.
Combined Scheme Tree_Chain_ind from Tree_mut, Chain_mut.

Lemma bounds h : (forall lo p i x, Tree h lo p i x -> lo <= i) /\
  (forall lo hi q l, Chain h lo hi q l -> lo <= hi /\ Forall (fun cx => lo <= fst cx < hi) l).
Proof.
  apply Tree_Chain_ind.
  - intros lo p i t l l' _ _ _ [H _]. exact H.
  - intros lo q. split; [lia|constructor].
  - intros lo hi q c x l _ H1 _ [H2 H3]. split; [lia|]. constructor; [cbn; lia|]. eapply Forall_impl; [|exact H3]. cbn. intros a Ha. lia.
Qed.
Lemma frame h h' : (forall lo p i x, Tree h lo p i x -> (forall j, lo <= j <= i -> nth_error h' j = nth_error h j) -> Tree h' lo p i x) /\
  (forall lo hi q l, Chain h lo hi q l -> (forall j, lo <= j < hi -> nth_error h' j = nth_error h j) -> Chain h' lo hi q l).
Proof.
  apply Tree_Chain_ind.
  - intros lo p i t l l' Hn HP HC IH HE. assert (B := proj2 (bounds h) _ _ _ _ HC). destruct B as [B _].
    apply tree_intro with (l' := l'); [rewrite HE by lia; exact Hn|exact HP|]. apply IH. intros j Hj. apply HE. lia.
  - intros lo q _. constructor.
  - intros lo hi q c x l HT IHT HC IHC HE. assert (B1 := proj1 (bounds h) _ _ _ _ HT). assert (B2 := proj1 (proj2 (bounds h) _ _ _ _ HC)).
    constructor; [apply IHT; intros j Hj; apply HE; lia|apply IHC; intros j Hj; apply HE; lia].
Qed.
Lemma chain_app h lo m hi q l1 l2 : Chain h lo m q l1 -> Chain h m hi q l2 -> Chain h lo hi q (l1 ++ l2).
Proof. induction 1 as [|lo hi' q c x l HT HC IH]; intros H2; cbn [app]; [exact H2|]. constructor; auto. Qed.
Lemma chain_nodup h lo hi q l : Chain h lo hi q l -> NoDup (map fst l).
Proof.
  induction 1 as [|lo hi q c x l HT HC IH]; cbn [map fst]; constructor; [|exact IH]. intros Hin.
  apply in_map_iff in Hin as (cx & <- & Hin). destruct (proj2 (bounds h) _ _ _ _ HC) as [_ HF]. rewrite Forall_forall in HF. specialize (HF _ Hin). lia.
Qed.
Lemma all_stand_iff h i l : AllStand orphan h i (map fst l) (map snd l) <-> forall c x, In (c, x) l -> Stands orphan h (par i x) c x.
Proof.
  induction l as [|[c x] l IH]; cbn [map fst snd].
  - split; [intros _ c x []|constructor].
  - split.
    + intros HA. inversion HA as [|? ? ? ? ? HS HA']; subst. intros c' x' [[= <- <-]|Hin]; [exact HS|now apply IH].
    + intros HA. constructor; [apply HA; now left|]. apply IH. intros c' x' Hin. apply HA. now right.
Qed.
Lemma tree_stands h : (forall lo p i x, Tree h lo p i x -> Stands orphan h p i x) /\
  (forall lo hi q l, Chain h lo hi q l -> forall c x, In (c, x) l -> Stands orphan h (q x) c x).
Proof.
  apply Tree_Chain_ind.
  - intros lo p i t l l' Hn HP HC IH. apply stands with (cs := map fst l); [exact Hn| |].
    + eapply Permutation_NoDup; [apply Permutation_map, Permutation_sym, HP|]. eapply chain_nodup; eassumption.
    + apply all_stand_iff. intros c x Hin. apply IH. eapply Permutation_in; eassumption.
  - intros lo q c x [].
  - intros lo hi q c x l HT IHT HC IHC c' x' [[= <- <-]|Hin]; [exact IHT|now apply IHC].
Qed.

(** ** Assignments *)
Definition setp (p : nat) (o : obj) : obj := mk_obj (o_thing o) (Some p) (o_parts o).
Lemma upd_nth p : forall h c j, nth_error (upd c p h) j = if Nat.eqb j c then option_map (setp p) (nth_error h j) else nth_error h j.
Proof.
  induction h as [|o h IH]; intros [|c] [|j]; cbn [upd nth_error Nat.eqb option_map]; try reflexivity.
  - now destruct (Nat.eqb j c).
  - apply IH.
Qed.
Lemma upd_length p : forall h c, length (upd c p h) = length h.
Proof. induction h as [|o h IH]; intros [|c]; cbn; auto. Qed.
Definition adopted (p : nat) (cs : list nat) (h : store) : store := fold_left (fun h c => upd c p h) cs h.
Lemma adopt_eq p cs : forall h, adopt p cs h = (adopted p cs h, tt).
Proof. induction cs as [|c cs IH]; intros h; cbn [adopt adopted fold_left]; [reflexivity|apply IH]. Qed.
Lemma adopted_app p a b h : adopted p b (adopted p a h) = adopted p (a ++ b) h.
Proof. unfold adopted. now rewrite fold_left_app. Qed.
Lemma adopted_length p cs : forall h, length (adopted p cs h) = length h.
Proof. induction cs as [|c cs IH]; intros h; cbn [adopted fold_left]; [reflexivity|]. unfold adopted in IH. rewrite IH. apply upd_length. Qed.
Lemma adopted_nth p cs : forall h j, nth_error (adopted p cs h) j = if in_dec Nat.eq_dec j cs then option_map (setp p) (nth_error h j) else nth_error h j.
Proof.
  induction cs as [|c cs IH]; intros h j; [reflexivity|]. cbn [adopted fold_left]. unfold adopted in IH. rewrite IH, upd_nth.
  destruct (in_dec Nat.eq_dec j cs) as [Hi|Hn], (in_dec Nat.eq_dec j (c :: cs)) as [Hi'|Hn']; destruct (Nat.eqb_spec j c) as [->|Hne].
  all: try (exfalso; cbn in *; intuition congruence). all: try reflexivity.
  destruct (nth_error h c); reflexivity.
Qed.
Lemma adopt_chain h h' p cs : forall lo hi l, Chain h lo hi nopar l ->
  (forall j, lo <= j < hi -> nth_error h' j = if in_dec Nat.eq_dec j cs then option_map (setp p) (nth_error h j) else nth_error h j) ->
  (forall j, lo <= j < hi -> In j cs -> In j (map fst l)) ->
  (forall c x, In (c, x) l -> (In c cs <-> orphan (root x) = false)) ->
  Chain h' lo hi (par p) l.
Proof.
  intros lo hi l HC. remember nopar as q eqn:Hq. induction HC as [lo q|lo hi q c x l HT HC IH]; intros HE HI HO; [constructor|]. subst q.
  assert (B1 := proj1 (bounds h) _ _ _ _ HT). destruct (proj2 (bounds h) _ _ _ _ HC) as [B2 B3]. rewrite Forall_forall in B3.
  assert (Hlt : forall j, lo <= j < c -> ~ In j cs).
  { intros j Hj Hin. apply HI in Hin; [|lia]. destruct Hin as [Hin|Hin]; [cbn in Hin; lia|]. apply in_map_iff in Hin as (cx & <- & Hin). specialize (B3 _ Hin). lia. }
  constructor.
  - specialize (HO c x (or_introl eq_refl)). assert (Hc := HE c ltac:(lia)). inversion HT as [lo' p' i t m m' Hn HP HC']; subst. rewrite Hn in Hc.
    apply tree_intro with (l' := m'); [|exact HP|].
    + rewrite Hc. unfold par. destruct (in_dec Nat.eq_dec c cs) as [Hi|Hi].
      * apply HO in Hi. now rewrite Hi.
      * destruct (orphan (root (Node t (map snd m)))) eqn:Ho; [reflexivity|]. exfalso. now apply Hi, HO.
    + apply (proj2 (frame h h') _ _ _ _ HC'). intros j Hj. rewrite HE by lia. destruct (in_dec Nat.eq_dec j cs) as [Hi|Hi]; [exfalso; now apply (Hlt j)|reflexivity].
  - apply IH; [reflexivity| | |].
    + intros j Hj. apply HE. lia.
    + intros j Hj Hin. apply HI in Hin; [|lia]. destruct Hin as [Hin|Hin]; [cbn in Hin; lia|exact Hin].
    + intros c' x' Hin. apply HO. now right.
Qed.

(** ** Building *)
Definition Ext (n : nat) (h h' : store) : Prop := forall j, j < n -> nth_error h' j = nth_error h j.
Definition Builds (m : H nat) (x : tree) : Prop :=
  forall h, exists h' i, m h = (h', i) /\ S i = length h' /\ Ext (length h) h h' /\ Tree h' (length h) None i x.
Definition BuildsAll (m : H (list nat)) (xs : list tree) : Prop :=
  forall h, exists h' cs, m h = (h', cs) /\ length cs = length xs /\ length h <= length h' /\ Ext (length h) h h' /\
    Chain h' (length h) (length h') nopar (combine cs xs).
Lemma hbind_eq {A B} (m : H A) (f : A -> H B) h h' a : m h = (h', a) -> hbind m f h = f a h'.
Proof. unfold hbind. now intros ->. Qed.
Lemma builds_each {A} (f : A -> H nat) (g : A -> tree) l : (forall a, In a l -> Builds (f a) (g a)) -> BuildsAll (each f l) (map g l).
Proof.
  induction l as [|a l IH]; intros HB h; [|change (each f (a :: l)) with (i <~ f a ;; is <~ each f l ;; hret (i :: is))]; cbn [map].
  1: change (each f []) with (@hret (list nat) []).
  - exists h, []. split; [reflexivity|]. split; [reflexivity|]. split; [lia|]. split; [now intros j _|constructor].
  - destruct (HB a (or_introl eq_refl) h) as (h1 & i & E1 & L1 & X1 & T1). rewrite (hbind_eq _ _ _ _ _ E1).
    destruct (IH (fun b Hb => HB b (or_intror Hb)) h1) as (h2 & cs & E2 & LC & L2 & X2 & C2). rewrite (hbind_eq _ _ _ _ _ E2).
    assert (B1 := proj1 (bounds h1) _ _ _ _ T1). exists h2, (i :: cs). split; [reflexivity|]. split; [cbn; lia|]. split; [lia|]. split.
    + intros j Hj. rewrite X2 by lia. now apply X1.
    + cbn [combine]. constructor; [|rewrite L1; exact C2]. apply (proj1 (frame h1 h2) _ _ _ _ T1). intros j Hj. apply X2. lia.
Qed.
Lemma builds_maybe {A} (f : A -> H nat) (g : A -> tree) o : (forall a, o = Some a -> Builds (f a) (g a)) -> BuildsAll (maybe f o) (of_option g o).
Proof.
  destruct o as [a|]; intros HB h; cbn [maybe of_option].
  - destruct (HB a eq_refl h) as (h1 & i & E1 & L1 & X1 & T1). rewrite (hbind_eq _ _ _ _ _ E1). exists h1, [i].
    assert (B1 := proj1 (bounds h1) _ _ _ _ T1). split; [reflexivity|]. split; [reflexivity|]. split; [lia|]. split; [exact X1|].
    cbn [combine]. constructor; [exact T1|]. rewrite L1. constructor.
  - exists h, []. split; [reflexivity|]. split; [reflexivity|]. split; [lia|]. split; [now intros j _|constructor].
Qed.
(** [l]: what has been built so far since [lo] *)
Definition So (lo : nat) (h0 h : store) (l : list (nat * tree)) : Prop := lo = length h0 /\ Ext lo h0 h /\ Chain h lo (length h) nopar l.
Lemma so_start h : So (length h) h h [].
Proof. split; [reflexivity|]. split; [now intros j _|constructor]. Qed.
Lemma so_step lo h0 h l m xs : So lo h0 h l -> BuildsAll m xs ->
  exists h' cs, m h = (h', cs) /\ length cs = length xs /\ So lo h0 h' (l ++ combine cs xs).
Proof.
  intros (HL & HX & HC) HB. destruct (HB h) as (h' & cs & E & LC & L & X & C). exists h', cs. split; [exact E|]. split; [exact LC|].
  destruct (proj2 (bounds h) _ _ _ _ HC) as [Hle _]. split; [exact HL|]. split.
  - intros j Hj. rewrite X by lia. now apply HX.
  - eapply chain_app; [|exact C]. apply (proj2 (frame h h') _ _ _ _ HC). intros j Hj. apply X. lia.
Qed.
(** the object that holds what has been built: [l] in the order of the class, [l'] in the order of construction; [ts] are assigned a parent *)
Lemma so_own lo h0 h l l' t parts ts : So lo h0 h l' -> Permutation l l' -> parts = map fst l ->
  (forall j, In j ts -> In j (map fst l)) -> (forall c x, In (c, x) l -> (In c ts <-> orphan (root x) = false)) ->
  exists h', new t parts h = (h ++ [mk_obj t None parts], length h) /\ adopted (length h) ts (h ++ [mk_obj t None parts]) = h' /\
    S (length h) = length h' /\ Ext lo h0 h' /\ Tree h' lo None (length h) (Node t (map snd l)).
Proof.
  intros (HL & HX & HC) HP -> HI HO. destruct (proj2 (bounds h) _ _ _ _ HC) as [Hle HF]. rewrite Forall_forall in HF.
  assert (Hin : forall j, In j (map fst l) <-> In j (map fst l')).
  { intros j. split; apply Permutation_in; [apply Permutation_map, HP|apply Permutation_map, Permutation_sym, HP]. }
  assert (Hrange : forall j, In j ts -> lo <= j < length h).
  { intros j Hj. apply HI, Hin, in_map_iff in Hj as (cx & <- & Hcx). now apply HF. }
  set (h1 := h ++ [mk_obj t None (map fst l)]). eexists. split; [reflexivity|]. split; [reflexivity|].
  assert (H1 : forall j, j < length h -> nth_error h1 j = nth_error h j) by (intros j Hj; unfold h1; now apply nth_error_app1).
  split; [rewrite adopted_length; unfold h1; rewrite app_length; cbn; lia|]. split.
  - intros j Hj. rewrite adopted_nth. destruct (in_dec Nat.eq_dec j ts) as [Hi|Hi]; [apply Hrange in Hi; lia|]. rewrite H1 by lia. now apply HX.
  - apply tree_intro with (l' := l'); [|exact HP|].
    + rewrite adopted_nth. destruct (in_dec Nat.eq_dec (length h) ts) as [Hi|Hi]; [apply Hrange in Hi; lia|]. unfold h1.
      rewrite nth_error_app2 by lia. now rewrite Nat.sub_diag.
    + eapply adopt_chain with (h := h) (cs := ts); [exact HC| | |].
      * intros j Hj. rewrite adopted_nth, H1 by lia. reflexivity.
      * intros j _ Hj. apply Hin. now apply HI.
      * intros c x Hcx. apply HO. eapply Permutation_in; [apply Permutation_sym, HP|exact Hcx].
Qed.
End Orphans.
Lemma fst_combine {A B} (a : list A) (b : list B) : length a = length b -> map fst (combine a b) = a.
Proof. revert b. induction a as [|x a IH]; intros [|y b]; cbn; try discriminate; [reflexivity|]. intros [= Hl]. now rewrite IH. Qed.
Lemma snd_combine {A B} (a : list A) (b : list B) : length a = length b -> map snd (combine a b) = b.
Proof. revert b. induction a as [|x a IH]; intros [|y b]; cbn; try discriminate; [reflexivity|]. intros [= Hl]. now rewrite IH. Qed.
