(** * SchemaMono: the restrictions of the schema are restrictions (for C57, C58) *)
From Verif Require Import Base PyStr PyInt Types ParseModel SpecText SpecParse SpecSchema TextFacts SchemaFacts SchemaText.

Definition WiderType (ty ty' : string) : Prop := ty = ty' \/ (ty = "stringType" /\ ty' = "xs:string").
Inductive Wider : particle -> particle -> Prop :=
| wd_el n ty ty' : WiderType ty ty' -> Wider (El n ty) (El n ty')
| wd_opt n ty : Wider (El n ty) (Occurs (El n ty) 0 (Some 1%nat))
| wd_seq l l' : Forall2 Wider l l' -> Wider (Seq l) (Seq l')
| wd_alt l l' : Forall2 Wider l l' -> Wider (Alt l) (Alt l')
| wd_occ p p' a b : Wider p p' -> Wider (Occurs p a b) (Occurs p' a b)
| wd_any : Wider AnyElements AnyElements.
Definition Widens (r r' : scope) : Prop :=
  (forall ty ty' s, WiderType ty ty' -> InSimple r ty s -> InSimple r' ty' s) /\
  (forall ty ct, complex_type r ty = Some ct -> ty <> "stringType" /\
     exists ct', complex_type r' ty = Some ct' /\ ct_attrs ct' = ct_attrs ct /\ Wider (ct_content ct) (ct_content ct')).

Lemma attrs_wider r r' decl a : (forall ty s, InSimple r ty s -> InSimple r' ty s) -> AttrsValid r decl a -> AttrsValid r' decl a.
Proof.
  intros H (H1 & H2 & H3). split; [exact H1|]. split; [|exact H3]. intros n v Hi. destruct (H2 n v Hi) as (ty & req & Hd & Hs). eauto 6.
Qed.
Theorem valid_wider r r' : Widens r r' -> forall ty e, Valid r ty e -> forall ty', WiderType ty ty' -> Valid r' ty' e.
Proof.
  intros [HS HC].
  apply (valid_mind r (fun ty e => forall ty', WiderType ty ty' -> Valid r' ty' e) (fun p l => forall p', Wider p p' -> Children_match r' p' l)).
  - intros ty n t Hs ty' Hw. apply valid_simple. eauto.
  - intros ty ct n a t ks Hc Ha Ht _ IH ty' Hw. destruct (HC ty ct Hc) as (Hn & ct' & Hc' & Ea & Hp).
    destruct Hw as [<-|[-> _]]; [|congruence]. eapply valid_complex; [exact Hc'| |exact Ht|now apply IH].
    rewrite Ea. eapply attrs_wider; [|exact Ha]. intros ty' s. apply HS. now left.
  - intros n ty e Hn Hv IH p' Hw. inversion Hw; subst.
    + constructor; auto.
    + change [e] with ([e] ++ []). apply cm_again; [discriminate| |constructor]. constructor; [exact Hn|]. apply IH. now left.
  - intros p' Hw. inversion Hw as [| |l l' Hf|l l' Hf|q q' a b Hq|]; subst. inversion Hf. constructor.
  - intros p ps l1 l2 _ IH1 _ IH2 p' Hw. inversion Hw as [| |l l' Hf|l l' Hf|q q' a b Hq|]; subst. inversion Hf as [|x y lx ly Hxy Hr]; subst.
    constructor; [now apply IH1|apply IH2; now constructor].
  - intros p ps l Hin _ IH p' Hw. inversion Hw as [| |lx l' Hf|lx l' Hf|q q' a b Hq|]; subst.
    assert (Hq : exists q, In q l' /\ Wider p q).
    { clear -Hin Hf. induction Hf as [|x y lx ly Hxy Hr IH]; [destruct Hin|]. destruct Hin as [->|Hin]; [exists y; split; [now left|exact Hxy]|].
      destruct (IH Hin) as (q & Hq & Hw). exists q. split; [now right|exact Hw]. }
    destruct Hq as (q & Hq & Hwq). eapply cm_alt; [exact Hq|now apply IH].
  - intros p max p' Hw. inversion Hw as [| |lx l' Hf|lx l' Hf|q q' a b Hq|]; subst. constructor.
  - intros p min max l1 l2 Hm _ IH1 _ IH2 p' Hw. inversion Hw as [| |lx l' Hf|lx l' Hf|q q' a b Hq|]; subst.
    apply cm_again; [exact Hm|now apply IH1|]. apply IH2. now constructor.
  - intros l p' Hw. inversion Hw; subst. constructor.
Qed.

(** ** Simple types *)
Lemma many_mono a b s : (forall t, Matches a t -> Matches b t) -> Matches (Many a) s -> Matches (Many b) s.
Proof.
  intros H Hm. remember (Many a) as p eqn:E. induction Hm; try discriminate; [constructor|]. injection E as ->. constructor; [now apply H|now apply IHHm2].
Qed.
Lemma cat_mono a b c d s : (forall t, Matches a t -> Matches c t) -> (forall t, Matches b t -> Matches d t) -> Matches (Cat a b) s -> Matches (Cat c d) s.
Proof. intros H1 H2 H. apply cat_inv in H as (u & v & -> & Hu & Hv). constructor; auto. Qed.
Lemma plus_mono a b s : (forall t, Matches a t -> Matches b t) -> Matches (Plus a) s -> Matches (Plus b) s.
Proof. intros H. apply cat_mono; [exact H|intros t; now apply many_mono]. Qed.
Lemma class_mono l l' s : (forall c, existsb (in_range c) l = true -> existsb (in_range c) l' = true) -> Matches (Class l) s -> Matches (Class l') s.
Proof.
  intros H Hm. inversion Hm as [k c a b Hi Hr| | | | | |]; subst.
  assert (Hc : existsb (in_range c) l' = true).
  { apply H. apply existsb_exists. exists (a, b). split; [exact Hi|]. unfold in_range. cbn. apply andb_true_iff. split; apply N.leb_le; lia. }
  apply existsb_exists in Hc as ([x y] & Hi' & Hc). unfold in_range in Hc. cbn in Hc. apply andb_true_iff in Hc as [H1 H2].
  eapply m_class; [exact Hi'|]. split; now apply N.leb_le.
Qed.
Lemma plain_scaled s : Matches plain_number s -> Matches scaled s.
Proof.
  assert (Hd : forall t, Matches digit t -> Matches hexdigit t).
  { intros t. apply class_mono. intros c. cbn [existsb]. destruct (in_range c ("0"%char, "9"%char)); [reflexivity|discriminate]. }
  assert (Hb : forall t, Matches bindigit t -> Matches hexdigit t).
  { intros t. apply class_mono. intros c. destruct c as [[|] [|] [|] [|] [|] [|] [|] [|]]; vm_compute; congruence. }
  assert (Hfix : forall q u, Matches (Maybe (Words "0x" ["0X"; "#"])) q -> Matches (Plus hexdigit) u ->
            forall w, Matches (Maybe (one "+")) w -> Matches scaled (w ++ q ++ u)).
  { intros q u Hq Hu w Hw. unfold scaled. cbn [Cats]. apply m_cat; [exact Hw|]. apply m_cat; [exact Hq|].
    rewrite <- (sapp_nil_r u). apply m_cat; [exact Hu|]. apply m_left. constructor. }
  unfold plain_number. intros H. apply cat_inv in H as (w & v & -> & Hw & H). cbn [Ors] in H. apply or_inv in H as [H|H].
  - change v with ("" ++ v)%string. apply Hfix; [apply m_left; constructor| |exact Hw]. exact (plus_mono _ _ _ Hd H).
  - apply or_inv in H as [H|H].
    + apply cat_inv in H as (q & u & -> & Hq & Hu). apply Hfix; [| |exact Hw].
      * apply m_right. cbn in Hq |- *. apply or_inv in Hq as [Hq|Hq]; [now apply m_left|apply m_right; now apply m_left].
      * exact Hu.
    + apply cat_inv in H as (q & u & -> & Hq & Hu). apply Hfix; [| |exact Hw].
      * apply m_right. cbn in Hq |- *. apply m_right, m_right. exact Hq.
      * exact (plus_mono _ _ _ Hb Hu).
Qed.
Lemma nonblank_any s : Matches nonblank s -> Matches (Plus anychar) s.
Proof.
  intros H. assert (Hn : s <> "").
  { intros ->. apply (nullable_complete _ _) in H; [discriminate|reflexivity]. }
  destruct s as [|c s]; [congruence|]. change (String c s) with (String c "" ++ s)%string.
  assert (Ha : forall d, Matches anychar (String d "")).
  { intros d. eapply m_class; [now left|]. destruct d as [[|] [|] [|] [|] [|] [|] [|] [|]]; vm_compute; split; discriminate. }
  apply m_cat; [apply Ha|]. clear. induction s as [|d s IH]; [constructor|]. change (String d s) with (String d "" ++ s)%string. constructor; [|exact IH].
  eapply m_class; [now left|]. destruct d as [[|] [|] [|] [|] [|] [|] [|] [|]]; vm_compute; split; discriminate.
Qed.
Lemma any_many s : Matches (Many anychar) s.
Proof.
  induction s as [|d s IH]; [constructor|]. change (String d s) with (String d "" ++ s)%string. constructor; [|exact IH].
  eapply m_class; [now left|]. destruct d as [[|] [|] [|] [|] [|] [|] [|] [|]]; vm_compute; split; discriminate.
Qed.
Lemma simple_readable ty s : InSimple Readable ty s -> InSimple Full ty s.
Proof.
  unfold InSimple, simple_type. destruct (String.eqb_spec ty "scaledNonNegativeInteger") as [->|_]; [apply plain_scaled|].
  destruct (String.eqb_spec ty "identifierType") as [->|_].
  - intros H. change (Matches (Many word_) s). apply cat_inv in H as (u & v & -> & Hu & Hv). now constructor.
  - destruct (String.eqb ty "stringType"); destruct (packaged ty) as [[[|] p]|]; auto; intros [H _]; (split; [exact H|congruence]).
Qed.
Lemma simple_rewritable ty s : InSimple Rewritable ty s -> InSimple Readable ty s.
Proof.
  unfold InSimple, simple_type. destruct (String.eqb ty "scaledNonNegativeInteger"); [auto|]. destruct (String.eqb ty "identifierType"); [auto|].
  destruct (String.eqb_spec ty "stringType") as [->|_].
  - apply nonblank_any.
  - destruct (packaged ty) as [[[|] p]|]; auto. intros [H1 H2]. split; [exact H1|]. intros _. apply H2. discriminate.
Qed.

(** ** Complex types *)
Ltac wide := repeat first [apply wd_seq | apply wd_alt | apply wd_occ | apply wd_any | apply wd_opt | apply wd_el; (now left) || (right; split; reflexivity) | constructor].
Lemma widens r r' : (r = Readable /\ r' = Full) \/ (r = Rewritable /\ r' = Readable) -> Widens r r'.
Proof.
  intros Hr. split.
  - intros ty ty' s Hw H. destruct Hr as [[-> ->]|[-> ->]]; destruct Hw as [<-|[-> ->]].
    + now apply simple_readable.
    + change (Matches (Many anychar) s). apply any_many.
    + now apply simple_rewritable.
    + change (Matches (Many anychar) s). apply any_many.
  - intros ty ct Hc. split; [intros ->; destruct Hr as [[-> ->]|[-> ->]]; discriminate|].
    unfold complex_type in *.
    repeat match type of Hc with
    | context [String.eqb ty ?n] => destruct (String.eqb ty n);
        [injection Hc as <-; eexists; (split; [reflexivity|]); (split; [reflexivity|]); cbn [ct_content app];
         destruct Hr as [[-> ->]|[-> ->]]; wide|]
    end. discriminate.
Qed.
Theorem doc_readable doc : ValidDoc Readable doc -> ValidDoc Full doc.
Proof.
  intros (a & t & ks & H1 & H2 & H3). exists a, t, ks. split; [exact H1|]. split; [exact H2|].
  eapply valid_wider; [apply widens; now left|exact H3|now left].
Qed.
Theorem doc_rewritable doc : ValidDoc Rewritable doc -> ValidDoc Readable doc.
Proof.
  intros (a & t & ks & H1 & H2 & H3). exists a, t, ks. split; [exact H1|]. split; [exact H2|].
  eapply valid_wider; [apply widens; now right|exact H3|now left].
Qed.
