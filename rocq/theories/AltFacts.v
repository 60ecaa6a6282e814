(** * AltFacts: the search for permitted alternates (process.py:750-772, 932-982). *)
From Verif Require Import Base PyStr Types FinalModel SpecDevice.
From Coq Require Import ZifyBool ZifyNat ZifyN.

Lemma opt_eqb_spec (o : option string) s : option_eqb String.eqb o (Some s) = true <-> o = Some s.
Proof.
  destruct o as [t|]; cbn; [|split; discriminate]. rewrite String.eqb_eq. split; congruence.
Qed.

Lemma lookup_in {A} k (l : list (string * A)) a : lookup k l = Some a -> In (k, a) l.
Proof.
  unfold lookup. destruct (find _ l) as [[k' a']|] eqn:E; [|discriminate]. cbn. intros H; injection H as <-.
  apply find_some in E as [Hin He]. apply String.eqb_eq in He. cbn in He. now subst.
Qed.
Lemma lookup_none {A} k (l : list (string * A)) : lookup k l = None -> ~ In k (map fst l).
Proof.
  unfold lookup. destruct (find _ l) as [[k' a']|] eqn:E; [discriminate|]. intros _ Hin.
  apply in_map_iff in Hin as ([k' a] & <- & Hin). apply (find_none _ _ E) in Hin. cbn in Hin. now rewrite String.eqb_refl in Hin.
Qed.
Lemma lookup_nodup {A} k a (l : list (string * A)) : NoDup (map fst l) -> In (k, a) l -> lookup k l = Some a.
Proof.
  unfold lookup. induction l as [|[k' a'] l IH]; cbn [map fst]; intros Hn Hin; [destruct Hin|].
  inversion Hn as [|? ? Hk Hl]; subst. cbn [find fst]. destruct (String.eqb_spec k' k) as [->|Hne].
  - destruct Hin as [H|Hin]; [injection H as ->; reflexivity|]. exfalso. apply Hk. apply in_map_iff. exists (k, a). auto.
  - destruct Hin as [H|Hin]; [congruence|]. auto.
Qed.

Section Alt.
  Variable alts : list (string * option string).
  Variable strict : bool.
  Variable start : string.

  Definition children (x : string) : list string :=
    map fst (filter (fun p => option_eqb String.eqb (snd p) (Some x)) alts).
  Lemma children_in x y : In y (children x) <-> In (y, Some x) alts.
  Proof.
    unfold children. rewrite in_map_iff. split.
    - intros ([k o] & <- & H). apply filter_In in H as [H1 H2]. apply opt_eqb_spec in H2. cbn in *. now subst.
    - intros H. exists (y, Some x). split; [reflexivity|]. apply filter_In. split; auto. now apply opt_eqb_spec.
  Qed.

  (** potential: entries not yet consumed as key, plus entries not yet consumed as child *)
  Definition pot (allowed : list string) : nat :=
    length (filter (fun p => negb (mem_str (fst p) allowed)) alts) +
    length (filter (fun p => match snd p with Some a => negb (mem_str a allowed) | None => false end) alts).

  Lemma filter_le {A} (p q : A -> bool) l : (forall x, p x = true -> q x = true) -> (length (filter p l) <= length (filter q l))%nat.
  Proof.
    intros H. induction l as [|x l IH]; cbn [filter]; [lia|]. specialize (H x). destruct (p x) eqn:Ep.
    - rewrite H by auto. cbn [length]. lia.
    - destruct (q x); cbn [length]; lia.
  Qed.

  Lemma mem_cons x y l : mem_str x (y :: l) = String.eqb y x || mem_str x l.
  Proof. unfold mem_str. cbn [existsb]. now rewrite String.eqb_sym. Qed.

  Lemma pot_children x allowed : mem_str x allowed = false ->
    (length (filter (fun p => match snd p with Some a => negb (mem_str a (x :: allowed)) | None => false end) alts) + length (children x) =
     length (filter (fun p => match snd p with Some a => negb (mem_str a allowed) | None => false end) alts))%nat.
  Proof.
    intros Hx. unfold children. rewrite map_length. induction alts as [|[k o] l IH]; cbn [filter snd]; [reflexivity|].
    destruct o as [a|]; cbn [option_eqb]; [|exact IH]. rewrite mem_cons, (String.eqb_sym x a).
    destruct (String.eqb_spec a x) as [->|Hne]; cbn [orb negb].
    - rewrite Hx. cbn [negb length]. lia.
    - destruct (mem_str a allowed); cbn [negb length]; lia.
  Qed.
  Lemma pot_key x allowed o : mem_str x allowed = false -> lookup x alts = Some o ->
    (length (filter (fun p => negb (mem_str (fst p) (x :: allowed))) alts) <
     length (filter (fun p => negb (mem_str (fst p) allowed)) alts))%nat.
  Proof.
    intros Hx Hl. apply lookup_in in Hl. revert Hl. induction alts as [|[k a] l IH]; intros Hin; [destruct Hin|].
    cbn [filter fst]. rewrite mem_cons. destruct Hin as [H|Hin].
    - injection H as -> ->. rewrite String.eqb_refl, Hx. cbn [orb negb length].
      apply le_n_S, filter_le. intros [k' a']; cbn [fst]. rewrite mem_cons. destruct (String.eqb x k'); cbn; congruence.
    - specialize (IH Hin). destruct (String.eqb_spec x k) as [->|Hne]; cbn [orb negb].
      + rewrite Hx. cbn [negb length]. lia.
      + destruct (mem_str k allowed); cbn [negb length]; lia.
  Qed.
  Lemma pot_key_le x allowed : 
    (length (filter (fun p => negb (mem_str (fst p) (x :: allowed))) alts) <=
     length (filter (fun p => negb (mem_str (fst p) allowed)) alts))%nat.
  Proof.
    apply filter_le. intros [k' a']; cbn [fst]. rewrite mem_cons. destruct (String.eqb x k'); cbn; congruence.
  Qed.

  Hypothesis keys : NoDup (map fst alts).

  Record Inv (stack allowed : list string) : Prop := {
    i_sound : forall x, In x stack \/ In x allowed -> Family alts start x;
    i_start : In start stack \/ In start allowed;
    i_up : forall x y, In x allowed -> In (x, Some y) alts -> In y stack \/ In y allowed;
    i_down : forall x y, In x allowed -> In (y, Some x) alts -> In y stack \/ In y allowed;
    i_keys : strict = true -> forall x, In x allowed -> In x (map fst alts) }.

  Lemma loop_spec fuel : forall stack allowed, (length stack + pot allowed <= fuel)%nat -> Inv stack allowed ->
    (exists r, alternates_loop fuel strict alts stack allowed = ([], Ok r) /\ (forall x, In x r <-> Family alts start x) /\
       (strict = true -> forall x, In x r -> In x (map fst alts))) \/
    (strict = true /\ exists x, Family alts start x /\ ~ In x (map fst alts) /\
       alternates_loop fuel strict alts stack allowed = ([], Err (E KeyError x))).
  Proof.
    induction fuel as [|fuel IH]; intros stack allowed Hf HI.
    - destruct stack as [|x stack]; [|cbn [length] in Hf; lia]. left. exists allowed.
      split; [reflexivity|]. destruct HI as [H1 H2 H3 H4 H5]. split; [|exact H5]. intros x. split; [intros; apply H1; auto|].
      induction 1 as [|x y _ IHx Hin|x y _ IHx Hin]; [destruct H2 as [[]|]; auto| |].
      + destruct (H3 _ _ IHx Hin) as [[]|]; auto.
      + destruct (H4 _ _ IHx Hin) as [[]|]; auto.
    - destruct stack as [|x stack].
      { left. exists allowed. split; [reflexivity|]. destruct HI as [H1 H2 H3 H4 H5]. split; [|exact H5].
        intros x. split; [intros; apply H1; auto|].
        induction 1 as [|x y _ IHx Hin|x y _ IHx Hin]; [destruct H2 as [[]|]; auto| |].
        + destruct (H3 _ _ IHx Hin) as [[]|]; auto.
        + destruct (H4 _ _ IHx Hin) as [[]|]; auto. }
      cbn [alternates_loop]. fold (children x). destruct (mem_str x allowed) eqn:Hm.
      + apply mem_str_In in Hm. apply IH; [cbn [length] in Hf; lia|]. destruct HI as [H1 H2 H3 H4 H5]. constructor; auto.
        * intros y [Hy|Hy]; apply H1; simpl; auto.
        * destruct H2 as [[<-|]|]; auto.
        * intros y z Hy Hz. destruct (H3 _ _ Hy Hz) as [[<-|]|]; auto.
        * intros y z Hy Hz. destruct (H4 _ _ Hy Hz) as [[<-|]|]; auto.
      + assert (Hfx : Family alts start x) by (apply (i_sound _ _ HI); simpl; auto).
        assert (Hpc := pot_children x allowed Hm). assert (Hpk := pot_key_le x allowed).
        destruct (lookup x alts) as [primary|] eqn:Hl.
        * assert (Hpk' := pot_key x allowed primary Hm Hl). apply IH.
          { unfold pot in *. cbn [length] in Hf. destruct primary; cbn [length]; rewrite app_length, rev_length; lia. }
          apply lookup_in in Hl. destruct HI as [H1 H2 H3 H4 H5].
          assert (Hst : forall y, In y (match primary with Some p => p :: rev (children x) ++ stack | None => rev (children x) ++ stack end) <->
                        (primary = Some y \/ In y (children x) \/ In y stack)).
          { intros y. destruct primary as [p|]; cbn [In]; rewrite in_app_iff, <- in_rev; split; intuition congruence. }
          constructor.
          -- intros y [Hy|[<-|Hy]]; [|exact Hfx|apply H1; auto]. apply Hst in Hy as [->|[Hy|Hy]].
             ++ eapply Fam_up; eauto.
             ++ apply children_in in Hy. eapply Fam_down; eauto.
             ++ apply H1; simpl; auto.
          -- rewrite Hst. destruct H2 as [[<-|]|]; simpl; auto.
          -- intros y z [<-|Hy] Hz; rewrite Hst.
             ++ left. left. apply (lookup_nodup _ _ _ keys) in Hz. apply (lookup_nodup _ _ _ keys) in Hl. congruence.
             ++ destruct (H3 _ _ Hy Hz) as [[<-|]|]; simpl; auto.
          -- intros y z [<-|Hy] Hz; rewrite Hst.
             ++ left. right. left. now apply children_in.
             ++ destruct (H4 _ _ Hy Hz) as [[<-|]|]; simpl; auto.
          -- intros Hs y [<-|Hy]; auto. apply in_map_iff. exists (x, primary). auto.
        * destruct strict eqn:Es.
          { right. split; [reflexivity|]. exists x. split; [exact Hfx|]. split; [now apply lookup_none|reflexivity]. }
          apply IH.
          { unfold pot in *. cbn [length] in Hf. rewrite app_length, rev_length; lia. }
          destruct HI as [H1 H2 H3 H4 H5].
          assert (Hst : forall y, In y (rev (children x) ++ stack) <-> (In y (children x) \/ In y stack)).
          { intros y. now rewrite in_app_iff, <- in_rev. }
          constructor.
          -- intros y [Hy|[<-|Hy]]; [|exact Hfx|apply H1; auto]. apply Hst in Hy as [Hy|Hy].
             ++ apply children_in in Hy. eapply Fam_down; eauto.
             ++ apply H1; simpl; auto.
          -- rewrite Hst. destruct H2 as [[<-|]|]; simpl; auto.
          -- intros y z [<-|Hy] Hz; rewrite Hst.
             ++ exfalso. apply (lookup_none _ _ Hl). apply in_map_iff. exists (x, Some z). auto.
             ++ destruct (H3 _ _ Hy Hz) as [[<-|]|]; simpl; auto.
          -- intros y z [<-|Hy] Hz; rewrite Hst.
             ++ left. left. now apply children_in.
             ++ destruct (H4 _ _ Hy Hz) as [[<-|]|]; simpl; auto.
          -- congruence.
  Qed.

  Lemma filter_len {A} (p : A -> bool) l : (length (filter p l) <= length l)%nat.
  Proof. induction l as [|x l IH]; cbn [filter]; [lia|]. destruct (p x); cbn [length]; lia. Qed.

  Lemma compute_allowed_spec :
    (exists r, compute_allowed strict alts (Some start) = ([], Ok r) /\ (forall x, In x r <-> Family alts start x) /\
       (strict = true -> forall x, In x r -> In x (map fst alts))) \/
    (strict = true /\ exists x, Family alts start x /\ ~ In x (map fst alts) /\
       compute_allowed strict alts (Some start) = ([], Err (E KeyError x))).
  Proof.
    apply loop_spec.
    - unfold pot, alternates_fuel. pose proof (filter_len (fun p => negb (mem_str (fst p) [])) alts).
      pose proof (filter_len (fun p => match snd p with Some a => negb (mem_str a []) | None => false end) alts).
      cbn [length]. nia.
    - constructor; try (intros; now left); try (intros; contradiction).
      + intros x [[<-|[]]|[]]. constructor.
      + left. now left.
  Qed.
End Alt.

(** outcome without an alternate declaration *)
Lemma compute_allowed_none strict alts : compute_allowed strict alts None = ret [].
Proof. reflexivity. Qed.

Lemma compute_allowed_ok strict alts st ws r : NoDup (map fst alts) -> compute_allowed strict alts st = (ws, Ok r) ->
  ws = [] /\ match st with None => r = [] | Some s => r <> [] /\ forall x, In x r <-> Family alts s x end.
Proof.
  intros Hn H. destruct st as [s|]; [|cbn [compute_allowed] in H; apply ret_ok in H as [<- ->]; auto].
  destruct (compute_allowed_spec alts strict s Hn) as [(r' & E & Hr & _)|(_ & x & _ & _ & E)]; rewrite H in E; [|discriminate].
  injection E as -> ->. split; [reflexivity|]. split; [|exact Hr]. intros ->. apply (Hr s). constructor.
Qed.
Lemma compute_allowed_err strict alts st ws e : NoDup (map fst alts) -> compute_allowed strict alts st = (ws, Err e) ->
  strict = true /\ ex_class e = KeyError /\ exists s x, st = Some s /\ Family alts s x /\ ~ In x (map fst alts).
Proof.
  intros Hn H. destruct st as [s|]; [|cbn [compute_allowed] in H; apply ret_err in H as []].
  destruct (compute_allowed_spec alts strict s Hn) as [(r' & E & Hr & _)|(Hs & x & Hx & Hnx & E)]; rewrite H in E; [discriminate|].
  injection E as -> ->. split; [exact Hs|]. split; [reflexivity|]. eauto.
Qed.
