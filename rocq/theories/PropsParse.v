(** * PropsParse: C28, the parser reads exactly what SpecParse says. *)
From Verif Require Import Base PyStr PyInt Types ParseModel SerializeModel SpecText TextFacts SpecParse PropsText EffectFacts.

Definition gives {A} (m : M A) (a : A) : Prop := exists ws, m = (ws, Ok a).
Lemma gives_ret {A} (a b : A) : gives (ret a) b <-> a = b.
Proof. split; [intros [ws H]; injection H; auto|intros ->; now exists []]. Qed.
Lemma gives_bind {A B} (m : M A) (f : A -> M B) b : gives (bind m f) b <-> exists a, gives m a /\ gives (f a) b.
Proof.
  split.
  - intros [ws H]. apply bind_ok in H as (w1 & a & w2 & H1 & H2 & ->). exists a. split; [now exists w1|now exists w2].
  - intros (a & [w1 H1] & [w2 H2]). exists (w1 ++ w2). eapply bind_ok_intro; eauto.
Qed.
Lemma gives_bind_intro {A B} (m : M A) (f : A -> M B) a b : gives m a -> gives (f a) b -> gives (bind m f) b.
Proof. intros. apply gives_bind. eauto. Qed.
Lemma gives_raise {A} c s (a : A) : ~ gives (raise c s) a.
Proof. intros [ws H]; discriminate. Qed.
Lemma gives_fun {A} (m : M A) a b : gives m a -> gives m b -> a = b.
Proof. intros [w H] [w' H']. congruence. Qed.

(** ** Choosing children *)
Lemma has_tag_iff n e : has_tag n e = true <-> Named n e.
Proof.
  unfold Named. destruct e as [t a x ks|]; cbn [has_tag]; [|split; [discriminate|intros (? & ? & ? & ?); discriminate]].
  split; [intros H; apply String.eqb_eq in H; subst; eauto|intros (? & ? & ? & H); injection H; intros; subst; apply String.eqb_refl].
Qed.
Lemma has_tag_not n e : has_tag n e = false <-> ~ Named n e.
Proof. rewrite <- has_tag_iff. destruct (has_tag n e); split; congruence. Qed.
Lemma all_named_filter n l : AllNamed n l (filter (has_tag n) l).
Proof.
  induction l as [|e l IH]; cbn [filter]; [constructor|]. destruct (has_tag n e) eqn:H.
  - apply all_take; [now apply has_tag_iff|auto].
  - apply all_skip; [now apply has_tag_not|auto].
Qed.
Lemma all_named_iff n l r : AllNamed n l r <-> r = filter (has_tag n) l.
Proof.
  split; [|intros ->; apply all_named_filter].
  induction 1 as [|e l r H _ IH|e l r H _ IH]; cbn [filter]; [reflexivity| |].
  - apply has_tag_iff in H. now rewrite H, IH.
  - apply has_tag_not in H. now rewrite H.
Qed.
Lemma none_named_iff n l : NoneNamed n l <-> filter (has_tag n) l = [].
Proof.
  unfold NoneNamed. induction l as [|e l IH]; cbn [filter]; [split; auto|]. destruct (has_tag n e) eqn:H.
  - split; [|discriminate]. intros Hn. exfalso. apply (Hn e); [left; auto|now apply has_tag_iff].
  - rewrite <- IH. split; [intros Hn y Hy; apply Hn; right; auto|]. intros Hn y [<-|Hy]; [now apply has_tag_not|auto].
Qed.
Lemma last_opt_none {A} (l : list A) : last_opt l = None <-> l = [].
Proof. induction l as [|a [|b l] IH]; cbn; [tauto|split; discriminate|]. split; [|discriminate]. intros H. apply IH in H. discriminate. Qed.
Lemma last_opt_snoc {A} (l : list A) a : last_opt (l ++ [a]) = Some a.
Proof. induction l as [|b l IH]; cbn; [reflexivity|]. destruct (l ++ [a]) eqn:E; [now apply app_eq_nil in E as [_ ?]|]. exact IH. Qed.
Lemma filter_nil_iff {A} (f : A -> bool) l : filter f l = [] <-> forall x, In x l -> f x = false.
Proof.
  induction l as [|a l IH]; cbn [filter]; [split; [intros _ x []|auto]|]. destruct (f a) eqn:H.
  - split; [discriminate|]. intros Hx. rewrite (Hx a) in H; [discriminate|left; auto].
  - rewrite IH. split; [intros Hx x [<-|Hi]; auto|intros Hx x Hi; apply Hx; right; auto].
Qed.
Lemma last_named_iff n l e : LastNamed n l e <-> last_opt (filter (has_tag n) l) = Some e.
Proof.
  split.
  - intros (l1 & l2 & -> & Hn & H2). rewrite filter_app. cbn [filter]. apply has_tag_iff in Hn. rewrite Hn.
    apply none_named_iff in H2. rewrite H2. apply last_opt_snoc.
  - induction l as [|x l IH]; cbn [filter]; [discriminate|]. destruct (has_tag n x) eqn:H.
    + intros He. destruct (filter (has_tag n) l) as [|y ys] eqn:Hf.
      * cbn in He. injection He as ->. exists [], l. split; [reflexivity|]. split; [now apply has_tag_iff|now apply none_named_iff].
      * destruct (IH He) as (l1 & l2 & -> & H1 & H2). exists (x :: l1), l2. auto.
    + intros He. destruct (IH He) as (l1 & l2 & -> & H1 & H2). exists (x :: l1), l2. auto.
Qed.
Lemma first_named_iff n l e : FirstNamed n l e <-> hd_error (filter (has_tag n) l) = Some e.
Proof.
  split.
  - intros (l1 & l2 & -> & Hn & H2). rewrite filter_app. apply none_named_iff in H2. rewrite H2. cbn [filter app].
    apply has_tag_iff in Hn. now rewrite Hn.
  - induction l as [|x l IH]; cbn [filter]; [discriminate|]. destruct (has_tag n x) eqn:H.
    + intros He. cbn in He. injection He as ->. exists [], l. split; [reflexivity|]. split; [now apply has_tag_iff|intros y []].
    + intros He. destruct (IH He) as (l1 & l2 & -> & H1 & H2). exists (x :: l1), l2. repeat split; auto.
      intros y [<-|Hy]; [now apply has_tag_not|auto].
Qed.

(** ** Stripping *)
Lemma space_iff c : is_space c = true <-> Space c.
Proof.
  unfold is_space, Space, in_code_range, code. rewrite orb_true_iff, !andb_true_iff, !N.leb_le. reflexivity.
Qed.
Lemma sforallb_iff p s : sforallb p s = true <-> forall c, In c (list_ascii_of_string s) -> p c = true.
Proof.
  induction s as [|a s IH]; cbn; [split; [intros _ c []|auto]|]. rewrite andb_true_iff, IH.
  split; [intros [H1 H2] c [<-|H]; auto|intros H; split; auto].
Qed.
Lemma rstrip_app_blank p t w : sforallb p w = true -> rstrip_by p (t ++ w) = rstrip_by p t.
Proof. intros H. induction t as [|c t IH]; cbn [append rstrip_by]; [now apply rstrip_blank|]. now rewrite IH. Qed.
Lemma rstrip_fix p t : (forall c r, t = (r ++ String c "")%string -> p c = false) -> rstrip_by p t = t.
Proof.
  induction t as [|c t IH]; intros H; cbn [rstrip_by]; [reflexivity|].
  destruct t as [|c' t].
  - cbn. now rewrite (H c "" eq_refl).
  - rewrite IH; [reflexivity|]. intros a r E. apply (H a (String c r)). cbn [append]. now rewrite E.
Qed.
Lemma rstrip_last p t c r : rstrip_by p t = (r ++ String c "")%string -> p c = false.
Proof.
  revert r. induction t as [|a t IH]; intros r; cbn [rstrip_by]; [destruct r; discriminate|].
  destruct (rstrip_by p t) as [|b u] eqn:E.
  - destruct (p a) eqn:Ha; [destruct r; discriminate|]. destruct r as [|x r]; cbn [append]; [intros H; injection H as <-; auto|].
    destruct r; discriminate.
  - destruct r as [|x r]; cbn [append]; [discriminate|]. intros H. injection H as _ H. now apply (IH r).
Qed.
Lemma lstrip_first p t c r : lstrip_by p t = String c r -> p c = false.
Proof. induction t as [|a t IH]; cbn [lstrip_by]; [discriminate|]. destruct (p a) eqn:Ha; [exact IH|]. intros H; injection H as <- _; auto. Qed.
Lemma rstrip_first p t c r : rstrip_by p t = String c r -> exists r', t = String c r'.
Proof.
  destruct t as [|a t]; cbn [rstrip_by]; [discriminate|]. destruct (rstrip_by p t); [destruct (p a); [discriminate|]|]; intros H; injection H as <- _; eauto.
Qed.
Lemma stripped_iff s t : Stripped s t <-> t = strip s.
Proof.
  unfold strip, strip_by. split.
  - intros (w1 & w2 & -> & H1 & H2 & H3 & H4).
    assert (B1 : sforallb is_space w1 = true) by (apply sforallb_iff; intros; apply space_iff; auto).
    assert (B2 : sforallb is_space w2 = true) by (apply sforallb_iff; intros; apply space_iff; auto).
    rewrite lstrip_padded by assumption.
    assert (Hl : lstrip_by is_space (t ++ w2) = (t ++ w2)%string \/ t = "" ).
    { destruct t as [|c r]; [auto|]. left. cbn [append lstrip_by].
      destruct (is_space c) eqn:Hc; [|reflexivity]. exfalso. apply (H3 c r eq_refl). now apply space_iff. }
    destruct Hl as [->| ->].
    + rewrite rstrip_app_blank by assumption. symmetry. apply rstrip_fix. intros c r E. destruct (is_space c) eqn:Hc; [|reflexivity].
      exfalso. apply (H4 c r E). now apply space_iff.
    + cbn [append]. destruct (lstrip_spec is_space w2) as (w & Hw & _). rewrite rstrip_blank; [reflexivity|].
      rewrite Hw in B2. clear - B2. induction w as [|c w IH]; [exact B2|]. cbn in B2. apply andb_true_iff in B2 as [_ B2]. auto.
  - intros ->. destruct (strip_spec is_space s) as (w1 & w2 & E & B1 & B2). unfold strip_by in E. exists w1, w2. split; [exact E|].
    split; [intros c Hc; apply space_iff; exact (proj1 (sforallb_iff _ _) B1 c Hc)|].
    split; [intros c Hc; apply space_iff; exact (proj1 (sforallb_iff _ _) B2 c Hc)|]. split.
    + intros c r H Hs. apply space_iff in Hs. destruct (rstrip_first _ _ _ _ H) as [r' H']. apply lstrip_first in H'. congruence.
    + intros c r H Hs. apply space_iff in Hs. apply rstrip_last in H. congruence.
Qed.

(** ** Texts *)
Lemma gives_warn_if b w : gives (warn_if b w) tt.
Proof. destruct b; eexists; reflexivity. Qed.
Lemma gives_raise_if b c s : gives (raise_if b c s) tt <-> b = false.
Proof. destruct b; cbn; split; try discriminate; [intros [ws H]; discriminate|auto|intros _; eexists; reflexivity]. Qed.
Lemma strip_warn_gives w t t' : gives (strip_warn w t) t' <-> Stripped t t'.
Proof.
  rewrite stripped_iff. unfold strip_warn. rewrite gives_bind. split.
  - intros (u & _ & H). apply gives_ret in H. congruence.
  - intros ->. exists tt. split; [apply gives_warn_if|now apply gives_ret].
Qed.
Lemma text_of_gives n b e o : gives (text_of n b e) o <-> exists r, Raw n e r /\ (if b then Opt Stripped r o else r = o).
Proof.
  unfold text_of, Raw. rewrite gives_bind. unfold findall.
  assert (Hq : (exists u, gives (if 1 <? Z.of_nat (Datatypes.length (filter (has_tag n) (xml_kids e)))
        then raise_if (existsb (fun x => negb (is_some (xml_text x))) (filter (has_tag n) (xml_kids e))) TypeError "join" ;;; warn (W_Parser ("multiple " ++ n))
        else ret tt) u) <-> (forall es, AllNamed n (xml_kids e) es -> (2 <= Datatypes.length es)%nat -> forall c, In c es -> xml_text c <> None)).
  { destruct (1 <? Z.of_nat _) eqn:Hl.
    - split.
      + intros [u H]. apply gives_bind in H as (v & H & _). destruct v. apply gives_raise_if in H.
        intros es Hes _ c Hc Hx. apply all_named_iff in Hes. subst es.
        assert (Hc' : existsb (fun x => negb (is_some (xml_text x))) (filter (has_tag n) (xml_kids e)) = true).
        { apply existsb_exists. exists c. split; [auto|]. now rewrite Hx. }
        congruence.
      + intros H. exists tt. apply gives_bind. exists tt. split; [|eexists; reflexivity]. apply gives_raise_if.
        apply not_true_is_false. intros Hx. apply existsb_exists in Hx as (c & Hc & Hx).
        apply (H _ (all_named_filter n (xml_kids e)) ltac:(lia) c Hc). destruct (xml_text c); [discriminate|reflexivity].
    - split; [|intros _; exists tt; now apply gives_ret]. intros _ es Hes Hlen. apply all_named_iff in Hes. subst es. lia. }
  set (J := forall es, _) in *. set (q := if _ <? _ then _ else _) in *.
  transitivity (J /\ gives (match last_opt (filter (has_tag n) (xml_kids e)) with
      | Some e0 => match xml_text e0 with Some t => if b then t' <- strip_warn n t;; ret (Some t') else ret (Some t) | None => ret None end
      | None => ret None end) o).
  { rewrite <- Hq. split; [intros (a & H1 & H2); eauto|intros [[a H1] H2]; eauto]. }
  clearbody J. clear Hq q.
  assert (Hf : forall t, gives (if b then t' <- strip_warn n t;; ret (Some t') else ret (Some t)) o <->
             (if b then Opt Stripped (Some t) o else Some t = o)).
  { intros t. destruct b; [|apply gives_ret]. rewrite gives_bind. cbn. split.
    - intros (a & H1 & H2). apply gives_ret in H2. subst o. now apply strip_warn_gives in H1.
    - destruct o as [t'|]; [|tauto]. intros H. exists t'. split; [now apply strip_warn_gives|now apply gives_ret]. }
  assert (Hn : gives (ret None) o <-> (if b then Opt Stripped None o else None = o)).
  { rewrite gives_ret. destruct b; [|tauto]. cbn. destruct o; split; intros H; solve [auto | discriminate | contradiction]. }
  destruct (last_opt (filter (has_tag n) (xml_kids e))) as [c|] eqn:Hl.
  - assert (Hc : LastNamed n (xml_kids e) c) by now apply last_named_iff.
    assert (Hu : forall c', LastNamed n (xml_kids e) c' -> c' = c) by (intros c' H'; apply last_named_iff in H'; congruence).
    assert (Hnn : ~ NoneNamed n (xml_kids e)) by (intros H; apply none_named_iff in H; rewrite H in Hl; discriminate).
    assert (Hg : gives (match xml_text c with Some t => if b then t' <- strip_warn n t;; ret (Some t') else ret (Some t) | None => ret None end) o <->
             (if b then Opt Stripped (xml_text c) o else xml_text c = o)) by (destruct (xml_text c); [apply Hf|apply Hn]).
    rewrite Hg. split.
    + intros [HJ H]. exists (xml_text c). split; [|exact H]. split; [exact HJ|]. right. eauto.
    + intros (r & [HJ [[H _]|(c' & H & Hr)]] & Ho); [contradiction|]. apply Hu in H. subst c' r. auto.
  - apply last_opt_none in Hl. apply none_named_iff in Hl. rewrite Hn. split.
    + intros [HJ H]. exists None. split; [|exact H]. split; [exact HJ|]. left. auto.
    + intros (r & [HJ [[_ ->]|(c & H & _)]] & Ho); [auto|]. exfalso. destruct H as (l1 & l2 & E & Hc & _).
      apply (Hl c); [rewrite E; apply in_or_app; right; left; reflexivity|exact Hc].
Qed.
Lemma raw_gives n e o : gives (text_of n false e) o <-> Raw n e o.
Proof. rewrite text_of_gives. split; [intros (r & H & <-); auto|eauto]. Qed.
Lemma text_gives n e o : gives (text_of n true e) o <-> Text n e o.
Proof. apply text_of_gives. Qed.
Lemma req_text_gives n e t : gives (req_text n true e) t <-> Text n e (Some t).
Proof.
  unfold req_text. rewrite gives_bind. split.
  - intros ([u|] & H1 & H2); [|now destruct (gives_raise _ _ _ H2)]. apply gives_ret in H2. subst u. now apply text_gives.
  - intros H. exists (Some t). split; [now apply text_gives|now apply gives_ret].
Qed.
Lemma attr_gives n e o : gives (attr_of n e) o <-> Attr n e o.
Proof.
  unfold attr_of, Attr, xget. assert (Hx : forall l : list (string * string),
    match find (fun p => String.eqb (fst p) n) l with
    | None => ~ In n (map fst l)
    | Some p => fst p = n /\ exists l1 l2, l = l1 ++ p :: l2 /\ ~ In n (map fst l1) end).
  { induction l as [|[m v] l IH]; cbn [find map]; [tauto|]. cbn [fst]. destruct (String.eqb_spec m n) as [->|Hm].
    - split; [reflexivity|]. exists [], l. auto.
    - destruct (find _ l) as [p|]; [|intros [H|H]; contradiction]. destruct IH as (H1 & l1 & l2 & -> & H2). split; [auto|].
      exists ((m, v) :: l1), l2. split; [reflexivity|]. intros [H|H]; contradiction. }
  specialize (Hx (xml_attrs e)). destruct (find _ (xml_attrs e)) as [[m v]|] eqn:Hf; cbn [option_map snd].
  - destruct Hx as (Hm & l1 & l2 & E & Hn). cbn in Hm. subst m. rewrite gives_bind. split.
    + intros (t & H1 & H2). apply gives_ret in H2. subst o. apply strip_warn_gives in H1. right. exists v, t, l1, l2. auto.
    + intros [[H _]|(v' & t & l1' & l2' & E' & Hn' & Hs & ->)].
      * exfalso. apply (H v). rewrite E. apply in_or_app. right; left; reflexivity.
      * exists t. split; [|now apply gives_ret]. apply strip_warn_gives.
        assert (v = v'); [|subst; auto]. clear - E E' Hn Hn'. rewrite E in E'. clear E. revert l1' E' Hn'.
        induction l1 as [|a l1 IH]; intros [|a' l1'] E' Hn'; cbn in *.
        -- congruence.
        -- injection E' as <- _. exfalso. apply Hn'. left. reflexivity.
        -- injection E' as -> _. exfalso. apply Hn. left. reflexivity.
        -- injection E' as <- E'. eapply IH; eauto.
  - rewrite gives_ret. split.
    + intros <-. left. split; [|reflexivity]. intros v Hv. apply Hx. apply in_map_iff. exists (n, v). auto.
    + intros [[_ ->]|(v & t & l1 & l2 & E & _)]; [reflexivity|]. exfalso. apply Hx. rewrite E, map_app. apply in_or_app. right; left; reflexivity.
Qed.

(** ** Values *)
Lemma unhash_replace s : replace "#" "0b" s = unhash s.
Proof.
  unfold replace. induction s as [|c s IH]; [reflexivity|]. cbn [replace_aux unhash startswith].
  destruct (Ascii.eqb_spec c "#") as [->|Hc].
  - replace (Ascii.eqb "#" "#" && startswith "" s) with true by (destruct s; reflexivity). cbn [String.length Nat.sub]. now rewrite IH.
  - destruct (Ascii.eqb_spec "#" c) as [E|_]; [congruence|]. cbn [andb]. now rewrite IH.
Qed.
Lemma no_warn_int t n : gives (to_int t) n <-> to_int t = ret n.
Proof. destruct (to_int_shape t) as [[m ->]| ->]; split; intros H; [apply gives_ret in H; now subst|injection H as ->; now apply gives_ret|now destruct (gives_raise _ _ _ H)|discriminate]. Qed.
Lemma int_text t n : gives (to_int t) n <-> IntText t n.
Proof. rewrite no_warn_int, to_int_iff, unhash_replace. reflexivity. Qed.
Lemma bool_text_iff t b : gives (to_bool t) b <-> BoolText t b.
Proof.
  destruct C26_booleans as (_ & Ht & Hf & _). unfold BoolText.
  assert (H : gives (to_bool t) b <-> to_bool t = ret b).
  { unfold to_bool. repeat (destruct (String.eqb _ _); [split; [intros H; apply gives_ret in H; now subst|intros H; injection H as <-; now apply gives_ret]|]).
    split; [intros H; now destruct (gives_raise _ _ _ H)|discriminate]. }
  rewrite H. destruct b; [apply Ht|apply Hf].
Qed.
Lemma key_text {A} (value : A -> string) from t a : exact_keyword value from -> (gives (from_str from t) a <-> Key value t a).
Proof.
  intros He. unfold from_str, Key. rewrite <- (He t a). destruct (from t); [rewrite gives_ret; split; congruence|split; [intros H; now destruct (gives_raise _ _ _ H)|discriminate]].
Qed.
Lemma cpu_text t c : gives (from_str cpu_from_str t) c <-> CpuText t c.
Proof.
  destruct C26_cpu as (_ & H1 & H2). unfold from_str, CpuText. split.
  - destruct (cpu_from_str t) eqn:E; [|intros H; now destruct (gives_raise _ _ _ H)]. intros H. apply gives_ret in H. subst. now apply H1.
  - intros [H|[-> ->]]; [rewrite (H2 _ _ H); now apply gives_ret|now apply gives_ret].
Qed.
Lemma access_text t o : gives (access_from_str t) o <-> AccessText t o.
Proof.
  destruct C26_access as (_ & H1 & H2). unfold AccessText, AccessIs.
  assert (Hs : forall a, gives (access_from_str t) (Some a) <-> access_from_str t = ret (Some a)).
  { intros a. split; [|intros ->; now apply gives_ret]. intros [ws H].
    assert (Hd : (exists a, access_from_str t = ret (Some a)) \/ access_from_str t = ([W_UnknownAccess t], Ok None)).
    { unfold access_from_str. destruct (enum_find _ _ _); [eauto|]. repeat (destruct (String.eqb _ _); [eauto|]). right. reflexivity. }
    destruct Hd as [[a' E]|E]; rewrite E in H; [|discriminate]. injection H as _ <-. exact E. }
  destruct o as [a|].
  - rewrite Hs. apply H1.
  - split.
    + intros Hn a Ha. apply H1 in Ha. rewrite Ha in Hn. apply gives_ret in Hn. discriminate.
    + intros Hn. rewrite H2; [now exists [W_UnknownAccess t]|]. intros a Ha. apply (Hn a). now apply H1.
Qed.
Lemma opt_m_gives {A B} (f : A -> M B) (R : A -> B -> Prop) o v : (forall a b, gives (f a) b <-> R a b) -> (gives (opt_m f o) v <-> Opt R o v).
Proof.
  intros H. unfold opt_m. destruct o as [a|]; cbn.
  - rewrite gives_bind. split.
    + intros (b & H1 & H2). apply gives_ret in H2. subst v. now apply H.
    + destruct v as [b|]; [|tauto]. intros H1. exists b. split; [now apply H|now apply gives_ret].
  - rewrite gives_ret. destruct v; split; intros; solve [auto | discriminate | contradiction].
Qed.
Lemma reads_gives {A} (f : string -> M A) R n e o : (forall t a, gives (f t) a <-> R t a) ->
  (gives (t <- text_of n true e ;; opt_m f t) o <-> Reads R n e o).
Proof.
  intros H. rewrite gives_bind. unfold Reads. split; intros (t & H1 & H2); exists t; (split; [now apply text_gives|]); now apply (opt_m_gives f R).
Qed.
Lemma opt_int_gives n e o : gives (opt_int n e) o <-> Reads IntText n e o.
Proof. apply reads_gives, int_text. Qed.
Lemma opt_bool_gives n e o : gives (opt_bool n e) o <-> Reads BoolText n e o.
Proof. apply reads_gives, bool_text_iff. Qed.
Lemma must_gives {A} (f : string -> M A) R n e v : (forall t a, gives (f t) a <-> R t a) ->
  (gives (t <- req_text n true e ;; f t) v <-> Must R n e v).
Proof.
  intros H. rewrite gives_bind. unfold Must. split; intros (t & H1 & H2); exists t; (split; [now apply req_text_gives|now apply H]).
Qed.
Lemma req_int_gives n e v : gives (req_int n e) v <-> Must IntText n e v.
Proof. apply must_gives, int_text. Qed.
Lemma must_is n e v : gives (req_text n true e) v <-> Must Is n e v.
Proof. rewrite req_text_gives. unfold Must, Is. split; [eauto|]. intros (t & H & <-). exact H. Qed.
Lemma child_gives {A} (f : xml -> M A) R n e o : (forall c v, gives (f c) v <-> R c v) ->
  (gives (opt_m f (xfind n e)) o <-> Child n R e o).
Proof.
  intros H. unfold Child, xfind, findall. rewrite (opt_m_gives f R _ _ H). split.
  - destruct (hd_error _) as [c|] eqn:E; destruct o as [v|]; cbn; try tauto.
    + intros Hr. right. exists c, v. split; [now apply first_named_iff|auto].
    + intros _. left. split; [|reflexivity]. apply none_named_iff. destruct (filter _ _); [reflexivity|discriminate].
  - intros [[Hn ->]|(c & v & Hc & Hr & ->)].
    + apply none_named_iff in Hn. rewrite Hn. exact I.
    + apply first_named_iff in Hc. rewrite Hc. exact Hr.
Qed.
Lemma mapM_gives {A B} (f : A -> M B) R l v : (forall a b, gives (f a) b <-> R a b) -> (gives (mapM f l) v <-> Forall2 R l v).
Proof.
  intros H. revert v. induction l as [|a l IH]; intros v; cbn [mapM].
  - rewrite gives_ret. split; [intros <-; constructor|inversion 1; reflexivity].
  - rewrite gives_bind. split.
    + intros (b & H1 & H2). apply gives_bind in H2 as (bs & H2 & H3). apply gives_ret in H3. subst v. constructor; [now apply H|now apply IH].
    + inversion 1; subst. exists y. split; [now apply H|]. apply gives_bind. exists l'. split; [now apply IH|now apply gives_ret].
Qed.
Lemma children_gives {A} (f : xml -> M A) R n e l : (forall c v, gives (f c) v <-> R c v) ->
  (gives (mapM f (findall n e)) l <-> Children n R e l).
Proof.
  intros H. rewrite (mapM_gives f R _ _ H). unfold Children, findall. split.
  - intros H1. exists (filter (has_tag n) (xml_kids e)). split; [apply all_named_filter|auto].
  - intros (es & H1 & H2). apply all_named_iff in H1. now subst.
Qed.

(** ** Elements *)
(** one statement of the parser at a time *)
Ltac un H := apply gives_bind in H; let a := fresh "a" in let H1 := fresh "G" in destruct H as (a & H1 & H); cbn beta in H.
Ltac uns H := repeat un H; apply gives_ret in H.
Ltac ste := eapply gives_bind_intro; [first [eassumption | now apply gives_ret]|cbn beta].
Ltac stes := repeat ste; now apply gives_ret.

Lemma prot_key : exact_keyword protection_value protection_from_str. Proof. apply C26_keywords. Qed.
Lemma endian_key : exact_keyword endian_value endian_from_str. Proof. apply C26_keywords. Qed.
Lemma sau_key : exact_keyword sau_access_value sau_access_from_str. Proof. apply C26_keywords. Qed.
Lemma ab_key : exact_keyword ab_usage_value ab_usage_from_str. Proof. apply C26_keywords. Qed.
Lemma dt_key : exact_keyword data_type_value data_type_from_str. Proof. apply C26_keywords. Qed.
Lemma mwv_key : exact_keyword mwv_value mwv_from_str. Proof. apply C26_keywords. Qed.
Lemma ra_key : exact_keyword read_action_value read_action_from_str. Proof. apply C26_keywords. Qed.
Lemma usage_key : exact_keyword enum_usage_value enum_usage_from_str. Proof. apply C26_keywords. Qed.
Lemma opt_key {A} (value : A -> string) from o v : exact_keyword value from -> (gives (opt_m (from_str from) o) v <-> Opt (Key value) o v).
Proof. intros H. apply opt_m_gives. intros. now apply key_text. Qed.
Lemma access_gives t o : gives (match t with None => ret None | Some t => access_from_str t end) o <-> match t with None => o = None | Some t => AccessText t o end.
Proof. destruct t; [apply access_text|]. rewrite gives_ret. split; congruence. Qed.

(** two-step reads *)
Lemma reads_key_intro {A} (value : A -> string) from n e t o : exact_keyword value from ->
  gives (opt_text n e) t -> gives (opt_m (from_str from) t) o -> Reads (Key value) n e o.
Proof. intros H H1 H2. exists t. split; [now apply text_gives|now apply (opt_key value from)]. Qed.
Lemma must_key_intro {A} (value : A -> string) from n e t v : exact_keyword value from ->
  gives (req_text n true e) t -> gives (from_str from t) v -> Must (Key value) n e v.
Proof. intros H H1 H2. exists t. split; [now apply req_text_gives|now apply (key_text value from)]. Qed.
Lemma reads_key_elim {A} (value : A -> string) from n e o : exact_keyword value from -> Reads (Key value) n e o ->
  exists t, gives (opt_text n e) t /\ gives (opt_m (from_str from) t) o.
Proof. intros H (t & H1 & H2). exists t. split; [now apply text_gives|now apply (opt_key value from)]. Qed.
Lemma must_key_elim {A} (value : A -> string) from n e v : exact_keyword value from -> Must (Key value) n e v ->
  exists t, gives (req_text n true e) t /\ gives (from_str from t) v.
Proof. intros H (t & H1 & H2). exists t. split; [now apply req_text_gives|now apply (key_text value from)]. Qed.
Lemma access_elim e o : Access e o -> exists t, gives (opt_text "access" e) t /\ gives (match t with None => ret None | Some t => access_from_str t end) o.
Proof. intros (t & H1 & H2). exists t. split; [now apply text_gives|now apply access_gives]. Qed.
Lemma access_intro e t o : gives (opt_text "access" e) t -> gives (match t with None => ret None | Some t => access_from_str t end) o -> Access e o.
Proof. intros H1 H2. exists t. split; [now apply text_gives|now apply access_gives]. Qed.
Lemma attr_reads_elim {A} (f : string -> M A) R n e o : (forall t a, gives (f t) a <-> R t a) -> AttrReads R n e o ->
  exists t, gives (attr_of n e) t /\ gives (opt_m f t) o.
Proof. intros H (t & H1 & H2). exists t. split; [now apply attr_gives|now apply (opt_m_gives f R)]. Qed.
Lemma attr_reads_intro {A} (f : string -> M A) R n e t o : (forall t a, gives (f t) a <-> R t a) ->
  gives (attr_of n e) t -> gives (opt_m f t) o -> AttrReads R n e o.
Proof. intros H H1 H2. exists t. split; [now apply attr_gives|now apply (opt_m_gives f R)]. Qed.

Lemma props_gives e p : gives (parse_props e) p <-> reads_props e p.
Proof.
  unfold parse_props, reads_props. split.
  - intros H. uns H. subst p. cbn. split; [now apply opt_int_gives|]. split; [eapply access_intro; eassumption|].
    split; [eapply reads_key_intro; [apply prot_key|eassumption..]|]. split; now apply opt_int_gives.
  - destruct p as [p1 p2 p3 p4 p5]. cbn. intros (H1 & H2 & H3 & H4 & H5).
    apply opt_int_gives in H1, H4, H5. apply access_elim in H2 as (t2 & A2 & B2).
    apply (reads_key_elim _ _ _ _ _ prot_key) in H3 as (t3 & A3 & B3). stes.
Qed.
Ltac key := first [apply prot_key | apply endian_key | apply sau_key | apply ab_key | apply dt_key | apply mwv_key | apply ra_key | apply usage_key].
Ltac fin := first
  [ apply opt_int_gives; eassumption | apply opt_bool_gives; eassumption | apply text_gives; eassumption | apply raw_gives; eassumption
  | apply attr_gives; eassumption | apply must_is; eassumption | apply req_int_gives; eassumption | eapply access_intro; eassumption
  | eapply reads_key_intro; [key|eassumption|eassumption] | eapply must_key_intro; [key|eassumption|eassumption] ].
Ltac fins := repeat match goal with |- _ /\ _ => split; [fin|] end; try fin.
(** turn every hypothesis of the specification into the statements of the parser *)
Ltac pre1 :=
  match goal with
  | H : _ /\ _ |- _ => destruct H
  | H : Reads IntText _ _ _ |- _ => apply opt_int_gives in H
  | H : Reads BoolText _ _ _ |- _ => apply opt_bool_gives in H
  | H : Reads (Key _) _ _ _ |- _ => eapply reads_key_elim in H; [destruct H as (? & ? & ?)|key]
  | H : Must (Key _) _ _ _ |- _ => eapply must_key_elim in H; [destruct H as (? & ? & ?)|key]
  | H : Must IntText _ _ _ |- _ => apply req_int_gives in H
  | H : Must Is _ _ _ |- _ => apply must_is in H
  | H : Text _ _ _ |- _ => apply text_gives in H
  | H : Raw _ _ _ |- _ => apply raw_gives in H
  | H : Attr _ _ _ |- _ => apply attr_gives in H
  | H : Access _ _ |- _ => apply access_elim in H; destruct H as (? & ? & ?)
  end.
Ltac pre := repeat pre1.

Lemma sau_region_gives e r : gives (parse_sau_region e) r <-> reads_sau_region e r.
Proof.
  unfold parse_sau_region, reads_sau_region. split.
  - intros H. uns H. subst r. cbn. split; [eapply attr_reads_intro; [apply bool_text_iff|eassumption..]|]. fins.
  - destruct r; cbn. intros [H H']. apply (attr_reads_elim _ _ _ _ _ bool_text_iff) in H as (? & ? & ?). pre. stes.
Qed.
Lemma sau_gives e c : gives (parse_sau_config e) c <-> reads_sau e c.
Proof.
  unfold parse_sau_config, reads_sau. split.
  - intros H. uns H. subst c. cbn. split; [eapply attr_reads_intro; [apply bool_text_iff|eassumption..]|].
    split; [eapply attr_reads_intro; [intros; apply key_text, prot_key|eassumption..]|].
    eapply children_gives; [apply sau_region_gives|eassumption].
  - destruct c; cbn. intros (H1 & H2 & H3). apply (attr_reads_elim _ _ _ _ _ bool_text_iff) in H1 as (? & ? & ?).
    eapply attr_reads_elim in H2; [|intros; apply key_text, prot_key]. destruct H2 as (? & ? & ?).
    eapply children_gives in H3; [|apply sau_region_gives]. stes.
Qed.
Lemma cpu_gives e c : gives (parse_cpu e) c <-> reads_cpu e c.
Proof.
  unfold parse_cpu, reads_cpu. split.
  - intros H. uns H. subst c. cbn. split; [exists a; split; [now apply req_text_gives|now apply cpu_text]|].
    fins. split; [exists a14; split; [now apply req_text_gives|now apply bool_text_iff]|]. fins.
    eapply child_gives; [apply sau_gives|eassumption].
  - destruct c; cbn. intros ((t & T1 & T2) & H). apply req_text_gives in T1. pre. match goal with H : Must BoolText _ _ _ |- _ => destruct H as (t' & T1' & T2') end.
    apply req_text_gives in T1'. apply cpu_text in T2. apply bool_text_iff in T2'.
    match goal with H : Child _ _ _ _ |- _ => eapply child_gives in H; [|apply sau_gives] end. stes.
Qed.
Lemma ev_gives e v : gives (parse_ev e) v <-> reads_ev e v.
Proof.
  unfold parse_ev, reads_ev. split.
  - intros H. uns H. subst v. cbn. fins.
  - destruct v; cbn. intros H. pre. stes.
Qed.
Lemma dai_gives e v : gives (parse_dai e) v <-> reads_dai e v.
Proof.
  unfold parse_dai, reads_dai. split.
  - intros H. uns H. subst v. cbn. fins. eapply children_gives; [apply ev_gives|eassumption].
  - destruct v; cbn. intros [H1 H2]. pre. eapply children_gives in H2; [|apply ev_gives]. stes.
Qed.
Lemma dim_gives e v : gives (parse_dim e) v <-> reads_dim e v.
Proof.
  unfold parse_dim, reads_dim. split.
  - intros H. uns H. subst v. cbn. fins. eapply child_gives; [apply dai_gives|eassumption].
  - destruct v; cbn. intros H. pre. match goal with H : Child _ _ _ _ |- _ => eapply child_gives in H; [|apply dai_gives] end. stes.
Qed.
Lemma range_gives e v : gives (lo <- req_int "minimum" e ;; hi <- req_int "maximum" e ;; ret (lo, hi)) v <-> reads_range e v.
Proof.
  unfold reads_range. split.
  - intros H. uns H. subst v. cbn. fins.
  - destruct v; cbn. intros H. pre. stes.
Qed.
Lemma wc_gives e v : gives (parse_wc e) v <-> reads_wc e v.
Proof.
  unfold parse_wc, reads_wc. split.
  - intros H. uns H. subst v. cbn. fins. eapply child_gives; [apply range_gives|eassumption].
  - destruct v; cbn. intros H. pre. match goal with H : Child _ _ _ _ |- _ => eapply child_gives in H; [|apply range_gives] end. stes.
Qed.
Lemma evc_gives e v : gives (parse_evc e) v <-> reads_evc e v.
Proof.
  unfold parse_evc, reads_evc. split.
  - intros H. uns H. subst v. cbn. fins. eapply children_gives; [apply ev_gives|eassumption].
  - destruct v; cbn. intros H. pre. match goal with H : Children _ _ _ _ |- _ => eapply children_gives in H; [|apply ev_gives] end. stes.
Qed.
Lemma field_gives e v : gives (parse_field e) v <-> reads_field e v.
Proof.
  unfold parse_field, reads_field. split.
  - intros H. uns H. subst v. cbn. fins. split; [eapply child_gives; [apply wc_gives|eassumption]|]. fins.
    split; [eapply children_gives; [apply evc_gives|eassumption]|]. now apply dim_gives.
  - destruct v; cbn. intros H. pre. match goal with H : Children _ _ _ _ |- _ => eapply children_gives in H; [|apply evc_gives] end.
    match goal with H : Child _ _ _ _ |- _ => eapply child_gives in H; [|apply wc_gives] end.
    match goal with H : reads_dim _ _ |- _ => apply dim_gives in H end. stes.
Qed.
Lemma Forall2_app_concat {A B} (R : A -> B -> Prop) ls : forall v,
  Forall2 R (concat ls) v <-> exists parts, Forall2 (Forall2 R) ls parts /\ v = concat parts.
Proof.
  induction ls as [|l ls IH]; intros v; cbn [concat].
  - split; [inversion 1; exists []; auto|]. intros (parts & H & ->). inversion H. constructor.
  - split.
    + intros H. apply Forall2_app_inv_l in H as (v1 & v2 & H1 & H2 & ->). apply IH in H2 as (parts & H2 & ->).
      exists (v1 :: parts). split; [constructor; auto|reflexivity].
    + intros (parts & H & ->). inversion H; subst. cbn [concat]. apply Forall2_app; [auto|]. apply IH. eauto.
Qed.
Lemma Forall2_map_iff {A B C} (f : A -> B) (R : B -> C -> Prop) l v : Forall2 R (map f l) v <-> Forall2 (fun a c => R (f a) c) l v.
Proof.
  revert v. induction l as [|a l IH]; intros v; cbn [map]; (split; inversion 1; subst; constructor; auto; now apply IH).
Qed.
Lemma Forall2_impl {A B} (R S : A -> B -> Prop) : (forall a b, R a b -> S a b) -> forall l v, Forall2 R l v -> Forall2 S l v.
Proof. intros H l v F. induction F; constructor; auto. Qed.
Lemma Forall2_iff {A B} (R S : A -> B -> Prop) l v : (forall a b, R a b <-> S a b) -> (Forall2 R l v <-> Forall2 S l v).
Proof. intros H. split; intros F; (eapply Forall2_impl; [|exact F]); intros a b; apply H. Qed.
Lemma fields_gives e l : gives (parse_fields e) l <-> Sections "fields" "field" reads_field e l.
Proof.
  unfold parse_fields, Sections. rewrite (mapM_gives _ reads_field _ _ field_gives), flat_map_concat_map, Forall2_app_concat. unfold findall at 2. split.
  - intros (parts & H & ->). exists (filter (has_tag "fields") (xml_kids e)), parts. split; [apply all_named_filter|]. split; [|reflexivity].
    apply (proj1 (Forall2_map_iff _ _ _ _)) in H. eapply Forall2_impl; [|exact H]. cbn. intros s p Hp. exists (findall "field" s).
    split; [apply all_named_filter|exact Hp].
  - intros (secs & parts & H1 & H2 & ->). apply all_named_iff in H1. subst secs. exists parts. split; [|reflexivity].
    apply Forall2_map_iff. eapply Forall2_impl; [|exact H2]. cbn. intros s p (es & He & Hp). apply all_named_iff in He. now subst.
Qed.
Lemma reg_gives e v : gives (parse_register e) v <-> reads_reg e v.
Proof.
  unfold parse_register, reads_reg. split.
  - intros H. uns H. subst v. cbn. fins. split; [eapply child_gives; [apply wc_gives|eassumption]|]. fins.
    split; [now apply fields_gives|]. split; [now apply dim_gives|now apply props_gives].
  - destruct v; cbn. intros H. pre. match goal with H : Sections _ _ _ _ _ |- _ => apply fields_gives in H end.
    match goal with H : Child _ _ _ _ |- _ => eapply child_gives in H; [|apply wc_gives] end.
    match goal with H : reads_props _ _ |- _ => apply props_gives in H end.
    match goal with H : reads_dim _ _ |- _ => apply dim_gives in H end. stes.
Qed.
Lemma clu_gives children e v : gives (parse_cluster_with children e) v <-> exists c ch, v = SClu c ch /\ reads_clu e c /\ gives children ch.
Proof.
  unfold parse_cluster_with, reads_clu. split.
  - intros H. uns H. subst v. do 2 eexists. split; [reflexivity|]. cbn. split; [|assumption]. fins. split; [now apply dim_gives|now apply props_gives].
  - intros (c & ch & -> & H & Hc). destruct c; cbn in *. pre.
    match goal with H : reads_props _ _ |- _ => apply props_gives in H end.
    match goal with H : reads_dim _ _ |- _ => apply dim_gives in H end. stes.
Qed.
Lemma xml_ind2 (P : xml -> Prop) : (forall t a x ks, Forall P ks -> P (Elem t a x ks)) -> P Other -> forall e, P e.
Proof.
  intros H1 H2. fix IH 1. intros [t a x ks|]; [|exact H2]. apply H1.
  induction ks as [|k ks IHk]; constructor; [apply IH|exact IHk].
Qed.
Lemma parse_rc_eq t a x ks : parse_rc (Elem t a x ks) =
  if String.eqb t "register" then r <- parse_register (Elem t a x ks) ;; ret [SReg r]
  else if String.eqb t "cluster" then c <- parse_cluster_with (parse_rcs ks) (Elem t a x ks) ;; ret [c]
  else ret [].
Proof.
  cbn [parse_rc]. destruct (String.eqb t "register"); [reflexivity|]. destruct (String.eqb t "cluster"); [|reflexivity].
  assert (E : (fix go (l : list xml) : M (list svd_rc) := match l with [] => ret [] | k :: l' => x <- parse_rc k ;; y <- go l' ;; ret (x ++ y) end) ks = parse_rcs ks)
    by (induction ks as [|k ks IH]; cbn; [reflexivity|]; now rewrite IH).
  now rewrite E.
Qed.
(** what one child contributes *)
Inductive reads_one : xml -> list svd_rc -> Prop :=
| one_reg e r : Named "register" e -> reads_reg e r -> reads_one e [SReg r]
| one_clu e c ch : Named "cluster" e -> reads_clu e c -> reads_rcs (xml_kids e) ch -> reads_one e [SClu c ch]
| one_skip e : ~ Named "register" e -> ~ Named "cluster" e -> reads_one e [].
Lemma reads_rcs_cons e l v : reads_rcs (e :: l) v <-> exists v1 v2, v = v1 ++ v2 /\ reads_one e v1 /\ reads_rcs l v2.
Proof.
  split.
  - inversion 1; subst.
    + exists [SReg r], rs. split; [reflexivity|]. split; [now constructor|auto].
    + exists [SClu c ch], rs. split; [reflexivity|]. split; [now constructor|auto].
    + exists [], v. split; [reflexivity|]. split; [now constructor|auto].
  - intros (v1 & v2 & -> & H1 & H2). inversion H1; subst; cbn [app]; now constructor.
Qed.
Lemma rc_gives e : forall v, gives (parse_rc e) v <-> reads_one e v.
Proof.
  induction e as [t a x ks IH|] using xml_ind2; intros v.
  - assert (Hks : forall v, gives (parse_rcs ks) v <-> reads_rcs ks v).
    { clear v. induction IH as [|k ks Hk _ IHk]; intros v; cbn [parse_rcs].
      - rewrite gives_ret. split; [intros <-; constructor|inversion 1; reflexivity].
      - rewrite gives_bind, reads_rcs_cons. split.
        + intros (v1 & H1 & H2). apply gives_bind in H2 as (v2 & H2 & H3). apply gives_ret in H3. subst v. exists v1, v2.
          split; [reflexivity|]. split; [now apply Hk|now apply IHk].
        + intros (v1 & v2 & -> & H1 & H2). exists v1. split; [now apply Hk|]. apply gives_bind. exists v2.
          split; [now apply IHk|now apply gives_ret]. }
    rewrite parse_rc_eq.
    assert (Hnamed : forall n, Named n (Elem t a x ks) <-> t = n).
    { intros n. rewrite <- has_tag_iff. cbn. apply String.eqb_eq. }
    destruct (String.eqb_spec t "register") as [->|H1].
    { rewrite gives_bind. split.
      - intros (r & G & H). apply gives_ret in H. subst v. constructor; [now apply Hnamed|now apply reg_gives].
      - inversion 1 as [? r _ Hr|? c ch Hn|? Hn]; subst.
        + exists r. split; [now apply reg_gives|now apply gives_ret].
        + apply Hnamed in Hn. discriminate.
        + exfalso. apply Hn. now apply Hnamed. }
    destruct (String.eqb_spec t "cluster") as [->|H2].
    { rewrite gives_bind. split.
      - intros (r & G & H). apply gives_ret in H. subst v. apply clu_gives in G as (c & ch & -> & Hc & Hch).
        constructor; [now apply Hnamed|auto|now apply Hks].
      - inversion 1 as [? r Hn|? c ch _ Hc Hch|? _ Hn]; subst.
        + apply Hnamed in Hn. discriminate.
        + exists (SClu c ch). split; [|now apply gives_ret]. apply clu_gives. exists c, ch. split; [reflexivity|]. split; [auto|now apply Hks].
        + exfalso. apply Hn. now apply Hnamed. }
    rewrite gives_ret. split.
    + intros <-. constructor; rewrite Hnamed; assumption.
    + inversion 1 as [? r Hn|? c ch Hn|? Hn]; subst; [apply Hnamed in Hn; contradiction|apply Hnamed in Hn; contradiction|reflexivity].
  - cbn. rewrite gives_ret. split.
    + intros <-. constructor; intros (? & ? & ? & ?); discriminate.
    + inversion 1 as [? r Hn|? c ch Hn|? Hn]; subst; [destruct Hn as (? & ? & ? & ?); discriminate|destruct Hn as (? & ? & ? & ?); discriminate|reflexivity].
Qed.
Lemma rcs_gives l : forall v, gives (parse_rcs l) v <-> reads_rcs l v.
Proof.
  induction l as [|k l IH]; intros v; cbn [parse_rcs].
  - rewrite gives_ret. split; [intros <-; constructor|inversion 1; reflexivity].
  - rewrite gives_bind, reads_rcs_cons. split.
    + intros (v1 & H1 & H2). apply gives_bind in H2 as (v2 & H2 & H3). apply gives_ret in H3. subst v. exists v1, v2.
      split; [reflexivity|]. split; [now apply rc_gives|now apply IH].
    + intros (v1 & v2 & -> & H1 & H2). exists v1. split; [now apply rc_gives|]. apply gives_bind. exists v2.
      split; [now apply IH|now apply gives_ret].
Qed.

Lemma int_gives e v : gives (parse_interrupt e) v <-> reads_int e v.
Proof.
  unfold parse_interrupt, reads_int. split.
  - intros H. uns H. subst v. cbn. fins. destruct a1 as [t|].
    + exists (Some a2). split; [|reflexivity]. exists (Some t). split; [now apply text_gives|now apply int_text].
    + apply gives_bind in G2 as (u & _ & G2). apply gives_ret in G2. subst a2.
      exists None. split; [|reflexivity]. exists None. split; [now apply text_gives|exact I].
  - destruct v; cbn. intros (H1 & H2 & o & (t & H3 & H4) & H5). pre. ste. ste. ste.
    eapply gives_bind_intro; [|now apply gives_ret].
    destruct t as [t|], o as [n|]; cbn in H4, H5; try contradiction; subst.
    + now apply int_text.
    + eexists; reflexivity.
Qed.
Lemma ab_gives e v : gives (parse_ab e) v <-> reads_ab e v.
Proof.
  unfold parse_ab, reads_ab. split.
  - intros H. uns H. subst v. cbn. split; [exists a; split; [fin|destruct a; reflexivity]|]. fins.
  - destruct v; cbn. intros ((o & H1 & H2) & H). pre. do 6 ste. apply gives_ret. f_equal. destruct o; symmetry; exact H2.
Qed.
Lemma per_gives e v : gives (parse_peripheral e) v <-> reads_per e v.
Proof.
  unfold parse_peripheral, reads_per. split.
  - intros H. uns H. subst v. cbn. fins. split; [eapply children_gives; [apply ab_gives|eassumption]|].
    split; [eapply children_gives; [apply int_gives|eassumption]|].
    split; [|split; [now apply dim_gives|now apply props_gives]].
    exists (findall "registers" e). split; [apply all_named_filter|]. apply rcs_gives. rewrite <- flat_map_concat_map. assumption.
  - destruct v; cbn. intros H. pre.
    match goal with H : Children "addressBlock" _ _ _ |- _ => eapply children_gives in H; [|apply ab_gives] end.
    match goal with H : Children "interrupt" _ _ _ |- _ => eapply children_gives in H; [|apply int_gives] end.
    match goal with H : reads_props _ _ |- _ => apply props_gives in H end.
    match goal with H : reads_dim _ _ |- _ => apply dim_gives in H end.
    match goal with H : exists secs, _ |- _ => destruct H as (secs & Hs & Hr) end.
    apply all_named_iff in Hs. subst secs. rewrite <- flat_map_concat_map in Hr. apply rcs_gives in Hr. change (filter (has_tag "registers") (xml_kids e)) with (findall "registers" e) in Hr.
    stes.
Qed.
Lemma find_prefix p (ns : list (string * string)) : match find (fun q => String.eqb (fst q) p) ns with
  | Some q => Prefix ns p (snd q)
  | None => NoPrefix ns p end.
Proof.
  unfold Prefix, NoPrefix. induction ns as [|[m v] l IH]; cbn [find map]; [tauto|]. cbn [fst]. destruct (String.eqb_spec m p) as [->|Hm].
  - exists [], l. auto.
  - destruct (find _ l) as [q|]; [|intros [H|H]; contradiction]. destruct IH as (l1 & l2 & E & H2).
    exists ((m, v) :: l1), l2. split; [cbn; now rewrite E|]. intros [H|H]; contradiction.
Qed.
Lemma prefix_fun ns p u u' : Prefix ns p u -> Prefix ns p u' -> u = u'.
Proof.
  intros (l1 & l2 & E & Hn) (l1' & l2' & E' & Hn'). rewrite E in E'. clear E. revert l1' E' Hn'.
  induction l1 as [|a l1 IH]; intros [|a' l1'] E' Hn'; cbn in *.
  - congruence.
  - injection E' as <- _. exfalso. apply Hn'. left. reflexivity.
  - injection E' as -> _. exfalso. apply Hn. left. reflexivity.
  - injection E' as <- E'. eapply IH; eauto.
Qed.
Lemma prefix_not ns p u : Prefix ns p u -> ~ NoPrefix ns p.
Proof. intros (l1 & l2 & -> & _) H. apply H. rewrite map_app. apply in_or_app. right; left; reflexivity. Qed.
Definition ns_of (nsmap : list (string * string)) : option string :=
  match find (fun p => String.eqb (fst p) "xs") nsmap with
  | Some p => Some (snd p)
  | None => option_map snd (find (fun p => String.eqb (fst p) "xsi") nsmap)
  end.
Lemma ns_of_iff ns o : SchemaNs ns o <-> o = ns_of ns.
Proof.
  unfold SchemaNs, ns_of. generalize (find_prefix "xs" ns) (find_prefix "xsi" ns).
  destruct (find _ ns) as [[p u]|].
  - intros Hx _. cbn in Hx. split.
    + intros [(u' & H & ->)|[[H _]|[H _]]]; [cbn; f_equal; eapply prefix_fun; eauto|destruct (prefix_not _ _ _ Hx H)..].
    + intros ->. left. eauto.
  - destruct (find _ ns) as [[p u]|]; cbn; intros Hx Hy.
    + split.
      * intros [(u' & H & ->)|[(_ & u' & H & ->)|(_ & H & _)]]; [destruct (prefix_not _ _ _ H Hx)|f_equal; eapply prefix_fun; eauto|destruct (prefix_not _ _ _ Hy H)].
      * intros ->. right. left. eauto.
    + split.
      * intros [(u' & H & ->)|[(_ & u' & H & ->)|(_ & _ & ->)]]; [destruct (prefix_not _ _ _ H Hx)|destruct (prefix_not _ _ _ H Hy)|reflexivity].
      * intros ->. right. right. auto.
Qed.
Lemma missing_gives s : gives (warn (W_Parser "noNamespaceSchemaLocation") ;;; ret "") s <-> s = "".
Proof. split; [intros [ws H]; injection H; auto|intros ->; eexists; reflexivity]. Qed.
Lemma location_gives doc s : gives (parse_schema_location (doc_nsmap doc) (doc_root doc)) s <-> reads_location doc s.
Proof.
  unfold parse_schema_location, reads_location. fold (ns_of (doc_nsmap doc)). cbv zeta.
  transitivity (match ns_of (doc_nsmap doc) with None => s = "" | Some uri => exists o, Attr ("{" ++ uri ++ "}noNamespaceSchemaLocation") (doc_root doc) o /\ Else "" o s end).
  - destruct (ns_of (doc_nsmap doc)) as [uri|]; [|apply missing_gives]. rewrite gives_bind. split.
    + intros (o & H1 & H2). exists o. split; [now apply attr_gives|]. destruct o as [t|]; cbn; [apply gives_ret in H2; auto|now apply missing_gives].
    + intros (o & H1 & H2). exists o. split; [now apply attr_gives|]. destruct o as [t|]; cbn in H2; [now apply gives_ret|now apply missing_gives].
  - split.
    + intros H. exists (ns_of (doc_nsmap doc)). split; [now apply ns_of_iff|exact H].
    + intros (u & Hu & H). apply ns_of_iff in Hu. subst u. exact H.
Qed.
Lemma peripherals_gives e l : gives (parse_peripherals e) l <->
  exists ps, FirstNamed "peripherals" (xml_kids e) ps /\ Children "peripheral" reads_per ps l.
Proof.
  unfold parse_peripherals, xfind, findall at 1. split.
  - destruct (hd_error _) as [p|] eqn:E; [|intros H; now destruct (gives_raise _ _ _ H)].
    intros H. exists p. split; [now apply first_named_iff|]. eapply children_gives; [apply per_gives|exact H].
  - intros (ps & H1 & H2). apply first_named_iff in H1. rewrite H1. eapply children_gives; [apply per_gives|exact H2].
Qed.
Lemma descr_gives (o : option string) s : gives (match o with Some t => ret t | None => warn (W_Parser "device description") ;;; ret "" end) s <-> Else "" o s.
Proof.
  destruct o as [t|]; cbn; [rewrite gives_ret; split; auto|].
  split; [intros [ws H]; injection H; auto|intros ->; eexists; reflexivity].
Qed.
Lemma device_gives doc d : gives (parse_device doc) d <-> reads_device doc d.
Proof.
  unfold parse_device, reads_device. cbv zeta. split.
  - intros H. un H. un H. uns H. subst d. cbn. split; [now apply location_gives|].
    split. { apply gives_bind in G0 as ([t|] & G0 & H); [|now destruct (gives_raise _ _ _ H)]. apply gives_ret in H. subst. now apply attr_gives. }
    fins. split. { exists a6. split; [now apply raw_gives|now apply descr_gives]. }
    fins. split; [eapply child_gives; [apply cpu_gives|eassumption]|]. fins. split; [now apply props_gives|]. now apply peripherals_gives.
  - destruct d; cbn. intros H. destruct H as (L & A & H). apply location_gives in L.
    assert (A' : gives (req_attr "schemaVersion" (doc_root doc)) sdv_schema).
    { unfold req_attr. apply gives_bind. exists (Some sdv_schema). split; [now apply attr_gives|now apply gives_ret]. }
    clear A. do 5 (destruct H as (? & H)). destruct H as ((o & D1 & D2) & H). apply descr_gives in D2.
    pre. match goal with H : exists ps, _ |- _ => apply peripherals_gives in H end.
    match goal with H : Child _ _ _ _ |- _ => eapply child_gives in H; [|apply cpu_gives] end.
    match goal with H : reads_props _ _ |- _ => apply props_gives in H end. stes.
Qed.

(** ** C28 *)
Theorem C28_reads doc d : (exists ws, parse_device doc = (ws, Ok d)) <-> reads_device doc d.
Proof. apply device_gives. Qed.

(** ** Errors *)
Definition parse_exn (c : exn_class) : Prop := c = ParserException \/ c = NotImplementedError \/ c = TypeError.
Notation PE := (Emits (fun _ => True) parse_exn).
Notation MISS := (Emits (fun _ => True) (fun c => c = ParserException)).
Ltac pe := repeat
  match goal with
  | |- True => exact I
  | |- parse_exn _ => unfold parse_exn; tauto
  | |- _ = ParserException => reflexivity
  | H : ?g |- ?g => exact H
  | |- Emits _ _ (ret _) => apply emits_ret
  | |- Emits _ _ (raise _ _) => apply emits_raise
  | |- Emits _ _ (raise_if _ _ _) => apply emits_raise_if
  | |- Emits _ _ (warn _) => apply emits_warn
  | |- Emits _ _ (warn_if _ _) => apply emits_warn_if
  | |- Emits _ _ (bind _ _) => apply emits_bind; [|intros ? ? _]
  | |- Emits _ _ (mapM _ _) => apply emits_mapM; intros ? _
  | |- Emits _ _ (match ?x with _ => _ end) => destruct x
  | |- Emits _ _ (let _ := _ in _) => cbn zeta
  | |- Emits _ _ ((fun _ => _) _) => cbn beta
  end.
Lemma pe_text n b e : PE (text_of n b e). Proof. unfold text_of, strip_warn. pe. Qed.
Lemma pe_req n b e : PE (req_text n b e). Proof. unfold req_text. pe. apply pe_text. Qed.
Lemma pe_attr n e : PE (attr_of n e). Proof. unfold attr_of, strip_warn. pe. Qed.
Lemma pe_to_int t : PE (to_int t). Proof. unfold to_int. pe. Qed.
Lemma pe_to_bool t : PE (to_bool t). Proof. unfold to_bool. pe. Qed.
Lemma pe_from {A} (f : string -> option A) t : PE (from_str f t). Proof. unfold from_str. pe. Qed.
Lemma pe_access t : PE (access_from_str t). Proof. unfold access_from_str. pe. Qed.
Lemma pe_opt {A B} (f : A -> M B) o : (forall a, PE (f a)) -> PE (opt_m f o). Proof. intros H. unfold opt_m. pe. apply H. Qed.
Ltac pes := repeat first
  [ progress pe | apply pe_text | apply pe_req | apply pe_attr | apply pe_to_int | apply pe_to_bool | apply pe_from | apply pe_access
  | apply pe_opt; intros ? | progress unfold opt_int, opt_bool, opt_text, req_int ].
Lemma pe_props e : PE (parse_props e). Proof. unfold parse_props. pes. Qed.
Lemma pe_sau_region e : PE (parse_sau_region e). Proof. unfold parse_sau_region. pes. Qed.
Lemma pe_sau e : PE (parse_sau_config e). Proof. unfold parse_sau_config. pes. apply pe_sau_region. Qed.
Lemma pe_cpu e : PE (parse_cpu e). Proof. unfold parse_cpu. pes. apply pe_sau. Qed.
Lemma pe_ev e : PE (parse_ev e). Proof. unfold parse_ev. pes. Qed.
Lemma pe_dai e : PE (parse_dai e). Proof. unfold parse_dai. pes. apply pe_ev. Qed.
Lemma pe_dim e : PE (parse_dim e). Proof. unfold parse_dim. pes. apply pe_dai. Qed.
Lemma pe_wc e : PE (parse_wc e). Proof. unfold parse_wc. pes. Qed.
Lemma pe_evc e : PE (parse_evc e). Proof. unfold parse_evc. pes. apply pe_ev. Qed.
Lemma pe_field e : PE (parse_field e). Proof. unfold parse_field. pes; auto using pe_wc, pe_evc, pe_dim. Qed.
Lemma pe_register e : PE (parse_register e). Proof. unfold parse_register, parse_fields. pes; auto using pe_wc, pe_field, pe_dim, pe_props. Qed.
Lemma pe_cluster ch e : PE ch -> PE (parse_cluster_with ch e). Proof. intros H. unfold parse_cluster_with. pes; auto using pe_dim, pe_props. Qed.
Lemma pe_rc e : PE (parse_rc e).
Proof.
  induction e as [t a x ks IH|] using xml_ind2; [|apply emits_ret]. rewrite parse_rc_eq.
  assert (Hk : PE (parse_rcs ks)) by (clear a x t; induction IH; cbn [parse_rcs]; pe).
  pe; [apply pe_register|now apply pe_cluster].
Qed.
Lemma pe_rcs l : PE (parse_rcs l). Proof. induction l; cbn [parse_rcs]; pe. apply pe_rc. Qed.
Lemma pe_int e : PE (parse_interrupt e). Proof. unfold parse_interrupt. pes. Qed.
Lemma pe_ab e : PE (parse_ab e). Proof. unfold parse_ab. pes. Qed.
Lemma pe_per e : PE (parse_peripheral e). Proof. unfold parse_peripheral. pes; auto using pe_int, pe_ab, pe_rcs, pe_dim, pe_props. Qed.
Lemma pe_device doc : PE (parse_device doc).
Proof. unfold parse_device, parse_schema_location, req_attr, parse_peripherals. pes; auto using pe_props, pe_per, pe_cpu. Qed.

(** the same for legible documents: only missing elements are errors *)
Lemma legible_kid e c : Legible e -> In c (xml_kids e) -> Legible c.
Proof.
  intros H Hc e' Hw. apply H. clear H. induction Hw as [|e'' k _ IH Hk].
  - eapply within_kid; [apply within_root|exact Hc].
  - eapply within_kid; eauto.
Qed.
Lemma gives_miss {A} (m : M A) a : gives m a -> MISS m.
Proof. intros [ws ->]. split; [|exact I]. cbn. clear. induction ws; constructor; auto. Qed.
Lemma miss_text n b e : Legible e -> In n simple_names -> MISS (text_of n b e).
Proof.
  intros H Hn. destruct (H e (within_root e)) as (_ & Hr & _). destruct (Hr n Hn) as [o Ho]. destruct b.
  - eapply gives_miss with (a := option_map strip o). apply text_of_gives. exists o. split; [exact Ho|].
    destruct o; cbn; [now apply stripped_iff|exact I].
  - eapply gives_miss, raw_gives, Ho.
Qed.
Lemma miss_req n e : Legible e -> In n simple_names -> MISS (req_text n true e).
Proof. intros H Hn. unfold req_text. pe. now apply miss_text. Qed.
Lemma miss_attr n e : MISS (attr_of n e). Proof. unfold attr_of, strip_warn. pe. Qed.
(** a text that is read then converted *)
Lemma miss_reads {A} (f : string -> M A) (R : string -> A -> Prop) n e t : (forall t a, gives (f t) a <-> R t a) -> Legible e -> In n simple_names ->
  (forall u, RightKind e n u -> exists v, R u v) -> gives (text_of n true e) t -> MISS (opt_m f t).
Proof.
  intros Hf H Hn Hk Ht. destruct t as [t|]; cbn; [|apply emits_ret]. apply text_gives in Ht.
  destruct (H e (within_root e)) as (Hr & _). destruct (Hk t (Hr n t Hn Ht)) as [v Hv]. pe. eapply gives_miss. apply Hf. exact Hv.
Qed.
Lemma miss_must {A} (f : string -> M A) (R : string -> A -> Prop) n e t : (forall t a, gives (f t) a <-> R t a) -> Legible e -> In n simple_names ->
  (forall u, RightKind e n u -> exists v, R u v) -> gives (req_text n true e) t -> MISS (f t).
Proof.
  intros Hf H Hn Hk Ht. apply req_text_gives in Ht.
  destruct (H e (within_root e)) as (Hr & _). destruct (Hk t (Hr n t Hn Ht)) as [v Hv]. eapply gives_miss. apply Hf. exact Hv.
Qed.
Lemma miss_access t : MISS (access_from_str t). Proof. unfold access_from_str. pe. Qed.

Lemma miss_bind {A B} (m : M A) (f : A -> M B) : MISS m -> (forall a, gives m a -> MISS (f a)) -> MISS (bind m f).
Proof. intros H1 H2. apply emits_bind; [exact H1|]. intros ws a E. apply H2. now exists ws. Qed.
Lemma miss_opt_int n e : Legible e -> In n int_names -> MISS (opt_int n e).
Proof.
  intros H Hn. assert (Hs : In n simple_names) by (apply in_or_app; now left). unfold opt_int. apply miss_bind; [now apply miss_text|].
  intros t. apply (miss_reads to_int IntText); auto using int_text. intros u (Hi & _). auto.
Qed.
Lemma miss_req_int n e : Legible e -> In n int_names -> MISS (req_int n e).
Proof.
  intros H Hn. assert (Hs : In n simple_names) by (apply in_or_app; now left). unfold req_int. apply miss_bind; [now apply miss_req|].
  intros t. apply (miss_must to_int IntText); auto using int_text. intros u (Hi & _). auto.
Qed.
Lemma bool_simple n : In n bool_names -> In n simple_names.
Proof. intros H. apply in_or_app. right. apply in_or_app. now left. Qed.
Lemma miss_opt_bool n e : Legible e -> In n bool_names -> MISS (opt_bool n e).
Proof.
  intros H Hn. unfold opt_bool. apply miss_bind; [apply miss_text; auto using bool_simple|].
  intros t. apply (miss_reads to_bool BoolText); auto using bool_text_iff, bool_simple. intros u (_ & Hi & _). auto.
Qed.
Ltac nm := cbn; repeat (first [left; reflexivity | right]).
Lemma miss_opt {A B} (f : A -> M B) o : (forall a, o = Some a -> MISS (f a)) -> MISS (opt_m f o).
Proof. intros H. destruct o; cbn; [|apply emits_ret]. pe. auto. Qed.
Lemma miss_kids {A} (f : xml -> M A) n e : Legible e -> (forall c, Legible c -> Named n c -> MISS (f c)) -> MISS (mapM f (findall n e)).
Proof.
  intros H Hf. apply emits_mapM. intros c Hc. apply filter_In in Hc as [Hc Ht]. apply Hf; [now apply (legible_kid e)|now apply has_tag_iff].
Qed.
Lemma miss_kid {A} (f : xml -> M A) n e : Legible e -> (forall c, Legible c -> Named n c -> MISS (f c)) -> MISS (opt_m f (xfind n e)).
Proof.
  intros H Hf. apply miss_opt. intros c Hc. unfold xfind in Hc. assert (Hi : In c (findall n e)) by (destruct (findall n e); [discriminate|injection Hc as ->; now left]).
  apply filter_In in Hi as [Hi Ht]. apply Hf; [now apply (legible_kid e)|now apply has_tag_iff].
Qed.
Ltac ms :=
  match goal with
  | |- Emits _ _ (ret _) => apply emits_ret
  | |- Emits _ _ (warn _) => apply emits_warn; exact I
  | |- Emits _ _ (raise ParserException _) => apply emits_raise; reflexivity
  | |- Emits _ _ (bind _ _) => apply miss_bind; [|intros ? ?]
  | |- Emits _ _ (opt_int _ _) => apply miss_opt_int; [assumption|solve [nm]]
  | |- Emits _ _ (req_int _ _) => apply miss_req_int; [assumption|solve [nm]]
  | |- Emits _ _ (opt_bool _ _) => apply miss_opt_bool; [assumption|solve [nm]]
  | |- Emits _ _ (text_of _ _ _) => apply miss_text; [assumption|solve [nm]]
  | |- Emits _ _ (opt_text _ _) => apply miss_text; [assumption|solve [nm]]
  | |- Emits _ _ (req_text _ _ _) => apply miss_req; [assumption|solve [nm]]
  | |- Emits _ _ (attr_of _ _) => apply miss_attr
  | |- Emits _ _ (access_from_str _) => apply miss_access
  | G : gives (opt_text ?n ?e) ?t |- Emits _ _ (opt_m (from_str _) ?t) =>
      eapply (miss_reads _ _ n e); [intros; eapply key_text; key|eassumption|solve [nm]|intros ? HK; unfold RightKind in HK; decompose [and] HK; solve [eauto]|exact G]
  | G : gives (req_text ?n _ ?e) ?t |- Emits _ _ (from_str cpu_from_str ?t) =>
      eapply (miss_must _ _ n e); [intros; eapply cpu_text|eassumption|solve [nm]|intros ? HK; unfold RightKind in HK; decompose [and] HK; solve [eauto]|exact G]
  | G : gives (req_text ?n _ ?e) ?t |- Emits _ _ (from_str _ ?t) =>
      eapply (miss_must _ _ n e); [intros; eapply key_text; key|eassumption|solve [nm]|intros ? HK; unfold RightKind in HK; decompose [and] HK; solve [eauto]|exact G]
  | |- Emits _ _ (opt_m _ (xfind _ _)) => apply miss_kid; [assumption|intros ? ? ?]
  | |- Emits _ _ (mapM _ (findall _ _)) => apply miss_kids; [assumption|intros ? ? ?]
  | |- Emits _ _ (match ?x with _ => _ end) => destruct x
  end.
Lemma ms_props e : Legible e -> MISS (parse_props e).
Proof. intros H. unfold parse_props. repeat ms. Qed.
Lemma ms_attr_bool e t : Legible e -> gives (attr_of "enabled" e) t -> MISS (opt_m to_bool t).
Proof.
  intros H Ht. apply miss_opt. intros a ->. apply attr_gives in Ht. destruct (H e (within_root e)) as (_ & _ & Hb & _).
  destruct (Hb a Ht) as [b Hv]. eapply gives_miss. apply bool_text_iff. exact Hv.
Qed.
Lemma ms_attr_prot e t : Legible e -> gives (attr_of "protectionWhenDisabled" e) t -> MISS (opt_m (from_str protection_from_str) t).
Proof.
  intros H Ht. apply miss_opt. intros a ->. apply attr_gives in Ht. destruct (H e (within_root e)) as (_ & _ & _ & Hb).
  destruct (Hb a Ht) as [b Hv]. eapply gives_miss. eapply key_text; [key|exact Hv].
Qed.
Lemma ms_sau_region e : Legible e -> Named "region" e -> MISS (parse_sau_region e).
Proof. intros H Hn. unfold parse_sau_region. repeat ms. now apply (ms_attr_bool e). Qed.
Lemma ms_sau e : Legible e -> MISS (parse_sau_config e).
Proof. intros H. unfold parse_sau_config. repeat ms; [now apply (ms_attr_bool e)|now apply ms_sau_region|now apply (ms_attr_prot e)]. Qed.
Lemma ms_cpu e : Legible e -> Named "cpu" e -> MISS (parse_cpu e).
Proof.
  intros H Hn. unfold parse_cpu. repeat ms; [|now apply ms_sau].
  eapply (miss_must _ _ "vendorSystickConfig"); [apply bool_text_iff|exact H|solve [nm]|intros ? (_ & HB & _); apply HB; solve [nm]|assumption].
Qed.
Lemma ms_ev e : Legible e -> MISS (parse_ev e). Proof. intros H. unfold parse_ev. repeat ms. Qed.
Lemma ms_dai e : Legible e -> MISS (parse_dai e). Proof. intros H. unfold parse_dai. repeat ms. now apply ms_ev. Qed.
Lemma ms_dim e : Legible e -> MISS (parse_dim e). Proof. intros H. unfold parse_dim. repeat ms. now apply ms_dai. Qed.
Lemma ms_wc e : Legible e -> MISS (parse_wc e). Proof. intros H. unfold parse_wc. repeat ms. Qed.
Lemma ms_evc e : Legible e -> Named "enumeratedValues" e -> MISS (parse_evc e). Proof. intros H Hn. unfold parse_evc. repeat ms. now apply ms_ev. Qed.
Lemma ms_field e : Legible e -> MISS (parse_field e). Proof. intros H. unfold parse_field. repeat ms; auto using ms_wc, ms_evc, ms_dim. Qed.
Lemma ms_fields e : Legible e -> MISS (parse_fields e).
Proof.
  intros H. unfold parse_fields. apply emits_mapM. intros c Hc. apply in_flat_map in Hc as (s & Hs & Hc). unfold findall in *.
  apply filter_In in Hs as [Hs _]. apply filter_In in Hc as [Hc _]. apply ms_field. eapply legible_kid; [|exact Hc]. eapply legible_kid; eauto.
Qed.
Lemma ms_register e : Legible e -> MISS (parse_register e).
Proof. intros H. unfold parse_register. repeat ms; auto using ms_wc, ms_fields, ms_dim, ms_props. Qed.
Lemma ms_cluster ch e : Legible e -> MISS ch -> MISS (parse_cluster_with ch e).
Proof. intros H Hc. unfold parse_cluster_with. repeat ms; auto using ms_dim, ms_props. Qed.
Lemma ms_rc e : Legible e -> MISS (parse_rc e).
Proof.
  induction e as [t a x ks IH|] using xml_ind2; intros H; [|apply emits_ret]. rewrite parse_rc_eq.
  assert (Hl : Forall Legible ks) by (apply Forall_forall; intros c Hc; now apply (legible_kid (Elem t a x ks))).
  assert (Hk : MISS (parse_rcs ks)).
  { clear H. induction IH as [|k ks Hk _ IHk]; cbn [parse_rcs]; [apply emits_ret|]. inversion Hl; subst. repeat ms; auto. }
  repeat ms; [now apply ms_register|now apply ms_cluster].
Qed.
Lemma ms_rcs l : Forall Legible l -> MISS (parse_rcs l).
Proof. induction 1; cbn [parse_rcs]; repeat ms; auto using ms_rc. Qed.
Lemma ms_int e : Legible e -> Named "interrupt" e -> MISS (parse_interrupt e).
Proof.
  intros H Hn. unfold parse_interrupt. repeat ms.
  assert (E : MISS (opt_m to_int (Some s))).
  { eapply (miss_reads to_int IntText "value"); [apply int_text|exact H|solve [nm]|intros ? (HI & _); apply HI; auto|eassumption]. }
  destruct E as [_ E]. unfold opt_m in E. split; [|destruct (to_int s) as [w [v|x]]; [exact I|exact E]].
  apply Forall_forall. auto.
Qed.
Lemma ms_ab e : Legible e -> Named "addressBlock" e -> MISS (parse_ab e). Proof. intros H Hn. unfold parse_ab. repeat ms. Qed.
Lemma ms_per e : Legible e -> MISS (parse_peripheral e).
Proof.
  intros H. unfold parse_peripheral. repeat ms; auto using ms_int, ms_ab, ms_dim, ms_props. apply ms_rcs.
  apply Forall_forall. intros c Hc. apply in_flat_map in Hc as (s & Hs & Hc). unfold findall in *. apply filter_In in Hs as [Hs _].
  eapply legible_kid; [|exact Hc]. eapply legible_kid; eauto.
Qed.
Lemma ms_peripherals e : Legible e -> MISS (parse_peripherals e).
Proof.
  intros H. unfold parse_peripherals. destruct (xfind "peripherals" e) as [c|] eqn:E; [|now apply emits_raise]. unfold xfind in E.
  assert (Hi : In c (findall "peripherals" e)) by (destruct (findall "peripherals" e); [discriminate|injection E as ->; now left]).
  apply filter_In in Hi as [Hi _]. apply miss_kids; [now apply (legible_kid e)|auto using ms_per].
Qed.
Lemma ms_device doc : Legible (doc_root doc) -> MISS (parse_device doc).
Proof.
  intros H. unfold parse_device, parse_schema_location, req_attr. cbv zeta. repeat ms; auto using ms_props, ms_cpu, ms_peripherals.
Qed.

(** the parser fails with one of three exceptions only *)
Theorem C28_error_classes doc ws c s : parse_device doc = (ws, Err (E c s)) -> c = ParserException \/ c = NotImplementedError \/ c = TypeError.
Proof. intros H. destruct (pe_device doc) as [_ P]. rewrite H in P. exact P. Qed.
(** a document all of whose texts are of the right kind is rejected exactly if something mandatory is missing, with a ParserException *)
Theorem C28_missing doc : Legible (doc_root doc) ->
  (exists d, reads_device doc d) \/ ((forall d, ~ reads_device doc d) /\ exists ws s, parse_device doc = (ws, Err (E ParserException s))).
Proof.
  intros H. destruct (ms_device doc H) as [_ P]. destruct (parse_device doc) as [ws [d|[c s]]] eqn:E; cbn in P.
  - left. exists d. apply C28_reads. eauto.
  - right. subst c. split; [|eauto]. intros d Hd. apply C28_reads in Hd as [ws' Hd]. congruence.
Qed.
(** what an element stands for is unique *)
Theorem C28_unambiguous doc d d' : reads_device doc d -> reads_device doc d' -> d = d'.
Proof. intros H H'. apply C28_reads in H as [ws H], H' as [ws' H']. congruence. Qed.
