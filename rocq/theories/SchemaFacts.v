(** * SchemaFacts: consequences of validity against the schema (for C57, C58) *)
From Verif Require Import Base PyStr PyInt Types ParseModel SpecText SpecParse SpecSchema TextFacts PropsText PropsParse.

(** ** Names and types of the children *)
Fixpoint decls (p : particle) : list (string * string) :=
  match p with
  | El n ty => [(n, ty)]
  | Seq l | Alt l => concat (map decls l)
  | Occurs p _ _ => decls p
  | AnyElements => []
  end.
Fixpoint has_any (p : particle) : bool :=
  match p with
  | El _ _ => false
  | Seq l | Alt l => existsb has_any l
  | Occurs p _ _ => has_any p
  | AnyElements => true
  end.

Scheme valid_mind := Minimality for Valid Sort Prop
  with cm_mind := Minimality for Children_match Sort Prop.
Scheme cm_ind1 := Minimality for Children_match Sort Prop.

Definition Declared (P : string -> xml -> Prop) r (p : particle) (e : xml) : Prop :=
  exists n ty, In (n, ty) (decls p) /\ Named n e /\ Valid r ty e /\ P ty e.

Lemma valid_deep r (P : string -> xml -> Prop) :
  (forall ty n t, InSimple r ty (content t) -> P ty (Elem n [] t [])) ->
  (forall ty ct n a t ks, complex_type r ty = Some ct -> AttrsValid r (ct_attrs ct) a -> Matches (Many blank) (content t) ->
     Children_match r (ct_content ct) (filter is_element ks) ->
     (has_any (ct_content ct) = false -> forall e, In e (filter is_element ks) -> Declared P r (ct_content ct) e) ->
     P ty (Elem n a t ks)) ->
  forall ty e, Valid r ty e -> P ty e.
Proof.
  intros Hs Hc.
  apply (valid_mind r P (fun p l => has_any p = false -> forall e, In e l -> Declared P r p e)).
  - exact Hs.
  - intros ty ct n a t ks H1 H2 H3 H4 H5. eapply Hc; eauto.
  - intros n ty e Hn Hv HP _ e' [<-|[]]. exists n, ty. cbn. auto.
  - intros _ e [].
  - intros p ps l1 l2 _ H1 _ H2 Ha e He. cbn in Ha. apply orb_false_iff in Ha as [Ha1 Ha2].
    apply in_app_iff in He as [He|He].
    + destruct (H1 Ha1 e He) as (n & ty & Hi & H). exists n, ty. split; [cbn; apply in_app_iff; auto|exact H].
    + destruct (H2 Ha2 e He) as (n & ty & Hi & H). exists n, ty. split; [cbn; apply in_app_iff; auto|exact H].
  - intros p ps l Hin _ H Ha e He.
    assert (Hp : has_any p = false).
    { cbn in Ha. destruct (has_any p) eqn:E; [|reflexivity]. rewrite <- Ha. symmetry. apply existsb_exists. exists p. auto. }
    destruct (H Hp e He) as (n & ty & Hi & H'). exists n, ty. split; [|exact H'].
    cbn. apply in_concat. exists (decls p). split; [now apply in_map|exact Hi].
  - intros p max _ e [].
  - intros p min max l1 l2 _ _ H1 _ H2 Ha e He. apply in_app_iff in He as [He|He].
    + destruct (H1 Ha e He) as (n & ty & Hi & H). exists n, ty. split; [exact Hi|exact H].
    + destruct (H2 Ha e He) as (n & ty & Hi & H). exists n, ty. split; [exact Hi|exact H].
  - intros l Ha. discriminate.
Qed.

Lemma cm_declared r p l : Children_match r p l -> has_any p = false -> forall e, In e l -> Declared (fun _ _ => True) r p e.
Proof.
  intros H Ha.
  assert (Hcm : forall q l', Children_match r q l' -> has_any q = false -> forall e, In e l' -> Declared (fun _ _ => True) r q e).
  { clear. apply (cm_ind1 r (fun p l => has_any p = false -> forall e, In e l -> Declared (fun _ _ => True) r p e)).
    - intros n ty e Hn Hv _ e' [<-|[]]. exists n, ty. cbn. auto.
    - intros _ e [].
    - intros p ps l1 l2 _ H1 _ H2 Ha e He. cbn in Ha. apply orb_false_iff in Ha as [Ha1 Ha2].
      apply in_app_iff in He as [He|He].
      + destruct (H1 Ha1 e He) as (n & ty & Hi & H). exists n, ty. split; [cbn; apply in_app_iff; auto|exact H].
      + destruct (H2 Ha2 e He) as (n & ty & Hi & H). exists n, ty. split; [cbn; apply in_app_iff; auto|exact H].
    - intros p ps l Hin _ H Ha e He.
      assert (Hp : has_any p = false).
      { cbn in Ha. destruct (has_any p) eqn:E; [|reflexivity]. rewrite <- Ha. symmetry. apply existsb_exists. exists p. auto. }
      destruct (H Hp e He) as (n & ty & Hi & H'). exists n, ty. split; [|exact H'].
      cbn. apply in_concat. exists (decls p). split; [now apply in_map|exact Hi].
    - intros p max _ e [].
    - intros p min max l1 l2 _ _ H1 _ H2 Ha e He. apply in_app_iff in He as [He|He].
      + destruct (H1 Ha e He) as (n & ty & Hi & H). exists n, ty. split; [exact Hi|exact H].
      + destruct (H2 Ha e He) as (n & ty & Hi & H). exists n, ty. split; [exact Hi|exact H].
    - intros l Ha. discriminate. }
  eauto.
Qed.

(** ** Weights: how often the children occur *)
Definition tag_weight (w : string -> Z) (e : xml) : Z := match e with Elem n _ _ _ => w n | Other => 0 end.
Fixpoint weigh (w : string -> Z) (l : list xml) : Z := match l with [] => 0 | e :: l' => tag_weight w e + weigh w l' end.
Definition oadd (a b : option Z) : option Z := match a, b with Some x, Some y => Some (x + y) | _, _ => None end.
Definition ocomb (f : Z -> Z -> Z) (a b : option Z) : option Z := match a, b with Some x, Some y => Some (f x y) | _, _ => None end.
Definition rep_lo (lo : option Z) (min : nat) (max : option nat) : option Z :=
  match lo with
  | None => None
  | Some x => if 0 <=? x then Some (x * Z.of_nat min) else match max with Some m => Some (x * Z.of_nat m) | None => None end
  end.
Definition rep_hi (hi : option Z) (min : nat) (max : option nat) : option Z :=
  match hi with
  | None => None
  | Some x => if x <=? 0 then Some (x * Z.of_nat min) else match max with Some m => Some (x * Z.of_nat m) | None => None end
  end.
Fixpoint best (f : Z -> Z -> Z) (l : list (option Z)) : option Z :=
  match l with [] => Some 0 | [x] => x | x :: l' => ocomb f x (best f l') end.
Fixpoint lo (w : string -> Z) (p : particle) : option Z :=
  match p with
  | El n _ => Some (w n)
  | Seq l => fold_right oadd (Some 0) (map (lo w) l)
  | Alt l => best Z.min (map (lo w) l)
  | Occurs p min max => rep_lo (lo w p) min max
  | AnyElements => None
  end.
Fixpoint hi (w : string -> Z) (p : particle) : option Z :=
  match p with
  | El n _ => Some (w n)
  | Seq l => fold_right oadd (Some 0) (map (hi w) l)
  | Alt l => best Z.max (map (hi w) l)
  | Occurs p min max => rep_hi (hi w p) min max
  | AnyElements => None
  end.
Definition above (o : option Z) (x : Z) : Prop := match o with Some y => y <= x | None => True end.
Definition below (x : Z) (o : option Z) : Prop := match o with Some y => x <= y | None => True end.

Lemma weigh_app w a b : weigh w (a ++ b) = weigh w a + weigh w b.
Proof. induction a as [|x a IH]; cbn; [reflexivity|]. rewrite IH. lia. Qed.
Lemma above_min a b x : above a x \/ above b x -> above (ocomb Z.min a b) x.
Proof. destruct a, b; cbn; intros; try exact Logic.I. lia. Qed.
Lemma below_max a b x : below x a \/ below x b -> below x (ocomb Z.max a b).
Proof. destruct a, b; cbn; intros; try exact Logic.I. lia. Qed.
Lemma best_min l o x : In o l -> above o x -> above (best Z.min l) x.
Proof.
  induction l as [|a l IH]; [intros []|]. intros Hi Hx. destruct l as [|b l].
  - destruct Hi as [->|[]]. exact Hx.
  - apply above_min. destruct Hi as [->|Hi]; [left; exact Hx|right; exact (IH Hi Hx)].
Qed.
Lemma best_max l o x : In o l -> below x o -> below x (best Z.max l).
Proof.
  induction l as [|a l IH]; [intros []|]. intros Hi Hx. destruct l as [|b l].
  - destruct Hi as [->|[]]. exact Hx.
  - apply below_max. destruct Hi as [->|Hi]; [left; exact Hx|right; exact (IH Hi Hx)].
Qed.

Lemma weigh_bounds r w p l : Children_match r p l -> above (lo w p) (weigh w l) /\ below (weigh w l) (hi w p).
Proof.
  revert p l. apply (cm_ind1 r (fun p l => above (lo w p) (weigh w l) /\ below (weigh w l) (hi w p))).
  - intros n ty e (a & t & ks & ->) _. cbn. lia.
  - cbn. lia.
  - intros p ps l1 l2 _ [H1 H2] _ [H3 H4]. rewrite weigh_app. cbn [lo hi map fold_right] in *.
    destruct (lo w p), (fold_right oadd (Some 0) (map (lo w) ps)); cbn in *;
    destruct (hi w p), (fold_right oadd (Some 0) (map (hi w) ps)); cbn in *; lia.
  - intros p ps l Hi _ [H1 H2]. cbn [lo hi]. split.
    + eapply best_min; [apply in_map, Hi|exact H1].
    + eapply best_max; [apply in_map, Hi|exact H2].
  - intros p max. cbn [lo hi weigh]. unfold rep_lo, rep_hi. split.
    + destruct (lo w p) as [x|]; [|exact Logic.I]. destruct (0 <=? x) eqn:E; cbn; [lia|]. destruct max; cbn; nia.
    + destruct (hi w p) as [x|]; [|exact Logic.I]. destruct (x <=? 0) eqn:E; cbn; [lia|]. destruct max; cbn; nia.
  - intros p min max l1 l2 Hm _ [H1 H2] _ [H3 H4]. rewrite weigh_app. cbn [lo hi] in *. unfold rep_lo, rep_hi in *. split.
    + destruct (lo w p) as [x|]; [|exact Logic.I]. destruct (0 <=? x) eqn:E; cbn in *.
      * destruct min; cbn in *; nia.
      * destruct max as [m|]; cbn in *; [|exact Logic.I]. destruct m; [contradiction|]. cbn in *. nia.
    + destruct (hi w p) as [x|]; [|exact Logic.I]. destruct (x <=? 0) eqn:E; cbn in *.
      * destruct min; cbn in *; nia.
      * destruct max as [m|]; cbn in *; [|exact Logic.I]. destruct m; [contradiction|]. cbn in *. nia.
  - intros l. cbn. auto.
Qed.

(** how many children are called [n] *)
Definition ind (n m : string) : Z := if String.eqb m n then 1 else 0.
Definition cnt (n : string) (e : xml) : Z := weigh (ind n) (filter is_element (xml_kids e)).
Lemma weigh_add f g l : weigh (fun m => f m + g m) l = weigh f l + weigh g l.
Proof. induction l as [|[n a t ks|] l IH]; cbn; [reflexivity| |]; rewrite ?IH; lia. Qed.
Lemma weigh_sub f g l : weigh (fun m => f m - g m) l = weigh f l - weigh g l.
Proof. induction l as [|[n a t ks|] l IH]; cbn; [reflexivity| |]; rewrite ?IH; lia. Qed.
Lemma filter_elements n l : filter (has_tag n) (filter is_element l) = filter (has_tag n) l.
Proof.
  induction l as [|[m a t ks|] l IH]; cbn; [reflexivity| |exact IH]. destruct (String.eqb m n); cbn; now rewrite IH.
Qed.
Lemma weigh_ind n l : weigh (ind n) l = Z.of_nat (length (filter (has_tag n) l)).
Proof.
  induction l as [|[m a t ks|] l IH]; cbn [weigh filter has_tag tag_weight]; [reflexivity| |].
  - rewrite IH. unfold ind. destruct (String.eqb m n); cbn [length]; lia.
  - rewrite IH. lia.
Qed.
Lemma cnt_length n e : cnt n e = Z.of_nat (length (filter (has_tag n) (xml_kids e))).
Proof. unfold cnt. now rewrite weigh_ind, filter_elements. Qed.
Lemma named_element n e : Named n e -> is_element e = true.
Proof. intros (a & t & ks & ->). reflexivity. Qed.

(** the type of the children called [n], if the declarations agree on it *)
Definition one_type (p : particle) (n ty : string) : bool :=
  forallb (fun d => negb (String.eqb (fst d) n) || String.eqb (snd d) ty) (decls p).
Lemma named_fun n m e : Named n e -> Named m e -> n = m.
Proof. intros (a & t & ks & ->) (a' & t' & ks' & H). now injection H. Qed.
Lemma child_type r p e n ty c : Children_match r p (filter is_element (xml_kids e)) -> has_any p = false -> one_type p n ty = true ->
  In c (xml_kids e) -> Named n c -> Valid r ty c.
Proof.
  intros Hm Ha Ho Hi Hn.
  destruct (cm_declared r p _ Hm Ha c) as (m & ty' & Hd & Hm' & Hv & _).
  { apply filter_In. split; [exact Hi|]. eapply named_element; eauto. }
  rewrite (named_fun n m c Hn Hm') in *. unfold one_type in Ho. rewrite forallb_forall in Ho. specialize (Ho _ Hd). cbn in Ho.
  rewrite String.eqb_refl in Ho. cbn in Ho. apply String.eqb_eq in Ho. now subst.
Qed.
