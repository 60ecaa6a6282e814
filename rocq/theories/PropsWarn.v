(** * PropsWarn: the parser warns about exactly what is peculiar (C62) *)
From Verif Require Import Base PyStr PyInt Types TextFacts ParseModel SpecText SpecParse PropsParse SamplesParse SpecWarn.

(** all warnings of [m] are those of [P]; if [m] succeeds, all those of [P] are there *)
Definition Wn {A} (m : M A) (P : warning -> Prop) : Prop :=
  forall ws r, m = (ws, r) -> forall w, (In w ws -> P w) /\ (forall x, r = Ok x -> P w -> In w ws).
Definition none : warning -> Prop := fun _ => False.

Lemma Wn_eq {A} (m : M A) P Q : Wn m P -> (forall w, P w <-> Q w) -> Wn m Q.
Proof. intros H HE ws x Hm w. destruct (H _ _ Hm w) as [H1 H2]. split; [intros Hw; now apply HE, H1|]. intros y Hy HQ. eapply H2; [exact Hy|now apply HE]. Qed.
Lemma Wn_bind {A B} (m : M A) (f : A -> M B) P Q : Wn m P -> (forall x, gives m x -> Wn (f x) Q) -> Wn (bind m f) (fun w => P w \/ Q w).
Proof.
  intros H HF ws r Hb w. destruct m as [ws1 [a|e]] eqn:Hm; cbn [bind] in Hb.
  - destruct (f a) as [ws2 r2] eqn:Hf. injection Hb as <- <-. destruct (H _ _ eq_refl w) as [H1 H2].
    destruct (HF a (ex_intro _ _ eq_refl) _ _ Hf w) as [H3 H4]. cbv beta.
    split; [rewrite in_app_iff; tauto|]. intros x -> [HP|HQ]; apply in_or_app; [left; now apply (H2 a)|right; now apply (H4 x)].
  - injection Hb as <- <-. destruct (H _ _ eq_refl w) as [H1 _]. cbv beta. split; [tauto|]. intros x Hx. discriminate.
Qed.
Lemma Wn_ret {A} (a : A) : Wn (ret a) none.
Proof. intros ws x H w. injection H as <- _. cbn. unfold none. tauto. Qed.
Lemma Wn_raise {A} c s P : Wn (@raise A c s) P.
Proof. intros ws x H w. injection H as <- <-. split; [intros []|]. intros y Hy. discriminate. Qed.
Lemma Wn_warn w0 : Wn (warn w0) (fun w => w = w0).
Proof. intros ws x H w. injection H as <- _. cbn. split; [intros [->|[]]; reflexivity|]. intros y _ ->. auto. Qed.
Lemma Wn_mapM {A B} (f : A -> M B) P l : (forall a, In a l -> Wn (f a) (P a)) -> Wn (mapM f l) (fun w => exists a, In a l /\ P a w).
Proof.
  induction l as [|a l IH]; intros H; cbn [mapM].
  - eapply Wn_eq; [apply Wn_ret|]. intros w. unfold none. firstorder.
  - eapply Wn_eq. { apply Wn_bind; [apply H; now left|]. intros x _. apply Wn_bind; [apply IH; intros b Hb; apply H; now right|].
      intros y _. apply Wn_ret. }
    intros w. unfold none. cbn [In]. split.
    + intros [HP|[(b & Hb & HP)|[]]]; eauto.
    + intros (b & [->|Hb] & HP); eauto.
Qed.
Lemma Wn_opt {A B} (f : A -> M B) P o : (forall a, o = Some a -> Wn (f a) (P a)) -> Wn (opt_m f o) (fun w => exists a, o = Some a /\ P a w).
Proof.
  destruct o as [a|]; intros H; cbn [opt_m].
  - eapply Wn_eq; [apply Wn_bind; [apply H; reflexivity|]; intros x _; apply Wn_ret|]. unfold none. intros w. split.
    + intros [HP|[]]; eauto.
    + intros (b & Hb & HP). injection Hb as <-. auto.
  - eapply Wn_eq; [apply Wn_ret|]. unfold none. intros w. split; [easy|]. intros (a & Ha & _). discriminate.
Qed.
Lemma Wn_opt_silent {A B} (f : A -> M B) o : (forall a, Wn (f a) none) -> Wn (opt_m f o) none.
Proof. intros H. eapply Wn_eq; [apply (Wn_opt f (fun _ => none)); auto|]. unfold none. firstorder. Qed.
Lemma Wn_to_int t : Wn (to_int t) none.
Proof. unfold to_int. destruct (py_int 0 _); [apply Wn_ret|]. destruct (py_int 10 _); [apply Wn_ret|apply Wn_raise]. Qed.
Lemma Wn_to_bool t : Wn (to_bool t) none.
Proof. unfold to_bool. repeat match goal with |- context [if ?b then _ else _] => destruct b end; first [apply Wn_ret | apply Wn_raise]. Qed.
Lemma Wn_from_str {A} (f : string -> option A) t : Wn (from_str f t) none.
Proof. unfold from_str. destruct (f t); [apply Wn_ret|apply Wn_raise]. Qed.

Lemma padded_iff t : Padded t <-> strip t <> t.
Proof.
  split.
  - intros [(c & r & -> & HS)|(c & r & -> & HS)] Heq.
    + assert (H : Stripped (String c r) (String c r)) by (apply stripped_iff; auto).
      destruct H as (w1 & w2 & _ & _ & _ & H & _). now apply (H c r eq_refl).
    + assert (H : Stripped (r ++ String c "") (r ++ String c "")) by (apply stripped_iff; auto).
      destruct H as (w1 & w2 & _ & _ & _ & _ & H). now apply (H c r eq_refl).
  - intros Hne. assert (H : Stripped t (strip t)) by (apply stripped_iff; reflexivity).
    destruct H as (w1 & w2 & Ht & H1 & H2 & _). destruct w1 as [|c r].
    + right. destruct w2 as [|c r].
      { exfalso. apply Hne. rewrite Ht at 2. cbn. now rewrite sapp_nil_r. }
      destruct (exists_last (l := list_ascii_of_string (String c r))) as (l & a & Hl); [easy|].
      assert (Hs : String c r = (string_of_list_ascii l ++ String a "")%string).
      { rewrite <- (string_of_list_ascii_of_string (String c r)), Hl. clear. induction l as [|x l IH]; cbn; [reflexivity|now rewrite IH]. }
      exists a, (strip t ++ string_of_list_ascii l)%string. split.
      * rewrite Ht at 1. cbn [append]. rewrite Hs. now rewrite sapp_assoc.
      * apply H2. rewrite Hl. apply in_or_app. right. now left.
    + left. exists c, (r ++ strip t ++ w2)%string. split; [rewrite Ht at 1; reflexivity|]. apply H1. now left.
Qed.

Lemma Wn_strip n t : Wn (strip_warn n t) (fun w => Padded t /\ w = W_Parser ("stripped " ++ n)).
Proof.
  unfold strip_warn. cbv zeta. eapply Wn_eq; [apply Wn_bind with (P := fun w => Padded t /\ w = W_Parser ("stripped " ++ n));
    [|intros u _; apply Wn_ret]|unfold none; tauto].
  destruct (String.eqb_spec t (strip t)) as [He|Hn]; cbn [negb warn_if].
  - eapply Wn_eq; [apply Wn_ret|]. intros w. unfold none. rewrite padded_iff. split; [easy|]. intros [Hc _]. now apply Hc.
  - eapply Wn_eq; [apply Wn_warn|]. intros w. rewrite padded_iff. split; [intros ->; auto|tauto].
Qed.

Definition TextW (b : bool) (n : string) (e : xml) (w : warning) : Prop :=
  (Repeated n e /\ w = W_Parser ("multiple " ++ n)) \/ (b = true /\ PaddedText n e /\ w = W_Parser ("stripped " ++ n)).
Lemma repeated_iff n e : Repeated n e <-> (2 <= length (findall n e))%nat.
Proof.
  unfold Repeated, findall. split.
  - intros (es & H & Hl). apply all_named_iff in H as ->. exact Hl.
  - intros H. eexists. split; [apply all_named_filter|exact H].
Qed.
Lemma Wn_text n b e : Wn (text_of n b e) (TextW b n e).
Proof.
  unfold text_of. cbv zeta. eapply Wn_eq.
  { apply Wn_bind with (P := fun w => Repeated n e /\ w = W_Parser ("multiple " ++ n))
                       (Q := fun w => b = true /\ PaddedText n e /\ w = W_Parser ("stripped " ++ n)).
    - destruct (1 <? Z.of_nat (length (findall n e))) eqn:Hl.
      + apply Z.ltb_lt in Hl. destruct (existsb _ _); unfold raise_if at 1; [apply Wn_raise|]. rewrite bind_ret_l.
        eapply Wn_eq; [apply Wn_warn|]. intros w. rewrite repeated_iff. split; [|tauto]. intros ->. split; [lia|reflexivity].
      + apply Z.ltb_ge in Hl. eapply Wn_eq; [apply Wn_ret|]. intros w. unfold none. rewrite repeated_iff. split; [easy|]. intros [H _]. lia.
    - intros x _. assert (HL : forall c, LastNamed n (xml_kids e) c <-> last_opt (findall n e) = Some c) by (intros c; apply last_named_iff).
      destruct (last_opt (findall n e)) as [c|].
      2:{ eapply Wn_eq; [apply Wn_ret|]. intros w. unfold none. split; [easy|]. intros (_ & (c & t & Hc & _) & _). apply HL in Hc. discriminate. }
      destruct (xml_text c) as [t|] eqn:Ht.
      2:{ eapply Wn_eq; [apply Wn_ret|]. intros w. unfold none. split; [easy|]. intros (_ & (c' & t & Hc & Hx & _) & _). apply HL in Hc.
          injection Hc as <-. rewrite Ht in Hx. discriminate. }
      destruct b.
      2:{ eapply Wn_eq; [apply Wn_ret|]. intros w. unfold none. split; [easy|]. now intros []. }
      eapply Wn_eq; [apply Wn_bind; [apply Wn_strip|]; intros y _; apply Wn_ret|]. intros w. unfold none. split.
      + intros [[HP ->]|[]]. split; [reflexivity|]. split; [|reflexivity]. exists c, t. split; [now apply HL|auto].
      + intros (_ & (c' & t' & Hc & Hx & HP) & ->). apply HL in Hc. injection Hc as <-. rewrite Ht in Hx. injection Hx as <-. auto. }
  intros w. unfold TextW. reflexivity.
Qed.
Lemma Wn_req n b e : Wn (req_text n b e) (TextW b n e).
Proof.
  unfold req_text. eapply Wn_eq; [apply Wn_bind with (Q := none); [apply Wn_text|]|].
  - intros [t|] _; [apply Wn_ret|apply Wn_raise].
  - intros w. unfold none. tauto.
Qed.
Lemma Wn_opt_text n e : Wn (opt_text n e) (TextW true n e).
Proof. apply Wn_text. Qed.
Lemma Wn_opt_int n e : Wn (opt_int n e) (TextW true n e).
Proof.
  unfold opt_int. eapply Wn_eq; [apply Wn_bind; [apply Wn_text|]; intros t _; apply Wn_opt_silent, Wn_to_int|]. unfold none. tauto.
Qed.
Lemma Wn_opt_bool n e : Wn (opt_bool n e) (TextW true n e).
Proof.
  unfold opt_bool. eapply Wn_eq; [apply Wn_bind; [apply Wn_text|]; intros t _; apply Wn_opt_silent, Wn_to_bool|]. unfold none. tauto.
Qed.
Lemma Wn_req_int n e : Wn (req_int n e) (TextW true n e).
Proof. unfold req_int. eapply Wn_eq; [apply Wn_bind; [apply Wn_req|]; intros t _; apply Wn_to_int|]. unfold none. tauto. Qed.

Definition AttrW (n : string) (e : xml) (w : warning) : Prop := PaddedAttr n e /\ w = W_Parser ("stripped " ++ n).
Lemma find_first (l : list (string * string)) n p : find (fun p => String.eqb (fst p) n) l = Some p <->
  exists v l1 l2, p = (n, v) /\ l = l1 ++ (n, v) :: l2 /\ ~ In n (map fst l1).
Proof.
  induction l as [|[m v] l IH]; cbn [find fst].
  - split; [discriminate|]. intros (v & l1 & l2 & _ & H & _). now destruct l1.
  - destruct (String.eqb_spec m n) as [->|Hne].
    + split.
      * intros [= <-]. now exists v, [], l.
      * intros (v' & l1 & l2 & -> & H & Hn). destruct l1 as [|q l1]; [now injection H as -> _|].
        injection H as <- _. exfalso. apply Hn. now left.
    + rewrite IH. split.
      * intros (v' & l1 & l2 & -> & -> & Hn). exists v', ((m, v) :: l1), l2. split; [reflexivity|]. split; [reflexivity|].
        cbn. intros [H|H]; auto.
      * intros (v' & l1 & l2 & -> & H & Hn). destruct l1 as [|q l1]; [injection H as -> _; congruence|]. injection H as <- ->.
        exists v', l1, l2. split; [reflexivity|]. split; [reflexivity|]. intros Hc. apply Hn. now right.
Qed.
Lemma Wn_attr n e : Wn (attr_of n e) (AttrW n e).
Proof.
  unfold attr_of, xget. destruct (find _ (xml_attrs e)) as [p|] eqn:Hf; cbn [option_map].
  - pose proof Hf as Hf'. apply find_first in Hf' as (v & l1 & l2 & -> & Hl & Hn). cbn [snd].
    eapply Wn_eq; [apply Wn_bind; [apply Wn_strip|]; intros y _; apply Wn_ret|]. intros w. unfold none, AttrW. split.
    + intros [[HP ->]|[]]. split; [|reflexivity]. now exists v, l1, l2.
    + intros [(v' & m1 & m2 & Hm & Hn' & HP) ->]. left. split; [|reflexivity].
      assert (Hx : find (fun p => String.eqb (fst p) n) (xml_attrs e) = Some (n, v')) by (apply find_first; now exists v', m1, m2).
      rewrite Hf in Hx. injection Hx as ->. exact HP.
  - eapply Wn_eq; [apply Wn_ret|]. intros w. unfold none, AttrW. split; [easy|]. intros [(v & m1 & m2 & Hm & Hn & HP) _].
    assert (Hx : find (fun p => String.eqb (fst p) n) (xml_attrs e) = Some (n, v)) by (apply find_first; now exists v, m1, m2).
    rewrite Hf in Hx. discriminate.
Qed.
Lemma Wn_req_attr n e : Wn (req_attr n e) (AttrW n e).
Proof.
  unfold req_attr. eapply Wn_eq; [apply Wn_bind with (Q := none); [apply Wn_attr|]|].
  - intros [t|] _; [apply Wn_ret|apply Wn_raise].
  - intros w. unfold none. tauto.
Qed.
Definition AccessW (e : xml) (w : warning) : Prop := exists t, Text "access" e (Some t) /\ AccessText t None /\ w = W_UnknownAccess t.
Lemma Wn_access_str t : Wn (access_from_str t) (fun w => AccessText t None /\ w = W_UnknownAccess t).
Proof.
  assert (HT : forall ws x, access_from_str t = (ws, Ok x) -> AccessText t x) by (intros ws x Hx; apply access_text; now exists ws).
  revert HT. unfold access_from_str.
  destruct (enum_find _ _ _) as [a|].
  { intros HT. eapply Wn_eq; [apply Wn_ret|]. intros w. unfold none. split; [easy|]. intros [HN _]. exact (HN a (HT _ _ eq_refl)). }
  destruct (String.eqb _ "write").
  { intros HT. eapply Wn_eq; [apply Wn_ret|]. intros w. unfold none. split; [easy|]. intros [HN _]. exact (HN _ (HT _ _ eq_refl)). }
  destruct (String.eqb _ "read") eqn:Hrd.
  { intros HT. eapply Wn_eq; [apply Wn_ret|]. intros w. unfold none. split; [easy|]. intros [HN _]. exact (HN _ (HT _ _ eq_refl)). }
  intros HT. eapply Wn_eq; [apply Wn_bind; [apply Wn_warn|]; intros u _; apply Wn_ret|]. intros w. unfold none. split; [|tauto].
  intros [->|[]]. split; [exact (HT _ None eq_refl)|reflexivity].
Qed.
Lemma Wn_access e acc : gives (opt_text "access" e) acc -> Wn (match acc with None => ret None | Some t => access_from_str t end) (AccessW e).
Proof.
  intros HG. unfold AccessW. destruct acc as [t|].
  - eapply Wn_eq; [apply Wn_access_str|]. intros w. split.
    + intros [H ->]. exists t. split; [now apply text_gives|auto].
    + intros (t' & HT & HA & ->). apply text_gives in HT. unfold opt_text in HG. pose proof (gives_fun _ _ _ HG HT) as [= <-]. auto.
  - eapply Wn_eq; [apply Wn_ret|]. intros w. unfold none. split; [easy|]. intros (t' & HT & _). apply text_gives in HT.
    unfold opt_text in HG. pose proof (gives_fun _ _ _ HG HT). discriminate.
Qed.

(** ** Elements *)
Definition Sub (k : kind) (e : xml) (w : warning) : Prop := exists k' c, ReadIn k e k' c /\ Own k' c w.
Lemma Sub_unfold k e w : Sub k e w <-> Own k e w \/ exists k' c, Part k e k' c /\ Sub k' c w.
Proof.
  unfold Sub. split.
  - intros (k' & c & HR & HO). destruct HR as [k e|k e k1 e1 k2 e2 HP HR]; [now left|]. right. exists k1, e1. split; [exact HP|]. eauto.
  - intros [H|(k1 & e1 & HP & k2 & e2 & HR & HO)]; [exists k, e; split; [constructor|exact H]|]. exists k2, e2. split; [|exact HO].
    eapply read_part; eassumption.
Qed.
Lemma findall_in n e c : In c (findall n e) <-> Kid n e c.
Proof. unfold findall, Kid. rewrite filter_In, has_tag_iff. reflexivity. Qed.
Lemma Wn_kids {B} (f : xml -> M B) k n e : (forall c, Wn (f c) (Sub k c)) -> Wn (mapM f (findall n e)) (fun w => exists c, Kid n e c /\ Sub k c w).
Proof.
  intros H. eapply Wn_eq; [apply (Wn_mapM f (Sub k)); auto|]. intros w. setoid_rewrite findall_in. reflexivity.
Qed.
Lemma Wn_kid {B} (f : xml -> M B) k n e : (forall c, Wn (f c) (Sub k c)) ->
  Wn (opt_m f (xfind n e)) (fun w => exists c, FirstNamed n (xml_kids e) c /\ Sub k c w).
Proof.
  intros H. eapply Wn_eq; [apply (Wn_opt f (Sub k)); auto|]. intros w. unfold xfind, findall. setoid_rewrite first_named_iff. reflexivity.
Qed.

(** the disjunction of what is due for one element, in the order of the program, against the tables *)
Ltac wn_step :=
  lazymatch goal with
  | |- Wn (ret _) _ => apply Wn_ret
  | |- Wn (bind _ _) _ => eapply Wn_bind; [|let x := fresh "x" in let G := fresh "G" in intros x G]
  | |- Wn (opt_text _ _) _ => apply Wn_opt_text
  | |- Wn (text_of _ _ _) _ => apply Wn_text
  | |- Wn (req_text _ _ _) _ => apply Wn_req
  | |- Wn (opt_int _ _) _ => apply Wn_opt_int
  | |- Wn (req_int _ _) _ => apply Wn_req_int
  | |- Wn (opt_bool _ _) _ => apply Wn_opt_bool
  | |- Wn (attr_of _ _) _ => apply Wn_attr
  | |- Wn (req_attr _ _) _ => apply Wn_req_attr
  | |- Wn (to_int _) _ => apply Wn_to_int
  | |- Wn (to_bool _) _ => apply Wn_to_bool
  | |- Wn (from_str _ _) _ => apply Wn_from_str
  | |- Wn (opt_m to_int _) _ => apply Wn_opt_silent, Wn_to_int
  | |- Wn (opt_m to_bool _) _ => apply Wn_opt_silent, Wn_to_bool
  | |- Wn (opt_m (from_str _) _) _ => apply Wn_opt_silent, Wn_from_str
  end.
Ltac own_one :=
  lazymatch goal with
  | H : TextW _ ?n ?e _ |- Own ?k ?e _ =>
      destruct H as [[? ->]|(? & ? & ->)];
      [apply own_repeated; [cbn; repeat (first [left; reflexivity | right])|assumption]
      |first [discriminate | apply own_padded; [cbn; repeat (first [left; reflexivity | right])|assumption]]]
  | H : AttrW _ _ _ |- Own _ _ _ => destruct H as [? ->]; apply own_attr; [cbn; repeat (first [left; reflexivity | right])|assumption]
  | H : AccessW _ _ |- Own _ _ _ => destruct H as (? & ? & ? & ->); apply own_access; [exact Logic.I|assumption|assumption]
  end.
Definition DimW (e : xml) (w : warning) : Prop :=
  (exists n, In n dim_texts /\ TextW true n e w) \/ exists c, FirstNamed "dimArrayIndex" (xml_kids e) c /\ Sub KDimArray c w.
Definition PropsW (e : xml) (w : warning) : Prop := (exists n, In n prop_texts /\ TextW true n e w) \/ AccessW e w.
Definition MissW (n m : string) (e : xml) (w : warning) : Prop := NoText n e /\ w = W_Parser m.
Definition InSection (s n : string) (e c : xml) : Prop := exists x, Kid s e x /\ Kid n x c.
Definition RcW (K : string -> xml -> Prop) (w : warning) : Prop :=
  (exists c, K "register" c /\ Sub KRegister c w) \/ (exists c, K "cluster" c /\ Sub KCluster c w).
Ltac memb := solve [cbn; repeat (first [left; reflexivity | right])].
Ltac text_closer := first
  [ left; split; [eassumption|reflexivity]
  | right; split; [reflexivity|]; split; [eassumption|reflexivity] ].
Ltac closer := first
  [ assumption
  | solve [split; [assumption|reflexivity]]
  | solve [text_closer]
  | solve [left; eexists; split; [|text_closer]; memb]
  | solve [right; eexists; split; [eassumption|]; split; [eassumption|reflexivity]]
  | solve [eexists; split; [eassumption|]; split; [eassumption|reflexivity]]
  | solve [eexists; split; [|eassumption]; first [assumption | eexists; split; eassumption]]
  | solve [left; eexists; split; [|eassumption]; first [assumption | eexists; split; eassumption]]
  | solve [right; eexists; split; [|eassumption]; first [assumption | eexists; split; eassumption]] ].
Ltac pick := first [left; closer | right; pick | closer].
Ltac split_in H := cbn in H; repeat match type of H with _ \/ _ => destruct H as [<-|H] end; try contradiction.
Ltac part_closer := first [eassumption | eapply part_cpu; eassumption | econstructor; eassumption].
Ltac forward_one :=
  match goal with
  | H : none _ |- _ => destruct H
  | H : TextW _ _ _ _ |- _ => left; own_one
  | H : AttrW _ _ _ |- _ => left; own_one
  | H : AccessW _ _ |- _ => left; own_one
  | H : DimW _ _ |- _ =>
      let n := fresh "n" in let Hn := fresh "Hn" in let HW := fresh "HW" in
      destruct H as [(n & Hn & HW)|(n & Hn & HW)];
      [left; split_in Hn; own_one | right; exists KDimArray, n; split; [apply part_dim; [memb|assumption]|assumption]]
  | H : PropsW _ _ |- _ =>
      let n := fresh "n" in let Hn := fresh "Hn" in let HW := fresh "HW" in
      destruct H as [(n & Hn & HW)|HW]; [left; split_in Hn; own_one | left; own_one]
  | H : exists c, _ /\ Sub ?k c _ |- _ =>
      let c := fresh "c" in let H1 := fresh "H1" in let H2 := fresh "H2" in
      destruct H as (c & H1 & H2); right; exists k, c;
      split; [first [solve [econstructor; eassumption] | destruct H1 as (? & ? & ?); econstructor; eassumption]|exact H2]
  | H : MissW _ _ _ _ |- _ => destruct H as [? ->]; left; first [apply own_no_value; [reflexivity|assumption] | apply own_no_descr; [reflexivity|assumption]]
  | H : RcW _ _ |- _ => destruct H as [H|H]; forward_one
  end.
Ltac backward_own H :=
  let n := fresh "n" in let Hn := fresh "Hn" in let HP := fresh "HP" in
  destruct H as [n Hn HP|n Hn HP|n Hn HP|n Hn HP ?|Hn HP|Hn HP];
  [split_in Hn; pick | split_in Hn; pick | split_in Hn; pick | first [destruct Hn; fail | pick] | try discriminate; try pick | try discriminate; try pick].
Ltac no_dim :=
  match goal with H : In _ [KPeripheral; _; _; _] |- _ => exfalso; cbn in H; repeat (destruct H as [H|H]; [discriminate|]); exact H end.
Ltac own_tac :=
  let w := fresh "w" in intros w; rewrite Sub_unfold; split;
  [let H := fresh "H" in intros H; repeat match type of H with _ \/ _ => destruct H as [H|H]; [forward_one|] end; forward_one
  |let H := fresh "H" in let HP := fresh "HP" in let HS := fresh "HS" in let k := fresh "k" in let c := fresh "c" in
   intros [H|(k & c & HP & HS)]; [backward_own H | inversion HP; subst; clear HP; try no_dim; try pick]].

Lemma Wn_props e : Wn (parse_props e) (PropsW e).
Proof.
  unfold parse_props. eapply Wn_eq. { repeat wn_step. eapply Wn_access; eassumption. all: repeat wn_step. }
  intros w. unfold PropsW, none. split.
  - intros H. repeat match type of H with _ \/ _ => destruct H as [H|H] end; try contradiction; try (right; exact H);
      (left; eexists; split; [|eassumption]; memb).
  - intros [(n & Hn & H)|H]; [split_in Hn; tauto|tauto].
Qed.
Lemma Wn_ev e : Wn (parse_ev e) (Sub KValue e).
Proof. unfold parse_ev. eapply Wn_eq; [repeat wn_step|]. own_tac. Qed.
Lemma Wn_dai e : Wn (parse_dai e) (Sub KDimArray e).
Proof. unfold parse_dai. eapply Wn_eq; [repeat wn_step; apply (Wn_kids _ KValue), Wn_ev|]. own_tac. Qed.
Lemma Wn_dim e : Wn (parse_dim e) (DimW e).
Proof.
  unfold parse_dim. eapply Wn_eq; [repeat wn_step; apply (Wn_kid _ KDimArray), Wn_dai|].
  intros w. unfold DimW, none. split.
  - intros H. repeat match type of H with _ \/ _ => destruct H as [H|H] end; try contradiction; try (right; exact H);
      (left; eexists; split; [|eassumption]; memb).
  - intros [(n & Hn & H)|H]; [split_in Hn; tauto|tauto].
Qed.
Lemma Wn_range e : Wn (lo <- req_int "minimum" e ;; hi <- req_int "maximum" e ;; ret (lo, hi)) (Sub KRange e).
Proof. eapply Wn_eq; [repeat wn_step|]. own_tac. Qed.
Lemma Wn_wc e : Wn (parse_wc e) (Sub KConstraint e).
Proof. unfold parse_wc. eapply Wn_eq; [repeat wn_step; apply (Wn_kid _ KRange), Wn_range|]. own_tac. Qed.
Lemma Wn_evc e : Wn (parse_evc e) (Sub KEnums e).
Proof. unfold parse_evc. eapply Wn_eq; [repeat wn_step; apply (Wn_kids _ KValue), Wn_ev|]. own_tac. Qed.
Lemma Wn_region e : Wn (parse_sau_region e) (Sub KRegion e).
Proof. unfold parse_sau_region. eapply Wn_eq; [repeat wn_step|]. own_tac. Qed.
Lemma Wn_sau e : Wn (parse_sau_config e) (Sub KSau e).
Proof. unfold parse_sau_config. eapply Wn_eq; [repeat wn_step; apply (Wn_kids _ KRegion), Wn_region|]. own_tac. Qed.
Lemma Wn_cpu e : Wn (parse_cpu e) (Sub KCpu e).
Proof. unfold parse_cpu. eapply Wn_eq; [repeat wn_step; apply (Wn_kid _ KSau), Wn_sau|]. own_tac. Qed.

Ltac wn := repeat first [wn_step | eapply Wn_access; eassumption | apply Wn_props | apply Wn_dim | apply (Wn_kid _ KConstraint), Wn_wc
                        | apply (Wn_kids _ KEnums), Wn_evc].
Lemma Wn_field e : Wn (parse_field e) (Sub KField e).
Proof. unfold parse_field. eapply Wn_eq; [wn|]. own_tac. Qed.
Lemma Wn_fields e : Wn (parse_fields e) (fun w => exists c, InSection "fields" "field" e c /\ Sub KField c w).
Proof.
  unfold parse_fields. eapply Wn_eq; [apply (Wn_mapM _ (Sub KField)); intros c _; apply Wn_field|]. intros w. unfold InSection.
  split; intros (c & H & HS); exists c; (split; [|exact HS]); revert H; rewrite in_flat_map; intros (x & H1 & H2); exists x;
    (split; apply findall_in; assumption).
Qed.
Lemma Wn_register e : Wn (parse_register e) (Sub KRegister e).
Proof. unfold parse_register. eapply Wn_eq; [wn; apply Wn_fields|]. own_tac. Qed.
Lemma Wn_cluster ch e : Wn ch (RcW (fun n c => Kid n e c)) -> Wn (parse_cluster_with ch e) (Sub KCluster e).
Proof. intros H. unfold parse_cluster_with. eapply Wn_eq; [wn; exact H|]. own_tac. Qed.
Lemma Wn_rcs_cons k l : Wn (parse_rc k) (RcW (fun n c => c = k /\ Named n c)) -> Wn (parse_rcs l) (RcW (fun n c => In c l /\ Named n c)) ->
  Wn (parse_rcs (k :: l)) (RcW (fun n c => In c (k :: l) /\ Named n c)).
Proof.
  intros H1 H2. cbn [parse_rcs]. eapply Wn_eq; [apply Wn_bind; [exact H1|]; intros x _; apply Wn_bind; [exact H2|]; intros y _; apply Wn_ret|].
  intros w. unfold RcW, none. cbn [In]. split.
  - intros [[(c & [-> Hn] & HS)|(c & [-> Hn] & HS)]|[[(c & [Hc Hn] & HS)|(c & [Hc Hn] & HS)]|[]]];
      [left|right|left|right]; exists c + exists k; auto.
  - intros [(c & [[<-|Hc] Hn] & HS)|(c & [[<-|Hc] Hn] & HS)].
    + left; left; eauto.
    + right; left; left; eauto.
    + left; right; eauto.
    + right; left; right; eauto.
Qed.
Lemma Wn_rcs_all l : Forall (fun k => Wn (parse_rc k) (RcW (fun n c => c = k /\ Named n c))) l ->
  Wn (parse_rcs l) (RcW (fun n c => In c l /\ Named n c)).
Proof.
  induction 1 as [|k l Hk _ IH]; [|now apply Wn_rcs_cons].
  cbn [parse_rcs]. eapply Wn_eq; [apply Wn_ret|]. unfold RcW, none. cbn [In]. intros w. split; [easy|].
  intros [(c & [[] _] & _)|(c & [[] _] & _)].
Qed.
Lemma Wn_rc k : Wn (parse_rc k) (RcW (fun n c => c = k /\ Named n c)).
Proof.
  induction k as [t a x ks IH|] using xml_ind2.
  - rewrite parse_rc_eq. set (e := Elem t a x ks) in *. destruct (String.eqb_spec t "register") as [->|Hr].
    + eapply Wn_eq; [apply Wn_bind; [apply Wn_register|]; intros r _; apply Wn_ret|]. intros w. unfold RcW, none. split.
      * intros [H|[]]. left. exists e. repeat split; [|exact H]. now exists a, x, ks.
      * intros [(c & [-> _] & H)|(c & [-> (a' & x' & ks' & Hn)] & _)]; [auto|discriminate].
    + destruct (String.eqb_spec t "cluster") as [->|Hc].
      * eapply Wn_eq; [apply Wn_bind; [apply Wn_cluster; exact (Wn_rcs_all ks IH)|]; intros r _; apply Wn_ret|]. intros w. unfold RcW, none.
        split.
        -- intros [H|[]]. right. exists e. repeat split; [|exact H]. now exists a, x, ks.
        -- intros [(c & [-> (a' & x' & ks' & Hn)] & _)|(c & [-> _] & H)]; [discriminate|auto].
      * eapply Wn_eq; [apply Wn_ret|]. intros w. unfold RcW, none. split; [easy|].
        intros [(c & [-> (a' & x' & ks' & Hn)] & _)|(c & [-> (a' & x' & ks' & Hn)] & _)]; injection Hn; intros; congruence.
  - eapply Wn_eq; [apply Wn_ret|]. intros w. unfold RcW, none. split; [easy|].
    intros [(c & [-> (a' & x' & ks' & Hn)] & _)|(c & [-> (a' & x' & ks' & Hn)] & _)]; discriminate.
Qed.
Lemma Wn_rcs l : Wn (parse_rcs l) (RcW (fun n c => In c l /\ Named n c)).
Proof. apply Wn_rcs_all. apply Forall_forall. intros k _. apply Wn_rc. Qed.
Lemma Wn_sections e : Wn (parse_rcs (flat_map xml_kids (findall "registers" e))) (RcW (fun n c => InSection "registers" n e c)).
Proof.
  eapply Wn_eq; [apply Wn_rcs|]. intros w. unfold RcW, InSection, Kid.
  assert (HE : forall n c, In c (flat_map xml_kids (findall "registers" e)) /\ Named n c <->
    exists x, (In x (xml_kids e) /\ Named "registers" x) /\ In c (xml_kids x) /\ Named n c).
  { intros n c. rewrite in_flat_map. split.
    - intros [(x & H1 & H2) Hn]. apply findall_in in H1. exists x. auto.
    - intros (x & H1 & H2 & Hn). split; [|exact Hn]. exists x. split; [now apply findall_in|exact H2]. }
  setoid_rewrite HE. reflexivity.
Qed.

Lemma no_text_iff n b e o : gives (text_of n b e) o -> (o = None <-> NoText n e).
Proof.
  intros H. apply text_of_gives in H as (r & [_ HR] & HO).
  assert (Hr : r = None <-> NoText n e).
  { unfold NoText. destruct HR as [[H1 ->]|(c & Hc & Hx)]; [tauto|]. split.
    - intros ->. right. eauto.
    - intros [HN|(c' & Hc' & Hx')].
      + apply none_named_iff in HN. apply last_named_iff in Hc. rewrite HN in Hc. discriminate.
      + apply last_named_iff in Hc, Hc'. rewrite Hc in Hc'. injection Hc' as <-. congruence. }
  rewrite <- Hr. destruct b; [|now subst]. destruct r, o; cbn in HO; try contradiction; split; congruence.
Qed.
Lemma Wn_miss {A} n b e m o (f : string -> M A) (d : A) : gives (text_of n b e) o -> (forall t, Wn (f t) none) ->
  Wn (match o with Some t => f t | None => warn (W_Parser m) ;;; ret d end) (MissW n m e).
Proof.
  intros HG HF. pose proof (no_text_iff _ _ _ _ HG) as HN. unfold MissW. destruct o as [t|].
  - eapply Wn_eq; [apply HF|]. intros w. unfold none. split; [easy|]. intros [H _]. apply HN in H. discriminate.
  - eapply Wn_eq; [apply Wn_bind; [apply Wn_warn|]; intros u _; apply Wn_ret|]. intros w. unfold none. split.
    + intros [->|[]]. split; [now apply HN|reflexivity].
    + intros [_ ->]. auto.
Qed.
Lemma Wn_interrupt e : Wn (parse_interrupt e) (Sub KInterrupt e).
Proof. unfold parse_interrupt. eapply Wn_eq; [wn; eapply (Wn_miss "value"); [eassumption|exact Wn_to_int]|]. own_tac. Qed.
Lemma Wn_ab e : Wn (parse_ab e) (Sub KBlock e).
Proof. unfold parse_ab. eapply Wn_eq; [wn|]. own_tac. Qed.
Lemma Wn_peripheral e : Wn (parse_peripheral e) (Sub KPeripheral e).
Proof.
  unfold parse_peripheral. eapply Wn_eq;
    [wn; first [apply (Wn_kids _ KBlock), Wn_ab | apply (Wn_kids _ KInterrupt), Wn_interrupt | apply Wn_sections]|]. own_tac.
Qed.
Lemma Wn_peripherals e : Wn (parse_peripherals e)
  (fun w => exists c, (exists ps, FirstNamed "peripherals" (xml_kids e) ps /\ Kid "peripheral" ps c) /\ Sub KPeripheral c w).
Proof.
  unfold parse_peripherals. destruct (xfind "peripherals" e) as [ps|] eqn:Hp; [|apply Wn_raise].
  apply first_named_iff in Hp as Hp'. eapply Wn_eq; [apply (Wn_kids _ KPeripheral), Wn_peripheral|]. intros w. split.
  - intros (c & H1 & H2). exists c. split; [eauto|exact H2].
  - intros (c & (ps' & H & H1) & H2). apply first_named_iff in H. unfold xfind, findall in Hp. rewrite Hp in H. injection H as <-. eauto.
Qed.
Definition schema_ns (nsmap : list (string * string)) : option string :=
  match find (fun p => String.eqb (fst p) "xs") nsmap with
  | Some p => Some (snd p)
  | None => option_map snd (find (fun p => String.eqb (fst p) "xsi") nsmap)
  end.
Lemma find_none (l : list (string * string)) n : find (fun p => String.eqb (fst p) n) l = None <-> ~ In n (map fst l).
Proof.
  split.
  - intros H Hin. apply in_map_iff in Hin as (p & <- & Hp). pose proof (find_none _ _ H p Hp) as Hx. cbn in Hx.
    rewrite String.eqb_refl in Hx. discriminate.
  - intros H. destruct (find _ l) as [p|] eqn:Hf; [|reflexivity]. exfalso. apply find_some in Hf as [Hi He]. apply String.eqb_eq in He.
    apply H. rewrite <- He. now apply in_map.
Qed.
Lemma schema_ns_iff ns o : SchemaNs ns o <-> o = schema_ns ns.
Proof.
  assert (HP : forall p u, Prefix ns p u <-> find (fun q => String.eqb (fst q) p) ns = Some (p, u)).
  { intros p u. rewrite find_first. unfold Prefix. split.
    - intros (l1 & l2 & H & Hn). now exists u, l1, l2.
    - intros (v & l1 & l2 & Hv & H & Hn). injection Hv as ->. now exists l1, l2. }
  unfold SchemaNs, schema_ns, NoPrefix. setoid_rewrite HP. rewrite <- !find_none. split.
  - intros [(u & H & ->)|[(H0 & u & H & ->)|(H0 & H & ->)]]; rewrite ?H0, ?H; reflexivity.
  - intros ->. destruct (find _ ns) as [[m u]|] eqn:Hx.
    + left. pose proof Hx as Hy. apply find_first in Hy as (v & l1 & l2 & Hv & _). injection Hv as -> ->. now exists v.
    + right. destruct (find (fun q => String.eqb (fst q) "xsi") ns) as [[m u]|] eqn:Hz.
      * left. pose proof Hz as Hy. apply find_first in Hy as (v & l1 & l2 & Hv & _). injection Hv as -> ->. split; [reflexivity|]. now exists v.
      * right. auto.
Qed.
Lemma Wn_location doc : Wn (parse_schema_location (doc_nsmap doc) (doc_root doc)) (Location doc).
Proof.
  unfold parse_schema_location. fold (schema_ns (doc_nsmap doc)). cbv zeta. destruct (schema_ns (doc_nsmap doc)) as [uri|] eqn:Hns.
  - assert (HL : SchemaNs (doc_nsmap doc) (Some uri)) by now apply schema_ns_iff.
    change ("{" ++ uri ++ "}noNamespaceSchemaLocation")%string with (location_name uri).
    assert (HU : forall o, SchemaNs (doc_nsmap doc) o -> o = Some uri) by (intros o Ho; apply schema_ns_iff in Ho; congruence).
    eapply Wn_eq.
    { apply Wn_bind with (Q := fun w => ~ In (location_name uri) (map fst (xml_attrs (doc_root doc))) /\ w = W_Parser "noNamespaceSchemaLocation");
        [apply Wn_attr|]. intros o Ho. apply attr_gives in Ho.
      destruct o as [t|].
      - eapply Wn_eq; [apply Wn_ret|]. intros w. unfold none. split; [easy|]. intros [Hn _].
        destruct Ho as [[_ Ho]|(v & t' & l1 & l2 & Ha & _)]; [discriminate|]. apply Hn. rewrite Ha, map_app. apply in_or_app. right. now left.
      - eapply Wn_eq; [apply Wn_bind; [apply Wn_warn|]; intros u _; apply Wn_ret|]. intros w. unfold none.
        destruct Ho as [[Hno _]|(v & t' & l1 & l2 & _ & _ & _ & Ho)]; [|discriminate]. split.
        + intros [->|[]]. split; [|reflexivity]. intros Hin. apply in_map_iff in Hin as ([m v] & Hm & Hin). cbn in Hm. subst m. exact (Hno v Hin).
        + intros [_ ->]. auto. }
    intros w. unfold AttrW. split.
    + intros [[HP ->]|[HN ->]]; [now apply loc_padded|now apply (loc_missing _ uri)].
    + intros H. destruct H as [H|u H HN|u H HP].
      * apply HU in H. discriminate.
      * apply HU in H. injection H as ->. auto.
      * apply HU in H. injection H as ->. auto.
  - assert (HU : forall o, SchemaNs (doc_nsmap doc) o -> o = None) by (intros o Ho; apply schema_ns_iff in Ho; congruence).
    eapply Wn_eq; [apply Wn_bind; [apply Wn_warn|]; intros u _; apply Wn_ret|]. intros w. unfold none. split.
    + intros [->|[]]. apply loc_no_prefix. now apply schema_ns_iff.
    + intros H. destruct H as [H|u H HN|u H HP]; [auto|apply HU in H; discriminate..].
Qed.
Lemma Wn_device doc : Wn (parse_device doc) (Peculiar doc).
Proof.
  unfold parse_device. cbv zeta. apply Wn_bind; [apply Wn_location|]. intros xs _. fold (Sub KDevice (doc_root doc)).
  generalize (doc_root doc). clear doc. intros e. eapply Wn_eq;
    [wn; first [apply (Wn_kid _ KCpu), Wn_cpu | apply Wn_peripherals
               | eapply (Wn_miss "description" false _ "device description" _ (fun t => ret t)); [eassumption|intros t; apply Wn_ret]]|].
  own_tac.
Qed.

(** ** C62 *)
(** A document that is read: exactly the warnings that are due. *)
Theorem C62_warns_exactly doc ws d : parse_device doc = (ws, Ok d) -> forall w, In w ws <-> Peculiar doc w.
Proof. intros H w. destruct (Wn_device doc _ _ H w) as [H1 H2]. split; [exact H1|]. now apply (H2 d). Qed.
(** Whatever becomes of the document, no warning is given that is not due. *)
Theorem C62_never_spurious doc ws r : parse_device doc = (ws, r) -> forall w, In w ws -> Peculiar doc w.
Proof. intros H w. exact (proj1 (Wn_device doc _ _ H w)). Qed.
(** A plain document is read in silence. *)
Theorem C62_silent doc ws r : (forall w, ~ Peculiar doc w) -> parse_device doc = (ws, r) -> ws = [].
Proof. intros HN H. destruct ws as [|w ws]; [reflexivity|]. exfalso. apply (HN w). apply (C62_never_spurious _ _ _ H). now left. Qed.

(** The document of SamplesParse: its name is given twice, the second time with blanks; a base has blanks around it; the interrupt has no
    value; there is no schema location.  Exactly these are reported; the blanks of the description are not. *)
Example C62_sample : exists ws d, parse_device (sample_doc [Elem "peripherals" [] None [sample_periph]]) = (ws, Ok d) /\
  ws = [W_Parser "noNamespaceSchemaLocation"; W_Parser "multiple name"; W_Parser "stripped name"; W_Parser "interrupt value";
        W_Parser "stripped derivedFrom"].
Proof. do 2 eexists. split; vm_compute; reflexivity. Qed.
Example C62_sample_due : Peculiar (sample_doc [Elem "peripherals" [] None [sample_periph]]) (W_Parser "stripped derivedFrom") /\
  ~ Peculiar (sample_doc [Elem "peripherals" [] None [sample_periph]]) (W_Parser "stripped description").
Proof.
  destruct C62_sample as (ws & d & H & ->). split; [apply (C62_warns_exactly _ _ _ H); cbn; tauto|].
  intros HP. apply (C62_warns_exactly _ _ _ H) in HP. cbn in HP. intuition discriminate.
Qed.
(** a plain document *)
Definition plain_doc : xml_doc := mk_doc [("xs", "u")] (Elem "device" [("{u}noNamespaceSchemaLocation", "s"); ("schemaVersion", "1.3")] None
  [leaf "name" "N"; leaf "version" "1"; leaf "description" " d "; leaf "addressUnitBits" "8"; leaf "width" "32"; leaf "access" "read-only";
   Elem "peripherals" [] None [Elem "peripheral" [] None [leaf "name" "P"; leaf "baseAddress" "0"]]]).
Example C62_plain : forall w, ~ Peculiar plain_doc w.
Proof.
  assert (H : exists d, parse_device plain_doc = ([], Ok d)) by (eexists; vm_compute; reflexivity). destruct H as (d & H).
  intros w HP. exact (proj2 (C62_warns_exactly _ _ _ H w) HP).
Qed.
Print Assumptions C62_warns_exactly.
Print Assumptions C62_never_spurious.
Print Assumptions C62_silent.
