(** * PropsNotation: C59 (texts that the schema allows are understood by the processing) *)
From Verif Require Import Base PyStr PyInt Types EnumModel DimModel ElemModel FinalModel ResolveModel ProcessModel ParseModel SpecText SpecEnum SpecDim SpecElem SpecProcess SpecDeclared SpecExpand
  SpecAccept SpecParse SpecSchema SpecConform EnumFacts EnumFacts2 EnumFacts3 DimFacts TextFacts FuelFacts PropsEnum PropsDim PropsElem PropsDevice PropsExpand PropsAccept PropsParse PropsRoundTrip SpecRoundTrip SerializeModel SchemaText SchemaRead SchemaKept PropsSchema Samples.

(** the integers an enumerated value stands for: a decimal or hexadecimal number, or the numbers that match a binary literal with don't-care bits *)
Inductive ValueOf : string -> Z -> Prop :=
| vo_dec s : digit_string s -> ValueOf s (dec_val 0 s)
| vo_hex p s v : p = "0x" \/ p = "0X" -> Digits 16 s v -> ValueOf (p ++ s) v
| vo_bin p s v : p = "#" \/ p = "0b" -> wild_literal s -> matches s v -> ValueOf (p ++ s) v.

(** ** The notations of the schema *)
Lemma plus_full p f s : Matches (Plus p) s -> nullable p = false -> chars f p = true -> s <> "" /\ sforallb f s = true.
Proof.
  intros H Hn Hc. split; [|apply (chars_ok f (Plus p) s H); cbn; now rewrite Hc].
  intros ->. apply nullable_complete in H; [|reflexivity]. cbn in H. now rewrite Hn in H.
Qed.
Lemma sforallb_all (f : ascii -> bool) (P : ascii -> Prop) s : (forall c, f c = true -> P c) -> sforallb f s = true -> all_chars P s.
Proof. intros Hf. induction s as [|c s IH]; cbn; [easy|]. intros H. apply andb_true_iff in H as [H1 H2]. auto. Qed.
Definition inb (l : list ascii) (c : ascii) : bool := existsb (Ascii.eqb c) l.
Lemma inb_in l c : inb l c = true -> In c l.
Proof. unfold inb. rewrite existsb_exists. intros (x & Hx & E). apply Ascii.eqb_eq in E. now subst. Qed.

Lemma plus_digit s : Matches (Plus digit) s -> digit_string s.
Proof. intros H. apply (plus_full _ is_digit) in H; [exact H|reflexivity|vm_compute; reflexivity]. Qed.
Inductive ValueShape : string -> Prop :=
| vs_dec s : digit_string s -> ValueShape s
| vs_hex p s : p = "0x" \/ p = "0X" -> s <> "" -> all_chars hex_char s -> ValueShape (p ++ s)
| vs_bin p s : p = "#" \/ p = "0b" -> wild_literal s -> ValueShape (p ++ s).
Lemma value_shape t : InSimple Full "enumeratedValueDataType" t -> exists u, ValueShape u /\ (t = u \/ t = ("+" ++ u)%string).
Proof.
  unfold InSimple. cbv [simple_type packaged String.eqb Ascii.eqb Bool.eqb]. intros H.
  apply cat_inv in H as (a & u & -> & Ha & Hu). exists u. split.
  - unfold Ors in Hu. apply or_inv in Hu as [Hu|Hu]; [|apply or_inv in Hu as [Hu|Hu]].
    + apply cat_inv in Hu as (p & s & -> & Hp & Hs). apply words_in in Hp. apply (plus_full _ (inb ["0"; "1"; "2"; "3"; "4"; "5"; "6"; "7"; "8"; "9"; "a"; "b"; "c"; "d"; "e"; "f"; "A"; "B"; "C"; "D"; "E"; "F"]%char)) in Hs as [Hs1 Hs2]; [|reflexivity|vm_compute; reflexivity].
      apply vs_hex; [destruct Hp as [<-|[<-|[]]]; auto|exact Hs1|]. exact (sforallb_all _ _ _ (inb_in _) Hs2).
    + apply vs_dec. now apply plus_digit.
    + apply cat_inv in Hu as (p & s & -> & Hp & Hs). apply words_in in Hp. apply (plus_full _ (inb ["0"; "1"; "x"; "X"]%char)) in Hs as [Hs1 Hs2]; [|reflexivity|vm_compute; reflexivity].
      apply vs_bin; [destruct Hp as [<-|[<-|[]]]; auto|]. split; [exact Hs1|]. exact (sforallb_all _ _ _ (inb_in _) Hs2).
  - unfold Maybe in Ha. apply or_inv in Ha as [Ha|Ha]; [apply lit_inv in Ha; subst; now left|apply one_inv in Ha; subst; now right].
Qed.
Lemma shape_head u : ValueShape u -> forall r, u <> String "+" r.
Proof.
  intros [s [Hs1 Hs]|p s Hp _ _|p s Hp _] r E.
  - subst. discriminate.
  - destruct Hp as [-> | ->]; discriminate.
  - destruct Hp as [-> | ->]; discriminate.
Qed.
(** hexadecimal digits: what the processing computes is their value *)
Lemma hex_all_lower s : all_chars hex_char s -> all_chars hex_char (lower s).
Proof.
  unfold lower. induction s as [|c s IH]; cbn [smap all_chars]; [easy|]. intros [Hc Hs]. split; [|auto]. unfold hex_char in *. cbn [In] in Hc.
  repeat (destruct Hc as [<-|Hc]; [cbn; tauto|]). destruct Hc.
Qed.
Lemma digit_val_lower c : hex_char c -> digit_val (lower_char c) = digit_val c.
Proof. unfold hex_char. cbn [In]. intros Hc. repeat (destruct Hc as [<-|Hc]; [reflexivity|]). destruct Hc. Qed.
Lemma us_lower c : hex_char c -> Ascii.eqb (lower_char c) c_us = false /\ Ascii.eqb c c_us = false.
Proof. unfold hex_char. cbn [In]. intros Hc. repeat (destruct Hc as [<-|Hc]; [split; reflexivity|]). destruct Hc. Qed.
Lemma digits_go_lower s : all_chars hex_char s -> forall acc p, digits_go 16 (lower s) acc p = digits_go 16 s acc p.
Proof.
  unfold lower. induction s as [|c s IH]; cbn [smap all_chars digits_go]; [easy|]. intros [Hc Hs] acc p. destruct (us_lower c Hc) as [-> ->]. rewrite (digit_val_lower c Hc).
  destruct (digit_val c) as [d|]; [|reflexivity]. destruct (d <? 16); [apply IH; exact Hs|reflexivity].
Qed.
Lemma convert_hex p s : p = "0x" \/ p = "0X" -> s <> "" -> all_chars hex_char s -> exists v, convert_enumerated_value (p ++ s) = ([], Ok [v]) /\ Digits 16 s v.
Proof.
  intros Hp Hne Hs. destruct (value_text_ok _ (VT_hex p s Hp Hne Hs)) as (ws & zs & E). unfold convert_enumerated_value in *.
  assert (Hx := hex_lower s Hs). assert (Hl : lower (p ++ s) = ("0x" ++ lower s)%string) by (rewrite lower_app; destruct Hp as [-> | ->]; reflexivity).
  rewrite Hl in *. rewrite replace_none in * by (apply no_hash; cbn; apply (sforallb_impl (fun c => hexb c && negb (Ascii.eqb c c_us) && negb (Ascii.eqb c "#"))); [intros c Hc; apply andb_prop in Hc as [_ Hc]; exact Hc|exact Hx]).
  change (startswith "0b" ("0x" ++ lower s)) with false in *. change (startswith "0x" ("0x" ++ lower s)) with true in *. cbn iota in *.
  destruct (py_int 16 ("0x" ++ lower s)) as [v|] eqn:Ei; [|discriminate]. exists v. split; [reflexivity|]. unfold py_int in Ei. rewrite strip_none in Ei.
  - change (split_sign ("0x" ++ lower s)) with (false, ("0x" ++ lower s)%string) in Ei. cbn iota in Ei. change (16 =? 0) with false in Ei. cbn iota in Ei.
    assert (Hp' : strip_prefix 16 ("0x" ++ lower s) = lower s).
    { destruct s as [|c s']; [congruence|]. destruct Hs as [Hc _]. unfold lower. cbn. now rewrite (proj1 (us_lower c Hc)). }
    rewrite Hp', (digits_go_lower s Hs) in Ei. destruct (digits_go 16 s 0 false) as [w|] eqn:Ed; [|discriminate]. cbn in Ei. injection Ei as <-. apply digits_go_Digits in Ed; [exact Ed|lia].
  - cbn. apply (sforallb_impl (fun c => hexb c && negb (Ascii.eqb c c_us) && negb (Ascii.eqb c "#"))); [|exact Hx]. intros c Hc. apply andb_prop in Hc as [Hc _]. apply andb_prop in Hc as [Hc _]. unfold hexb, digit_val in Hc.
    destruct (is_cspace c) eqn:E0; [|reflexivity]. unfold is_cspace in E0. destruct (is_digit c) eqn:E1, (is_lower c) eqn:E2, (is_upper c) eqn:E3; unfold is_digit, is_lower, is_upper, in_code_range in *; lia.
Qed.
Lemma convert_dec s : digit_string s -> convert_enumerated_value s = ([], Ok [dec_val 0 s]).
Proof.
  intros Hs. destruct (value_text_ok _ (VT_dec s Hs)) as (ws & zs & E). unfold convert_enumerated_value in *.
  assert (Hl : lower s = s). { destruct Hs as [_ Hs]. clear E. induction s as [|c s IH]; [reflexivity|]. cbn in Hs. apply andb_prop in Hs as [Hc Hs]. unfold lower in *. cbn. rewrite (IH Hs). f_equal. unfold lower_char.
    destruct (is_upper c) eqn:Eu; [apply upper_not_digit in Eu; congruence|reflexivity]. }
  rewrite Hl in *. rewrite replace_none in * by (apply no_hash; destruct Hs as [_ Hs]; apply (sforallb_impl is_digit); [intros c Hc; destruct (Ascii.eqb c "#") eqn:E'; [apply Ascii.eqb_eq in E'; subst; discriminate|reflexivity]|exact Hs]).
  assert (Hd : forall c r, In c ["b"; "x"]%char -> s <> ("0" ++ String c r)%string). { intros c r Hc ->. destruct Hs as [_ Hs]. cbn in Hs. destruct Hc as [<-|[<-|[]]]; discriminate. }
  assert (H1 : startswith "0b" s = false). { destruct (startswith "0b" s) eqn:E'; [|reflexivity]. apply startswith_spec in E' as (r & E'). destruct (Hd "b"%char r); [now left|exact E']. }
  assert (H2 : startswith "0x" s = false). { destruct (startswith "0x" s) eqn:E'; [|reflexivity]. apply startswith_spec in E' as (r & E'). destruct (Hd "x"%char r); [right; now left|exact E']. }
  rewrite H1, H2 in *. rewrite (py_int_dec _ Hs) in *. destruct (isdigit s); [reflexivity|discriminate].
Qed.
Lemma digits_one s v w : Digits 16 s v -> Digits 16 s w -> v = w.
Proof. intros H1 H2. apply digits_go_Digits in H1; [|lia]. apply digits_go_Digits in H2; [|lia]. congruence. Qed.
Lemma bin_no_other p s q u : (p = "#" \/ p = "0b") -> (q = "0x" \/ q = "0X") -> (p ++ s)%string <> (q ++ u)%string.
Proof. intros [-> | ->] [-> | ->] E; discriminate. Qed.
Lemma pre_digits q u : q = "0x" \/ q = "0X" \/ q = "#" \/ q = "0b" -> ~ digit_string (q ++ u).
Proof. intros [-> | [-> | [-> | ->]]] [_ H]; discriminate. Qed.
(** the values of a text in the notation of the schema *)
Lemma convert_shape t : ValueShape t -> exists zs, convert_enumerated_value t = ([], Ok zs) /\ StronglySorted Z.lt zs /\ forall v, In v zs <-> ValueOf t v.
Proof.
  intros [s Hs|p s Hp Hne Hs|p s Hp Hw].
  - exists [dec_val 0 s]. split; [now apply convert_dec|]. split; [repeat constructor|]. intros v. split; [intros [<-|[]]; now constructor|].
    intros H. inversion H as [s' Hs' E1 E2|p' s' v' Hp' Hd E1 E2|p' s' v' Hp' Hw Hm E1 E2]; [now left| |]; subst; exfalso; eapply pre_digits; try exact Hs; intuition.
  - destruct (convert_hex p s Hp Hne Hs) as (v & E & Hv). exists [v]. split; [exact E|]. split; [repeat constructor|]. intros w. split; [intros [<-|[]]; now constructor|].
    intros H. inversion H as [s' Hs' E1 E2|p' s' v' Hp' Hd E1 E2|p' s' v' Hp' Hw Hm E1 E2].
    + subst. exfalso. eapply pre_digits; [|exact Hs']. intuition.
    + left. subst. apply (digits_one s); [exact Hv|]. destruct Hp as [-> | ->], Hp' as [-> | ->]; try discriminate; cbn in E1; injection E1 as <-; exact Hd.
    + exfalso. exact (bin_no_other _ _ _ _ Hp' Hp E1).
  - assert (Hb : bin_prefix p) by (unfold bin_prefix; destruct Hp as [-> | ->]; cbn; auto). exists (wild_values (lower s)). destruct (wild_values_spec s Hw) as [Hsort Hin].
    split; [exact (convert_wild p s Hb Hw)|]. split; [exact Hsort|]. intros v. rewrite Hin. split; [intros H; now apply vo_bin|].
    intros H. inversion H as [s' Hs' E1 E2|p' s' v' Hp' Hd E1 E2|p' s' v' Hp' Hw' Hm E1 E2].
    + subst. exfalso. eapply pre_digits; [|exact Hs']. intuition.
    + exfalso. symmetry in E1. exact (bin_no_other _ _ _ _ Hp Hp' E1).
    + destruct Hp as [-> | ->], Hp' as [-> | ->]; try discriminate; cbn in E1; injection E1 as ->; exact Hm.
Qed.

(** ** Containers *)
Definition plus_text (t : string) : Prop := exists u, t = ("+" ++ u)%string.
Lemma schema_value_convert t : InSimple Full "enumeratedValueDataType" t -> ~ plus_text t -> exists zs, convert_enumerated_value t = ([], Ok zs) /\ StronglySorted Z.lt zs /\ forall v, In v zs <-> ValueOf t v.
Proof. intros H Hp. destruct (value_shape t H) as (u & Hu & [-> | ->]); [now apply convert_shape|]. destruct Hp. now exists u. Qed.
Lemma shape_text t : ValueShape t -> ValueText t.
Proof. intros [s H|p s Hp H1 H2|p s Hp H]; [now constructor|now constructor|]. apply VT_bin; [|exact H]. unfold bin_prefix. destruct Hp as [-> | ->]; cbn; auto. Qed.
Lemma schema_value_text t : InSimple Full "enumeratedValueDataType" t -> ~ plus_text t -> ValueText t.
Proof. intros H Hp. destruct (value_shape t H) as (u & Hu & [-> | ->]); [now apply shape_text|]. destruct Hp. now exists u. Qed.
Lemma shape_nonempty t : ValueShape t -> t <> "".
Proof. intros [s [H _]|p s [-> | ->] _ _|p s [-> | ->] _]; [exact H|discriminate..]. Qed.

(** C59, enumerated values: a container whose entries carry values in the notation of the schema (none of them with a leading "+", none of them
    the default or reserved) is processed; unless it is warned about a duplicate, its values are exactly the numbers the texts stand for *)
Theorem C59_enum_values : forall c lsb msb,
  (forall p, In p (sevc_evs c) -> sev_default p <> Some true /\ lower (sev_name p) <> "reserved" /\
     exists t, sev_value p = Some t /\ InSimple Full "enumeratedValueDataType" t /\ ~ plus_text t) ->
  exists ws r, create_evc c lsb msb = (ws, Ok r) /\
    ((forall n, ~ In (W_EnumDupName n) ws) -> (forall n z, ~ In (W_EnumDupValue n z) ws) ->
     forall z, In (Some z) (map iev_value (ievc_evs r)) <-> exists p t, In p (sevc_evs c) /\ sev_value p = Some t /\ ValueOf t z).
Proof.
  intros c lsb msb HC. destruct (container_ok c lsb msb) as (ws & r & H & _).
  { split; [|left; intros v Hv; apply (HC v Hv)]. intros v Hv. right. destruct (HC v Hv) as (_ & _ & t & Et & Ht & Hp). exists t. split; [exact Et|]. now apply schema_value_text. }
  exists ws, r. split; [exact H|]. intros Hdn Hdv.
  unfold create_evc in H. minv. rename Hm into H. cbn [ievc_evs]. rewrite app_nil_r in Hdn, Hdv.
  apply pev_inv in H as (w0 & st & acc & Hl & HI & _ & Hc).
  destruct (process_evs_loop_ok (sevc_evs c) _ [] _ _ VInv_init Hl) as (_ & Hprov & Hcomp & Hres). cbn [fst snd app] in *.
  assert (Hnodef : vl_default st = None).
  { destruct (vl_default st) as [d|] eqn:Ed; [|reflexivity]. exfalso. destruct (vi_default_in _ _ HI d Ed) as [Hdin Hdd].
    destruct (Hprov d Hdin) as (q & w & us & u & Hq & Hrq & Hu & ->). destruct (resolve_wildcard_ok _ _ _ Hrq) as [_ Hok].
    destruct (Hok u Hu) as (_ & Hdf & _).
    assert (iev_default u = true) by (unfold reset_default in Hdd; destruct (iev_default u) eqn:Ex; auto; congruence).
    rewrite H in Hdf. destruct (HC q Hq) as [Hnod _]. destruct (sev_default q) as [[]|]; cbn in Hdf; congruence. }
  destruct Hc as [(_ & Hperm & ->)|(d & r0 & Hd & _)]; [|congruence].
  intros z. split.
  - intros Hz. apply in_map_iff in Hz as (v & Ev & Hv). apply (Permutation_in _ (Permutation_sym Hperm)) in Hv.
    destruct (Hprov _ Hv) as (q & w & us & u & Hq & Hrq & Hu & E). destruct (resolve_wildcard_ok _ _ _ Hrq) as [_ Hok]. destruct (Hok u Hu) as (_ & Hdfu & Hval).
    assert (Hu2 : iev_value u = Some z) by (subst v; unfold reset_default in Ev; destruct (iev_default u); [discriminate|exact Ev]).
    rewrite Hu2 in Hval. destruct Hval as (t & w1 & zs & H1 & _ & H3 & H4 & _). exists q, t. split; [exact Hq|]. split; [exact H1|].
    destruct (HC q Hq) as (_ & _ & t' & Et & Ht & Hp). rewrite H1 in Et. injection Et as <-. destruct (schema_value_convert t Ht Hp) as (zs' & E' & _ & Hz'). rewrite E' in H3. injection H3 as _ <-. now apply Hz'.
  - intros (p & t & Hp & Et & Hz). destruct (HC p Hp) as (Hd & Hr & t' & Et' & Ht & Hpl). rewrite Et in Et'. injection Et' as <-.
    destruct (schema_value_convert t Ht Hpl) as (zs & E & _ & Hzs). destruct (Hres p Hp) as (wp & up & Hrp).
    assert (Hne : t <> "") by (destruct (value_shape t Ht) as (u & Hu & [-> | ->]); [now apply shape_nonempty|discriminate]).
    assert (Hrs : is_reserved (sev_name p) = false) by (unfold is_reserved; now apply String.eqb_neq).
    assert (Hx := resolve_wildcard_complete _ _ _ _ _ _ z Hrp Hrs Et Hne E (proj2 (Hzs z) Hz)). apply (Hcomp (conj Hdn Hdv) p wp up Hp Hrp) in Hx.
    apply (Permutation_in _ Hperm) in Hx. apply (in_map iev_value) in Hx. unfold reset_default in Hx. destruct (sev_default p) as [[]|]; cbn in Hx; congruence || exact Hx.
Qed.

Definition pe {A} (m : M A) : Prop := forall e, snd m = Err e -> ex_class e = ProcessException.
Lemma pe_bind {A B} (m : M A) (f : A -> M B) : pe m -> (forall x, pe (f x)) -> pe (bind m f).
Proof. intros Hm Hf e. unfold bind. destruct m as [w [a|e']]; cbn in *; [destruct (f a) as [w2 r] eqn:E; cbn; intros ->; apply (Hf a); now rewrite E|intros [= <-]; now apply Hm]. Qed.
Lemma pe_ret {A} (x : A) : pe (ret x). Proof. intros e H. discriminate. Qed.
Lemma pe_raise {A} s : pe (raise ProcessException s : M A). Proof. intros e H. injection H as <-. reflexivity. Qed.
Lemma pe_warn w : pe (warn w). Proof. intros e H. discriminate. Qed.
Lemma pe_mapM {A B} (f : A -> M B) l : (forall x, pe (f x)) -> pe (mapM f l).
Proof. intros Hf. induction l as [|x l IH]; cbn; [apply pe_ret|]. apply pe_bind; [apply Hf|]. intros y. apply pe_bind; [exact IH|]. intros ys. apply pe_ret. Qed.
Lemma pe_convert t : pe (convert_enumerated_value t).
Proof.
  assert (H2 : forall s, pe (int2_or_pe s)) by (intros s; unfold int2_or_pe; destruct (py_int 2 s); [apply pe_ret|apply pe_raise]).
  unfold convert_enumerated_value, process_binary_value_with_wildcard. destruct (startswith _ _).
  - destruct (contains _ _); [apply pe_mapM; exact H2|]. apply pe_bind; [apply H2|intros; apply pe_ret].
  - destruct (startswith _ _); [destruct (py_int _ _); [apply pe_ret|apply pe_raise]|]. destruct (isdigit _); [|apply pe_raise]. destruct (py_int _ _); [apply pe_ret|apply pe_raise].
Qed.
Lemma pe_resolve p : pe (resolve_wildcard p).
Proof.
  unfold resolve_wildcard. apply pe_bind.
  - destruct (sev_value p) as [[|c t]|]; try apply pe_ret. apply pe_bind; [apply pe_convert|intros; apply pe_ret].
  - intros vs. apply pe_bind; [|intros; apply pe_ret]. apply pe_mapM. intros v. destruct (String.eqb _ _); [apply pe_bind; [apply pe_warn|intros; apply pe_ret]|apply pe_ret].
Qed.
Lemma pe_validate l : forall st, pe (validate_all st l).
Proof.
  induction l as [|v l IH]; intros st; cbn; [apply pe_ret|]. apply pe_bind; [|intros; apply pe_bind; [apply IH|intros; apply pe_ret]].
  unfold is_value_valid. destruct (mem_str _ _); [apply pe_bind; [apply pe_warn|intros; apply pe_ret]|]. destruct (has_value _ _); [apply pe_bind; [apply pe_warn|intros; apply pe_ret]|].
  apply pe_bind; [|intros; apply pe_ret]. destruct (iev_default v); [|apply pe_ret]. apply pe_bind; [destruct (iev_value v); [apply pe_warn|apply pe_ret]|].
  intros _. apply pe_bind; [unfold raise_if; destruct (is_some _); [apply pe_raise|apply pe_ret]|intros; apply pe_ret].
Qed.
Lemma plus_convert t : InSimple Full "enumeratedValueDataType" t -> plus_text t -> exists e, convert_enumerated_value t = ([], Err e).
Proof.
  intros H [r Er]. destruct (value_shape t H) as (u & Hu & [-> | ->]); [destruct (shape_head u Hu r); exact Er|]. clear Er r.
  unfold convert_enumerated_value. set (w := replace "#" "0b" (lower ("+" ++ u))).
  assert (Hw : exists v, w = String "+" v). { unfold w, lower. cbn. eexists. reflexivity. }
  destruct Hw as (v & ->). cbn. eexists. reflexivity.
Qed.
Lemma loop_plus p t : sev_value p = Some t -> InSimple Full "enumeratedValueDataType" t -> plus_text t ->
  forall ps st, In p ps -> exists ws e, process_evs_loop st ps = (ws, Err e) /\ ex_class e = ProcessException.
Proof.
  intros Et H Hp. induction ps as [|q ps IH]; intros st Hin; [destruct Hin|]. cbn [process_evs_loop]. unfold bind at 1.
  pose proof (pe_resolve q) as Hq. destruct (resolve_wildcard q) as [wq [us|e]] eqn:Eq; [|exists wq, e; split; [reflexivity|now apply Hq]].
  destruct Hin as [->|Hin].
  - exfalso. unfold resolve_wildcard in Eq. rewrite Et in Eq. destruct (plus_convert t H Hp) as (e & Ee). destruct Hp as [u ->]. cbn [append] in Eq, Ee. rewrite Ee in Eq. discriminate.
  - unfold bind at 1. pose proof (pe_validate us st) as Hv. destruct (validate_all st us) as [wv [r|e]]; [|eexists _, e; split; [reflexivity|now apply Hv]].
    destruct (IH (fst r) Hin) as (wl & e & E & He). unfold bind. rewrite E. eexists _, e. split; [reflexivity|exact He].
Qed.
(** ... but a value that the schema allows with a leading "+" is rejected *)
Theorem C59_enum_plus : forall c lsb msb p t, In p (sevc_evs c) -> sev_value p = Some t -> InSimple Full "enumeratedValueDataType" t -> plus_text t ->
  exists ws e, create_evc c lsb msb = (ws, Err e) /\ ex_class e = ProcessException.
Proof.
  intros c lsb msb p t Hp Et H Hpl. destruct (loop_plus p t Et H Hpl _ validator_init Hp) as (ws & e & E & He).
  unfold create_evc, process_enumerated_values, bind. rewrite E. eexists _, e. split; [reflexivity|exact He].
Qed.

(** ** Bit ranges *)
Lemma number_digits s : Matches (Cat (Maybe (Class [("0", "6")%char])) digit) s -> digit_string s /\ 0 <= dec_val 0 s <= 69.
Proof.
  assert (HD : forall c, is_digit c = true -> 0 <= Z.of_N (code c) - 48 <= 9) by (intros c; unfold is_digit, in_code_range; lia).
  intros H. apply cat_inv in H as (a & b & -> & Ha & Hb). inversion Hb as [l c lo hi Hin Hr| | | | | | ]; subst. destruct Hin as [[= <- <-]|[]].
  assert (Hc : is_digit c = true) by (unfold is_digit, in_code_range, code; cbn in Hr; lia).
  unfold Maybe in Ha. apply or_inv in Ha as [Ha|Ha].
  - apply lit_inv in Ha. subst. split; [split; [discriminate|cbn; now rewrite Hc]|]. cbn. pose proof (HD c Hc). unfold digit_of, code in *. lia.
  - inversion Ha as [l' c' lo hi Hin' Hr'| | | | | | ]; subst. destruct Hin' as [[= <- <-]|[]].
    assert (Hc' : is_digit c' = true) by (unfold is_digit, in_code_range, code; cbn in Hr'; lia).
    split; [split; [discriminate|cbn; now rewrite Hc, Hc']|]. cbn. pose proof (HD c Hc). cbn in Hr'. unfold digit_of, code in *. lia.
Qed.
Lemma range_text t : Matches (language Readable "bitRangeType") t -> exists a b, bit_range_text t a b /\ 0 <= dec_val 0 a <= 69 /\ 0 <= dec_val 0 b <= 69.
Proof.
  unfold language. cbv [simple_type packaged String.eqb Ascii.eqb Bool.eqb Cats]. intros H.
  apply cat_inv in H as (x1 & r1 & -> & H1 & H). apply lit_inv in H1 as ->. apply cat_inv in H as (a & r2 & -> & Ha & H).
  apply cat_inv in H as (x2 & r3 & -> & H2 & H). apply lit_inv in H2 as ->. apply cat_inv in H as (b & x3 & -> & Hb & H3). apply lit_inv in H3 as ->.
  apply number_digits in Ha as [Ha1 Ha2]. apply number_digits in Hb as [Hb1 Hb2]. exists a, b. split; [|now split]. split; [exact Ha1|]. split; [exact Hb1|]. exists "". reflexivity.
Qed.
(** C59, bit ranges: whatever bitRange the schema allows (with blanks around it, and in any order of the two numbers), the processing takes the
    two numbers as the limits of the field *)
Theorem C59_bit_ranges : forall r f s t name, r <> Full -> InSimple r "bitRangeType" s -> Stripped s t -> sf_bit_range f = Some t ->
  exists a b rest, t = ("[" ++ a ++ ":" ++ b ++ "]" ++ rest)%string /\ digit_string a /\ digit_string b /\
  exists ws g, process_field 0 name f None = (ws, Ok g) /\ fb_msb (if_b g) = Z.max (dec_val 0 a) (dec_val 0 b) /\ fb_lsb (if_b g) = Z.min (dec_val 0 a) (dec_val 0 b) /\
    0 <= fb_lsb (if_b g) <= fb_msb (if_b g) /\ fb_msb (if_b g) <= 69.
Proof.
  intros r f s t name Hr H Hs Ef. assert (Hm : Matches (language Readable "bitRangeType") t).
  { destruct (simple_stripped r _ _ Hr H) as (t' & Hs' & Hm); [destruct r; [congruence|reflexivity|reflexivity]|]. apply stripped_iff in Hs, Hs'. subst. destruct r; [congruence|exact Hm|exact Hm]. }
  destruct (range_text t Hm) as (a & b & (Ha & Hb & rest & Et) & Ra & Rb). exists a, b, rest. split; [exact Et|]. split; [exact Ha|]. split; [exact Hb|].
  destruct (proj2 (C09_field_bits f None name _ _) (Bits_range f None t a b Ef (conj Ha (conj Hb (ex_intro _ rest Et))))) as (ws & g & E & E1 & E2).
  exists ws, g. split; [exact E|]. split; [exact E1|]. split; [exact E2|]. rewrite E1, E2. lia.
Qed.

(** ** dimIndex *)
Lemma plus_word s : Matches (Plus word_) s -> word s.
Proof. intros H. apply (plus_full _ is_word) in H; [exact H|reflexivity|vm_compute; reflexivity]. Qed.
Lemma words_list p q s : p = Cats [one ","; Many blank; Plus word_] -> Matches q s -> q = Many p -> forall w, word w -> exists ws, WordList (w ++ s) (w :: ws) .
Proof.
  intros Ep H. revert Ep. induction H as [| | | | |a|a s t H1 _ H2 IH2]; intros Ep Eq w Hw; try discriminate.
  - exists []. rewrite sapp_nil_r. now constructor.
  - injection Eq as ->. rewrite Ep in H1. cbn [Cats] in H1. apply cat_inv in H1 as (c & r & -> & Hc & Hr). apply one_inv in Hc as ->. apply cat_inv in Hr as (sp & v & -> & Hsp & Hv). apply plus_word in Hv.
    destruct (IH2 Ep eq_refl v Hv) as (ws & Hws). exists (v :: ws).
    replace (w ++ (String "," "" ++ sp ++ v) ++ t)%string with (w ++ "," ++ sp ++ (v ++ t))%string by (cbn; now rewrite !sapp_assoc).
    apply WL_cons; [exact Hw| |exact Hws]. exact (chars_ok is_space _ _ Hsp eq_refl).
Qed.
Inductive Descending : string -> Prop :=
| Desc_num a b : digit_string a -> digit_string b -> dec_val 0 b < dec_val 0 a -> Descending (a ++ "-" ++ b)
| Desc_let x y : is_upper x = true -> is_upper y = true -> (code y <= code x)%N -> Descending (single x ++ "-" ++ single y).
Lemma letter s : Matches (Class [("A", "Z")%char]) s -> exists x, s = single x /\ is_upper x = true.
Proof. intros H. inversion H as [l c lo hi Hin Hr| | | | | | ]; subst. destruct Hin as [[= <- <-]|[]]. exists c. split; [reflexivity|]. unfold is_upper, in_code_range, code. cbn in Hr. lia. Qed.
Lemma index_shape t : InSimple Full "dimIndexType" t -> Descending t \/ (forall d, exists l, Index d (Some t) l).
Proof.
  unfold InSimple. cbv [simple_type packaged String.eqb Ascii.eqb Bool.eqb]. unfold Ors. intros H. apply or_inv in H as [H|H]; [|apply or_inv in H as [H|H]].
  - cbn [Cats] in H. apply cat_inv in H as (a & r & -> & Ha & H). apply cat_inv in H as (c & b & -> & Hc & Hb). apply one_inv in Hc as ->. apply plus_digit in Ha, Hb.
    destruct (Z_lt_le_dec (dec_val 0 b) (dec_val 0 a)) as [L|L]; [left; now apply Desc_num|right; intros d; eexists; now apply Ix_range].
  - cbn [Cats] in H. apply cat_inv in H as (a & r & -> & Ha & H). apply cat_inv in H as (c & b & -> & Hc & Hb). apply one_inv in Hc as ->. apply letter in Ha as (x & -> & Hx). apply letter in Hb as (y & -> & Hy).
    destruct (N.le_gt_cases (code y) (code x)) as [L|L]; [left; now apply Desc_let|right; intros d; eexists; now apply Ix_letters].
  - right. intros d. apply cat_inv in H as (w & s & -> & Hw & Hs). apply plus_word in Hw.
    assert (Hs' : Matches (Many (Cats [one ","; Many blank; Plus word_])) s) by (apply cat_inv in Hs as (u & v & -> & Hu & Hv); now apply m_more).
    destruct (words_list _ _ s eq_refl Hs' eq_refl w Hw) as (ws & HW). exists (w :: ws). now apply Ix_words.
Qed.
(** C59, dimIndex: whatever dimIndex the schema allows is either a descending range (of numbers, or of letters; a range of one letter counts as such), which is
    rejected, or denotes a list of names, which are those of the instances if there are dim of them *)
Theorem C59_dim_index : forall t, InSimple Full "dimIndexType" t ->
  (Descending t /\ forall d, exists s, process_dim_index d (Some t) = ([], Err (E ProcessException s))) \/
  (forall d, exists l, Index d (Some t) l /\ (1 <= d -> Z.of_nat (length l) = d -> process_dim_index d (Some t) = ([], Ok l))).
Proof.
  intros t H. destruct (index_shape t H) as [D|Hl].
  - left. split; [exact D|]. intros d. destruct (C07_descending d) as [Hn Hc]. destruct D as [a b Ha Hb Hab|x y Hx Hy Hxy]; [now apply Hn|now apply Hc].
  - right. intros d. destruct (Hl d) as (l & Hi). exists l. split; [exact Hi|]. apply (C07_dim_index d (Some t) l Hi).
Qed.

(** ** Files *)
Lemma rc_both l y : DeclaredRc l y -> Forall conform_rc l -> Forall faithful_rc l -> conform_rc y /\ faithful_rc y.
Proof.
  intros H. induction H as [l y Hin|l c ch y Hin _ IH]; intros HC HF; rewrite Forall_forall in HC, HF; specialize (HC _ Hin); specialize (HF _ Hin); [now split|].
  inversion HC; inversion HF; subst. now apply IH.
Qed.
Lemma field_both ps f : Forall conform_per ps -> Forall faithful_per ps -> DeclaredField ps f -> conform_field f /\ faithful_field f.
Proof.
  intros HC HF (p & r & Hp & Hr & Hf). rewrite Forall_forall in HC, HF. specialize (HC p Hp). specialize (HF p Hp).
  assert (HB : conform_rc (SReg r) /\ faithful_rc (SReg r)) by (eapply rc_both; [exact Hr|apply HC|apply HF]). destruct HB as [H1 H2].
  inversion H1 as [r1 C1|]; subst. inversion H2 as [r2 F2|]; subst. destruct C1 as (_ & _ & _ & _ & _ & _ & _ & _ & _ & _ & _ & C1). destruct F2 as (_ & _ & _ & _ & _ & _ & F2 & _).
  rewrite Forall_forall in C1, F2. split; auto.
Qed.
Lemma sizes_ok ps e s : Forall conform_per ps -> Forall faithful_per ps -> Declared ps e -> stated_size e = Some s -> 0 <= s.
Proof.
  intros HC HF HD Hs. destruct e as [|p|[r|c l]|f|c]; cbn in Hs; try discriminate.
  - rewrite Forall_forall in HC. cbn in HD. destruct (HC p HD) as (_ & _ & _ & _ & _ & _ & _ & _ & _ & _ & _ & _ & (H & _) & _). now apply H.
  - destruct HD as (p & Hp & Hr). rewrite Forall_forall in HC, HF. destruct (rc_both _ _ Hr) as [H _]; [apply (HC p Hp)|apply (HF p Hp)|].
    inversion H as [r1 C1|]; subst. destruct C1 as (_ & _ & _ & _ & _ & _ & _ & _ & _ & (C1 & _) & _). now apply C1.
  - destruct HD as (p & Hp & Hr). rewrite Forall_forall in HC, HF. destruct (rc_both _ _ Hr) as [H _]; [apply (HC p Hp)|apply (HF p Hp)|].
    inversion H as [|c1 l1 C1 _]; subst. destruct C1 as (_ & _ & _ & _ & _ & _ & _ & _ & C1 & _). now apply C1.
Qed.
(** what the schema says about the bits of a field gives its position *)
Lemma conform_bits_ok f : conform_bits f -> ok_text (sf_bit_range f) -> exists m l, Bits f None m l.
Proof.
  intros (H1 & H2 & H3 & H4 & H5 & H6) Ht. destruct (sf_lsb f) as [ls|] eqn:E1, (sf_msb f) as [ms|] eqn:E2, (sf_bit_offset f) as [bo|] eqn:E3, (sf_bit_width f) as [bw|] eqn:E4, (sf_bit_range f) as [br|] eqn:E5; try contradiction.
  - exists ms, ls. apply Bits_pair; [exact E5|]. split; [left; congruence|]. rewrite E1, E2. split; reflexivity.
  - exists (bo + bw - 1), bo. apply Bits_offset; [exact E5| |].
    + intros m' l' ([H|H] & _); [exact (H E1)|exact (H E2)].
    + split; [left; congruence|]. rewrite E3, E4. split; [reflexivity|]. exists bw. split; reflexivity.
  - specialize (H5 br eq_refl). destruct (Ht br eq_refl) as [_ Htr].
    destruct (simple_stripped Rewritable _ _ ltac:(discriminate) H5 eq_refl) as (t & Hs & Hm). apply stripped_iff in Hs. unfold trimmed in Htr. rewrite Htr in Hs. subst t.
    destruct (range_text br Hm) as (a & b & HB & _). eexists _, _. exact (Bits_range f None br a b E5 HB).
Qed.
Lemma evd_full t : InSimple Rewritable "enumeratedValueDataType" t -> InSimple Full "enumeratedValueDataType" t.
Proof. exact (fun H => H). Qed.
Lemma filter_nil_all {A} (p : A -> bool) l : filter p l = [] -> forall x, In x l -> p x = false.
Proof. intros H x Hx. destruct (p x) eqn:E; [|reflexivity]. assert (Hi : In x (filter p l)) by (apply filter_In; now split). rewrite H in Hi. destruct Hi. Qed.
Lemma filter_one {A} (p : A -> bool) l : (length (filter p l) <= 1)%nat -> (forall x, In x l -> p x = false) \/ exists l1 d l2, l = l1 ++ d :: l2 /\ p d = true /\ forall x, In x (l1 ++ l2) -> p x = false.
Proof.
  induction l as [|x l IH]; intros H; [left; intros x []|]. cbn in H. destruct (p x) eqn:E.
  - cbn in H. assert (Hn : filter p l = []) by (destruct (filter p l); [reflexivity|cbn in H; lia]). right. exists [], x, l. split; [reflexivity|]. split; [exact E|]. exact (filter_nil_all p l Hn).
  - destruct (IH H) as [Ha|(l1 & d & l2 & -> & Hd & Ha)]; [left; intros y [<-|Hy]; auto|]. right. exists (x :: l1), d, l2. split; [reflexivity|]. split; [exact Hd|]. intros y [<-|Hy]; auto.
Qed.

(** What a valid file has to keep besides the schema. Fields: one container of enumerated values, or one for reading and one for writing; in a container at
    most one default entry, none if the limits of the field are the wrong way round (lsb above msb); no value with a leading "+" *)
Definition is_default (v : svd_ev) : bool := match sev_default v with Some b => b | None => false end.
Definition EntryRules (f : svd_field) : Prop :=
  UsageRules (sf_evcs f) /\ forall c, In c (sf_evcs f) ->
    (length (filter is_default (sevc_evs c)) <= 1)%nat /\
    (forall v, In v (sevc_evs c) -> is_default v = true -> forall m l, Bits f None m l -> l <= m + 1) /\
    (forall v t, In v (sevc_evs c) -> sev_value v = Some t -> ~ plus_text t).
Lemma entry_field f : conform_field f -> faithful_field f -> EntryRules f -> FieldRules f.
Proof.
  intros (_ & _ & _ & _ & Hb & _ & Hc & _) (_ & _ & _ & _ & _ & Ht & _) [HU HE]. destruct (conform_bits_ok f Hb Ht) as (m & l & HB). exists m, l. split; [exact HB|]. split; [exact HU|].
  intros c Hin. destruct (HE c Hin) as (H1 & H2 & H3). rewrite Forall_forall in Hc. destruct (Hc c Hin) as (_ & _ & _ & Hv). rewrite Forall_forall in Hv. split.
  - intros v Hvi. destruct (sev_value v) as [t|] eqn:Et; [|left; now left]. right. exists t. split; [reflexivity|]. destruct (Hv v Hvi) as (_ & _ & Hx & _).
    apply schema_value_text; [exact (Hx t Et)|]. now apply (H3 v).
  - destruct (filter_one is_default (sevc_evs c) H1) as [Ha|(l1 & d & l2 & El & Hd & Ha)].
    + left. intros v Hvi E. specialize (Ha v Hvi). unfold is_default in Ha. rewrite E in Ha. discriminate.
    + right. assert (Hdi : In d (sevc_evs c)) by (rewrite El; apply in_elt). specialize (H2 d Hdi Hd m l HB). split; [lia|]. exists l1, d, l2. split; [exact El|]. split.
      * left. destruct (sev_value d) as [t|] eqn:Et; [|reflexivity]. destruct (Hv d Hdi) as (_ & _ & _ & [Hg _]). unfold is_default in Hd. rewrite Hg in Hd; [discriminate|]. unfold given. congruence.
      * intros v Hvi E. specialize (Ha v Hvi). unfold is_default in Ha. rewrite E in Ha. discriminate.
Qed.
Lemma file_both doc ws d : ValidDoc Rewritable doc -> FromFile doc -> parse_device doc = (ws, Ok d) -> sdv_periphs d <> [] /\ Forall conform_per (sdv_periphs d) /\ Forall faithful_per (sdv_periphs d).
Proof.
  intros H Hf Hp. pose proof (read_conform _ _ _ H Hp) as HC. assert (Hrd : reads_device doc d) by (apply C28_reads; eauto).
  destruct (device_kept doc d Hf Hrd HC) as [HF _]. destruct HC as (_ & _ & _ & _ & _ & _ & _ & _ & _ & _ & _ & _ & _ & _ & Hne & HC). split; [exact Hne|]. split; [exact HC|]. apply HF.
Qed.
(** C59, whole files: a document that is valid against the packaged schema is read, and what is read is expanded as it says,
    if its arrays, lists and enumerated values keep the rules (which the schema does not express), and nothing is derived *)
Theorem C59_file_resolved : forall doc, ValidDoc Rewritable doc -> FromFile doc ->
  exists ws d, parse_device doc = (ws, Ok d) /\ reads_device doc d /\
    (no_derivation d -> (forall e, Declared (sdv_periphs d) e -> level_of e <> LEnum -> DimRules e) -> (forall f, DeclaredField (sdv_periphs d) f -> EntryRules f) ->
     exists i, idv_b i = process_device_base d /\ PlainExpansion (sdv_periphs d) (idv_periphs i) /\ (exists w, Resolves d w i) /\
       ((exists w dev, Processes d w dev) <-> Acceptable i) /\ ((exists e, Rejects d e) <-> ~ Acceptable i)).
Proof.
  intros doc H Hf. destruct (C57_valid_read doc (proj1 (C57_scopes doc) H)) as (ws & d & Hp & Hr). exists ws, d. split; [exact Hp|]. split; [exact Hr|]. intros N HD HE.
  destruct (file_both doc ws d H Hf Hp) as (Hne & HC & HF).
  assert (ER : ElementRules (sdv_periphs d)).
  { split; [exact Hne|]. intros e He Hl. split; [now apply HD|]. split; [intros s Hs; now apply (sizes_ok (sdv_periphs d) e)|]. intros f ->.
    destruct (field_both (sdv_periphs d) f HC HF He) as [H1 H2]. apply entry_field; [exact H1|exact H2|now apply HE]. }
  destruct (C49_resolved d N ER) as (w & i & R & Eb & X). exists i. split; [exact Eb|]. split; [exact X|]. split; [now exists w|].
  split; [exact (C50_accepted_iff d w i R)|]. split.
  - intros (e & He) HA. apply (C50_accepted_iff d w i R) in HA as (w2 & dev & P). exact (Processes_not_Rejects d w2 dev e P He).
  - intros HA. apply (C50_rejected_iff d w i R) in HA as (e & HA & _). eauto.
Qed.
(** the same if peripherals (and nothing else) are derived *)
Theorem C59_file_resolved_derived : forall doc, ValidDoc Rewritable doc -> FromFile doc ->
  exists ws d, parse_device doc = (ws, Ok d) /\ reads_device doc d /\
    ((forall p, In p (sdv_periphs d) -> PeripheralRules (sdv_periphs d) p) ->
     (forall e, Declared (sdv_periphs d) e -> level_of e <> LPeripheral -> derived_of e = None /\ (level_of e <> LEnum -> DimRules e)) ->
     (forall f, DeclaredField (sdv_periphs d) f -> EntryRules f) ->
     exists i, idv_b i = process_device_base d /\ Expansion (sdv_periphs d) (idv_periphs i) /\ (exists w, Resolves d w i) /\
       ((exists w dev, Processes d w dev) <-> Acceptable i) /\ ((exists e, Rejects d e) <-> ~ Acceptable i)).
Proof.
  intros doc H Hf. destruct (C57_valid_read doc (proj1 (C57_scopes doc) H)) as (ws & d & Hp & Hr). exists ws, d. split; [exact Hp|]. split; [exact Hr|]. intros N HD HE.
  destruct (file_both doc ws d H Hf Hp) as (Hne & HC & HF).
  assert (ER : DerivedRules (sdv_periphs d)).
  { split; [exact Hne|]. split; [exact N|]. split; [intros e s He Hs; now apply (sizes_ok (sdv_periphs d) e)|]. intros e He Hl. destruct (HD e He Hl) as [H1 H2]. split; [exact H1|]. split; [exact H2|]. intros f ->.
    destruct (field_both (sdv_periphs d) f HC HF He) as [H3 H4]. apply entry_field; [exact H3|exact H4|now apply HE]. }
  destruct (C52_resolved d ER) as (w & i & R & Eb & X). exists i. split; [exact Eb|]. split; [exact X|]. split; [now exists w|].
  split; [exact (C50_accepted_iff d w i R)|]. split.
  - intros (e & He) HA. apply (C50_accepted_iff d w i R) in HA as (w2 & dev & P). exact (Processes_not_Rejects d w2 dev e P He).
  - intros HA. apply (C50_rejected_iff d w i R) in HA as (e & HA & _). eauto.
Qed.

(** ** Concrete cases *)
(** a register with the three notations for the bits, enumerated values with don't-care bits and a default, a list of registers, nested clusters, and a
    derived peripheral: the document is valid, keeps the rules, and is processed *)
Definition mixed : list svd_evc :=
  [mk_sevc (Some "E") None (Some U_READ_WRITE) [mk_sev "on" (Some "is on") (Some "0x1") None; mk_sev "even" None (Some "#x0") None; mk_sev "rest" None None (Some true)] None].
#[local] Arguments txt : simpl never.
Example mixed_conform : conform_device (rich mixed).
Proof. cf. Qed.
Lemma mixed_rc p x : In p (sdv_periphs (rich mixed)) -> DeclaredRc (sp_rcs p) x -> In x (all_of (rich mixed)).
Proof. intros. eapply declared_of; eassumption. Qed.
Definition the_fields : list svd_field :=
  [mk_sfield nodim "F" (Some "A field") None None (Some 0) (Some 1) None None None None None mixed None;
   mk_sfield nodim "G" None (Some 4) (Some 2) None None None (Some READ_ONLY) None None None [] None;
   mk_sfield nodim "H" None None None None None (Some "[12:8]") None None (Some (mk_wc (Some true) None None)) None [] None].
Lemma mixed_field f : DeclaredField (sdv_periphs (rich mixed)) f -> In f the_fields.
Proof.
  intros (p & r & Hp & Hr & Hf). pose proof (mixed_rc _ _ Hp Hr) as HA. cbn in HA.
  repeat (destruct HA as [HA|HA]; [try discriminate HA; injection HA as <-; cbn in Hf; exact Hf || destruct Hf|]). destruct HA.
Qed.
Lemma plain_dim e : contains "%s" (parsed_name e) = false -> (forall s, parsed_display e = Some s -> contains "%s" s = false) -> DimRules e.
Proof. intros H1 H2. left. split; [now apply no_placeholder_dec|]. intros s Hs. now apply no_placeholder_dec, H2. Qed.
Lemma mixed_dims e : Declared (sdv_periphs (rich mixed)) e -> level_of e <> LPeripheral -> derived_of e = None /\ (level_of e <> LEnum -> DimRules e).
Proof.
  intros He Hl. destruct e as [|p|x|f|v]; [destruct He|now destruct Hl| | |].
  - destruct He as (p & Hp & Hx). pose proof (mixed_rc _ _ Hp Hx) as HA. clear Hx Hp Hl. cbn in HA.
    destruct HA as [<-|[<-|[<-|[<-|[<-|[]]]]]]; (split; [reflexivity|intros _]); try (apply plain_dim; [reflexivity|intros s Hs; cbn in Hs; first [discriminate Hs|injection Hs as <-; reflexivity]]).
    right. exists 2. split; [reflexivity|]. split; [lia|]. right. split; [exists "T", ""; reflexivity|]. split; [apply no_array_dec; reflexivity|]. split; [discriminate|]. split; [intros s K; discriminate|].
    exists ["A"; "B"]. split; [|reflexivity]. apply Ix_words. change "A,B" with ("A" ++ "," ++ "" ++ "B")%string. apply WL_cons; [split; [discriminate|reflexivity]|reflexivity|]. apply WL_last. split; [discriminate|reflexivity].
  - apply mixed_field in He. cbn in He. destruct He as [<-|[<-|[<-|[]]]]; (split; [reflexivity|intros _]); apply plain_dim; try reflexivity; intros s Hs; discriminate Hs.
  - destruct He as (f & Hf & Hv). apply mixed_field in Hf. cbn in Hf. split; [|intros H; now destruct H]. destruct Hf as [<-|[<-|[<-|[]]]]; cbn in Hv; [destruct Hv as [<-|[]]; reflexivity|destruct Hv..].
Qed.
Lemma mixed_entries f : DeclaredField (sdv_periphs (rich mixed)) f -> EntryRules f.
Proof.
  intros Hf. apply mixed_field in Hf. cbn in Hf. destruct Hf as [<-|[<-|[<-|[]]]]; (split; [left; cbn; lia|]); cbn [sf_evcs]; [|intros c []..].
  intros c [<-|[]]. split; [cbn; lia|]. split.
  - intros v _ _ m l H. inversion H as [s a b E|m0 l0 _ (_ & E1 & E2)|m0 l0 _ _ (_ & E1 & E2)]; subst; [discriminate| |discriminate]. cbn in E1, E2. injection E1 as <-. injection E2 as <-. lia.
  - intros v t Hv Et (u & ->). cbn in Hv. destruct Hv as [<-|[<-|[<-|[]]]]; discriminate Et.
Qed.
Lemma mixed_peripherals p : In p (sdv_periphs (rich mixed)) -> PeripheralRules (sdv_periphs (rich mixed)) p.
Proof.
  intros Hp. cbn [rich sdv_periphs] in Hp. split.
  - destruct Hp as [<-|[<-|[]]]; [now apply Gr_own|]. cbn [rich sdv_periphs].
    match goal with |- Grounded (?P :: _) _ => apply Gr_via with (q := P) end; [|apply Gr_own; reflexivity].
    exists "P", []. eexists [_]. split; [reflexivity|]. split; [reflexivity|]. split; [reflexivity|]. split; [reflexivity|]. intros r [<-|[]]. discriminate.
  - left. destruct Hp as [<-|[<-|[]]]; apply no_placeholder_dec; reflexivity.
Qed.
Example C59_nonvacuous : let doc := device_xml (rich mixed) in
  ValidDoc Rewritable doc /\ FromFile doc /\ snd (parse_device doc) = Ok (rich mixed) /\
  (forall p, In p (sdv_periphs (rich mixed)) -> PeripheralRules (sdv_periphs (rich mixed)) p) /\
  (forall e, Declared (sdv_periphs (rich mixed)) e -> level_of e <> LPeripheral -> derived_of e = None /\ (level_of e <> LEnum -> DimRules e)) /\
  (forall f, DeclaredField (sdv_periphs (rich mixed)) f -> EntryRules f) /\
  (exists ws, Processes (rich mixed) ws (processed (rich mixed))) /\
  map (fun p => pb_name (pr_b p)) (dv_periphs (processed (rich mixed))) = ["P"; "Q"].
Proof.
  intros doc. split; [apply (C58_written _ mixed_conform)|]. split; [apply no_empty_from; vm_compute; reflexivity|]. split; [vm_compute; reflexivity|].
  split; [exact mixed_peripherals|]. split; [exact mixed_dims|]. split; [exact mixed_entries|]. split; [|vm_compute; reflexivity].
  exists (fst (process_device 30 (rich mixed))). exists 30%nat. vm_compute. reflexivity.
Qed.
(** texts of the schema: what they stand for *)
Example C59_texts : InSimple Full "enumeratedValueDataType" "0x1F" /\ ValueOf "0x1F" 31 /\ InSimple Full "enumeratedValueDataType" "#1x" /\ ValueOf "#1x" 3 /\
  InSimple Full "enumeratedValueDataType" "+5" /\ plus_text "+5" /\ InSimple Readable "bitRangeType" " [3:10] " /\ Stripped " [3:10] " "[3:10]" /\
  InSimple Full "dimIndexType" "3-0" /\ Descending "3-0" /\ InSimple Full "dimIndexType" "x, y,  z".
Proof.
  assert (HS : Stripped " [3:10] " "[3:10]") by (apply stripped_iff; reflexivity).
  split; [apply accepts_sound; vm_compute; reflexivity|]. split; [apply (vo_hex "0x" "1F"); [now left|apply digits_go_Digits; [lia|reflexivity]]|].
  split; [apply accepts_sound; vm_compute; reflexivity|]. split.
  { assert (Hw : wild_literal "1x") by (split; [discriminate|repeat constructor; unfold wild_char; cbn; tauto]). apply (vo_bin "#" "1x"); [now left|exact Hw|]. apply (wild_values_spec "1x" Hw). vm_compute. tauto. }
  split; [apply accepts_sound; vm_compute; reflexivity|]. split; [now exists "5"|].
  split; [split; [apply accepts_sound; vm_compute; reflexivity|intros _; exists " ", " "; split; [reflexivity|split; apply accepts_sound; vm_compute; reflexivity]]|]. split; [exact HS|].
  split; [apply accepts_sound; vm_compute; reflexivity|]. split; [|apply accepts_sound; vm_compute; reflexivity].
  apply (Desc_num "3" "0"); [split; [discriminate|reflexivity]|split; [discriminate|reflexivity]|reflexivity].
Qed.

Print Assumptions C59_enum_values.
Print Assumptions C59_enum_plus.
Print Assumptions C59_bit_ranges.
Print Assumptions C59_dim_index.
Print Assumptions C59_file_resolved.
Print Assumptions C59_file_resolved_derived.
