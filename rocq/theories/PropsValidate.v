(** * PropsValidate: C48, the verdict of the validator *)
From Verif Require Import Base PyStr PyInt DimFacts XmlReadModel ValidateModel.

(** ** Specification *)

(** the text of a version number: "1.3.11" for [1; 3; 11] *)
Fixpoint dotted (l : list Z) : string :=
  match l with
  | [] => ""
  | [n] => str_of_Z n
  | n :: l' => (str_of_Z n ++ "." ++ dotted l')%string
  end.

(** [a] is a newer version than [b]: the first component in which they differ is greater in [a]; missing components count as 0 *)
Definition Newer (a b : list Z) : Prop :=
  exists i, nth i b 0 < nth i a 0 /\ forall j, (j < i)%nat -> nth j a 0 = nth j b 0.

Definition VersionNumber (l : list Z) : Prop := l <> [] /\ Forall (fun n => 0 <= n) l.

(** ** Versions *)
Lemma nth_strip_zeros l i : nth i (strip_zeros l) 0 = nth i l 0.
Proof.
  revert i. induction l as [|x l IH]; intros i; [reflexivity|]. cbn [strip_zeros].
  destruct (strip_zeros l) as [|y r] eqn:Hs.
  - assert (Hz : forall j, nth j l 0 = 0). { intros j. rewrite <- IH. now destruct j. }
    destruct (Z.eqb_spec x 0) as [->|Hx]; destruct i as [|i]; cbn [nth]; auto.
    rewrite Hz. now destruct i.
  - destruct i as [|i]; cbn [nth]; [reflexivity|]. apply IH.
Qed.

Definition tight (l : list Z) : Prop := l = [] \/ last l 0 <> 0.

Lemma strip_zeros_tight l : tight (strip_zeros l).
Proof.
  induction l as [|x l IH]; [now left|]. cbn [strip_zeros].
  destruct (strip_zeros l) as [|y r].
  - destruct (Z.eqb_spec x 0); [now left|]. right. exact n.
  - right. destruct IH as [H|H]; [discriminate|]. exact H.
Qed.

Lemma tight_tail x l : tight (x :: l) -> tight l.
Proof. intros [H|H]; [discriminate|]. destruct l; [now left|]. right. exact H. Qed.

Lemma strip_zeros_nonneg l : Forall (fun n => 0 <= n) l -> Forall (fun n => 0 <= n) (strip_zeros l).
Proof.
  induction 1 as [|x l Hx Hl IH]; cbn [strip_zeros]; [constructor|].
  destruct (strip_zeros l) as [|y r]; [destruct (x =? 0); repeat constructor; auto|]. constructor; auto.
Qed.

Lemma tight_newer_nil l : Forall (fun n => 0 <= n) l -> tight l -> l <> [] -> Newer l [].
Proof.
  induction l as [|x l IH]; intros H Ht Hne; [congruence|].
  destruct (Z.eq_dec x 0) as [->|Hx].
  - destruct l as [|y l]; [destruct Ht as [Ht|Ht]; [discriminate|now contradiction Ht]|].
    destruct IH as (i & Hi & Hj); [now inversion H|eapply tight_tail; eauto|discriminate|].
    exists (S i). split; [destruct i; exact Hi|].
    intros [|j] Hlt; [reflexivity|]. change (nth (S j) (0 :: y :: l) 0) with (nth j (y :: l) 0). rewrite (Hj j) by lia. now destruct j.
  - exists 0%nat. split; [|intros; lia]. apply Forall_inv in H. cbn [nth]. lia.
Qed.

Lemma newer_cons x a b : Newer a b -> Newer (x :: a) (x :: b).
Proof. intros (i & Hi & Hj). exists (S i). split; [exact Hi|]. intros [|j] Hlt; [reflexivity|]. cbn [nth]. apply Hj; lia. Qed.

Lemma tuple_le_newer a : forall b, Forall (fun n => 0 <= n) a -> Forall (fun n => 0 <= n) b -> tight a -> tight b ->
  (tuple_le a b = false <-> Newer a b).
Proof.
  induction a as [|x a IH]; intros b Ha Hb Ta Tb.
  - cbn [tuple_le]. split; [discriminate|]. intros (i & Hi & _).
    assert (H0 : 0 <= nth i b 0).
    { destruct (Nat.lt_ge_cases i (length b)) as [H|H]; [|rewrite nth_overflow by auto; lia].
      rewrite Forall_forall in Hb. apply Hb, nth_In, H. }
    destruct i; cbn [nth] in *; lia.
  - destruct b as [|y b]; cbn [tuple_le].
    { split; [intros _; apply tight_newer_nil; auto; discriminate|auto]. }
    destruct (Z.eqb_spec x y) as [->|Hxy].
    + rewrite IH; [|now inversion Ha|now inversion Hb|eapply tight_tail; eauto|eapply tight_tail; eauto].
      split; [apply newer_cons|]. intros (i & Hi & Hj). destruct i as [|i]; [cbn in Hi; lia|].
      exists i. split; [exact Hi|]. intros j Hlt. apply (Hj (S j)). lia.
    + rewrite Z.ltb_ge. split.
      * intros H. exists 0%nat. split; [cbn [nth]; lia|intros; lia].
      * intros (i & Hi & Hj). destruct i as [|i]; [cbn [nth] in Hi; lia|].
        exfalso. apply Hxy. apply (Hj 0%nat). lia.
Qed.

Lemma tuple_le_total a b : tuple_le a b = false -> tuple_le b a = true.
Proof.
  revert b. induction a as [|x a IH]; intros [|y b]; cbn [tuple_le]; try discriminate; auto.
  destruct (Z.eqb_spec x y) as [->|Hxy].
  - rewrite Z.eqb_refl. apply IH.
  - intros H. apply Z.ltb_ge in H. destruct (Z.eqb_spec y x); [congruence|]. apply Z.ltb_lt. lia.
Qed.

Lemma tuple_le_trans a b c : tuple_le a b = true -> tuple_le b c = true -> tuple_le a c = true.
Proof.
  revert b c. induction a as [|x a IH]; intros [|y b] [|z c]; cbn [tuple_le]; try discriminate; auto.
  destruct (Z.eqb_spec x y) as [->|Hxy], (Z.eqb_spec y z) as [->|Hyz].
  - apply IH.
  - auto.
  - intros H _. destruct (Z.eqb_spec x z); [congruence|]. exact H.
  - intros H1 H2. apply Z.ltb_lt in H1, H2. destruct (Z.eqb_spec x z); [lia|]. apply Z.ltb_lt. lia.
Qed.

Lemma split_app_sep c s t : sforallb (fun d => negb (Ascii.eqb c d)) s = true ->
  split_on c (s ++ String c t) = s :: split_on c t.
Proof.
  induction s as [|d s IH]; cbn [sforallb]; intros H.
  - cbn [append split_on]. now rewrite Ascii.eqb_refl.
  - apply andb_true_iff in H as [H1 H2]. apply negb_true_iff in H1. cbn [append split_on]. rewrite H1, IH; auto.
Qed.

Lemma str_no_dot n : 0 <= n -> sforallb (fun d => negb (Ascii.eqb "." d)) (str_of_Z n) = true.
Proof.
  intros H. unfold str_of_Z. destruct (Z.ltb_spec n 0); [lia|].
  apply nat_str_chars; [apply good10|auto|]. intros d Hd.
  apply (digit_sweep (fun c => negb (Ascii.eqb "." c))); [vm_compute; reflexivity|lia].
Qed.

Lemma str_digits n : 0 <= n -> sforallb (fun c => is_digit c || Ascii.eqb c ".") (str_of_Z n) = true.
Proof.
  intros H. unfold str_of_Z. destruct (Z.ltb_spec n 0); [lia|].
  apply nat_str_chars; [apply good10|auto|]. intros d Hd.
  assert (Hs : forallb (fun d => is_digit (digit_char d) || Ascii.eqb (digit_char d) ".") (zrange 0 10) = true) by (vm_compute; reflexivity).
  rewrite forallb_forall in Hs. apply Hs. apply zrange_in. lia.
Qed.

Lemma sforallb_app p s t : sforallb p (s ++ t) = sforallb p s && sforallb p t.
Proof. induction s as [|c s IH]; cbn [append sforallb]; [reflexivity|]. now rewrite IH, andb_assoc. Qed.

Lemma release_dotted l : VersionNumber l -> release (dotted l) = Some l.
Proof.
  intros [Hne Hl]. unfold release.
  assert (H1 : sforallb (fun c => is_digit c || Ascii.eqb c ".") (dotted l) = true).
  { clear Hne. induction Hl as [|n l Hn Hl IH]; [reflexivity|]. destruct l as [|m l]; [apply str_digits, Hn|].
    change (dotted (n :: m :: l)) with (str_of_Z n ++ "." ++ dotted (m :: l))%string.
    rewrite !sforallb_app, IH, str_digits; auto. }
  rewrite H1. clear H1. induction Hl as [|n l Hn Hl IH]; [congruence|]. destruct l as [|m l].
  - cbn [dotted]. rewrite split_none by (apply str_no_dot, Hn). cbn [numbers]. rewrite py_int_str by auto. reflexivity.
  - change (dotted (n :: m :: l)) with (str_of_Z n ++ String "." (dotted (m :: l)))%string.
    rewrite split_app_sep by (apply str_no_dot, Hn). cbn [numbers]. rewrite py_int_str by auto.
    rewrite IH by discriminate. reflexivity.
Qed.

Lemma with_keys_dotted rs : Forall VersionNumber rs -> with_keys (map dotted rs) = Some (map (fun r => (dotted r, r)) rs).
Proof.
  induction 1 as [|r rs Hr Hrs IH]; cbn [with_keys map]; [reflexivity|]. rewrite release_dotted, IH; auto.
Qed.

Lemma sorted_last {A} (R : A -> A -> Prop) l x : StronglySorted R (l ++ [x]) -> forall y, In y l -> R y x.
Proof.
  induction l as [|z l IH]; cbn [app]; intros H y Hy; [destruct Hy|].
  apply StronglySorted_inv in H as [Hs Hf]. destruct Hy as [<-|Hy]; [|now apply IH].
  rewrite Forall_forall in Hf. apply Hf, in_app_iff. right. now left.
Qed.

(** Whatever versions the enumeration lists, in whatever order, the default is a listed version and none of them is newer. *)
Theorem C48_latest rs : rs <> [] -> Forall VersionNumber rs ->
  exists r, In r rs /\ get_latest (map dotted rs) = Some (dotted r) /\ forall r', In r' rs -> ~ Newer r' r.
Proof.
  intros Hne Hrs. unfold get_latest. rewrite with_keys_dotted by auto.
  set (l := map (fun r => (dotted r, r)) rs).
  pose proof (isort_sorted version_le
    (fun x y H => tuple_le_total _ _ H) (fun x y z H1 H2 => tuple_le_trans _ _ _ H1 H2) l) as Hs.
  destruct (rev (isort version_le l)) as [|[v k] t] eqn:Hr.
  - apply (f_equal (@rev _)) in Hr. rewrite rev_involutive in Hr. apply isort_nil in Hr.
    destruct rs; [congruence|discriminate].
  - apply (f_equal (@rev _)) in Hr. rewrite rev_involutive in Hr. cbn [rev] in Hr.
    assert (Hin : In (v, k) l). { apply (isort_in version_le). rewrite Hr. apply in_app_iff. right. now left. }
    apply in_map_iff in Hin as (r & E & Hin). injection E as <- <-.
    exists r. repeat split; auto. intros r' Hr' HN.
    rewrite Hr in Hs.
    assert (Hin' : In (dotted r', r') (rev t ++ [(dotted r, r)])).
    { rewrite <- Hr. apply isort_in, in_map_iff. now exists r'. }
    rewrite Forall_forall in Hrs. destruct (Hrs _ Hr') as [_ P'], (Hrs _ Hin) as [_ P].
    assert (Hle : tuple_le (strip_zeros r') (strip_zeros r) = false).
    { apply tuple_le_newer; try apply strip_zeros_tight; try (now apply strip_zeros_nonneg).
      destruct HN as (i & Hi & Hj). exists i. rewrite !nth_strip_zeros. split; [exact Hi|].
      intros j Hlt. rewrite !nth_strip_zeros. now apply Hj. }
    apply in_app_iff in Hin' as [Hin'|[E|[]]].
    + pose proof (sorted_last _ _ _ Hs _ Hin') as H. unfold leP, version_le in H. cbn [snd] in H. congruence.
    + injection E as _ E. subst r'. destruct HN as (i & Hi & _). lia.
Qed.

(** the enumeration in the source, and its latest version *)
Example C48_latest_nonvacuous :
  schema_versions = map dotted [[1;0];[1;1];[1;2];[1;3;1];[1;3;2];[1;3;3];[1;3;4];[1;3;5];[1;3;6];[1;3;7];[1;3;8];[1;3;9];[1;3;10];[1;3;11]] /\
  get_latest schema_versions = Some "1.3.11"%string /\ Newer [1;3;11] [1;3;9] /\ ~ Newer [1;3;0] [1;3].
Proof.
  split; [reflexivity|split; [reflexivity|split]].
  - exists 2%nat. split; [reflexivity|]. intros [|[|j]] H; [reflexivity|reflexivity|lia].
  - intros (i & Hi & _). destruct i as [|[|[|[|i]]]]; cbn in Hi; lia.
Qed.

(** ** Verdicts *)
Section Verdict.
  Context {S T C X : Type} (lib : S -> option string -> bool -> S * attempt T X) (directory : string).
  Context (file_exists : string -> bool) (file_open : string -> S + X).
  Context (compile : T -> C + X) (valid : C -> T -> bool) (assert_valid : C -> T -> option X).
  (** lxml's documented relation between the two methods of a schema *)
  Definition assert_contract : Prop := forall c t, assert_valid c t = None <-> valid c t = true.

  (** the source can be read as tree [t] (by the attempts C29 describes) *)
  Definition ReadsAs (s : S) (t : T) : Prop := exists fb, snd (safe_parse lib s) = Parsed t fb.
  (** the packaged schema file of a version: named after the version, present, readable and a schema *)
  Definition schema_path (version : string) : string := (directory ++ "/schema/" ++ version ++ ".xsd")%string.
  Definition SchemaOf (version : string) (c : C) : Prop :=
    file_exists (schema_path version) = true /\
    exists s x, file_open (schema_path version) = inl s /\ ReadsAs s x /\ compile x = inl c.

  Let call := validate lib directory file_exists file_open compile valid assert_valid.

  (** The returned verdict is that of the chosen version's schema about the document.  With [get_exception] an invalid document
      is never answered by a value; without it, invalidity alone never raises. *)
  Theorem C48_verdict src ge v : assert_contract ->
    (snd (call src ge (Some v)) = Returned true <-> exists t c, ReadsAs src t /\ SchemaOf v c /\ valid c t = true) /\
    (snd (call src ge (Some v)) = Returned false <-> ge = false /\ exists t c, ReadsAs src t /\ SchemaOf v c /\ valid c t = false) /\
    (forall t c, ReadsAs src t -> SchemaOf v c -> valid c t = false -> ge = true ->
       exists e, assert_valid c t = Some e /\ snd (call src ge (Some v)) = LibraryError e) /\
    (forall p, snd (call src ge (Some v)) = SchemaNotFound p <->
       p = schema_path v /\ file_exists p = false /\ exists t, ReadsAs src t).
  Proof.
    intros HC. unfold call, validate, validate_tree, ReadsAs, SchemaOf, ReadsAs. change (xsd_path directory v) with (schema_path v).
    destruct (snd (safe_parse lib src)) as [t fb|e] eqn:Hr.
    2:{ cbn [snd]. repeat split; try discriminate.
        - intros (t & c & (fb & H) & _). discriminate.
        - intros (_ & t & c & (fb & H) & _). discriminate.
        - intros t c (fb & H). discriminate.
        - intros (_ & _ & t & fb & H). discriminate. }
    assert (Ht : forall t', (exists fb', Parsed t fb = @Parsed T X t' fb') <-> t' = t).
    { intros t'. split; [intros (fb' & H); now injection H|intros ->; eauto]. }
    destruct (file_exists (schema_path v)) eqn:He; cbn [negb].
    2:{ cbn [snd app]. repeat split; try discriminate.
        - intros (t' & c & _ & (H & _) & _). discriminate.
        - intros (_ & t' & c & _ & (H & _) & _). discriminate.
        - intros t' c _ (H & _). discriminate.
        - now injection H.
        - injection H as <-. exact He.
        - exists t, fb. reflexivity.
        - intros (-> & _ & _). reflexivity. }
    assert (Hnf : forall p, p = schema_path v /\ file_exists p = false /\ (exists t', exists fb', Parsed t fb = @Parsed T X t' fb') -> False).
    { intros p (-> & H & _). congruence. }
    destruct (file_open (schema_path v)) as [s|e] eqn:Ho.
    2:{ cbn [snd app]. repeat split; try discriminate.
        - intros (t' & c & _ & (_ & s & x & H & _) & _). discriminate.
        - intros (_ & t' & c & _ & (_ & s & x & H & _) & _). discriminate.
        - intros t' c _ (_ & s & x & H & _). discriminate.
        - intros H. now apply Hnf in H. }
    destruct (snd (safe_parse lib s)) as [x fx|e] eqn:Hx.
    2:{ cbn [snd app]. repeat split; try discriminate.
        - intros (t' & c & _ & (_ & s' & x & H & (fx & H') & _) & _). injection H as <-. congruence.
        - intros (_ & t' & c & _ & (_ & s' & x & H & (fx & H') & _) & _). injection H as <-. congruence.
        - intros t' c _ (_ & s' & x & H & (fx & H') & _). injection H as <-. congruence.
        - intros H. now apply Hnf in H. }
    destruct (compile x) as [c|e] eqn:Hcomp.
    2:{ cbn [snd app]. repeat split; try discriminate.
        - intros (t' & c & _ & (_ & s' & x' & H & (fx' & H') & Hc) & _). injection H as <-. rewrite Hx in H'. injection H' as <- <-. congruence.
        - intros (_ & t' & c & _ & (_ & s' & x' & H & (fx' & H') & Hc) & _). injection H as <-. rewrite Hx in H'. injection H' as <- <-. congruence.
        - intros t' c _ (_ & s' & x' & H & (fx' & H') & Hc). injection H as <-. rewrite Hx in H'. injection H' as <- <-. congruence.
        - intros H. now apply Hnf in H. }
    assert (Hs : forall c', (exists s' x', @inl S X s = inl s' /\ (exists fb', snd (safe_parse lib s') = Parsed x' fb') /\ compile x' = inl c') <-> c' = c).
    { intros c'. split.
      - intros (s' & x' & H & (fx' & H') & Hc). injection H as <-. rewrite Hx in H'. injection H' as <- <-. congruence.
      - intros ->. exists s, x. split; [reflexivity|]. split; [eauto|exact Hcomp]. }
    destruct (valid c t) eqn:Hv; cbn [negb].
    - cbn [snd app]. split; [|split; [|split]].
      + split; [intros _|reflexivity]. exists t, c. split; [now apply Ht|]. split; [|exact Hv]. split; [reflexivity|]. now apply Hs.
      + split; [discriminate|]. intros (_ & t' & c' & H1 & (_ & H2) & H3). apply Ht in H1 as ->. apply Hs in H2 as ->. congruence.
      + intros t' c' H1 (_ & H2) H3. apply Ht in H1 as ->. apply Hs in H2 as ->. congruence.
      + intros p. split; [discriminate|]. intros H. now apply Hnf in H.
    - assert (Hne : assert_valid c t <> None). { intros H. apply HC in H. congruence. }
      destruct (assert_valid c t) as [e|] eqn:Ha; [clear Hne|congruence].
      split; [|split; [|split]].
      + split; [destruct ge; discriminate|]. intros (t' & c' & H1 & (_ & H2) & H3). apply Ht in H1 as ->. apply Hs in H2 as ->. congruence.
      + split.
        * destruct ge; [discriminate|]. intros _. split; [reflexivity|]. exists t, c. split; [now apply Ht|]. split; [|exact Hv]. split; [reflexivity|]. now apply Hs.
        * intros (-> & _). reflexivity.
      + intros t' c' H1 (_ & H2) H3 ->. apply Ht in H1 as ->. apply Hs in H2 as ->. exists e. split; [exact Ha|reflexivity].
      + intros p. split; [destruct ge; discriminate|]. intros H. now apply Hnf in H.
  Qed.

  (** No version given: the schema of version 1.3.11. *)
  Theorem C48_default src ge : call src ge None = call src ge (Some "1.3.11"%string).
  Proof. reflexivity. Qed.

  (** With the packaged schema files in place no version of the enumeration is missing its schema, and different versions use different files. *)
  Theorem C48_packaged src ge v : (forall f, In f packaged_schemas -> file_exists (directory ++ "/schema/" ++ f)%string = true) ->
    In v schema_versions -> forall p, snd (call src ge (Some v)) <> SchemaNotFound p.
  Proof.
    intros Hp Hv p H. unfold call, validate, validate_tree, xsd_path in H.
    destruct (snd (safe_parse lib src)) as [t fb|e]; [|discriminate].
    assert (He : file_exists (directory ++ "/schema/" ++ v ++ ".xsd")%string = true).
    { apply Hp. unfold schema_versions in Hv. unfold packaged_schemas. cbn [In] in *.
      repeat (destruct Hv as [<-|Hv]; [cbn; tauto|]). destruct Hv. }
    rewrite He in H. cbn [negb] in H.
    destruct (file_open _) as [s|e]; [|discriminate].
    destruct (snd (safe_parse lib s)) as [x fx|e]; [|discriminate].
    destruct (compile x) as [c|e]; [|discriminate].
    destruct (valid c t), ge; cbn [negb snd] in H; try discriminate. destruct (assert_valid c t); discriminate.
  Qed.

  Theorem C48_distinct_files v w : schema_path v = schema_path w -> v = w.
  Proof.
    unfold schema_path. intros H.
    assert (Happ : forall a b c : string, (a ++ b = a ++ c)%string -> b = c).
    { induction a; intros b c E; cbn [append] in E; [exact E|]. injection E as E. auto. }
    apply Happ in H. cbn [append] in H. injection H as H.
    assert (Hlen : forall a b : string, String.length (a ++ b) = (String.length a + String.length b)%nat).
    { induction a; intros b; cbn [append String.length]; [reflexivity|]. now rewrite IHa. }
    revert w H. induction v as [|c v IH]; intros [|d w] H; [reflexivity| | |].
    - apply (f_equal String.length) in H. cbn [append String.length] in H. rewrite Hlen in H. cbn [String.length] in H. lia.
    - apply (f_equal String.length) in H. cbn [append String.length] in H. rewrite Hlen in H. cbn [String.length] in H. lia.
    - cbn [append] in H. injection H as -> H. f_equal. now apply IH.
  Qed.
End Verdict.

(** non-vacuity: sources and trees are numbers, the schema of version v accepts the trees whose number is at most its length;
    the contract holds, a valid and an invalid document, a missing schema *)
Example C48_verdict_nonvacuous :
  let lib := fun (n : nat) (enc : option string) (r : bool) => (n, @Tree nat string n) in
  let fex := fun p => negb (String.eqb p "lib/schema/1.2.xsd") in
  let fop := fun p => @inl nat string (String.length p) in
  let comp := fun t => @inl nat string t in
  let val := fun c t => Nat.leb t c in
  let asv := fun c t => if Nat.leb t c then None else Some "DocumentInvalid"%string in
  assert_contract val asv /\
  snd (validate lib "lib" fex fop comp val asv 5%nat true None) = Returned true /\
  snd (validate lib "lib" fex fop comp val asv 99%nat false (Some "1.0"%string)) = Returned false /\
  snd (validate lib "lib" fex fop comp val asv 99%nat true (Some "1.0"%string)) = LibraryError "DocumentInvalid"%string /\
  snd (validate lib "lib" fex fop comp val asv 5%nat true (Some "1.2"%string)) = SchemaNotFound "lib/schema/1.2.xsd"%string.
Proof.
  cbv zeta. split; [|repeat split; reflexivity].
  intros c t. destruct (Nat.leb t c); split; intros H; auto; discriminate.
Qed.

Print Assumptions C48_latest.
Print Assumptions C48_verdict.
Print Assumptions C48_default.
Print Assumptions C48_packaged.
Print Assumptions C48_distinct_files.
