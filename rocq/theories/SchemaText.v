(** * SchemaText: the texts the schema allows, as the parser reads and the serializer writes them (for C57, C58) *)
From Verif Require Import Base PyStr PyInt Types ParseModel SpecText SpecParse SpecSchema TextFacts PropsText PropsParse SerializeModel.

(** ** Deciding a regular expression *)
Definition in_range (c : ascii) (r : ascii * ascii) : bool := (N_of_ascii (fst r) <=? N_of_ascii c)%N && (N_of_ascii c <=? N_of_ascii (snd r))%N.
Fixpoint nullable (p : re) : bool :=
  match p with
  | Class _ => false
  | Lit s => String.eqb s ""
  | Cat a b => nullable a && nullable b
  | Or a b => nullable a || nullable b
  | Many _ => true
  end.
Definition never : re := Class [].
Fixpoint deriv (c : ascii) (p : re) : re :=
  match p with
  | Class l => if existsb (in_range c) l then Lit "" else never
  | Lit s => match s with String d s' => if Ascii.eqb d c then Lit s' else never | EmptyString => never end
  | Cat a b => if nullable a then Or (Cat (deriv c a) b) (deriv c b) else Cat (deriv c a) b
  | Or a b => Or (deriv c a) (deriv c b)
  | Many a => Cat (deriv c a) (Many a)
  end.
Fixpoint acceptsb (p : re) (s : string) : bool := match s with EmptyString => nullable p | String c s' => acceptsb (deriv c p) s' end.

Lemma nullable_sound p : nullable p = true -> Matches p "".
Proof.
  induction p as [l|s|a IHa b IHb|a IHa b IHb|a IHa]; cbn; intros H.
  - discriminate.
  - apply String.eqb_eq in H as ->. constructor.
  - apply andb_true_iff in H as [H1 H2]. change "" with ("" ++ "")%string. constructor; auto.
  - apply orb_true_iff in H as [H|H]; [apply m_left|apply m_right]; auto.
  - constructor.
Qed.
Lemma never_none s : ~ Matches never s.
Proof. inversion 1; subst. contradiction. Qed.
Lemma deriv_sound c p : forall s, Matches (deriv c p) s -> Matches p (String c s).
Proof.
  induction p as [l|t|a IHa b IHb|a IHa b IHb|a IHa]; cbn [deriv]; intros s H.
  - destruct (existsb (in_range c) l) eqn:E; [|now apply never_none in H].
    inversion H; subst. apply existsb_exists in E as ([lo hi] & Hi & Hr). unfold in_range in Hr. cbn in Hr.
    apply andb_true_iff in Hr as [H1 H2]. apply N.leb_le in H1, H2. econstructor; eauto.
  - destruct t as [|d t]; [now apply never_none in H|]. destruct (Ascii.eqb_spec d c) as [->|]; [|now apply never_none in H].
    inversion H; subst. constructor.
  - assert (Hc : Matches (Cat (deriv c a) b) s -> Matches (Cat a b) (String c s)).
    { inversion 1; subst. change (String c (s0 ++ t)) with (String c s0 ++ t)%string. constructor; auto. }
    destruct (nullable a) eqn:E; [|auto]. inversion H; subst; [auto|].
    change (String c s) with ("" ++ String c s)%string. constructor; [now apply nullable_sound|auto].
  - inversion H; subst; [apply m_left|apply m_right]; auto.
  - inversion H; subst. change (String c (s0 ++ t)) with (String c s0 ++ t)%string. constructor; auto.
Qed.
Lemma accepts_sound s : forall p, acceptsb p s = true -> Matches p s.
Proof. induction s as [|c s IH]; cbn; intros p H; [now apply nullable_sound|]. apply deriv_sound. auto. Qed.

Lemma nullable_complete p s : Matches p s -> s = "" -> nullable p = true.
Proof.
  induction 1; cbn; intros Hs; try reflexivity; try discriminate.
  - now subst.
  - destruct s; [|discriminate]. cbn in Hs. subst. now rewrite IHMatches1, IHMatches2.
  - now rewrite IHMatches.
  - rewrite IHMatches by auto. apply orb_true_r.
Qed.
Lemma deriv_complete p s0 : Matches p s0 -> forall c s, s0 = String c s -> Matches (deriv c p) s.
Proof.
  induction 1; cbn [deriv]; intros c' s' Hs.
  - injection Hs as <- <-. replace (existsb (in_range c) l) with true; [constructor|]. symmetry. apply existsb_exists.
    exists (lo, hi). split; [auto|]. unfold in_range. cbn. apply andb_true_iff. split; now apply N.leb_le.
  - subst. rewrite Ascii.eqb_refl. constructor.
  - destruct s as [|d s].
    + cbn in Hs. rewrite (nullable_complete _ _ H eq_refl). apply m_right. auto.
    + cbn in Hs. injection Hs as -> <-. assert (Matches (Cat (deriv c' a) b) (s ++ t)) by (constructor; auto).
      destruct (nullable a); [now apply m_left|auto].
  - apply m_left. auto.
  - apply m_right. auto.
  - discriminate.
  - destruct s as [|d s].
    + cbn in Hs. exact (IHMatches2 c' s' Hs).
    + cbn in Hs. injection Hs as -> <-. constructor; auto.
Qed.
Lemma accepts_complete s : forall p, Matches p s -> acceptsb p s = true.
Proof. induction s as [|c s IH]; cbn; intros p H; [now apply (nullable_complete p "")|]. apply IH. eapply deriv_complete; eauto. Qed.
Lemma accepts_iff p s : acceptsb p s = true <-> Matches p s.
Proof. split; [apply accepts_sound|apply accepts_complete]. Qed.

(** ** First and last characters *)
Definition all_in (f : ascii -> bool) (l : list (ascii * ascii)) : bool :=
  forallb (fun c => negb (existsb (in_range c) l) || f c) (map (fun n => ascii_of_nat n) (seq 0 256)).
Lemma all_in_ok f l c lo hi : all_in f l = true -> In (lo, hi) l -> (N_of_ascii lo <= N_of_ascii c <= N_of_ascii hi)%N -> f c = true.
Proof.
  intros Ha Hi Hr. pose proof (char_sweep _ Ha c) as H. cbn beta in H.
  replace (existsb (in_range c) l) with true in H; [exact H|]. symmetry. apply existsb_exists. exists (lo, hi). split; [auto|].
  unfold in_range. cbn. apply andb_true_iff. split; apply N.leb_le; tauto.
Qed.
Fixpoint last_char (s : string) : option ascii :=
  match s with "" => None | String c "" => Some c | String _ r => last_char r end.
Fixpoint firsts (f : ascii -> bool) (p : re) : bool :=
  match p with
  | Class l => all_in f l
  | Lit s => match s with String c _ => f c | EmptyString => true end
  | Cat a b => firsts f a && (negb (nullable a) || firsts f b)
  | Or a b => firsts f a && firsts f b
  | Many a => firsts f a
  end.
Fixpoint lasts (f : ascii -> bool) (p : re) : bool :=
  match p with
  | Class l => all_in f l
  | Lit s => match last_char s with Some c => f c | None => true end
  | Cat a b => lasts f b && (negb (nullable b) || lasts f a)
  | Or a b => lasts f a && lasts f b
  | Many a => lasts f a
  end.
Fixpoint chars (f : ascii -> bool) (p : re) : bool :=
  match p with
  | Class l => all_in f l
  | Lit s => sforallb f s
  | Cat a b => chars f a && chars f b
  | Or a b => chars f a && chars f b
  | Many a => chars f a
  end.
Lemma firsts_ok f p s0 : Matches p s0 -> firsts f p = true -> forall c s, s0 = String c s -> f c = true.
Proof.
  induction 1; cbn [firsts]; intros Hf c' s' Hs.
  - injection Hs as <- _. eapply all_in_ok; eauto.
  - subst. exact Hf.
  - apply andb_true_iff in Hf as [H1 H2]. destruct s as [|d s]; cbn in Hs.
    + rewrite (nullable_complete _ _ H eq_refl) in H2. cbn in H2. eauto.
    + injection Hs as -> _. eauto.
  - apply andb_true_iff in Hf as [H1 H2]. eauto.
  - apply andb_true_iff in Hf as [H1 H2]. eauto.
  - discriminate.
  - destruct s as [|d s]; [cbn in Hs; eauto|]. cbn in Hs. injection Hs as -> _. eauto.
Qed.
Lemma last_char_app s t : last_char (s ++ t) = match last_char t with Some c => Some c | None => last_char s end.
Proof.
  destruct t as [|d t]; [now rewrite sapp_nil_r|].
  assert (Hn : last_char (String d t) <> None).
  { clear. revert d. induction t as [|e t IH]; intros d; [discriminate|]. exact (IH e). }
  destruct (last_char (String d t)) as [z|] eqn:E; [|contradiction]. clear Hn.
  induction s as [|c s IH]; [exact E|]. cbn [String.append last_char]. destruct (s ++ String d t)%string eqn:Es.
  - destruct s; discriminate.
  - rewrite <- IH. reflexivity.
Qed.
Lemma last_char_none s : last_char s = None <-> s = "".
Proof.
  split; [|intros ->; reflexivity]. destruct s as [|c s]; [auto|]. revert c. induction s as [|d s IH]; intros c H; [discriminate|].
  exfalso. specialize (IH d H). discriminate.
Qed.
Lemma lasts_ok f p s : Matches p s -> lasts f p = true -> forall c, last_char s = Some c -> f c = true.
Proof.
  induction 1; cbn [lasts]; intros Hf c' Hs.
  - cbn in Hs. injection Hs as <-. eapply all_in_ok; eauto.
  - now rewrite Hs in Hf.
  - apply andb_true_iff in Hf as [H1 H2]. rewrite last_char_app in Hs. destruct (last_char t) eqn:E.
    + injection Hs as <-. eauto.
    + apply last_char_none in E. subst t. rewrite (nullable_complete _ _ H0 eq_refl) in H2. cbn in H2. eauto.
  - apply andb_true_iff in Hf as [H1 H2]. eauto.
  - apply andb_true_iff in Hf as [H1 H2]. eauto.
  - discriminate.
  - rewrite last_char_app in Hs. destruct (last_char t) eqn:E; [injection Hs as <-; eauto|eauto].
Qed.
Lemma chars_ok f p s : Matches p s -> chars f p = true -> sforallb f s = true.
Proof.
  induction 1; cbn [chars]; intros Hf.
  - cbn. rewrite (all_in_ok f l c lo hi) by auto. reflexivity.
  - exact Hf.
  - apply andb_true_iff in Hf as [H1 H2]. rewrite sforallb_app, IHMatches1, IHMatches2; auto.
  - apply andb_true_iff in Hf as [H1 H2]. eauto.
  - apply andb_true_iff in Hf as [H1 H2]. eauto.
  - reflexivity.
  - rewrite sforallb_app, IHMatches1, IHMatches2; auto.
Qed.

Definition solid_char (c : ascii) : bool := negb (is_space c).
Definition edges (p : re) : bool := firsts solid_char p && lasts solid_char p.
Lemma not_space c : solid_char c = true -> ~ Space c.
Proof. unfold solid_char. intros H Hs. apply space_iff in Hs. rewrite Hs in H. discriminate. Qed.
Lemma edges_stripped p t w1 w2 : Matches p t -> edges p = true -> Matches (Many blank) w1 -> Matches (Many blank) w2 ->
  Stripped (w1 ++ t ++ w2) t.
Proof.
  intros Hm He H1 H2. apply andb_true_iff in He as [Hf Hl].
  assert (Hb : forall w, Matches (Many blank) w -> forall c, In c (list_ascii_of_string w) -> Space c).
  { intros w Hw c Hc. pose proof (chars_ok is_space _ _ Hw eq_refl) as H. apply sforallb_iff with (c := c) in H; [|exact Hc]. now apply space_iff. }
  exists w1, w2. split; [reflexivity|]. split; [now apply Hb|]. split; [now apply Hb|]. split.
  - intros c r ->. apply not_space. exact (firsts_ok solid_char p _ Hm Hf c r eq_refl).
  - intros c r ->. apply not_space. refine (lasts_ok solid_char p _ Hm Hl c _). rewrite last_char_app. reflexivity.
Qed.

(** ** Simple types *)
Definition language (r : scope) (ty : string) : re := match simple_type r ty with Some (_, p) => p | None => never end.
Definition collapses (r : scope) (ty : string) : bool := match simple_type r ty with Some (b, _) => b | None => false end.

(** the stripped text is a word of the language *)
Lemma simple_stripped r ty s : r <> Full -> InSimple r ty s -> edges (language r ty) = true ->
  exists t, Stripped s t /\ Matches (language r ty) t.
Proof.
  unfold InSimple, language. intros Hr. destruct (simple_type r ty) as [[[|] p]|]; [| |contradiction].
  - intros [Hm Hp] He. specialize (Hp Hr). destruct Hp as (w1 & w2 & Hs & H1 & H2). exists (collapse s). split; [|exact Hm].
    rewrite Hs at 1. eapply edges_stripped; eauto.
  - intros Hm He. exists s. split; [|exact Hm].
    pose proof (edges_stripped p s "" "" Hm He (m_none _) (m_none _)) as H. cbn in H. now rewrite sapp_nil_r in H.
Qed.
Lemma simple_nonempty r ty s : InSimple r ty s -> nullable (language r ty) = false -> s <> "".
Proof.
  unfold InSimple, language. destruct (simple_type r ty) as [[[|] p]|]; [| |contradiction].
  - intros [Hm _] Hn ->. change (collapse "") with "" in Hm. pose proof (nullable_complete _ _ Hm eq_refl). congruence.
  - intros Hm Hn ->. pose proof (nullable_complete _ _ Hm eq_refl). congruence.
Qed.
Lemma words_in l : forall a s, Matches (Words a l) s -> In s (a :: l).
Proof.
  unfold Words. induction l as [|b l IH]; intros a s H; cbn in H.
  - inversion H; subst. now left.
  - inversion H; subst; [inversion H3; subst; now left|]. right. now apply IH.
Qed.

(** ** Numbers *)
Definition digit_of (b : Z) (c : ascii) : option Z := match digit_val c with Some d => if d <? b then Some d else None | None => None end.
Definition is_some_b {A} (o : option A) : bool := match o with Some _ => true | None => false end.
Lemma digit_of_ok b c : b <= 16 -> is_some_b (digit_of b c) = true -> exists d, IsDigit b c d.
Proof.
  intros Hb. unfold digit_of. destruct (digit_val c) as [d|] eqn:E; [|discriminate]. destruct (d <? b) eqn:El; [|discriminate].
  intros _. exists d. apply IsDigit_val; [exact Hb|]. split; [exact E|lia].
Qed.
Lemma digits_from b s : b <= 16 -> sforallb (fun c => is_some_b (digit_of b c)) s = true -> forall acc, 0 <= acc ->
  exists v, DigitsFrom b acc s v /\ 0 <= v.
Proof.
  intros Hb. induction s as [|c s IH]; intros Hs acc Ha; cbn in Hs.
  - exists acc. split; [constructor|exact Ha].
  - apply andb_true_iff in Hs as [H1 H2]. destruct (digit_of_ok b c Hb H1) as [d Hd].
    assert (0 <= acc * b + d). { destruct Hd as [Hd _]. assert (0 < b) by lia. nia. }
    destruct (IH H2 (acc * b + d) H) as (v & Hv & Hp). exists v. split; [econstructor; eauto|exact Hp].
Qed.
Lemma plus_digits b p s : b <= 16 -> Matches (Plus p) s -> nullable p = false -> chars (fun c => is_some_b (digit_of b c)) p = true ->
  exists v, Digits b s v /\ 0 <= v.
Proof.
  intros Hb Hm Hn Hc. assert (Hs : s <> "").
  { intros ->. pose proof (nullable_complete _ _ Hm eq_refl) as H. cbn in H. rewrite Hn in H. discriminate. }
  assert (Ha : sforallb (fun c => is_some_b (digit_of b c)) s = true).
  { eapply chars_ok; [exact Hm|]. cbn. now rewrite Hc. }
  destruct s as [|c s]; [contradiction|]. cbn in Ha. apply andb_true_iff in Ha as [H1 H2].
  destruct (digit_of_ok b c Hb H1) as [d Hd]. assert (0 <= d) by (destruct Hd; lia).
  destruct (digits_from b s Hb H2 d H) as (v & Hv & Hp). exists v. split; [|exact Hp]. exists c, d, s. auto.
Qed.
Lemma unhash_app a b : unhash (a ++ b) = (unhash a ++ unhash b)%string.
Proof. induction a as [|c a IH]; [reflexivity|]. cbn [String.append unhash]. rewrite IH. destruct (Ascii.eqb c "#"); reflexivity. Qed.
Lemma unhash_word s : sforallb is_word s = true -> unhash s = s.
Proof.
  induction s as [|c s IH]; cbn; [reflexivity|]. intros H. apply andb_true_iff in H as [H1 H2].
  destruct (Ascii.eqb_spec c "#") as [->|]; [discriminate|]. now rewrite IH.
Qed.
Lemma one_inv c s : Matches (one c) s -> s = String c "".
Proof.
  inversion 1; subst. destruct H1 as [H1|[]]. injection H1 as <- <-. f_equal.
  assert (E : N_of_ascii c0 = N_of_ascii c) by lia. apply (f_equal ascii_of_N) in E. now rewrite !ascii_N_embedding in E.
Qed.
Lemma cat_inv a b s : Matches (Cat a b) s -> exists u v, s = (u ++ v)%string /\ Matches a u /\ Matches b v.
Proof. inversion 1; subst. eauto. Qed.
Lemma or_inv a b s : Matches (Or a b) s -> Matches a s \/ Matches b s.
Proof. inversion 1; subst; auto. Qed.
Lemma lit_inv t s : Matches (Lit t) s -> s = t.
Proof. now inversion 1. Qed.
Lemma plain_number_int s : Matches plain_number s -> exists v, IntText s v /\ 0 <= v.
Proof.
  unfold plain_number. intros H. apply cat_inv in H as (u & w & -> & Hs & H).
  assert (Hsg : exists sg, unhash u = sg /\ (forall v, Sign sg v v)).
  { apply or_inv in Hs as [Hs|Hs]; [apply lit_inv in Hs as ->; exists ""; split; [reflexivity|left; auto]|].
    apply one_inv in Hs as ->. exists "+". split; [reflexivity|right; left; auto]. }
  destruct Hsg as (sg & Hu & Hsg). unfold IntText. rewrite unhash_app, Hu.
  assert (Hn : forall x v, Unsigned x v -> Numeral (sg ++ x) v).
  { intros x v Hv. exists "", "", sg, x, v. split; [cbn; now rewrite sapp_nil_r|]. repeat split; auto; intros c []. }
  cbn [Ors] in H. apply or_inv in H as [H|H]; [|apply or_inv in H as [H|H]].
  - destruct (plus_digits 10 digit w ltac:(lia) H eq_refl eq_refl) as (v & Hv & Hp). exists v. split; [|exact Hp].
    rewrite (unhash_word w) by (eapply (Digits_word 10); eauto; lia). apply Hn. now left.
  - apply cat_inv in H as (x & y & -> & Hx & Hy). apply words_in in Hx.
    destruct (plus_digits 16 hexdigit y ltac:(lia) Hy eq_refl eq_refl) as (v & Hv & Hp).
    exists v. split; [|exact Hp]. apply Hn. right.
    rewrite unhash_app. rewrite (unhash_word y) by (eapply (Digits_word 16); eauto; lia).
    exists x, 16, "", y. destruct Hx as [<-|[<-|[]]]; (split; [cbn; tauto|]; split; [auto|]; split; [reflexivity|exact Hv]).
  - apply cat_inv in H as (x & y & -> & Hx & Hy). apply lit_inv in Hx as ->.
    destruct (plus_digits 2 bindigit y ltac:(lia) Hy eq_refl eq_refl) as (v & Hv & Hp).
    exists v. split; [|exact Hp]. apply Hn. right. rewrite unhash_app. rewrite (unhash_word y) by (eapply (Digits_word 2); eauto; lia).
    exists "0b", 2, "", y. split; [cbn; tauto|]. split; [auto|]. split; [reflexivity|exact Hv].
Qed.
Lemma singles_inv l s : Matches (Class (map (fun c => (c, c)) l)) s -> exists c, In c l /\ s = String c "".
Proof.
  inversion 1; subst. apply in_map_iff in H1 as (d & Hd & Hi). injection Hd as <- <-. exists d. split; [exact Hi|]. f_equal.
  assert (E : N_of_ascii c = N_of_ascii d) by lia. apply (f_equal ascii_of_N) in E. now rewrite !ascii_N_embedding in E.
Qed.
Lemma sign_class_inv s : Matches (Maybe (Class [("+", "+"); ("-", "-")]%char)) s -> s = "" \/ s = "+" \/ s = "-".
Proof.
  intros H. apply or_inv in H as [H|H]; [apply lit_inv in H; auto|].
  apply (singles_inv ["+"; "-"]%char) in H as (c & [<-|[<-|[]]] & ->); auto.
Qed.
Lemma integer_int s : Matches (Cat (Maybe (Class [("+", "+"); ("-", "-")]%char)) (Plus digit)) s -> exists v, IntText s v.
Proof.
  intros H. apply cat_inv in H as (u & t & -> & Hs & Ht). apply sign_class_inv in Hs.
  destruct (plus_digits 10 digit t ltac:(lia) Ht eq_refl eq_refl) as (v & Hv & Hp).
  unfold IntText. rewrite unhash_app, (unhash_word t) by (eapply (Digits_word 10); eauto; lia).
  assert (Hsg : exists n, Sign (unhash u) v n).
  { destruct Hs as [-> | [-> | ->]]; [exists v|exists v|exists (- v)]; unfold Sign; cbn; auto. }
  destruct Hsg as [n Hsg]. exists n, "", "", (unhash u), t, v. split; [cbn; now rewrite sapp_nil_r|].
  repeat split; auto; try (intros c []). now left.
Qed.

(** ** How each simple type is read: the stripped text stands for a value [v] with [C v] *)
Definition Kind {A} (r : scope) (ty : string) (R : string -> A -> Prop) (C : A -> Prop) : Prop :=
  forall s, InSimple r ty s -> exists t v, Stripped s t /\ R t v /\ C v.
Definition Keeps (r : scope) (ty : string) (v : string) : Prop := r = Rewritable -> InSimple Rewritable ty v.

Lemma kind_of {A} r ty (R : string -> A -> Prop) C : r <> Full -> edges (language r ty) = true ->
  (forall t, Matches (language r ty) t -> exists v, R t v /\ C v) -> Kind r ty R C.
Proof.
  intros Hr He H s Hs. destruct (simple_stripped r ty s Hr Hs He) as (t & Ht & Hm). destruct (H t Hm) as (v & Hv & Hc). eauto.
Qed.
Ltac not_full := match goal with r : scope, H : ?r <> Full |- _ => destruct r; [contradiction| |] end.

Lemma kind_int r : r <> Full -> Kind r "scaledNonNegativeInteger" IntText (fun v => 0 <= v).
Proof.
  intros Hr. apply kind_of; [exact Hr|not_full; vm_compute; reflexivity|].
  intros t Ht. apply plain_number_int. not_full; exact Ht.
Qed.
Lemma kind_integer r : r <> Full -> Kind r "xs:integer" IntText (fun _ => True).
Proof.
  intros Hr. apply kind_of; [exact Hr|not_full; vm_compute; reflexivity|].
  intros t Ht. destruct (integer_int t) as [v Hv]; [not_full; exact Ht|]. eauto.
Qed.
Ltac words Ht := apply words_in in Ht; cbn [In] in Ht.
Lemma kind_bool r : r <> Full -> Kind r "xs:boolean" BoolText (fun _ => True).
Proof.
  intros Hr. apply kind_of; [exact Hr|not_full; vm_compute; reflexivity|]. intros t Ht.
  assert (Hw : Matches (Words "true" ["false"; "1"; "0"]) t) by (not_full; exact Ht). clear Ht. words Hw.
  assert (Hrefl : forall s, SameUpToCase s s).
  { intros s. apply same_case_lower. reflexivity. }
  destruct Hw as [<-|[<-|[<-|[<-|[]]]]]; [exists true|exists false|exists true|exists false]; cbn; auto.
Qed.
Lemma kind_key {A} r ty (value : A -> string) from w ws : r <> Full -> edges (language r ty) = true -> language r ty = Words w ws ->
  exact_keyword value from -> forallb (fun s => is_some_b (from s)) (w :: ws) = true -> Kind r ty (Key value) (fun _ => True).
Proof.
  intros Hr He Hl Hk Ha. apply kind_of; [exact Hr|exact He|]. rewrite Hl. intros t Ht. apply words_in in Ht.
  rewrite forallb_forall in Ha. specialize (Ha t Ht). destruct (from t) as [v|] eqn:E; [|discriminate]. exists v. split; [|exact Logic.I].
  now apply Hk.
Qed.
Lemma kind_endian r : r <> Full -> Kind r "endianType" (Key endian_value) (fun _ => True).
Proof. intros Hr. eapply kind_key; [exact Hr|not_full; vm_compute; reflexivity|not_full; reflexivity|apply endian_key|vm_compute; reflexivity]. Qed.
Lemma kind_dtype r : r <> Full -> Kind r "dataTypeType" (Key data_type_value) (fun _ => True).
Proof. intros Hr. eapply kind_key; [exact Hr|not_full; vm_compute; reflexivity|not_full; reflexivity|apply dt_key|vm_compute; reflexivity]. Qed.
Lemma kind_mwv r : r <> Full -> Kind r "modifiedWriteValuesType" (Key mwv_value) (fun _ => True).
Proof. intros Hr. eapply kind_key; [exact Hr|not_full; vm_compute; reflexivity|not_full; reflexivity|apply mwv_key|vm_compute; reflexivity]. Qed.
Lemma kind_ra r : r <> Full -> Kind r "readActionType" (Key read_action_value) (fun _ => True).
Proof. intros Hr. eapply kind_key; [exact Hr|not_full; vm_compute; reflexivity|not_full; reflexivity|apply ra_key|vm_compute; reflexivity]. Qed.
Lemma kind_usage r : r <> Full -> Kind r "enumUsageType" (Key enum_usage_value) (fun _ => True).
Proof. intros Hr. eapply kind_key; [exact Hr|not_full; vm_compute; reflexivity|not_full; reflexivity|apply usage_key|vm_compute; reflexivity]. Qed.
Lemma kind_ab r : r <> Full -> Kind r "addressBlockType usage" (Key ab_usage_value) (fun _ => True).
Proof. intros Hr. eapply kind_key; [exact Hr|not_full; vm_compute; reflexivity|not_full; reflexivity|apply ab_key|vm_compute; reflexivity]. Qed.
Lemma kind_prot r : r <> Full -> Kind r "protectionStringType" (Key protection_value) (fun v => v <> ANY).
Proof.
  intros Hr. apply kind_of; [exact Hr|not_full; vm_compute; reflexivity|]. intros t Ht.
  assert (Hc : exists c, In c ["s"; "n"; "p"]%char /\ t = String c "").
  { apply (singles_inv ["s"; "n"; "p"]%char). not_full; exact Ht. }
  destruct Hc as (c & [<-|[<-|[<-|[]]]] & ->); [exists SECURE|exists NON_SECURE|exists PRIVILEGED]; (split; [reflexivity|discriminate]).
Qed.
Lemma kind_sau r : r <> Full -> Kind r "sauAccessType" (Key sau_access_value) (fun _ => True).
Proof.
  intros Hr. apply kind_of; [exact Hr|not_full; vm_compute; reflexivity|]. intros t Ht.
  assert (Hc : exists c, In c ["c"; "n"]%char /\ t = String c "").
  { apply (singles_inv ["c"; "n"]%char). not_full; exact Ht. }
  destruct Hc as (c & [<-|[<-|[]]] & ->); [exists SAU_NSC|exists SAU_NS]; (split; [reflexivity|exact Logic.I]).
Qed.
Lemma kind_cpu r : r <> Full -> Kind r "cpuNameType" CpuText (fun _ => True).
Proof.
  intros Hr. apply kind_of; [exact Hr|not_full; vm_compute; reflexivity|]. intros t Ht.
  assert (Hw : exists a l, Matches (Words a l) t /\ forallb (fun s => is_some_b (cpu_from_str s)) (a :: l) = true).
  { not_full; (eexists; eexists; split; [exact Ht|vm_compute; reflexivity]). }
  destruct Hw as (a & l & Hw & Hf). apply words_in in Hw. rewrite forallb_forall in Hf. specialize (Hf t Hw).
  destruct (cpu_from_str t) as [c|] eqn:E; [|discriminate]. exists c. split; [|exact Logic.I]. now apply C26_cpu in E.
Qed.
Lemma kind_access r : r <> Full -> Kind r "accessType" AccessIs (fun _ => True).
Proof.
  intros Hr. apply kind_of; [exact Hr|not_full; vm_compute; reflexivity|]. intros t Ht.
  assert (Hw : Matches (Words "read-only" ["write-only"; "read-write"; "writeOnce"; "read-writeOnce"]) t) by (not_full; exact Ht).
  apply words_in in Hw.
  assert (Hrefl : forall a, exists v, AccessIs (access_value a) v /\ True).
  { intros a. exists a. split; [left; apply same_case_lower; reflexivity|exact Logic.I]. }
  destruct Hw as [<-|[<-|[<-|[<-|[<-|[]]]]]];
    [apply (Hrefl READ_ONLY)|apply (Hrefl WRITE_ONLY)|apply (Hrefl READ_WRITE)|apply (Hrefl WRITE_ONCE)|apply (Hrefl READ_WRITE_ONCE)].
Qed.

(** texts: unchanged by stripping *)
Lemma words_solid s : forall w, sforallb (fun c => negb (is_blank c)) s = true -> words_from w s = if String.eqb (w ++ s) "" then [] else [(w ++ s)%string].
Proof.
  induction s as [|c s IH]; intros w H; cbn [words_from].
  - now rewrite sapp_nil_r.
  - cbn [sforallb] in H. apply andb_true_iff in H as [H1 H2]. apply negb_true_iff in H1. rewrite H1, IH by exact H2.
    rewrite <- sapp_assoc. reflexivity.
Qed.
Lemma collapse_solid s : sforallb (fun c => negb (is_blank c)) s = true -> collapse s = s.
Proof. intros H. unfold collapse. rewrite words_solid by exact H. cbn. destruct (String.eqb_spec s ""); subst; reflexivity. Qed.
Lemma simple_intro r ty s : Matches (language r ty) s -> (collapses r ty = true -> sforallb (fun c => negb (is_blank c)) s = true) ->
  InSimple r ty s.
Proof.
  unfold InSimple, language, collapses. destruct (simple_type r ty) as [[[|] p]|]; intros Hm Hc.
  - rewrite (collapse_solid s (Hc eq_refl)). split; [exact Hm|]. intros _. exists "", "". split; [cbn; now rewrite sapp_nil_r|].
    split; constructor.
  - exact Hm.
  - now apply never_none in Hm.
Qed.
Lemma kind_is r ty : r <> Full -> edges (language r ty) = true ->
  language r ty = language Rewritable ty ->
  negb (collapses Rewritable ty) || chars (fun c => negb (is_blank c)) (language Rewritable ty) = true -> Kind r ty Is (Keeps r ty).
Proof.
  intros Hr He Hl Hb. apply kind_of; [exact Hr|exact He|]. intros t Ht. exists t. split; [reflexivity|]. intros _.
  rewrite Hl in Ht. apply simple_intro; [exact Ht|]. intros Hc. rewrite Hc in Hb. cbn in Hb. eapply chars_ok; eauto.
Qed.
Lemma kind_string r : r <> Full -> Kind r "stringType" Is (Keeps r "stringType").
Proof.
  intros Hr s Hs. exists (strip s), (strip s). split; [now apply stripped_iff|]. split; [reflexivity|]. intros ->.
  assert (Hm : Matches nonblank s) by exact Hs. change (Matches nonblank (strip s)).
  unfold nonblank in Hm. apply cat_inv in Hm as (a & b & -> & _ & Hm). apply cat_inv in Hm as (x & b' & -> & Hx & _).
  assert (Hc : exists c, x = String c "" /\ is_space c = false).
  { destruct x as [|c x]; [now apply accepts_complete in Hx|]. exists c.
    assert (x = "") as -> by (inversion Hx; reflexivity). split; [reflexivity|].
    pose proof (firsts_ok solid_char _ _ Hx eq_refl c "" eq_refl) as H. unfold solid_char in H. now apply negb_true_iff in H. }
  destruct Hc as (c & -> & Hc).
  destruct (strip_spec is_space (a ++ String c "" ++ b')) as (w1 & w2 & Hs' & Hw1 & Hw2). unfold strip.
  set (t := strip_by is_space (a ++ String c "" ++ b')%string) in *.
  assert (Hin : In c (list_ascii_of_string t)).
  { assert (Hin : In c (list_ascii_of_string (a ++ String c "" ++ b'))).
    { clear. induction a as [|d a IH]; cbn; auto. }
    rewrite Hs' in Hin.
    assert (Happ : forall u v, In c (list_ascii_of_string (u ++ v)) -> In c (list_ascii_of_string u) \/ In c (list_ascii_of_string v)).
    { clear. induction u as [|d u IH]; cbn; [auto|]. intros v [->|H]; [auto|]. destruct (IH v H); auto. }
    apply Happ in Hin as [Hin|Hin]; [exfalso|apply Happ in Hin as [Hin|Hin]; [exact Hin|exfalso]].
    - rewrite sforallb_iff in Hw1. rewrite (Hw1 c Hin) in Hc. discriminate.
    - rewrite sforallb_iff in Hw2. rewrite (Hw2 c Hin) in Hc. discriminate. }
  assert (Hany : forall u, Matches (Many anychar) u).
  { clear. induction u as [|d u IH]; [constructor|]. change (String d u) with (String d "" ++ u)%string. constructor; [|exact IH].
    pose proof (char_sweep (fun d => acceptsb anychar (String d "")) eq_refl d) as H. now apply accepts_sound. }
  assert (Hsplit : exists u v, t = (u ++ String c "" ++ v)%string).
  { clear - Hin. induction t as [|d t IH]; cbn in Hin; [contradiction|]. destruct Hin as [->|Hin].
    - exists "", t. reflexivity.
    - destruct (IH Hin) as (u & v & ->). exists (String d u), v. reflexivity. }
  destruct Hsplit as (u & v & ->). apply m_cat; [apply Hany|]. apply m_cat; [|apply Hany].
  pose proof (char_sweep (fun d => is_space d || acceptsb (Class [(ascii_of_nat 0, ascii_of_nat 8); (ascii_of_nat 14, ascii_of_nat 27); (ascii_of_nat 33, ascii_of_nat 255)]) (String d "")) eq_refl c) as H.
  cbn beta in H. rewrite Hc in H. now apply accepts_sound.
Qed.
