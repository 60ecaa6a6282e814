(** * DimFacts: lemmas about DimModel. *)
From Verif Require Import Base PyStr PyInt Types DimModel SpecDim.
From Coq Require Import ZifyBool ZifyNat ZifyN.

(** ** Substitution *)
Lemma contains_false_spec sub s : contains sub s = false <-> forall a b, s <> (a ++ sub ++ b)%string.
Proof.
  split.
  - intros H a b ->. assert (contains sub (a ++ sub ++ b) = true) by (apply contains_spec; eauto). congruence.
  - intros H. destruct (contains sub s) eqn:E; [|reflexivity]. apply contains_spec in E as (a & b & E). now apply H in E.
Qed.

Lemma sdrop_app a b : sdrop (String.length a) (a ++ b) = b.
Proof. induction a as [|c a IH]; cbn; auto. Qed.

Lemma replace_aux_skip old new a s : replace_aux old new (String.length a) (a ++ s) = replace_aux old new 0 s.
Proof. induction a as [|c a IH]; cbn [String.length append replace_aux]; [reflexivity|exact IH]. Qed.

Lemma replace_hit old new s : old <> "" -> replace old new (old ++ s) = (new ++ replace old new s)%string.
Proof.
  intros H. unfold replace. destruct old as [|c old]; [congruence|].
  cbn [append replace_aux].
  assert (Hs : startswith (String c old) (String c (old ++ s)) = true)
    by (apply startswith_spec; exists s; reflexivity).
  rewrite Hs. cbn [String.length]. rewrite Nat.sub_succ, Nat.sub_0_r. now rewrite replace_aux_skip.
Qed.

(** first occurrence *)
Lemma split_first old s : old <> "" -> contains old s = true ->
  exists a b, s = (a ++ old ++ b)%string /\ forall k, (k < String.length a)%nat -> startswith old (sdrop k s) = false.
Proof.
  intros Hne. induction s as [|c s IH]; cbn [contains]; intros H.
  - destruct old; [congruence|discriminate].
  - destruct (startswith old (String c s)) eqn:E.
    + apply startswith_spec in E as [r E]. exists "", r. split; [exact E|]. cbn; lia.
    + cbn [orb] in H. destruct (IH H) as (a & b & -> & Hk). exists (String c a), b. split; [reflexivity|].
      intros [|k] Hlt; cbn [sdrop]; [exact E|]. apply Hk. cbn in Hlt. lia.
Qed.

Lemma replace_prefix old new a s : (forall k, (k < String.length a)%nat -> startswith old (sdrop k (a ++ s)) = false) ->
  replace old new (a ++ s) = (a ++ replace old new s)%string.
Proof.
  unfold replace. induction a as [|c a IH]; intros H; cbn [append]; [reflexivity|].
  cbn [replace_aux]. assert (H0 := H 0%nat ltac:(cbn; lia)). cbn [sdrop append] in H0. rewrite H0.
  f_equal. apply IH. intros k Hk. apply (H (S k)). cbn; lia.
Qed.

Lemma replace_Subst old new : old <> "" -> forall s, Subst old new s (replace old new s).
Proof.
  intros Hne s. remember (String.length s) as n eqn:Hn.
  revert s Hn. induction n as [n IH] using (well_founded_induction Nat.lt_wf_0). intros s Hn.
  destruct (contains old s) eqn:Hc.
  - destruct (split_first old s Hne Hc) as (a & b & -> & Hk).
    rewrite replace_prefix, replace_hit by assumption.
    apply Subst_one.
    + intros x y Hx. subst a. specialize (Hk (String.length x)).
      rewrite !slen_app in Hk. destruct old as [|o old]; [congruence|]. cbn [String.length] in Hk.
      specialize (Hk ltac:(lia)). rewrite <- sapp_assoc, sdrop_app in Hk.
      rewrite <- sapp_assoc in Hk.
      assert (startswith (String o old) (String o old ++ y ++ String o old ++ b) = true)
        by (apply startswith_spec; eexists; reflexivity). congruence.
    + eapply IH; [|reflexivity]. subst n. rewrite !slen_app. destruct old; [congruence|]. cbn; lia.
  - rewrite replace_none by assumption. apply Subst_none. now apply contains_false_spec.
Qed.

(** ** process_dim *)
Definition placeholder (name : string) : string := if contains "[%s]" name then "[%s]" else "%s".

Lemma placeholder_ne name : placeholder name <> "".
Proof. unfold placeholder; destruct (contains "[%s]" name); discriminate. Qed.

Lemma process_dim_index_ok d oi ws l : process_dim_index d oi = (ws, Ok l) -> Z.of_nat (length l) = d /\ 1 <= d /\ ws = [].
Proof.
  intros H. unfold process_dim_index in H. minv.
  match goal with H : negb _ = false |- _ => apply negb_false_iff, Z.eqb_eq in H; split; [exact H|] end. split; [lia|].
  rewrite ?app_nil_r. cbn [app].
  destruct oi as [s|]; [|minv; reflexivity].
  destruct (re_num_range s).
  { destruct (split_on "-" s) as [|x [|y [|]]]; try solve [minv].
    destruct (py_int 10 x), (py_int 10 y); minv; reflexivity. }
  destruct (re_letter_range s).
  { destruct (split_on "-" s) as [|x [|y [|]]]; try solve [minv].
    destruct x as [|x [|]]; try solve [minv]. destruct y as [|y [|]]; minv; reflexivity. }
  destruct (re_word_list s); [minv; reflexivity|]. destruct (re_word s); minv; reflexivity.
Qed.

(** shape of every successful expansion *)
Lemma process_dim_ok name display d oi k ws names displays :
  process_dim name display (Some d) oi k = (ws, Ok (names, displays)) ->
  exists idx, Z.of_nat (length idx) = d /\ 1 <= d /\ ws = []
    /\ names = map (fun i => replace (placeholder name) i name) idx
    /\ displays = map (fun i => option_map (replace (placeholder name) i) display) idx
    /\ contains (placeholder name) name = true
    /\ (placeholder name = "[%s]" -> idx = map str_of_Z (zrange 0 d))
    /\ (placeholder name = "%s" -> process_dim_index d oi = ([], Ok idx)).
Proof.
  intros H. unfold process_dim in H. apply bind_ok in H as (w1 & [] & w2 & H1 & H & ->).
  apply raise_if_ok in H1 as [Hd ->]. unfold placeholder.
  destruct (contains "[%s]" name) eqn:Ha.
  - assert (H' : process_dim_array name display d = (w2, Ok (names, displays))) by (destruct k; auto; minv).
    unfold process_dim_array in H'. minv. exists (map str_of_Z (zrange 0 d)).
    rewrite map_length, zrange_length. repeat split; auto; try lia. discriminate.
  - destruct (contains "%s" name) eqn:Hb; [|minv].
    assert (H' : process_dim_list name display d oi = (w2, Ok (names, displays))) by (destruct k; auto; minv).
    unfold process_dim_list in H'. minv. exists a0.
    destruct (process_dim_index_ok _ _ _ _ Hm0) as (H1 & H2 & ->).
    repeat split; auto; try lia; try discriminate.
Qed.

Lemma replace_map_nodup ph name idx : ph <> "" -> contains ph name = true -> NoDup idx ->
  NoDup (map (fun i => replace ph i name) idx).
Proof.
  intros Hne Hc. induction idx as [|i idx IH]; intros H; cbn [map]; [constructor|].
  inversion H; subst. constructor; auto.
  intros Hin. apply in_map_iff in Hin as (j & Hj & Hin). apply (replace_inj ph name j i Hne Hc) in Hj. now subst.
Qed.

Lemma str_range_nodup a b : NoDup (map str_of_Z (zrange a b)).
Proof.
  apply FinFun.Injective_map_NoDup; [|apply zrange_nodup]. intros x y. apply str_of_Z_inj.
Qed.

(** ** dimIndex notations *)
Lemma span_all p s t : sforallb p s = true -> match t with String c _ => p c = false | EmptyString => True end ->
  span p (s ++ t) = (s, t).
Proof.
  induction s as [|c s IH]; cbn [sforallb append span]; intros Hs Ht.
  - destruct t as [|d t]; cbn [span]; [reflexivity|now rewrite Ht].
  - apply andb_true_iff in Hs as [Hc Hs]. rewrite Hc, IH by assumption. reflexivity.
Qed.

Lemma digit_not_minus c : is_digit c = true -> Ascii.eqb "-" c = false.
Proof. intros H. destruct (Ascii.eqb "-" c) eqn:E; [|reflexivity]. apply Ascii.eqb_eq in E. subst. discriminate. Qed.

Lemma split_none c s : sforallb (fun d => negb (Ascii.eqb c d)) s = true -> split_on c s = [s].
Proof.
  induction s as [|d s IH]; cbn [sforallb split_on]; [reflexivity|]. intros H.
  apply andb_true_iff in H as [Hd Hs]. apply negb_true_iff in Hd. now rewrite Hd, IH.
Qed.
Lemma split_app c a b : sforallb (fun d => negb (Ascii.eqb c d)) a = true ->
  split_on c (a ++ String c b) = a :: split_on c b.
Proof.
  induction a as [|d a IH]; cbn [sforallb append split_on]; intros H.
  - now rewrite Ascii.eqb_refl.
  - apply andb_true_iff in H as [Hd Hs]. apply negb_true_iff in Hd. now rewrite Hd, IH.
Qed.
Lemma sforallb_impl (p q : ascii -> bool) s : (forall c, p c = true -> q c = true) -> sforallb p s = true -> sforallb q s = true.
Proof.
  intros H. induction s as [|c s IH]; cbn [sforallb]; [reflexivity|].
  rewrite !andb_true_iff. intros [Hc Hs]. auto.
Qed.

Lemma dec_digits_go s : sforallb is_digit s = true -> forall acc p,
  digits_go 10 s acc p = match s with EmptyString => if p then Some acc else None | _ => Some (dec_val acc s) end.
Proof.
  induction s as [|c s IH]; cbn [sforallb]; intros H acc p; [reflexivity|].
  apply andb_true_iff in H as [Hc Hs]. cbn [digits_go].
  replace (Ascii.eqb c c_us) with false.
  2:{ symmetry. destruct (Ascii.eqb c c_us) eqn:E; [|reflexivity]. apply Ascii.eqb_eq in E. subst. discriminate. }
  unfold digit_val. rewrite Hc. cbn [dec_val].
  unfold is_digit, in_code_range, code in Hc.
  replace (Z.of_N (code c) - 48 <? 10) with true by (unfold code; lia).
  rewrite IH by assumption. destruct s; reflexivity.
Qed.

Lemma py_int_dec s : digit_string s -> py_int 10 s = Some (dec_val 0 s).
Proof.
  intros [Hne H]. unfold py_int. rewrite strip_none.
  2:{ eapply sforallb_impl; [|exact H]. intros c Hc. destruct (is_cspace c) eqn:E; [|reflexivity].
      unfold is_cspace, is_digit, in_code_range in *. lia. }
  destruct s as [|c s]; [congruence|].
  assert (Hc : is_digit c = true) by (cbn [sforallb] in H; now apply andb_true_iff in H as [Hc _]).
  assert (Hsg : split_sign (String c s) = (false, String c s)).
  { unfold split_sign. rewrite (Ascii.eqb_sym c "-"), digit_not_minus by assumption.
    replace (Ascii.eqb c "+") with false; [reflexivity|].
    symmetry. destruct (Ascii.eqb c "+") eqn:E; [|reflexivity]. apply Ascii.eqb_eq in E. subst. discriminate. }
  rewrite Hsg. change (10 =? 0) with false. cbn iota beta. rewrite strip_prefix_10, dec_digits_go by assumption. reflexivity.
Qed.

Lemma no_minus_digits s : sforallb is_digit s = true -> sforallb (fun d => negb (Ascii.eqb "-" d)) s = true.
Proof. apply sforallb_impl. intros c Hc. now rewrite digit_not_minus. Qed.

Lemma dim_index_range d a b : digit_string a -> digit_string b -> 1 <= d ->
  process_dim_index d (Some (a ++ "-" ++ b)%string) =
    if dec_val 0 b <? dec_val 0 a then raise ProcessException "dim index start value must be less than end value"
    else if dec_val 0 b - dec_val 0 a + 1 =? d then ret (map str_of_Z (zrange (dec_val 0 a) (dec_val 0 b + 1)))
    else raise ProcessException "dim index does not match the dim value".
Proof.
  intros Ha Hb Hd. unfold process_dim_index.
  replace (d <? 1) with false by lia. cbn [raise_if]. rewrite bind_ret_l.
  assert (Hre : re_num_range (a ++ "-" ++ b) = true).
  { unfold re_num_range. rewrite span_all; [|apply Ha|reflexivity].
    destruct Ha as [Hne _]. destruct (String.eqb_spec a ""); [congruence|]. cbn [negb andb append].
    destruct Hb as [Hbne Hb]. destruct b as [|c b]; [congruence|]. cbn [sforallb] in Hb.
    apply andb_true_iff in Hb as [-> _]. reflexivity. }
  rewrite Hre. cbn [append]. rewrite split_app by (apply no_minus_digits, Ha).
  rewrite split_none by (apply no_minus_digits, Hb). rewrite !py_int_dec by assumption.
  destruct (dec_val 0 b <? dec_val 0 a) eqn:E; cbn [raise_if]; [reflexivity|].
  rewrite bind_ret_l. rewrite bind_ret_l. rewrite map_length, zrange_length.
  replace (Z.of_nat (Z.to_nat (dec_val 0 b + 1 - dec_val 0 a))) with (dec_val 0 b - dec_val 0 a + 1) by lia.
  destruct (_ =? d); cbn [negb raise_if]; [now rewrite bind_ret_l|reflexivity].
Qed.

Definition single (c : ascii) : string := String c EmptyString.

Lemma upper_not_digit c : is_upper c = true -> is_digit c = false.
Proof. unfold is_upper, is_digit, in_code_range. lia. Qed.

Lemma dim_index_letters d x y : is_upper x = true -> is_upper y = true -> 1 <= d ->
  process_dim_index d (Some (single x ++ "-" ++ single y)%string) =
    if (code y <=? code x)%N then raise ProcessException "dim index start value must be less than end value"
    else if Z.of_N (code y) - Z.of_N (code x) + 1 =? d
    then ret (map (fun i => single (ascii_of_N (Z.to_N i))) (zrange (Z.of_N (code x)) (Z.of_N (code y) + 1)))
    else raise ProcessException "dim index does not match the dim value".
Proof.
  intros Hx Hy Hd. unfold process_dim_index.
  replace (d <? 1) with false by lia. cbn [raise_if]. rewrite bind_ret_l.
  unfold single. cbn [append].
  assert (Hre : re_num_range (String x (String "-" (String y ""))) = false).
  { unfold re_num_range. cbn [span]. now rewrite (upper_not_digit x Hx). }
  assert (Hrl : re_letter_range (String x (String "-" (String y ""))) = true).
  { unfold re_letter_range. now rewrite Hx, Hy. }
  rewrite Hre, Hrl.
  assert (Hxm : Ascii.eqb "-" x = false) by (destruct (Ascii.eqb "-" x) eqn:E; [apply Ascii.eqb_eq in E; subst; discriminate|reflexivity]).
  assert (Hym : Ascii.eqb "-" y = false) by (destruct (Ascii.eqb "-" y) eqn:E; [apply Ascii.eqb_eq in E; subst; discriminate|reflexivity]).
  assert (Hsp : split_on "-" (String x (String "-" (String y ""))) = [single x; single y]).
  { cbn [split_on]. rewrite Hxm, Hym. reflexivity. }
  rewrite Hsp. unfold single at 1 2. cbn iota.
  destruct (code y <=? code x)%N eqn:E; cbn [raise_if]; [reflexivity|].
  rewrite !bind_ret_l. rewrite map_length, zrange_length.
  replace (Z.of_nat (Z.to_nat (Z.of_N (code y) + 1 - Z.of_N (code x)))) with (Z.of_N (code y) - Z.of_N (code x) + 1) by lia.
  destruct (_ =? d); cbn [negb raise_if]; [now rewrite bind_ret_l|reflexivity].
Qed.

Lemma dim_index_none d : 1 <= d -> process_dim_index d None = ret (map str_of_Z (zrange 0 d)).
Proof.
  intros Hd. unfold process_dim_index. replace (d <? 1) with false by lia. cbn [raise_if]. rewrite !bind_ret_l.
  rewrite map_length, zrange_length. replace (Z.of_nat (Z.to_nat (d - 0)) =? d) with true by lia. cbn [negb raise_if].
  now rewrite bind_ret_l.
Qed.

(** word lists *)
Lemma space_not_word c : is_space c = true -> is_word c = false.
Proof. unfold is_space, is_word, is_digit, is_lower, is_upper, in_code_range. lia. Qed.
Lemma word_not_space c : is_word c = true -> is_space c = false.
Proof. intros H. destruct (is_space c) eqn:E; [|reflexivity]. apply space_not_word in E. congruence. Qed.
Lemma word_not c d : is_word c = true -> is_word d = false -> Ascii.eqb d c = false.
Proof. intros H1 H2. destruct (Ascii.eqb d c) eqn:E; [|reflexivity]. apply Ascii.eqb_eq in E. congruence. Qed.

Lemma WordList_ne s ws : WordList s ws -> ws <> [].
Proof. destruct 1; discriminate. Qed.
Lemma WordList_head s ws : WordList s ws -> exists c r, s = String c r /\ is_word c = true.
Proof.
  assert (Hw : forall w t, word w -> exists c r, (w ++ t)%string = String c r /\ is_word c = true).
  { intros w t [Hne H]. destruct w as [|c w]; [congruence|]. exists c, (w ++ t)%string. split; auto.
    cbn [sforallb] in H. now apply andb_true_iff in H. }
  destruct 1 as [w H|w sp s ws H _ _].
  - rewrite <- (sapp_nil_r w). now apply Hw.
  - now apply Hw.
Qed.
Lemma remove_spaces_word w t : sforallb is_word w = true -> remove_spaces (w ++ t) = (w ++ remove_spaces t)%string.
Proof.
  induction w as [|c w IH]; cbn [sforallb append remove_spaces]; [reflexivity|]. intros H.
  apply andb_true_iff in H as [Hc Hw]. rewrite word_not_space by assumption. now rewrite IH.
Qed.
Lemma remove_spaces_blanks sp t : blanks sp -> remove_spaces (sp ++ t) = remove_spaces t.
Proof.
  unfold blanks. induction sp as [|c sp IH]; cbn [sforallb append remove_spaces]; [reflexivity|]. intros H.
  apply andb_true_iff in H as [Hc Hw]. now rewrite Hc, IH.
Qed.
Lemma WordList_split s ws : WordList s ws -> split_on "," (remove_spaces s) = ws.
Proof.
  assert (Hcw : forall w, word w -> sforallb (fun d => negb (Ascii.eqb "," d)) w = true).
  { intros w [_ H]. eapply sforallb_impl; [|exact H]. intros c Hc. rewrite (word_not c ","); auto. }
  induction 1 as [w H|w sp s ws H Hsp _ IH].
  - rewrite <- (sapp_nil_r w) at 1. rewrite remove_spaces_word by apply H. cbn [remove_spaces]. rewrite sapp_nil_r.
    now apply split_none, Hcw.
  - rewrite remove_spaces_word by apply H. cbn [append remove_spaces]. change (is_space ",") with false. cbn iota.
    rewrite remove_spaces_blanks by assumption. rewrite split_app by now apply Hcw. now rewrite IH.
Qed.

Lemma span_blank_wordlist sp s ws : blanks sp -> WordList s ws -> re_word (snd (span is_space (sp ++ s))) = true.
Proof.
  intros Hsp Hs. destruct (WordList_head _ _ Hs) as (c & r & -> & Hc).
  rewrite span_all; [|exact Hsp|now apply word_not_space]. exact Hc.
Qed.

(** a list of at least two words (no other notation applies because words contain no "-") *)
Lemma dim_index_words d w sp s ws : word w -> blanks sp -> WordList s ws -> 1 <= d ->
  process_dim_index d (Some (w ++ "," ++ sp ++ s)%string) =
    if Z.of_nat (S (length ws)) =? d then ret (w :: ws)
    else raise ProcessException "dim index does not match the dim value".
Proof.
  intros Hw Hsp Hs Hd. unfold process_dim_index.
  replace (d <? 1) with false by lia. cbn [raise_if]. rewrite bind_ret_l.
  assert (Hw' : exists c r, w = String c r /\ is_word c = true /\ sforallb is_word r = true).
  { destruct Hw as [Hne H]. destruct w as [|c w]; [congruence|]. cbn [sforallb] in H. apply andb_true_iff in H as [? ?].
    exists c, w. auto. }
  assert (H1 : re_num_range (w ++ "," ++ sp ++ s) = false).
  { unfold re_num_range. destruct (span is_digit (w ++ "," ++ sp ++ s)) as [a r] eqn:E.
    destruct (negb (String.eqb a "")) eqn:Ea; [|reflexivity]. cbn [andb].
    assert (Hr : exists c' r', r = String c' r' /\ Ascii.eqb c' "-" = false).
    { clear Hw' Ea. destruct Hw as [_ Hw]. revert a r E. induction w as [|c w IH]; intros a r E.
      - cbn [append span] in E. change (is_digit ",") with false in E. cbn iota in E. inversion E. eauto.
      - cbn [sforallb] in Hw. apply andb_true_iff in Hw as [Hc Hw]. cbn [append span] in E.
        destruct (is_digit c).
        + destruct (span is_digit (w ++ String "," (sp ++ s))) as [a' r'] eqn:E'. inversion E; subst. eauto.
        + inversion E; subst. exists c. eexists. split; [reflexivity|]. rewrite Ascii.eqb_sym. now apply word_not. }
    destruct Hr as (c' & r' & -> & Hc'). destruct r'; rewrite ?Hc'; reflexivity. }
  assert (H2 : re_letter_range (w ++ "," ++ sp ++ s) = false).
  { destruct Hw' as (c & r & -> & Hc & Hr). unfold re_letter_range. cbn [append].
    destruct r as [|c2 r]; cbn [append].
    - destruct (sp ++ s)%string; [reflexivity|]. now rewrite andb_false_r.
    - cbn [sforallb] in Hr. apply andb_true_iff in Hr as [Hc2 _].
      assert (Ascii.eqb c2 "-" = false) by (rewrite Ascii.eqb_sym; now apply word_not).
      destruct (r ++ String "," (sp ++ s))%string; [reflexivity|]. rewrite H. now rewrite andb_false_r. }
  assert (H3 : re_word_list (w ++ "," ++ sp ++ s) = true).
  { unfold re_word_list. rewrite span_all; [|apply Hw|reflexivity].
    destruct Hw as [Hne _]. destruct (String.eqb_spec w ""); [congruence|]. cbn [negb andb append].
    rewrite Ascii.eqb_refl. eapply span_blank_wordlist; eauto. }
  rewrite H1, H2, H3, bind_ret_l.
  assert (Hsplit := WordList_split _ _ (WL_cons w sp s ws Hw Hsp Hs)). rewrite Hsplit. cbn [length].
  destruct (_ =? d); cbn [negb raise_if]; [now rewrite bind_ret_l|reflexivity].
Qed.

(** a single word (accepted although not in the standard), not of the letter-range form *)
Lemma dim_index_word d w : word w -> 1 <= d ->
  process_dim_index d (Some w) = if d =? 1 then ret [w] else raise ProcessException "dim index does not match the dim value".
Proof.
  intros Hw Hd. unfold process_dim_index.
  replace (d <? 1) with false by lia. cbn [raise_if]. rewrite bind_ret_l.
  assert (Hall := proj2 Hw).
  assert (H1 : re_num_range w = false).
  { unfold re_num_range. destruct (span is_digit w) as [a r] eqn:E.
    destruct (negb (String.eqb a "")); [|reflexivity]. cbn [andb].
    assert (Hr : sforallb is_word r = true).
    { clear - Hall E. revert a r E. induction w as [|c w IH]; intros a r E; cbn [span] in E.
      - injection E as <- <-. reflexivity.
      - cbn [sforallb] in Hall. apply andb_true_iff in Hall as [Hc Hw].
        destruct (is_digit c).
        + destruct (span is_digit w) as [a' r'] eqn:E'. injection E as <- <-. eauto.
        + injection E as <- <-. cbn [sforallb]. now rewrite Hc, Hw. }
    destruct r as [|c [|c2 r]]; [reflexivity|reflexivity|]. cbn [sforallb] in Hr. apply andb_true_iff in Hr as [Hc _].
    rewrite Ascii.eqb_sym, (word_not c "-") by auto. reflexivity. }
  assert (H2 : re_letter_range w = false).
  { unfold re_letter_range. destruct w as [|a [|b [|c w]]]; try reflexivity. cbn [sforallb] in Hall.
    rewrite !andb_true_iff in Hall. destruct Hall as (_ & Hb & _). rewrite (Ascii.eqb_sym b), (word_not b "-") by auto.
    now rewrite andb_false_r. }
  assert (H3 : re_word_list w = false).
  { unfold re_word_list. rewrite <- (sapp_nil_r w). rewrite span_all by auto. now rewrite andb_false_r. }
  assert (H4 : re_word w = true).
  { destruct Hw as [Hne _]. destruct w as [|c w]; [congruence|]. cbn [sforallb re_word] in *. now apply andb_true_iff in Hall. }
  rewrite H1, H2, H3, H4, bind_ret_l. cbn [length]. change (Z.of_nat 1) with 1.
  rewrite (Z.eqb_sym 1 d). destruct (d =? 1); cbn [negb raise_if]; [now rewrite bind_ret_l|reflexivity].
Qed.

(** ** Exceptions of dim processing *)
Lemma process_dim_index_err d oi ws e : process_dim_index d oi = (ws, Err e) ->
  ex_class e = ProcessException \/
  (exists s, oi = Some s /\ (re_num_range s = true /\ ex_class e = ValueError \/
                             re_letter_range s = true /\ (ex_class e = ValueError \/ ex_class e = TypeError))).
Proof.
  intros H. unfold process_dim_index in H.
  apply bind_err in H as [H|(w1 & [] & w2 & H1 & H & ->)].
  { apply raise_if_err in H as (_ & _ & ->). now left. }
  apply bind_err in H as [H|(w3 & l & w4 & H2 & H & ->)].
  - destruct oi as [s|]; [|minv].
    destruct (re_num_range s) eqn:E1.
    { destruct (split_on "-" s) as [|x [|y [|]]]; try (apply raise_err in H as [-> _]; right; exists s; auto).
      destruct (py_int 10 x), (py_int 10 y); try (apply raise_err in H as [-> _]; right; exists s; auto).
      apply bind_err in H as [H|(? & [] & ? & _ & H & _)]; [apply raise_if_err in H as (_ & _ & ->); now left|minv]. }
    destruct (re_letter_range s) eqn:E2.
    { destruct (split_on "-" s) as [|x [|y [|]]]; try (apply raise_err in H as [-> _]; right; exists s; auto).
      destruct x as [|x [|]]; try (apply raise_err in H as [-> _]; right; exists s; auto).
      destruct y as [|y [|]]; try (apply raise_err in H as [-> _]; right; exists s; auto).
      apply bind_err in H as [H|(? & [] & ? & _ & H & _)]; [apply raise_if_err in H as (_ & _ & ->); now left|minv]. }
    destruct (re_word_list s); [minv|]. destruct (re_word s); [minv|].
    apply raise_err in H as [-> _]. now left.
  - apply bind_err in H as [H|(? & [] & ? & _ & H & _)]; [apply raise_if_err in H as (_ & _ & ->); now left|minv].
Qed.

Lemma extract_dimension_err name display dim oi k ws e : extract_dimension name display dim oi k = (ws, Err e) ->
  ex_class e = ProcessException \/
  (exists s, oi = Some s /\ (re_num_range s = true /\ ex_class e = ValueError \/
                             re_letter_range s = true /\ (ex_class e = ValueError \/ ex_class e = TypeError))).
Proof.
  intros H. unfold extract_dimension in H.
  apply bind_err in H as [H|(w1 & [] & w2 & H1 & H & ->)]; [apply raise_if_err in H as (_ & _ & ->); now left|].
  apply bind_err in H as [H|(w3 & dm & w4 & H2 & H & ->)].
  { destruct dim; [|minv]. destruct (contains "%s" name); [minv|].
    apply bind_err in H as [H|(? & [] & ? & _ & H & _)]; minv. }
  apply bind_err in H as [H|(w5 & [] & w6 & H3 & H & ->)]; [apply raise_if_err in H as (_ & _ & ->); now left|].
  apply bind_err in H as [H|(w7 & p & w8 & H4 & H & ->)]; [|minv].
  unfold process_dim in H. destruct dm as [d|]; [|minv].
  apply bind_err in H as [H|(w9 & [] & w10 & H5 & H & ->)]; [apply raise_if_err in H as (_ & _ & ->); now left|].
  destruct (contains "[%s]" name).
  - assert (H' : process_dim_array name display d = (w10, Err e) \/ ex_class e = ProcessException).
    { destruct k; auto. apply raise_err in H as [-> _]. auto. }
    destruct H' as [H'|H']; [|auto]. unfold process_dim_array in H'.
    apply bind_err in H' as [H'|(? & [] & ? & _ & H' & _)]; [apply raise_if_err in H' as (_ & _ & ->); now left|minv].
  - destruct (contains "%s" name); [|apply raise_err in H as [-> _]; now left].
    assert (H' : process_dim_list name display d oi = (w10, Err e) \/ ex_class e = ProcessException).
    { destruct k; auto. apply raise_err in H as [-> _]. auto. }
    destruct H' as [H'|H']; [|auto]. unfold process_dim_list in H'.
    apply bind_err in H' as [H'|(? & [] & ? & _ & H' & _)]; [apply raise_if_err in H' as (_ & _ & ->); now left|].
    apply bind_err in H' as [H'|(? & ? & ? & _ & H' & _)]; [|minv]. now apply process_dim_index_err in H'.
Qed.
