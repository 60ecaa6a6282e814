(** * KeyFacts: the KeyErrors of validation and finalization (C43). *)
From Verif Require Import Base PyStr PyInt Types FinalModel SpecDevice FinalFacts SpecProcess.

(** the alternateCluster and alternatePeripheral elements of a resolved device *)
Definition opt_list (o : option string) : list string := match o with Some s => [s] | None => [] end.
Fixpoint rc_alternates (x : irc) : list string := match x with IReg _ => [] | IClu c l => opt_list (cb_altclu (ic_b c)) ++ flat_map rc_alternates l end.
Definition alternates_named (i : idevice) : list string := flat_map (fun p => opt_list (pb_altper (ip_b p)) ++ flat_map rc_alternates (ip_rcs p)) (idv_periphs i).

Definition KE (T : string -> Prop) {A} (m : M A) : Prop := forall e, snd m = Err e -> ex_class e = KeyError -> T (ex_site e).
Section K.
  Context (T : string -> Prop).
  Lemma ke_ret {A} (a : A) : KE T (ret a). Proof. intros e H. discriminate H. Qed.
  Lemma ke_raise {A} c s : c <> KeyError \/ T s -> KE T (@raise A c s).
  Proof. intros H e E K. injection E as <-. cbn in *. destruct H as [H|H]; [congruence|exact H]. Qed.
  Lemma ke_warn w : KE T (warn w). Proof. intros e H. discriminate H. Qed.
  Lemma ke_warn_if b w : KE T (warn_if b w). Proof. destruct b; intros e H; discriminate H. Qed.
  Lemma ke_raise_if b c s : c <> KeyError -> KE T (raise_if b c s).
  Proof. intros H. destruct b; [apply (@ke_raise unit); now left|apply ke_ret]. Qed.
  Lemma ke_bind {A B} (m : M A) (f : A -> M B) : KE T m -> (forall ws a, m = (ws, Ok a) -> KE T (f a)) -> KE T (bind m f).
  Proof. intros H Hf. destruct m as [ws [a|x]]; [|intros e E K; cbn in E; injection E as <-; exact (H x eq_refl K)]. specialize (Hf ws a eq_refl). unfold KE in *. cbn. destruct (f a) as [w2 r]. exact Hf. Qed.
  Lemma ke_iterM {A} (f : A -> M unit) l : (forall x, KE T (f x)) -> KE T (iterM f l).
  Proof. intros H. induction l as [|x l IH]; cbn [iterM]; [apply ke_ret|]. apply ke_bind; [apply H|]. intros. exact IH. Qed.
  Lemma ke_mapM {A B} (f : A -> M B) l : (forall x, KE T (f x)) -> KE T (mapM f l).
  Proof. intros H. induction l as [|x l IH]; cbn [mapM]; [apply ke_ret|]. apply ke_bind; [apply H|]. intros. apply ke_bind; [exact IH|]. intros. apply ke_ret. Qed.
End K.
Ltac ke := repeat
  match goal with
  | H : ?g |- ?g => exact H
  | |- KE _ (ret _) => apply ke_ret
  | |- KE _ (raise _ _) => apply ke_raise; left; discriminate
  | |- KE _ (raise_if _ _ _) => apply ke_raise_if; discriminate
  | |- KE _ (warn _) => apply ke_warn
  | |- KE _ (warn_if _ _) => apply ke_warn_if
  | |- KE _ (bind _ _) => apply ke_bind; [|intros ? ? ?]
  | |- KE _ (mapM _ _) => apply ke_mapM; intros ?
  | |- KE _ (iterM _ _) => apply ke_iterM; intros ?
  | |- KE _ (match ?x with _ => _ end) => destruct x
  | |- KE _ (let _ := _ in _) => cbn zeta
  end.

(** the names on the stack of the alternates search are keys or alternates *)
Lemma lookup_none {A} k (l : list (string * A)) : lookup k l = None -> ~ In k (map fst l).
Proof.
  unfold lookup. intros H K. apply in_map_iff in K as ([k' a] & E & K). cbn in E. subst k'. destruct (find _ l) as [p|] eqn:F; [discriminate|]. apply (find_none _ _ F) in K. cbn in K. now rewrite String.eqb_refl in K.
Qed.
Lemma lookup_some {A} k (l : list (string * A)) a : lookup k l = Some a -> In (k, a) l.
Proof.
  unfold lookup. intros H. destruct (find _ l) as [[k' b]|] eqn:F; [|discriminate]. cbn in H. injection H as ->. apply find_some in F as [F E]. cbn in E. apply String.eqb_eq in E. now subst k'.
Qed.
Lemma ke_loop (T : string -> Prop) strict (alts : list (string * option string)) : (forall k s, In (k, Some s) alts -> T s) -> forall fuel stack allowed, (forall x, In x stack -> T x \/ In x (map fst alts)) -> KE T (alternates_loop fuel strict alts stack allowed).
Proof.
  intros HA. induction fuel as [|f IH]; intros [|x st] allowed HS; cbn [alternates_loop]; try solve [apply ke_ret|apply ke_raise; left; discriminate].
  assert (HS' : forall y, In y st -> T y \/ In y (map fst alts)) by (intros y Hy; apply HS; now right). destruct (mem_str x allowed); [now apply IH|].
  assert (HC : forall y, In y (rev (map fst (filter (fun p => option_eqb String.eqb (snd p) (Some x)) alts)) ++ st) -> T y \/ In y (map fst alts)).
  { intros y Hy. apply in_app_iff in Hy as [Hy|Hy]; [|auto]. right. apply in_rev in Hy. apply in_map_iff in Hy as (p & <- & Hp). apply filter_In in Hp as [Hp _]. now apply in_map. }
  destruct (lookup x alts) as [o|] eqn:L.
  - apply IH. destruct o as [q|]; [|exact HC]. intros y [<-|Hy]; [|now apply HC]. left. apply (HA x). now apply lookup_some.
  - apply lookup_none in L. destruct strict; [|now apply IH]. apply ke_raise. right. destruct (HS x (or_introl eq_refl)); [assumption|contradiction].
Qed.
Lemma ke_allowed (T : string -> Prop) strict (alts : list (string * option string)) st : (forall k s, In (k, Some s) alts -> T s) -> (forall s, st = Some s -> T s) -> KE T (compute_allowed strict alts st).
Proof. intros HA HS. destruct st as [s|]; cbn [compute_allowed]; [|apply ke_ret]. apply ke_loop; [exact HA|]. intros x [<-|[]]. left. auto. Qed.
(** registers tolerate unknown names *)
Lemma ke_tolerant (T : string -> Prop) alts : forall fuel stack allowed, KE T (alternates_loop fuel false alts stack allowed).
Proof. induction fuel as [|f IH]; intros [|x st] allowed; cbn [alternates_loop]; try solve [apply ke_ret|apply ke_raise; left; discriminate]. cbn zeta. destruct (mem_str x allowed); [apply IH|]. destruct (lookup x alts); apply IH. Qed.

Lemma ke_enum_values (T : string -> Prop) l lsb msb : KE T (fin_enum_values l lsb msb).
Proof. induction l as [|v l IH]; cbn [fin_enum_values]; ke. Qed.
Lemma ke_fields_loop (T : string -> Prop) l : forall seen, KE T (fin_fields_loop seen l).
Proof. induction l as [|f l IH]; intros seen; cbn [fin_fields_loop]; unfold fin_enum_containers, field_from; ke; try apply IH; try apply ke_enum_values. Qed.
Lemma ke_check_fields (T : string -> Prop) size l : forall rd wr, KE T (check_fields rd wr size l).
Proof. induction l as [|f l IH]; intros; cbn [check_fields]; ke; apply IH. Qed.
Lemma ke_fields (T : string -> Prop) l size : KE T (fin_fields l size).
Proof. unfold fin_fields. ke; first [apply ke_fields_loop|apply ke_check_fields]. Qed.
Lemma ke_validator (T : string -> Prop) p : KE T (reg_prop_validator p).
Proof. unfold reg_prop_validator. ke. Qed.

Definition clu_ok (T : string -> Prop) (x : rc) : Prop := match x with Reg _ => True | Clu c _ => forall s, cb_altclu (c_b c) = Some s -> T s end.
Lemma ke_check_rc (T : string -> Prop) regs clus l : (forall k c, In (k, c) clus -> forall s, cb_altclu (c_b c) = Some s -> T s) -> (forall x, In x l -> clu_ok T x) -> forall iv, KE T (check_rc_overlaps regs clus iv l).
Proof.
  intros HC. induction l as [|x l IH]; intros HL iv; cbn [check_rc_overlaps]; [apply ke_ret|]. assert (HL' : forall y, In y l -> clu_ok T y) by (intros y Hy; apply HL; now right). assert (Hx := HL x (or_introl eq_refl)). destruct x as [r|c k].
  - destruct (rb_altgroup (r_b r)); [now apply IH|]. cbn zeta. apply ke_bind; [unfold compute_allowed; destruct (rb_altreg (r_b r)); [apply ke_tolerant|apply ke_ret]|]. intros w a _. apply ke_bind; [unfold check_item; ke|]. intros. now apply IH.
  - cbn zeta. apply ke_bind; [apply ke_allowed; [|exact Hx]|intros w a _; apply ke_bind; [unfold check_item; ke|]; intros; now apply IH].
    intros n s Hin. apply in_map_iff in Hin as ([n' c'] & E & Hin). cbn in E. injection E as _ E. exact (HC _ _ Hin s E).
Qed.
Lemma ke_fin_loop (T : string -> Prop) f l : (forall x, In x l -> KE T (f x)) -> forall acc, KE T (fin_loop f l acc).
Proof.
  induction l as [|x l IH]; intros H acc; cbn [fin_loop]; [apply ke_ret|]. assert (Hl : forall acc, KE T (fin_loop f l acc)) by (apply IH; intros; apply H; now right).
  apply ke_bind; [apply H; now left|]. intros ws o _. destruct o as [y|]; [|apply Hl]. apply ke_bind; [ke|]. intros. apply Hl.
Qed.
Lemma fin_loop_from (P : rc -> Prop) f l : (forall x ws y, In x l -> f x = (ws, Ok (Some y)) -> P y) -> forall acc ws r, Forall P acc -> fin_loop f l acc = (ws, Ok r) -> Forall P r.
Proof.
  induction l as [|x l IH]; intros H acc ws r HA E; cbn [fin_loop] in E; [apply ret_ok in E as [<- _]; exact HA|]. assert (Hl : forall y w z, In y l -> f y = (w, Ok (Some z)) -> P z) by (intros y w z Hy; apply H; now right).
  apply bind_ok in E as (w1 & o & w2 & E1 & E & _). destruct o as [y|]; [|exact (IH Hl _ _ _ HA E)]. apply bind_ok in E as (w3 & u & w4 & _ & E & _). apply (IH Hl _ _ _) in E; [exact E|]. apply Forall_app. split; [exact HA|]. constructor; [|constructor]. exact (H x _ _ (or_introl eq_refl) E1).
Qed.
Lemma ke_fin_rcs (T : string -> Prop) f l : (forall x, In x l -> KE T (f x)) -> (forall x ws y, In x l -> f x = (ws, Ok (Some y)) -> clu_ok T y) -> KE T (fin_rcs f l).
Proof.
  intros H1 H2. unfold fin_rcs. apply ke_bind; [now apply ke_fin_loop|]. intros ws r Hr. assert (F := fin_loop_from (clu_ok T) f l H2 [] ws r (Forall_nil _) Hr). rewrite Forall_forall in F. cbn zeta. apply ke_bind; [|intros; apply ke_ret]. apply ke_check_rc.
  - intros k c Hin. unfold clu_lookup in Hin. apply in_flat_map in Hin as (x & Hx & Hin). destruct x as [?|c' l']; [destruct Hin|]. destruct Hin as [E|[]]. injection E as _ <-. exact (F _ Hx).
  - intros x Hx. apply F. eapply Permutation_in; [apply Permutation_sym, isort_perm|exact Hx].
Qed.
Lemma fin_rc_clu x base ws y : fin_rc x base = (ws, Ok (Some y)) -> match y with Reg _ => True | Clu c _ => exists ic l, x = IClu ic l /\ c_b c = ic_b ic end.
Proof.
  destruct x as [r|ic l]; cbn [fin_rc irc_props]; intros H; destruct (op_size _) as [size|]; try discriminate H; destruct (negb (size mod 8 =? 0)).
  - apply bind_ok in H as (? & ? & ? & _ & H & _). apply ret_ok in H as [H _]. discriminate H.
  - do 3 (apply bind_ok in H as (? & ? & ? & _ & H & _)). destruct (is_reserved _); [apply bind_ok in H as (? & ? & ? & _ & H & _); apply ret_ok in H as [H _]; discriminate H|].
    do 3 (apply bind_ok in H as (? & ? & ? & _ & H & _)). apply ret_ok in H as [H _]. injection H as <-. exact Logic.I.
  - apply bind_ok in H as (? & ? & ? & _ & H & _). apply ret_ok in H as [H _]. discriminate H.
  - do 3 (apply bind_ok in H as (? & ? & ? & _ & H & _)). apply bind_ok in H as (? & ch & ? & _ & H & _). destruct ch as [|z zs]; [apply bind_ok in H as (? & ? & ? & _ & H & _); apply ret_ok in H as [H _]; discriminate H|].
    cbn zeta in H. apply bind_ok in H as (? & ? & ? & _ & H & _). apply ret_ok in H as [H _]. injection H as <-. exists ic, l. auto.
Qed.
Lemma ke_sub (T U : string -> Prop) {A} (m : M A) : (forall s, T s -> U s) -> KE T m -> KE U m.
Proof. intros H K e E C. apply H. exact (K e E C). Qed.
Lemma fin_children (T : string -> Prop) (l : list irc) base : (forall x, In x l -> KE (fun s => In s (rc_alternates x)) (fin_rc x base)) -> (forall s, In s (flat_map rc_alternates l) -> T s) -> KE T (fin_rcs (fun y => fin_rc y base) l).
Proof.
  intros H HT. apply ke_fin_rcs.
  - intros x Hx. eapply ke_sub; [|exact (H x Hx)]. intros s Hs. apply HT. apply in_flat_map. eauto.
  - intros x ws y Hx Hy. apply fin_rc_clu in Hy. destruct y as [?|c k]; [exact Logic.I|]. destruct Hy as (ic & l' & -> & E). intros s Hs. apply HT. apply in_flat_map. exists (IClu ic l'). split; [exact Hx|]. cbn [rc_alternates]. apply in_app_iff. left. rewrite <- E, Hs. now left.
Qed.
Lemma ke_fin_rc x : forall base, KE (fun s => In s (rc_alternates x)) (fin_rc x base).
Proof.
  induction x as [r|c l IH] using irc_ind'; intros base; cbn [fin_rc irc_props]; (destruct (op_size _) as [size|]; [|apply ke_raise; left; discriminate]); (destruct (negb _); [ke|]); unfold to_byte, get_alignment.
  - ke; first [apply ke_fields|apply ke_validator].
  - apply ke_bind; [ke|]. intros w1 a _. apply ke_bind; [ke|]. intros w2 b _. apply ke_bind; [ke|]. intros w3 u _. rewrite Forall_forall in IH. apply ke_bind.
    + apply fin_children; [intros x Hx; now apply IH|]. intros s Hs. cbn [rc_alternates]. apply in_app_iff. now right.
    + intros w4 ch _. destruct ch; [ke|]. cbn zeta. ke. apply ke_validator.
Qed.
Lemma ke_fin_per p : KE (fun s => In s (flat_map rc_alternates (ip_rcs p))) (fin_per p).
Proof.
  unfold fin_per. cbn zeta. apply ke_bind; [apply fin_children; [intros; apply ke_fin_rc|auto]|]. intros w rcs _. destruct rcs as [|r rcs]; [ke|]. assert (HB : forall l, KE (fun s => In s (flat_map rc_alternates (ip_rcs p))) (check_address_blocks l)).
  { induction l as [|a [|b l] IH]; cbn [check_address_blocks]; ke. }
  apply ke_bind; [ke|]. intros w1 u _. destruct (match op_size _ with Some _ => _ | None => _ end); [ke|]. apply ke_bind; [ke|]. intros w2 u2 _. apply ke_bind; [apply HB|]. intros w3 u3 _. apply ke_bind; [apply ke_validator|]. intros. apply ke_ret.
Qed.
Lemma fin_per_alt p ws q : fin_per p = (ws, Ok (Some q)) -> pr_b q = ip_b p.
Proof.
  unfold fin_per. cbn zeta. intros H. apply bind_ok in H as (w & rcs & ? & _ & H & _). destruct rcs as [|r rcs]; [apply bind_ok in H as (? & ? & ? & _ & H & _); apply ret_ok in H as [H _]; discriminate H|].
  apply bind_ok in H as (? & ? & ? & _ & H & _). destruct (match op_size _ with Some _ => _ | None => _ end); [apply bind_ok in H as (? & ? & ? & _ & H & _); apply ret_ok in H as [H _]; discriminate H|].
  do 3 (apply bind_ok in H as (? & ? & ? & _ & H & _)). apply ret_ok in H as [H _]. injection H as <-. reflexivity.
Qed.
Definition per_ok (T : string -> Prop) (q : per) : Prop := forall s, pb_altper (pr_b q) = Some s -> T s.
Lemma ke_pers_loop (T : string -> Prop) l : (forall p, In p l -> KE T (fin_per p)) -> forall acc, KE T (fin_pers_loop l acc).
Proof.
  induction l as [|p l IH]; intros H acc; cbn [fin_pers_loop]; [apply ke_ret|]. assert (Hl : forall acc, KE T (fin_pers_loop l acc)) by (apply IH; intros; apply H; now right).
  apply ke_bind; [apply H; now left|]. intros ws o _. destruct o as [y|]; [|apply Hl]. apply ke_bind; [ke|]. intros. apply Hl.
Qed.
Lemma pers_loop_from (P : per -> Prop) l : (forall p ws q, In p l -> fin_per p = (ws, Ok (Some q)) -> P q) -> forall acc ws r, Forall P acc -> fin_pers_loop l acc = (ws, Ok r) -> Forall P r.
Proof.
  induction l as [|x l IH]; intros H acc ws r HA E; cbn [fin_pers_loop] in E; [apply ret_ok in E as [<- _]; exact HA|]. assert (Hl : forall y w z, In y l -> fin_per y = (w, Ok (Some z)) -> P z) by (intros y w z Hy; apply H; now right).
  apply bind_ok in E as (w1 & o & w2 & E1 & E & _). destruct o as [y|]; [|exact (IH Hl _ _ _ HA E)]. apply bind_ok in E as (w3 & u & w4 & _ & E & _). apply (IH Hl _ _ _) in E; [exact E|]. apply Forall_app. split; [exact HA|]. constructor; [|constructor]. exact (H x _ _ (or_introl eq_refl) E1).
Qed.
Lemma ke_check_per (T : string -> Prop) alts l : (forall k s, In (k, Some s) alts -> T s) -> (forall q, In q l -> per_ok T q) -> forall eff spec, KE T (check_per_overlaps alts eff spec l).
Proof.
  intros HA. induction l as [|p l IH]; intros HL eff spec; cbn [check_per_overlaps]; [apply ke_ret|]. apply ke_bind; [apply ke_allowed; [exact HA|exact (HL p (or_introl eq_refl))]|]. intros w a _. unfold check_per_intervals.
  apply ke_bind; [ke|]. intros w2 u _. apply ke_bind; [ke|]. intros w3 u2 _. apply IH. intros q Hq. apply HL. now right.
Qed.
Theorem ke_finalize i : KE (fun s => In s (alternates_named i)) (finalize i).
Proof.
  unfold finalize, fin_pers. apply ke_bind; [|intros; apply ke_ret]. apply ke_bind.
  - apply ke_pers_loop. intros p Hp. eapply ke_sub; [|apply ke_fin_per]. intros s Hs. apply in_flat_map. exists p. split; [exact Hp|]. apply in_app_iff. now right.
  - intros ws r Hr. assert (F := pers_loop_from (per_ok (fun s => In s (alternates_named i))) (idv_periphs i)). assert (F' : Forall (per_ok (fun s => In s (alternates_named i))) r).
    { apply (F) with (2 := Forall_nil _) (3 := Hr). intros p w q Hp Hq s Hs. apply fin_per_alt in Hq. rewrite Hq in Hs. apply in_flat_map. exists p. split; [exact Hp|]. apply in_app_iff. left. rewrite Hs. now left. }
    rewrite Forall_forall in F'. cbn zeta. apply ke_bind; [|intros; apply ke_ret]. apply ke_check_per.
    + intros k s Hin. apply in_map_iff in Hin as (q & E & Hq). injection E as _ E. exact (F' q Hq s E).
    + intros q Hq. apply F'. eapply Permutation_in; [apply Permutation_sym, isort_perm|exact Hq].
Qed.
Lemma inherit_alternates x : forall p, rc_alternates (inherit_rc p x) = rc_alternates x.
Proof.
  induction x as [r|c l IH] using irc_ind'; intros p; cbn [inherit_rc rc_alternates ic_b]; [reflexivity|]. f_equal. rewrite Forall_forall in IH. rewrite flat_map_concat_map, flat_map_concat_map, map_map. f_equal. apply map_ext_in. intros y Hy. now apply IH.
Qed.
Lemma inherit_named i : alternates_named (inherit_properties i) = alternates_named i.
Proof.
  unfold alternates_named, inherit_properties. cbn [idv_periphs]. rewrite flat_map_concat_map, flat_map_concat_map, map_map. f_equal. apply map_ext. intros p. unfold inherit_per. cbn [ip_b ip_rcs]. f_equal. rewrite flat_map_concat_map, flat_map_concat_map, map_map. f_equal. apply map_ext. intros x. apply inherit_alternates.
Qed.

(** [x] is one of the registers and clusters [l], or somewhere in one of them *)
Inductive Nested (x : irc) : list irc -> Prop :=
| Ns_here l : In x l -> Nested x l
| Ns_deep c k l : In (IClu c k) l -> Nested x k -> Nested x l.
Lemma nested_one y s : In s (rc_alternates y) -> exists c l, (IClu c l = y \/ exists c' k, y = IClu c' k /\ Nested (IClu c l) k) /\ cb_altclu (ic_b c) = Some s.
Proof.
  induction y as [r|c l IH] using irc_ind'; intros H; [destruct H|]. cbn [rc_alternates] in H. apply in_app_iff in H as [H|H].
  - exists c, l. split; [now left|]. destruct (cb_altclu (ic_b c)) as [s0|]; [|destruct H]. destruct H as [<-|[]]. reflexivity.
  - apply in_flat_map in H as (x & Hx & H). rewrite Forall_forall in IH. destruct (IH x Hx H) as (c1 & l1 & K & E). exists c1, l1. split; [|exact E]. right. exists c, l. split; [reflexivity|]. destruct K as [<-|(c' & k & -> & K)]; [now apply Ns_here|]. eapply Ns_deep; eassumption.
Qed.
Lemma nested_alternate l s : In s (flat_map rc_alternates l) -> exists c k, Nested (IClu c k) l /\ cb_altclu (ic_b c) = Some s.
Proof.
  intros H. apply in_flat_map in H as (x & Hx & H). apply nested_one in H as (c & k & K & E). exists c, k. split; [|exact E]. destruct K as [<-|(c' & k' & -> & K)]; [now apply Ns_here|]. eapply Ns_deep; eassumption.
Qed.
