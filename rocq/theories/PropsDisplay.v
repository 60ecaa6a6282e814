(** * PropsDisplay: the display names of the instances of a register array or list (C55). *)
From Verif Require Import Base PyStr PyInt Types DimModel EnumModel ElemModel FinalModel ResolveModel ProcessModel SpecProcess SpecDim SpecElem SpecDeclared SpecExpand.
From Verif Require Import DimFacts ElemFacts PropsDim PropsElem DescribeFacts Samples.

(** ** No placeholder is left, and none comes into being, where decimal numbers are inserted *)
Lemma startswith_stop c v : forall ph u, contains (String c "") ph = false -> startswith ph (u ++ String c v) = true -> startswith ph u = true.
Proof.
  induction ph as [|p ph IH]; intros u Hc H; [destruct u; reflexivity|]. cbn [contains startswith] in Hc. apply orb_false_iff in Hc as [Hp Hc].
  rewrite andb_true_r in Hp.
  destruct u as [|x u]; cbn [append startswith] in H |- *; apply andb_true_iff in H as [H1 H2].
  - apply Ascii.eqb_eq in H1. subst p. rewrite Ascii.eqb_refl in Hp. discriminate.
  - rewrite H1. exact (IH u Hc H2).
Qed.
Lemma contains_stop c v ph : contains (String c "") ph = false -> ph <> "" -> forall u, contains ph (u ++ String c v) = true -> contains ph u = true \/ contains ph v = true.
Proof.
  intros Hc Hne. induction u as [|x u IH]; cbn [append contains]; intros H; apply orb_true_iff in H as [H|H].
  - change (String c v) with ("" ++ String c v)%string in H. apply startswith_stop in H; [|exact Hc]. destruct ph; [congruence|discriminate].
  - now right.
  - change (String x (u ++ String c v)) with (String x u ++ String c v)%string in H. apply startswith_stop in H; [|exact Hc]. left. rewrite H. reflexivity.
  - destruct (IH H) as [K|K]; [left; rewrite K; apply orb_true_r|now right].
Qed.
Lemma digit_no_stop c : is_digit c = true -> contains (String c "") "[%s]" = false.
Proof. destruct c as [[] [] [] [] [] [] [] []]; cbn; intros H; first [reflexivity|discriminate H]. Qed.
Lemma contains_digits ix r : sforallb is_digit ix = true -> contains "[%s]" (ix ++ r) = true -> contains "[%s]" r = true.
Proof.
  induction ix as [|c ix IH]; intros Hd H; [exact H|]. cbn [sforallb] in Hd. apply andb_true_iff in Hd as [Hc Hd].
  change (String c ix ++ r)%string with ("" ++ String c (ix ++ r))%string in H. apply contains_stop in H; [|exact (digit_no_stop c Hc)|discriminate].
  destruct H as [H|H]; [discriminate|exact (IH Hd H)].
Qed.
Lemma number_leaves_no_array ix s r : digit_string ix -> Subst "[%s]" ix s r -> ~ is_array r.
Proof.
  intros [Hne Hd] H. assert (contains "[%s]" r = false) as E.
  { induction H as [s Hno|a s r Hno _ IH].
    - destruct (contains "[%s]" s) eqn:E; [|reflexivity]. apply contains_spec in E as (x & y & ->). exfalso. exact (Hno x y eq_refl).
    - destruct (contains "[%s]" (a ++ ix ++ r)) eqn:E; [|reflexivity]. exfalso. destruct ix as [|c ix]; [congruence|]. cbn [sforallb] in Hd. apply andb_true_iff in Hd as [Hc Hd'].
      cbn [append] in E. apply contains_stop in E; [|exact (digit_no_stop c Hc)|discriminate]. destruct E as [E|E].
      + apply contains_spec in E as (x & y & ->). exact (Hno x y eq_refl).
      + apply (contains_digits ix r Hd') in E. congruence. }
  intros (x & y & ->). exact (proj1 (contains_false_spec _ _) E x y eq_refl).
Qed.

(** ** C55: instance i of a register array or list carries the effective display name with every placeholder replaced by the i-th index, the
    index that its name carries; without a display name there is none.  (An index of a list, or what it makes of the surrounding text, may itself
    contain "[%s]": the last clause excludes only this case.) *)
Theorem C55_display_instances_partial : forall q bv ws names displays ws' vs,
  same_kind (PaRc (SReg q)) bv ->
  node_dimension (PaRc (SReg q)) bv = (ws, Ok (true, names, displays)) -> create_elements 0 names displays (PaRc (SReg q)) bv = (ws', Ok vs) ->
  exists idx ph, length idx = length vs /\
    (is_array (sr_name q) /\ ph = "[%s]" /\ idx = map str_of_Z (zrange 0 (Z.of_nat (length vs))) \/ ~ is_array (sr_name q) /\ ph = "%s") /\
    forall i v, nth_error vs i = Some v -> exists ix, nth_error idx i = Some ix /\ Subst ph ix (sr_name q) (processed_name v) /\
      match eff_display (PaRc (SReg q)) bv with
      | None => processed_display v = None
      | Some s => exists t, Subst ph ix s t /\ (is_array (sr_name q) -> processed_display v = Some t) /\ (~ is_array t -> processed_display v = Some t)
      end.
Proof.
  intros q bv ws names displays ws' vs Hk Hd Hc. assert (Hd' := Hd). unfold node_dimension in Hd'.
  set (dis := or_if_none (parsed_display (PaRc (SReg q))) (obind bv processed_display)) in Hd'.
  assert (Eed : eff_display (PaRc (SReg q)) bv = dis).
  { unfold eff_display, dis, or_if_none, own_or, obind. destruct (parsed_display _); [reflexivity|]. destruct bv; reflexivity. }
  apply extract_dim_true in Hd' as (d & _ & Hph & _ & Hp). apply process_dim_ok in Hp as (idx & Hl & H1 & _ & Hn & Hds & Hcp & Ha & _).
  cbn [parsed_name] in *.
  assert (Hlen := create_elements_length _ _ _ _ _ _ _ Hc). rewrite Hn, map_length in Hlen.
  assert (HA : is_array (sr_name q) /\ placeholder (sr_name q) = "[%s]" \/ ~ is_array (sr_name q) /\ placeholder (sr_name q) = "%s").
  { unfold placeholder. destruct (contains "[%s]" (sr_name q)) eqn:E.
    - left. split; [|reflexivity]. now apply contains_spec.
    - right. split; [|reflexivity]. intros (a & b & H). exact (proj1 (contains_false_spec _ _) E a b H). }
  exists idx, (placeholder (sr_name q)). split; [congruence|]. split.
  { destruct HA as [[HA HB]|[HA HB]]; [left|right; split; assumption]. split; [exact HA|]. split; [exact HB|]. rewrite Hlen, Hl. exact (Ha HB). }
  intros i v Hi. destruct (create_elements_nth _ _ Hk _ _ _ _ _ Hc i v Hi) as (name & Hin & Hnm & _). rewrite Hn, nth_error_map in Hin.
  destruct (nth_error idx i) as [ix|] eqn:Ei; [|discriminate]. injection Hin as Hin. exists ix. split; [reflexivity|]. rewrite Hnm, <- Hin.
  split; [apply replace_Subst, placeholder_ne|]. destruct (create_elements_attr _ _ Hk _ _ _ _ _ Hc i v Hi) as (_ & _ & Hv & _).
  rewrite Hds, nth_error_map, Ei in Hv. cbn [option_map] in Hv. rewrite Eed. destruct dis as [s|]; cbn [option_map shown] in Hv; [|exact Hv].
  exists (replace (placeholder (sr_name q)) ix s). assert (HS : Subst (placeholder (sr_name q)) ix s (replace (placeholder (sr_name q)) ix s)) by apply replace_Subst, placeholder_ne.
  split; [exact HS|].
  assert (HN : ~ is_array (replace (placeholder (sr_name q)) ix s) -> processed_display v = Some (replace (placeholder (sr_name q)) ix s)).
  { intros K. rewrite Hv. unfold shown. cbn [option_map]. destruct (contains "[%s]" (replace _ ix s)) eqn:E; [|reflexivity]. exfalso. apply K. now apply contains_spec. }
  split; [|exact HN]. intros HAr. apply HN. destruct HA as [[_ HB]|[HA _]]; [|contradiction]. rewrite HB in HS |- *. apply (number_leaves_no_array ix s); [|exact HS].
  assert (Hx := nth_error_In _ _ Ei). rewrite (Ha HB) in Hx. apply in_map_iff in Hx as (z & <- & Hz). apply digits_str. apply zrange_in in Hz. lia.
Qed.

(** ** ... but the display name handed on by an array or list is the one of its first instance *)
Definition shown_reg (d : svd_dim) (display : option string) (name : string) (off : Z) (from : option string) : svd_rc :=
  SReg (mk_sreg d noprops name display None None None off None None None None [] from).
Definition dims2 : svd_dim := mk_sdim (Some 2) (Some 4) None None None.
(** A[0..1] with the display name "Channel [%s]", B[0..1] derived from A[%s] *)
Definition display_sample : svd_device :=
  s_dev [s_per "P" 0 [shown_reg dims2 (Some "Channel [%s]") "A[%s]" 0 None; shown_reg nodim None "B[%s]" 16 (Some "A[%s]")] None None].
Definition displays_of (dev : device) : list (string * option string) :=
  flat_map (fun p => map (fun r => (rb_name (r_b r), rb_display (r_b r))) (pr_regs p)) (dv_periphs dev).

(** The display name written at A[%s] is "Channel [%s]", and B[%s] takes over everything it does not state from A[%s]; so B1 is expected to be shown
    as "Channel 1".  All instances of B are shown as "Channel 0". *)
Theorem C55_derived_display_refuted : exists ws dev,
  Processes display_sample ws dev /\
  displays_of dev = [("A0", Some "Channel 0"); ("A1", Some "Channel 1"); ("B0", Some "Channel 0"); ("B1", Some "Channel 0")].
Proof. exists (fst (process_device 20 display_sample)), (the_device (process_device 20 display_sample)). split; [exists 20%nat; unfold the_device; vm_compute; reflexivity|vm_compute; reflexivity]. Qed.

(** the hypotheses of C55_display_instances_partial are met by the register A[%s] *)
Example C55_nonvacuous : exists q ws names displays ws' vs, same_kind (PaRc (SReg q)) None /\
  node_dimension (PaRc (SReg q)) None = (ws, Ok (true, names, displays)) /\ create_elements 0 names displays (PaRc (SReg q)) None = (ws', Ok vs) /\
  map processed_display vs = [Some "Channel 0"; Some "Channel 1"] /\ map processed_name vs = ["A0"; "A1"].
Proof.
  exists (mk_sreg dims2 noprops "A[%s]" (Some "Channel [%s]") None None None 0 None None None None [] None).
  do 5 eexists. split; [exact Logic.I|]. split; [vm_compute; reflexivity|]. split; [vm_compute; reflexivity|]. split; reflexivity.
Qed.

Print Assumptions C55_display_instances_partial.
Print Assumptions C55_derived_display_refuted.
