(** * SearchFacts: derivedFrom path lookup. *)
From Verif Require Import Base PyStr PyInt Types DimModel EnumModel ElemModel ResolveModel GraphFacts SpecSearch.

Definition Found (g : graph) (match_ : nat -> Prop) (l : list nat) : Prop :=
  l = [] /\ (forall j, ~ match_ j) \/
  exists j, l = [j] /\ match_ j /\ ((forall k, match_ k -> k = j) \/ PlainRegister g j).

Lemma plain_register_spec g j : match get_node g j with Some m => is_plain_register m | None => false end = true <-> PlainRegister g j.
Proof.
  unfold PlainRegister, is_plain_register. split.
  - destruct (get_node g j) as [m|]; [|discriminate]. destruct (n_processed m) as [[p|[r|c l]|f]|] eqn:E; try discriminate.
    intros H. exists m, r. destruct (rb_altgroup (ir_b r)); [discriminate|auto].
  - intros (n & r & -> & -> & ->). reflexivity.
Qed.

Definition via (g : graph) (lv : level) (excl : nat) (part : string) (final : bool) (sub : nat -> nat -> Prop) (i j : nat) : Prop :=
  exists n, get_node g i = Some n /\ i <> excl /\ n_name n = Some part /\ (if final then n_level n = lv /\ j = i else sub i j).

Lemma search_loop_spec g sub subP part final excl lv : (final = false -> forall i ws l, sub i = (ws, Ok l) -> Found g (subP i) l) ->
  forall nodes acc (seen : nat -> Prop) ws l, Found g seen acc -> search_loop g sub part final excl lv nodes acc = (ws, Ok l) ->
  Found g (fun j => seen j \/ exists i, In i nodes /\ via g lv excl part final subP i j) l.
Proof.
  intros Hsub. induction nodes as [|i nodes IH]; intros acc seen ws l Hacc H; cbn [search_loop] in H.
  - minv. destruct Hacc as [[-> Hn]|(j & -> & Hj & Hu)].
    + left. split; [reflexivity|]. intros j [Hj|(i & [] & _)]. now apply (Hn j).
    + right. exists j. split; [reflexivity|]. split; [now left|]. destruct Hu as [Hu|Hu]; [left|now right].
      intros k [Hk|(i & [] & _)]. auto.
  - assert (Hskip : (forall j, ~ via g lv excl part final subP i j) ->
              search_loop g sub part final excl lv nodes acc = (ws, Ok l) ->
              Found g (fun j => seen j \/ exists i0, In i0 (i :: nodes) /\ via g lv excl part final subP i0 j) l).
    { intros Hno Hrun. apply IH with (seen := seen) in Hrun; [|exact Hacc].
      destruct Hrun as [[-> Hn]|(j & -> & Hj & Hu)].
      - left. split; [reflexivity|]. intros j [Hj|(i0 & [<-|Hi] & Hv)]; [apply (Hn j); auto|now apply (Hno j)|apply (Hn j); right; eauto].
      - right. exists j. split; [reflexivity|]. split.
        + destruct Hj as [Hj|(i0 & Hi & Hv)]; [now left|right; exists i0; split; [now right|exact Hv]].
        + destruct Hu as [Hu|Hu]; [left|now right]. intros k [Hk|(i0 & [<-|Hi] & Hv)]; [auto|now apply Hno in Hv|apply Hu; right; eauto]. }
    destruct (get_node g i) as [n|] eqn:En; [|apply Hskip; [|exact H]; intros j (n & Hn & _); congruence].
    destruct (Nat.eqb_spec i excl) as [->|Hne]; [apply Hskip; [|exact H]; intros j (m & _ & Hn & _); congruence|].
    destruct (option_eqb String.eqb (n_name n) (Some part)) eqn:Ename; cbn [negb] in H.
    2: { apply Hskip; [|exact H]. intros j (m & Hm & _ & Hn & _). replace m with n in * by congruence. rewrite Hn in Ename. cbn in Ename.
         now rewrite String.eqb_refl in Ename. }
    assert (Hname : n_name n = Some part).
    { destruct (n_name n) as [s|]; cbn in Ename; [|discriminate]. apply String.eqb_eq in Ename. now subst. }
    clear Hskip. apply bind_ok in H as (w1 & found & w2 & Hf & H & ->).
    assert (Hfound : Found g (via g lv excl part final subP i) found).
    { destruct final.
      - minv. destruct (level_eqb (n_level n) lv) eqn:El.
        + right. exists i. assert (Hlv : n_level n = lv) by (destruct (n_level n), lv; try discriminate; reflexivity). split; [reflexivity|].
          split; [exists n; auto|left]. intros k (m & Hm & _ & _ & _ & Hk). exact Hk.
        + left. split; [reflexivity|]. intros j (m & Hm & _ & _ & Hl & _). replace m with n in * by congruence. rewrite Hl in El. destruct lv; discriminate.
      - apply Hsub in Hf; [|reflexivity]. destruct Hf as [[-> Hn]|(j & -> & Hj & Hu)].
        + left. split; [reflexivity|]. intros j (m & _ & _ & _ & Hs). now apply (Hn j).
        + right. exists j. split; [reflexivity|]. split; [exists n; auto|]. destruct Hu as [Hu|Hu]; [left|now right].
          intros k (m & _ & _ & _ & Hs). auto. }
    assert (Hgo : forall acc', acc' = acc ++ found -> Found g (fun j => seen j \/ via g lv excl part final subP i j) acc' ->
              forall w l', search_loop g sub part final excl lv nodes acc' = (w, Ok l') ->
              Found g (fun j => seen j \/ exists i0, In i0 (i :: nodes) /\ via g lv excl part final subP i0 j) l').
    { intros acc' _ Ha w l' Hrun. apply IH with (seen := fun j => seen j \/ via g lv excl part final subP i j) in Hrun; [|exact Ha].
      destruct Hrun as [[-> Hn]|(j & -> & Hj & Hu)].
      - left. split; [reflexivity|]. intros j [Hj|(i0 & [<-|Hi] & Hv)]; apply (Hn j); eauto.
      - right. exists j. split; [reflexivity|]. split.
        + destruct Hj as [[Hj|Hj]|(i0 & Hi & Hv)]; [now left|right; exists i; split; [now left|exact Hj]|right; exists i0; split; [now right|exact Hv]].
        + destruct Hu as [Hu|Hu]; [left|now right]. intros k [Hk|(i0 & [<-|Hi] & Hv)]; apply Hu; eauto. }
    destruct Hacc as [[-> Ha]|(a & -> & Ha & Hua)], Hfound as [[-> Hb]|(b & -> & Hb & Hub)]; cbn [app] in H.
    + eapply Hgo; [reflexivity| |exact H]. left. split; [reflexivity|]. intros j [Hj|Hj]; [now apply (Ha j)|now apply (Hb j)].
    + eapply Hgo; [reflexivity| |exact H]. right. exists b. split; [reflexivity|]. split; [now right|].
      destruct Hub as [Hub|Hub]; [left|now right]. intros k [Hk|Hk]; [now apply Ha in Hk|auto].
    + eapply Hgo; [reflexivity| |exact H]. right. exists a. split; [reflexivity|]. split; [now left|].
      destruct Hua as [Hua|Hua]; [left|now right]. intros k [Hk|Hk]; [auto|now apply Hb in Hk].
    + clear Hgo. minv. destruct (filter _ [a; b]) as [|j [|j' r]] eqn:Ej; minv.
      assert (Hin : In j (filter (fun j => match get_node g j with Some m => is_plain_register m | None => false end) [a; b])) by (rewrite Ej; now left).
      apply filter_In in Hin as [Hin Hp]. apply plain_register_spec in Hp. right. exists j. split; [reflexivity|]. split; [|now right].
      destruct Hin as [->|[->|[]]]; [now left|right; exists i; split; [now left|exact Hb]].
Qed.

Lemma search_nodes_spec g excl lv parts : forall nodes ws l, parts <> [] -> search_nodes g parts excl lv nodes = (ws, Ok l) ->
  Found g (Leads g lv excl parts nodes) l.
Proof.
  induction parts as [|part rest IH]; intros nodes ws l Hne H; [congruence|]. cbn [search_nodes] in H.
  assert (Hin : Found g (fun j => False \/ exists i, In i nodes /\ via g lv excl part (match rest with [] => true | _ => false end)
              (fun i j => Leads g lv excl rest (get_element_childrens g i) j) i j) l).
  { eapply search_loop_spec; [|left; split; [reflexivity|intros j []]|exact H]. intros Hf i w l' Hs. apply IH in Hs; [exact Hs|].
    destruct rest; congruence. }
  clear H. assert (Hiff : forall j, (False \/ exists i, In i nodes /\ via g lv excl part (match rest with [] => true | _ => false end)
              (fun i j => Leads g lv excl rest (get_element_childrens g i) j) i j) <-> Leads g lv excl (part :: rest) nodes j).
  { intros j. split.
    - intros [[]|(i & Hi & n & Hn & Hx & Hnm & Hv)]. destruct rest as [|r rest].
      + destruct Hv as [Hl ->]. econstructor; eauto.
      + eapply Leads_down; eauto. discriminate.
    - intros HL. right. inversion HL; subst.
      + exists j. split; [assumption|]. exists n. auto.
      + exists i. split; [assumption|]. exists n. destruct rest; [congruence|auto]. }
  destruct Hin as [[-> Hn]|(j & -> & Hj & Hu)].
  - left. split; [reflexivity|]. intros j Hj. apply Hiff in Hj. now apply (Hn j).
  - right. exists j. split; [reflexivity|]. split; [now apply Hiff|]. destruct Hu as [Hu|Hu]; [left|now right].
    intros k Hk. apply Hu. now apply Hiff.
Qed.

Lemma split_on_ne c s : split_on c s <> [].
Proof.
  induction s as [|d s IH]; cbn [split_on]; [discriminate|]. destruct (Ascii.eqb c d); [discriminate|].
  destruct (split_on c s); [congruence|discriminate].
Qed.

(** the whole lookup: the siblings first, then from the peripherals *)
Lemma path_resolving_spec g i lv path ws r : path_resolving g i lv path = (ws, Ok r) ->
  let near := Leads g lv i (split_on "." path) (get_element_siblings g i) in
  let far := Leads g lv i (split_on "." path) (get_element_childrens g root) in
  match r with
  | Some b => near b /\ ((forall k, near k -> k = b) \/ PlainRegister g b) \/
              (forall k, ~ near k) /\ far b /\ ((forall k, far k -> k = b) \/ PlainRegister g b)
  | None => (forall k, ~ near k) /\ (forall k, ~ far k)
  end.
Proof.
  intros H near far. unfold path_resolving in H. minv. apply search_nodes_spec in Hm; [|apply split_on_ne].
  destruct Hm as [[-> Hn]|(j & -> & Hj & Hu)]; [|minv; left; auto].
  minv. apply search_nodes_spec in Hm; [|apply split_on_ne].
  destruct Hm as [[-> Hf]|(j & -> & Hj & Hu)]; minv; auto.
Qed.
Lemma Leads_node g lv excl parts cands j : Leads g lv excl parts cands j -> j <> excl /\ exists n, get_node g j = Some n /\ n_level n = lv.
Proof. induction 1; eauto. Qed.
Lemma path_resolving_node g i lv path ws b : path_resolving g i lv path = (ws, Ok (Some b)) -> b <> i /\ exists n, get_node g b = Some n /\ n_level n = lv.
Proof. intros H. apply path_resolving_spec in H as [[H _]|(_ & H & _)]; eapply Leads_node; eauto. Qed.
