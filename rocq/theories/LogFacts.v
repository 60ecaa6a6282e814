(** * LogFacts: what the logger writes (LogModel.v) against the description of the log (SpecLog.v). *)
From Coq Require Import Relations.
From Verif Require Import Base PyStr PyInt Types ElemModel FinalModel ResolveModel ProcessModel GraphFacts ReplicateFacts ResolveWF LogModel SpecLog.
Local Open Scope string_scope.

Section Facts.
  Context (draw : graph -> string + exn) (modify : string -> nat -> string + exn) (pack : string -> string).
  Context (ct pt : string).
  Notation asvg := (add_svg draw modify).
  Notation gen := (generate pack ct pt).

  (** ** Logging does not change the outcome *)
  Definition Quiet {A} (m : LM A) (p : M A) : Prop := forall s, lg_active s = false -> m s = (s, p).
  Lemma quiet_ret {A} (x : A) : Quiet (lret x) (ret x). Proof. intros s _. reflexivity. Qed.
  Lemma quiet_lift {A} (p : M A) : Quiet (lift p) p. Proof. intros s _. reflexivity. Qed.
  Lemma quiet_when m : Quiet (when_active m) (ret tt). Proof. intros s H. unfold when_active. now rewrite H. Qed.
  Lemma quiet_bind {A B} (m : LM A) p (f : A -> LM B) q : Quiet m p -> (forall x, Quiet (f x) (q x)) -> Quiet (lbind m f) (bind p q).
  Proof. intros H1 H2 s Hs. unfold lbind, bind. rewrite (H1 s Hs). destruct p as [ws [x|e]]; [|reflexivity]. rewrite (H2 x s Hs). destruct (q x) as [ws' r]. reflexivity. Qed.
  Lemma quiet_when_bind {B} m (f : unit -> LM B) q : (forall x, Quiet (f x) q) -> Quiet (lbind (when_active m) f) q.
  Proof. intros H s Hs. unfold lbind. rewrite (quiet_when m s Hs). cbn. rewrite (H tt s Hs). now destruct q. Qed.
  Lemma quiet_fold {A B} (f : A -> B -> LM A) g l : (forall a b, Quiet (f a b) (g a b)) -> forall a, Quiet (lfoldM f a l) (foldM g a l).
  Proof. intros H. induction l as [|x l IH]; intros a; [apply quiet_ret|]. cbn. apply quiet_bind; [apply H|exact IH]. Qed.

  Definition Erases {A} (m : LM A) (p : M A) : Prop := forall s, snd (m s) = p.
  Lemma er_ret {A} (x : A) : Erases (lret x) (ret x). Proof. intros s. reflexivity. Qed.
  Lemma er_lift {A} (p : M A) : Erases (lift p) p. Proof. intros s. reflexivity. Qed.
  Lemma er_bind {A B} (m : LM A) p (f : A -> LM B) q : Erases m p -> (forall x, Erases (f x) (q x)) -> Erases (lbind m f) (bind p q).
  Proof. intros H1 H2 s. unfold lbind, bind. specialize (H1 s). destruct (m s) as [s1 r]. cbn in H1. subst r. destruct p as [ws [x|e]]; [|reflexivity]. specialize (H2 x s1). destruct (f x s1) as [s2 [ws' r']]. cbn in *. rewrite <- H2. reflexivity. Qed.
  Lemma er_seq {B} (m : LM unit) (f : unit -> LM B) q : Erases m (ret tt) -> (forall x, Erases (f x) q) -> Erases (lbind m f) q.
  Proof. intros H1 H2. intros s. rewrite (er_bind m (ret tt) f (fun _ => q) H1 H2 s). unfold bind. cbn. now destruct q. Qed.
  Lemma er_fold {A B} (f : A -> B -> LM A) g l : (forall a b, Erases (f a b) (g a b)) -> forall a, Erases (lfoldM f a l) (foldM g a l).
  Proof. intros H. induction l as [|x l IH]; intros a; [apply er_ret|]. cbn. apply er_bind; [apply H|exact IH]. Qed.
  Lemma er_when m : Erases m (ret tt) -> Erases (when_active m) (ret tt).
  Proof. intros H s. unfold when_active. destruct (lg_active s); [apply H|reflexivity]. Qed.
  Lemma er_append t : Erases (append t) (ret tt). Proof. intros s. reflexivity. Qed.

  Lemma fold_ext {A B} (f g : A -> B -> M A) l : (forall a b, f a b = g a b) -> forall a, foldM f a l = foldM g a l.
  Proof. intros H. induction l as [|x l IH]; intros a; [reflexivity|]. cbn. rewrite H. destruct (g a x) as [ws [y|e]]; cbn; [|reflexivity]. now rewrite IH. Qed.
  Lemma bind_ret_r {A} (m : M A) : bind m (fun x => ret x) = m.
  Proof. destruct m as [ws [x|e]]; cbn; [|reflexivity]. now rewrite app_nil_r. Qed.

  Lemma ph_l (T : forall A, LM A -> M A -> Prop) g ph :
    (forall A (p : M A), T A (lift p) p) -> (forall A (x : A), T A (lret x) (ret x)) ->
    (forall A B (m : LM A) p (f : A -> LM B) q, T A m p -> (forall x, T B (f x) (q x)) -> T B (lbind m f) (bind p q)) ->
    (forall B path (f : unit -> LM B) q, (forall x, T B (f x) q) -> T B (lbind (log_resolved_placeholder path) f) q) ->
    T graph (resolve_placeholder_l g ph) (resolve_placeholder g ph).
  Proof.
    intros HL HR HB HP. rewrite <- (bind_ret_r (resolve_placeholder g ph)). unfold resolve_placeholder_l. apply HB; [apply HL|]. intros g'.
    destruct (get_slot g ph) as [[n|path]|]; [apply HR| |apply HR]. destruct (get_slot g' ph) as [x|]; [apply HR|]. apply HP. intros _. apply HR.
  Qed.
  (** the whole resolver, for a relation closed under the monads *)
  Section Whole.
    Context (T : forall A, LM A -> M A -> Prop).
    Context (HL : forall A (p : M A), T A (lift p) p) (HR : forall A (x : A), T A (lret x) (ret x))
            (HB : forall A B (m : LM A) p (f : A -> LM B) q, T A m p -> (forall x, T B (f x) (q x)) -> T B (lbind m f) (bind p q))
            (HS : forall B (m : LM unit) (f : unit -> LM B) q, T unit m (ret tt) -> (forall x, T B (f x) q) -> T B (lbind m f) q)
            (HF : forall A B (f : A -> B -> LM A) g l, (forall a b, T A (f a b) (g a b)) -> forall a, T A (lfoldM f a l) (foldM g a l)).
    Context (L1 : forall g, T unit (log_init_constructed_graph draw modify g) (ret tt)) (L2 : forall g, T unit (log_parent_child draw modify g) (ret tt))
            (L3 : T unit log_repeating_steps_start (ret tt)) (L4 : T unit log_round_start (ret tt)) (L5 : forall g, T unit (log_round_end draw modify g) (ret tt))
            (L6 : T unit (log_loop_detected pack ct pt) (ret tt)) (L7 : T unit log_repeating_steps_finished (ret tt))
            (L8 : forall p, T unit (log_resolved_placeholder p) (ret tt)) (L9 : forall g, T unit (log_resolve_placeholder_finished draw modify g) (ret tt))
            (L10 : forall g l, T unit (log_processable_elements g l) (ret tt)).
    Lemma whole_phs g : T graph (resolve_placeholders_l draw modify g) (resolve_placeholders g).
    Proof.
      rewrite <- (bind_ret_r (resolve_placeholders g)). apply HB; [apply HF; intros a b; apply ph_l; auto|]. intros g'. apply HS; [apply L9|]. intros _. apply HR.
    Qed.
    Lemma whole_rounds fuel : forall g prev, T graph (rounds_l draw modify pack ct pt fuel g prev) (rounds fuel g prev).
    Proof.
      induction fuel as [|f IH]; intros g prev; [apply HL|]. cbn [rounds_l rounds]. apply HS; [apply L4|]. intros _. apply HB; [apply whole_phs|]. intros g1. cbn zeta.
      apply HS; [apply L10|]. intros _. destruct (topological_sorted g1 (find_processable g1)) as [|x l]; [apply HR|]. destruct (list_nat_eqb (x :: l) prev).
      - unfold raise_if. cbn [raise]. match goal with |- T _ _ ?q => assert (E : q = raise LoopException "Stuck in a loop") by reflexivity; rewrite E end. apply HS; [apply L6|]. intros _. apply HL.
      - unfold raise_if at 1. rewrite bind_ret_l. apply HB; [apply HL|]. intros g2. apply HS; [apply L5|]. intros _. apply IH.
    Qed.
    Lemma whole_resolve fuel ps : T (list iper) (resolve_peripherals_l draw modify pack ct pt fuel ps) (resolve_peripherals fuel ps).
    Proof.
      unfold resolve_peripherals_l, resolve_peripherals, initialization.
      assert (E : forall (A B C : Type) (m : M A) (f : A -> M B) (h : B -> M C), bind (bind m f) h = bind m (fun x => bind (f x) h)).
      { intros A B C m f h. destruct m as [w [x|e]]; cbn; [|reflexivity]. destruct (f x) as [w1 [y|e]]; cbn; [|reflexivity]. destruct (h y) as [w2 r]. now rewrite app_assoc. }
      rewrite E. apply HB; [apply HL|]. intros g. apply HS; [apply L1|]. intros _. apply HB; [apply HL|]. intros g0. apply HS; [apply L2|]. intros _. apply HS; [apply L3|]. intros _.
      apply HB; [apply whole_rounds|]. intros g'. apply HS; [apply L7|]. intros _. apply HL.
    Qed.
  End Whole.

  Lemma quiet_resolve fuel ps : Quiet (resolve_peripherals_l draw modify pack ct pt fuel ps) (resolve_peripherals fuel ps).
  Proof.
    apply (whole_resolve (fun A m p => Quiet m p)); intros; try apply quiet_when; auto using quiet_lift, quiet_ret, quiet_bind, quiet_fold.
    intros s Hs. unfold lbind. rewrite (H s Hs). cbn. rewrite (H0 tt s Hs). now destruct q.
  Qed.
  Lemma erases_resolve fuel ps : (forall g k, exists t t', draw g = inl t /\ modify t k = inl t') -> Erases (resolve_peripherals_l draw modify pack ct pt fuel ps) (resolve_peripherals fuel ps).
  Proof.
    intros HD. assert (HV : forall g, Erases (asvg g) (ret tt)).
    { intros g s. unfold add_svg. destruct (HD g (S (lg_svgs s))) as (t & t' & H1 & H2). rewrite H1, H2. reflexivity. }
    assert (HA : forall t (f : unit -> LM unit), (forall x, Erases (f x) (ret tt)) -> Erases (lbind (append t) f) (ret tt)) by (intros t f H; apply er_seq; [apply er_append|exact H]).
    apply (whole_resolve (fun A m p => Erases m p)).
    - intros A q. apply er_lift.
    - intros A x. apply er_ret.
    - intros A B. apply er_bind.
    - intros B. apply er_seq.
    - intros A B. apply er_fold.
    - intros g. apply er_when. repeat (apply HA; intros _). apply HV.
    - intros g. apply er_when. repeat (apply HA; intros _). apply HV.
    - apply er_when, er_append.
    - apply er_when. intros s. reflexivity.
    - intros g. apply er_when. repeat (apply HA; intros _). apply HV.
    - apply er_when. intros s. reflexivity.
    - apply er_when, er_append.
    - intros q. apply er_when. intros s. reflexivity.
    - intros g. apply er_when. intros s. revert s. 
      assert (K : forall paths : list string, Erases (lbind (add_h3 "Resolve Placeholders") (fun _ => lbind (match paths with [] => add_paragraph "No placeholders resolved in this round"
         | _ => lbind (add_div "Resolved placeholders" (join "<br />" paths)) (fun _ => lbind (add_paragraph "Graph after resolving placeholders:") (fun _ => asvg g)) end)
         (fun _ s => (mk_log (lg_active s) (lg_body s) (lg_svgs s) (lg_rounds s) [] (lg_files s), ret tt)))) (ret tt)).
      { intros paths. apply HA. intros _. apply er_seq; [|intros _ s; reflexivity]. destruct paths; [apply er_append|]. repeat (apply HA; intros _). apply HV. }
      intros s. generalize (K (lg_resolved s) s). destruct (lg_resolved s); exact (fun x => x).
    - intros g l. apply er_when. apply HA. intros _. destruct l; apply er_append.
  Qed.

  (** ** What is written *)
  Definition pic (k : nat) (g : graph) (p : string) : Prop := exists t, draw g = inl t /\ modify t k = inl p.
  Notation Shn := (Shown pic).
  Lemma shown_app k l1 h1 k1 l2 h2 k2 : Shn k l1 h1 k1 -> Shn k1 l2 h2 k2 -> Shn k (l1 ++ l2)%list (h1 ++ h2) k2.
  Proof. induction 1; intros H2; cbn [List.app]; [exact H2| |]; rewrite <- sapp_assoc; constructor; auto. Qed.
  (** after a computation that ended with an exception, the last picture may have got a number without being shown *)
  Definition Logs (ok : bool) (s s' : log) (items : list item) : Prop :=
    exists html k, Shn (lg_svgs s) items html k /\ lg_body s' = lg_body s ++ html /\ (ok = true -> k = lg_svgs s') /\ lg_active s' = true /\
      round_numbers items = seq (S (lg_rounds s)) (lg_rounds s' - lg_rounds s) /\ (lg_rounds s <= lg_rounds s')%nat.
  Lemma rn_app l1 l2 : round_numbers (l1 ++ l2)%list = (round_numbers l1 ++ round_numbers l2)%list.
  Proof. unfold round_numbers. apply flat_map_app. Qed.
  Lemma logs_app b s s1 s2 l1 l2 : Logs true s s1 l1 -> Logs b s1 s2 l2 -> Logs b s s2 (l1 ++ l2)%list.
  Proof.
    intros (h1 & k1 & A1 & A2 & A3 & A4 & A5 & A6) (h2 & k2 & B1 & B2 & B3 & B4 & B5 & B6). specialize (A3 eq_refl). subst k1. exists (h1 ++ h2), k2. split; [eapply shown_app; eauto|].
    split; [rewrite B2, A2; symmetry; apply sapp_assoc|]. split; [exact B3|]. split; [exact B4|]. split; [|lia]. rewrite rn_app, A5, B5.
    replace (lg_rounds s2 - lg_rounds s)%nat with ((lg_rounds s1 - lg_rounds s) + (lg_rounds s2 - lg_rounds s1))%nat by lia. rewrite seq_app. do 2 f_equal. lia.
  Qed.
  Lemma logs_nil b s : lg_active s = true -> Logs b s s [].
  Proof. intros H. exists "", (lg_svgs s). split; [constructor|]. split; [symmetry; apply sapp_nil_r|]. rewrite Nat.sub_diag. repeat split; auto. Qed.
  Lemma logs_weak s s' l : Logs true s s' l -> Logs false s s' l.
  Proof. intros (h & k & A). exists h, k. intuition discriminate. Qed.

  (** [m] writes [items], changing neither the pending references nor the files; [res] = the new pending references *)
  Definition Writes (m : LM unit) (items : list item) : Prop := forall s s' ws r, lg_active s = true -> m s = (s', (ws, r)) ->
    lg_files s' = lg_files s /\ lg_resolved s' = lg_resolved s /\
    match r with Ok _ => Logs true s s' items | Err _ => exists pre, Logs false s s' pre end.
  Lemma w_append i : (forall g, i <> Drawing g) -> (forall n, i <> RoundHead n) -> Writes (append (item_html "" i)) [i].
  Proof.
    intros Hd Hr s s' ws r Ha H. injection H as <- <- <-. cbn. do 2 (split; [reflexivity|]). exists (item_html "" i ++ ""), (lg_svgs s). split; [constructor; [exact Hd|constructor]|]. cbn.
    split; [now rewrite sapp_nil_r|]. split; [auto|]. split; [exact Ha|]. rewrite Nat.sub_diag. split; [|lia]. destruct i; try reflexivity. now destruct (Hr n).
  Qed.
  Lemma w_svg g : Writes (asvg g) [Drawing g].
  Proof.
    intros s s' ws r Ha H. unfold add_svg in H. destruct (draw g) as [t|e] eqn:E1.
    - destruct (modify t (S (lg_svgs s))) as [p|e] eqn:E2.
      + injection H as <- <- <-. cbn. do 2 (split; [reflexivity|]). exists (item_html p (Drawing g) ++ ""), (S (lg_svgs s)). split; [constructor; [exists t; auto|constructor]|]. cbn.
        split; [now rewrite sapp_nil_r|]. split; [auto|]. split; [exact Ha|]. rewrite Nat.sub_diag. auto.
      + injection H as <- <- <-. cbn. do 2 (split; [reflexivity|]). exists []. exists "", (lg_svgs s). split; [constructor|]. cbn. split; [symmetry; apply sapp_nil_r|]. split; [discriminate|]. split; [exact Ha|]. rewrite Nat.sub_diag. auto.
    - injection H as <- <- <-. do 2 (split; [reflexivity|]). exists []. now apply logs_nil.
  Qed.
  Lemma lbind_inv {A B} (m : LM A) (f : A -> LM B) s s' ws r : lbind m f s = (s', (ws, r)) ->
    (exists e, r = Err e /\ m s = (s', (ws, Err e))) \/ exists s1 w1 x w2, m s = (s1, (w1, Ok x)) /\ f x s1 = (s', (w2, r)) /\ ws = (w1 ++ w2)%list.
  Proof.
    unfold lbind. destruct (m s) as [s1 [w1 [x|e]]]; intros H.
    - right. destruct (f x s1) as [s2 [w2 r2]] eqn:E. injection H as <- <- <-. exists s1, w1, x, w2. rewrite E. auto.
    - left. injection H as <- <- <-. eauto.
  Qed.
  Lemma w_seq m1 m2 l1 l2 : Writes m1 l1 -> (forall u, Writes (m2 u) l2) -> Writes (lbind m1 m2) (l1 ++ l2)%list.
  Proof.
    intros H1 H2 s s' ws r Ha H. apply lbind_inv in H as [(e & -> & H)|(s1 & w1 & x & w2 & K1 & K2 & _)]; [exact (H1 _ _ _ _ Ha H)|].
    destruct (H1 _ _ _ _ Ha K1) as (F1 & R1 & L1). assert (Ha1 : lg_active s1 = true) by (destruct L1 as (h & k & A); apply A). destruct (H2 x _ _ _ _ Ha1 K2) as (F2 & R2 & L2).
    split; [congruence|]. split; [congruence|]. destruct r; [exact (logs_app _ _ _ _ _ _ L1 L2)|]. destruct L2 as [pre L2]. exists (l1 ++ pre)%list. exact (logs_app _ _ _ _ _ _ L1 L2).
  Qed.
  Lemma w_when m l : Writes m l -> Writes (when_active m) l.
  Proof. intros H s s' ws r Ha K. unfold when_active in K. rewrite Ha in K. exact (H _ _ _ _ Ha K). Qed.
  Ltac wa := match goal with |- Writes ?m [?i] => change m with (append (item_html "" i)); apply w_append; discriminate end.
  Ltac ws := first [apply w_svg | wa | match goal with |- Writes _ (?i :: ?l) => change (i :: l) with ([i] ++ l)%list; apply w_seq; [ws|intros _; ws] end].

  Lemma w_init g : Writes (log_init_constructed_graph draw modify g) [Head1 "Initialization"; Head2 "Construct Directed Graph"; Par "Graph after construction:"; Drawing g].
  Proof. apply w_when. ws. Qed.
  Lemma w_pc g : Writes (log_parent_child draw modify g) [Head2 "Ensure Accurate Parent-Child Relationships for Placeholders"; Par "Graph after adding parent-child relationships for placeholders:"; Drawing g].
  Proof. apply w_when. ws. Qed.
  Lemma w_start : Writes log_repeating_steps_start [Head1 "Repeating Steps"].
  Proof. apply w_when. ws. Qed.
  Lemma w_end g : Writes (log_round_end draw modify g) [Par "Graph at end of round:"; Drawing g].
  Proof. apply w_when. ws. Qed.
  Lemma w_finished : Writes log_repeating_steps_finished [Par "Repeating steps finished successfully"].
  Proof. apply w_when. ws. Qed.
  Lemma join_lines l : join "<br />" l = lines_text l.
  Proof. induction l as [|x [|y l] IH]; [reflexivity|reflexivity|]. cbn [join lines_text] in *. now rewrite IH. Qed.
  Lemma line_label g i : element_line g i = element_label g i.
  Proof. unfold element_line, element_label. destruct (get_node g i) as [n|]; [|reflexivity]. destruct (n_name n) as [[|c t]|]; reflexivity. Qed.
  Definition elements_items g1 (nodes : list nat) : list item := Head3 "Processable Elements" ::
     (if match nodes with [] => true | _ => false end then [Par "No processable elements found"]
      else [Listing "Elements to process (sorted by process order ascending)" (map (element_label g1) nodes)]).
  Lemma w_div what l : Writes (add_div what (join "<br />" l)) [Listing what l].
  Proof. rewrite join_lines. wa. Qed.
  Lemma w_elements g nodes : Writes (log_processable_elements g nodes) (elements_items g nodes).
  Proof.
    apply w_when. unfold elements_items. destruct nodes as [|x l]; [ws|]. change (?a :: [?b]) with ([a] ++ [b])%list. apply w_seq; [ws|]. intros _.
    rewrite (map_ext _ _ (line_label g)). apply w_div.
  Qed.
  Lemma w_round s s' ws r : lg_active s = true -> log_round_start s = (s', (ws, r)) -> lg_files s' = lg_files s /\ lg_resolved s' = lg_resolved s /\
    (exists u, r = Ok u) /\ lg_rounds s' = S (lg_rounds s) /\ Logs true s s' [RoundHead (S (lg_rounds s))].
  Proof.
    intros Ha H. unfold log_round_start, when_active in H. rewrite Ha in H. injection H as <- <- <-. do 2 (split; [reflexivity|]). split; [eauto|]. split; [reflexivity|].
    exists (item_html "" (RoundHead (S (lg_rounds s))) ++ ""), (lg_svgs s). split; [constructor; [discriminate|constructor]|]. cbn [lg_body lg_svgs lg_rounds lg_active].
    split; [rewrite sapp_nil_r; unfold item_html, nat_text, nl, newline; now rewrite <- !sapp_assoc|]. split; [auto|]. split; [auto|]. replace (S (lg_rounds s) - lg_rounds s)%nat with 1%nat by lia. split; [reflexivity|lia].
  Qed.
  Definition placeholder_items (paths : list string) (g1 : graph) : list item := Head3 "Resolve Placeholders" ::
     (if match paths with [] => true | _ => false end then [Par "No placeholders resolved in this round"]
      else [Listing "Resolved placeholders" paths; Par "Graph after resolving placeholders:"; Drawing g1]).
  Lemma w_phs g s s' ws r : lg_active s = true -> log_resolve_placeholder_finished draw modify g s = (s', (ws, r)) -> lg_files s' = lg_files s /\
    match r with Ok _ => lg_resolved s' = [] /\ Logs true s s' (placeholder_items (lg_resolved s) g) | Err _ => exists pre, Logs false s s' pre end.
  Proof.
    intros Ha H. unfold log_resolve_placeholder_finished, when_active in H. rewrite Ha in H. unfold placeholder_items. set (q := lg_resolved s) in *. clearbody q.
    assert (K : forall m l, Writes m l -> lbind (add_h3 "Resolve Placeholders") (fun _ => lbind m (fun _ s => (mk_log (lg_active s) (lg_body s) (lg_svgs s) (lg_rounds s) [] (lg_files s), ret tt))) s = (s', (ws, r)) ->
       lg_files s' = lg_files s /\ match r with Ok _ => lg_resolved s' = [] /\ Logs true s s' (Head3 "Resolve Placeholders" :: l) | Err _ => exists pre, Logs false s s' pre end).
    { clear H. intros m l W H. apply lbind_inv in H as [(e & -> & H)|(s1 & w1 & x & w2 & K1 & K2 & _)]; [discriminate H|].
      assert (W1 : Writes (add_h3 "Resolve Placeholders") [Head3 "Resolve Placeholders"]) by ws. destruct (W1 _ _ _ _ Ha K1) as (F1 & _ & L1). assert (Ha1 : lg_active s1 = true) by (destruct L1 as (h & k & A); apply A).
      apply lbind_inv in K2 as [(e & -> & H)|(s2 & w3 & y & w4 & K3 & K4 & _)].
      - destruct (W _ _ _ _ Ha1 H) as (F2 & _ & pre & L2). split; [congruence|]. eexists. exact (logs_app _ _ _ _ _ _ L1 L2).
      - destruct (W _ _ _ _ Ha1 K3) as (F2 & _ & L2). injection K4 as <- <- <-. cbn [lg_files lg_resolved]. split; [congruence|]. split; [reflexivity|]. assert (L := logs_app _ _ _ _ _ _ L1 L2). exact L. }
    destruct q as [|p0 q]; (eapply K in H; [exact H|]); [ws|]. change (?a :: [?b; ?c]) with ([a] ++ [b; c])%list. apply w_seq; [apply w_div|]. intros _. ws.
  Qed.

  Lemma rp_cases g ph ws g' : resolve_placeholder g ph = (ws, Ok g') -> g' = g \/ exists path, get_slot g ph = Some (NPh path) /\ get_slot g' ph = None.
  Proof.
    unfold resolve_placeholder. intros H. apply bind_ok in H as (w1 & par & w2 & _ & H & _). destruct (negb _) in H; [apply ret_ok in H as [<- _]; now left|].
    apply bind_ok in H as (w3 & c & w4 & _ & H & _). destruct (get_slot g ph) as [[m|path]|] eqn:Ep; [destruct (get_node g c); discriminate H| |destruct (get_node g c); discriminate H].
    destruct (get_node g c) as [n|]; [|discriminate H]. apply bind_ok in H as (w5 & b & w6 & _ & H & _). destruct b as [b|]; [|apply ret_ok in H as [<- _]; now left].
    destruct (add_edge (remove_placeholder g ph) b c DERIVE) as [g1|] eqn:Ea; [|discriminate H]. apply ret_ok in H as [<- _]. right. exists path. split; [reflexivity|].
    unfold add_edge in Ea. destruct (reaches _ _ _); [discriminate|]. injection Ea as <-. unfold get_slot, remove_placeholder. cbn [g_slots]. rewrite nth_set_nth, Nat.eqb_refl. cbn [andb]. destruct (ph <? length (g_slots g))%nat eqn:El; [reflexivity|]. apply nth_overflow. now apply Nat.ltb_ge.
  Qed.
  Definition Same (s s' : log) : Prop := lg_active s' = lg_active s /\ lg_body s' = lg_body s /\ lg_svgs s' = lg_svgs s /\ lg_rounds s' = lg_rounds s /\ lg_files s' = lg_files s.
  Lemma same_logs b s s' : lg_active s = true -> Same s s' -> Logs b s s' [].
  Proof.
    intros Ha (A1 & A2 & A3 & A4 & _). exists "", (lg_svgs s). split; [constructor|]. split; [now rewrite A2, sapp_nil_r|]. split; [auto|]. split; [congruence|]. rewrite A4, Nat.sub_diag. auto.
  Qed.
  Lemma refs_l l : forall g s s' ws r, lg_active s = true -> lfoldM resolve_placeholder_l g l s = (s', (ws, r)) -> Same s s' /\
    forall g', r = Ok g' -> exists paths, References g l paths g' /\ lg_resolved s' = (lg_resolved s ++ paths)%list.
  Proof.
    induction l as [|p l IH]; intros g s s' ws r Ha H; cbn [lfoldM] in H.
    - injection H as <- <- <-. split; [unfold Same; auto|]. intros g' E. injection E as <-. exists []. split; [constructor|now rewrite app_nil_r].
    - assert (Hstep : forall s1 w1 r1, resolve_placeholder_l g p s = (s1, (w1, r1)) -> Same s s1 /\ forall g1, r1 = Ok g1 -> exists w, resolve_placeholder g p = (w, Ok g1) /\
         ((g1 = g /\ lg_resolved s1 = lg_resolved s) \/ exists path, get_slot g p = Some (NPh path) /\ get_slot g1 p = None /\ lg_resolved s1 = (lg_resolved s ++ [path])%list)).
      { intros s1 w1 r1 K. unfold resolve_placeholder_l in K. apply lbind_inv in K as [(e & -> & K)|(s2 & w2 & g1 & w3 & K1 & K2 & _)].
        - injection K as <- K. split; [unfold Same; auto|]. discriminate.
        - injection K1 as <- K1. destruct (rp_cases _ _ _ _ K1) as [->|(path & C1 & C2)].
          + destruct (get_slot g p) as [[m|path]|] eqn:Ep; injection K2 as <- <- <-; (split; [unfold Same; auto|]); intros g1 E; injection E as <-; exists w2; auto.
          + rewrite C1, C2 in K2. apply lbind_inv in K2 as [(e & -> & K)|(s3 & w4 & u & w5 & K3 & K4 & _)].
            * unfold log_resolved_placeholder, when_active in K. rewrite Ha in K. discriminate.
            * unfold log_resolved_placeholder, when_active in K3. rewrite Ha in K3. injection K3 as <- <- <-. injection K4 as <- <- <-. split; [unfold Same; cbn; auto|]. intros g1' E. injection E as <-. exists w2. split; [exact K1|]. right. exists path. auto. }
      apply lbind_inv in H as [(e & -> & H)|(s1 & w1 & g1 & w2 & K1 & K2 & _)].
      + destruct (Hstep _ _ _ H) as [K _]. split; [exact K|discriminate].
      + destruct (Hstep _ _ _ K1) as [S1 Hg]. destruct (Hg g1 eq_refl) as (w & Hr & Hc). destruct (IH g1 s1 s' w2 r) as [S2 HR]; [unfold Same in S1; intuition congruence|exact K2|].
        split; [unfold Same in *; intuition congruence|]. intros g' ->. destruct (HR g' eq_refl) as (paths & R1 & R2). destruct Hc as [[-> E]|(path & C1 & C2 & E)].
        * exists paths. split; [econstructor; eassumption|congruence].
        * exists (path :: paths). split; [eapply ref_resolved; eassumption|]. rewrite R2, E, <- app_assoc. reflexivity.
  Qed.
  Lemma refs_resolve g l paths g' : References g l paths g' -> exists ws, foldM resolve_placeholder g l = (ws, Ok g').
  Proof. induction 1 as [g|g p l paths g1 ws H _ [w IH]|g p l path paths g1 g2 ws _ H _ _ [w IH]]; [exists []; reflexivity| |]; cbn [foldM]; rewrite H; unfold bind; rewrite IH; eauto. Qed.

  Notation rnds := (rounds_l draw modify pack ct pt).
  Lemma phs_l g s s' ws r : lg_active s = true -> lg_resolved s = [] -> resolve_placeholders_l draw modify g s = (s', (ws, r)) -> lg_files s' = lg_files s /\ lg_active s' = true /\
    match r with Ok g' => exists paths, References g (g_phs g) paths g' /\ lg_resolved s' = [] /\ Logs true s s' (placeholder_items paths g') | Err _ => exists pre, Logs false s s' pre end.
  Proof.
    intros Ha Hr H. apply lbind_inv in H as [(e & -> & H)|(s1 & w1 & g1 & w2 & K1 & K2 & _)].
    - destruct (refs_l _ _ _ _ _ _ Ha H) as [S1 _]. split; [apply S1|]. split; [unfold Same in S1; intuition congruence|]. exists []. now apply same_logs.
    - destruct (refs_l _ _ _ _ _ _ Ha K1) as [S1 HR]. destruct (HR g1 eq_refl) as (paths & R1 & R2). rewrite Hr in R2. cbn [List.app] in R2. assert (Ha1 : lg_active s1 = true) by (unfold Same in S1; intuition congruence).
      assert (L1 := same_logs true _ _ Ha S1). apply lbind_inv in K2 as [(e & -> & H)|(s2 & w3 & u & w4 & K3 & K4 & _)].
      + destruct (w_phs _ _ _ _ _ Ha1 H) as (F & pre & L). split; [rewrite F; apply S1|]. assert (L2 := logs_app _ _ _ _ _ _ L1 L). split; [destruct L2 as (h & k & A); apply A|]. eauto.
      + injection K4 as <- <- <-. destruct (w_phs _ _ _ _ _ Ha1 K3) as (F & E & L). rewrite R2 in L. split; [rewrite F; apply S1|]. assert (L2 := logs_app _ _ _ _ _ _ L1 L). split; [destruct L2 as (h & k & A); apply A|]. exists paths. auto.
  Qed.
  Lemma logs_act b s s' l : Logs b s s' l -> lg_active s' = true.
  Proof. intros (h & k & A). apply A. Qed.
  Lemma logs_rounds b s s' l : Logs b s s' l -> lg_rounds s' = (lg_rounds s + length (round_numbers l))%nat.
  Proof. intros (h & k & _ & _ & _ & _ & A & B). rewrite A, seq_length. lia. Qed.
  Lemma rounds_logs fuel : forall g prev s s' ws r, lg_active s = true -> lg_resolved s = [] -> rnds fuel g prev s = (s', (ws, r)) ->
    match r with
    | Ok g' => lg_files s' = lg_files s /\ exists rs, Run g rs g' /\ Logs true s s' (rounds_items (S (lg_rounds s)) rs)
    | Err e => (exists pre, Logs false s s' pre) /\ (lg_files s = [] -> lg_files s' = [] \/ ex_class e = LoopException /\ lg_files s' = [page pack ct pt (lg_body s')])
    end.
  Proof.
    induction fuel as [|f IH]; intros g prev s s' ws r Ha Hr H; cbn [rounds_l] in H.
    - injection H as <- <- <-. split; [exists []; now apply logs_nil|auto].
    - apply lbind_inv in H as [(e & -> & H)|(s1 & w1 & u & w2 & K1 & K2 & _)]; [exfalso; apply w_round in H as (_ & _ & (v & K) & _); [discriminate|exact Ha]|].
      destruct (w_round _ _ _ _ Ha K1) as (F1 & R1 & _ & N1 & L1). rewrite Hr in R1. clear K1. assert (Ha1 := logs_act _ _ _ _ L1).
      apply lbind_inv in K2 as [(e & -> & H)|(s2 & w3 & g1 & w4 & K3 & K4 & _)].
      { destruct (phs_l _ _ _ _ _ Ha1 R1 H) as (F2 & _ & pre & L2). split; [eexists; exact (logs_app _ _ _ _ _ _ L1 L2)|]. intros E. left. congruence. }
      destruct (phs_l _ _ _ _ _ Ha1 R1 K3) as (F2 & Ha2 & paths & HR & R2 & L2). assert (L12 := logs_app _ _ _ _ _ _ L1 L2). cbn zeta in K4.
      set (nodes := topological_sorted g1 (find_processable g1)) in *. assert (En : topological_sorted g1 (find_processable g1) = nodes) by reflexivity. clearbody nodes.
      apply lbind_inv in K4 as [(e & -> & H)|(s3 & w5 & v & w6 & K5 & K6 & _)].
      { destruct (w_elements g1 nodes _ _ _ _ Ha2 H) as (F3 & _ & pre & L3). split; [eexists; exact (logs_app _ _ _ _ _ _ L12 L3)|]. intros E. left. congruence. }
      destruct (w_elements g1 nodes _ _ _ _ Ha2 K5) as (F3 & R3 & L3). assert (L123 := logs_app _ _ _ _ _ _ L12 L3). assert (Ha3 := logs_act _ _ _ _ L123). rewrite R2 in R3.
      destruct nodes as [|x l].
      { injection K6 as <- <- <-. split; [congruence|]. exists [mk_round paths g1 [] g1]. split; [now constructor|]. cbn [rounds_items]. rewrite app_nil_r. unfold round_items. cbn [rd_paths rd_graph rd_nodes rd_after].
        rewrite <- app_assoc in L123. unfold placeholder_items, elements_items in L123. cbn [List.app] in L123 |- *. exact L123. }
      destruct (list_nat_eqb (x :: l) prev).
      { clear IH. apply lbind_inv in K6 as [(e & -> & H)|(s4 & w7 & y & w8 & K7 & K8 & _)]; [unfold log_loop_detected, when_active in H; rewrite Ha3 in H; discriminate H|].
        injection K8 as -> <- <-. unfold log_loop_detected, when_active in K7. rewrite Ha3 in K7. apply lbind_inv in K7 as [(e & K & _)|(s5 & w9 & z & w10 & K9 & K10 & _)]; [discriminate K|].
        assert (W : Writes (add_paragraph "Loop detected") [Par "Loop detected"]) by wa. destruct (W _ _ _ _ Ha3 K9) as (F4 & _ & L4). injection K10 as <- _ _. assert (L := logs_app _ _ _ _ _ _ L123 L4).
        assert (E : lg_svgs (gen s5) = lg_svgs s5 /\ lg_body (gen s5) = lg_body s5 /\ lg_active (gen s5) = lg_active s5 /\ lg_rounds (gen s5) = lg_rounds s5) by (unfold generate; destruct (lg_files s5); auto).
        destruct E as (E1 & E2 & E3 & E4). split.
        - eexists. apply logs_weak in L. unfold Logs in *. rewrite E2, E3, E4. destruct L as (h & k & A). exists h, k. intuition (discriminate || eauto).
        - intros E. right. split; [reflexivity|]. unfold generate. replace (lg_files s5) with ([] : list string) by congruence. reflexivity. }
      apply lbind_inv in K6 as [(e & -> & H)|(s4 & w7 & g2 & w8 & K7 & K8 & _)].
      { injection H as <- _. split; [eexists; exact (logs_weak _ _ _ L123)|]. intros E. left. congruence. }
      injection K7 as <- Hf. apply lbind_inv in K8 as [(e & -> & H)|(s5 & w9 & y & w10 & K9 & K10 & _)].
      { destruct (w_end g2 _ _ _ _ Ha3 H) as (F4 & _ & pre & L4). split; [eexists; exact (logs_app _ _ _ _ _ _ L123 L4)|]. intros E. left. congruence. }
      destruct (w_end g2 _ _ _ _ Ha3 K9) as (F4 & R4 & L4). rewrite R3 in R4. assert (L := logs_app _ _ _ _ _ _ L123 L4). assert (Ha5 := logs_act _ _ _ _ L). specialize (IH _ _ _ _ _ _ Ha5 R4 K10).
      assert (N5 : lg_rounds s5 = S (lg_rounds s)).
      { rewrite (logs_rounds _ _ _ _ L). rewrite !rn_app, !app_length. unfold placeholder_items, elements_items. destruct paths; cbn; lia. }
      destruct r as [g'|e].
      + destruct IH as (F5 & rs & HRun & L5). split; [congruence|]. exists (mk_round paths g1 (x :: l) g2 :: rs). split; [eapply run_round; eauto; discriminate|].
        rewrite N5 in L5. assert (LL := logs_app _ _ _ _ _ _ L L5). cbn [rounds_items]. match type of LL with Logs _ _ _ (?a ++ _)%list => replace (round_items (S (lg_rounds s)) (mk_round paths g1 (x :: l) g2)) with a; [exact LL|] end.
        unfold round_items, placeholder_items, elements_items. cbn [rd_paths rd_graph rd_nodes rd_after]. destruct paths; reflexivity.
      + destruct IH as ((pre & L5) & F5). split; [eexists; exact (logs_app _ _ _ _ _ _ L L5)|]. intros E. apply F5. congruence.
  Qed.
  Theorem resolve_logs fuel ps path s' ws r : resolve_peripherals_l draw modify pack ct pt fuel ps (new_log (Some path)) = (s', (ws, r)) ->
    match r with
    | Ok _ => lg_files s' = [] /\ exists w1 g w2 g0 rs g', construct_graph ps = (w1, Ok g) /\ foldM link_placeholder g (g_phs g) = (w2, Ok g0) /\ Run g0 rs g' /\ unprocessed_nodes g' = [] /\
                Logs true (new_log (Some path)) s' (start_items g g0 ++ rounds_items 1 rs ++ end_items)
    | Err e => (exists items, Logs false (new_log (Some path)) s' items) /\ (lg_files s' = [] \/ ex_class e = LoopException /\ lg_files s' = [page pack ct pt (lg_body s')])
    end.
  Proof.
    set (s := new_log (Some path)). assert (Ha : lg_active s = true) by reflexivity. assert (Hr : lg_resolved s = []) by reflexivity. assert (Hf : lg_files s = []) by reflexivity. assert (Hn : lg_rounds s = 0%nat) by reflexivity. clearbody s.
    unfold resolve_peripherals_l. intros H.
    apply lbind_inv in H as [(e & -> & H)|(s1 & w1 & g & w2 & K & H & _)]; [injection H as <- _; split; [exists []; now apply logs_nil|auto]|]. injection K as <- Hg.
    apply lbind_inv in H as [(e & -> & H)|(s1 & w3 & u & w4 & K & H & _)]; [destruct (w_init g _ _ _ _ Ha H) as (F & _ & L); split; [exact L|left; congruence]|].
    destruct (w_init g _ _ _ _ Ha K) as (F1 & R1 & L1). clear K. assert (Ha1 := logs_act _ _ _ _ L1).
    apply lbind_inv in H as [(e & -> & H)|(s2 & w5 & g0 & w6 & K & H & _)]; [injection H as <- _; split; [eexists; exact (logs_weak _ _ _ L1)|left; congruence]|]. injection K as <- Hg0.
    apply lbind_inv in H as [(e & -> & H)|(s2 & w7 & u2 & w8 & K & H & _)]; [destruct (w_pc g0 _ _ _ _ Ha1 H) as (F & _ & pre & L); split; [eexists; exact (logs_app _ _ _ _ _ _ L1 L)|left; congruence]|].
    destruct (w_pc g0 _ _ _ _ Ha1 K) as (F2 & R2 & L2). clear K. assert (L12 := logs_app _ _ _ _ _ _ L1 L2). assert (Ha2 := logs_act _ _ _ _ L12).
    apply lbind_inv in H as [(e & -> & H)|(s3 & w9 & u3 & w10 & K & H & _)]; [destruct (w_start _ _ _ _ Ha2 H) as (F & _ & pre & L); split; [eexists; exact (logs_app _ _ _ _ _ _ L12 L)|left; congruence]|].
    destruct (w_start _ _ _ _ Ha2 K) as (F3 & R3 & L3). clear K. assert (L123 := logs_app _ _ _ _ _ _ L12 L3). assert (Ha3 := logs_act _ _ _ _ L123). cbn [List.app] in L123. change (_ :: _) with (start_items g g0) in L123.
    assert (N3 : lg_rounds s3 = 0%nat) by (rewrite (logs_rounds _ _ _ _ L123), Hn; reflexivity). assert (R30 : lg_resolved s3 = []) by congruence.
    apply lbind_inv in H as [(e & -> & H)|(s4 & w11 & g' & w12 & K & H & _)]; [destruct (rounds_logs _ _ _ _ _ _ _ Ha3 R30 H) as ((pre & L) & F); split; [eexists; exact (logs_app _ _ _ _ _ _ L123 L)|apply F; congruence]|].
    destruct (rounds_logs _ _ _ _ _ _ _ Ha3 R30 K) as (F4 & rs & HRun & L4). clear K. rewrite N3 in L4. assert (L := logs_app _ _ _ _ _ _ L123 L4). assert (Ha4 := logs_act _ _ _ _ L).
    apply lbind_inv in H as [(e & -> & H)|(s5 & w13 & u5 & w14 & K & H & _)]; [destruct (w_finished _ _ _ _ Ha4 H) as (F & _ & pre & L5); split; [eexists; exact (logs_app _ _ _ _ _ _ L L5)|left; congruence]|].
    destruct (w_finished _ _ _ _ Ha4 K) as (F5 & _ & L5). clear K. assert (LL := logs_app _ _ _ _ _ _ L L5). rewrite <- app_assoc in LL. injection H as <- H. destruct r as [v|e].
    - split; [congruence|]. exists w1, g, w5, g0, rs, g'. do 3 (split; [assumption|]). split; [|exact LL]. destruct (unprocessed_nodes g') as [|x l]; [reflexivity|exfalso].
      apply bind_ok in H as (q1 & q2 & q3 & H & _). apply bind_ok in H as (q4 & q5 & q6 & _ & H & _). discriminate H.
    - split; [eexists; exact (logs_weak _ _ _ LL)|left; congruence].
  Qed.
End Facts.
