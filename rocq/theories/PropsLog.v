(** * PropsLog: the log of the resolver (C60).
    [draw], [modify], [pack] and the two templates are those of LogModel.v: any functions and texts. *)
From Coq Require Import Permutation.
From Verif Require Import Base PyStr PyInt Types ElemModel FinalModel ResolveModel ProcessModel LogModel SpecLog GraphFacts LogFacts LogListed Samples PropsDevice.
Local Open Scope string_scope.

(** every graph can be drawn *)
Definition draws (draw : graph -> string + exn) (modify : string -> nat -> string + exn) : Prop :=
  forall g k, exists t t', draw g = inl t /\ modify t k = inl t'.
(** the picture number [k] of the graph [g] *)
Definition picture (draw : graph -> string + exn) (modify : string -> nat -> string + exn) (k : nat) (g : graph) (p : string) : Prop :=
  exists t, draw g = inl t /\ modify t k = inl p.

(** C60: asking for a log changes neither the result, nor the warnings, nor the exception; without a file name nothing is logged or written *)
Theorem C60_same_outcome : forall draw modify pack ct pt fuel d,
  (process_logged draw modify pack ct pt fuel None d = (new_log None, process_device fuel d)
   /\ lg_files (destroy pack ct pt (new_log None)) = [])
  /\ (draws draw modify -> forall path, snd (process_logged draw modify pack ct pt fuel path d) = process_device fuel d).
Proof.
  intros. split; [split; [|reflexivity]|].
  - unfold process_logged. rewrite (quiet_resolve draw modify pack ct pt fuel (sdv_periphs d) (new_log None) eq_refl). reflexivity.
  - intros HD path. unfold process_logged. assert (K := erases_resolve draw modify pack ct pt fuel (sdv_periphs d) HD (new_log path)).
    destruct (resolve_peripherals_l draw modify pack ct pt fuel (sdv_periphs d) (new_log path)) as [s r]. cbn [snd] in *. now rewrite K.
Qed.

(** C60: whatever happens (an accepted description, a rejected one, a graph that cannot be drawn), exactly one text is written to the file: the page with
    everything that was logged.  It is written when the logger is destroyed, never before *)
Theorem C60_written_once : forall draw modify pack ct pt fuel path d, let s := fst (process_logged draw modify pack ct pt fuel (Some path) d) in
  lg_files s = [] /\ lg_files (destroy pack ct pt s) = [page pack ct pt (lg_body s)]
  /\ lg_files (destroy pack ct pt (destroy pack ct pt s)) = [page pack ct pt (lg_body s)].
Proof.
  intros. assert (E : s = fst (resolve_peripherals_l draw modify pack ct pt fuel (sdv_periphs d) (new_log (Some path)))).
  { unfold s, process_logged. destruct (resolve_peripherals_l _ _ _ _ _ _ _ _) as [s0 r]. reflexivity. }
  assert (F := resolve_file draw modify pack ct pt fuel (sdv_periphs d) path). rewrite <- E in F. assert (A : lg_active s = true).
  { rewrite E. destruct (resolve_peripherals_l draw modify pack ct pt fuel (sdv_periphs d) (new_log (Some path))) as [s0 [ws r]] eqn:H. apply resolve_logs in H. cbn [fst].
    destruct r as [l|e]; [destruct H as (_ & w1 & g & w2 & g0 & rs & g' & _ & _ & _ & _ & L)|destruct H as ((it & L) & _)]; exact (logs_act _ _ _ _ _ _ L). }
  split; [exact F|]. unfold destroy. rewrite A. unfold generate. rewrite F. cbn [lg_active lg_files lg_body]. rewrite A. auto.
Qed.

(** C60: whatever happens, the log is a sequence of headings, paragraphs, listings and pictures; the pictures and the rounds are numbered 1, 2, ... *)
Theorem C60_numbered : forall draw modify pack ct pt fuel path d, exists items pictures,
  Shown (picture draw modify) 0 items (lg_body (fst (process_logged draw modify pack ct pt fuel (Some path) d))) pictures
  /\ round_numbers items = seq 1 (length (round_numbers items)).
Proof.
  intros. unfold process_logged. destruct (resolve_peripherals_l draw modify pack ct pt fuel (sdv_periphs d) (new_log (Some path))) as [s [ws r]] eqn:H. cbn [fst]. apply resolve_logs in H.
  assert (K : forall b items, Logs draw modify b (new_log (Some path)) s items -> exists items pictures, Shown (picture draw modify) 0 items (lg_body s) pictures /\ round_numbers items = seq 1 (length (round_numbers items))).
  { intros b items (h & k & A & B & _ & _ & C & _). exists items, k. cbn [new_log lg_body lg_svgs lg_rounds] in *. split; [rewrite B; exact A|]. rewrite C at 2. now rewrite seq_length. }
  destruct r as [l|e]; [destruct H as (_ & w1 & g & w2 & g0 & rs & g' & _ & _ & _ & _ & L)|destruct H as ((it & L) & _)]; exact (K _ _ L).
Qed.

(** C60: the log of a description that is accepted tells the whole story of its resolution: the graph as constructed, the graph with the references linked, every round
    with the references resolved, the elements processed and the graphs in between, and the end *)
Theorem C60_story : forall draw modify pack ct pt fuel path d s ws dev,
  process_logged draw modify pack ct pt fuel (Some path) d = (s, (ws, Ok dev)) ->
  exists g g0 rs g' pictures,
    (exists w, construct_graph (sdv_periphs d) = (w, Ok g)) /\ (exists w, foldM link_placeholder g (g_phs g) = (w, Ok g0)) /\ Run g0 rs g'
    /\ Shown (picture draw modify) 0 (start_items g g0 ++ rounds_items 1 rs ++ end_items)%list (lg_body s) pictures
    /\ NoDup (listed rs)
    /\ exists ids extra, NoDup ids /\ length ids = length (elements (sdv_periphs d))
       /\ Permutation (listed_lines rs) (map (fun ie => element_line_text (fst ie) (snd ie)) (combine ids (elements (sdv_periphs d))) ++ extra)%list
       /\ (Forall (fun e => el_derived e = None) (elements (sdv_periphs d)) -> extra = []).
Proof.
  intros draw modify pack ct pt fuel path d s ws dev H. unfold process_logged in H. destruct (resolve_peripherals_l draw modify pack ct pt fuel (sdv_periphs d) (new_log (Some path))) as [s0 [w0 r]] eqn:HR.
  injection H as -> H. apply bind_ok in H as (w1 & l & w2 & H & _ & _). destruct r as [l'|e]; [|discriminate H]. apply resolve_logs in HR.
  destruct HR as (_ & w3 & g & w4 & g0 & rs & g' & Hg & Hg0 & HRun & HU & (h & k & A & B & _)). destruct (link_todo _ _ _ _ _ Hg Hg0) as [W (ids & T)].
  exists g, g0, rs, g', k. split; [eauto|]. split; [eauto|]. split; [exact HRun|]. cbn [new_log lg_body lg_svgs] in *. split; [rewrite B; exact A|].
  split; [apply (run_listed _ _ _ HRun W)|]. destruct (lines_perm _ _ _ _ _ HRun W HU T) as (extra & P & HX). exists ids, extra. destruct T as (ND & Hin & Hes). split; [exact ND|].
  split; [rewrite <- Hes; now rewrite map_length|]. split; [exact P|]. intros HF. apply HX. intros i Hi. apply Hin. apply (free_run _ _ _ HRun W); [|exact Hi].
  intros j n Hn Hd. assert (Hj : In j ids) by (apply Hin; unfold unprocessed; now rewrite Hn, Hd). rewrite Forall_forall in HF. assert (He : In (el g0 j) (elements (sdv_periphs d))) by (rewrite <- Hes; now apply in_map).
  apply HF in He. unfold el in He. rewrite Hn in He. exact He.
Qed.
Print Assumptions C60_same_outcome.
Print Assumptions C60_written_once.
Print Assumptions C60_numbered.
Print Assumptions C60_story.

(** a drawing that always works *)
Definition a_drawing (g : graph) : string + exn := inl "<svg/>".
Definition with_number (t : string) (k : nat) : string + exn := inl (t ++ nat_text k).
Notation sample_log := (process_logged a_drawing with_number (fun t => t) "<body>BODY_CONTENT</body>" "<page>COMPRESSED_DATA</page>" 20 (Some "log.html") sample).
Example C60_nonvacuous : draws a_drawing with_number /\ snd sample_log = sample_result /\ (exists dev, snd (snd sample_log) = Ok dev).
Proof. split; [intros g k; eexists; eexists; split; reflexivity|]. split; [vm_compute; reflexivity|]. vm_compute. eexists. reflexivity. Qed.
(** the sample is resolved in several rounds; elements that are derived are copied with their children, which are listed as well *)
Fixpoint occurs (p t : string) : nat :=
  match t with "" => 0 | String _ t' => (if String.prefix p t then 1 else 0) + occurs p t' end.
Example C60_sample_rounds : let t := lg_body (fst sample_log) in
  (occurs ". Round</h2>" t, occurs "class=""svg-container""" t, occurs "<br />" t, length (elements (sdv_periphs sample))) = (3, 6, 17, 17)%nat
  /\ occurs ">1: B (Peripheral)" t = 1%nat.
Proof. vm_compute. split; reflexivity. Qed.

(** What a user may expect of the log beyond this does not hold.
    The file is not there when the device has been processed: log_finalize (logger.py:101-103) is never called, and the Process and its Resolver refer to each other, so the
    logger is destroyed only when the garbage collector finds them *)
Definition file_on_return : Prop := forall draw modify pack ct pt fuel path d s ws dev, draws draw modify ->
  process_logged draw modify pack ct pt fuel (Some path) d = (s, (ws, Ok dev)) -> lg_files s <> [].
Lemma late_file : file_on_return -> forall draw modify pack ct pt fuel path d l dev, draws draw modify -> l = process_logged draw modify pack ct pt fuel (Some path) d -> snd (snd l) = Ok dev -> False.
Proof.
  intros H draw modify pack ct pt fuel path d [s [ws r]] dev HD E Hr. cbn [snd] in Hr. subst r. symmetry in E. apply (H _ _ _ _ _ _ _ _ _ _ _ HD E).
  assert (K := C60_written_once draw modify pack ct pt fuel path d). cbv zeta in K. rewrite E in K. apply K.
Qed.
Theorem C60_file_on_return_refuted : ~ file_on_return.
Proof.
  intros H. destruct C60_nonvacuous as (HD & _ & dev & Hd). exact (late_file H _ _ _ _ _ _ _ _ _ _ HD eq_refl Hd).
Qed.
(** Names are put into the page as they are: a name can open a comment and hide the rest of the log *)
Definition comment_device : svd_device := s_dev [s_per "<!--" 4096 [s_reg "R" 0 [] None None] None None].
Theorem C60_escaped_refuted : exists d dev, let l := process_logged a_drawing with_number (fun t => t) "BODY_CONTENT" "COMPRESSED_DATA" 20 (Some "log.html") d in
  snd l = ([], Ok dev) /\ occurs ">1: <!-- (Peripheral)<br />2: R (Register)</div>" (lg_body (fst l)) = 1%nat /\ occurs "-->" (lg_body (fst l)) = 0%nat.
Proof. exists comment_device. vm_compute. eexists. split; [reflexivity|]. split; reflexivity. Qed.
Print Assumptions C60_file_on_return_refuted.
Print Assumptions C60_escaped_refuted.
