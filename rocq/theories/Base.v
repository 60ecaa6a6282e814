(** * Base: results with warnings, exceptions, Python's stable sort.

    Models the Python control effects used by /repo/src/svdsuite: raising an
    exception, [warnings.warn] (collected in order), and [list.sort]/[sorted]. *)
From Coq Require Export String Ascii ZArith Lia Bool Sorting.Permutation Sorting.Sorted RelationClasses List.
From Coq Require Import ZifyBool.
Export ListNotations.
Open Scope string_scope.
Open Scope Z_scope.
Open Scope list_scope.

(** Exception classes that can leave the public API.
    process.py:60 ProcessException; util/parser_exception_warning.py ParserException;
    resolve/exception.py (all); builtin NotImplementedError, ValueError, TypeError, KeyError, AttributeError. *)
Inductive exn_class :=
| ProcessException | ParserException
| ResolveException | ResolverGraphException | EnumeratedValueContainerException
| LoopException | CycleException | UnprocessedNodesException
| NotImplementedError | ValueError | TypeError | KeyError | AttributeError
| OutOfFuel  (* not a Python exception: the model's fuel ran out; excluded by theorems *).

(** class and the raising site (a short label, standing for the message) *)
Record exn := E { ex_class : exn_class; ex_site : string }.

(** Warning sites; arguments are the identifying parts of the message. *)
Inductive warning :=
| W_UnknownAccess (label : string)              (* model/types.py:114 *)
| W_BitRangeSwapped (msb lsb : Z)               (* process.py:446 *)
| W_FieldMsbLsb (name : string) (msb lsb : Z)   (* process.py:459 *)
| W_DimNoPlaceholder (name : string)            (* process.py:492 *)
| W_PeriphEmpty (name : string)                 (* process.py:617 *)
| W_PeriphUnaligned (name : string)             (* process.py:625 *)
| W_PeriphSize (name : string)                  (* process.py:632 *)
| W_AddrBlockOverlap (curr prev : Z)            (* process.py:690 *)
| W_PeriphOverlapEff (p other : string)         (* process.py:709,720 *)
| W_PeriphOverlapSpec (p other : string)        (* process.py:730,741 *)
| W_RcSize (name : string)                      (* process.py:826 *)
| W_RcUnaligned (name : string)                 (* process.py:836 *)
| W_ClusterEmpty (name : string)                (* process.py:852 *)
| W_RegReserved                                 (* process.py:868 *)
| W_RcOverlap (item other : string)             (* process.py:917,925 *)
| W_FieldReserved                               (* process.py:989 *)
| W_FieldExceeds (name : string) (msb size : Z) (* process.py:1016 *)
| W_EnumOutOfRange (name : string) (v : Z)      (* process.py:1076 *)
| W_EnumReserved                                (* process.py:1224 *)
| W_EnumDupName (name : string)                 (* process.py:1314 *)
| W_EnumDupValue (name : string) (v : Z)        (* process.py:1317 *)
| W_EnumDefaultValue (name : string) (v : Z)    (* process.py:1327 *)
| W_Parser (what : string)                      (* parse.py, any ParserWarning *).

Inductive outcome (A : Type) := Ok (a : A) | Err (e : exn).
Arguments Ok {A} a.
Arguments Err {A} e.

(** A computation: the warnings issued (oldest first) and the outcome.
    Warnings issued before a raise remain visible. *)
Definition M (A : Type) : Type := (list warning * outcome A)%type.

Definition ret {A} (a : A) : M A := ([], Ok a).
Definition raise {A} (c : exn_class) (site : string) : M A := ([], Err (E c site)).
Definition warn (w : warning) : M unit := ([w], Ok tt).
Definition bind {A B} (m : M A) (f : A -> M B) : M B :=
  match m with
  | (ws, Ok a) => let '(ws', r) := f a in (ws ++ ws', r)
  | (ws, Err e) => (ws, Err e)
  end.

Declare Scope m_scope.
Delimit Scope m_scope with m.
Notation "x <- m ;; f" := (bind m (fun x => f)) (at level 61, m at next level, right associativity) : m_scope.
Notation "m ;;; f" := (bind m (fun _ => f)) (at level 61, right associativity) : m_scope.
Open Scope m_scope.

(** [when b w]: conditional warning *)
Definition warn_if (b : bool) (w : warning) : M unit := if b then warn w else ret tt.
(** conditional raise *)
Definition raise_if (b : bool) (c : exn_class) (site : string) : M unit := if b then raise c site else ret tt.

Fixpoint mapM {A B} (f : A -> M B) (l : list A) : M (list B) :=
  match l with
  | [] => ret []
  | x :: l' => y <- f x ;; ys <- mapM f l' ;; ret (y :: ys)
  end.

Fixpoint iterM {A} (f : A -> M unit) (l : list A) : M unit :=
  match l with
  | [] => ret tt
  | x :: l' => f x ;;; iterM f l'
  end.

Definition foldM {A B} (f : B -> A -> M B) : B -> list A -> M B :=
  fix go b l :=
    match l with
    | [] => ret b
    | x :: l' => b' <- f b x ;; go b' l'
    end.

Definition ok_of {A} (m : M A) : option A := match snd m with Ok a => Some a | Err _ => None end.
Definition exn_of {A} (m : M A) : option exn_class := match snd m with Ok _ => None | Err e => Some (ex_class e) end.

Lemma bind_ok {A B} (m : M A) (f : A -> M B) ws b :
  bind m f = (ws, Ok b) ->
  exists ws1 a ws2, m = (ws1, Ok a) /\ f a = (ws2, Ok b) /\ ws = ws1 ++ ws2.
Proof.
  destruct m as [ws1 [a|e]]; unfold bind; [|discriminate].
  destruct (f a) as [ws2 r] eqn:Hf. intros H; inversion H; subst.
  exists ws1, a, ws2. auto.
Qed.

Lemma bind_ok_intro {A B} (m : M A) (f : A -> M B) ws1 a ws2 b :
  m = (ws1, Ok a) -> f a = (ws2, Ok b) -> bind m f = (ws1 ++ ws2, Ok b).
Proof. intros -> H. unfold bind. rewrite H. reflexivity. Qed.

Lemma bind_err {A B} (m : M A) (f : A -> M B) ws e :
  bind m f = (ws, Err e) ->
  m = (ws, Err e) \/
  exists ws1 a ws2, m = (ws1, Ok a) /\ f a = (ws2, Err e) /\ ws = ws1 ++ ws2.
Proof.
  destruct m as [ws1 [a|e1]]; unfold bind.
  - destruct (f a) as [ws2 r] eqn:Hf. intros H; inversion H; subst. right.
    exists ws1, a, ws2. auto.
  - intros H; inversion H; subst. left; reflexivity.
Qed.

Lemma bind_ret_l {A B} (a : A) (f : A -> M B) : bind (ret a) f = f a.
Proof. unfold bind, ret. destruct (f a); reflexivity. Qed.

Lemma bind_ret_r {A} (m : M A) : bind m ret = m.
Proof. destruct m as [ws [a|e]]; unfold bind, ret; [rewrite app_nil_r|]; reflexivity. Qed.

Lemma bind_assoc {A B C} (m : M A) (f : A -> M B) (g : B -> M C) :
  bind (bind m f) g = bind m (fun x => bind (f x) g).
Proof.
  destruct m as [ws [a|e]]; unfold bind; [|reflexivity].
  destruct (f a) as [ws2 [b|e]]; [|reflexivity].
  destruct (g b) as [ws3 r]. rewrite app_assoc. reflexivity.
Qed.

Lemma ret_ok {A} (a b : A) ws : ret a = (ws, Ok b) -> a = b /\ ws = [].
Proof. unfold ret; intros H; inversion H; auto. Qed.
Lemma raise_not_ok {A} c s ws (b : A) : raise c s = (ws, Ok b) -> False.
Proof. unfold raise; intros H; inversion H. Qed.
Lemma warn_if_ok b w ws u : warn_if b w = (ws, Ok u) -> ws = if b then [w] else [].
Proof. unfold warn_if, warn, ret; destruct b; intros H; inversion H; auto. Qed.
Lemma raise_if_ok b c s ws u : raise_if b c s = (ws, Ok u) -> b = false /\ ws = [].
Proof. unfold raise_if, raise, ret; destruct b; intros H; inversion H; auto. Qed.
Lemma warn_if_err b w ws e : warn_if b w = (ws, Err e) -> False.
Proof. unfold warn_if, warn, ret; destruct b; intros H; inversion H. Qed.
Lemma raise_if_err b c s ws e : raise_if b c s = (ws, Err e) -> b = true /\ ws = [] /\ e = E c s.
Proof. unfold raise_if, raise, ret; destruct b; intros H; inversion H; auto. Qed.
Lemma ret_err {A} (a : A) ws e : ret a = (ws, Err e) -> False.
Proof. unfold ret; intros H; inversion H. Qed.
Lemma raise_err {A} c s ws e : @raise A c s = (ws, Err e) -> e = E c s /\ ws = [].
Proof. unfold raise; intros H; inversion H; auto. Qed.
Lemma warn_ok w ws u : warn w = (ws, Ok u) -> ws = [w].
Proof. unfold warn; intros H; inversion H; auto. Qed.
Lemma warn_err w ws e : warn w = (ws, Err e) -> False.
Proof. unfold warn; intros H; inversion H. Qed.

(** Inversion of successful/failing monadic computations. *)
Ltac minv :=
  repeat match goal with
  | H : bind _ _ = (_, Ok _) |- _ =>
      let ws1 := fresh "ws" in let a := fresh "a" in let ws2 := fresh "ws" in
      let H1 := fresh "Hm" in let H2 := fresh "Hk" in
      apply bind_ok in H; destruct H as (ws1 & a & ws2 & H1 & H2 & H); try subst
  | H : ret _ = (_, Ok _) |- _ =>
      let Hw := fresh "Hw" in apply ret_ok in H; destruct H as [H Hw]; try subst
  | H : (_, _) = (_, _) |- _ => injection H; clear H; intros; try subst
  | H : Some _ = Some _ |- _ => injection H; clear H; intros; try subst
  | H : raise _ _ = (_, Ok _) |- _ => apply raise_not_ok in H; destruct H
  | H : warn_if _ _ = (_, Ok _) |- _ => apply warn_if_ok in H; try subst
  | H : warn _ = (_, Ok _) |- _ => apply warn_ok in H; try subst
  | H : raise_if _ _ _ = (_, Ok _) |- _ => apply raise_if_ok in H; destruct H; try subst
  | H : ret _ = (_, Err _) |- _ => apply ret_err in H; destruct H
  | H : warn_if _ _ = (_, Err _) |- _ => apply warn_if_err in H; destruct H
  | H : warn _ = (_, Err _) |- _ => apply warn_err in H; destruct H
  end.

Lemma mapM_ok {A B} (f : A -> M B) l : forall ws ys,
  mapM f l = (ws, Ok ys) ->
  exists wss, Forall2 (fun x wy => f x = (fst wy, Ok (snd wy))) l (combine wss ys)
              /\ length wss = length ys /\ length ys = length l /\ ws = List.concat wss.
Proof.
  induction l as [|x l IH]; intros ws ys H; cbn [mapM] in H; minv.
  - exists []. repeat split; auto. constructor.
  - destruct (IH _ _ Hm0) as (wss & HF & Hl1 & Hl2 & Hc). subst.
    exists (ws0 :: wss). cbn [combine length List.concat].
    repeat split; try lia; [|now rewrite app_nil_r].
    constructor; auto.
Qed.

Lemma mapM_ok_In {A B} (f : A -> M B) l ws ys :
  mapM f l = (ws, Ok ys) -> forall y, In y ys -> exists x w, In x l /\ f x = (w, Ok y).
Proof.
  revert ws ys; induction l as [|x l IH]; intros ws ys H; cbn [mapM] in H; minv; intros y Hy.
  - destruct Hy.
  - destruct Hy as [<-|Hy]; [exists x, ws0; simpl; auto|].
    destruct (IH _ _ Hm0 y Hy) as (x' & w & ? & ?). exists x', w; simpl; auto.
Qed.

Lemma mapM_ok_Forall2 {A B} (f : A -> M B) l ws ys :
  mapM f l = (ws, Ok ys) -> Forall2 (fun x y => exists w, f x = (w, Ok y)) l ys.
Proof.
  revert ws ys; induction l as [|x l IH]; intros ws ys H; cbn [mapM] in H; minv; constructor; eauto.
Qed.

Lemma mapM_ret {A B} (f : A -> B) l : mapM (fun x => ret (f x)) l = ret (map f l).
Proof.
  induction l as [|x l IH]; cbn [mapM map]; [reflexivity|].
  rewrite bind_ret_l, IH, bind_ret_l. reflexivity.
Qed.

Lemma mapM_app {A B} (f : A -> M B) l1 l2 :
  mapM f (l1 ++ l2) = (ys1 <- mapM f l1 ;; ys2 <- mapM f l2 ;; ret (ys1 ++ ys2)).
Proof.
  induction l1 as [|x l1 IH]; cbn [app mapM].
  - rewrite bind_ret_l. cbn [app]. symmetry. rewrite <- (bind_ret_r (mapM f l2)) at 2. reflexivity.
  - rewrite IH. destruct (f x) as [w [y|e]]; [|reflexivity].
    destruct (mapM f l1) as [w1 [y1|e1]]; [|reflexivity].
    destruct (mapM f l2) as [w2 [y2|e2]]; unfold bind, ret; cbn [app]; rewrite ?app_nil_r, ?app_assoc; reflexivity.
Qed.

Lemma mapM_ext {A B} (f g : A -> M B) l : (forall x, In x l -> f x = g x) -> mapM f l = mapM g l.
Proof.
  induction l as [|x l IH]; intros H; cbn [mapM]; [reflexivity|].
  rewrite (H x) by (simpl; auto). rewrite IH; [reflexivity|]. intros; apply H; simpl; auto.
Qed.

(** ** Python's stable sort: insertion sort by a total boolean preorder. *)
Section Sort.
  Context {A : Type} (le : A -> A -> bool).

  Fixpoint insert (x : A) (l : list A) : list A :=
    match l with
    | [] => [x]
    | y :: l' => if le x y then x :: y :: l' else y :: insert x l'
    end.

  (** [list.sort]/[sorted]: stable, ascending. Insertion from the right keeps equal
      elements in their original order. *)
  Fixpoint isort (l : list A) : list A :=
    match l with
    | [] => []
    | x :: l' => insert x (isort l')
    end.

  Lemma insert_perm x l : Permutation (x :: l) (insert x l).
  Proof.
    induction l as [|y l IH]; cbn [insert]; [reflexivity|].
    destruct (le x y); [reflexivity|].
    rewrite perm_swap. now apply perm_skip.
  Qed.

  Lemma isort_perm l : Permutation l (isort l).
  Proof.
    induction l as [|x l IH]; cbn [isort]; [reflexivity|].
    rewrite <- insert_perm. now apply perm_skip.
  Qed.

  Lemma isort_in l x : In x (isort l) <-> In x l.
  Proof. split; apply Permutation_in; [apply Permutation_sym|]; apply isort_perm. Qed.

  Lemma isort_length l : length (isort l) = length l.
  Proof. symmetry; apply Permutation_length, isort_perm. Qed.

  Lemma isort_nil l : isort l = [] -> l = [].
  Proof. intros H. apply length_zero_iff_nil. rewrite <- isort_length, H. reflexivity. Qed.

  Definition leP x y := le x y = true.

  Hypothesis le_total : forall x y, le x y = false -> le y x = true.
  Hypothesis le_trans : forall x y z, le x y = true -> le y z = true -> le x z = true.

  Lemma insert_sorted x l : StronglySorted leP l -> StronglySorted leP (insert x l).
  Proof.
    induction l as [|y l IH]; cbn [insert]; intros H.
    - repeat constructor.
    - apply StronglySorted_inv in H as [Hs Hf].
      destruct (le x y) eqn:Hxy.
      + constructor; [constructor; auto|].
        constructor; [exact Hxy|].
        eapply Forall_impl; [|exact Hf]. intros z Hz. eapply le_trans; [exact Hxy|exact Hz].
      + constructor; [auto|].
        apply Forall_forall. intros z Hz.
        apply (Permutation_in _ (Permutation_sym (insert_perm x l))) in Hz.
        destruct Hz as [<-|Hz]; [apply le_total; exact Hxy|].
        rewrite Forall_forall in Hf; auto.
  Qed.

  Lemma isort_sorted l : StronglySorted leP (isort l).
  Proof. induction l as [|x l IH]; cbn [isort]; [constructor|now apply insert_sorted]. Qed.

  Lemma insert_id x l : Forall (fun y => le x y = true) l -> insert x l = x :: l.
  Proof. destruct l as [|y l]; intros H; cbn [insert]; [reflexivity|]. inversion H; subst. now rewrite H2. Qed.

  (** sorting a sorted list changes nothing *)
  Lemma isort_id l : StronglySorted leP l -> isort l = l.
  Proof.
    induction l as [|x l IH]; intros H; cbn [isort]; [reflexivity|].
    apply StronglySorted_inv in H as [Hs Hf]. rewrite IH by assumption.
    apply insert_id. exact Hf.
  Qed.

  Lemma isort_idem l : isort (isort l) = isort l.
  Proof. apply isort_id, isort_sorted. Qed.

  (** stability: for every element [k], the subsequence of elements equivalent to [k] is preserved *)
  Definition eqv k x := le k x && le x k.
  Lemma insert_stable k x l :
    StronglySorted leP l ->
    filter (eqv k) (insert x l) = filter (eqv k) (x :: l).
  Proof.
    induction l as [|y l IH]; intros Hs; cbn [insert]; [reflexivity|].
    apply StronglySorted_inv in Hs as [Hs Hf].
    destruct (le x y) eqn:Hxy; [reflexivity|].
    change (filter (eqv k) (y :: insert x l)) with
      (if eqv k y then y :: filter (eqv k) (insert x l) else filter (eqv k) (insert x l)).
    rewrite IH by assumption. cbn [filter].
    destruct (eqv k x) eqn:Hx, (eqv k y) eqn:Hy; try reflexivity.
    exfalso. unfold eqv in *. apply andb_true_iff in Hx as [H1 H2], Hy as [H3 H4].
    rewrite (le_trans _ _ _ H2 H3) in Hxy. discriminate.
  Qed.

  Lemma isort_stable k l : filter (eqv k) (isort l) = filter (eqv k) l.
  Proof.
    induction l as [|x l IH]; cbn [isort]; [reflexivity|].
    rewrite insert_stable by apply isort_sorted. cbn [filter]. now rewrite IH.
  Qed.
End Sort.

Lemma isort_map {A B} (leA : A -> A -> bool) (leB : B -> B -> bool) (f : A -> B) l :
  (forall x y, leA x y = leB (f x) (f y)) -> map f (isort leA l) = isort leB (map f l).
Proof.
  intros H. induction l as [|x l IH]; cbn [isort map]; [reflexivity|].
  rewrite <- IH. generalize (isort leA l) as s. clear IH.
  induction s as [|y s IH]; cbn [insert map]; [reflexivity|].
  rewrite <- H. destruct (leA x y); cbn [map]; [reflexivity|]. now rewrite IH.
Qed.

(** Comparison of Python sort keys. [key_le k x y] compares integer keys. *)
Definition zkey_le {A} (k : A -> Z) (x y : A) : bool := k x <=? k y.

Lemma zkey_le_total {A} (k : A -> Z) x y : zkey_le k x y = false -> zkey_le k y x = true.
Proof. unfold zkey_le; lia. Qed.
Lemma zkey_le_trans {A} (k : A -> Z) x y z : zkey_le k x y = true -> zkey_le k y z = true -> zkey_le k x z = true.
Proof. unfold zkey_le; lia. Qed.

(** A three-way comparison that is a total order on keys. *)
Record is_cmp {K} (cmp : K -> K -> comparison) : Prop := {
  cmp_refl_eq : forall x y, cmp x y = Eq <-> x = y;
  cmp_antisym : forall x y, cmp y x = CompOpp (cmp x y);
  cmp_trans : forall x y z, cmp x y = Lt -> cmp y z = Lt -> cmp x z = Lt }.

Definition cmp_le {K} (cmp : K -> K -> comparison) (x y : K) : bool :=
  match cmp x y with Gt => false | _ => true end.

Lemma cmp_le_total {K} (cmp : K -> K -> comparison) : is_cmp cmp -> forall x y, cmp_le cmp x y = false -> cmp_le cmp y x = true.
Proof.
  intros H x y. unfold cmp_le. rewrite (cmp_antisym _ H x y). destruct (cmp x y); simpl; congruence.
Qed.
Lemma cmp_le_trans {K} (cmp : K -> K -> comparison) : is_cmp cmp ->
  forall x y z, cmp_le cmp x y = true -> cmp_le cmp y z = true -> cmp_le cmp x z = true.
Proof.
  intros H x y z. unfold cmp_le.
  destruct (cmp x y) eqn:H1, (cmp y z) eqn:H2; try congruence; intros _ _.
  - apply (cmp_refl_eq _ H) in H1, H2. subst. replace (cmp z z) with Eq; [reflexivity|].
    symmetry; now apply (cmp_refl_eq _ H).
  - apply (cmp_refl_eq _ H) in H1. subst. now rewrite H2.
  - apply (cmp_refl_eq _ H) in H2. subst. now rewrite H1.
  - now rewrite (cmp_trans _ H _ _ _ H1 H2).
Qed.
Lemma cmp_le_antisym {K} (cmp : K -> K -> comparison) : is_cmp cmp ->
  forall x y, cmp_le cmp x y = true -> cmp_le cmp y x = true -> x = y.
Proof.
  intros H x y. unfold cmp_le. rewrite (cmp_antisym _ H x y).
  destruct (cmp x y) eqn:H1; simpl; try congruence. intros _ _. now apply (cmp_refl_eq _ H).
Qed.

Definition pair_cmp {K L} (c1 : K -> K -> comparison) (c2 : L -> L -> comparison) (x y : K * L) : comparison :=
  match c1 (fst x) (fst y) with Eq => c2 (snd x) (snd y) | r => r end.

Lemma pair_cmp_is {K L} (c1 : K -> K -> comparison) (c2 : L -> L -> comparison) :
  is_cmp c1 -> is_cmp c2 -> is_cmp (pair_cmp c1 c2).
Proof.
  intros H1 H2. constructor.
  - intros [a b] [c d]; unfold pair_cmp; cbn [fst snd].
    destruct (c1 a c) eqn:Hc.
    + apply (cmp_refl_eq _ H1) in Hc; subst. rewrite (cmp_refl_eq _ H2). split; [congruence|].
      intros H; inversion H; auto.
    + split; [discriminate|]. intros H; inversion H; subst.
      assert (c1 c c = Eq) by now apply (cmp_refl_eq _ H1). congruence.
    + split; [discriminate|]. intros H; inversion H; subst.
      assert (c1 c c = Eq) by now apply (cmp_refl_eq _ H1). congruence.
  - intros [a b] [c d]; unfold pair_cmp; cbn [fst snd].
    rewrite (cmp_antisym _ H1 a c). destruct (c1 a c); simpl; auto. apply (cmp_antisym _ H2).
  - intros [a b] [c d] [e f]; unfold pair_cmp; cbn [fst snd].
    destruct (c1 a c) eqn:Hac; try discriminate.
    + apply (cmp_refl_eq _ H1) in Hac; subst. destruct (c1 c e); try congruence.
      apply (cmp_trans _ H2).
    + intros _. destruct (c1 c e) eqn:Hce; try discriminate.
      * apply (cmp_refl_eq _ H1) in Hce; subst. now rewrite Hac.
      * now rewrite (cmp_trans _ H1 _ _ _ Hac Hce).
Qed.

Lemma Z_cmp_is : is_cmp Z.compare.
Proof.
  constructor.
  - intros; apply Z.compare_eq_iff.
  - intros; apply Z.compare_antisym.
  - intros x y z; rewrite !Z.compare_lt_iff; lia.
Qed.

(** Python compares strings by code points; on UTF-8 bytes that is byte-wise lexicographic order. *)
Fixpoint str_cmp (s t : string) : comparison :=
  match s, t with
  | EmptyString, EmptyString => Eq
  | EmptyString, _ => Lt
  | _, EmptyString => Gt
  | String a s', String b t' =>
      match N.compare (N_of_ascii a) (N_of_ascii b) with Eq => str_cmp s' t' | r => r end
  end.

Lemma N_of_ascii_inj a b : N_of_ascii a = N_of_ascii b -> a = b.
Proof. intros H. rewrite <- (ascii_N_embedding a), <- (ascii_N_embedding b). now f_equal. Qed.

Lemma str_cmp_is : is_cmp str_cmp.
Proof.
  constructor.
  - induction x as [|a x IH]; intros [|b y]; cbn [str_cmp]; try (split; congruence).
    destruct (N.compare_spec (N_of_ascii a) (N_of_ascii b)) as [H|H|H].
    + apply N_of_ascii_inj in H; subst. rewrite IH. split; congruence.
    + split; [discriminate|]. intros He; inversion He; subst; lia.
    + split; [discriminate|]. intros He; inversion He; subst; lia.
  - induction x as [|a x IH]; intros [|b y]; cbn [str_cmp]; try reflexivity.
    rewrite (N.compare_antisym (N_of_ascii a)). destruct (N.compare _ _); simpl; auto.
  - induction x as [|a x IH]; intros [|b y] [|c z]; cbn [str_cmp]; try congruence.
    destruct (N.compare_spec (N_of_ascii a) (N_of_ascii b)) as [H1|H1|H1]; try discriminate.
    + rewrite H1. destruct (N.compare (N_of_ascii b) (N_of_ascii c)); try congruence. apply IH.
    + intros _. destruct (N.compare_spec (N_of_ascii b) (N_of_ascii c)) as [H2|H2|H2]; try discriminate.
      * intros _. rewrite <- H2. apply N.compare_lt_iff in H1. now rewrite H1.
      * intros _. assert (H3 : (N_of_ascii a < N_of_ascii c)%N) by lia.
        apply N.compare_lt_iff in H3. now rewrite H3.
Qed.

Definition option_eqb {A} (eqb : A -> A -> bool) (x y : option A) : bool :=
  match x, y with Some a, Some b => eqb a b | None, None => true | _, _ => false end.

Definition or_if_none {A} (a b : option A) : option A := (* process.py:55-56 *)
  match a with Some _ => a | None => b end.

Definition default {A} (d : A) (o : option A) : A := match o with Some a => a | None => d end.
Definition is_some {A} (o : option A) : bool := match o with Some _ => true | None => false end.
Definition obind {A B} (o : option A) (f : A -> option B) : option B := match o with Some a => f a | None => None end.

(** [range(a, b)] *)
Definition zrange (a b : Z) : list Z := map (fun i => a + Z.of_nat i) (seq 0 (Z.to_nat (b - a))).

Lemma zrange_in a b x : In x (zrange a b) <-> a <= x < b.
Proof.
  unfold zrange. rewrite in_map_iff. split.
  - intros (i & <- & Hi). apply in_seq in Hi. lia.
  - intros H. exists (Z.to_nat (x - a)). split; [lia|]. apply in_seq. lia.
Qed.

Lemma zrange_length a b : length (zrange a b) = Z.to_nat (b - a).
Proof. unfold zrange. now rewrite map_length, seq_length. Qed.

Lemma zrange_nodup a b : NoDup (zrange a b).
Proof.
  unfold zrange. apply FinFun.Injective_map_NoDup; [|apply seq_NoDup].
  intros x y H; lia.
Qed.

Lemma StronglySorted_map {A B} (R : B -> B -> Prop) (f : A -> B) l :
  StronglySorted (fun x y => R (f x) (f y)) l -> StronglySorted R (map f l).
Proof.
  induction l as [|x l IH]; intros H; cbn [map]; [constructor|].
  apply StronglySorted_inv in H as [H1 H2]. constructor; [auto|].
  rewrite Forall_map. exact H2.
Qed.

Lemma seq_sorted n m : StronglySorted lt (seq m n).
Proof.
  revert m; induction n as [|n IH]; intros m; cbn [seq]; constructor; auto.
  apply Forall_forall. intros x Hx. apply in_seq in Hx. lia.
Qed.

Lemma zrange_sorted a b : StronglySorted Z.lt (zrange a b).
Proof.
  unfold zrange. apply StronglySorted_map.
  generalize (Z.to_nat (b - a)) as n. intros n.
  assert (H := seq_sorted n 0). revert H. generalize (seq 0 n) as l.
  induction l as [|x l IH]; intros H; [constructor|].
  apply StronglySorted_inv in H as [H1 H2]. constructor; [auto|].
  eapply Forall_impl; [|exact H2]. simpl. lia.
Qed.

Lemma NoDup_app_intro {A} (l1 l2 : list A) :
  NoDup l1 -> NoDup l2 -> (forall x, In x l1 -> In x l2 -> False) -> NoDup (l1 ++ l2).
Proof.
  induction l1 as [|x l1 IH]; intros H1 H2 H; cbn [app]; [exact H2|].
  inversion H1; subst. constructor.
  - intros Hin. apply in_app_or in Hin as [Hin|Hin]; [contradiction|]. apply (H x); simpl; auto.
  - apply IH; auto. intros y Hy. apply H; simpl; auto.
Qed.
Lemma NoDup_app_inv {A} (l1 l2 : list A) :
  NoDup (l1 ++ l2) -> NoDup l1 /\ NoDup l2 /\ (forall x, In x l1 -> In x l2 -> False).
Proof.
  induction l1 as [|x l1 IH]; cbn [app]; intros H; [repeat split; auto; constructor|].
  inversion H; subst. destruct (IH H3) as (H4 & H5 & H6). repeat split; auto.
  - constructor; auto. intros Hin. apply H2, in_or_app; auto.
  - intros y [<-|Hy] Hy2; [apply H2, in_or_app; auto|eauto].
Qed.
