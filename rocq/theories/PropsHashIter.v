(** C103: which entries of a hash get their turn when a block may change the hash. *)
From Coq Require Import List Arith Bool Lia Permutation.
From Verif Require Import ModelIter ModelHashIter.
From Verif Require Base ModelHash.
Import ListNotations.

(** ** Vocabulary *)
Section Spec.
Variable V W X : Type.
Notation st := (hst V W).
Notation table := (vec (V * V)).
Variable same : V -> V -> bool.
Variable B : list V -> st -> bend V X -> st -> Prop.

(** the entries of the hash, in order *)
Definition held (s : st) : list (V * V) := firstn (used (tab s)) (slots (tab s)).

(** what a program can do to a hash *)
Inductive op := Assign (k v : V) | Delete (k : V) | Clear.
Definition apply (o : op) (t : table) : table :=
  match o with Assign k v => t_insert same t k v | Delete k => t_remove same t k | Clear => t_clear t end.
(** a run of such operations, each of which is allowed when it is done *)
Inductive edits (P : table -> op -> Prop) : table -> table -> Prop :=
| E_nil t : edits P t t
| E_cons t o t' : P t o -> edits P (apply o t) t' -> edits P t t'.
(** a hash a program can have *)
Definition built (s : st) : Prop := edits (fun _ _ => True) (mkvec 0 [] 0) (tab s).
(** the block does nothing else to the hash, however it ends; [P] may depend on its arguments *)
Definition acts (P : list V -> table -> op -> Prop) : Prop :=
  forall l s o s', B l s o s' -> edits (P l) (tab s) (tab s').
(** assignments; assignments to keys the hash has; and deletions of the key the block was called with *)
Definition assignment (_ : list V) (_ : table) (o : op) : Prop := match o with Assign _ _ => True | _ => False end.
Definition to_present (_ : list V) (t : table) (o : op) : Prop :=
  match o with Assign k _ => exists e, In e (firstn (used t) (slots t)) /\ same k (fst e) = true | _ => False end.
Definition own_deletion (l : list V) (_ : table) (o : op) : Prop :=
  match o with Delete k => exists l', l = k :: l' | _ => False end.

(** A turn: the entry and the value the block gave. *)
Definition turn : Type := ((V * V) * V)%type.
(** Each of the first [n] positions gets a turn, in order, with the entry the hash has there when the turn comes. *)
Inductive turns (args : V * V -> list V) (n : nat) : nat -> st -> list turn -> option X -> st -> Prop :=
| T_done i s : n <= i -> turns args n i s [] None s
| T_left i s e x s' : i < n -> nth_error (held s) i = Some e -> B (args e) s (Leaves x) s' -> turns args n i s [] (Some x) s'
| T_more i s e r s1 ts o s' : i < n -> nth_error (held s) i = Some e -> B (args e) s (Gives r) s1 ->
    turns args n (S i) s1 ts o s' -> turns args n i s ((e, r) :: ts) o s'.
(** Calls of the block for given entries, one after the other. *)
Inductive chain (args : V * V -> list V) : st -> list turn -> st -> Prop :=
| Ch_nil s : chain args s [] s
| Ch_cons s e r s1 ts s' : B (args e) s (Gives r) s1 -> chain args s1 ts s' -> chain args s ((e, r) :: ts) s'.
(** The block is called exactly once for each of the entries [l], in order, or until it is left; [g]: what the method gives. *)
Definition each_once (args : V * V -> list V) (g : list turn -> hgiven V) (l : list (V * V)) (s : st) (r : mend (hgiven V) X) (s' : st) : Prop :=
  (exists ts, map fst ts = l /\ chain args s ts s' /\ r = Normal (g ts)) \/
  (exists ts e post x s1, map fst ts ++ e :: post = l /\ chain args s ts s1 /\ B (args e) s1 (Leaves x) s' /\ r = Out x).
(** what select and reject keep *)
Variable truthy : V -> bool.
Definition kept (want : bool) (ts : list turn) : list (V * V) := map fst (filter (fun t => Bool.eqb (truthy (snd t)) want) ts).
(** how a method ends: it gives [g] of the turns, or the block was left *)
Definition outcome (g : list turn -> hgiven V) (ts : list turn) (o : option X) : mend (hgiven V) X :=
  match o with None => Normal (g ts) | Some x => Out x end.
End Spec.
Arguments held {V W}. Arguments Assign {V}. Arguments Delete {V}. Arguments Clear {V}. Arguments apply {V}. Arguments edits {V}.
Arguments built {V W}. Arguments acts {V W X}. Arguments to_present {V}. Arguments own_deletion {V}.
Arguments assignment {V}.
Arguments turns {V W X}. Arguments chain {V W X}. Arguments each_once {V W X}. Arguments kept {V}. Arguments outcome {V X}.

(** ** The table *)
Section Table.
Context {V : Type}.
Notation table := (vec (V * V)).
Variable same : V -> V -> bool.
Notation apply := (apply same).
Notation edits := (edits same).

Lemma put_length {A} (l : list A) i v : length (put l i v) = length l.
Proof. revert i. induction l as [|x l IH]; intros [|i]; cbn; auto. Qed.
Lemma put_at {A} (l : list A) i v : i < length l -> nth_error (put l i v) i = Some v.
Proof. revert i. induction l as [|x l IH]; intros [|i] H; cbn in *; try lia; auto. apply IH. lia. Qed.
Lemma put_other {A} (l : list A) i j v : i <> j -> nth_error (put l i v) j = nth_error l j.
Proof. revert i j. induction l as [|x l IH]; intros [|i] [|j] H; cbn; auto; congruence. Qed.
Lemma put_beyond {A} (l : list A) i v : length l <= i -> put l i v = l.
Proof. revert i. induction l as [|x l IH]; intros [|i] H; cbn in *; try lia; auto. rewrite IH by lia. reflexivity. Qed.
Lemma put_firstn {A} (l : list A) i v n : i < n -> firstn n (put l i v) = put (firstn n l) i v.
Proof.
  revert i n. induction l as [|x l IH]; intros [|i] [|n] H; cbn; auto; try lia. rewrite IH by lia. reflexivity.
Qed.
Lemma put_split {A} (a : list A) x b v : put (a ++ x :: b) (length a) v = a ++ v :: b.
Proof. induction a as [|y a IH]; cbn; [reflexivity|]. rewrite IH. reflexivity. Qed.
Lemma put_end {A} (a : list A) n x v : length a = n -> put (a ++ [x]) n v = a ++ [v].
Proof. intros <-. apply put_split. Qed.

Lemma position_some k l i : position same k l = Some i ->
  exists a e b, l = a ++ e :: b /\ length a = i /\ same k (fst e) = true /\ (forall x, In x a -> same k (fst x) = false).
Proof.
  revert i. induction l as [|e l IH]; intros i H; cbn in H; [discriminate|].
  destruct (same k (fst e)) eqn:E.
  - injection H as <-. exists [], e, l. repeat split; auto. intros x [].
  - destruct (position same k l) as [j|] eqn:P; [|discriminate]. injection H as <-.
    destruct (IH j eq_refl) as (a & e' & b & -> & L & S1 & N). exists (e :: a), e', b. cbn. rewrite L. repeat split; auto.
    intros x [<-|Hx]; auto.
Qed.
Lemma position_none k (l : list (V * V)) : position same k l = None -> forall x, In x l -> same k (fst x) = false.
Proof.
  induction l as [|e l IH]; intros H x Hx; [destruct Hx|]. cbn in H. destruct (same k (fst e)) eqn:E; [discriminate|].
  destruct (position same k l) eqn:P; [discriminate|]. destruct Hx as [<-|Hx]; auto.
Qed.
Definition fit (t : table) : Prop := used t <= length (slots t).
Lemma in_use_length (t : table) : fit t -> length (in_use t) = used t.
Proof. intros F. unfold in_use. rewrite firstn_length. unfold fit in F. lia. Qed.
Lemma in_use_nth (t : table) i : i < used t -> nth_error (in_use t) i = nth_error (slots t) i.
Proof.
  unfold in_use. generalize (used t), (slots t). intros n l. revert i n. induction l as [|x l IH]; intros i n H.
  - rewrite firstn_nil. reflexivity.
  - destruct n as [|n]; [lia|]. destruct i as [|i]; cbn; auto. apply IH. lia.
Qed.
Lemma position_used t k i : fit t -> position same k (in_use t) = Some i -> i < used t.
Proof.
  intros F H. destruct (position_some _ _ _ H) as (a & e & b & E & L & _). rewrite <- (in_use_length t F), E, app_length. cbn. lia.
Qed.

(** what the operations do to the entries *)
Lemma insert_present t k v a e b : fit t -> in_use t = a ++ e :: b -> same k (fst e) = true -> (forall x, In x a -> same k (fst x) = false) ->
  t_insert same t k v = mkvec (place t) (put (slots t) (length a) (fst e, v)) (used t) /\ in_use (t_insert same t k v) = a ++ (fst e, v) :: b.
Proof.
  intros F E S1 N. assert (P : position same k (in_use t) = Some (length a)).
  { rewrite E. clear E. induction a as [|x a IH]; cbn; [rewrite S1; reflexivity|]. rewrite (N x) by (left; reflexivity).
    rewrite IH; [reflexivity|]. intros y Hy. apply N. right. exact Hy. }
  pose proof (position_used t k _ F P) as LT. unfold t_insert. rewrite P.
  assert (NE : nth_error (slots t) (length a) = Some e).
  { rewrite <- in_use_nth by exact LT. rewrite E, nth_error_app2, Nat.sub_diag by lia. reflexivity. }
  rewrite NE. split; [reflexivity|]. unfold in_use. cbn. rewrite put_firstn by exact LT. fold (in_use t). rewrite E. apply put_split.
Qed.
Lemma insert_absent t k v : fit t -> (forall x, In x (in_use t) -> same k (fst x) = false) ->
  t_insert same t k v = vpush t (k, v) /\ in_use (t_insert same t k v) = in_use t ++ [(k, v)].
Proof.
  intros F N. assert (P : position same k (in_use t) = None).
  { induction (in_use t) as [|x a IH]; cbn; [reflexivity|]. rewrite (N x) by (left; reflexivity).
    rewrite IH; [reflexivity|]. intros y Hy. apply N. right. exact Hy. }
  unfold t_insert. rewrite P. split; [reflexivity|]. unfold vpush. destruct (used t <? length (slots t)) eqn:E.
  - apply Nat.ltb_lt in E. unfold in_use. cbn [used slots]. rewrite put_firstn by lia.
    assert (H : firstn (S (used t)) (slots t) = firstn (used t) (slots t) ++ firstn 1 (skipn (used t) (slots t))).
    { rewrite <- (firstn_skipn (used t) (slots t)) at 1. rewrite firstn_app, firstn_firstn, firstn_length.
      replace (min (S (used t)) (used t)) with (used t) by lia. replace (S (used t) - min (used t) (length (slots t))) with 1 by lia. reflexivity. }
    rewrite H. destruct (skipn (used t) (slots t)) as [|y r] eqn:EK.
    { assert (length (skipn (used t) (slots t)) = 0) by (rewrite EK; reflexivity). rewrite skipn_length in *. lia. }
    cbn [firstn]. apply put_end. rewrite firstn_length. lia.
  - apply Nat.ltb_ge in E. unfold in_use. cbn [used slots]. unfold fit in F.
    rewrite firstn_app, firstn_firstn, firstn_length. replace (min (S (used t)) (used t)) with (used t) by lia.
    replace (S (used t) - min (used t) (length (slots t))) with 1 by lia. cbn. reflexivity.
Qed.
Lemma remove_present t k a e b : fit t -> in_use t = a ++ e :: b -> same k (fst e) = true -> (forall x, In x a -> same k (fst x) = false) ->
  exists y, nth_error (slots t) (used t - 1) = Some y /\
  t_remove same t k = mkvec (place t) (put (slots t) (length a) y) (used t - 1) /\
  in_use (t_remove same t k) = a ++ match rev b with [] => [] | z :: r => z :: rev r end.
Proof.
  intros F E S1 N. assert (P : position same k (in_use t) = Some (length a)).
  { rewrite E. clear E. induction a as [|x a IH]; cbn; [rewrite S1; reflexivity|]. rewrite (N x) by (left; reflexivity).
    rewrite IH; [reflexivity|]. intros y Hy. apply N. right. exact Hy. }
  pose proof (position_used t k _ F P) as LT. unfold t_remove. rewrite P.
  assert (U : used t = length a + S (length b)) by (rewrite <- (in_use_length t F), E, app_length; reflexivity).
  destruct (nth_error (slots t) (used t - 1)) as [y|] eqn:NE.
  2: { apply nth_error_None in NE. unfold fit in F. lia. }
  exists y. split; [reflexivity|]. split; [reflexivity|]. unfold in_use. cbn [used slots].
  assert (HY : nth_error (in_use t) (used t - 1) = Some y) by (rewrite in_use_nth by lia; exact NE).
  assert (HP : firstn (used t - 1) (put (slots t) (length a) y) = firstn (used t - 1) (put (in_use t) (length a) y)).
  { unfold in_use. rewrite <- put_firstn by lia. rewrite firstn_firstn. f_equal. lia. }
  rewrite HP, E, put_split, firstn_app. rewrite firstn_all2 by lia. replace (used t - 1 - length a) with (length b) by lia. f_equal.
  destruct (rev b) as [|z r] eqn:RB.
  - apply (f_equal (@length _)) in RB. rewrite rev_length in RB. cbn in RB. rewrite RB. reflexivity.
  - assert (EB : b = rev r ++ [z]) by (rewrite <- (rev_involutive b), RB; reflexivity).
    rewrite E, nth_error_app2 in HY by lia. replace (used t - 1 - length a) with (length b) in HY by lia.
    rewrite EB in *. rewrite app_length in *. cbn [length] in *. replace (length (rev r) + 1) with (S (length (rev r))) in * by lia. cbn in HY.
    rewrite nth_error_app2, Nat.sub_diag in HY by lia. cbn in HY. injection HY as <-. cbn [firstn]. f_equal.
    rewrite firstn_app, Nat.sub_diag, firstn_all. cbn. apply app_nil_r.
Qed.
Lemma remove_absent (t : table) k : (forall x, In x (in_use t) -> same k (fst x) = false) -> t_remove same t k = t.
Proof.
  intros N. assert (P : position same k (in_use t) = None).
  { induction (in_use t) as [|x a IH]; cbn; [reflexivity|]. rewrite (N x) by (left; reflexivity).
    rewrite IH; [reflexivity|]. intros y Hy. apply N. right. exact Hy. }
  unfold t_remove. rewrite P. reflexivity.
Qed.
Lemma present_or_absent k (l : list (V * V)) : (exists a e b, l = a ++ e :: b /\ same k (fst e) = true /\ (forall x, In x a -> same k (fst x) = false)) \/
  (forall x, In x l -> same k (fst x) = false).
Proof.
  destruct (position same k l) as [i|] eqn:P.
  - left. destruct (position_some _ _ _ P) as (a & e & b & E & _ & S1 & N). exists a, e, b. auto.
  - right. exact (position_none _ _ P).
Qed.
Lemma fit_apply o t : fit t -> fit (apply o t).
Proof.
  intros F. destruct o as [k v|k|]; cbn.
  - destruct (present_or_absent k (in_use t)) as [(a & e & b & E & S1 & N)|N].
    + rewrite (proj1 (insert_present t k v a e b F E S1 N)). unfold fit. cbn. rewrite put_length. exact F.
    + rewrite (proj1 (insert_absent t k v F N)). unfold vpush. destruct (used t <? length (slots t)) eqn:L; unfold fit; cbn.
      * rewrite put_length. apply Nat.ltb_lt in L. lia.
      * rewrite app_length, firstn_length. cbn. rewrite repeat_length. lia.
  - destruct (present_or_absent k (in_use t)) as [(a & e & b & E & S1 & N)|N].
    + destruct (remove_present t k a e b F E S1 N) as (y & _ & R & _). rewrite R. unfold fit in *. cbn. rewrite put_length. lia.
    + rewrite (remove_absent t k N). exact F.
  - unfold fit. cbn. lia.
Qed.
(** no two entries have the same key *)
Definition apart (l : list (V * V)) : Prop := ForallOrdPairs (fun a b => same (fst a) (fst b) = false) l.
Hypothesis same_refl : forall a, same a a = true.
Hypothesis same_sym : forall a b, same a b = same b a.
Hypothesis same_trans : forall a b c, same a b = true -> same b c = true -> same a c = true.
Lemma apart_app a b : apart (a ++ b) <-> apart a /\ apart b /\ (forall x y, In x a -> In y b -> same (fst x) (fst y) = false).
Proof.
  unfold apart. induction a as [|x a IH]; cbn.
  - split; [|tauto]. intros H. split; [constructor|]. split; [exact H|]. intros x y [].
  - split.
    + intros H. inversion H as [|? ? F1 F2]; subst. apply IH in F2. destruct F2 as (Ha & Hb & Hab).
      rewrite Forall_forall in F1. split; [constructor; [apply Forall_forall; intros z Hz; apply F1, in_or_app; auto|exact Ha]|].
      split; [exact Hb|]. intros u w [<-|Hu] Hw; [apply F1, in_or_app; auto|auto].
    + intros (Ha & Hb & Hab). inversion Ha as [|? ? F1 F2]; subst. constructor.
      * apply Forall_forall. intros z Hz. apply in_app_or in Hz. rewrite Forall_forall in F1. destruct Hz; auto.
      * apply IH. auto.
Qed.
Lemma apart_perm l l' : Permutation l l' -> apart l -> apart l'.
Proof.
  intros P. induction P as [|x l l' P IH|x y l|l1 l2 l3 P1 IH1 P2 IH2]; auto; intros H.
  - inversion H as [|? ? F1 F2]; subst. constructor; [|apply IH; exact F2]. rewrite Forall_forall in *. intros z Hz. apply F1.
    apply Permutation_in with l'; [apply Permutation_sym; exact P|exact Hz].
  - inversion H as [|? ? F1 F2]; subst. inversion F2 as [|? ? F3 F4]; subst. inversion F1; subst.
    constructor; [constructor; [rewrite same_sym; assumption|assumption]|]. constructor; assumption.
Qed.
Lemma gap_perm (b : list (V * V)) : Permutation b (match rev b with [] => [] | z :: r => z :: rev r end).
Proof.
  destruct (rev b) as [|z r] eqn:RB.
  - apply (f_equal (@rev _)) in RB. rewrite rev_involutive in RB. rewrite RB. constructor.
  - assert (EB : b = rev r ++ [z]) by (rewrite <- (rev_involutive b), RB; reflexivity). rewrite EB.
    apply Permutation_sym, Permutation_cons_append.
Qed.
Lemma remove_perm t k a e b : fit t -> in_use t = a ++ e :: b -> same k (fst e) = true -> (forall x, In x a -> same k (fst x) = false) ->
  Permutation (in_use t) (e :: in_use (t_remove same t k)).
Proof.
  intros F E S1 N. destruct (remove_present t k a e b F E S1 N) as (y & _ & _ & ->). rewrite E.
  apply Permutation_trans with (e :: a ++ b).
  - apply Permutation_sym, Permutation_middle.
  - constructor. apply Permutation_app_head, gap_perm.
Qed.
Lemma apart_apply o t : fit t -> apart (in_use t) -> apart (in_use (apply o t)).
Proof.
  intros F A. destruct o as [k v|k|]; cbn.
  - destruct (present_or_absent k (in_use t)) as [(a & e & b & E & S1 & N)|N].
    + rewrite (proj2 (insert_present t k v a e b F E S1 N)). rewrite E in A. apply apart_app in A. destruct A as (A1 & A2 & A3).
      inversion A2 as [|? ? F1 F2]; subst. apply apart_app. split; [exact A1|]. split; [constructor; [|exact F2]|].
      * rewrite Forall_forall in *. intros z Hz. exact (F1 z Hz).
      * intros x y Hx [<-|Hy]; cbn; [apply (A3 x e); [exact Hx|left; reflexivity]|apply A3; [exact Hx|right; exact Hy]].
    + rewrite (proj2 (insert_absent t k v F N)). apply apart_app. split; [exact A|]. split; [repeat constructor|].
      intros x y Hx [<-|[]]. cbn. rewrite same_sym. apply N, Hx.
  - destruct (present_or_absent k (in_use t)) as [(a & e & b & E & S1 & N)|N].
    + pose proof (remove_perm t k a e b F E S1 N) as P. apply (apart_perm _ _ P) in A. inversion A; assumption.
    + rewrite (remove_absent t k N). exact A.
  - unfold in_use, t_clear. cbn. constructor.
Qed.
Lemma edits_keep (P : table -> op V -> Prop) t t' : edits P t t' -> fit t /\ apart (in_use t) -> fit t' /\ apart (in_use t').
Proof. intros E. induction E as [|t o t' H E IH]; intros [F A]; [auto|]. apply IH. split; [apply fit_apply, F|apply apart_apply; assumption]. Qed.
Lemma edits_fit (P : table -> op V -> Prop) t t' : edits P t t' -> fit t -> fit t'.
Proof. intros E. induction E as [|t o t' H E IH]; intros F; [auto|]. apply IH, fit_apply, F. Qed.
End Table.

(** ** The loops *)
Section Loops.
Context {V W X : Type}.
Notation st := (hst V W).
Variable same : V -> V -> bool.
Hypothesis same_refl : forall a, same a a = true.
Hypothesis same_sym : forall a b, same a b = same b a.
Variable truthy : V -> bool.
Variable B : list V -> st -> bend V X -> st -> Prop.
Definition fold {A} (step : A -> V * V -> V -> A) (ts : list (turn V)) (a : A) : A := fold_left (fun a t => step a (fst t) (snd t)) ts a.
Definition close {A} (step : A -> V * V -> V -> A) (a : A) (ts : list (turn V)) (o : option X) : mend A X :=
  match o with None => Normal (fold step ts a) | Some x => Out x end.

Lemma built_ok (s : st) : built same s -> fit (tab s) /\ apart same (in_use (tab s)).
Proof. intros H. apply (edits_keep same same_sym _ _ _ H). split; [unfold fit; cbn; lia|constructor]. Qed.
Lemma held_length (s : st) : fit (tab s) -> length (held s) = used (tab s).
Proof. exact (in_use_length (tab s)). Qed.
Lemma held_nth (s : st) i : i < used (tab s) -> nth_error (held s) i = nth_error (slots (tab s)) i.
Proof. exact (in_use_nth (tab s) i). Qed.

(** assignments *)
Lemma assign_keeps l t t' : edits same (assignment l) t t' -> fit t -> fit t' /\ used t <= used t' /\
  (exists more, map fst (in_use t') = map fst (in_use t) ++ more).
Proof.
  intros E. induction E as [t|t o t' H E IH]; intros F.
  - split; [exact F|]. split; [lia|]. exists []. rewrite app_nil_r. reflexivity.
  - destruct o as [k v|k|]; cbn in H; try contradiction. cbn [apply] in IH. destruct (IH (fit_apply same (Assign k v) t F)) as (F' & U & m & M).
    split; [exact F'|].
    destruct (present_or_absent same k (in_use t)) as [(a & e & b & E1 & S1 & N)|N].
    + destruct (insert_present same t k v a e b F E1 S1 N) as (I1 & I2). rewrite I1 in U. cbn in U. split; [exact U|].
      exists m. rewrite M, I2, E1, !map_app. reflexivity.
    + destruct (insert_absent same t k v F N) as (I1 & I2). rewrite I2, map_app, <- app_assoc in M. split; [|eexists; exact M].
      pose proof (in_use_length _ (fit_apply same (Assign k v) t F)) as L1. cbn [apply] in L1. rewrite I2, app_length, (in_use_length t F) in L1. cbn in L1. lia.
Qed.
Lemma present_keeps l t t' : edits same (to_present same l) t t' -> fit t ->
  fit t' /\ place t' = place t /\ used t' = used t /\ map fst (in_use t') = map fst (in_use t).
Proof.
  intros E. induction E as [t|t o t' H E IH]; intros F; [auto|].
  destruct o as [k v|k|]; cbn in H; try contradiction. destruct H as (e0 & I0 & S0). fold (in_use t) in I0.
  destruct (IH (fit_apply same (Assign k v) t F)) as (F' & P & U & M). cbn [apply] in *.
  destruct (present_or_absent same k (in_use t)) as [(a & e & b & E1 & S1 & N)|N].
  - destruct (insert_present same t k v a e b F E1 S1 N) as (I1 & I2). rewrite I2 in M. rewrite I1 in P, U. cbn in P, U.
    rewrite M, E1, !map_app. auto.
  - rewrite (N e0 I0) in S0. discriminate.
Qed.

Lemma loop_turns {A} (args : V * V -> list V) (step : A -> V * V -> V -> A) p n : acts same B (to_present same) ->
  forall i a (s : st) o s', fit (tab s) -> place (tab s) = p -> used (tab s) = n ->
  h_loop B p n args step i a s o s' <-> exists ts e, turns B args n i s ts e s' /\ o = close step a ts e.
Proof.
  intros AC i a s o s' F P U. split.
  - intros H. induction H as [i a s L|i a s L P'|i a s e x s' L _ N HB|i a s e r s1 o s' L _ N HB _ IH].
    + exists [], None. split; [constructor; exact L|reflexivity].
    + contradiction.
    + exists [], (Some x). split; [|reflexivity]. apply T_left with e; auto. rewrite held_nth by lia. exact N.
    + destruct (present_keeps _ _ _ (AC _ _ _ _ HB) F) as (F1 & P1 & U1 & _). destruct IH as (ts & e' & T & ->); try congruence; auto.
      exists ((e, r) :: ts), e'. split; [|reflexivity]. apply T_more with s1; auto. rewrite held_nth by lia. exact N.
  - intros (ts & e & T & ->). revert a. induction T as [i s L|i s e x s' L N HB|i s e r s1 ts o' s' L N HB T IH]; intros a.
    + apply H_end. exact L.
    + cbn. rewrite held_nth in N by lia. apply H_out with e; auto.
    + destruct (present_keeps _ _ _ (AC _ _ _ _ HB) F) as (F1 & P1 & U1 & _). rewrite held_nth in N by lia.
      apply H_more with e r s1; auto. apply (IH F1); congruence.
Qed.
Lemma turns_keys (args : V * V -> list V) n : acts same B (to_present same) ->
  forall i (s : st) ts o s', fit (tab s) -> used (tab s) = n -> turns B args n i s ts o s' ->
  exists r, map (fun t => fst (fst t)) ts ++ r = skipn i (map fst (held s)).
Proof.
  intros AC i s ts o s' F U T. induction T as [i s L|i s e x s' L N HB|i s e r s1 ts o' s' L N HB T IH].
  - eexists; reflexivity.
  - eexists; reflexivity.
  - destruct (present_keeps _ _ _ (AC _ _ _ _ HB) F) as (F1 & _ & U1 & M). destruct IH as (q & Q); [exact F1|congruence|].
    exists q. cbn [map app fst]. rewrite Q. change (map fst (held s1)) with (map fst (in_use (tab s1))). rewrite M.
    change (in_use (tab s)) with (held s).
    apply (map_nth_error fst) in N. revert N. generalize (map fst (held s)). clear. intros l. revert i.
    induction l as [|x l IHl]; intros [|i] N; cbn in *; try discriminate; [congruence|]. apply IHl, N.
Qed.
Lemma loop_assign {A} (args : V * V -> list V) (step : A -> V * V -> V -> A) p n : acts same B assignment ->
  forall i a (s : st) o s', fit (tab s) -> n <= used (tab s) -> h_loop B p n args step i a s o s' ->
  (exists ts e, turns B args n i s ts e s' /\ o = close step a ts e) \/ (o = Wild /\ place (tab s') <> p).
Proof.
  intros AC i a s o s' F U H. induction H as [i a s L|i a s L P'|i a s e x s' L _ N HB|i a s e r s1 o s' L _ N HB _ IH].
  - left. exists [], None. split; [constructor; exact L|reflexivity].
  - right. auto.
  - left. exists [], (Some x). split; [|reflexivity]. apply T_left with e; auto. rewrite held_nth by lia. exact N.
  - destruct (assign_keeps _ _ _ (AC _ _ _ _ HB) F) as (F1 & U1 & _). destruct IH as [(ts & e' & T & ->)|Wd]; try lia; auto.
    left. exists ((e, r) :: ts), e'. split; [|reflexivity]. apply T_more with s1; auto. rewrite held_nth by lia. exact N.
Qed.

(** deletions of the key at hand *)
Lemma delete_keeps k0 l t t' t0 i : edits same (own_deletion (k0 :: l)) t t' -> fit t -> fit t0 -> apart same (in_use t0) -> i < used t0 ->
  (exists v, nth_error (slots t0) i = Some (k0, v)) -> place t = place t0 -> used t <= used t0 ->
  (forall j, i <= j -> nth_error (slots t) j = nth_error (slots t0) j) ->
  fit t' /\ place t' = place t0 /\ used t' <= used t0 /\ (forall j, i < j -> nth_error (slots t') j = nth_error (slots t0) j).
Proof.
  intros E F F0 A0 LI (v0 & N0) P0 U0 S0.
  assert (S1 : forall j, i < j -> nth_error (slots t) j = nth_error (slots t0) j) by (intros j Hj; apply S0; lia). clear S0.
  induction E as [t|t o t' H E IH]; [auto|].
  destruct o as [k v|k|]; cbn in H; try contradiction. destruct H as (l' & EL). injection EL as <- <-. cbn [apply] in *.
  destruct (present_or_absent same k0 (in_use t)) as [(a & e & b & E1 & SE & N)|N].
  - destruct (remove_present same t k0 a e b F E1 SE N) as (y & NY & R & _). rewrite R in *.
    assert (LA : length a <= i).
    { destruct (le_lt_dec (length a) i) as [|LT]; [assumption|exfalso].
      assert (LU : length a < used t) by (rewrite <- (in_use_length t F), E1, app_length; cbn; lia).
      assert (NE : nth_error (slots t) (length a) = Some e).
      { rewrite <- in_use_nth by exact LU. rewrite E1, nth_error_app2, Nat.sub_diag by lia. reflexivity. }
      rewrite S1 in NE by exact LT.
      rewrite <- in_use_nth in NE by lia. rewrite <- in_use_nth in N0 by lia.
      destruct (nth_error_split _ _ N0) as (u & w & EU & LU'). rewrite EU in A0, NE. apply apart_app in A0. destruct A0 as (_ & A2 & _).
      inversion A2 as [|? ? F1 _]; subst. rewrite Forall_forall in F1. cbn in F1.
      rewrite nth_error_app2 in NE by lia. destruct (length a - length u) as [|m] eqn:EM; [lia|]. cbn in NE. apply nth_error_In in NE.
      rewrite (F1 e NE) in SE. discriminate. }
    apply IH.
    + unfold fit in *. cbn. rewrite put_length. lia.
    + exact P0.
    + cbn. lia.
    + intros j Hj. cbn. rewrite put_other by lia. apply S1, Hj.
  - rewrite (remove_absent same t k0 N) in *. apply IH; assumption.
Qed.
Lemma skipn_nth {A} (l : list A) i e : nth_error l i = Some e -> skipn i l = e :: skipn (S i) l.
Proof. revert i. induction l as [|x l IH]; intros [|i] H; cbn in *; try discriminate; [congruence|]. apply IH, H. Qed.
Lemma loop_once {A} (args : V * V -> list V) (step : A -> V * V -> V -> A) (s0 : st) :
  acts same B own_deletion -> (forall e, exists l, args e = fst e :: l) -> fit (tab s0) -> apart same (in_use (tab s0)) ->
  forall i a (s : st) o s', fit (tab s) -> place (tab s) = place (tab s0) -> used (tab s) <= used (tab s0) ->
  (forall j, i <= j -> nth_error (slots (tab s)) j = nth_error (slots (tab s0)) j) ->
  h_loop B (place (tab s0)) (used (tab s0)) args step i a s o s' <->
  (exists ts, map fst ts = skipn i (held s0) /\ chain B args s ts s' /\ o = Normal (fold step ts a)) \/
  (exists ts e post x s1, map fst ts ++ e :: post = skipn i (held s0) /\ chain B args s ts s1 /\ B (args e) s1 (Leaves x) s' /\ o = Out x).
Proof.
  intros AC AR F0 A0. set (t0 := tab s0) in *.
  assert (KEY : forall i (s : st) e o s1, i < used t0 -> fit (tab s) -> place (tab s) = place t0 -> used (tab s) <= used t0 ->
    (forall j, i <= j -> nth_error (slots (tab s)) j = nth_error (slots t0) j) -> nth_error (slots (tab s)) i = Some e -> B (args e) s o s1 ->
    fit (tab s1) /\ place (tab s1) = place t0 /\ used (tab s1) <= used t0 /\ (forall j, S i <= j -> nth_error (slots (tab s1)) j = nth_error (slots t0) j) /\
    nth_error (held s0) i = Some e).
  { intros i s e o s1 L F P U S1 N HB. destruct (AR e) as (l & AE). pose proof (AC _ _ _ _ HB) as ED. rewrite AE in ED.
    rewrite S1 in N by lia. destruct (delete_keeps (fst e) l (tab s) (tab s1) t0 i ED F F0 A0 L) as (R1 & R2 & R3 & R4); auto.
    - exists (snd e). destruct e. exact N.
    - repeat split; auto. rewrite held_nth by exact L. exact N. }
  intros i a s o s' F P U S1. split.
  - intros H. induction H as [i a s L|i a s L P'|i a s e x s' L _ N HB|i a s e r s1 o s' L _ N HB _ IH].
    + left. exists []. split; [|split; [constructor|reflexivity]]. rewrite skipn_all2; [reflexivity|]. rewrite held_length by exact F0. exact L.
    + contradiction.
    + right. destruct (KEY i s e _ _ L F P U S1 N HB) as (_ & _ & _ & _ & NH). exists [], e, (skipn (S i) (held s0)), x, s.
      split; [cbn; symmetry; apply skipn_nth, NH|]. split; [constructor|]. auto.
    + destruct (KEY i s e _ _ L F P U S1 N HB) as (F1 & P1 & U1 & S2 & NH). rewrite (skipn_nth _ _ _ NH).
      destruct (IH F1 P1 U1 S2) as [(ts & E & C & ->)|(ts & e' & post & x & s2 & E & C & HL & ->)].
      * left. exists ((e, r) :: ts). split; [cbn [map fst]; rewrite E; reflexivity|]. split; [apply Ch_cons with s1; assumption|reflexivity].
      * right. exists ((e, r) :: ts), e', post, x, s2. split; [cbn [map fst app]; rewrite E; reflexivity|]. split; [apply Ch_cons with s1; assumption|auto].
  - assert (LEN : forall i ts (e : V * V) q, map fst (ts : list (turn V)) ++ e :: q = skipn i (held s0) -> i < used t0).
    { intros i0 ts e q E. apply (f_equal (@length _)) in E. rewrite skipn_length, app_length, (held_length s0 F0) in E. cbn in E. fold t0 in E. lia. }
    assert (NTH : forall i (e : V * V) q, e :: q = skipn i (held s0) -> i < used t0 -> nth_error (slots t0) i = Some e).
    { intros i0 e q E L. transitivity (nth_error (held s0) i0); [symmetry; apply held_nth, L|].
      rewrite <- (firstn_skipn i0 (held s0)), <- E, nth_error_app2; rewrite firstn_length, (held_length s0 F0); fold t0; [|lia].
      replace (i0 - min i0 (used t0)) with 0 by lia. reflexivity. }
    intros [(ts & E & C & ->)|(ts & e' & post & x & s2 & E & C & HL & ->)].
    + revert i a S1 E. induction C as [s|s e r s1 ts s' HB C IH]; intros i a S1 E.
      * apply H_end. symmetry in E. apply (f_equal (@length _)) in E. rewrite skipn_length, (held_length s0 F0) in E. cbn in E. fold t0 in E. lia.
      * cbn [map fst] in E. pose proof (LEN i [] e (map fst ts) E) as L.
        assert (NH : nth_error (slots t0) i = Some e).
        { eapply NTH; eassumption. }
        assert (N : nth_error (slots (tab s)) i = Some e) by (rewrite S1 by lia; exact NH).
        destruct (KEY i s e _ _ L F P U S1 N HB) as (F1 & P1 & U1 & S2 & NH'). rewrite (skipn_nth _ _ _ NH') in E. injection E as E.
        apply H_more with e r s1; auto. apply (IH F1 P1 U1 (S i) (step a e r) S2 E).
    + revert i a S1 E. induction C as [s|s e r s1 ts s2 HB C IH]; intros i a S1 E.
      * cbn [map fst app] in E. pose proof (LEN i [] e' post E) as L.
        assert (NH : nth_error (slots t0) i = Some e').
        { eapply NTH; eassumption. }
        apply H_out with e'; auto. rewrite S1 by lia. exact NH.
      * cbn [map fst app] in E. pose proof (LEN i [] e _ E) as L.
        assert (NH : nth_error (slots t0) i = Some e).
        { eapply NTH; eassumption. }
        assert (N : nth_error (slots (tab s)) i = Some e) by (rewrite S1 by lia; exact NH).
        destruct (KEY i s e _ _ L F P U S1 N HB) as (F1 & P1 & U1 & S2 & NH'). rewrite (skipn_nth _ _ _ NH') in E. injection E as E.
        apply H_more with e r s1; auto.
Qed.

(** the hash that select and reject build *)
Lemma ins_new m (e : V * V) : (forall x, In x m -> same (fst e) (fst x) = false) -> ins same m (fst e) (snd e) = m ++ [e].
Proof.
  induction m as [|x m IH]; intros N; cbn; [destruct e; reflexivity|]. rewrite (N x) by (left; reflexivity).
  rewrite IH; [reflexivity|]. intros y Hy. apply N. right. exact Hy.
Qed.
Definition distinct (l : list V) : Prop := ForallOrdPairs (fun a b => same a b = false) l.
Lemma fold_sel (c : V -> bool) ts : forall m, distinct (map fst m ++ map (fun t => fst (fst t)) ts) ->
  fold (fun m e r => if c r then ins same m (fst e) (snd e) else m) ts m = m ++ map fst (filter (fun t => c (snd t)) ts).
Proof.
  induction ts as [|[e r] ts IH]; intros m D; [symmetry; apply app_nil_r|].
  unfold fold in *. cbn [fold_left fst snd filter map] in *. destruct (c r).
  - rewrite ins_new.
    + rewrite IH; [rewrite <- app_assoc; reflexivity|]. rewrite map_app, <- app_assoc. exact D.
    + intros x Hx. rewrite same_sym. revert D. apply (in_map fst) in Hx. revert Hx. generalize (map fst m). clear. intros l Hx D.
      induction l as [|y l IH]; [destruct Hx|]. inversion D as [|? ? F1 F2]; subst. destruct Hx as [->|Hx]; [|apply IH; assumption].
      rewrite Forall_forall in F1. apply F1, in_or_app. right. left. reflexivity.
  - apply IH. revert D. clear. unfold distinct. induction (map fst m) as [|y l IH]; cbn; intros D.
    + inversion D; assumption.
    + inversion D as [|? ? F1 F2]; subst. constructor; [|apply IH, F2]. rewrite Forall_forall in *. intros z Hz. apply F1.
      apply in_app_or in Hz. apply in_or_app. destruct Hz; [left|right; right]; assumption.
Qed.
Lemma apart_distinct l : apart same l -> distinct (map fst l).
Proof.
  intros H. induction H as [|x l F1 F2 IH]; cbn; constructor; [|exact IH]. rewrite Forall_forall in *. intros y Hy.
  apply in_map_iff in Hy. destruct Hy as (z & <- & Hz). apply F1, Hz.
Qed.
Lemma distinct_prefix l r : distinct (l ++ r) -> distinct l.
Proof.
  unfold distinct. induction l as [|x l IH]; cbn; intros H; [constructor|]. inversion H as [|? ? F1 F2]; subst. constructor; [|apply IH, F2].
  rewrite Forall_forall in *. intros z Hz. apply F1, in_or_app. auto.
Qed.
End Loops.

(** ** C103 *)
Definition equality {V} (same : V -> V -> bool) : Prop := (forall a, same a a = true) /\ (forall a b, same a b = same b a).
Definition pair_args {V} (e : V * V) : list V := [fst e; snd e].

Lemma close_const {V X A} (step : A -> V * V -> V -> A) (f : A -> hgiven V) g a ts (o : option X) :
  (o = None -> f (fold step ts a) = g ts) ->
  match close step a ts o with Normal a => Normal (f a) | Out x => Out x | Panics => Panics | Wild => Wild end = outcome g ts o.
Proof. destruct o; cbn; intros H; [reflexivity|]. rewrite H; reflexivity. Qed.
Section Methods.
Context {V W X : Type}.
Variable same : V -> V -> bool.
Hypothesis EQ : equality same.
Variable truthy : V -> bool.
Variable B : list V -> hst V W -> bend V X -> hst V W -> Prop.
Lemma hover_turns {A} (args : V * V -> list V) (step : A -> V * V -> V -> A) f a0 g s r s' :
  built same s -> acts same B (to_present same) ->
  (forall ts, distinct same (map (fun t => fst (fst t)) ts) -> f (fold step ts a0) = g ts) ->
  hover B args step f a0 s r s' <-> exists ts o, turns B args (length (held s)) 0 s ts o s' /\ r = outcome g ts o.
Proof.
  intros BU AC G. destruct EQ as (_ & SY). destruct (built_ok same SY s BU) as (F & A0). rewrite (held_length s F).
  assert (D : forall ts o, turns B args (used (tab s)) 0 s ts o s' -> f (fold step ts a0) = g ts).
  { intros ts o T. apply G. destruct (turns_keys same B args _ AC 0 s ts o s' F eq_refl T) as (q & Q). cbn in Q.
    apply distinct_prefix with q. rewrite Q. apply apart_distinct, A0. }
  unfold hover. split.
  - intros (o & H & ->). apply (loop_turns same B args step _ _ AC) in H; auto. destruct H as (ts & e & T & ->).
    exists ts, e. split; [exact T|]. apply close_const. intros _. exact (D ts e T).
  - intros (ts & o & T & ->). exists (close step a0 ts o). split; [apply (loop_turns same B args step _ _ AC); eauto|].
    symmetry. apply close_const. intros _. exact (D ts o T).
Qed.
Lemma hover_once {A} (args : V * V -> list V) (step : A -> V * V -> V -> A) f a0 g s r s' :
  built same s -> acts same B own_deletion -> (forall e, exists l, args e = fst e :: l) ->
  (forall ts, distinct same (map (fun t => fst (fst t)) ts) -> f (fold step ts a0) = g ts) ->
  hover B args step f a0 s r s' <-> each_once B args g (held s) s r s'.
Proof.
  intros BU AC AR G. destruct EQ as (_ & SY). destruct (built_ok same SY s BU) as (F & A0).
  assert (D : forall ts : list (turn V), map fst ts = held s -> f (fold step ts a0) = g ts).
  { intros ts E. apply G. rewrite <- map_map, E. apply apart_distinct, A0. }
  assert (LO := fun o => loop_once same B args step s AC AR F A0 0 a0 s o s' F eq_refl (le_n _) (fun _ _ => eq_refl)). cbn [skipn] in LO.
  unfold hover, each_once. split.
  - intros (o & H & ->). apply LO in H. destruct H as [(ts & E & C & ->)|(ts & e & post & x & s1 & E & C & HL & ->)].
    + left. exists ts. rewrite (D ts E). auto.
    + right. exists ts, e, post, x, s1. auto.
  - intros [(ts & E & C & ->)|(ts & e & post & x & s1 & E & C & HL & ->)].
    + exists (Normal (fold step ts a0)). rewrite (D ts E). split; [|reflexivity]. apply LO. left. eauto.
    + exists (Out x). split; [|reflexivity]. apply LO. right. eauto 10.
Qed.
Lemma sel_result (want : bool) (ts : list (turn V)) : distinct same (map (fun t : turn V => fst (fst t)) ts) ->
  HNew (fold (fun (m : list (V * V)) (e : V * V) (r : V) => if (if want then truthy r else negb (truthy r)) then ins same m (fst e) (snd e) else m) ts []) = HNew (kept truthy want ts).
Proof.
  intros D. f_equal. rewrite (fold_sel same (proj2 EQ) (fun r => if want then truthy r else negb (truthy r)) ts []) by exact D.
  cbn [app]. unfold kept. f_equal. apply filter_ext. intros t. destruct want, (truthy (snd t)); reflexivity.
Qed.
End Methods.

(** A block that does nothing to the hash but assign to keys it has: every entry gets its turn once, in order,
    with the value it has at that moment. *)
Theorem C103_assignments : forall (V W X : Type) (same : V -> V -> bool) (truthy : V -> bool)
  (B : list V -> hst V W -> bend V X -> hst V W -> Prop) (s : hst V W) r s',
  equality same -> built same s -> acts same B (to_present same) ->
  let all args g := exists ts o, turns B args (length (held s)) 0 s ts o s' /\ r = outcome g ts o in
  (hash_each B s r s' <-> all pair_args (fun _ => HSelf)) /\
  (hash_each_key B s r s' <-> all (fun e => [fst e]) (fun _ => HSelf)) /\
  (hash_each_value B s r s' <-> all (fun e => [snd e]) (fun _ => HSelf)) /\
  (hash_select truthy same B s r s' <-> all pair_args (fun ts => HNew (kept truthy true ts))) /\
  (hash_reject truthy same B s r s' <-> all pair_args (fun ts => HNew (kept truthy false ts))).
Proof.
  intros V W X same truthy B s r s' EQ BU AC all.
  split; [|split; [|split; [|split]]]; apply (hover_turns same EQ); auto; intros ts D.
  - exact (sel_result same EQ truthy true ts D).
  - exact (sel_result same EQ truthy false ts D).
Qed.
Print Assumptions C103_assignments.

(** A block that does nothing to the hash but delete the key it was called with: it is called once for every entry there was. *)
Theorem C103_own_deletion : forall (V W X : Type) (same : V -> V -> bool) (truthy : V -> bool)
  (B : list V -> hst V W -> bend V X -> hst V W -> Prop) (s : hst V W) r s',
  equality same -> built same s -> acts same B own_deletion ->
  (hash_each B s r s' <-> each_once B pair_args (fun _ => HSelf) (held s) s r s') /\
  (hash_each_key B s r s' <-> each_once B (fun e => [fst e]) (fun _ => HSelf) (held s) s r s') /\
  (hash_select truthy same B s r s' <-> each_once B pair_args (fun ts => HNew (kept truthy true ts)) (held s) s r s') /\
  (hash_reject truthy same B s r s' <-> each_once B pair_args (fun ts => HNew (kept truthy false ts)) (held s) s r s').
Proof.
  intros V W X same truthy B s r s' EQ BU AC.
  split; [|split; [|split]]; apply (hover_once same EQ); auto; try (intros e; eexists; reflexivity); intros ts D.
  - exact (sel_result same EQ truthy true ts D).
  - exact (sel_result same EQ truthy false ts D).
Qed.
Print Assumptions C103_own_deletion.

(** h.each { |k, v| h.delete(k) if ... }: afterwards the hash has the other entries. *)
Lemma chain_deletes {V W X} (same : V -> V -> bool) (truthy : V -> bool) (B : list V -> hst V W -> bend V X -> hst V W -> Prop) :
  equality same ->
  (forall k v s r s1, B [k; v] s (Gives r) s1 -> tab s1 = (if truthy r then apply same (Delete k) (tab s) else tab s)) ->
  forall s ts s', chain B pair_args s ts s' -> fit (tab s) -> forall done,
  apart same (held s) -> Permutation (held s) (done ++ map fst ts) -> Permutation (held s') (done ++ kept truthy false ts).
Proof.
  intros (RE & SY) HB s ts s' C. induction C as [s|s [k v] r s1 ts s' Hc C IH]; intros F done A P; [exact P|].
  cbn [map fst] in P. pose proof (HB k v s r s1 Hc) as T. unfold kept. cbn [filter snd]. destruct (truthy r) eqn:TR; cbn [Bool.eqb].
  - cbn [apply] in T.
    assert (IN : In (k, v) (in_use (tab s))).
    { apply Permutation_in with (done ++ (k, v) :: map fst ts); [apply Permutation_sym; exact P|]. apply in_or_app. right. left. reflexivity. }
    destruct (present_or_absent same k (in_use (tab s))) as [(a & e & b & E1 & S1 & N)|N].
    2: { specialize (N _ IN). cbn in N. rewrite RE in N. discriminate. }
    assert (EE : e = (k, v)).
    { change (held s) with (in_use (tab s)) in A. rewrite E1 in A, IN. apply apart_app in A. destruct A as (_ & A2 & _).
      apply in_app_or in IN. destruct IN as [IN|[IN|IN]]; [specialize (N _ IN); cbn in N; rewrite RE in N; discriminate|exact IN|].
      inversion A2 as [|? ? F1 _]; subst. rewrite Forall_forall in F1. specialize (F1 _ IN). cbn in F1. rewrite SY, S1 in F1. discriminate. }
    subst e. pose proof (remove_perm same (tab s) k a (k, v) b F E1 S1 N) as RP. rewrite <- T in RP.
    apply IH.
    + rewrite T. apply (fit_apply same (Delete k)), F.
    + apply (apart_perm same SY _ _ RP) in A. inversion A; assumption.
    + apply (Permutation_cons_inv (a := (k, v))). apply Permutation_trans with (held s); [apply Permutation_sym; exact RP|].
      apply Permutation_trans with (1 := P). apply Permutation_sym, Permutation_middle.
  - assert (HE : held s1 = held s) by (unfold held; rewrite T; reflexivity).
    apply Permutation_trans with ((done ++ [(k, v)]) ++ kept truthy false ts).
    + apply IH; [rewrite T; exact F|rewrite HE; exact A|]. rewrite HE, <- app_assoc. exact P.
    + rewrite <- app_assoc. cbn. apply Permutation_refl.
Qed.
Theorem C103_delete_if : forall (V W X : Type) (same : V -> V -> bool) (truthy : V -> bool)
  (B : list V -> hst V W -> bend V X -> hst V W -> Prop) (s : hst V W) s',
  equality same -> built same s -> acts same B own_deletion ->
  (forall k v s r s1, B [k; v] s (Gives r) s1 -> tab s1 = (if truthy r then apply same (Delete k) (tab s) else tab s)) ->
  hash_each B s (Normal HSelf) s' ->
  exists ts, map fst ts = held s /\ chain B pair_args s ts s' /\ Permutation (held s') (kept truthy false ts).
Proof.
  intros V W X same truthy B s s' EQ BU AC HB H. apply (C103_own_deletion V W X same truthy B s _ s' EQ BU AC) in H.
  destruct H as [(ts & E & C & _)|(ts & e & post & x & s1 & _ & _ & _ & H)]; [|discriminate].
  destruct (built_ok same (proj2 EQ) s BU) as (F & A0). exists ts. split; [exact E|]. split; [exact C|].
  apply (chain_deletes same truthy B EQ HB s ts s' C F []); [exact A0|]. rewrite E. apply Permutation_refl.
Qed.
Print Assumptions C103_delete_if.

(** A block that also assigns to new keys: as above, and the new entries get no turn, unless the entries move.
    Missing: adding keys is to raise an error, and nothing is known once the entries have moved. *)
Theorem C103_new_keys_partial : forall (V W X : Type) (same : V -> V -> bool)
  (B : list V -> hst V W -> bend V X -> hst V W -> Prop) (s : hst V W) r s',
  equality same -> built same s -> acts same B assignment -> hash_each B s r s' ->
  (exists ts o, turns B pair_args (length (held s)) 0 s ts o s' /\ r = outcome (fun _ => HSelf) ts o) \/
  (r = Wild /\ place (tab s') <> place (tab s)).
Proof.
  intros V W X same B s r s' EQ BU AC (o & H & ->). destruct (built_ok same (proj2 EQ) s BU) as (F & _). rewrite (held_length s F).
  destruct (loop_assign same B _ _ _ _ AC 0 tt s o s' F (le_n _) H) as [(ts & e & T & ->)|(-> & P)]; [left|right; auto].
  exists ts, e. split; [exact T|]. apply close_const. reflexivity.
Qed.
Print Assumptions C103_new_keys_partial.

(** The operations are those of C19: the entries change as ModelHash says. *)
Lemma im_insert_app {V} (same : V -> V -> bool) (a b : list (V * V)) k v : (forall x, In x a -> same k (fst x) = false) ->
  ModelHash.im_insert (fun _ => BinNums.Z0) same (fun _ _ => true) (a ++ b) k v = a ++ ModelHash.im_insert (fun _ => BinNums.Z0) same (fun _ _ => true) b k v.
Proof.
  induction a as [|[x y] a IH]; intros N; [reflexivity|]. cbn [app ModelHash.im_insert]. unfold ModelHash.hit at 1. rewrite (N (x, y) (or_introl eq_refl) : same k x = false).
  cbn [andb]. rewrite IH; [reflexivity|]. intros z Hz. apply N. right. exact Hz.
Qed.
Lemma im_remove_app {V} (same : V -> V -> bool) (a b : list (V * V)) k : (forall x, In x a -> same k (fst x) = false) ->
  ModelHash.im_remove (fun _ => BinNums.Z0) same (fun _ _ => true) (a ++ b) k = a ++ ModelHash.im_remove (fun _ => BinNums.Z0) same (fun _ _ => true) b k.
Proof.
  induction a as [|[x y] a IH]; intros N; [reflexivity|]. cbn [app ModelHash.im_remove]. unfold ModelHash.hit at 1. rewrite (N (x, y) (or_introl eq_refl) : same k x = false).
  cbn [andb]. rewrite IH; [reflexivity|]. intros z Hz. apply N. right. exact Hz.
Qed.
Theorem C103_table : forall (V W : Type) (same : V -> V -> bool) (s : hst V W) (k v : V), equality same -> built same s ->
  let entries t := firstn (used t) (slots t) in
  entries (t_insert same (tab s) k v) = ModelHash.im_insert (fun _ => BinNums.Z0) same (fun _ _ => true) (held s) k v /\
  entries (t_remove same (tab s) k) = ModelHash.im_remove (fun _ => BinNums.Z0) same (fun _ _ => true) (held s) k /\
  entries (t_clear (tab s)) = [].
Proof.
  intros V W same s k v EQ BU entries. destruct (built_ok same (proj2 EQ) s BU) as (F & _).
  change (held s) with (in_use (tab s)). change entries with (@in_use V).
  destruct (present_or_absent same k (in_use (tab s))) as [(a & [x y] & b & E1 & S1 & N)|N]; (split; [|split; [|reflexivity]]).
  - rewrite (proj2 (insert_present same _ k v a _ b F E1 S1 N)), E1, (im_insert_app same a _ k v N). cbn in *. unfold ModelHash.hit. rewrite S1. reflexivity.
  - destruct (remove_present same _ k a _ b F E1 S1 N) as (_ & _ & _ & ->). rewrite E1, (im_remove_app same a _ k N). cbn in *. unfold ModelHash.hit. rewrite S1. reflexivity.
  - rewrite (proj2 (insert_absent same _ k v F N)). rewrite <- (app_nil_r (in_use (tab s))) at 2. rewrite (im_insert_app same _ [] k v N). reflexivity.
  - rewrite (remove_absent same _ k N). rewrite <- (app_nil_r (in_use (tab s))) at 2. rewrite (im_remove_app same _ [] k N). cbn. symmetry. apply app_nil_r.
Qed.
Print Assumptions C103_table.

(** ** Blocks that do more *)
(** Numbers as keys and values; the rest of the state is the list of calls. *)
Definition fst_of (f : nat * nat -> vec (nat * nat) -> vec (nat * nat)) (l : list nat) (s : hst nat (list (nat * nat))) (o : bend nat unit) (s' : hst nat (list (nat * nat))) : Prop :=
  match l with
  | [k; v] => o = Gives 0 /\ s' = mkhst (f (k, v) (tab s)) (rest s ++ [(k, v)])
  | _ => False
  end.
Definition h123 : hst nat (list (nat * nat)) := mkhst (t_insert Nat.eqb (t_insert Nat.eqb (t_insert Nat.eqb (mkvec 0 [] 0) 1 10) 2 20) 3 30) [].
Lemma h123_built : built Nat.eqb h123.
Proof.
  unfold built, h123. cbn [tab]. apply E_cons with (o := Assign 1 10); [exact I|]. apply E_cons with (o := Assign 2 20); [exact I|].
  apply E_cons with (o := Assign 3 30); [exact I|]. apply E_nil.
Qed.
Lemma nat_equality : equality Nat.eqb.
Proof. split; [apply Nat.eqb_refl|apply Nat.eqb_sym]. Qed.
(** h = {1=>10, 2=>20, 3=>30}; h.each { |k, v| h.delete(2) if k == 1 }: 3 gets two turns *)
Ltac run_each := eexists; split; [repeat (eapply H_more; [repeat constructor|reflexivity|reflexivity|split; reflexivity|]; cbn [rest tab app]); apply H_end; repeat constructor|reflexivity].
Theorem C103_twice_refuted : exists (s : hst nat (list (nat * nat))) (B : list nat -> hst nat (list (nat * nat)) -> bend nat unit -> hst nat (list (nat * nat)) -> Prop) s', built Nat.eqb s /\
  acts Nat.eqb B (fun _ _ o => match o with Delete _ => True | _ => False end) /\
  hash_each B s (Normal HSelf) s' /\ held s = [(1, 10); (2, 20); (3, 30)] /\ rest s = [] /\ rest s' = [(1, 10); (3, 30); (3, 30)].
Proof.
  exists h123, (fst_of (fun e t => if fst e =? 1 then t_remove Nat.eqb t 2 else t)).
  eexists. split; [exact h123_built|]. split.
  - intros [|k [|v [|]]] s o s' H; try contradiction. destruct H as (_ & ->). cbn [tab fst]. destruct (k =? 1).
    + apply E_cons with (o := Delete 2); [exact I|apply E_nil].
    + apply E_nil.
  - split; [run_each|]. repeat split.
Qed.
Print Assumptions C103_twice_refuted.
(** h.each { |k, v| h.clear }: all entries get their turn though the first one removes them *)
Theorem C103_deleted_refuted : exists (s : hst nat (list (nat * nat))) (B : list nat -> hst nat (list (nat * nat)) -> bend nat unit -> hst nat (list (nat * nat)) -> Prop) s', built Nat.eqb s /\
  acts Nat.eqb B (fun _ _ o => o = Clear) /\
  hash_each B s (Normal HSelf) s' /\ held s = [(1, 10); (2, 20); (3, 30)] /\ (forall e s o s1, B e s o s1 -> held s1 = []) /\
  rest s = [] /\ rest s' = [(1, 10); (2, 20); (3, 30)].
Proof.
  exists h123, (fst_of (fun _ t => t_clear t)).
  eexists. split; [exact h123_built|]. split.
  - intros [|k [|v [|]]] s o s' H; try contradiction. destruct H as (_ & ->). cbn [tab].
    apply E_cons with (o := Clear); [reflexivity|apply E_nil].
  - split; [run_each|]. split; [reflexivity|]. split; [|split; reflexivity]. intros [|k [|v [|]]] s o s1 H; try contradiction. destruct H as (_ & ->). reflexivity.
Qed.
Print Assumptions C103_deleted_refuted.
(** h.each { |k, v| if k == 1 then h.delete(1); h[3] = 99 end }: the turn of 3 comes with its old value *)
Theorem C103_old_value_refuted : exists (s : hst nat (list (nat * nat))) (B : list nat -> hst nat (list (nat * nat)) -> bend nat unit -> hst nat (list (nat * nat)) -> Prop) s', built Nat.eqb s /\
  acts Nat.eqb B (fun _ _ o => o = Delete 1 \/ o = Assign 3 99) /\
  hash_each B s (Normal HSelf) s' /\ held s = [(1, 10); (2, 20); (3, 30)] /\
  (forall s2, B [1; 10] s (Gives 0) s2 -> held s2 = [(3, 99); (2, 20)]) /\
  rest s = [] /\ rest s' = [(1, 10); (2, 20); (3, 30)] /\ held s' = [(3, 99); (2, 20)].
Proof.
  exists h123, (fst_of (fun e t => if fst e =? 1 then t_insert Nat.eqb (t_remove Nat.eqb t 1) 3 99 else t)).
  eexists. split; [exact h123_built|]. split.
  - intros [|k [|v [|]]] s o s' H; try contradiction. destruct H as (_ & ->). cbn [tab fst]. destruct (k =? 1).
    + apply E_cons with (o := Delete 1); [left; reflexivity|]. apply E_cons with (o := Assign 3 99); [right; reflexivity|apply E_nil].
    + apply E_nil.
  - split; [run_each|]. split; [reflexivity|]. split; [|repeat split]. intros s2 (_ & ->). reflexivity.
Qed.
Print Assumptions C103_old_value_refuted.
(** h.each { |k, v| h[k + 10] = v; h[k + 20] = v; ... }: the entries move while the iterator points to them *)
Theorem C103_new_keys_refuted : exists (s : hst nat (list (nat * nat))) (B : list nat -> hst nat (list (nat * nat)) -> bend nat unit -> hst nat (list (nat * nat)) -> Prop) s', built Nat.eqb s /\
  acts Nat.eqb B (fun l _ o => exists k v d, l = [k; v] /\ o = Assign (k + d) v) /\
  hash_each B s Wild s' /\ held s = [(1, 10); (2, 20); (3, 30)] /\ rest s' = [(1, 10)].
Proof.
  exists h123, (fst_of (fun e t => t_insert Nat.eqb (t_insert Nat.eqb (t_insert Nat.eqb (t_insert Nat.eqb t
    (fst e + 10) (snd e)) (fst e + 20) (snd e)) (fst e + 30) (snd e)) (fst e + 40) (snd e))).
  eexists. split; [exact h123_built|]. split.
  - intros [|k [|v [|]]] s o s' H; try contradiction. destruct H as (_ & ->). cbn [tab fst snd].
    apply E_cons with (o := Assign (k + 10) v); [eauto 6|]. apply E_cons with (o := Assign (k + 20) v); [eauto 6|].
    apply E_cons with (o := Assign (k + 30) v); [eauto 6|]. apply E_cons with (o := Assign (k + 40) v); [eauto 6|apply E_nil].
  - split.
    + eexists. split; [eapply H_more; [repeat constructor|reflexivity|reflexivity|split; reflexivity|]; eapply H_gone; [repeat constructor|discriminate]|reflexivity].
    + split; reflexivity.
Qed.
Print Assumptions C103_new_keys_refuted.

(** h.each { |k, v| h[2] = 0 if h.key?(2) } and h.each { |k, v| h.delete(k) if v > 10 } *)
Definition b_assign := fst_of (fun e t => match position Nat.eqb 2 (in_use t) with Some _ => t_insert Nat.eqb t 2 0 | None => t end).
Definition b_delete (l : list nat) (s : hst nat (list (nat * nat))) (o : bend nat unit) (s' : hst nat (list (nat * nat))) : Prop :=
  match l with
  | [k; v] => o = Gives (if 10 <? v then 1 else 0) /\ s' = mkhst (if 10 <? v then t_remove Nat.eqb (tab s) k else tab s) (rest s ++ [(k, v)])
  | _ => False
  end.
Example C103_ex : equality Nat.eqb /\ built Nat.eqb h123 /\ acts Nat.eqb b_assign (to_present Nat.eqb) /\ acts Nat.eqb b_assign assignment /\
  acts Nat.eqb b_delete own_deletion /\
  (exists s', hash_each b_assign h123 (Normal HSelf) s' /\ rest s' = [(1, 10); (2, 0); (3, 30)]) /\
  (exists s', hash_each b_delete h123 (Normal HSelf) s' /\ rest s' = [(1, 10); (2, 20); (3, 30)] /\ held s' = [(1, 10)]) /\
  (forall k v s r s1, b_delete [k; v] s (Gives r) s1 -> tab s1 = (if 0 <? r then apply Nat.eqb (Delete k) (tab s) else tab s)).
Proof.
  assert (AP : acts Nat.eqb b_assign (to_present Nat.eqb)).
  { intros [|k [|v [|]]] s o s' H; try contradiction. destruct H as (_ & ->). cbn [tab].
    destruct (position Nat.eqb 2 (in_use (tab s))) as [i|] eqn:P; [|apply E_nil].
    destruct (position_some Nat.eqb _ _ _ P) as (a & e & b & E & _ & S1 & _).
    apply E_cons with (o := Assign 2 0); [|apply E_nil]. exists e. split; [|exact S1]. unfold in_use in E. rewrite E. apply in_elt. }
  split; [exact nat_equality|]. split; [exact h123_built|]. split; [exact AP|]. split; [|split; [|split; [|split]]].
  - intros l s o s' H. specialize (AP l s o s' H). clear H. induction AP as [t|t o' t' H E IH]; [apply E_nil|].
    apply E_cons with (o := o'); [destruct o'; cbn in *; tauto|exact IH].
  - intros [|k [|v [|]]] s o s' H; try contradiction. destruct H as (_ & ->). cbn [tab]. destruct (10 <? v); [|apply E_nil].
    apply E_cons with (o := Delete k); [exists [v]; reflexivity|apply E_nil].
  - eexists. split; [run_each|reflexivity].
  - eexists. split; [run_each|]. split; reflexivity.
  - intros k v s r s1 (E & ->). injection E as ->. cbn [tab]. destruct (10 <? v); reflexivity.
Qed.
