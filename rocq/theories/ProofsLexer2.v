From Coq Require Import String Ascii ZArith List Bool Lia.
From Verif Require Import Base ModelText ModelParse ModelLexer ProofsText SpecLexer ProofsLexer.
Import ListNotations.
Open Scope Z_scope.

(** * Operators *)
Definition prefixb (t s : chars) : bool := same t (firstn (length t) s).
Lemma prefixb_app t r : prefixb t (t ++ r) = true.
Proof. unfold prefixb. rewrite firstn_app, Nat.sub_diag, firstn_all, app_nil_r. apply same_iff. reflexivity. Qed.
Definition table := Eval vm_compute in operators.
Lemma table_eq : operators = table. Proof. reflexivity. Qed.
Lemma longest_iff t r p : In (t, p) table ->
  forallb (fun x => negb (prefixb (fst x) (t ++ r)) || Nat.leb (length (fst x)) (length t)) table = true ->
  longest_operator t r p.
Proof.
  intros H F. unfold longest_operator. rewrite table_eq. split; [exact H|]. intros t' p' r' H' Q. rewrite forallb_forall in F. specialize (F _ H'). cbn [fst] in F.
  rewrite Q, prefixb_app in F. cbn [negb orb] in F. apply Nat.leb_le. exact F.
Qed.

Ltac known := repeat match goal with
  | H : ?x <> ?d |- _ =>
      let F := fresh "F" in
      assert (F : (d =? x) = false) by (apply Z.eqb_neq; congruence); cbn in F; try rewrite F; clear H F
  end.
Ltac in_table := unfold table; repeat first [left; reflexivity|right].
Ltac op_done t :=
  exists t; split; [reflexivity|]; apply longest_iff; [in_table|];
  cbn; known; reflexivity.
Ltac op_split :=
  match goal with
  | H : match consume ?d ?s with _ => _ end = Some _ |- _ =>
      let E := fresh "E" in destruct (consume d s) eqn:E;
      [apply consume_some in E; subst s|apply consume_none in E]
  | H : Some _ = Some _ |- _ => injection H as <- <-
  end.
Lemma read_punct_sound c s p r : read_punct c s = Some (p, r) -> exists t, c :: s = t ++ r /\ longest_operator t r p.
Proof.
  unfold read_punct. cbv beta zeta. intros H.
  repeat match type of H with
  | (if ?c =? ?n then _ else _) = _ =>
      destruct (Z.eqb_spec c n) as [->|_];
      [repeat op_split;
       match goal with
       | |- exists t, ?a :: ?r = t ++ ?r /\ _ => destruct r as [|? [|? ?]]; cbn in *; op_done [a]
       | |- exists t, ?a :: ?b :: ?r = t ++ ?r /\ _ => destruct r as [|? ?]; cbn in *; op_done [a; b]
       | |- exists t, ?a :: ?b :: ?d :: ?r = t ++ ?r /\ _ => op_done [a; b; d]
       end|]
  end.
  discriminate.
Qed.

(** two longest operators of a text are the same *)
Lemma table_unique t p p' : In (t, p) operators -> In (t, p') operators -> p = p'.
Proof.
  rewrite table_eq.
  assert (H : NoDup (map fst table)).
  { cbn. repeat (constructor; [cbn; intuition discriminate|]). constructor. }
  revert H. generalize table as l. induction l as [|[n r] l IH]; intros H A B; [destruct A|].
  cbn in H. inversion H as [|? ? N H']; subst. destruct A as [A|A], B as [B|B].
  - congruence.
  - injection A as -> ->. exfalso. apply N. apply (in_map fst) in B. exact B.
  - injection B as -> ->. exfalso. apply N. apply (in_map fst) in A. exact A.
  - auto.
Qed.
Lemma app_same_length {A} (a a' b b' : list A) : a ++ b = a' ++ b' -> length a = length a' -> a = a' /\ b = b'.
Proof.
  revert a'. induction a as [|x a IH]; intros [|y a'] Q L; try discriminate; [auto|].
  cbn in Q. injection Q as -> Q. destruct (IH _ Q) as [-> ->]; [cbn in L; lia|auto].
Qed.
Lemma longest_unique t r p t' r' p' : longest_operator t r p -> longest_operator t' r' p' -> t ++ r = t' ++ r' ->
  t = t' /\ r = r' /\ p = p'.
Proof.
  intros [A B] [A' B'] Q. pose proof (B _ _ _ A' Q). pose proof (B' _ _ _ A (eq_sym Q)).
  destruct (app_same_length _ _ _ _ Q) as [-> ->]; [lia|]. split; [reflexivity|]. split; [reflexivity|].
  exact (table_unique _ _ _ A A').
Qed.
Definition op_start (c : Z) : Prop :=
  mark c /\ c <> 34 /\ c <> 35 /\ c <> 36 /\ c <> 39 /\ c <> 64 /\ c <> 96.
Lemma operator_start t p : In (t, p) operators -> exists c t', t = c :: t' /\ op_start c.
Proof.
  rewrite table_eq. unfold table. cbn. intros H.
  repeat (destruct H as [H|H]; [injection H as <- <-; do 2 eexists; split; [reflexivity|unfold op_start; cls; lia]|]).
  destruct H.
Qed.
Lemma read_punct_total c s : op_start c -> read_punct c s <> None.
Proof.
  unfold op_start. cls. intros H. unfold read_punct. cbv beta zeta.
  repeat match goal with
  | |- (if ?c =? ?n then _ else _) <> _ =>
      destruct (Z.eqb_spec c n);
      [repeat match goal with |- context [consume ?d ?s] => destruct (consume d s) end; discriminate|]
  end.
  exfalso. lia.
Qed.
Lemma read_punct_ok c s t r p : longest_operator t r p -> c :: s = t ++ r -> read_punct c s = Some (p, r).
Proof.
  intros L Q. destruct (operator_start _ _ (proj1 L)) as (c' & t' & -> & O). injection Q as -> Q.
  destruct (read_punct c' s) as [[p' r']|] eqn:E; [|exfalso; exact (read_punct_total _ _ O E)].
  destruct (read_punct_sound _ _ _ _ E) as (t2 & Q2 & L2).
  destruct (longest_unique _ _ _ _ _ _ L L2) as (_ & -> & ->); [|reflexivity]. rewrite <- Q2. cbn. f_equal. symmetry. exact Q.
Qed.
