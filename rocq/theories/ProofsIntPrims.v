(** The instance of [SpecIntPrims] meets [prims_ok]. *)
From Coq Require Import ZArith List Bool Lia.
From Verif Require Import Base ModelValue ProofsValue ModelInt ProofsInt ModelInst ModelCodegen
  ModelVM SpecCore SpecIntPrims.
Import ListNotations.
Open Scope Z_scope.

Lemma same_refl v : same v v = true \/ exists f, v = Heap (HFloat f).
Proof. destruct v as [w|[n|f|i]]; cbn; rewrite ?Z.eqb_refl; eauto. Qed.

Lemma same_eq a b : same a b = true -> a = b.
Proof.
  destruct a as [x|[m|f|i]], b as [y|[n|g|j]]; cbn; try discriminate;
    intros H; apply Z.eqb_eq in H; congruence.
Qed.

Lemma int_of_some v n : int_of v = Some n -> v = bignum n.
Proof.
  unfold int_of. destruct (match v with Imm _ => _ | Heap _ => _ end); [|discriminate].
  destruct (same v (bignum z)) eqn:E; [|discriminate]. intros H. injection H as <-.
  apply same_eq, E.
Qed.

Lemma int_of_bignum n : int_of (bignum n) = Some n.
Proof.
  unfold int_of.
  assert (E : match bignum n with Imm _ => as_fixnum (bignum n) | Heap (HBig n) => Some n
              | _ => None end = Some n).
  { rewrite as_fixnum_bignum. destruct (in_i63 n) eqn:E.
    - rewrite bignum_fix by exact E. reflexivity.
    - rewrite bignum_big by exact E. reflexivity. }
  rewrite E. destruct (same_refl (bignum n)) as [->|[f F]]; [reflexivity|].
  destruct (in_i63 n) eqn:I.
  - rewrite bignum_fix in F by exact I. discriminate.
  - rewrite bignum_big in F by exact I. discriminate.
Qed.

Lemma integer_i32 i : in_i32 i = true -> integer i = bignum i /\ - 2 ^ 31 <= i < 2 ^ 31.
Proof.
  intros H. unfold in_i32 in H. split; [|lia]. unfold bignum.
  replace (in_i64 i) with true; [reflexivity|]. symmetry. apply in_i64_spec. lia.
Qed.

Lemma integer_u32 i : id32 i = true -> integer i = bignum i /\ 0 <= i < 2 ^ 32.
Proof.
  intros H. unfold id32 in H. split; [|lia]. unfold bignum.
  replace (in_i64 i) with true; [reflexivity|]. symmetry. apply in_i64_spec. lia.
Qed.

Lemma put_get x l : to_bool (get x l) = true -> put x (get x l) l = l.
Proof.
  induction l as [|[y u] l IH]; cbn; [discriminate|].
  destruct (Z.eqb_spec y x) as [->|]; [reflexivity|]. intros H. rewrite IH by exact H. reflexivity.
Qed.

Lemma ints_imm {A} v i w (f : value -> value -> res A) (g : value -> Z -> res A) :
  in_i32 i = true -> (forall n, g (bignum n) i = f (bignum n) (bignum i)) ->
  match int_of v with Some _ => lift (g v i) w | None => PRaise (symbol 3) w end
  = ints v (integer i) w (f v (integer i)).
Proof.
  intros H E. destruct (integer_i32 i H) as [-> _]. unfold ints. rewrite int_of_bignum.
  destruct (int_of v) as [n|] eqn:V; [|reflexivity]. apply int_of_some in V. subst.
  rewrite E. reflexivity.
Qed.

Lemma ieq_imm v i : in_i32 i = true -> ieqi v i = ieq v (integer i).
Proof.
  intros H. destruct (integer_i32 i H) as [E B]. unfold ieqi, ieq. rewrite E, int_of_bignum.
  destruct (int_of v) as [n|] eqn:V; [|reflexivity]. apply int_of_some in V. subst.
  rewrite eval_eqi_bignum, eval_eq2_bignum by exact B. reflexivity.
Qed.

Theorem iprims_ok : prims_ok iprims.
Proof.
  constructor; cbn [iprims p_addi p_subi p_bin p_cmpi p_cmp p_indexi p_index p_setindexi p_setindex
    p_geti p_seti p_getg p_setg].
  - intros v i w H. cbn [ibin]. unfold iarith. apply ints_imm; [exact H|]. intros n.
    rewrite invoke_addi_bignum, invoke_add_bignum by (apply integer_i32, H). reflexivity.
  - intros v i w H. cbn [ibin]. unfold iarith. apply ints_imm; [exact H|]. intros n.
    rewrite invoke_subi_bignum, invoke_sub_bignum by (apply integer_i32, H). reflexivity.
  - intros c v i w H.
    assert (X : forall o, match int_of v with
         | Some _ => lift (eval_cmp_i o v i) w | None => PRaise (symbol 3) w end
         = ints v (integer i) w (eval_cmp2 o (integer i) v)).
    { intros o. apply (ints_imm v i w (fun a b => eval_cmp2 o b a)); [exact H|]. intros n.
      rewrite eval_cmp_i_bignum, eval_cmp2_bignum by (apply integer_i32, H). reflexivity. }
    unfold icmpi, icmp. destruct c; try apply X; rewrite ieq_imm by exact H; reflexivity.
  - intros v i w H. destruct (integer_u32 i H) as [E B]. unfold iindexi, iindex. rewrite E.
    destruct (elems v w).
    + rewrite int_of_bignum. destruct (Z.ltb_spec i 0); [lia|reflexivity].
    + unfold iarith, ints. rewrite int_of_bignum. destruct (int_of v) as [n|] eqn:V; [|reflexivity].
      apply int_of_some in V. subst. rewrite get_index_imm_eq by exact B. reflexivity.
  - reflexivity.
  - intros x [iv gv ar lg] H. cbn in *. rewrite put_get by exact H. reflexivity.
  - intros x [iv gv ar lg] H. cbn in *. rewrite put_get by exact H. reflexivity.
  - intros n l v w b w' _ H. cbn [iprims p_bin ibin] in H. injection H as _ <-. reflexivity.
  - intros v w H. cbn [iprims p_dup]. unfold idup.
    destruct v as [x|[n|b|i]]; try reflexivity. destruct (H i eq_refl).
  - intros v w. cbn [icmp]. do 2 f_equal. unfold ieq. change (int_of nil) with (@None Z).
    destruct (int_of v); destruct v as [x|[n|b|i]]; reflexivity.
Qed.
