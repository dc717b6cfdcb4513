(* Properties C40 (ranges) and C71 (splatted arguments). *)
From Coq Require Import Sorted.
From Verif Require Import Base ModelValue ModelFloat ModelInt ModelArray ModelRange ProofsBase ProofsValue ProofsInt ProofsGcd ProofsArray ProofsRange.

(* ---- C40 ---- *)
(* [bignum n] is the interpreter's value for the integer n of any size. *)
Definition word_sized (n : Z) : Prop := - 2 ^ 62 <= n < 2 ^ 62.
Lemma word_i63 n : word_sized n -> in_i63 n = true. Proof. apply in_i63_spec. Qed.
(* membership, stated on integers *)
Definition member (a b : Z) (ex : bool) (n : Z) : Prop := a <= n /\ (if ex then n < b else n <= b).
Lemma member_zrange a b ex n : In n (zrange a (stop b ex)) <-> member a b ex n.
Proof. rewrite in_zrange. unfold member, stop. destruct ex; lia. Qed.

(* Full statement: for all integer bounds. Bounds outside the machine word fail
   (below), and === does not agree at all (C40_case_equality_refuted).
   [l] is the ascending list of exactly the members; every enumerating method
   is that list. *)
Theorem C40_enumeration_partial : forall a b ex, word_sized a -> word_sized b ->
  exists r l,
    create_range (bignum a) (bignum b) ex = Ok r /\
    StronglySorted Z.lt l /\ (forall n, In n l <-> member a b ex n) /\
    range_to_a r = Ok (map bignum l) /\
    counts (range_iter r) l /\
    range_first r None = Ok (EOne (bignum a)) /\
    range_last r None = Ok (EOne (bignum b)) /\
    (forall k, word_sized k -> 0 <= k ->
       range_first r (Some (bignum k)) = Ok (EList (map bignum (firstn (Z.to_nat k) l))) /\
       range_last r (Some (bignum k)) = Ok (EList (map bignum (skipn (length l - Z.to_nat k) l)))) /\
    (forall k, word_sized k -> k < 0 ->
       range_first r (Some (bignum k)) = Err ArgErr /\ range_last r (Some (bignum k)) = Err ArgErr) /\
    (forall f, exists t, range_all f r = Ok (vbool t) /\ (t = true <-> forall n, In n l -> f (bignum n) = true)).
Proof.
  intros a b ex Ha Hb. apply word_i63 in Ha, Hb. exists (mk a b ex), (zrange a (stop b ex)).
  repeat split.
  - apply create_range_ok.
  - apply zrange_sorted.
  - apply (proj1 (member_zrange a b ex n) H).
  - destruct (proj1 (member_zrange a b ex n) H) as [_ H2]. exact H2.
  - apply member_zrange.
  - apply range_to_a_ok; assumption.
  - apply range_iter_ok; assumption.
  - apply (range_first_none a b ex Ha Hb).
  - apply (range_first_none a b ex Ha Hb).
  - apply range_first_ok; auto using word_i63.
  - apply range_last_ok; auto using word_i63.
  - apply range_negative_count; auto using word_i63.
  - apply range_negative_count; auto using word_i63.
  - intros f. apply range_all_ok; assumption.
Qed.
Print Assumptions C40_enumeration_partial.
(* include? agrees with membership for integer bounds and arguments of any size *)
Theorem C40_include_agrees : forall a b ex x, exists r t,
  create_range (bignum a) (bignum b) ex = Ok r /\
  range_include r (bignum x) = Ok (vbool t) /\ (t = true <-> member a b ex x).
Proof.
  intros a b ex x. exists (mk a b ex), ((a <=? x) && (x <? stop b ex)).
  split; [apply create_range_ok|]. split; [apply range_include_ok|].
  unfold member, stop. destruct ex; rewrite Bool.andb_true_iff, Z.leb_le, Z.ltb_lt; lia.
Qed.
Print Assumptions C40_include_agrees.
(* inclusive and exclusive ranges differ exactly in the end *)
Theorem C40_exclusive_drops_end_partial : forall a b, word_sized a -> word_sized b -> a <= b ->
  exists l, range_to_a (mk a b true) = Ok (map bignum l) /\
            range_to_a (mk a b false) = Ok (map bignum (l ++ [b])).
Proof.
  intros a b Ha Hb H. exists (zrange a b). rewrite !range_to_a_ok by auto using word_i63. cbn [stop].
  split; [reflexivity|]. do 2 f_equal.
  assert (E : firstn (Z.to_nat (b - a)) (zrange a (b + 1)) = zrange a b) by (rewrite firstn_zrange; f_equal; lia).
  assert (E2 : skipn (Z.to_nat (b - a)) (zrange a (b + 1)) = [b]).
  { rewrite skipn_zrange. replace (a + Z.of_nat (Z.to_nat (b - a))) with b by lia.
    rewrite zrange_cons, zrange_nil by lia. reflexivity. }
  rewrite <- (firstn_skipn (Z.to_nat (b - a)) (zrange a (b + 1))), E, E2. reflexivity.
Qed.
Print Assumptions C40_exclusive_drops_end_partial.
(* bounds that are integers but no machine words *)
Theorem C40_big_bounds_refuted : exists a b x, member a b false x /\
  range_to_a (mk a b false) = Panic /\ range_first (mk a b false) None = Panic /\
  range_last (mk a b false) (Some (bignum 1)) = Panic /\
  range_iter (mk a b false) = Err TypeErr /\
  range_include (mk a b false) (bignum x) = Ok true_val.
Proof. exists (2 ^ 70), (2 ^ 70 + 2), (2 ^ 70 + 1). vm_compute. intuition congruence. Qed.
Print Assumptions C40_big_bounds_refuted.
(* a range is never === to a number it includes: `case 2 when 1..3` misses *)
Lemma C40_l_case_equality : forall id a b ex x, member a b ex x ->
  range_include (mk a b ex) (bignum x) = Ok true_val /\ range_teq id (bignum x) = false.
Proof.
  intros id a b ex x H. split.
  - rewrite range_include_ok. unfold member in H.
    assert (E : (a <=? x) && (x <? stop b ex) = true).
    { rewrite Bool.andb_true_iff, Z.leb_le, Z.ltb_lt. unfold stop. destruct ex; lia. }
    rewrite E. reflexivity.
  - unfold range_teq, bignum, integer.
    destruct (in_i64 x); [destruct (is_i63 x)|]; reflexivity.
Qed.
Theorem C40_case_equality_refuted : exists a b x, member a b false x /\ forall id,
  range_include (mk a b false) (bignum x) = Ok true_val /\ range_teq id (bignum x) = false.
Proof.
  exists 1, 3, 2. split; [vm_compute; split; congruence|]. intros id.
  apply C40_l_case_equality. vm_compute; split; congruence.
Qed.
Print Assumptions C40_case_equality_refuted.
Example C40_ex :
  word_sized 3 /\ word_sized 7 /\ member 3 7 true 6 /\ ~ member 3 7 true 7 /\ member 3 7 false 7 /\
  range_to_a (mk 3 7 true) = Ok (map bignum [3; 4; 5; 6]) /\
  range_last (mk 3 7 false) (Some (bignum 2)) = Ok (EList (map bignum [6; 7])) /\
  range_first (mk 3 7 false) (Some (bignum 2)) = Ok (EList (map bignum [3; 4])) /\
  range_to_a (mk 7 3 false) = Ok [].
Proof. unfold word_sized, member. repeat split; try lia; vm_compute; reflexivity. Qed.

(* ---- C71 ---- *)
(* Full statement: collecting arguments replaces every splatted array or range
   by its elements, in place, leaves everything else alone, and keeps the stack
   below untouched. [expands] is one slot's contribution. Missing: a splatted
   range with no element whose bounds touch crashes (below); the whole must
   fit the fixed-size stack at every moment. *)
Theorem C71_splat_expands_in_place_partial : forall below args ls,
  Forall2 expands args ls -> Forall (fun x => ~ touching x) args ->
  (forall k, zlen below + zlen (concat (firstn k ls)) + zlen (skipn k args) <= 8192) ->
  pop_args_to_args (below ++ args) (zlen args) = Ok (below ++ concat ls, zlen (concat ls)).
Proof. exact pop_args_ok. Qed.
Print Assumptions C71_splat_expands_in_place_partial.
(* array literals with splats: no exception *)
Theorem C71_array_literal_splat : forall args ls,
  Forall2 expands args ls -> splat_array args = Ok (concat ls).
Proof. exact splat_array_ok. Qed.
Print Assumptions C71_array_literal_splat.
(* splatting the empty range 1...1 into a call *)
Theorem C71_empty_range_refuted : exists below args ls, Forall2 expands args ls /\ concat ls = [] /\
  pop_args_to_args (below ++ args) (zlen args) = Panic.
Proof.
  exists [], [ISplat (IRng (mk 1 1 true))], [[]]. repeat split.
  constructor; [|constructor]. cbn. exists 1, 1, true. repeat split; reflexivity.
Qed.
Print Assumptions C71_empty_range_refuted.
Example C71_ex :
  let args := [IVal (bignum 0); ISplat (IArr [IVal nil; IVal (bignum 9)]); ISplat (IArr []);
               ISplat (IRng (mk 4 6 false)); ISplat (IVal (bignum 5))] in
  let ls := [[IVal (bignum 0)]; [IVal nil; IVal (bignum 9)]; []; map (fun i => IVal (bignum i)) [4; 5; 6]; [IVal (bignum 5)]] in
  Forall2 expands args ls /\ Forall (fun x => ~ touching x) args /\
  pop_args_to_args (IVal true_val :: args) 5 =
    Ok (IVal true_val :: map IVal [bignum 0; nil; bignum 9; bignum 4; bignum 5; bignum 6; bignum 5], 7).
Proof.
  split; [|split].
  - repeat constructor. exists 4, 6, false. repeat split; reflexivity.
  - repeat constructor; intros H; cbn in H; try exact H.
    destruct H as (a & b & ex & Ha & Hb & E & Hs). apply mk_inj in E; try assumption; try reflexivity.
    destruct E as (<- & <- & <-). discriminate Hs.
  - vm_compute. reflexivity.
Qed.
