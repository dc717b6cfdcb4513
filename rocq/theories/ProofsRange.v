(* Lemmas about ranges and splatted arguments. *)
From Coq Require Import Sorted.
From Verif Require Import Base ModelValue ModelFloat ModelInt ModelArray ModelRange ProofsBase ProofsValue ProofsInt ProofsGcd ProofsArray.
Ltac Zify.zify_post_hook ::= Z.div_mod_to_equations.

(* ---- zrange ---- *)
Lemma zrange_nil a b : b <= a -> zrange a b = [].
Proof. intros H. unfold zrange. replace (Z.to_nat (b - a)) with O by lia. reflexivity. Qed.
Lemma zrange_cons a b : a < b -> zrange a b = a :: zrange (a + 1) b.
Proof.
  intros H. unfold zrange. replace (Z.to_nat (b - a)) with (S (Z.to_nat (b - (a + 1)))) by lia.
  cbn [seq map]. f_equal; [lia|]. rewrite <- seq_shift, map_map. apply map_ext. intros i. lia.
Qed.
Lemma zrange_length a b : length (zrange a b) = Z.to_nat (b - a).
Proof. unfold zrange. rewrite map_length, seq_length. reflexivity. Qed.
Lemma zlen_zrange a b : zlen (zrange a b) = Z.max 0 (b - a).
Proof. unfold zlen. rewrite zrange_length. lia. Qed.
Lemma in_zrange a b n : In n (zrange a b) <-> a <= n < b.
Proof.
  unfold zrange. rewrite in_map_iff. split.
  - intros (i & <- & Hi). apply in_seq in Hi. lia.
  - intros H. exists (Z.to_nat (n - a)). split; [lia|]. apply in_seq. lia.
Qed.
Lemma nth_zrange a b i : 0 <= i < b - a -> nth_error (zrange a b) (Z.to_nat i) = Some (a + i).
Proof.
  intros H. unfold zrange. rewrite nth_error_map.
  rewrite (nth_error_nth' _ O) by (rewrite seq_length; lia).
  rewrite seq_nth by lia. cbn. f_equal. lia.
Qed.
Lemma firstn_zrange a b k : firstn k (zrange a b) = zrange a (Z.min b (a + Z.of_nat k)).
Proof.
  unfold zrange. rewrite firstn_map. f_equal.
  assert (F : forall n s m, firstn n (seq s m) = seq s (Nat.min n m)).
  { induction n as [|n IH]; intros s m; [reflexivity|]. destruct m; [reflexivity|]. cbn. f_equal. apply IH. }
  rewrite F. f_equal. lia.
Qed.
Lemma skipn_zrange a b k : skipn k (zrange a b) = zrange (a + Z.of_nat k) b.
Proof.
  revert a; induction k as [|k IH]; intros a.
  - cbn [skipn]. f_equal. lia.
  - destruct (Z.lt_ge_cases a b) as [H|H].
    + rewrite zrange_cons by assumption. cbn [skipn]. rewrite IH. f_equal. lia.
    + rewrite !zrange_nil by lia. reflexivity.
Qed.
Lemma zrange_sorted a b : StronglySorted Z.lt (zrange a b).
Proof.
  assert (H : forall n a, StronglySorted Z.lt (zrange a (a + Z.of_nat n))).
  { induction n as [|n IH]; intros x.
    - rewrite zrange_nil by lia. constructor.
    - rewrite zrange_cons by lia. constructor.
      + replace (x + Z.of_nat (S n)) with (x + 1 + Z.of_nat n) by lia. apply IH.
      + apply Forall_forall. intros y Hy. apply in_zrange in Hy. lia. }
  destruct (Z.lt_ge_cases a b) as [L|L].
  - specialize (H (Z.to_nat (b - a)) a). replace (a + Z.of_nat (Z.to_nat (b - a))) with b in H by lia. exact H.
  - rewrite zrange_nil by lia. constructor.
Qed.
Lemma map_integer_bignum l : Forall (fun i => - 2 ^ 63 <= i < 2 ^ 63) l -> map integer l = map bignum l.
Proof. induction 1 as [|x l Hx _ IH]; [reflexivity|]. cbn. rewrite integer_bignum by lia. f_equal. exact IH. Qed.
Lemma map_integer_zrange a b : - 2 ^ 63 <= a -> b <= 2 ^ 63 -> map integer (zrange a b) = map bignum (zrange a b).
Proof. intros Ha Hb. apply map_integer_bignum, Forall_forall. intros x Hx. apply in_zrange in Hx. lia. Qed.

(* ---- the range methods on integer bounds ---- *)
Definition mk (a b : Z) (ex : bool) : range_info := {| r_start := bignum a; r_end := bignum b; r_exclude := ex |}.
(* the first integer past the range *)
Definition stop (b : Z) (ex : bool) : Z := if ex then b else b + 1.

Lemma create_range_ok a b ex : create_range (bignum a) (bignum b) ex = Ok (mk a b ex).
Proof.
  unfold create_range. rewrite invoke_compare_bignum. cbn [rbind].
  destruct (b ?= a); reflexivity.
Qed.
Lemma coerce_bignum n : in_i63 n = true -> coerce_to_fixnum (bignum n) = Ok n.
Proof. intros H. unfold coerce_to_fixnum. rewrite unpack_bignum, H. reflexivity. Qed.
Lemma unwrap_bignum n : in_i63 n = true -> unwrap_fixnum (bignum n) = Ok n.
Proof. intros H. unfold unwrap_fixnum. rewrite as_fixnum_bignum, H. reflexivity. Qed.
Lemma add64_ok a b : - 2 ^ 63 <= a + b < 2 ^ 63 -> add64 a b = Ok (a + b).
Proof. intros H. unfold add64, checked. assert (E : in_i64 (a + b) = true) by (apply in_i64_spec; lia). rewrite E. reflexivity. Qed.
Lemma sub64_ok a b : - 2 ^ 63 <= a - b < 2 ^ 63 -> sub64 a b = Ok (a - b).
Proof. intros H. unfold sub64, checked. assert (E : in_i64 (a - b) = true) by (apply in_i64_spec; lia). rewrite E. reflexivity. Qed.

Lemma yields_range a b : - 2 ^ 63 <= a -> b <= 2 ^ 63 -> yields (ItRange a b) (map bignum (zrange a b)).
Proof.
  intros Ha Hb.
  assert (H : forall n a, - 2 ^ 63 <= a -> n = Z.to_nat (b - a) -> yields (ItRange a b) (map bignum (zrange a b))).
  { induction n as [|n IH]; intros x Hx Hn.
    - rewrite zrange_nil by lia. apply yields_done. cbn. destruct (Z.ltb_spec x b); [lia|reflexivity].
    - rewrite zrange_cons by lia. cbn [map]. eapply yields_item.
      + cbn. destruct (Z.ltb_spec x b); [|lia]. rewrite integer_bignum by lia. reflexivity.
      + apply IH; lia. }
  eapply H; [lia|reflexivity].
Qed.
Lemma yields_det it l : yields it l -> forall l', yields it l' -> l = l'.
Proof.
  induction 1 as [it E|it v it' l E Y IH]; intros l' Y'; inversion Y'; subst; try congruence.
  rewrite E in H. injection H as -> ->. f_equal. apply IH. assumption.
Qed.
Lemma range_iter_ok a b ex : in_i63 a = true -> in_i63 b = true -> counts (range_iter (mk a b ex)) (zrange a (stop b ex)).
Proof.
  intros Ha Hb. unfold counts, range_iter, mk. cbn [r_start r_end r_exclude].
  rewrite !coerce_bignum by assumption. cbn [rbind].
  apply in_i63_spec in Ha, Hb.
  rewrite add64_ok by (destruct ex; lia). cbn [rbind].
  eexists. split; [reflexivity|].
  replace (b + (if ex then 0 else 1)) with (stop b ex) by (unfold stop; destruct ex; lia).
  apply yields_range; [lia|]. unfold stop; destruct ex; lia.
Qed.
Lemma range_to_a_ok a b ex : in_i63 a = true -> in_i63 b = true ->
  range_to_a (mk a b ex) = Ok (map bignum (zrange a (stop b ex))).
Proof.
  intros Ha Hb. unfold range_to_a, mk. cbn [r_start r_end r_exclude].
  rewrite as_fixnum_bignum, Ha, coerce_bignum by assumption. cbn [rbind].
  apply in_i63_spec in Ha, Hb. unfold stop. destruct ex.
  - rewrite map_integer_zrange by lia. reflexivity.
  - rewrite add64_ok by lia. cbn [rbind]. rewrite map_integer_zrange by lia. reflexivity.
Qed.
Lemma range_first_ok a b ex k : in_i63 a = true -> in_i63 b = true -> in_i63 k = true -> 0 <= k ->
  range_first (mk a b ex) (Some (bignum k)) = Ok (EList (map bignum (firstn (Z.to_nat k) (zrange a (stop b ex))))).
Proof.
  intros Ha Hb Hk H0. unfold range_first, mk. cbn [r_start r_end r_exclude].
  rewrite !unwrap_bignum by assumption. cbn [rbind].
  rewrite coerce_bignum by assumption. apply in_i63_spec in Ha, Hb, Hk.
  rewrite (sub64_ok b) by (destruct ex; lia). cbn [rbind].
  destruct (Z.ltb_spec k 0); [lia|].
  rewrite add64_ok by lia. cbn [rbind]. rewrite sub64_ok by lia. cbn [rbind].
  rewrite firstn_zrange, map_integer_zrange; [do 4 f_equal| |];
    unfold stop; destruct ex;
    repeat match goal with |- context [?x <? ?y] => destruct (Z.ltb_spec x y) end; lia.
Qed.
Lemma range_last_ok a b ex k : in_i63 a = true -> in_i63 b = true -> in_i63 k = true -> 0 <= k ->
  let l := zrange a (stop b ex) in
  range_last (mk a b ex) (Some (bignum k)) = Ok (EList (map bignum (skipn (length l - Z.to_nat k) l))).
Proof.
  intros Ha Hb Hk H0 l. subst l. unfold range_last, mk. cbn [r_start r_end r_exclude].
  rewrite !unwrap_bignum by assumption. cbn [rbind].
  rewrite coerce_bignum by assumption. apply in_i63_spec in Ha, Hb, Hk.
  rewrite (sub64_ok b) by (destruct ex; lia). cbn [rbind].
  destruct (Z.ltb_spec k 0); [lia|].
  rewrite sub64_ok by (destruct ex; lia). cbn [rbind].
  rewrite add64_ok by (destruct ex; lia). cbn [rbind].
  rewrite skipn_zrange, zrange_length. unfold stop. set (e := b - (if ex then 1 else 0)).
  replace (if ex then b else b + 1) with (e + 1) by (unfold e; destruct ex; lia).
  assert (He : e < 2 ^ 62) by (unfold e; destruct ex; lia).
  assert (He' : - 2 ^ 62 - 1 <= e) by (unfold e; destruct ex; lia).
  destruct (Z.ltb_spec a (e - k + 1)).
  - rewrite map_integer_zrange by lia. do 4 f_equal. lia.
  - rewrite map_integer_zrange by lia.
    destruct (Z.lt_ge_cases a (e + 1)).
    + do 4 f_equal. lia.
    + rewrite !zrange_nil by lia. reflexivity.
Qed.
Lemma range_first_none a b ex : in_i63 a = true -> in_i63 b = true ->
  range_first (mk a b ex) None = Ok (EOne (bignum a)) /\ range_last (mk a b ex) None = Ok (EOne (bignum b)).
Proof.
  intros Ha Hb. unfold range_first, range_last, mk. cbn [r_start r_end r_exclude].
  rewrite !unwrap_bignum by assumption. cbn [rbind]. apply in_i63_spec in Ha, Hb.
  rewrite (sub64_ok b) by (destruct ex; lia). split; reflexivity.
Qed.
Lemma range_negative_count a b ex k : in_i63 a = true -> in_i63 b = true -> in_i63 k = true -> k < 0 ->
  range_first (mk a b ex) (Some (bignum k)) = Err ArgErr /\ range_last (mk a b ex) (Some (bignum k)) = Err ArgErr.
Proof.
  intros Ha Hb Hk H0. unfold range_first, range_last, mk. cbn [r_start r_end r_exclude].
  rewrite !unwrap_bignum by assumption. cbn [rbind]. rewrite coerce_bignum by assumption. apply in_i63_spec in Ha, Hb.
  rewrite (sub64_ok b) by (destruct ex; lia). cbn [rbind]. destruct (Z.ltb_spec k 0); [|lia]. split; reflexivity.
Qed.
Lemma all_loop_ok f l : Forall (fun i => - 2 ^ 63 <= i < 2 ^ 63) l ->
  all_loop f l = true <-> (forall i, In i l -> f (bignum i) = true).
Proof.
  induction 1 as [|x l Hx _ IH]; cbn [all_loop In].
  - split; [intros _ i []|reflexivity].
  - rewrite integer_bignum by lia. destruct (f (bignum x)) eqn:E.
    + rewrite IH. split; intros H.
      * intros i [<-|Hi]; auto.
      * intros i Hi; auto.
    + split; [discriminate|]. intros H. specialize (H x (or_introl eq_refl)). congruence.
Qed.
Lemma range_all_ok f a b ex : in_i63 a = true -> in_i63 b = true ->
  exists t, range_all f (mk a b ex) = Ok (vbool t) /\
    (t = true <-> forall i, In i (zrange a (stop b ex)) -> f (bignum i) = true).
Proof.
  intros Ha Hb. unfold range_all, mk. cbn [r_start r_end r_exclude].
  rewrite !coerce_bignum by assumption. cbn [rbind]. apply in_i63_spec in Ha, Hb.
  rewrite add64_ok by (destruct ex; lia). cbn [rbind].
  replace (b + (if ex then 0 else 1)) with (stop b ex) by (unfold stop; destruct ex; lia).
  eexists. split; [reflexivity|]. apply all_loop_ok, Forall_forall.
  intros x Hx. apply in_zrange in Hx. unfold stop in Hx. destruct ex; lia.
Qed.
Lemma real_included_of a b x ex :
  real_included (real_of x) (real_of a) (real_of b) ex = (a <=? x) && (x <? stop b ex).
Proof.
  unfold real_included. rewrite !real_cmp_of, !cop_ord_Z. unfold stop.
  destruct ex; cbn [cop_Z]; [reflexivity|].
  destruct (Z.leb_spec a x), (Z.leb_spec x b), (Z.ltb_spec x (b + 1)); cbn; lia.
Qed.
Lemma numeric_cmp_bignum op a b : numeric_cmp op (bignum a) (bignum b) = Ok (vbool (cop_Z op a b)).
Proof. unfold numeric_cmp. rewrite !to_real_bignum, real_cmp_of, cop_ord_Z. reflexivity. Qed.
Lemma range_include_ok a b x ex :
  range_include (mk a b ex) (bignum x) = Ok (vbool ((a <=? x) && (x <? stop b ex))).
Proof.
  unfold range_include, mk. cbn [r_start r_end r_exclude].
  rewrite unpack_bignum. destruct (in_i63 a) eqn:Ea.
  - rewrite !to_real_bignum.
    assert (R : real_of a = RlInt a) by (unfold real_of; rewrite Ea; reflexivity).
    rewrite <- R, real_included_of. reflexivity.
  - rewrite !numeric_cmp_bignum. cbn [rbind]. rewrite to_bool_vbool. cbn [cop_Z].
    destruct (Z.leb_spec a x); cbn [negb andb]; [|reflexivity].
    unfold stop. destruct ex; cbn [rbind]; rewrite to_bool_vbool; cbn [cop_Z]; [reflexivity|].
    do 2 f_equal. destruct (Z.leb_spec x b), (Z.ltb_spec x (b + 1)); lia.
Qed.

(* ---- splat ---- *)
(* the bounds a range contributes *)
Definition int_range (r : range_info) : Prop :=
  exists a b ex, in_i63 a = true /\ in_i63 b = true /\ r = mk a b ex.
Lemma splat_bounds_ok a b ex : in_i63 a = true -> in_i63 b = true ->
  splat_bounds (mk a b ex) = Ok (a, stop b ex).
Proof.
  intros Ha Hb. unfold splat_bounds, mk. cbn [r_start r_end r_exclude].
  rewrite !coerce_bignum by assumption. cbn [rbind]. apply in_i63_spec in Hb.
  rewrite add64_ok by (destruct ex; lia). cbn [rbind]. do 2 f_equal.
  unfold stop. destruct ex; lia.
Qed.

Lemma skipn_exact {A} (l1 l2 : list A) n : n = length l1 -> skipn n (l1 ++ l2) = l2.
Proof. intros ->. induction l1; [reflexivity|]. cbn. assumption. Qed.
Lemma firstn_exact {A} (l1 l2 : list A) n : n = length l1 -> firstn n (l1 ++ l2) = l1.
Proof. intros ->. induction l1; [reflexivity|]. cbn. f_equal. assumption. Qed.
Lemma zfirst_app_exact {A} (l1 l2 : list A) n : n = zlen l1 -> zfirst n (l1 ++ l2) = l1.
Proof. intros ->. apply firstn_exact. unfold zlen. lia. Qed.
Lemma zskip_app_exact {A} (l1 l2 : list A) n : n = zlen l1 -> zskip n (l1 ++ l2) = l2.
Proof. intros ->. apply skipn_exact. unfold zlen. lia. Qed.

Lemma st_remove_ok pre x post : st_remove (pre ++ x :: post) (zlen pre) = pre ++ post.
Proof.
  unfold st_remove. rewrite zfirst_app_exact by reflexivity.
  replace (pre ++ x :: post) with ((pre ++ [x]) ++ post) by (rewrite <- app_assoc; reflexivity).
  rewrite zskip_app_exact; [reflexivity|]. rewrite zlen_app. reflexivity.
Qed.
Lemma v_get_mid {A} pre (x : A) post : v_get (pre ++ x :: post) (zlen pre) = Ok x.
Proof.
  unfold v_get. pose proof (zlen_nonneg pre). pose proof (zlen_nonneg post).
  rewrite zlen_app, zlen_cons.
  destruct (Z.leb_spec 0 (zlen pre)); [|lia]. destruct (Z.ltb_spec (zlen pre) (zlen pre + (zlen post + 1))); [|lia].
  cbn [andb]. unfold zlen. rewrite Nat2Z.id, nth_error_app2 by lia. rewrite Nat.sub_diag. reflexivity.
Qed.
Lemma v_set_mid {A} pre (x y : A) post : v_set (pre ++ x :: post) (zlen pre) y = Ok (pre ++ y :: post).
Proof.
  unfold v_set. pose proof (zlen_nonneg pre). pose proof (zlen_nonneg post).
  rewrite zlen_app, zlen_cons.
  destruct (Z.leb_spec 0 (zlen pre)); [|lia]. destruct (Z.ltb_spec (zlen pre) (zlen pre + (zlen post + 1))); [|lia].
  cbn [andb]. rewrite zfirst_app_exact by reflexivity.
  replace (pre ++ x :: post) with ((pre ++ [x]) ++ post) by (rewrite <- app_assoc; reflexivity).
  rewrite zskip_app_exact; [reflexivity|]. rewrite zlen_app. reflexivity.
Qed.
Lemma st_spread_ok pre x post a : a <> [] -> zlen pre + zlen a + zlen post <= VM_STACK_SIZE ->
  st_spread (pre ++ x :: post) (zlen pre) a = Ok (pre ++ a ++ post).
Proof.
  intros Ha Hcap. unfold st_spread.
  pose proof (zlen_nonneg pre) as Hp. pose proof (zlen_nonneg post) as Hq.
  assert (Hla : 1 <= zlen a) by (destruct a; [congruence|rewrite zlen_cons; pose proof (zlen_nonneg a); lia]).
  destruct (Z.eqb_spec (zlen a) 0); [lia|].
  unfold st_grow.
  destruct (Z.ltb_spec VM_STACK_SIZE (zlen (pre ++ x :: post) + (zlen a - 1))) as [H|_];
    [rewrite zlen_app, zlen_cons in H; lia|].
  cbn [rbind]. set (pad := repeat (IVal nil) (Z.to_nat (zlen a - 1))).
  assert (Hpad : zlen pad = zlen a - 1) by (unfold pad, zlen; rewrite repeat_length; unfold zlen in Hla; lia).
  clearbody pad. clear Ha Hcap.
  unfold v_copy_within. set (L := (pre ++ x :: post) ++ pad).
  assert (HL : zlen L = zlen pre + 1 + zlen post + (zlen a - 1)) by (unfold L; rewrite !zlen_app, zlen_cons; lia).
  rewrite !(zlen_app pre), !zlen_cons.
  destruct (Z.leb_spec (zlen pre + 1) (zlen pre + (zlen post + 1))); [|lia].
  destruct (Z.leb_spec (zlen pre + (zlen post + 1)) (zlen L)); [|lia].
  destruct (Z.leb_spec (zlen pre + zlen a) (zlen L - (zlen pre + (zlen post + 1) - (zlen pre + 1)))); [|lia].
  cbn [andb rbind].
  assert (E1 : zskip (zlen pre + 1) L = post ++ pad).
  { unfold L. replace ((pre ++ x :: post) ++ pad) with ((pre ++ [x]) ++ post ++ pad) by (rewrite <- !app_assoc; reflexivity).
    apply zskip_app_exact. rewrite zlen_app. reflexivity. }
  rewrite E1.
  assert (E2 : zfirst (zlen pre + (zlen post + 1) - (zlen pre + 1)) (post ++ pad) = post) by (apply zfirst_app_exact; lia).
  rewrite E2.
  set (H3 := zfirst (zlen pre + zlen a) L).
  assert (E3 : exists m, H3 = pre ++ m /\ zlen m = zlen a).
  { exists (zfirst (zlen a) (x :: post ++ pad)). unfold H3, L, zfirst.
    rewrite <- app_assoc, firstn_app, firstn_all2 by (unfold zlen; lia).
    split.
    - f_equal. replace (Z.to_nat (zlen pre + zlen a) - length pre)%nat with (Z.to_nat (zlen a)) by (unfold zlen; lia). reflexivity.
    - unfold zlen in *. cbn [app]. rewrite firstn_length. cbn [length]. rewrite app_length. lia. }
  destruct E3 as (m & -> & Hm).
  assert (E4 : zskip (zlen pre + zlen a + (zlen pre + (zlen post + 1) - (zlen pre + 1))) L = []).
  { unfold zskip. apply skipn_all2. unfold zlen in *. lia. }
  rewrite E4, app_nil_r. clear L HL H H0 H1 E1 E2 E4.
  unfold v_copy_from.
  destruct (Z.leb_spec (zlen pre) (zlen pre + zlen a)); [|lia].
  rewrite !zlen_app.
  destruct (Z.leb_spec (zlen pre + zlen a) (zlen pre + zlen m + zlen post)); [|lia].
  destruct (Z.eqb_spec (zlen a) (zlen pre + zlen a - zlen pre)); [|lia].
  cbn [andb]. rewrite <- app_assoc. rewrite zfirst_app_exact by reflexivity.
  do 3 f_equal. rewrite app_assoc. apply zskip_app_exact. rewrite zlen_app. lia.
Qed.

(* what one collected slot stands for *)
Definition expands (x : item) (l : list item) : Prop :=
  match x with
  | ISplat (IArr a) => l = a
  | ISplat (IRng r) => exists a b ex, in_i63 a = true /\ in_i63 b = true /\ r = mk a b ex /\
                         l = map (fun i => IVal (bignum i)) (zrange a (stop b ex))
  | ISplat inner => l = [inner]
  | _ => l = [x]
  end.
(* a splatted range whose bounds just touch: start = first integer past it *)
Definition touching (x : item) : Prop :=
  match x with
  | ISplat (IRng r) => exists a b ex, in_i63 a = true /\ in_i63 b = true /\ r = mk a b ex /\ stop b ex = a
  | _ => False
  end.
Lemma map_int_items a b : - 2 ^ 63 <= a -> b <= 2 ^ 63 ->
  map (fun i => IVal (integer i)) (zrange a b) = map (fun i => IVal (bignum i)) (zrange a b).
Proof.
  intros Ha Hb. apply map_ext_in. intros i Hi. apply in_zrange in Hi. rewrite integer_bignum by lia. reflexivity.
Qed.

Lemma mk_inj a b ex a' b' ex' : in_i63 a = true -> in_i63 b = true -> in_i63 a' = true -> in_i63 b' = true ->
  mk a b ex = mk a' b' ex' -> a = a' /\ b = b' /\ ex = ex'.
Proof.
  intros Ha Hb Ha' Hb' E. injection E as E1 E2 E3.
  assert (F : forall n, in_i63 n = true -> as_fixnum (bignum n) = Some n) by (intros n Hn; rewrite as_fixnum_bignum, Hn; reflexivity).
  apply (f_equal as_fixnum) in E1, E2. rewrite !F in E1, E2 by assumption. intuition congruence.
Qed.
Lemma splat_loop_ok args : forall ls pre fuel, Forall2 expands args ls -> Forall (fun x => ~ touching x) args ->
  (length args < fuel)%nat ->
  (forall k, zlen pre + zlen (concat (firstn k ls)) + zlen (skipn k args) <= VM_STACK_SIZE) ->
  splat_loop fuel (pre ++ args) (zlen pre) = Ok (pre ++ concat ls).
Proof.
  induction args as [|x args IH]; intros ls pre fuel HF HT Hf Hcap.
  - inversion HF; subst. destruct fuel; [cbn in Hf; lia|]. cbn [splat_loop concat]. rewrite !app_nil_r.
    rewrite Z.ltb_irrefl. reflexivity.
  - inversion HF as [|? l0 ? ls' Hx HF']; subst. inversion HT as [|? ? Ht HT']; subst.
    destruct fuel as [|fuel]; [cbn in Hf; lia|]. cbn [splat_loop].
    destruct (Z.ltb_spec (zlen pre) (zlen (pre ++ x :: args))) as [_|H];
      [|rewrite zlen_app, zlen_cons in H; pose proof (zlen_nonneg args); lia].
    rewrite v_get_mid. cbn [rbind concat].
    assert (Hn : forall pre', zlen pre' = zlen pre + zlen l0 ->
       splat_loop fuel (pre' ++ args) (zlen pre') = Ok (pre' ++ concat ls')).
    { intros pre' Hp. apply IH; [assumption|assumption|cbn in Hf; lia|].
      intros k. specialize (Hcap (S k)). cbn [firstn skipn concat] in Hcap. rewrite zlen_app in Hcap. lia. }
    assert (H1 : forall y, l0 = [y] -> splat_loop fuel (pre ++ y :: args) (zlen pre + 1) = Ok (pre ++ l0 ++ concat ls')).
    { intros y ->. specialize (Hn (pre ++ [y])). rewrite <- !app_assoc in Hn. cbn [app] in Hn.
      rewrite zlen_app in Hn. apply Hn. reflexivity. }
    assert (Hsp : forall a, a = l0 -> a <> [] ->
       (st' <- st_spread (pre ++ x :: args) (zlen pre) a ;; splat_loop fuel st' (zlen pre + zlen a)) = Ok (pre ++ l0 ++ concat ls')).
    { intros a -> Ha. rewrite st_spread_ok; [|assumption|].
      - cbn [rbind]. rewrite app_assoc. rewrite <- zlen_app. rewrite Hn by (rewrite zlen_app; reflexivity).
        rewrite <- app_assoc. reflexivity.
      - specialize (Hcap 1%nat). cbn [firstn skipn concat] in Hcap. rewrite app_nil_r in Hcap. lia. }
    assert (Hrm : l0 = [] -> splat_loop fuel (st_remove (pre ++ x :: args) (zlen pre)) (zlen pre) = Ok (pre ++ l0 ++ concat ls')).
    { intros ->. rewrite st_remove_ok. apply Hn. rewrite zlen_nil. lia. }
    destruct x as [v|a|r|inner]; try (apply H1; exact Hx).
    destruct inner as [v|a|r|inner'].
    + cbn in Hx. rewrite v_set_mid. cbn [rbind]. apply H1. exact Hx.
    + cbn in Hx. subst l0. destruct (Z.eqb_spec (zlen a) 0) as [E|E].
      * apply Hrm. destruct a; [reflexivity|]. rewrite zlen_cons in E. pose proof (zlen_nonneg a). lia.
      * apply Hsp; [reflexivity|]. intros ->. apply E. reflexivity.
    + cbn in Hx. destruct Hx as (a & b & ex & Ha & Hb & -> & El).
      rewrite splat_bounds_ok by assumption. cbn [rbind]. rewrite Z.geb_leb.
      assert (Hne : stop b ex <> a).
      { intros Hs. apply Ht. cbn. exists a, b, ex. auto. }
      apply in_i63_spec in Ha, Hb.
      assert (Hm : map (fun i => IVal (integer i)) (zrange a (stop b ex)) = l0).
      { rewrite El. apply map_int_items; unfold stop; destruct ex; lia. }
      destruct (Z.leb_spec a (stop b ex)).
      * apply Hsp; [exact Hm|]. rewrite zrange_cons by lia. discriminate.
      * apply Hrm. rewrite El, zrange_nil by lia. reflexivity.
    + cbn in Hx. rewrite v_set_mid. cbn [rbind]. apply H1. exact Hx.
Qed.
Lemma pop_args_ok below args ls : Forall2 expands args ls -> Forall (fun x => ~ touching x) args ->
  (forall k, zlen below + zlen (concat (firstn k ls)) + zlen (skipn k args) <= VM_STACK_SIZE) ->
  pop_args_to_args (below ++ args) (zlen args) = Ok (below ++ concat ls, zlen (concat ls)).
Proof.
  intros HF HT Hcap. unfold pop_args_to_args.
  replace (zlen (below ++ args) - zlen args) with (zlen below) by (rewrite zlen_app; lia).
  rewrite (splat_loop_ok args ls below); [|assumption|assumption|unfold zlen; lia|assumption].
  cbn [rbind]. rewrite zlen_app. do 2 f_equal. lia.
Qed.
Lemma splat_touching x pre post fuel : touching x ->
  splat_loop (S fuel) (pre ++ x :: post) (zlen pre) = Panic.
Proof.
  intros Ht. destruct x as [v|a|r|[v|a|r|y]]; cbn in Ht; try contradiction.
  destruct Ht as (a & b & ex & Ha & Hb & -> & Es). cbn [splat_loop].
  destruct (Z.ltb_spec (zlen pre) (zlen (pre ++ ISplat (IRng (mk a b ex)) :: post))) as [_|H];
    [|rewrite zlen_app, zlen_cons in H; pose proof (zlen_nonneg post); lia].
  rewrite v_get_mid. cbn [rbind]. rewrite splat_bounds_ok by assumption. cbn [rbind].
  rewrite Es, Z.geb_leb, Z.leb_refl, zrange_nil by lia. reflexivity.
Qed.
Lemma splat_array_ok args ls : Forall2 expands args ls -> splat_array args = Ok (concat ls).
Proof.
  induction 1 as [|x l args ls Hx _ IH]; [reflexivity|]. cbn [splat_array concat].
  assert (E : (match x with
               | ISplat (IArr a) => Ok a
               | ISplat (IRng r) =>
                   se <- splat_bounds r ;;
                   let '(start, end_) := se in
                   Ok (if end_ >=? start then map (fun i => IVal (integer i)) (zrange start end_) else [])
               | ISplat inner => Ok [inner]
               | _ => Ok [x]
               end) = Ok l).
  { destruct x as [v|a|r|[v|a|r|y]]; cbn in Hx; try (subst l; reflexivity).
    destruct Hx as (a & b & ex & Ha & Hb & -> & ->).
    rewrite splat_bounds_ok by assumption. cbn [rbind]. rewrite Z.geb_leb.
    apply in_i63_spec in Ha, Hb.
    destruct (Z.leb_spec a (stop b ex)).
    - rewrite map_int_items; [reflexivity|lia|unfold stop; destruct ex; lia].
    - rewrite zrange_nil by lia. reflexivity. }
  rewrite E. cbn [rbind]. rewrite IH. reflexivity.
Qed.
