(* Proofs about arrays. *)
From Coq Require Import Permutation.
From Verif Require Import Base ModelArray.
Ltac Zify.zify_post_hook ::= Z.div_mod_to_equations.

(* ---- extensional reasoning on lists ---- *)
Lemma list_ext {A} (l1 l2 : list A) : (forall i, nth_error l1 i = nth_error l2 i) -> l1 = l2.
Proof.
  revert l2. induction l1 as [|x l1 IH]; intros [|y l2] H.
  - reflexivity.
  - specialize (H 0%nat). discriminate.
  - specialize (H 0%nat). discriminate.
  - pose proof (H 0%nat) as H0. cbn in H0. injection H0 as ->. f_equal. apply IH.
    intros i. exact (H (S i)).
Qed.
Lemma ne_firstn {A} n (l : list A) i : nth_error (firstn n l) i = if (i <? n)%nat then nth_error l i else None.
Proof.
  revert n i. induction l as [|x l IH]; intros [|n] [|i]; cbn [firstn nth_error]; try reflexivity.
  - destruct (_ <? _)%nat; reflexivity.
  - rewrite IH. reflexivity.
Qed.
Lemma ne_skipn {A} n (l : list A) i : nth_error (skipn n l) i = nth_error l (n + i).
Proof.
  revert n i. induction l as [|x l IH]; intros [|n] i; cbn [skipn nth_error plus]; try reflexivity.
  - destruct i; reflexivity.
  - apply IH.
Qed.
Lemma ne_app {A} (a b : list A) i :
  nth_error (a ++ b) i = if (i <? length a)%nat then nth_error a i else nth_error b (i - length a).
Proof.
  destruct (Nat.ltb_spec i (length a)).
  - apply nth_error_app1. assumption.
  - apply nth_error_app2. assumption.
Qed.
Lemma ne_repeat {A} (x : A) n i : nth_error (repeat x n) i = if (i <? n)%nat then Some x else None.
Proof.
  revert i. induction n as [|n IH]; intros [|i]; cbn [repeat nth_error]; try reflexivity. rewrite IH. reflexivity.
Qed.
Lemma ne_cons {A} (x : A) l i : nth_error (x :: l) i = if (i =? 0)%nat then Some x else nth_error l (i - 1).
Proof. destruct i; cbn; [reflexivity|]. rewrite Nat.sub_0_r. reflexivity. Qed.
Lemma ne_nil {A} i : nth_error (@nil A) i = None.
Proof. destruct i; reflexivity. Qed.
Ltac ne_norm :=
  repeat first [rewrite ne_app | rewrite ne_firstn | rewrite ne_skipn | rewrite ne_repeat | rewrite ne_cons | rewrite ne_nil].
Ltac ne_cases :=
  repeat match goal with
    | |- context [(?a <? ?b)%nat] => destruct (Nat.ltb_spec a b)
    | |- context [(?a =? ?b)%nat] => destruct (Nat.eqb_spec a b)
    end.
Ltac len_norm := rewrite ?app_length, ?firstn_length, ?skipn_length, ?repeat_length in *; cbn [length] in *.
Ltac ne_fin :=
  try reflexivity; try (exfalso; lia);
  try (f_equal; lia);
  try (match goal with |- nth_error ?l ?i = None => apply nth_error_None; len_norm; lia end);
  try (match goal with |- None = nth_error ?l ?i => symmetry; apply nth_error_None; len_norm; lia end).
Ltac list_solve :=
  apply list_ext; let i := fresh "i" in intros i; ne_norm; len_norm; ne_cases; ne_fin.

Lemma zlen_app {A} (a b : list A) : zlen (a ++ b) = zlen a + zlen b.
Proof. unfold zlen. rewrite app_length. lia. Qed.
Lemma zlen_cons {A} (x : A) l : zlen (x :: l) = zlen l + 1.
Proof. unfold zlen. cbn [length]. lia. Qed.
Lemma zlen_nil {A} : zlen (@nil A) = 0. Proof. reflexivity. Qed.
Lemma zlen_nonneg {A} (l : list A) : 0 <= zlen l. Proof. unfold zlen. lia. Qed.
Lemma zlen_repeat {A} (x : A) n : zlen (repeat x n) = Z.of_nat n.
Proof. unfold zlen. rewrite repeat_length. reflexivity. Qed.
Lemma zlen_zfirst {A} n (l : list A) : zlen (zfirst n l) = Z.min (Z.max 0 n) (zlen l).
Proof. unfold zlen, zfirst. rewrite firstn_length. lia. Qed.
Lemma zlen_zskip {A} n (l : list A) : zlen (zskip n l) = Z.max 0 (zlen l - Z.max 0 n).
Proof. unfold zlen, zskip. rewrite skipn_length. lia. Qed.

Lemma zlen_le0 {A} (l : list A) : zlen l <= 0 -> l = [].
Proof. destruct l; [reflexivity|]. rewrite zlen_cons. pose proof (zlen_nonneg l). lia. Qed.

(* ---- element write ---- *)
(* reading with nil beyond the end, the observable of a[j] for j >= 0 *)
Definition rd {A} (nilv : A) (l : list A) (j : Z) : A :=
  match nth_error l (Z.to_nat j) with Some x => x | None => nilv end.
Lemma get_elem_imm_rd {A} (nilv : A) l j : 0 <= j -> get_elem_imm nilv l j = Ok (rd nilv l j).
Proof.
  intros Hj. unfold get_elem_imm, v_get, rd. destruct (Z.leb_spec (zlen l) j) as [H|H].
  - assert (nth_error l (Z.to_nat j) = None) as ->; [|reflexivity].
    apply nth_error_None. unfold zlen in H. lia.
  - replace ((0 <=? j) && (j <? zlen l)) with true by lia.
    destruct (nth_error l (Z.to_nat j)) eqn:E; [reflexivity|].
    apply nth_error_None in E. unfold zlen in H. lia.
Qed.
Lemma get_elem1_rd {A} (nilv : A) l j :
  get_elem1 nilv l j = Ok (if 0 <=? j then rd nilv l j
                           else if - zlen l <=? j then rd nilv l (zlen l + j) else nilv).
Proof.
  pose proof (zlen_nonneg l). unfold get_elem1, get_array_index. destruct (Z.ltb_spec j 0).
  - replace (0 <=? j) with false by lia. destruct (Z.ltb_spec (zlen l + j) 0).
    + replace (- zlen l <=? j) with false by lia. rewrite get_elem_imm_rd by lia.
      unfold rd. assert (nth_error l (Z.to_nat (zlen l)) = None) as ->; [|reflexivity].
      apply nth_error_None. unfold zlen. lia.
    + replace (- zlen l <=? j) with true by lia. apply get_elem_imm_rd. lia.
  - replace (0 <=? j) with true by lia. apply get_elem_imm_rd. lia.
Qed.

Lemma v_set_ok {A} (l : list A) i x : 0 <= i < zlen l ->
  exists l', v_set l i x = Ok l' /\ zlen l' = zlen l /\
  forall nilv j, 0 <= j -> rd nilv l' j = if j =? i then x else rd nilv l j.
Proof.
  intros Hi. unfold v_set. replace ((0 <=? i) && (i <? zlen l)) with true by lia.
  eexists. split; [reflexivity|]. split.
  - rewrite zlen_app, zlen_cons, zlen_zfirst, zlen_zskip. lia.
  - intros nilv j Hj. unfold rd, zfirst, zskip, zlen in *. ne_norm. len_norm.
    destruct (Z.eqb_spec j i) as [->|Hne]; ne_cases; ne_fin.
    replace (Z.to_nat (i + 1) + (Z.to_nat j - Nat.min (Z.to_nat i) (length l) - 1))%nat with (Z.to_nat j) by lia.
    reflexivity.
Qed.
Lemma v_resize_grow {A} (l : list A) n x : zlen l <= n <= CAP ->
  v_resize l n x = Ok (l ++ repeat x (Z.to_nat (n - zlen l))).
Proof.
  intros H. unfold v_resize. destruct (Z.leb_spec n (zlen l)).
  - assert (n = zlen l) as -> by lia. rewrite Z.sub_diag. cbn. rewrite app_nil_r.
    unfold zfirst, zlen. rewrite Nat2Z.id, firstn_all. reflexivity.
  - replace (CAP <? n) with false by lia. reflexivity.
Qed.
Lemma set_elem_imm_ok {A} (nilv : A) l i v : 0 <= i < CAP ->
  exists l', set_elem_imm nilv l i v = Ok l' /\ zlen l' = Z.max (zlen l) (i + 1) /\
  forall j, 0 <= j -> rd nilv l' j = if j =? i then v else rd nilv l j.
Proof.
  intros Hi. unfold set_elem_imm. destruct (Z.leb_spec (zlen l) i).
  - rewrite v_resize_grow by lia. cbn [rbind]. unfold v_push.
    rewrite zlen_app, zlen_repeat. replace (CAP <=? _) with false by lia.
    eexists. split; [reflexivity|]. split.
    + rewrite !zlen_app, zlen_repeat, zlen_cons, zlen_nil. lia.
    + intros j Hj. unfold rd, zlen in *. ne_norm. len_norm.
      destruct (Z.eqb_spec j i) as [->|Hne]; ne_cases; ne_fin.
      * rewrite (proj2 (nth_error_None l (Z.to_nat j))) by lia. reflexivity.
      * rewrite (proj2 (nth_error_None l (Z.to_nat j))) by lia. reflexivity.
  - destruct (v_set_ok l i v ltac:(lia)) as (l' & E & L & R). exists l'. split; [exact E|].
    split; [lia|]. apply R.
Qed.
(* position addressed by an index *)
Definition pos_of {A} (l : list A) (i : Z) : Z := if i <? 0 then zlen l + i else i.
Lemma set_elem1_ok {A} (nilv : A) l i v : 0 <= pos_of l i < CAP ->
  exists l', set_elem1 nilv l i v = Ok l' /\ zlen l' = Z.max (zlen l) (pos_of l i + 1) /\
  forall j, 0 <= j -> rd nilv l' j = if j =? pos_of l i then v else rd nilv l j.
Proof.
  unfold pos_of, set_elem1. intros H. destruct (Z.ltb_spec i 0).
  - replace (0 <=? i) with false by lia. unfold get_array_index.
    replace (i <? 0) with true by lia. replace (zlen l + i <? 0) with false by lia. cbn [rbind].
    destruct (v_set_ok l (zlen l + i) v ltac:(lia)) as (l' & E & L & R).
    exists l'. split; [exact E|]. split; [lia|]. apply R.
  - replace (0 <=? i) with true by lia. apply set_elem_imm_ok. assumption.
Qed.
Lemma set_elem1_low {A} (nilv : A) l i v : pos_of l i < 0 -> set_elem1 nilv l i v = Err RangeErr.
Proof.
  unfold pos_of, set_elem1, get_array_index. intros H. destruct (Z.ltb_spec i 0); [|lia].
  replace (0 <=? i) with false by lia. replace (zlen l + i <? 0) with true by lia. reflexivity.
Qed.

Lemma rw_same {A} (nilv : A) l i v : 0 <= pos_of l i < CAP -> exists l',
  set_elem1 nilv l i v = Ok l' /\
  get_elem1 nilv l' i = Ok v /\
  zlen l' = Z.max (zlen l) (pos_of l i + 1) /\
  (forall j, 0 <= j -> j <> pos_of l i -> get_elem1 nilv l' j = get_elem1 nilv l j).
Proof.
  intros H. destruct (set_elem1_ok nilv l i v H) as (l' & E & L & R).
  exists l'. split; [exact E|]. split; [|split; [exact L|]].
  - rewrite get_elem1_rd. unfold pos_of in *. destruct (Z.ltb_spec i 0).
    + replace (0 <=? i) with false by lia. replace (- zlen l' <=? i) with true by lia.
      rewrite R by lia. replace (zlen l' + i =? zlen l + i) with true by lia. reflexivity.
    + replace (0 <=? i) with true by lia. rewrite R by lia. rewrite Z.eqb_refl. reflexivity.
  - intros j Hj Hne. rewrite !get_elem1_rd. replace (0 <=? j) with true by lia.
    rewrite R by lia. replace (j =? pos_of l i) with false by lia. reflexivity.
Qed.

(* ---- splice ---- *)
(* the elements of the assigned value *)
Definition rhs_elems {A} (l : list A) (r : splice_rhs A) : list A :=
  match r with RElem x => [x] | RArr a => a | RSelf => l end.
Definition splice {A} (nilv : A) (l : list A) (index length : Z) (new : list A) : list A :=
  zfirst index l ++ repeat nilv (Z.to_nat (index - zlen l)) ++ new ++ zskip (index + length) l.

Lemma v_resize_ok {A} (l : list A) n x : 0 <= n -> n <= CAP ->
  v_resize l n x = Ok (zfirst n l ++ repeat x (Z.to_nat (n - zlen l))).
Proof.
  intros H0 H. unfold v_resize. destruct (Z.leb_spec n (zlen l)).
  - replace (Z.to_nat (n - zlen l)) with 0%nat by lia. cbn. rewrite app_nil_r. reflexivity.
  - replace (CAP <? n) with false by lia. unfold zfirst, zlen in *.
    rewrite firstn_all2 by lia. reflexivity.
Qed.


Lemma zfirst_app_l {A} n (a b : list A) : n <= zlen a -> zfirst n (a ++ b) = zfirst n a.
Proof.
  unfold zfirst, zlen. intros H. rewrite firstn_app.
  replace (Z.to_nat n - length a)%nat with 0%nat by lia. cbn. apply app_nil_r.
Qed.
Lemma zfirst_app_r {A} n (a b : list A) : zlen a <= n -> zfirst n (a ++ b) = a ++ zfirst (n - zlen a) b.
Proof.
  unfold zfirst, zlen. intros H. rewrite firstn_app, firstn_all2 by lia. do 2 f_equal. lia.
Qed.
Lemma zskip_app_l {A} n (a b : list A) : n <= zlen a -> zskip n (a ++ b) = zskip n a ++ b.
Proof.
  unfold zskip, zlen. intros H. rewrite skipn_app.
  replace (Z.to_nat n - length a)%nat with 0%nat by lia. reflexivity.
Qed.
Lemma zskip_app_r {A} n (a b : list A) : zlen a <= n -> zskip n (a ++ b) = zskip (n - zlen a) b.
Proof.
  unfold zskip, zlen. intros H. rewrite skipn_app, skipn_all2 by lia. cbn. f_equal. lia.
Qed.
Lemma zfirst_all {A} n (l : list A) : zlen l <= n -> zfirst n l = l.
Proof. unfold zfirst, zlen. intros. apply firstn_all2. lia. Qed.
Lemma zskip_all {A} n (l : list A) : zlen l <= n -> zskip n l = [].
Proof. unfold zskip, zlen. intros. apply skipn_all2. lia. Qed.
Lemma zfirst_0 {A} n (l : list A) : n <= 0 -> zfirst n l = [].
Proof. unfold zfirst. intros. replace (Z.to_nat n) with 0%nat by lia. reflexivity. Qed.
Lemma zskip_0 {A} n (l : list A) : n <= 0 -> zskip n l = l.
Proof. unfold zskip. intros. replace (Z.to_nat n) with 0%nat by lia. reflexivity. Qed.
Lemma zfirst_zskip {A} n (l : list A) : zfirst n l ++ zskip n l = l.
Proof. apply firstn_skipn. Qed.
Lemma zfirst_zfirst {A} n m (l : list A) : zfirst n (zfirst m l) = zfirst (Z.min n m) l.
Proof. unfold zfirst. rewrite firstn_firstn. f_equal. lia. Qed.
Lemma split3 {A} (l : list A) i n : 0 <= i -> 0 <= n -> i + n <= zlen l ->
  exists a b c, l = a ++ b ++ c /\ zlen a = i /\ zlen b = n.
Proof.
  intros Hi Hn H. exists (zfirst i l), (zfirst n (zskip i l)), (zskip n (zskip i l)).
  rewrite !zfirst_zskip. split; [reflexivity|]. rewrite !zlen_zfirst, zlen_zskip. lia.
Qed.
Ltac zl0 := rewrite ?zlen_app, ?zlen_zfirst, ?zlen_zskip, ?zlen_repeat, ?zlen_cons in *.
Ltac zl := repeat (progress zl0);
  repeat match goal with
    | |- context [@zlen ?A []] => change (@zlen A []) with 0
    | H : context [@zlen ?A []] |- _ => change (@zlen A []) with 0 in H
    end.
(* copy into place: only the prefix before and the suffix after matter *)
Lemma copy_from_ok {A} (x y c ary : list A) : zlen y = zlen ary ->
  v_copy_from (x ++ y ++ c) (zlen x) (zlen x + zlen ary) ary = Ok (x ++ ary ++ c).
Proof.
  intros H. pose proof (zlen_nonneg x). pose proof (zlen_nonneg y). pose proof (zlen_nonneg c).
  unfold v_copy_from. zl.
  replace (_ && _) with true by lia.
  rewrite zfirst_app_l, zfirst_all by lia.
  rewrite zskip_app_r by lia. rewrite zskip_app_r by lia. rewrite zskip_0 by lia. reflexivity.
Qed.

Lemma splice_in {A} (nilv : A) a b c new :
  splice nilv (a ++ b ++ c) (zlen a) (zlen b) new = a ++ new ++ c.
Proof.
  pose proof (zlen_nonneg a). pose proof (zlen_nonneg b). pose proof (zlen_nonneg c).
  unfold splice. rewrite zfirst_app_l, zfirst_all by lia. zl.
  replace (Z.to_nat _) with 0%nat by lia. cbn [repeat app].
  rewrite zskip_app_r by lia. rewrite zskip_app_r by lia. rewrite zskip_0 by lia. reflexivity.
Qed.
Lemma splice_out {A} (nilv : A) (l : list A) index len new : 0 <= index -> 0 <= len -> zlen l <= index + len ->
  splice nilv l index len new = zfirst index l ++ repeat nilv (Z.to_nat (index - zlen l)) ++ new.
Proof. intros. unfold splice. rewrite zskip_all by lia. rewrite app_nil_r. reflexivity. Qed.

Lemma splice_array {A} (nilv : A) l index len ary (read : list A -> list A) :
  0 <= index -> 0 <= len ->
  zlen (splice nilv l index len ary) <= CAP ->
  (read = (fun _ => ary) \/ (ary = l /\ read = (fun r => r))) ->
  (r <- (if (zlen l <=? index) || (zlen l <? index + len) then v_resize l (index + zlen ary) nilv
          else if len <? zlen ary then
            r <- v_resize l (zlen l + zlen ary - len) nilv ;;
            v_copy_within r (index + len) (zlen l) (index + zlen ary)
          else
            r <- v_copy_within l (index + len) (zlen l) (index + zlen ary) ;;
            v_resize r (zlen l + zlen ary - len) nilv) ;;
    v_copy_from r index (index + zlen ary) (zfirst (zlen ary) (read r))) = Ok (splice nilv l index len ary).
Proof.
  intros Hi Hl Hcap Hread.
  pose proof (zlen_nonneg l) as HL. pose proof (zlen_nonneg ary) as HA.
  assert (Hrd : forall r, (ary = l -> zfirst (zlen ary) r = l) -> zfirst (zlen ary) (read r) = ary).
  { intros r Hr. destruct Hread as [->|(-> & ->)].
    - apply zfirst_all. lia.
    - apply Hr; auto. }
  destruct ((zlen l <=? index) || (zlen l <? index + len)) eqn:EB.
  - rewrite splice_out in Hcap |- * by lia.
    assert (index + zlen ary <= CAP) by (zl; lia).
    rewrite v_resize_ok by lia. cbn [rbind].
    rewrite Hrd.
    + set (r := zfirst (index + zlen ary) l ++ repeat nilv (Z.to_nat (index + zlen ary - zlen l))).
      set (x := zfirst index l ++ repeat nilv (Z.to_nat (index - zlen l))).
      assert (Er : r = x ++ zskip index r ++ []).
      { rewrite app_nil_r. rewrite <- (zfirst_zskip index r) at 1. f_equal. unfold r, x.
        destruct (Z.leb_spec (zlen l) index).
        - rewrite !(zfirst_all _ l) by lia. rewrite zfirst_app_r by lia. f_equal.
          unfold zfirst. rewrite <- (repeat_length nilv (Z.to_nat (index - zlen l))) at 1.
          replace (Z.to_nat (index + zlen ary - zlen l)) with (Z.to_nat (index - zlen l) + Z.to_nat (zlen ary))%nat by lia.
          rewrite repeat_app. rewrite firstn_app.
          rewrite repeat_length. replace (Z.to_nat (index - zlen l) - Z.to_nat (index - zlen l))%nat with 0%nat by lia.
          cbn [firstn]. rewrite app_nil_r.
          rewrite <- (repeat_length nilv (Z.to_nat (index - zlen l))) at 1. apply firstn_all.
        - rewrite zfirst_app_l by (zl; lia). rewrite zfirst_zfirst.
          replace (Z.to_nat (index - zlen l)) with 0%nat by lia. cbn. rewrite app_nil_r. f_equal. lia. }
      assert (Lx : zlen x = index) by (unfold x; zl; lia).
      assert (Lr : zlen r = index + zlen ary) by (unfold r; zl; lia).
      rewrite Er. rewrite <- Lx. rewrite copy_from_ok by (rewrite Lx; zl; lia).
      rewrite app_nil_r, Lx. unfold x. rewrite <- app_assoc. reflexivity.
    + intros ->. rewrite (zfirst_all (index + zlen l)) by lia. rewrite zfirst_app_l, zfirst_all by lia. reflexivity.
  - destruct (split3 l index len Hi Hl ltac:(lia)) as (a & b & c & -> & La & Lb).
    subst index len. rewrite splice_in in Hcap |- *.
    pose proof (zlen_nonneg c) as HC.
    destruct (Z.ltb_spec (zlen b) (zlen ary)).
    + assert (zlen (a ++ b ++ c) + zlen ary - zlen b <= CAP) by (zl; lia).
      rewrite v_resize_grow by lia. cbn [rbind].
      replace (zlen (a ++ b ++ c) + zlen ary - zlen b - zlen (a ++ b ++ c)) with (zlen ary - zlen b) by lia.
      set (pad := repeat nilv (Z.to_nat (zlen ary - zlen b))).
      assert (Lp : zlen pad = zlen ary - zlen b) by (unfold pad; zl; lia). clearbody pad.
      unfold v_copy_within.
      replace ((_ <=? _) && _ && _) with true by (zl; rewrite Lp; lia).
      cbn [rbind].
      assert (E1 : zfirst (zlen (a ++ b ++ c) - (zlen a + zlen b)) (zskip (zlen a + zlen b) ((a ++ b ++ c) ++ pad)) = c).
      { rewrite <- !app_assoc. rewrite zskip_app_r by lia. rewrite zskip_app_r by lia. rewrite zskip_0 by lia.
        rewrite zfirst_app_l by (zl; lia). apply zfirst_all. zl. lia. }
      rewrite E1. clear E1.
      rewrite (zskip_all (zlen a + zlen ary + _)) by (zl; lia). rewrite app_nil_r.
      set (X := zfirst (zlen a + zlen ary) ((a ++ b ++ c) ++ pad)).
      assert (LX : zlen X = zlen a + zlen ary) by (unfold X; zl; rewrite Lp; lia).
      assert (EX : X = a ++ zskip (zlen a) X).
      { rewrite <- (zfirst_zskip (zlen a) X) at 1. f_equal. unfold X. rewrite zfirst_zfirst.
        rewrite Z.min_l by lia. rewrite <- app_assoc. rewrite zfirst_app_l, zfirst_all by lia. reflexivity. }
      rewrite Hrd.
      * rewrite EX, <- app_assoc. apply copy_from_ok. zl. lia.
      * intros ->. rewrite zfirst_app_l by lia. unfold X. rewrite zfirst_zfirst.
        rewrite Z.min_l by lia. rewrite zfirst_app_l, zfirst_all by lia. reflexivity.
    + unfold v_copy_within.
      replace ((_ <=? _) && _ && _) with true by (zl; lia).
      cbn [rbind].
      assert (E1 : zfirst (zlen (a ++ b ++ c) - (zlen a + zlen b)) (zskip (zlen a + zlen b) (a ++ b ++ c)) = c).
      { rewrite zskip_app_r by lia. rewrite zskip_app_r by lia. rewrite zskip_0 by lia.
        apply zfirst_all. zl. lia. }
      rewrite E1. clear E1.
      set (X := zfirst (zlen a + zlen ary) (a ++ b ++ c)).
      set (Y := zskip (zlen a + zlen ary + (zlen (a ++ b ++ c) - (zlen a + zlen b))) (a ++ b ++ c)).
      assert (LX : zlen X = zlen a + zlen ary) by (unfold X; zl; lia).
      assert (LY : zlen Y = zlen b - zlen ary) by (unfold Y; zl; lia).
      assert (EX : X = a ++ zskip (zlen a) X).
      { rewrite <- (zfirst_zskip (zlen a) X) at 1. f_equal. unfold X. rewrite zfirst_zfirst.
        rewrite Z.min_l by lia. rewrite zfirst_app_l, zfirst_all by lia. reflexivity. }
      rewrite v_resize_ok by (zl; lia). cbn [rbind].
      replace (Z.to_nat _) with 0%nat by (zl; lia). cbn [repeat]. rewrite app_nil_r.
      assert (E2 : forall X Y, zlen X = zlen a + zlen ary ->
        zfirst (zlen (a ++ b ++ c) + zlen ary - zlen b) (X ++ c ++ Y) = X ++ c).
      { clear. intros X Y LX. rewrite (app_assoc X), zfirst_app_l by (zl; lia). apply zfirst_all. zl. lia. }
      rewrite (E2 X Y LX). rewrite Hrd.
      * rewrite EX, <- app_assoc. apply copy_from_ok. zl. lia.
      * intros ->. assert (a = [] /\ c = []) as (-> & ->).
        { pose proof (zlen_nonneg a). pose proof (zlen_nonneg c). split; apply zlen_le0; zl; lia. }
        unfold X. cbn [app zlen length]. rewrite !app_nil_r. change (zlen (@nil A)) with 0. rewrite Z.add_0_l.
        rewrite zfirst_zfirst, Z.min_id. apply zfirst_all. lia.
Qed.

Lemma set_elem2_ok {A} (nilv : A) l index len val : 0 <= index -> 0 <= len ->
  zlen (splice nilv l index len (rhs_elems l val)) <= CAP ->
  set_elem2 nilv l index len val = Ok (splice nilv l index len (rhs_elems l val)).
Proof.
  intros Hi Hl Hcap. pose proof (zlen_nonneg l) as HL. destruct val as [x|ary|]; cbn [rhs_elems set_elem2] in *.
  - destruct (Z.leb_spec (zlen l) index).
    + rewrite splice_out in Hcap |- * by lia.
      rewrite v_resize_grow by (zl; lia). cbn [rbind]. unfold v_set.
      replace (_ && _) with true by (zl; lia). f_equal.
      rewrite (zfirst_all index l) by lia. rewrite (zskip_all (index + 1)) by (zl; lia).
      rewrite zfirst_app_r by lia. rewrite <- app_assoc. f_equal. f_equal.
      replace (Z.to_nat (index + 1 - zlen l)) with (Z.to_nat (index - zlen l) + 1)%nat by lia.
      rewrite repeat_app. rewrite zfirst_app_l by (zl; lia). apply zfirst_all. zl. lia.
    + destruct (Z.eqb_spec len 0) as [->|Hne].
      * destruct (split3 l index 0 Hi ltac:(lia) ltac:(lia)) as (a & b & c & -> & La & Lb).
        apply Z.eq_le_incl, zlen_le0 in Lb. subst b. cbn [app] in *.
        pose proof (zlen_nonneg c). pose proof (zlen_nonneg a).
        pose proof (splice_in nilv a [] c [x]) as HS. rewrite zlen_nil in HS. cbn [app] in HS.
        subst index. rewrite HS in Hcap |- *.
        unfold v_push. replace (CAP <=? _) with false by (zl; lia). cbn [rbind].
        unfold v_copy_within. replace (_ && _) with true by (zl; lia). cbn [rbind].
        rewrite <- app_assoc.
        rewrite (zskip_app_r (zlen a) a) by lia. rewrite zskip_0 by lia.
        rewrite (zfirst_app_l (zlen (a ++ c) - zlen a) c) by (zl; lia). rewrite (zfirst_all (zlen (a ++ c) - zlen a) c) by (zl; lia).
        rewrite (zfirst_app_r (zlen a + 1)) by lia.
        rewrite (zskip_all (zlen a + 1 + _)) by (zl; lia).
        unfold v_set. replace (_ && _) with true by (zl; lia).
        f_equal. rewrite app_nil_r, <- app_assoc. rewrite zfirst_app_l, zfirst_all by lia. f_equal.
        f_equal. rewrite zskip_app_r by lia. rewrite zskip_app_r by (zl; lia).
        apply zskip_0. zl. lia.
      * destruct (Z.ltb_spec (index + len) (zlen l)).
        -- destruct (split3 l index len Hi Hl ltac:(lia)) as (a & b & c & -> & La & Lb).
           subst index len. rewrite splice_in in Hcap |- *.
           pose proof (zlen_nonneg c). pose proof (zlen_nonneg a). pose proof (zlen_nonneg b).
           unfold v_copy_within. replace (_ && _) with true by (zl; lia). cbn [rbind].
           assert (E1 : zfirst (zlen (a ++ b ++ c) - (zlen a + zlen b)) (zskip (zlen a + zlen b) (a ++ b ++ c)) = c).
           { rewrite zskip_app_r by lia. rewrite zskip_app_r by lia. rewrite zskip_0 by lia.
             apply zfirst_all. zl. lia. }
           rewrite E1.
           rewrite (zfirst_app_r (zlen a + 1)) by lia. replace (zlen a + 1 - zlen a) with 1 by lia.
           set (h := zfirst 1 (b ++ c)). assert (Lh : zlen h = 1) by (unfold h; zl; lia).
           unfold v_truncate. rewrite <- (app_assoc a h).
           assert (E2 : zfirst (zlen (a ++ b ++ c) + 1 - zlen b) (a ++ h ++ c ++ zskip (zlen a + 1 + (zlen (a ++ b ++ c) - (zlen a + zlen b))) (a ++ b ++ c)) = a ++ h ++ c).
           { rewrite !app_assoc. rewrite zfirst_app_l by (zl; lia). rewrite <- !app_assoc. apply zfirst_all. zl. lia. }
           rewrite E2. unfold v_set. replace (_ && _) with true by (zl; lia). f_equal.
           rewrite zfirst_app_l, zfirst_all by lia. cbn [app]. f_equal. f_equal.
           rewrite zskip_app_r by lia. rewrite zskip_app_r by lia. apply zskip_0. lia.
        -- rewrite splice_out in Hcap |- * by lia. cbn [rbind]. unfold v_set, v_truncate.
           replace (_ && _) with true by (zl; lia). f_equal.
           replace (Z.to_nat (index - zlen l)) with 0%nat by lia. cbn [repeat app].
           rewrite zfirst_zfirst, Z.min_l by lia. rewrite zskip_all by (zl; lia). reflexivity.
  - apply (splice_array nilv l index len ary (fun _ => ary)); auto.
  - apply (splice_array nilv l index len l (fun r => r)); auto.
Qed.

Lemma set_elem_ok {A} (nilv : A) l i len val : 0 <= pos_of l i -> 0 <= len ->
  zlen (splice nilv l (pos_of l i) len (rhs_elems l val)) <= CAP ->
  set_elem nilv l i len val = Ok (splice nilv l (pos_of l i) len (rhs_elems l val)).
Proof.
  unfold set_elem, get_array_index, pos_of. intros Hi Hl Hc. destruct (Z.ltb_spec i 0).
  - replace (zlen l + i <? 0) with false by lia. cbn [rbind]. replace (len <? 0) with false by lia.
    apply set_elem2_ok; assumption.
  - cbn [rbind]. replace (len <? 0) with false by lia. apply set_elem2_ok; assumption.
Qed.
Lemma set_elem_low {A} (nilv : A) l i len val : pos_of l i < 0 -> set_elem nilv l i len val = Err RangeErr.
Proof.
  unfold set_elem, get_array_index, pos_of. intros H. destruct (Z.ltb_spec i 0); [|lia].
  replace (zlen l + i <? 0) with true by lia. reflexivity.
Qed.
Lemma set_elem_neglen {A} (nilv : A) l i len val : 0 <= pos_of l i -> len < 0 ->
  set_elem nilv l i len val = Err IndexErr.
Proof.
  unfold set_elem, get_array_index, pos_of. intros H1 H2. destruct (Z.ltb_spec i 0).
  - replace (zlen l + i <? 0) with false by lia. cbn [rbind]. replace (len <? 0) with true by lia. reflexivity.
  - cbn [rbind]. replace (len <? 0) with true by lia. reflexivity.
Qed.
Lemma set_elem_range_ok {A} (nilv : A) l s e (ex : bool) val : 0 <= pos_of l s -> 0 <= pos_of l e ->
  let n := Z.max 0 (pos_of l e + (if ex then 0 else 1) - pos_of l s) in
  zlen (splice nilv l (pos_of l s) n (rhs_elems l val)) <= CAP ->
  set_elem_range nilv l s e ex val = Ok (splice nilv l (pos_of l s) n (rhs_elems l val)).
Proof.
  intros Hs He n Hc.
  assert (G : forall i, 0 <= pos_of l i -> get_array_index l i = Ok (pos_of l i)).
  { intros i. unfold get_array_index, pos_of. destruct (Z.ltb_spec i 0); intros; [|reflexivity].
    replace (zlen l + i <? 0) with false by lia. reflexivity. }
  unfold set_elem_range. rewrite !G by assumption. cbn [rbind].
  destruct (Z.ltb_spec (pos_of l e + (if ex then 0 else 1)) (pos_of l s)).
  - assert (n = 0) as En by lia. rewrite En in *. apply set_elem2_ok; [assumption|lia|assumption].
  - assert (n = pos_of l e + (if ex then 0 else 1) - pos_of l s) as En by lia. rewrite <- En.
    apply set_elem2_ok; [assumption|lia|assumption].
Qed.

(* ---- slices ---- *)
Lemma v_slice_ok {A} (l : list A) s e : 0 <= s <= e -> e <= zlen l -> v_slice l s e = Ok (zfirst (e - s) (zskip s l)).
Proof. intros. unfold v_slice. replace (_ && _) with true by lia. reflexivity. Qed.
Lemma get_elem2_ok {A} (l : list A) i n : 0 <= pos_of l i <= zlen l -> 0 <= n ->
  get_elem2 l i n = Ok (Some (zfirst n (zskip (pos_of l i) l))).
Proof.
  unfold get_elem2, get_array_index, pos_of. intros H Hn.
  assert (Eif : match (if i <? 0 then if zlen l + i <? 0 then Err RangeErr else Ok (zlen l + i) else Ok i)
     with Ok j => j | _ => zlen l end = if i <? 0 then zlen l + i else i).
  { destruct (Z.ltb_spec i 0); [|reflexivity]. replace (zlen l + i <? 0) with false by lia. reflexivity. }
  cbn zeta. rewrite Eif. clear Eif. set (p := if i <? 0 then zlen l + i else i) in *. clearbody p.
  replace (n <? 0) with false by lia.
  destruct (Z.leb_spec (zlen l) p).
  - rewrite zskip_all by lia. unfold zfirst. rewrite firstn_nil. reflexivity.
  - rewrite v_slice_ok by lia. cbn [rbind]. do 2 f_equal.
    destruct (Z.leb_spec (p + n) (zlen l)).
    + rewrite Z.min_r by lia. f_equal. lia.
    + rewrite Z.min_l by lia. rewrite !zfirst_all by (zl; lia). reflexivity.
Qed.
Lemma get_elem2_total {A} (l : list A) i n : exists r, get_elem2 l i n = Ok r.
Proof.
  pose proof (zlen_nonneg l).
  destruct (Z.ltb_spec n 0).
  - exists None. unfold get_elem2. replace (n <? 0) with true by lia. reflexivity.
  - destruct (Z.leb_spec 0 (pos_of l i)).
    + destruct (Z.leb_spec (pos_of l i) (zlen l)); [eexists; apply get_elem2_ok; lia|].
      exists (Some []). unfold get_elem2, get_array_index, pos_of in *.
      replace (n <? 0) with false by lia. destruct (Z.ltb_spec i 0).
      * replace (zlen l + i <? 0) with false by lia. replace (zlen l <=? zlen l + i) with true by lia. reflexivity.
      * replace (zlen l <=? i) with true by lia. reflexivity.
    + exists (Some []). unfold get_elem2, get_array_index, pos_of in *.
      replace (n <? 0) with false by lia. destruct (Z.ltb_spec i 0); [|lia].
      replace (zlen l + i <? 0) with true by lia. rewrite Z.leb_refl. reflexivity.
Qed.
(* Range slices: number of elements requested *)
Definition range_count {A} (l : list A) (s e : Z) (ex : bool) : Z :=
  pos_of l e + (if ex then 0 else 1) - pos_of l s.
Lemma get_elem_range_ok {A} (l : list A) s e (ex : bool) : zlen l < 2 ^ 63 ->
  0 <= pos_of l s <= zlen l -> 0 <= pos_of l e + (if ex then 0 else 1) -> e < 2 ^ 63 ->
  get_elem_range l s e ex = Ok (Some (zfirst (range_count l s e ex) (zskip (pos_of l s) l))).
Proof.
  intros HL Hs He HE. unfold get_elem_range, range_count. fold (pos_of l s).
  pose proof (zlen_nonneg l).
  set (p := pos_of l s) in *. clearbody p.
  replace (zlen l <? p) with false by lia.
  destruct (Z.eqb_spec (zlen l) p).
  - rewrite zskip_all by lia. unfold zfirst. rewrite firstn_nil. reflexivity.
  - assert (Hu : u64 p = p) by (unfold u64; apply Z.mod_small; lia).
    rewrite Hu. unfold pos_of in *. destruct (Z.leb_spec 0 e).
    + replace (e <? 0) with false in * by lia.
      set (q := e + (if ex then 0 else 1)) in *. clearbody q.
      destruct (Z.ltb_spec (zlen l) q).
      * replace (zlen l <=? p) with false by lia. rewrite v_slice_ok by lia. cbn [rbind]. do 2 f_equal.
        rewrite !zfirst_all by (zl; lia). reflexivity.
      * destruct (Z.leb_spec q p).
        -- rewrite zfirst_0 by lia. reflexivity.
        -- rewrite v_slice_ok by lia. reflexivity.
    + replace (e <? 0) with true in * by lia.
      set (q := zlen l + e + (if ex then 0 else 1)) in *.
      assert (q <= zlen l) by (destruct ex; lia). clearbody q.
      replace (u64 q) with q by (unfold u64; rewrite Z.mod_small; lia).
      destruct (Z.leb_spec q p).
      * rewrite zfirst_0 by lia. reflexivity.
      * rewrite v_slice_ok by lia. reflexivity.
Qed.

Lemma rd_nth {A} (nilv : A) l j : nth (Z.to_nat j) l nilv = rd nilv l j.
Proof.
  unfold rd. destruct (nth_error l (Z.to_nat j)) eqn:E.
  - apply nth_error_nth. exact E.
  - apply nth_overflow. apply nth_error_None. exact E.
Qed.
Lemma set_elem1_low' {A} (nilv : A) l i v : i < - zlen l -> set_elem1 nilv l i v = Err RangeErr.
Proof. intros H. pose proof (zlen_nonneg l). apply set_elem1_low. unfold pos_of. destruct (Z.ltb_spec i 0); lia. Qed.
Lemma set_elem_refused {A} (nilv : A) l i n val :
  (i < - zlen l -> set_elem nilv l i n val = Err RangeErr) /\
  (- zlen l <= i -> n < 0 -> set_elem nilv l i n val = Err IndexErr).
Proof.
  pose proof (zlen_nonneg l). split; intros.
  - apply set_elem_low. unfold pos_of. destruct (Z.ltb_spec i 0); lia.
  - apply set_elem_neglen; [|assumption]. unfold pos_of. destruct (Z.ltb_spec i 0); lia.
Qed.
