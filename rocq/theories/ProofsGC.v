(* The collector: addresses, marking, sweeping. *)
From Verif Require Import Base ProofsBase ModelArray ProofsArray ModelGC.
From Coq Require Import Permutation.
Ltac Zify.zify_post_hook ::= Z.div_mod_to_equations.

Definition seqZ (n : Z) : list Z := map Z.of_nat (seq 0 (Z.to_nat n)).
Lemma in_seqZ n i : In i (seqZ n) <-> 0 <= i < n.
Proof.
  unfold seqZ. rewrite in_map_iff. split.
  - intros (k & <- & H). apply in_seq in H. lia.
  - intros H. exists (Z.to_nat i). rewrite Z2Nat.id by lia. split; [reflexivity|]. apply in_seq. lia.
Qed.
Lemma seqZ_NoDup n : NoDup (seqZ n).
Proof. unfold seqZ. apply FinFun.Injective_map_NoDup; [intros x y H; lia|apply seq_NoDup]. Qed.
Lemma zlen_seqZ n : 0 <= n -> zlen (seqZ n) = n.
Proof. intros H. unfold zlen, seqZ. rewrite map_length, seq_length. lia. Qed.
Lemma upd_same {A} (f : Z -> A) a v : upd f a v a = v.
Proof. unfold upd. rewrite Z.eqb_refl. reflexivity. Qed.
Lemma upd_other {A} (f : Z -> A) a v x : x <> a -> upd f a v x = f x.
Proof. intros H. unfold upd. destruct (Z.eqb_spec x a); [contradiction|reflexivity]. Qed.

(* reachability in an abstract heap *)
Inductive reach (A : Z -> option obj) (roots : list Z) : Z -> Prop :=
  | reach_root a : In a roots -> reach A roots a
  | reach_ref a o x : reach A roots a -> A a = Some o -> In x (refs o) -> reach A roots x.

(* the free list *)
Fixpoint chain (m : Z -> cell) (f : option Z) (l : list Z) : Prop :=
  match l with
  | [] => f = None
  | a :: r => f = Some a /\ exists n, m a = Invalid n /\ chain m n r
  end.
Lemma chain_ext m m' l : forall f, (forall a, In a l -> m' a = m a) -> chain m f l -> chain m' f l.
Proof.
  induction l as [|a l IH]; intros f H C; [exact C|]. destruct C as (-> & n & E & C). split; [reflexivity|].
  exists n. split; [rewrite H; [exact E|left; reflexivity]|]. apply IH; [|exact C]. intros x Hx. apply H. right. exact Hx.
Qed.
Lemma chain_snoc m l x : forall f, l <> [] -> chain m f l -> NoDup (l ++ [x]) ->
  chain (upd (upd m (last l 0) (Invalid (Some x))) x (Invalid None)) f (l ++ [x]).
Proof.
  induction l as [|a l IH]; intros f Hne C ND; [contradiction|]. destruct C as (-> & n & E & C). split; [reflexivity|].
  cbn [app] in ND. inversion ND as [|? ? Hni ND']; subst.
  assert (Hax : a <> x) by (intros ->; apply Hni; apply in_or_app; right; left; reflexivity).
  destruct l as [|b l].
  - cbn [last app]. exists (Some x). split; [rewrite upd_other by exact Hax; apply upd_same|].
    split; [reflexivity|]. exists None. split; [apply upd_same|reflexivity].
  - change (last (a :: b :: l) 0) with (last (b :: l) 0). exists n. split.
    + rewrite upd_other by exact Hax. rewrite upd_other; [exact E|].
      intros E'. apply Hni. apply in_or_app. left. rewrite E'. clear. generalize dependent b. induction l as [|c l IH]; intros b; [left; reflexivity|].
      right. apply (IH c).
    + apply IH; [discriminate|exact C|exact ND'].
Qed.

Section Addr.
  Variable off : Z.
  Hypothesis OFF : 0 <= off /\ off + GCBOX_SIZE * DATA_LEN <= ALLOC_SIZE.
  Definition page_ok (p : Z) : Prop := 0 < p /\ p mod ALLOC_SIZE = 0.
  Definition cell_addr (p i : Z) : Z := p + off + GCBOX_SIZE * i.
  Definition index_of (a : Z) : Z := (a - (from_inner a + off)) / GCBOX_SIZE.
  Lemma from_inner_mod a : from_inner a = a - a mod ALLOC_SIZE.
  Proof using.
    unfold from_inner. rewrite <- Z.ldiff_land. change (ALLOC_SIZE - 1) with (Z.ones 18). rewrite Z.ldiff_ones_r by lia.
    rewrite Z.shiftl_mul_pow2, Z.shiftr_div_pow2 by lia. change ALLOC_SIZE with (2 ^ 18). pose proof (Z.div_mod a (2 ^ 18)). lia.
  Qed.
  Lemma from_inner_cell p i : page_ok p -> 0 <= i < DATA_LEN -> from_inner (cell_addr p i) = p.
  Proof using OFF.
    intros [Hp Hm] Hi. rewrite from_inner_mod. unfold cell_addr.
    assert (0 <= off + GCBOX_SIZE * i < ALLOC_SIZE) by (unfold GCBOX_SIZE in *; lia).
    replace ((p + off + GCBOX_SIZE * i) mod ALLOC_SIZE) with (off + GCBOX_SIZE * i); [lia|].
    rewrite <- Z.add_assoc, Z.add_mod, Hm by discriminate. rewrite Z.add_0_l, Z.mod_mod by discriminate.
    rewrite Z.mod_small by lia. reflexivity.
  Qed.
  Lemma index_of_cell p i : page_ok p -> 0 <= i < DATA_LEN -> index_of (cell_addr p i) = i.
  Proof using OFF.
    intros Hp Hi. unfold index_of. rewrite from_inner_cell by assumption. unfold cell_addr.
    replace (p + off + GCBOX_SIZE * i - (p + off)) with (i * GCBOX_SIZE) by lia. apply Z.div_mul. discriminate.
  Qed.
  Lemma cell_addr_inj p i q j : page_ok p -> page_ok q -> 0 <= i < DATA_LEN -> 0 <= j < DATA_LEN ->
    cell_addr p i = cell_addr q j -> p = q /\ i = j.
  Proof using OFF.
    intros Hp Hq Hi Hj E. pose proof (from_inner_cell p i Hp Hi) as P1. pose proof (from_inner_cell q j Hq Hj) as P2.
    pose proof (index_of_cell p i Hp Hi) as I1. pose proof (index_of_cell q j Hq Hj) as I2. rewrite E in *. split; congruence.
  Qed.
  (* ---- mark bits ---- *)
  Definition bits_ok (b : Z -> list Z) : Prop := forall p, zlen (b p) = SIZE - 1 /\ Forall (fun w => 0 <= w < 2 ^ 64) (b p).
  Definition bit_of (b : Z -> list Z) (p i : Z) : bool := Z.testbit (nth (Z.to_nat (i / 64)) (b p) 0) (i mod 64).
  Definition mk (b : Z -> list Z) (a : Z) : bool := bit_of b (from_inner a) (index_of a).
  Lemma mk_cell b p i : page_ok p -> 0 <= i < DATA_LEN -> mk b (cell_addr p i) = bit_of b p i.
  Proof using OFF. intros Hp Hi. unfold mk. rewrite from_inner_cell, index_of_cell by assumption. reflexivity. Qed.
  Lemma land_pow2 w k : 0 <= k -> negb (Z.land w (2 ^ k) =? 0) = Z.testbit w k.
  Proof using.
    intros Hk. destruct (Z.testbit w k) eqn:E.
    - apply negb_true_iff, Z.eqb_neq. intros H. apply (f_equal (fun z => Z.testbit z k)) in H.
      rewrite Z.land_spec, E, Z.pow2_bits_true, Z.bits_0 in H by lia. discriminate.
    - apply negb_false_iff, Z.eqb_eq. apply Z.bits_inj'. intros n Hn. rewrite Z.land_spec, Z.bits_0.
      destruct (Z.eq_dec n k) as [->|Hne]; [rewrite E; reflexivity|]. rewrite Z.pow2_bits_false by lia. apply andb_false_r.
  Qed.
  Lemma lor_range w k : 0 <= w < 2 ^ 64 -> 0 <= k < 64 -> 0 <= Z.lor w (2 ^ k) < 2 ^ 64.
  Proof using.
    intros Hw Hk. pose proof (Z.pow_pos_nonneg 2 k ltac:(lia) ltac:(lia)).
    assert (2 ^ k < 2 ^ 64) by (apply Z.pow_lt_mono_r; lia).
    split; [apply Z.lor_nonneg; lia|].
    destruct (Z.eq_dec (Z.lor w (2 ^ k)) 0) as [->|Hne]; [lia|].
    assert (0 <= Z.lor w (2 ^ k)) by (apply Z.lor_nonneg; lia).
    apply Z.log2_lt_cancel. rewrite Z.log2_lor by lia. rewrite !Z.log2_pow2 by lia.
    apply Z.max_lub_lt; [|lia]. destruct (Z.eq_dec w 0) as [->|]; [cbn; lia|]. apply Z.log2_lt_pow2; lia.
  Qed.
  Lemma v_get_nth {A} (l : list A) i d : 0 <= i < zlen l -> v_get l i = Ok (nth (Z.to_nat i) l d).
  Proof using.
    intros H. unfold v_get. destruct (Z.leb_spec 0 i); [|lia]. destruct (Z.ltb_spec i (zlen l)); [|lia]. cbn [andb].
    destruct (nth_error l (Z.to_nat i)) as [x|] eqn:E.
    - erewrite nth_error_nth by exact E. reflexivity.
    - apply nth_error_None in E. unfold zlen in *. lia.
  Qed.
  Lemma nth_v_set {A} (l : list A) i x r d : v_set l i x = Ok r -> 0 <= i < zlen l /\
    zlen r = zlen l /\ nth (Z.to_nat i) r d = x /\ (forall j, 0 <= j -> j <> i -> nth (Z.to_nat j) r d = nth (Z.to_nat j) l d).
  Proof using.
    unfold v_set. destruct (Z.leb_spec 0 i); [|discriminate]. destruct (Z.ltb_spec i (zlen l)); [|discriminate]. cbn [andb]. intros [= <-].
    assert (Hi : 0 <= i < zlen l) by lia. split; [exact Hi|].
    assert (L : length (zfirst i l) = Z.to_nat i) by (unfold zfirst; rewrite firstn_length; unfold zlen in *; lia).
    split; [rewrite zlen_app, zlen_cons, zlen_zfirst, zlen_zskip by lia; lia|]. split.
    - rewrite app_nth2 by lia. rewrite L, Nat.sub_diag. reflexivity.
    - intros j Hj Hne. destruct (Z.lt_ge_cases j i).
      + rewrite app_nth1 by lia. unfold zfirst. rewrite <- (firstn_skipn (Z.to_nat i) l) at 2. rewrite app_nth1; [reflexivity|]. rewrite firstn_length. unfold zlen in *. lia.
      + rewrite app_nth2 by lia. rewrite L. replace (Z.to_nat j - Z.to_nat i)%nat with (S (Z.to_nat (j - i - 1))) by lia. cbn [nth].
        unfold zskip. rewrite <- (firstn_skipn (Z.to_nat (i + 1)) l) at 2. rewrite app_nth2 by (rewrite firstn_length; lia).
        rewrite firstn_length. f_equal. unfold zlen in *. lia.
  Qed.
  Lemma check_and_mark_ok b cnt p i : bits_ok b -> page_ok p -> 0 <= i < DATA_LEN ->
    exists b', check_and_mark off (cell_addr p i) (b, cnt) = Ok (bit_of b p i, (b', if bit_of b p i then cnt else cnt + 1)) /\
      bits_ok b' /\ (forall q j, 0 <= j < DATA_LEN -> bit_of b' q j = ((q =? p) && (j =? i)) || bit_of b q j).
  Proof using OFF.
    intros HB Hp Hi. unfold check_and_mark. rewrite from_inner_cell by assumption.
    change ((cell_addr p i - (p + off)) / GCBOX_SIZE) with ((cell_addr p i - (p + off)) / GCBOX_SIZE).
    assert (EI : (cell_addr p i - (p + off)) / GCBOX_SIZE = i).
    { pose proof (index_of_cell p i Hp Hi) as E. unfold index_of in E. rewrite from_inner_cell in E by assumption. exact E. }
    rewrite EI. destruct (Z.leb_spec 0 i); [|lia]. destruct (Z.ltb_spec i DATA_LEN); [|lia]. cbn [andb negb].
    destruct (HB p) as [HL HF]. change (SIZE - 1) with 63 in HL. change DATA_LEN with 4032 in *.
    assert (Hw : 0 <= i / 64 < zlen (b p)) by lia.
    rewrite (v_get_nth (b p) (i / 64) 0 Hw). cbn [rbind].
    assert (Hm : 0 <= i mod 64 < 64) by lia.
    rewrite land_pow2 by lia. set (w := nth (Z.to_nat (i / 64)) (b p) 0).
    assert (Rw : 0 <= w < 2 ^ 64).
    { rewrite Forall_forall in HF. apply HF. apply nth_In. unfold zlen in *. lia. }
    destruct (v_set (b p) (i / 64) (Z.lor w (2 ^ (i mod 64)))) as [r| |] eqn:E.
    2,3: (unfold v_set in E; destruct (Z.leb_spec 0 (i / 64)); [|lia]; destruct (Z.ltb_spec (i / 64) (zlen (b p))); [discriminate|lia]).
    pose proof (nth_v_set _ _ _ _ 0 E) as (_ & L & N1 & N2). cbn [rbind].
    exists (upd b p r). split; [reflexivity|]. split.
    - intros q. unfold upd. destruct (Z.eqb_spec q p) as [->|]; [|apply HB]. split; [change (SIZE - 1) with 63; lia|].
      apply Forall_forall. intros x Hx. apply (In_nth _ _ 0) in Hx. destruct Hx as (n & Hn & <-).
      destruct (Z.eq_dec (Z.of_nat n) (i / 64)) as [En|En].
      + replace n with (Z.to_nat (i / 64)) by lia. rewrite N1. apply lor_range; assumption.
      + replace n with (Z.to_nat (Z.of_nat n)) by lia. rewrite N2 by lia. rewrite Forall_forall in HF. apply HF. apply nth_In. unfold zlen in *. lia.
    - intros q j Hj. unfold bit_of. unfold upd. destruct (Z.eqb_spec q p) as [->|]; [|reflexivity]. cbn [andb].
      destruct (Z.eq_dec (j / 64) (i / 64)) as [Ed|Ed].
      + rewrite Ed, N1. unfold w. rewrite Z.lor_spec, Z.pow2_bits_eqb by lia. rewrite orb_comm. f_equal.
        destruct (Z.eqb_spec j i) as [->|]; [apply Z.eqb_refl|]. apply Z.eqb_neq. lia.
      + rewrite N2 by lia. destruct (Z.eqb_spec j i) as [->|]; [lia|reflexivity].
  Qed.
End Addr.
