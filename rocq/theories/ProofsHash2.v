(* Key equality. *)
From Verif Require Import Base ProofsBase ModelArray ProofsArray ModelValue ModelFloat ModelString ProofsString ModelHash ProofsHash.
From Coq Require Import SpecFloat.
Ltac Zify.zify_post_hook ::= Z.div_mod_to_equations.

(* ---- float equality on bit patterns ---- *)
Lemma bits_split b : 0 <= b < 2 ^ 64 ->
  b = sbit (Z.testbit b 63) + ((b / 2 ^ 52) mod 2 ^ 11) * 2 ^ 52 + b mod 2 ^ 52.
Proof.
  intros H. assert (T : Z.testbit b 63 = (2 ^ 63 <=? b)).
  { rewrite Z.testbit_eqb by lia.
    assert (b / 2 ^ 63 = if 2 ^ 63 <=? b then 1 else 0) as -> by (destruct (Z.leb_spec (2 ^ 63) b); lia).
    destruct (2 ^ 63 <=? b); reflexivity. }
  rewrite T. unfold sbit. destruct (Z.leb_spec (2 ^ 63) b); lia.
Qed.
Lemma bits_of_sf_of_bits b : 0 <= b < 2 ^ 64 -> sf_of_bits b <> S754_nan -> bits_of_sf (sf_of_bits b) = b.
Proof.
  intros H N. pose proof (bits_split b H) as S. unfold sf_of_bits in *.
  set (e := (b / 2 ^ 52) mod 2 ^ 11) in *. set (m := b mod 2 ^ 52) in *.
  assert (He : 0 <= e < 2 ^ 11) by (apply Z.mod_pos_bound; lia). assert (Hm : 0 <= m < 2 ^ 52) by (apply Z.mod_pos_bound; lia).
  clearbody e m. generalize dependent (Z.testbit b 63). intros s S N.
  destruct (Z.eqb_spec e 0) as [->|E0].
  - destruct m as [|p|p]; [cbn; lia| |lia]. cbn [bits_of_sf]. destruct (Z.ltb_spec (Z.pos p) (2 ^ 52)); lia.
  - destruct (Z.eqb_spec e 2047) as [->|E1].
    + destruct (Z.eqb_spec m 0) as [->|]; [cbn [bits_of_sf]; lia|contradiction].
    + destruct (m + 2 ^ 52) as [|p|p] eqn:Ep; try lia. cbn [bits_of_sf].
      destruct (Z.ltb_spec (Z.pos p) (2 ^ 52)); lia.
Qed.
Lemma SFcompare_Eq x y : SFcompare x y = Some Eq ->
  x = y \/ (exists s t, x = S754_zero s /\ y = S754_zero t).
Proof.
  destruct x as [s|s| |s m e], y as [t|t| |t n f]; cbn; intros H; try discriminate; eauto;
    try (destruct s; discriminate); try (destruct t; discriminate); try (destruct s, t; solve [discriminate|left; reflexivity]).
  left. destruct s, t; try discriminate.
  - destruct (Z.compare_spec e f) as [->|?|?]; try discriminate.
    injection H as H. destruct (Pos.compare_cont Eq m n) eqn:C; try discriminate.
    assert (m = n) by (apply Pos.compare_eq; exact C). subst. reflexivity.
  - destruct (Z.compare_spec e f) as [->|?|?]; try discriminate.
    injection H as H. assert (m = n) by (apply Pos.compare_eq; exact H). subst. reflexivity.
Qed.
Lemma sf_zero_bits b s : 0 <= b < 2 ^ 64 -> sf_of_bits b = S754_zero s -> f64_is_zero b = true.
Proof.
  intros H E. pose proof (bits_of_sf_of_bits b H) as R. rewrite E in R. specialize (R ltac:(discriminate)). cbn in R.
  unfold f64_is_zero. rewrite <- R. destruct s; reflexivity.
Qed.
Lemma feq_bits x y : 0 <= x < 2 ^ 64 -> 0 <= y < 2 ^ 64 -> f64_is_zero x = false -> feq x y = true -> x = y.
Proof.
  unfold feq, fcmp. intros Hx Hy Hz H.
  destruct (SFcompare (sf_of_bits x) (sf_of_bits y)) as [[]|] eqn:C; try discriminate.
  assert (Nx : sf_of_bits x <> S754_nan) by (intros E; rewrite E in C; discriminate).
  assert (Ny : sf_of_bits y <> S754_nan) by (intros E; rewrite E in C; destruct (sf_of_bits x); discriminate).
  apply SFcompare_Eq in C. destruct C as [C|(s & t & C & _)].
  - rewrite <- (bits_of_sf_of_bits x Hx Nx), <- (bits_of_sf_of_bits y Hy Ny). congruence.
  - rewrite (sf_zero_bits x s Hx C) in Hz. discriminate.
Qed.

(* ---- induction on keys ---- *)
Section KvInd.
  Variable Q : kv -> Prop.
  Hypothesis H1 : forall w, Q (KImm w).
  Hypothesis H2 : forall i n, Q (KBig i n).
  Hypothesis H3 : forall i b, Q (KFloat i b).
  Hypothesis H4 : forall i s, Q (KStr i s).
  Hypothesis H5 : forall i l, Forall Q l -> Q (KArr i l).
  Hypothesis H6 : forall i s e x, Q s -> Q e -> Q (KRange i s e x).
  Hypothesis H7 : forall i l, Forall (fun e => Q (fst e) /\ Q (snd e)) l -> Q (KHash i l).
  Hypothesis H8 : forall i, Q (KObj i).
  Fixpoint kv_ind' (a : kv) : Q a :=
    match a with
    | KImm w => H1 w
    | KBig i n => H2 i n
    | KFloat i b => H3 i b
    | KStr i s => H4 i s
    | KArr i l => H5 i l ((fix go l : Forall Q l := match l with [] => Forall_nil _ | x :: r => Forall_cons x (kv_ind' x) (go r) end) l)
    | KRange i s e x => H6 i s e x (kv_ind' s) (kv_ind' e)
    | KHash i l => H7 i l ((fix go l : Forall (fun e => Q (fst e) /\ Q (snd e)) l :=
        match l with [] => Forall_nil _ | x :: r => Forall_cons x (conj (kv_ind' (fst x)) (kv_ind' (snd x))) (go r) end) l)
    | KObj i => H8 i
    end.
End KvInd.

(* keys built from numbers, symbols, strings, arrays, ranges and other objects;
   heap floats are never zero (C02) *)
Fixpoint plain (a : kv) : bool :=
  match a with
  | KFloat _ b => (0 <=? b) && (b <? 2 ^ 64) && negb (f64_is_zero b)
  | KArr _ l => forallb plain l
  | KRange _ s e _ => plain s && plain e
  | KHash _ _ => false
  | _ => true
  end.
(* what a key refers to *)
Inductive sub : kv -> kv -> Prop :=
  | sub_refl a : sub a a
  | sub_arr a i l x : In x l -> sub a x -> sub a (KArr i l)
  | sub_range_s a i s e b : sub a s -> sub a (KRange i s e b)
  | sub_range_e a i s e b : sub a e -> sub a (KRange i s e b)
  | sub_hash_k a i l k v : In (k, v) l -> sub a k -> sub a (KHash i l)
  | sub_hash_v a i l k v : In (k, v) l -> sub a v -> sub a (KHash i l).
(* one heap: objects reachable from the keys with the same address are the same object *)
Definition one_heap (ks : kv -> Prop) : Prop :=
  forall a b x y, ks x -> ks y -> sub a x -> sub b y -> kid a = kid b -> a = b.

Section Keq.
  Variable hashf : list Z -> Z.
  Variable probe : Z -> Z -> bool.
  Notation eql := (keq hashf probe true).
  Fixpoint all2 (l r : list kv) : bool :=
    match l, r with [], [] => true | x :: l', y :: r' => eql x y && all2 l' r' | _, _ => false end.
  Lemma eql_arr i l j r : i <> j -> eql (KArr i l) (KArr j r) = all2 l r.
  Proof.
    intros H. cbn [keq kid]. destruct (Z.eqb_spec i j); [contradiction|]. clear H n.
    reflexivity.
  Qed.
  Lemma eql_refl a : eql a a = true.
  Proof. destruct a; cbn [keq kid]; rewrite Z.eqb_refl; reflexivity. Qed.
  (* structural equality: ids ignored *)
  Fixpoint same (a b : kv) : Prop :=
    match a, b with
    | KImm w, KImm w' => w = w'
    | KBig _ x, KBig _ y => x = y
    | KFloat i x, KFloat j y => x = y /\ (sf_of_bits x = S754_nan -> i = j)
    | KStr _ x, KStr _ y => x = y
    | KArr _ l, KArr _ r => (fix go l r := match l, r with [], [] => True | x :: l', y :: r' => same x y /\ go l' r' | _, _ => False end) l r
    | KRange _ s e x, KRange _ s' e' x' => same s s' /\ same e e' /\ x = x'
    | KObj i, KObj j => i = j
    | _, _ => False
    end.
  Fixpoint same_list (l r : list kv) : Prop :=
    match l, r with [], [] => True | x :: l', y :: r' => same x y /\ same_list l' r' | _, _ => False end.
  Lemma same_arr i l j r : same (KArr i l) (KArr j r) = same_list l r.
  Proof. reflexivity. Qed.
  Lemma same_refl a : plain a = true -> same a a.
  Proof.
    induction a as [w|i n|i b|i s|i l IH|i s e x IHs IHe|i l IH|i] using kv_ind'; intros H; cbn [same]; auto.
    - change (same (KArr i l) (KArr i l)). rewrite same_arr. cbn in H. induction IH as [|x l Hx _ IHl]; [exact I|].
      cbn [forallb same_list] in *. apply andb_true_iff in H. destruct H. auto.
    - cbn in H. apply andb_true_iff in H. destruct H. auto.
    - discriminate.
  Qed.
  Lemma feq_refl x : sf_of_bits x <> S754_nan -> feq x x = true.
  Proof.
    unfold feq, fcmp. intros H. destruct (sf_of_bits x) as [s|s| |s m e]; try contradiction; cbn; try (destruct s; reflexivity).
    rewrite Z.compare_refl. change (Pos.compare_cont Eq m m) with (Pos.compare m m). rewrite Pos.compare_refl. destruct s; reflexivity.
  Qed.
  Lemma same_sym a : forall b, same a b -> same b a.
  Proof.
    induction a as [w|i n|i b0|i s|i l IH|i s e x IHs IHe|i l IH|i] using kv_ind'; intros [w'|j n'|j b'|j s'|j l'|j s' e' x'|j l'|j] H; cbn [same] in H; try contradiction; try (cbn [same]; congruence).
    - cbn [same]. destruct H as [-> H]. split; [reflexivity|]. intros N. symmetry. auto.
    - change (same (KArr i l) (KArr j l')) in H. rewrite same_arr in *. revert l' H. induction IH as [|x l Hx _ IHl]; intros [|y l'] H; cbn [same_list] in *; try contradiction; auto.
      destruct H. split; [apply Hx|apply IHl]; assumption.
    - cbn [same]. destruct H as (H1 & H2 & H3). split; [apply IHs; exact H1|]. split; [apply IHe; exact H2|congruence].
  Qed.
  Lemma same_trans a : forall b c, same a b -> same b c -> same a c.
  Proof.
    induction a as [w|i n|i b0|i s|i l IH|i s e x IHs IHe|i l IH|i] using kv_ind'; intros [w'|j n'|j b'|j s'|j l'|j s' e' x'|j l'|j] [w2|k n2|k b2|k s2|k l2|k s2 e2 x2|k l2|k] H H'; cbn [same] in H, H'; try contradiction; try (cbn [same]; congruence).
    - cbn [same]. destruct H as [-> H], H' as [-> H']. split; [reflexivity|]. intros N. rewrite (H N). auto.
    - change (same (KArr i l) (KArr j l')) in H. change (same (KArr j l') (KArr k l2)) in H'. rewrite same_arr in *.
      revert l' l2 H H'. induction IH as [|x l Hx _ IHl]; intros [|y l'] [|z l2] H H'; cbn [same_list] in *; try contradiction; auto.
      destruct H, H'. split; [eapply Hx; eassumption|eapply IHl; eassumption].
    - cbn [same]. destruct H as (A1 & A2 & A3), H' as (B1 & B2 & B3). split; [eapply IHs; eassumption|]. split; [eapply IHe; eassumption|congruence].
  Qed.
  Lemma same_feed a : forall b, same a b -> feed a = feed b.
  Proof.
    induction a as [w|i n|i b0|i s|i l IH|i s e x IHs IHe|i l IH|i] using kv_ind'; intros [w'|j n'|j b'|j s'|j l'|j s' e' x'|j l'|j] H; cbn [same] in H; try contradiction; try (cbn [feed]; congruence).
    - cbn [feed]. destruct H as [-> _]. reflexivity.
    - change (same (KArr i l) (KArr j l')) in H. rewrite same_arr in H. cbn [feed].
      assert (zlen l = zlen l' /\ flat_map feed l = flat_map feed l') as [-> ->]; [|reflexivity].
      revert l' H. induction IH as [|x l Hx _ IHl]; intros [|y l'] H; cbn [same_list] in H; try contradiction; auto.
      destruct H as [Ha Hb]. destruct (IHl _ Hb) as [E1 E2]. rewrite !zlen_cons, E1. split; [reflexivity|].
      cbn [flat_map]. rewrite (Hx _ Ha), E2. reflexivity.
    - cbn [feed]. destruct H as (H1 & H2 & ->). rewrite (IHs _ H1), (IHe _ H2). reflexivity.
  Qed.
  (* eql? is structural equality on the plain keys of one heap *)
  Lemma eql_same ks : one_heap ks -> forall a b x y, ks x -> ks y -> sub a x -> sub b y ->
    plain a = true -> plain b = true -> eql a b = true <-> same a b.
  Proof.
    intros OH a. induction a as [w|i n|i b0|i s|i l IH|i s e ex IHs IHe|i l IH|i] using kv_ind'; intros b x y Kx Ky Sx Sy Pa Pb.
    all: match goal with |- (keq _ _ true ?a ?b = true <-> _) => destruct (Z.eq_dec (kid a) (kid b)) as [Hid|Hid];
      [ assert (E : a = b) by (exact (OH _ _ x y Kx Ky Sx Sy Hid)); rewrite <- E; split; [intros _; apply same_refl; exact Pa|intros _; apply eql_refl] | ] end.
    all: cbn [kid] in Hid.
    - destruct b; cbn [keq kid same] in *; rewrite (proj2 (Z.eqb_neq _ _) Hid); split; intros; try discriminate; try contradiction; congruence.
    - destruct b; cbn [keq kid same] in *; rewrite (proj2 (Z.eqb_neq _ _) Hid); try (split; intros; try discriminate; contradiction).
      apply Z.eqb_eq.
    - destruct b; cbn [keq kid same] in *; rewrite (proj2 (Z.eqb_neq _ _) Hid); try (split; intros; try discriminate; contradiction).
      cbn [plain] in Pa, Pb. split.
      + intros F. assert (E : b0 = bits).
        { apply feq_bits; try lia; try exact F. destruct (f64_is_zero b0); [rewrite andb_false_r in Pa; discriminate|reflexivity]. }
        subst bits. split; [reflexivity|]. intros N. exfalso. unfold feq, fcmp in F. rewrite N in F. discriminate.
      + intros [<- N]. apply feq_refl. intros E. apply Hid. auto.
    - destruct b; cbn [keq kid same] in *; rewrite (proj2 (Z.eqb_neq _ _) Hid); try (split; intros; try discriminate; contradiction).
      apply rs_eql_true.
    - destruct b as [w'|j n'|j b'|j s'|j l'|j s' e' x'|j l'|j]; cbn [kid] in Hid;
        try (cbn [keq kid same]; rewrite (proj2 (Z.eqb_neq _ _) Hid); split; intros; try discriminate; contradiction).
      rewrite eql_arr by exact Hid. rewrite same_arr. cbn [plain] in Pa, Pb.
      assert (S1 : forall z, In z l -> sub z x).
      { intros z Hz. clear - Sx Hz. remember (KArr i l) as t eqn:Et. revert i l Et Hz. induction Sx; intros i0 l0 Et Hz; subst.
        - eapply sub_arr; [exact Hz|apply sub_refl].
        - eapply sub_arr; [eassumption|eapply IHSx; [reflexivity|exact Hz]].
        - apply sub_range_s. eapply IHSx; [reflexivity|exact Hz].
        - apply sub_range_e. eapply IHSx; [reflexivity|exact Hz].
        - eapply sub_hash_k; [eassumption|eapply IHSx; [reflexivity|exact Hz]].
        - eapply sub_hash_v; [eassumption|eapply IHSx; [reflexivity|exact Hz]]. }
      assert (S2 : forall z, In z l' -> sub z y).
      { intros z Hz. clear - Sy Hz. remember (KArr j l') as t eqn:Et. revert j l' Et Hz. induction Sy; intros i0 l0 Et Hz; subst.
        - eapply sub_arr; [exact Hz|apply sub_refl].
        - eapply sub_arr; [eassumption|eapply IHSy; [reflexivity|exact Hz]].
        - apply sub_range_s. eapply IHSy; [reflexivity|exact Hz].
        - apply sub_range_e. eapply IHSy; [reflexivity|exact Hz].
        - eapply sub_hash_k; [eassumption|eapply IHSy; [reflexivity|exact Hz]].
        - eapply sub_hash_v; [eassumption|eapply IHSy; [reflexivity|exact Hz]]. }
      clear Sx Sy Hid. revert l' Pb S2. induction IH as [|z l Hz _ IHl]; intros [|z' l'] Pb S2; cbn [all2 same_list].
      + tauto.
      + split; [discriminate|contradiction].
      + split; [discriminate|contradiction].
      + cbn [forallb] in Pa, Pb. apply andb_true_iff in Pa, Pb. destruct Pa as [Pa1 Pa2], Pb as [Pb1 Pb2].
        rewrite andb_true_iff. rewrite (Hz z' x y) by (auto using in_eq). rewrite IHl; auto using in_cons. tauto.
    - destruct b as [w'|j n'|j b'|j s'|j l'|j s' e' x'|j l'|j]; cbn [kid] in Hid;
        try (cbn [keq kid same]; rewrite (proj2 (Z.eqb_neq _ _) Hid); split; intros; try discriminate; contradiction).
      cbn [plain] in Pa, Pb. apply andb_true_iff in Pa, Pb. destruct Pa as [Pa1 Pa2], Pb as [Pb1 Pb2].
      assert (S1 : sub s x /\ sub e x).
      { clear - Sx. remember (KRange i s e ex) as t eqn:Et. induction Sx; subst; try specialize (IHSx eq_refl).
        - split; [apply sub_range_s|apply sub_range_e]; apply sub_refl.
        - split; (eapply sub_arr; [eassumption|]); tauto.
        - split; apply sub_range_s; tauto.
        - split; apply sub_range_e; tauto.
        - split; (eapply sub_hash_k; [eassumption|]); tauto.
        - split; (eapply sub_hash_v; [eassumption|]); tauto. }
      assert (S2 : sub s' y /\ sub e' y).
      { clear - Sy. remember (KRange j s' e' x') as t eqn:Et. induction Sy; subst; try specialize (IHSy eq_refl).
        - split; [apply sub_range_s|apply sub_range_e]; apply sub_refl.
        - split; (eapply sub_arr; [eassumption|]); tauto.
        - split; apply sub_range_s; tauto.
        - split; apply sub_range_e; tauto.
        - split; (eapply sub_hash_k; [eassumption|]); tauto.
        - split; (eapply sub_hash_v; [eassumption|]); tauto. }
      destruct S1 as [S1 S1'], S2 as [S2 S2'].
      cbn [keq kid same]. destruct (Z.eqb_spec i j); [contradiction|].
      rewrite !andb_true_iff, (IHs s' x y), (IHe e' x y) by assumption. rewrite eqb_true_iff. tauto.
    - discriminate.
    - destruct b; cbn [keq kid same] in *; rewrite (proj2 (Z.eqb_neq _ _) Hid); split; intros; try discriminate; contradiction.
  Qed.
  (* a key in use: plain, and all from one heap *)
  Lemma keys_good ks : one_heap ks -> (forall a, ks a -> plain a = true) -> (forall h, probe h h = true) ->
    good_keys (khash hashf) eql probe ks.
  Proof.
    intros OH HP HR.
    assert (E : forall a b, ks a -> ks b -> eql a b = true <-> same a b).
    { intros a b Ha Hb. eapply (eql_same ks OH a b a b); auto using sub_refl. }
    repeat split.
    - intros k _. apply eql_refl.
    - intros a b Ha Hb H. apply E; auto. apply same_sym. apply E; auto.
    - intros a b c Ha Hb Hc H1 H2. apply E; auto. apply (same_trans a b c); apply E; assumption.
    - intros a b Ha Hb H. unfold khash. f_equal. apply same_feed. apply E; auto.
    - exact HR.
  Qed.
  Lemma ident_good ks : (forall h, probe h h = true) -> good_keys (ihash hashf) ieqb probe ks.
  Proof.
    intros HR. unfold ieqb, ihash. repeat split.
    - intros k _. apply Z.eqb_refl.
    - intros a b _ _ H. apply Z.eqb_eq in H. apply Z.eqb_eq. congruence.
    - intros a b c _ _ _ H1 H2. apply Z.eqb_eq in H1, H2. apply Z.eqb_eq. congruence.
    - intros a b _ _ H. apply Z.eqb_eq in H. congruence.
    - exact HR.
  Qed.
End Keq.
