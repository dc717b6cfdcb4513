(* C102: bsearch finds the first element, min and max the extreme ones. *)
From Coq Require Import Floats.SpecFloat.
From Verif Require Import Base ModelValue ModelFloat ModelArray ModelSearch ProofsFloat.

(* ---- the vocabulary ---- *)
(* i is the first place of l where p holds *)
Definition first_where {V} (p : V -> bool) (l : list V) (i : nat) (v : V) : Prop :=
  nth_error l i = Some v /\ p v = true /\ forall j x, (j < i)%nat -> nth_error l j = Some x -> p x = false.
(* once p holds it holds for all later elements *)
Definition turns_once {V} (p : V -> bool) (l : list V) : Prop :=
  forall i j x y, (i <= j)%nat -> nth_error l i = Some x -> nth_error l j = Some y -> p x = true -> p y = true.
(* a block that answers true or false (or nil) as p says, leaves the array
   alone and whose calls are counted *)
Definition counted_block {V S X} (elems : S -> list V) (block : V -> S -> bout X * S) (p : V -> bool) (calls : S -> nat) : Prop :=
  forall v s, exists a s', block v s = (Answers a, s') /\ (if p v then a = ATrue else a = AFalse \/ a = ANil) /\ elems s' = elems s /\ calls s' = Datatypes.S (calls s).

Section Bsearch.
Context {V S X : Type}.
Variable elems : S -> list V.
Variable block : V -> S -> bout X * S.
Variable p : V -> bool.
Variable calls : S -> nat.
Hypothesis HB : counted_block elems block p calls.
Lemma ask_ok {A} i s v (k : bool -> S -> sout X A * S) : nth_error (elems s) i = Some v ->
  exists s', ask elems block i s k = k (p v) s' /\ elems s' = elems s /\ calls s' = Datatypes.S (calls s).
Proof.
  intros E. unfold ask. rewrite E. destruct (HB v s) as (a & s' & Eb & Ha & El & Ec). rewrite Eb. exists s'. split; [|auto].
  destruct (p v); [subst a; reflexivity|]. destruct Ha as [-> | ->]; reflexivity.
Qed.
Lemma log2_up_half d : (2 <= d)%nat -> (1 + Nat.max (Nat.log2_up (Nat.div d 2)) (Nat.log2_up (d - Nat.div d 2)) <= Nat.log2_up d)%nat.
Proof.
  intros Hd. pose proof (Nat.div_mod d 2 ltac:(lia)) as DM. pose proof (Nat.mod_upper_bound d 2 ltac:(lia)) as MU. set (h := Nat.div d 2) in *. set (m := Nat.modulo d 2) in *.
  assert (HM : (Nat.log2_up h <= Nat.log2_up (d - h))%nat) by (apply Nat.log2_up_le_mono; lia). rewrite Nat.max_r by exact HM.
  destruct (Nat.le_gt_cases d 2) as [D2|D2].
  - clearbody h m. replace (d - h)%nat with 1%nat by lia. replace d with 2%nat by lia. vm_compute. constructor.
  - (* d - h = ceil (d/2); 2^(log2_up d) >= d *)
    destruct (Nat.log2_up_spec d ltac:(lia)) as [L1 L2]. set (L := Nat.log2_up d) in *.
    assert (LP : (1 <= L)%nat) by (destruct L; [cbn in L2; lia|lia]).
    assert (E : (2 ^ L = 2 * 2 ^ (L - 1))%nat) by (replace L with (Datatypes.S (L - 1)) at 1 by lia; reflexivity).
    assert (Q : (d - h <= 2 ^ (L - 1))%nat) by lia.
    apply Nat.log2_up_le_mono in Q. rewrite Nat.log2_up_pow2 in Q by lia. lia.
Qed.
Lemma loop_ok l : turns_once p l -> forall fuel i_min i_max s, elems s = l -> (i_min < i_max)%nat -> (i_max - i_min <= fuel)%nat ->
  (exists x, nth_error l i_min = Some x /\ p x = false) -> (exists y, nth_error l i_max = Some y /\ p y = true) ->
  exists i v s', search_loop elems block fuel i_min i_max s = (Found i, s') /\ elems s' = l /\ first_where p l i v /\ (calls s' <= calls s + Nat.log2_up (i_max - i_min))%nat.
Proof.
  intros HT. induction fuel as [|n IH]; intros i_min i_max s El Hlt HF Hmin Hmax; [lia|]. cbn [search_loop].
  set (d := (i_max - i_min)%nat) in *. set (mid := (i_min + Nat.div d 2)%nat).
  pose proof (Nat.div_mod d 2 ltac:(lia)) as DM. pose proof (Nat.mod_upper_bound d 2 ltac:(lia)) as MU.
  destruct (Nat.eqb_spec mid i_min) as [Em|Em].
  - assert (d = 1%nat) by (unfold mid in Em; lia). destruct Hmin as (x & Ex & Px), Hmax as (y & Ey & Py). exists i_max, y, s. split; [reflexivity|]. split; [exact El|]. split; [|lia].
    split; [exact Ey|]. split; [exact Py|]. intros j z Hj Ez. destruct (p z) eqn:Pz; [|reflexivity].
    rewrite (HT j i_min z x ltac:(unfold d in *; lia) Ez Ex Pz) in Px. discriminate.
  - assert (D2 : (2 <= d)%nat) by (unfold mid in Em; lia).
    assert (Hlen : (mid < length l)%nat).
    { destruct Hmax as (y & Ey & _). assert (i_max < length l)%nat by (apply nth_error_Some; congruence). unfold mid, d in *. lia. }
    destruct (nth_error l mid) as [v|] eqn:Ev; [|apply nth_error_None in Ev; lia].
    destruct (ask_ok mid s v (fun b s1 => if b then search_loop elems block n i_min mid s1 else search_loop elems block n mid i_max s1) ltac:(rewrite El; exact Ev)) as (s1 & Ea & El1 & Ec1).
    rewrite Ea. pose proof (log2_up_half d D2) as LH. destruct (p v) eqn:Pv.
    + destruct (IH i_min mid s1 ltac:(congruence)) as (i & w & s' & R & El' & FW & C); [unfold mid; lia|unfold mid; lia|exact Hmin|eauto|].
      exists i, w, s'. split; [exact R|]. split; [exact El'|]. split; [exact FW|]. replace (mid - i_min)%nat with (Nat.div d 2) in C by (unfold mid; lia). lia.
    + destruct (IH mid i_max s1 ltac:(congruence)) as (i & w & s' & R & El' & FW & C); [unfold mid, d in *; lia|unfold mid, d in *; lia|eauto|exact Hmax|].
      exists i, w, s'. split; [exact R|]. split; [exact El'|]. split; [exact FW|]. replace (i_max - mid)%nat with (d - Nat.div d 2)%nat in C by (unfold mid, d in *; lia). lia.
Qed.
Lemma bsearch_ok l s : elems s = l -> turns_once p l ->
  exists s', elems s' = l /\ (calls s' <= calls s + 2 + Nat.log2_up (length l))%nat /\
    ((exists i v, binary_search elems block s = (Found i, s') /\ first_where p l i v) \/
     (binary_search elems block s = (Absent, s') /\ forall v, In v l -> p v = false)).
Proof.
  intros El HT. unfold binary_search. rewrite El. destruct (Nat.eqb_spec (length l) 0) as [E0|E0].
  - exists s. split; [exact El|]. split; [lia|]. right. split; [reflexivity|]. destruct l; [intros v []|discriminate].
  - destruct (nth_error l 0) as [x|] eqn:Ex; [|apply nth_error_None in Ex; lia].
    set (top := (length l - 1)%nat) in *. destruct (nth_error l top) as [y|] eqn:Ey; [|apply nth_error_None in Ey; unfold top in Ey; lia].
    match goal with |- context [ask elems block 0 s ?k] => destruct (ask_ok 0 s x k ltac:(rewrite El; exact Ex)) as (s1 & Ea & El1 & Ec1) end. rewrite Ea. clear Ea.
    destruct (p x) eqn:Px.
    + exists s1. split; [congruence|]. split; [lia|]. left. exists 0%nat, x. split; [reflexivity|]. split; [exact Ex|]. split; [exact Px|]. intros j z Hj. lia.
    + match goal with |- context [ask elems block top s1 ?k] => destruct (ask_ok top s1 y k ltac:(rewrite El1, El; exact Ey)) as (s2 & Ea & El2 & Ec2) end. rewrite Ea. clear Ea.
      destruct (p y) eqn:Py; cbn [negb].
      * assert (Ht : (0 < top)%nat) by (destruct top; [rewrite Ex in Ey; congruence|lia]).
        destruct (loop_ok l HT (length l) 0 top s2 ltac:(congruence) Ht ltac:(unfold top; lia) ltac:(eauto) ltac:(eauto)) as (i & v & s' & R & El' & FW & C).
        exists s'. split; [exact El'|]. assert (Nat.log2_up (top - 0) <= Nat.log2_up (length l))%nat by (apply Nat.log2_up_le_mono; unfold top; lia). split; [lia|]. left. exists i, v. auto.
      * exists s2. split; [congruence|]. split; [lia|]. right. split; [reflexivity|]. intros v Hv. destruct (In_nth_error _ _ Hv) as [j Ej]. destruct (p v) eqn:Pv; [|reflexivity].
        assert (j < length l)%nat by (apply nth_error_Some; congruence). rewrite (HT j top v y ltac:(unfold top; lia) Ej Ey Pv) in Py. discriminate.
Qed.
End Bsearch.

(* With a block that turns from false to true once, bsearch gives the first
   element (bsearch_index: its place) for which the block is true, after at
   most 2 + log2 n calls. Blocks that give numbers: C102_find_any_refuted *)
Theorem C102_bsearch_partial : forall (V S X : Type) (elems : S -> list V) (block : V -> S -> bout X * S) (p : V -> bool) (calls : S -> nat) s l,
  counted_block elems block p calls -> elems s = l -> turns_once p l ->
  exists s', elems s' = l /\ (calls s' <= calls s + 2 + Nat.log2_up (length l))%nat /\
    ((exists i v, bsearch_index elems block s = (Found i, s') /\ bsearch elems block s = (Found v, s') /\ first_where p l i v) \/
     (bsearch_index elems block s = (Absent, s') /\ bsearch elems block s = (Absent, s') /\ forall v, In v l -> p v = false)).
Proof.
  intros V S X elems block p calls s l HB El HT. destruct (bsearch_ok elems block p calls HB l s El HT) as (s' & El' & C & R). exists s'. split; [exact El'|]. split; [exact C|].
  unfold bsearch_index, bsearch. destruct R as [(i & v & R & FW)|[R N]]; rewrite R.
  - left. exists i, v. split; [reflexivity|]. split; [|exact FW]. rewrite El'. destruct FW as [-> _]. reflexivity.
  - right. auto.
Qed.
Print Assumptions C102_bsearch_partial.

(* A block that notes in the state how it ended when that was not with a usable answer: with an
   exception, break or the like, or with an object that is no boolean, nil or number *)
Definition noting_block {V S X} (block : V -> S -> bout X * S) (note : S -> option (option X)) : Prop :=
  forall v s, match block v s with
    | (Leaves x, s') => note s' = Some (Some x)
    | (Answers AOther, s') => note s' = Some None
    | (Answers _, s') => note s' = note s
    end.
Definition ends_as_noted {S X A} (note : S -> option (option X)) (r : sout X A * S) : Prop :=
  match fst r with
  | Stops x => note (snd r) = Some (Some x)
  | NotAnswer => note (snd r) = Some None
  | Found _ | Absent | Crash => note (snd r) = None
  end.
Section Leaves.
Context {V S X : Type}.
Variable elems : S -> list V.
Variable block : V -> S -> bout X * S.
Variable note : S -> option (option X).
Hypothesis HN : noting_block block note.
Lemma ask_notes {A} i s (k : bool -> S -> sout X A * S) : note s = None -> (forall b s', note s' = None -> ends_as_noted note (k b s')) ->
  ends_as_noted note (ask elems block i s k).
Proof.
  intros Hs Hk. unfold ask. destruct (nth_error (elems s) i) as [v|]; [|exact Hs]. specialize (HN v s). destruct (block v s) as [[a|x] s']; [|exact HN].
  destruct a; cbn [expect_bool_nil_num]; try (apply Hk; congruence). exact HN.
Qed.
Lemma loop_notes : forall fuel i_min i_max s, note s = None -> ends_as_noted note (search_loop elems block fuel i_min i_max s).
Proof.
  induction fuel as [|n IH]; intros i_min i_max s Hs; [exact Hs|]. cbn [search_loop]. destruct (Nat.eqb _ _); [exact Hs|].
  apply ask_notes; [exact Hs|]. intros b s' Hs'. destruct b; apply IH; exact Hs'.
Qed.
Lemma binary_notes s : note s = None -> ends_as_noted note (binary_search elems block s).
Proof.
  intros Hs. unfold binary_search. destruct (Nat.eqb _ 0); [exact Hs|]. apply ask_notes; [exact Hs|]. intros b s1 H1. destruct b; [exact H1|].
  apply ask_notes; [exact H1|]. intros b s2 H2. destruct b; cbn [negb]; [apply loop_notes; exact H2|exact H2].
Qed.
End Leaves.
(* Leaving the block leaves the search with the same exception, and an answer that is none is a TypeError; and nothing else does *)
Theorem C102_leaving : forall (V S X : Type) (elems : S -> list V) (block : V -> S -> bout X * S) (note : S -> option (option X)) s,
  noting_block block note -> note s = None ->
  ends_as_noted note (bsearch_index elems block s) /\ ends_as_noted note (bsearch elems block s).
Proof.
  intros V S X elems block note s HN Hs. pose proof (binary_notes elems block note HN s Hs) as H. split; [exact H|]. unfold bsearch.
  destruct (binary_search elems block s) as [[i| |x| |] s']; cbn in H |- *; try exact H. destruct (nth_error (elems s') i); exact H.
Qed.
Print Assumptions C102_leaving.
(* raises 7 for 4 *)
Definition leaving_block (v : Z) (s : option (option Z)) : bout Z * option (option Z) :=
  if v =? 4 then (Leaves 7, Some (Some 7)) else if v =? 8 then (Answers AOther, Some None) else (Answers AFalse, s).
Example C102_leaving_example : noting_block leaving_block (fun s => s) /\ bsearch (fun _ => [1; 3; 4]) leaving_block None = (Stops 7, Some (Some 7)) /\
  bsearch (fun _ => [8]) leaving_block None = (NotAnswer, Some None) /\ bsearch (fun _ => [1; 4; 3]) leaving_block None = (Absent, None).
Proof.
  split; [|auto]. intros v s. unfold leaving_block. destruct (v =? 4); [reflexivity|]. destruct (v =? 8); reflexivity.
Qed.
(* nothing is asked about the empty array, and the answer is nil *)
Theorem C102_empty : forall (V S X : Type) (elems : S -> list V) (block : V -> S -> bout X * S) send s, elems s = [] ->
  bsearch elems block s = (Absent, s) /\ bsearch_index elems block s = (Absent, s) /\ ary_min [] = Ok nil /\ ary_max send [] = Ok nil.
Proof. intros V S X elems block send s E. unfold bsearch, bsearch_index, binary_search. rewrite E. auto. Qed.
Print Assumptions C102_empty.

(* ---- comparing integers as floats ---- *)
Lemma scaled_lt m1 e1 m2 e2 : 2 ^ 52 <= m1 < 2 ^ 53 -> 2 ^ 52 <= m2 < 2 ^ 53 -> -52 <= e1 -> -52 <= e2 -> e1 < e2 -> m1 * 2 ^ (e1 + 52) < m2 * 2 ^ (e2 + 52).
Proof.
  intros H1 H2 B1 B2 L. replace (e2 + 52) with ((e1 + 52) + (e2 - e1)) by lia. rewrite (Z.pow_add_r 2 (e1 + 52) (e2 - e1)) by lia.
  assert (P : 0 < 2 ^ (e1 + 52)) by (apply Z.pow_pos_nonneg; lia).
  assert (Q : 2 <= 2 ^ (e2 - e1)) by (change 2 with (2 ^ 1) at 1; apply Z.pow_le_mono_r; lia).
  apply Z.lt_le_trans with (2 ^ 53 * 2 ^ (e1 + 52)); [apply Z.mul_lt_mono_pos_r; lia|].
  replace (2 ^ 53) with (2 ^ 52 * 2) by reflexivity. transitivity (m2 * 2 * 2 ^ (e1 + 52)); [apply Z.mul_le_mono_nonneg_r; lia|].
  replace (m2 * (2 ^ (e1 + 52) * 2 ^ (e2 - e1))) with (m2 * 2 ^ (e2 - e1) * 2 ^ (e1 + 52)) by ring. apply Z.mul_le_mono_nonneg_r; [lia|]. apply Z.mul_le_mono_nonneg_l; lia.
Qed.
Lemma mag_compare a b m1 e1 m2 e2 : 2 ^ 52 <= Zpos m1 < 2 ^ 53 -> 2 ^ 52 <= Zpos m2 < 2 ^ 53 -> -52 <= e1 -> -52 <= e2 ->
  Zpos m1 * 2 ^ (e1 + 52) = a * 2 ^ 52 -> Zpos m2 * 2 ^ (e2 + 52) = b * 2 ^ 52 ->
  match e1 ?= e2 with Lt => Lt | Gt => Gt | Eq => Pos.compare_cont Eq m1 m2 end = (a ?= b).
Proof.
  intros H1 H2 B1 B2 E1 E2. destruct (Z.compare_spec e1 e2) as [<-|L|L].
  - change (Pos.compare_cont Eq m1 m2) with (Pos.compare m1 m2). assert (P : 0 < 2 ^ (e1 + 52)) by (apply Z.pow_pos_nonneg; lia).
    change (Pos.compare m1 m2) with (Zpos m1 ?= Zpos m2). rewrite (Zmult_compare_compat_r (Zpos m1) (Zpos m2) (2 ^ (e1 + 52))) by lia. rewrite E1, E2. symmetry. apply Zmult_compare_compat_r. reflexivity.
  - symmetry. apply Z.compare_lt_iff. pose proof (scaled_lt _ _ _ _ H1 H2 B1 B2 L). lia.
  - symmetry. apply Z.compare_gt_iff. pose proof (scaled_lt _ _ _ _ H2 H1 B2 B1 L). lia.
Qed.
Lemma flt_of_Z a b : Z.abs a <= 2 ^ 53 -> Z.abs b <= 2 ^ 53 -> flt (f64_of_Z a) (f64_of_Z b) = (a <? b).
Proof.
  intros Ha Hb. unfold flt, fcmp.
  assert (C : SFcompare (sf_of_bits (f64_of_Z a)) (sf_of_bits (f64_of_Z b)) = Some (a ?= b)).
  { destruct (Z.eq_dec a 0) as [->|Na]; [|destruct (of_Z_exact a Na Ha) as (m1 & e1 & Q1 & M1 & R1 & V1 & _); rewrite (f64_of_Z_sf a m1 e1 Na Q1 ltac:(split; lia))];
    (destruct (Z.eq_dec b 0) as [->|Nb]; [|destruct (of_Z_exact b Nb Hb) as (m2 & e2 & Q2 & M2 & R2 & V2 & _); rewrite (f64_of_Z_sf b m2 e2 Nb Q2 ltac:(split; lia))]); rewrite ?f64_of_0.
    - reflexivity.
    - cbn [SFcompare]. destruct (Z.ltb_spec b 0); f_equal; symmetry; [apply Z.compare_gt_iff|apply Z.compare_lt_iff]; lia.
    - cbn [SFcompare]. destruct (Z.ltb_spec a 0); f_equal; symmetry; [apply Z.compare_lt_iff|apply Z.compare_gt_iff]; lia.
    - cbn [SFcompare]. destruct (Z.ltb_spec a 0), (Z.ltb_spec b 0).
      + rewrite (Z.abs_neq a) in V1 by lia. rewrite (Z.abs_neq b) in V2 by lia. pose proof (mag_compare _ _ m1 e1 m2 e2 M1 M2 ltac:(lia) ltac:(lia) V1 V2) as MC.
        rewrite Z.compare_opp in MC. rewrite (Z.compare_antisym b a), <- MC.
        destruct (e1 ?= e2); reflexivity.
      + f_equal. symmetry. apply Z.compare_lt_iff. lia.
      + f_equal. symmetry. apply Z.compare_gt_iff. lia.
      + rewrite (Z.abs_eq a) in V1 by lia. rewrite (Z.abs_eq b) in V2 by lia. pose proof (mag_compare _ _ m1 e1 m2 e2 M1 M2 ltac:(lia) ltac:(lia) V1 V2) as MC.
        rewrite <- MC. destruct (e1 ?= e2); reflexivity. }
  rewrite C. unfold Z.ltb. destruct (a ?= b); reflexivity.
Qed.

(* ---- min and max ---- *)
(* i is the first place of the greatest element, by rank *)
Definition first_greatest {V} (rank : V -> Z) (l : list V) (v : V) : Prop :=
  exists i, nth_error l i = Some v /\ (forall x, In x l -> rank x <= rank v) /\ forall j x, (j < i)%nat -> nth_error l j = Some x -> rank x < rank v.
Lemma best_loop {V} (rank : V -> Z) (step : V -> V -> res V) (loop : list V -> V -> res V) l o :
  (forall x, loop [] x = Ok x) -> (forall e r x, loop (e :: r) x = rbind (step x e) (loop r)) ->
  (forall x e, In x (o :: l) -> In e l -> step x e = Ok (if rank x <? rank e then e else x)) ->
  exists v, loop l o = Ok v /\ ((v = o /\ forall x, In x l -> rank x <= rank o) \/ (first_greatest rank l v /\ rank o < rank v)).
Proof.
  intros L0 L1. revert o. induction l as [|e r IH]; intros o HS.
  - exists o. split; [apply L0|]. left. split; [reflexivity|intros x []].
  - rewrite L1, (HS o e) by (cbn; auto). cbn [rbind]. destruct (Z.ltb_spec (rank o) (rank e)) as [H|H].
    + destruct (IH e) as (v & E & C). { intros x y Hx Hy. apply HS; [right; exact Hx|right; exact Hy]. }
      exists v. split; [exact E|]. right. destruct C as [[-> M]|((i & Ei & M & F) & Hlt)].
      * split; [|exact H]. exists 0%nat. split; [reflexivity|]. split; [|intros j x Hj; lia]. intros x [<-|Hx]; [lia|auto].
      * split; [|lia]. exists (Datatypes.S i). split; [exact Ei|]. split; [intros x [<-|Hx]; [lia|auto]|]. intros j x Hj Ej. destruct j as [|j]; [injection Ej as <-; exact Hlt|]. apply (F j x); [lia|exact Ej].
    + destruct (IH o) as (v & E & C). { intros x y Hx Hy. apply HS; [destruct Hx as [<-|Hx]; [left; reflexivity|right; right; exact Hx]|right; exact Hy]. }
      exists v. split; [exact E|]. destruct C as [[-> M]|((i & Ei & M & F) & Hlt)].
      * left. split; [reflexivity|]. intros x [<-|Hx]; [exact H|auto].
      * right. split; [|exact Hlt]. exists (Datatypes.S i). split; [exact Ei|]. split; [intros x [<-|Hx]; [lia|auto]|]. intros j x Hj Ej. destruct j as [|j]; [injection Ej as <-; lia|]. apply (F j x); [lia|exact Ej].
Qed.
Lemma best_of {V} (rank : V -> Z) (step : V -> V -> res V) (loop : list V -> V -> res V) a l :
  (forall x, loop [] x = Ok x) -> (forall e r x, loop (e :: r) x = rbind (step x e) (loop r)) ->
  (forall x e, In x (a :: l) -> In e (a :: l) -> step x e = Ok (if rank x <? rank e then e else x)) ->
  exists v, loop (a :: l) a = Ok v /\ first_greatest rank (a :: l) v.
Proof.
  intros L0 L1 HS. destruct (best_loop rank step loop (a :: l) a L0 L1) as (v & E & C). { intros x e [<-|Hx] He; apply HS; auto; left; reflexivity. }
  exists v. split; [exact E|]. destruct C as [[-> M]|[F _]]; [|exact F]. exists 0%nat. split; [reflexivity|]. split; [exact M|]. intros j x Hj. lia.
Qed.
Definition first_least {V} (rank : V -> Z) (l : list V) (v : V) : Prop :=
  exists i, nth_error l i = Some v /\ (forall x, In x l -> rank v <= rank x) /\ forall j x, (j < i)%nat -> nth_error l j = Some x -> rank v < rank x.
(* the integer of a small one *)
Definition small_int (v : value) (z : Z) : Prop := as_fixnum v = Some z /\ Z.abs z <= 2 ^ 53.
Definition int_of (v : value) : Z := match as_fixnum v with Some z => z | None => 0 end.

Definition min_step (obj e : value) : res value := f <- min_float e ;; Ok (if flt f (f64_of_Z (int_of obj)) then e else obj).
Fixpoint min_steps (l : list value) (obj : value) : res value := match l with [] => Ok obj | e :: r => rbind (min_step obj e) (min_steps r) end.
(* min of integers up to 2^53: the first of the least ones. Larger ones, other
   numbers and objects: C102_min_large_refuted, C102_min_types_refuted *)
Theorem C102_min_partial : forall a l, (forall x, In x (a :: l) -> exists z, small_int x z) ->
  exists v, ary_min (a :: l) = Ok v /\ first_least int_of (a :: l) v.
Proof.
  intros a l H. cbn [ary_min].
  assert (MF : forall x, In x (a :: l) -> min_float x = Ok (f64_of_Z (int_of x)) /\ Z.abs (int_of x) <= 2 ^ 53).
  { intros x Hx. destruct (H x Hx) as (z & E & B). unfold min_float, int_of. rewrite E. auto. }
  assert (G : exists v, min_steps (a :: l) a = Ok v /\ first_greatest (fun x => - int_of x) (a :: l) v).
  { apply (best_of (fun x => - int_of x) min_step min_steps); [reflexivity|reflexivity|].
    intros x e Hx He. destruct (MF x Hx) as [_ Bx], (MF e He) as [Ee Be]. unfold min_step. rewrite Ee. cbn [rbind]. rewrite flt_of_Z by assumption. f_equal.
    destruct (Z.ltb_spec (int_of e) (int_of x)), (Z.ltb_spec (- int_of x) (- int_of e)); try reflexivity; lia. }
  destruct G as (v & E & i & Ei & M & F). exists v. split.
  - destruct (MF a (or_introl eq_refl)) as [Ea _]. rewrite Ea. cbn [rbind]. rewrite <- E. clear - MF.
        assert (HS : forall r, (forall x, In x r -> In x (a :: l)) -> forall o, min_loop r o (f64_of_Z (int_of o)) =
      min_steps r o).
    { induction r as [|e r IH]; intros Hr o'; [reflexivity|]. cbn [min_loop min_steps]. unfold min_step. destruct (MF e (Hr e (or_introl eq_refl))) as [Ee _]. rewrite Ee. cbn [rbind].
      destruct (flt (f64_of_Z (int_of e)) (f64_of_Z (int_of o'))); apply IH; intros x Hx; apply Hr; right; exact Hx. }
    apply HS. auto.
  - exists i. split; [exact Ei|]. split; [intros x Hx; specialize (M x Hx); cbn in M; lia|]. intros j x Hj Ej. specialize (F j x Hj Ej). cbn in F. lia.
Qed.
Print Assumptions C102_min_partial.
(* max, whenever `>` orders the elements: the first of the greatest ones *)
Theorem C102_max : forall send rank a l, (forall x y, In x (a :: l) -> In y (a :: l) -> eval_gt2 send x y = Ok (rank x <? rank y)) ->
  exists v, ary_max send (a :: l) = Ok v /\ first_greatest rank (a :: l) v.
Proof.
  intros send rank a l H. apply (best_of rank (fun m e => b <- eval_gt2 send m e ;; Ok (if b then e else m)) (max_loop send)); [reflexivity| |].
  - intros e r x. cbn [max_loop]. destruct (eval_gt2 send x e); reflexivity.
  - intros x e Hx He. rewrite (H x e Hx He). reflexivity.
Qed.
Print Assumptions C102_max.
Theorem C102_max_integers : forall send a l, (forall x, In x (a :: l) -> as_fixnum x <> None) ->
  exists v, ary_max send (a :: l) = Ok v /\ first_greatest int_of (a :: l) v.
Proof.
  intros send a l H. apply C102_max. intros x y Hx Hy. specialize (H x Hx) as H1. specialize (H y Hy) as H2. unfold eval_gt2, int_of. destruct (as_fixnum x), (as_fixnum y); [reflexivity|congruence..].
Qed.
Print Assumptions C102_max_integers.
Example C102_minmax_example : (forall x, In x [fixnum 5; fixnum (-3); fixnum 7; fixnum (-3); fixnum 7] -> exists z, small_int x z) /\
  ary_min [fixnum 5; fixnum (-3); fixnum 7; fixnum (-3); fixnum 7] = Ok (fixnum (-3)) /\ ary_max (fun _ _ => Panic) [fixnum 5; fixnum (-3); fixnum 7; fixnum (-3); fixnum 7] = Ok (fixnum 7).
Proof.
  split; [|split; vm_compute; reflexivity]. intros x [<-|[<-|[<-|[<-|[<-|[]]]]]]; eexists; split; try (vm_compute; reflexivity); lia.
Qed.
(* x >= 4 in 1, 2, 4, 7, 9 with a state counting the calls *)
Definition sx_block (v : Z) (s : nat * list Z) : bout Empty_set * (nat * list Z) := (Answers (if 4 <=? v then ATrue else ANil), (Datatypes.S (fst s), snd s)).
Example C102_bsearch_example : counted_block snd sx_block (fun v => 4 <=? v) fst /\ turns_once (fun v => 4 <=? v) [1; 2; 4; 7; 9] /\
  bsearch snd sx_block (0%nat, [1; 2; 4; 7; 9]) = (Found 4, (4%nat, [1; 2; 4; 7; 9])) /\ bsearch_index snd sx_block (0%nat, [1; 2; 4; 7; 9]) = (Found 2%nat, (4%nat, [1; 2; 4; 7; 9])) /\
  bsearch snd sx_block (0%nat, [1; 2]) = (Absent, (2%nat, [1; 2])).
Proof.
  split; [intros v s; exists (if 4 <=? v then ATrue else ANil); eexists; split; [reflexivity|]; split; [destruct (4 <=? v); auto|auto]|].
  split; [|vm_compute; auto]. intros i j x y Hij Hx Hy Px. apply Z.leb_le. apply Z.leb_le in Px.
  do 6 (destruct i as [|i]; [injection Hx as <- || discriminate; try lia; do 6 (destruct j as [|j]; [injection Hy as <- || discriminate; lia|]); destruct j; discriminate|]). destruct i; discriminate.
Qed.

(* ---- where it fails ---- *)
(* find-any: the block gives 2 - x, in 1, 2, 3; nil, though 2 is there *)
Definition any_block (v : Z) (s : list Z) : bout Empty_set * list Z := (Answers (AInt (2 - v)), s).
Theorem C102_find_any_refuted : exists l : list Z, In 2 l /\ any_block 2 l = (Answers (AInt 0), l) /\
  (forall i j x y, (i < j)%nat -> nth_error l i = Some x -> nth_error l j = Some y -> 2 - y <= 2 - x) /\ fst (bsearch (fun s => s) any_block l) = Absent.
Proof.
  exists [1; 2; 3]. split; [cbn; auto|]. split; [reflexivity|]. split; [|reflexivity]. intros i j x y Hij Hx Hy.
  destruct i as [|[|[|i]]]; cbn in Hx; try (destruct i; discriminate); injection Hx as <-; destruct j as [|[|[|j]]]; cbn in Hy; try (destruct j; discriminate); injection Hy as <-; lia.
Qed.
(* a block that shortens the array: index out of bounds *)
Theorem C102_bsearch_shrink_refuted : exists (block : Z -> list Z -> bout Empty_set * list Z) l, (forall v s, block v s = (Answers AFalse, tl s)) /\ fst (bsearch (fun s => s) block l) = Crash.
Proof. exists (fun v s => (Answers AFalse, tl s)), [1; 2]. split; reflexivity. Qed.
(* integers beyond 2^53 are compared as floats *)
Theorem C102_min_large_refuted : exists l v z y, ary_min l = Ok v /\ as_fixnum v = Some z /\ In y l /\ exists u, as_fixnum y = Some u /\ u < z.
Proof.
  exists [fixnum (2 ^ 53 + 1); fixnum (2 ^ 53)], (fixnum (2 ^ 53 + 1)), (2 ^ 53 + 1), (fixnum (2 ^ 53)). split; [vm_compute; reflexivity|]. split; [vm_compute; reflexivity|].
  split; [cbn; auto|]. exists (2 ^ 53). split; [vm_compute; reflexivity|lia].
Qed.
(* bignums, floats kept on the heap (1.45e-300) and all other objects: TypeError *)
Theorem C102_min_types_refuted : exists big flo, as_bignum big = Some (2 ^ 70) /\ as_float flo = Some 121360385174108313 /\ flo = float 121360385174108313 /\
  ary_min [big] = Err TypeErr /\ ary_min [flo] = Err TypeErr /\ forall id, ary_min [Heap (HObj id)] = Err TypeErr.
Proof. exists (Heap (HBig (2 ^ 70))), (Heap (HFloat 121360385174108313)). split; [reflexivity|]. split; [reflexivity|]. split; [vm_compute; reflexivity|]. split; [reflexivity|]. split; [reflexivity|]. reflexivity. Qed.
(* [2.0 ** 53, 2 ** 53 + 1].max is 2.0 ** 53 *)
Theorem C102_max_mixed_refuted : exists send f i v, as_float f = Some (f64_of_Z (2 ^ 53)) /\ as_fixnum i = Some (2 ^ 53 + 1) /\ v = f /\ ary_max send [f; i] = Ok v.
Proof. exists (fun _ _ => Panic), (float (f64_of_Z (2 ^ 53))), (fixnum (2 ^ 53 + 1)). eexists. split; [vm_compute; reflexivity|]. split; [vm_compute; reflexivity|]. split; [reflexivity|]. vm_compute. reflexivity. Qed.
Print Assumptions C102_find_any_refuted.
Print Assumptions C102_bsearch_shrink_refuted.
Print Assumptions C102_min_large_refuted.
Print Assumptions C102_min_types_refuted.
Print Assumptions C102_max_mixed_refuted.
