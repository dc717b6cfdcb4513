(* Proofs about array methods: nesting, order, uniq, join, zip. *)
From Coq Require Import Permutation.
From Verif Require Import Base ModelArray ProofsArray ProofsArray2.
Ltac Zify.zify_post_hook ::= Z.div_mod_to_equations.

(* ---- flatten ---- *)
Fixpoint tree_ind2 {A} (P : tree A -> Prop) (HL : forall x, P (Leaf x))
  (HN : forall l, Forall P l -> P (Node l)) (t : tree A) : P t :=
  match t with
  | Leaf x => HL x
  | Node l => HN l ((fix go (l : list (tree A)) : Forall P l :=
                       match l with [] => Forall_nil _ | x :: r => Forall_cons _ (tree_ind2 P HL HN x) (go r) end) l)
  end.
(* the leaves from left to right *)
Fixpoint leaves {A} (t : tree A) : list A :=
  match t with Leaf x => [x] | Node l => concat (map leaves l) end.
Definition is_node {A} (t : tree A) : bool := match t with Node _ => true | Leaf _ => false end.
(* opening every array of a list once *)
Definition open1 {A} (l : list (tree A)) : list (tree A) :=
  concat (map (fun t => match t with Node l => l | Leaf _ => [t] end) l).

Fixpoint tgo {A} (lv : option nat) (l : list (tree A)) (acc : list (tree A)) : list (tree A) :=
  match l with [] => acc | x :: r => tgo lv r (fst (ary_flatten lv x acc)) end.
Lemma ary_flatten_none_node {A} (l acc : list (tree A)) :
  ary_flatten None (Node l) acc = (tgo None l acc, true).
Proof. cbn [ary_flatten]. f_equal. revert acc. induction l as [|x l IH]; intros acc; [reflexivity|]. apply IH. Qed.
Lemma ary_flatten_some_node {A} n (l acc : list (tree A)) :
  ary_flatten (Some (S n)) (Node l) acc = (tgo (Some n) l acc, true).
Proof. cbn [ary_flatten]. f_equal. revert acc. induction l as [|x l IH]; intros acc; [reflexivity|]. apply IH. Qed.
Lemma tgo_app {A} lv (g : tree A -> list (tree A)) l :
  Forall (fun t => forall acc, fst (ary_flatten lv t acc) = acc ++ g t) l ->
  forall acc, tgo lv l acc = acc ++ concat (map g l).
Proof.
  induction 1 as [|x l Hx _ IH]; intros acc; cbn; [rewrite app_nil_r; reflexivity|].
  rewrite Hx, IH, <- app_assoc. reflexivity.
Qed.
Lemma concat_map_map {A B} (g : A -> B) (f : tree A -> list A) l :
  concat (map (fun t => map g (f t)) l) = map g (concat (map f l)).
Proof. rewrite concat_map, map_map. reflexivity. Qed.
Lemma ary_flatten_none {A} (t : tree A) : forall acc,
  fst (ary_flatten None t acc) = acc ++ map Leaf (leaves t).
Proof.
  induction t as [x|l IH] using tree_ind2; intros acc; [reflexivity|].
  rewrite ary_flatten_none_node. cbn [fst leaves]. rewrite (tgo_app None _ l IH).
  rewrite concat_map_map. reflexivity.
Qed.
(* the contribution of one element at level n: open it up to n times *)
Definition iter_open {A} (n : nat) (l : list (tree A)) : list (tree A) := Nat.iter n open1 l.
Lemma iter_open_S' {A} n (l : list (tree A)) : iter_open (S n) l = open1 (iter_open n l).
Proof. reflexivity. Qed.
Lemma open1_app {A} (a b : list (tree A)) : open1 (a ++ b) = open1 a ++ open1 b.
Proof. unfold open1. rewrite map_app, concat_app. reflexivity. Qed.
Lemma iter_open_app {A} n : forall (a b : list (tree A)), iter_open n (a ++ b) = iter_open n a ++ iter_open n b.
Proof. induction n as [|n IH]; intros a b; [reflexivity|]. rewrite !iter_open_S', IH, open1_app. reflexivity. Qed.
Lemma iter_open_concat {A} n (l : list (tree A)) : iter_open n l = concat (map (fun t => iter_open n [t]) l).
Proof.
  induction l as [|x l IH].
  - cbn. induction n as [|n IHn]; [reflexivity|]. rewrite iter_open_S', IHn. reflexivity.
  - change (x :: l) with ([x] ++ l) at 1. rewrite iter_open_app, IH. reflexivity.
Qed.
Lemma iter_open_S {A} n (l : list (tree A)) : iter_open (S n) l = iter_open n (open1 l).
Proof. induction n as [|n IH]; [reflexivity|]. rewrite iter_open_S', IH. reflexivity. Qed.
Lemma iter_open_leaf {A} n (x : A) : iter_open n [Leaf x] = [Leaf x].
Proof. induction n as [|n IH]; [reflexivity|]. rewrite iter_open_S. exact IH. Qed.
Lemma ary_flatten_some {A} : forall n (t : tree A) acc,
  fst (ary_flatten (Some n) t acc) = acc ++ iter_open n [t].
Proof.
  induction n as [|n IH]; intros [x|l] acc; [reflexivity|reflexivity| |].
  - rewrite iter_open_leaf. reflexivity.
  - rewrite ary_flatten_some_node. cbn [fst].
    rewrite (tgo_app (Some n) (fun t => iter_open n [t])) by (apply Forall_forall; intros; apply IH).
    rewrite iter_open_S. unfold open1. cbn [map concat]. rewrite app_nil_r, <- iter_open_concat. reflexivity.
Qed.
Lemma flatten_fold {A} lv (g : tree A -> list (tree A)) :
  (forall t acc, fst (ary_flatten lv t acc) = acc ++ g t) ->
  forall l acc, fold_left (fun acc v => fst (ary_flatten lv v acc)) l acc = acc ++ concat (map g l).
Proof.
  intros H. induction l as [|x l IH]; intros acc; cbn; [rewrite app_nil_r; reflexivity|].
  rewrite IH, H, <- app_assoc. reflexivity.
Qed.
Lemma array_flatten_none {A} (l : list (tree A)) :
  array_flatten None l = map Leaf (concat (map leaves l)).
Proof.
  unfold array_flatten. rewrite (flatten_fold None (fun t => map Leaf (leaves t))) by apply ary_flatten_none.
  apply concat_map_map.
Qed.
Lemma array_flatten_some {A} n (l : list (tree A)) : array_flatten (Some n) l = Nat.iter n open1 l.
Proof.
  unfold array_flatten. rewrite (flatten_fold (Some n) (fun t => iter_open n [t])) by apply ary_flatten_some.
  cbn [app]. rewrite <- iter_open_concat. reflexivity.
Qed.
(* depth: 0 for a leaf *)
Fixpoint depth {A} (t : tree A) : nat :=
  match t with Leaf _ => 0 | Node l => S (fold_right Nat.max 0%nat (map depth l)) end.
Lemma ary_flag {A} lv (t : tree A) acc :
  snd (ary_flatten lv t acc) = is_node t && match lv with Some O => false | _ => true end.
Proof. destruct lv as [[|n]|], t; reflexivity. Qed.
Lemma flatten_bang_ok {A} lv (l : list (tree A)) :
  array_flatten_bang lv l =
  (array_flatten lv l, existsb is_node l && match lv with Some O => false | _ => true end).
Proof.
  unfold array_flatten_bang, array_flatten.
  assert (H : forall l acc fl, fold_left (fun (st : list (tree A) * bool) v => let '(acc, flag) := st in
            let '(acc', b) := ary_flatten lv v acc in (acc', flag || b)) l (acc, fl) =
         (fold_left (fun acc v => fst (ary_flatten lv v acc)) l acc,
          fl || (existsb is_node l && match lv with Some O => false | _ => true end))).
  { clear l. induction l as [|x l IH]; intros acc fl; [cbn; rewrite orb_false_r; reflexivity|].
    cbn [fold_left existsb]. pose proof (ary_flag lv x acc) as HF.
    destruct (ary_flatten lv x acc) as (acc' & b). cbn [fst snd] in *. rewrite IH, HF. f_equal.
    destruct fl, (is_node x), (existsb is_node l), lv as [[|n]|]; reflexivity. }
  apply H.
Qed.

(* ---- transpose ---- *)
Definition cell {A} (d : A) (m : list (list A)) (i j : nat) : A := nth j (nth i m []) d.
Definition mat {A} (m : list (list (tree A))) : list (tree A) := map Node m.
Lemma transpose_col_ok {A} (d : tree A) : forall m n i, (i < n)%nat -> Forall (fun r => length r = n) m ->
  transpose_col (mat m) (Z.of_nat n) (Z.of_nat i) = Ok (map (fun r => nth i r d) m).
Proof.
  induction m as [|r m IH]; intros n i Hi HF; [reflexivity|].
  inversion HF; subst. cbn [mat map transpose_col]. unfold zlen. rewrite Z.eqb_refl. cbn [negb].
  unfold v_get, zlen. replace (_ && _) with true by lia. rewrite Nat2Z.id.
  rewrite (nth_error_nth' r d Hi). cbn [rbind]. fold (mat m). rewrite IH by assumption. reflexivity.
Qed.
Lemma transpose_rows_ok {A} (d : tree A) m n : Forall (fun r => length r = n) m -> forall k i, (i + k = n)%nat ->
  transpose_rows (mat m) (Z.of_nat n) (Z.of_nat i) k =
  Ok (mat (map (fun j => map (fun r => nth j r d) m) (seq i k))).
Proof.
  intros HF. induction k as [|k IH]; intros i Hi; [reflexivity|].
  cbn [transpose_rows seq map mat]. rewrite (transpose_col_ok d) by (try assumption; lia). cbn [rbind].
  replace (Z.of_nat i + 1) with (Z.of_nat (S i)) by lia. rewrite IH by lia. reflexivity.
Qed.
Lemma transpose_ok {A} (d : tree A) m n : m <> [] -> Forall (fun r => length r = n) m ->
  array_transpose (mat m) = Ok (mat (map (fun j => map (fun r => nth j r d) m) (seq 0 n))).
Proof.
  intros Hm HF. destruct m as [|r m]; [congruence|]. unfold array_transpose. cbn [mat map].
  assert (length r = n) by (inversion HF; assumption).
  change (Node r :: map Node m) with (mat (r :: m)). unfold zlen. rewrite H.
  apply (transpose_rows_ok d (r :: m) n HF n 0). lia.
Qed.
Lemma cell_ext {A} (d : A) m1 m2 n : length m1 = length m2 ->
  Forall (fun r => length r = n) m1 -> Forall (fun r => length r = n) m2 ->
  (forall i j, (i < length m1)%nat -> (j < n)%nat -> cell d m1 i j = cell d m2 i j) -> m1 = m2.
Proof.
  revert m2. induction m1 as [|r1 m1 IH]; intros [|r2 m2] HL H1 H2 HC; try discriminate; [reflexivity|].
  inversion H1; inversion H2; subst. f_equal.
  - apply nth_ext with (d := d) (d' := d); [congruence|]. intros j Hj. apply (HC 0%nat j); cbn; lia.
  - apply IH; try assumption. { cbn in HL; lia. } intros i j Hi Hj. apply (HC (S i) j); [cbn; lia|assumption].
Qed.
Lemma transpose_spec {A} (d : tree A) m n : m <> [] -> Forall (fun r => length r = n) m ->
  exists t, array_transpose (mat m) = Ok (mat t) /\ length t = n /\
    Forall (fun r => length r = length m) t /\
    forall i j, (i < length m)%nat -> (j < n)%nat -> cell d t j i = cell d m i j.
Proof.
  intros Hm HF. eexists. split; [apply (transpose_ok d); eassumption|].
  split; [rewrite map_length, seq_length; reflexivity|]. split.
  - apply Forall_forall. intros r Hr. apply in_map_iff in Hr as (j & <- & _). apply map_length.
  - intros i j Hi Hj. unfold cell.
    rewrite (nth_indep _ [] (map (fun r => nth 0 r d) m)) by (rewrite map_length, seq_length; assumption).
    rewrite (map_nth (fun j => map (fun r => nth j r d) m)). rewrite seq_nth by assumption. cbn [Nat.add].
    rewrite (nth_indep _ d (nth j [] d)) by (rewrite map_length; assumption).
    rewrite (map_nth (fun r => nth j r d)). reflexivity.
Qed.
Lemma mat_inj {A} (a b : list (list (tree A))) : mat a = mat b -> a = b.
Proof. revert b; induction a as [|x a IH]; intros [|y b] H; try discriminate; [reflexivity|]. cbn in H. injection H as -> H. f_equal. auto. Qed.
Lemma transpose_twice {A} (m : list (list (tree A))) n : m <> [] -> n <> 0%nat -> Forall (fun r => length r = n) m ->
  (t <- array_transpose (mat m) ;; array_transpose t) = Ok (mat m).
Proof.
  intros Hm Hn HF. pose (d := Node [] : tree A).
  destruct (transpose_spec d m n Hm HF) as (t & E & HL & HF2 & HC). rewrite E. cbn [rbind].
  assert (Ht : t <> []) by (intros ->; cbn in HL; lia).
  destruct (transpose_spec d t _ Ht HF2) as (u & E2 & HL2 & HF3 & HC2). rewrite E2. do 2 f_equal.
  apply (cell_ext d u m n); [assumption|rewrite HL in HF3; assumption|assumption|].
  intros i j Hi Hj. rewrite HL2 in Hi. rewrite (HC2 j i) by lia. apply HC; assumption.
Qed.
(* a ragged or non-array row is refused, never read out of range *)
Lemma transpose_col_no_panic {A} : forall (l : list (tree A)) len i, 0 <= i < len -> transpose_col l len i <> Panic.
Proof.
  induction l as [|[x|a] l IH]; intros len i Hi; cbn; try discriminate.
  destruct (Z.eqb_spec (zlen a) len); cbn [negb]; [|discriminate].
  unfold v_get. replace (_ && _) with true by lia.
  destruct (nth_error a (Z.to_nat i)) eqn:E.
  - cbn [rbind]. specialize (IH len i Hi). destruct (transpose_col l len i); cbn; congruence.
  - apply nth_error_None in E. unfold zlen in *. lia.
Qed.
Lemma transpose_no_panic {A} (l : list (tree A)) : array_transpose l <> Panic.
Proof.
  destruct l as [|[x|a] l]; cbn [array_transpose]; try discriminate.
  assert (H : forall k i, 0 <= i -> i + Z.of_nat k = zlen a -> transpose_rows (Node a :: l) (zlen a) i k <> Panic).
  { induction k as [|k IH]; intros i Hi Hk; cbn [transpose_rows]; [discriminate|].
    pose proof (transpose_col_no_panic (Node a :: l) (zlen a) i ltac:(lia)) as HN.
    destruct (transpose_col (Node a :: l) (zlen a) i); cbn [rbind]; try congruence.
    specialize (IH (i + 1) ltac:(lia) ltac:(lia)).
    destruct (transpose_rows (Node a :: l) (zlen a) (i + 1) k); cbn; congruence. }
  apply H; unfold zlen; lia.
Qed.

(* ---- <=> ---- *)
(* dictionary order on lists of integers *)
Inductive lex_lt : list Z -> list Z -> Prop :=
  | lex_nil y r : lex_lt [] (y :: r)
  | lex_head x y l r : x < y -> lex_lt (x :: l) (y :: r)
  | lex_tail x l r : lex_lt l r -> lex_lt (x :: l) (x :: r).
Definition sgn3 (x y : Z) : Z := if x <? y then -1 else if x =? y then 0 else 1.
Lemma array_cmp_cons {A} (ec : A -> A -> option Z) x y l r :
  array_cmp ec (x :: l) (y :: r) =
  match ec x y with Some 0 => array_cmp ec l r | o => o end.
Proof.
  unfold array_cmp. cbn [cmp_walk]. destruct (ec x y) as [[|p|p]|]; try reflexivity.
  destruct (cmp_walk ec l r); [reflexivity|]. rewrite !zlen_cons.
  replace (zlen r + 1 <=? zlen l + 1) with (zlen r <=? zlen l) by lia.
  replace (zlen l + 1 =? zlen r + 1) with (zlen l =? zlen r) by lia. reflexivity.
Qed.
Lemma array_cmp_lex {A} (key : A -> Z) : forall l r,
  let ec := fun x y => Some (sgn3 (key x) (key y)) in
  (array_cmp ec l r = Some (-1) /\ lex_lt (map key l) (map key r)) \/
  (array_cmp ec l r = Some 0 /\ map key l = map key r) \/
  (array_cmp ec l r = Some 1 /\ lex_lt (map key r) (map key l)).
Proof.
  induction l as [|x l IH]; intros [|y r] ec.
  - right. left. split; reflexivity.
  - left. split; [|constructor]. unfold array_cmp. cbn [cmp_walk]. pose proof (zlen_nonneg r).
    rewrite zlen_cons. change (zlen (@nil A)) with 0. replace (zlen r + 1 <=? 0) with false by lia. reflexivity.
  - right. right. split; [|constructor]. unfold array_cmp. cbn [cmp_walk]. pose proof (zlen_nonneg l).
    rewrite zlen_cons. change (zlen (@nil A)) with 0. replace (0 <=? zlen l + 1) with true by lia.
    replace (zlen l + 1 =? 0) with false by lia. reflexivity.
  - rewrite array_cmp_cons. specialize (IH r). cbn zeta in IH. fold ec in IH.
    assert (Eec : ec x y = Some (sgn3 (key x) (key y))) by reflexivity. rewrite Eec. clearbody ec. unfold sgn3.
    cbn [map]. destruct (Z.ltb_spec (key x) (key y)) as [H|H].
    + left. split; [reflexivity|]. constructor. exact H.
    + destruct (Z.eqb_spec (key x) (key y)) as [E|E].
      * rewrite E. destruct IH as [(-> & HX)|[(-> & HX)|(-> & HX)]].
        -- left. split; [reflexivity|]. apply lex_tail. exact HX.
        -- right. left. split; [reflexivity|]. rewrite HX. reflexivity.
        -- right. right. split; [reflexivity|]. apply lex_tail. exact HX.
      * right. right. split; [reflexivity|]. constructor. lia.
Qed.
Lemma lex_irrefl l : ~ lex_lt l l.
Proof. induction l as [|x l IH]; intros H; inversion H; subst; try lia; contradiction. Qed.
Lemma lex_trans : forall a b c, lex_lt a b -> lex_lt b c -> lex_lt a c.
Proof.
  induction a as [|x a IH]; intros b c H1 H2.
  - inversion H1; subst. inversion H2; subst; constructor.
  - inversion H1; subst; inversion H2; subst; try (constructor; lia). apply lex_tail. eauto.
Qed.
(* any element comparison, also failing ones: swapping the operands flips the sign *)
Lemma array_cmp_anti {A} (ec : A -> A -> option Z) :
  (forall x y, ec y x = option_map Z.opp (ec x y)) ->
  forall l r, array_cmp ec r l = option_map Z.opp (array_cmp ec l r).
Proof.
  intros Ha. induction l as [|x l IH]; intros [|y r].
  - reflexivity.
  - unfold array_cmp. cbn [cmp_walk]. pose proof (zlen_nonneg r). rewrite zlen_cons. change (zlen (@nil A)) with 0.
    replace (zlen r + 1 <=? 0) with false by lia. replace (0 <=? zlen r + 1) with true by lia.
    replace (zlen r + 1 =? 0) with false by lia. reflexivity.
  - unfold array_cmp. cbn [cmp_walk]. pose proof (zlen_nonneg l). rewrite zlen_cons. change (zlen (@nil A)) with 0.
    replace (zlen l + 1 <=? 0) with false by lia. replace (0 <=? zlen l + 1) with true by lia.
    replace (zlen l + 1 =? 0) with false by lia. reflexivity.
  - rewrite !array_cmp_cons, (Ha x y). destruct (ec x y) as [[|p|p]|]; try reflexivity. apply IH.
Qed.

(* ---- uniq ---- *)
(* keep an element iff nothing earlier is equal to it *)
Fixpoint first_occ {A} (eqk : A -> A -> bool) (before l : list A) : list A :=
  match l with
  | [] => []
  | x :: r => if existsb (eqk x) before then first_occ eqk (x :: before) r
              else x :: first_occ eqk (x :: before) r
  end.
Record equivalence {A} (eqk : A -> A -> bool) : Prop := {
  eq_r : forall x, eqk x x = true;
  eq_s : forall x y, eqk x y = true -> eqk y x = true;
  eq_t : forall x y z, eqk x y = true -> eqk y z = true -> eqk x z = true }.
Definition same_cover {A} (eqk : A -> A -> bool) (seen before : list A) : Prop :=
  forall x, existsb (eqk x) seen = existsb (eqk x) before.
Lemma cover_dup {A} (eqk : A -> A -> bool) : equivalence eqk -> forall x seen before,
  same_cover eqk seen before -> existsb (eqk x) seen = true -> same_cover eqk seen (x :: before).
Proof.
  intros HE x seen before HC Hx y. cbn. rewrite <- (HC y). destruct (eqk y x) eqn:E; [|reflexivity].
  cbn. apply existsb_exists in Hx as (z & Hz & Hxz). apply existsb_exists. exists z. split; [exact Hz|].
  eapply eq_t; eassumption.
Qed.
Lemma cover_new {A} (eqk : A -> A -> bool) x seen before :
  same_cover eqk seen before -> same_cover eqk (x :: seen) (x :: before).
Proof. intros HC y. cbn. rewrite HC. reflexivity. Qed.
Lemma uniq_loop_ok {A} (eqk : A -> A -> bool) : equivalence eqk -> forall l seen before acc,
  same_cover eqk seen before -> uniq_loop eqk l seen acc = acc ++ first_occ eqk before l.
Proof.
  intros HE. induction l as [|x l IH]; intros seen before acc HC; cbn; [rewrite app_nil_r; reflexivity|].
  rewrite <- (HC x). destruct (existsb (eqk x) seen) eqn:E.
  - apply IH. apply cover_dup; assumption.
  - rewrite (IH (x :: seen) (x :: before)) by (apply cover_new; assumption). rewrite <- app_assoc. reflexivity.
Qed.
Lemma array_uniq_ok {A} (eqk : A -> A -> bool) l : equivalence eqk -> array_uniq eqk l = first_occ eqk [] l.
Proof. intros HE. unfold array_uniq. apply (uniq_loop_ok eqk HE l [] []). intros x. reflexivity. Qed.
Lemma uniq_bang_answers {A} (eqk : A -> A -> bool) : equivalence eqk -> forall l seen before,
  same_cover eqk seen before ->
  exists s' bs, answers (fun (seen : list A) x =>
     if existsb (eqk x) seen then (seen, Ok false) else (x :: seen, Ok true)) seen l = (s', bs, Ok tt) /\
  picked true l bs = first_occ eqk before l /\
  length bs = length l.
Proof.
  intros HE. induction l as [|x l IH]; intros seen before HC.
  - exists seen, []. auto.
  - cbn [answers first_occ]. rewrite <- (HC x). destruct (existsb (eqk x) seen) eqn:E.
    + destruct (IH seen (x :: before) (cover_dup eqk HE x seen before HC E)) as (s' & bs & E1 & E2 & E3).
      rewrite E1. exists s', (false :: bs). split; [reflexivity|]. unfold picked in *. cbn. auto.
    + destruct (IH (x :: seen) (x :: before) (cover_new eqk x seen before HC)) as (s' & bs & E1 & E2 & E3).
      rewrite E1. exists s', (true :: bs). split; [reflexivity|]. unfold picked in *. cbn. rewrite E2. auto.
Qed.
Lemma array_uniq_bang_ok {A} (eqk : A -> A -> bool) l : equivalence eqk ->
  array_uniq_bang eqk l = (first_occ eqk [] l, Ok (negb (zlen (first_occ eqk [] l) =? zlen l))).
Proof.
  intros HE. unfold array_uniq_bang.
  destruct (uniq_bang_answers eqk HE l [] [] (fun _ => eq_refl)) as (s' & bs & E1 & E2 & E3).
  pose proof (retain_ok _ _ _ _ _ _ E1) as H. cbn iota in H. rewrite H, E2. f_equal. f_equal. f_equal.
  pose proof (picked_count l bs E3) as HC. rewrite E2 in HC. unfold zlen.
  destruct (Z.eqb_spec (Z.of_nat (length (picked false l bs))) 0), (Z.eqb_spec (Z.of_nat (length (first_occ eqk [] l))) (Z.of_nat (length l))); try reflexivity; lia.
Qed.
(* consequences: no two kept elements are equal, and each element has its
   representative *)
Lemma first_occ_in {A} (eqk : A -> A -> bool) : forall l before x,
  In x (first_occ eqk before l) -> In x l /\ existsb (eqk x) before = false.
Proof.
  induction l as [|y l IH]; intros before x H; [destruct H|]. cbn in H.
  destruct (existsb (eqk y) before) eqn:E.
  - apply IH in H as (H1 & H2). cbn in H2. apply orb_false_iff in H2. cbn; tauto.
  - destruct H as [<-|H]; [cbn; auto|]. apply IH in H as (H1 & H2). cbn in H2. apply orb_false_iff in H2. cbn; tauto.
Qed.
Lemma first_occ_distinct {A} (eqk : A -> A -> bool) : equivalence eqk -> forall l before,
  ForallOrdPairs (fun x y => eqk x y = false) (first_occ eqk before l).
Proof.
  intros HE. induction l as [|x l IH]; intros before; cbn; [constructor|].
  destruct (existsb (eqk x) before); [apply IH|]. constructor; [|apply IH].
  apply Forall_forall. intros y Hy. apply first_occ_in in Hy as (_ & Hy). cbn in Hy. apply orb_false_iff in Hy as (Hy & _).
  destruct (eqk x y) eqn:E; [|reflexivity]. apply (eq_s _ HE) in E. congruence.
Qed.
Lemma first_occ_cover {A} (eqk : A -> A -> bool) : equivalence eqk -> forall l before x, In x l ->
  existsb (eqk x) before = true \/ exists y, In y (first_occ eqk before l) /\ eqk x y = true.
Proof.
  intros HE. induction l as [|z l IH]; intros before x H; [destruct H|]. cbn.
  destruct H as [->|H].
  - destruct (existsb (eqk x) before) eqn:E; [auto|]. right. exists x. split; [left; reflexivity|apply (eq_r _ HE)].
  - destruct (IH (z :: before) x H) as [Hb|(y & Hy & Exy)].
    + cbn in Hb. apply orb_true_iff in Hb as [Hz|Hb]; [|auto].
      destruct (existsb (eqk z) before) eqn:E.
      * left. apply existsb_exists in E as (w & Hw & Ew). apply existsb_exists. exists w. split; [assumption|].
        eapply (eq_t _ HE); eassumption.
      * right. exists z. split; [left; reflexivity|assumption].
    + right. exists y. split; [|assumption]. destruct (existsb (eqk z) before); [assumption|right; assumption].
Qed.

(* ---- join ---- *)
Fixpoint intercalate (sep : str) (l : list str) : str :=
  match l with [] => [] | [x] => x | x :: r => x ++ sep ++ intercalate sep r end.
Lemma join_nonempty sep : forall l acc, acc <> [] ->
  fold_left (fun res s => match res with [] => s | _ => res ++ sep ++ s end) l acc =
  match l with [] => acc | _ => acc ++ sep ++ intercalate sep l end.
Proof.
  induction l as [|x l IH]; intros acc H; [reflexivity|]. cbn [fold_left].
  destruct acc as [|a acc]; [congruence|].
  rewrite IH by discriminate. destruct l as [|y l]; [reflexivity|].
  cbn [intercalate]. rewrite <- !app_assoc. reflexivity.
Qed.
Lemma join_ok sep x l : x <> [] -> array_join sep (x :: l) = intercalate sep (x :: l).
Proof.
  intros H. unfold array_join. cbn [fold_left]. rewrite join_nonempty by exact H. destruct l; reflexivity.
Qed.
(* what it does in general: empty strings at the front are dropped together
   with their separators *)
Fixpoint drop_empty (l : list str) : list str :=
  match l with [] :: r => drop_empty r | _ => l end.
Lemma join_general sep l : array_join sep l = intercalate sep (drop_empty l).
Proof.
  induction l as [|[|c x] l IH]; [reflexivity|exact IH|]. apply join_ok. discriminate.
Qed.
Lemma intercalate_nil l : intercalate [] l = concat l.
Proof.
  induction l as [|x l IH]; [reflexivity|]. destruct l as [|y l]; [cbn; rewrite app_nil_r; reflexivity|].
  change (intercalate [] (x :: y :: l)) with (x ++ intercalate [] (y :: l)). rewrite IH. reflexivity.
Qed.
Lemma join_nosep l : array_join [] l = concat l.
Proof.
  rewrite join_general, intercalate_nil. induction l as [|[|c x] l IH]; [reflexivity|exact IH|reflexivity].
Qed.

(* ---- zip ---- *)
Lemma zip_row_nth {A} (nilv : A) args i : zip_row nilv args i = map (fun a => nth i a nilv) args.
Proof. induction args as [|a r IH]; [reflexivity|]. cbn. rewrite IH. reflexivity. Qed.
Lemma zip_loop_length {A} (nilv : A) args : forall l i, length (zip_loop nilv l args i) = length l.
Proof. induction l as [|x l IH]; intros i; [reflexivity|]. cbn. rewrite IH. reflexivity. Qed.
Lemma zip_loop_nth {A} (nilv : A) args : forall l i k, (k < length l)%nat ->
  nth k (zip_loop nilv l args i) [] = nth k l nilv :: map (fun a => nth (i + k) a nilv) args.
Proof.
  induction l as [|x l IH]; intros i k H; [cbn in H; lia|]. cbn [zip_loop]. destruct k as [|k]; cbn [nth].
  - rewrite zip_row_nth, Nat.add_0_r. reflexivity.
  - rewrite IH by (cbn in H; lia). rewrite <- Nat.add_succ_comm. reflexivity.
Qed.

(* ---- forms used by the property files ---- *)
Lemma queue_stack {A} (nilv : A) (l args : list A) (x : A) :
  array_shift nilv (array_unshift l [x]) = (l, x) /\
  array_pop nilv (array_push l [x]) = (l, x) /\
  array_shift nilv (array_push (x :: l) args) = (array_push l args, x) /\
  array_shift nilv (@nil A) = ([], nilv) /\ array_pop nilv (@nil A) = ([], nilv).
Proof.
  repeat split. unfold array_pop, array_push. rewrite rev_app_distr. cbn. rewrite rev_involutive. reflexivity.
Qed.
Lemma bsearch_least {A} (d : A) (p : A -> bool) (l : list A) :
  (forall i j, (i <= j)%nat -> (j < length l)%nat -> p (nth i l d) = true -> p (nth j l d) = true) ->
  match binary_search (fun (s : unit) x => (s, Ok (p x))) tt l with
  | (_, Ok (Some i)) => 0 <= i < Z.of_nat (length l) /\ p (nth (Z.to_nat i) l d) = true /\
                        forall j, 0 <= j < i -> p (nth (Z.to_nat j) l d) = false
  | (_, Ok None) => forall j, (j < length l)%nat -> p (nth j l d) = false
  | _ => False
  end.
Proof.
  intros H. assert (Hm : forall i j, 0 <= i <= j -> j < zlen l -> p (rd d l i) = true -> p (rd d l j) = true).
  { intros i j Hi Hj. rewrite <- !rd_nth. apply H; unfold zlen in *; lia. }
  pose proof (binary_search_least d p l Hm) as HB.
  destruct (binary_search _ tt l) as (u & [[i|]|k|]); try exact HB.
  - destruct HB as (H1 & H2 & H3). split; [exact H1|]. rewrite rd_nth. split; [exact H2|].
    intros j Hj. rewrite rd_nth. apply H3. exact Hj.
  - intros j Hj. specialize (HB (Z.of_nat j) ltac:(unfold zlen; lia)). rewrite <- rd_nth, Nat2Z.id in HB. exact HB.
Qed.
Lemma rotate_spec {A} (d : A) (l : list A) (i : Z) : l <> [] ->
  length (array_rotate l i) = length l /\
  forall j, 0 <= j < Z.of_nat (length l) ->
    nth (Z.to_nat j) (array_rotate l i) d = nth (Z.to_nat ((j + i) mod Z.of_nat (length l))) l d.
Proof.
  intros H. destruct (rotate_ok d l i H) as (H1 & H2). split; [unfold zlen in H1; lia|].
  intros j Hj. rewrite !rd_nth. apply H2. exact Hj.
Qed.
Lemma uniq_spec {A} (eqk : A -> A -> bool) (l : list A) :
  (forall x, eqk x x = true) -> (forall x y, eqk x y = true -> eqk y x = true) ->
  (forall x y z, eqk x y = true -> eqk y z = true -> eqk x z = true) ->
  array_uniq eqk l = first_occ eqk [] l /\
  array_uniq_bang eqk l = (first_occ eqk [] l, Ok (negb (Z.of_nat (length (first_occ eqk [] l)) =? Z.of_nat (length l)))) /\
  ForallOrdPairs (fun x y => eqk x y = false) (array_uniq eqk l) /\
  (forall x, In x l -> exists y, In y (array_uniq eqk l) /\ eqk x y = true).
Proof.
  intros Hr Hs Ht. assert (HE : equivalence eqk) by (constructor; assumption).
  rewrite (array_uniq_ok eqk l HE). split; [reflexivity|]. split; [apply array_uniq_bang_ok; assumption|].
  split; [apply first_occ_distinct; assumption|]. intros x Hx.
  destruct (first_occ_cover eqk HE l [] x Hx) as [H|H]; [discriminate|exact H].
Qed.
Lemma array_cmp_iff {A} (key : A -> Z) (l r : list A) :
  let ec := fun x y => Some (sgn3 (key x) (key y)) in
  (array_cmp ec l r = Some (-1) <-> lex_lt (map key l) (map key r)) /\
  (array_cmp ec l r = Some 0 <-> map key l = map key r) /\
  (array_cmp ec l r = Some 1 <-> lex_lt (map key r) (map key l)).
Proof.
  intros ec. pose proof (array_cmp_lex key l r) as H. cbn zeta in H. fold ec in H.
  pose proof (lex_irrefl (map key l)) as HI.
  destruct H as [(-> & HX)|[(-> & HX)|(-> & HX)]]; repeat split; intros HY; try discriminate; try assumption; try reflexivity; exfalso.
  - apply HI. rewrite HY at 2. exact HX.
  - apply HI. eapply lex_trans; eassumption.
  - apply HI. rewrite HX at 2. exact HY.
  - apply HI. rewrite HX at 1. exact HY.
  - apply HI. eapply lex_trans; eassumption.
  - apply HI. rewrite HY at 1. exact HX.
Qed.
Lemma join_spec sep x l : x <> [] \/ sep = [] -> array_join sep (x :: l) = intercalate sep (x :: l).
Proof. intros [H| ->]; [apply join_ok; exact H|]. rewrite join_nosep, intercalate_nil. reflexivity. Qed.
Lemma join_refuted : exists (sep : str) (l : list str), array_join sep l <> intercalate sep l.
Proof. exists [44], [[]; [97]]. discriminate. Qed.
