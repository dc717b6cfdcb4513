(* Proofs about array methods: retain, searching, rotation, nesting. *)
From Coq Require Import Permutation.
From Verif Require Import Base ModelArray ProofsArray.
Ltac Zify.zify_post_hook ::= Z.div_mod_to_equations.

(* ---- retain ---- *)
(* What the block says: it is called on the elements in order until it raises. *)
Fixpoint answers {S A} (f : cb S A bool) (s : S) (l : list A) : S * list bool * res unit :=
  match l with
  | [] => (s, [], Ok tt)
  | x :: r =>
      match f s x with
      | (s', Ok b) => let '(s2, bs, e) := answers f s' r in (s2, b :: bs, e)
      | (s', Err k) => (s', [], Err k)
      | (s', Panic) => (s', [], Panic)
      end
  end.
Definition picked {A} (want : bool) (l : list A) (bs : list bool) : list A :=
  map fst (filter (fun p => Bool.eqb (snd p) want) (combine l bs)).

Lemma v_get_app {A} (a : list A) x b : v_get (a ++ x :: b) (zlen a) = Ok x.
Proof.
  unfold v_get. pose proof (zlen_nonneg a). pose proof (zlen_nonneg b).
  replace (_ && _) with true by (zl; lia).
  unfold zlen. rewrite Nat2Z.id, nth_error_app2, Nat.sub_diag by lia. reflexivity.
Qed.
Lemma v_set_app {A} (a : list A) x y b : v_set (a ++ x :: b) (zlen a) y = Ok (a ++ y :: b).
Proof.
  unfold v_set. pose proof (zlen_nonneg a). pose proof (zlen_nonneg b).
  replace (_ && _) with true by (zl; lia).
  rewrite zfirst_app_l, zfirst_all by lia. rewrite zskip_app_r by lia.
  replace (zlen a + 1 - zlen a) with 1 by lia. reflexivity.
Qed.
Lemma v_swap_app {A} (K : list A) d D x R :
  v_swap (K ++ d :: D ++ x :: R) (zlen K) (zlen K + zlen D + 1) = Ok (K ++ x :: D ++ d :: R).
Proof.
  unfold v_swap. rewrite v_get_app. cbn [rbind].
  assert (E : forall y, v_get (K ++ y :: D ++ x :: R) (zlen K + zlen D + 1) = Ok x /\
                  v_set (K ++ y :: D ++ x :: R) (zlen K + zlen D + 1) d = Ok (K ++ y :: D ++ d :: R)).
  { intros y. replace (K ++ y :: D ++ x :: R) with ((K ++ y :: D) ++ x :: R) by (rewrite <- app_assoc; reflexivity).
    replace (zlen K + zlen D + 1) with (zlen (K ++ y :: D)) by (zl; lia).
    rewrite v_get_app, v_set_app, <- app_assoc. auto. }
  rewrite (proj1 (E d)). cbn [rbind]. rewrite v_set_app. cbn [rbind]. apply E.
Qed.

Lemma retain_loop_ok {S A} (f : cb S A bool) : forall (rest : list A) s K D s1 bs e,
  answers f s rest = (s1, bs, e) ->
  exists D', Permutation D' (D ++ picked false rest bs) /\
  retain_loop f s (K ++ D ++ rest) (zlen K + zlen D) (length rest) (zlen D) =
    (s1, K ++ picked true rest bs ++ D' ++ skipn (length bs) rest,
     match e with Ok _ => Ok (zlen D') | Err k => Err k | Panic => Panic end).
Proof.
  induction rest as [|x rest IH]; intros s K D s1 bs e HA.
  - cbn in HA. injection HA as <- <- <-. exists D. cbn. rewrite !app_nil_r. auto.
  - cbn [answers] in HA. cbn [retain_loop length].
    assert (EG : v_get (K ++ D ++ x :: rest) (zlen K + zlen D) = Ok x).
    { rewrite app_assoc. replace (zlen K + zlen D) with (zlen (K ++ D)) by (zl; lia). apply v_get_app. }
    rewrite EG.
    destruct (f s x) as (s' & [b|k|]).
    + destruct (answers f s' rest) as [[s2 bs'] e'] eqn:EA. injection HA as <- <- <-.
      destruct b.
      * destruct D as [|d D].
        -- change (0 <? zlen (@nil A)) with false. cbn [app].
           destruct (IH s' (K ++ [x]) [] _ _ _ EA) as (D' & HP & HR).
           exists D'. split; [exact HP|]. cbn [app] in *. rewrite <- app_assoc in HR. cbn [app] in HR.
           replace (zlen (K ++ [x]) + zlen (@nil A)) with (zlen K + zlen (@nil A) + 1) in HR by (zl; lia).
           rewrite HR. cbn [picked]. unfold picked. cbn [combine filter snd Bool.eqb map fst length skipn].
           rewrite <- app_assoc. reflexivity.
        -- pose proof (zlen_nonneg D). replace (0 <? zlen (d :: D)) with true by (zl; lia).
           replace (zlen K + zlen (d :: D) - zlen (d :: D)) with (zlen K) by lia.
           assert (ES : v_swap (K ++ d :: D ++ x :: rest) (zlen K) (zlen K + zlen (d :: D)) = Ok (K ++ x :: D ++ d :: rest)).
           { replace (zlen K + zlen (d :: D)) with (zlen K + zlen D + 1) by (zl; lia). apply v_swap_app. }
           cbn [app]. rewrite ES. clear ES.
           destruct (IH s' (K ++ [x]) (D ++ [d]) _ _ _ EA) as (D' & HP & HR).
           exists D'. split.
           { rewrite HP. unfold picked. cbn [combine filter snd Bool.eqb map fst].
             rewrite <- app_assoc. cbn. apply Permutation_sym, Permutation_middle. }
           rewrite <- !app_assoc in HR. cbn [app] in HR.
           replace (zlen (K ++ [x]) + zlen (D ++ [d])) with (zlen K + zlen (d :: D) + 1) in HR by (zl; lia).
           replace (zlen (D ++ [d])) with (zlen (d :: D)) in HR by (zl; lia).
           rewrite HR. unfold picked. cbn [combine filter snd Bool.eqb map fst length skipn app].
           reflexivity.
      * destruct (IH s' K (D ++ [x]) _ _ _ EA) as (D' & HP & HR).
        exists D'. split.
        { rewrite HP. unfold picked. cbn [combine filter snd Bool.eqb map fst].
          rewrite <- app_assoc. reflexivity. }
        rewrite <- !app_assoc in HR. cbn [app] in HR.
        replace (zlen K + zlen (D ++ [x])) with (zlen K + zlen D + 1) in HR by (zl; lia).
        replace (zlen (D ++ [x])) with (zlen D + 1) in HR by (zl; lia).
        rewrite HR. unfold picked. cbn [combine filter snd Bool.eqb map fst length skipn app].
        reflexivity.
    + injection HA as <- <- <-. exists D. cbn. rewrite !app_nil_r. auto.
    + injection HA as <- <- <-. exists D. cbn. rewrite !app_nil_r. auto.
Qed.

Lemma answers_ok_length {S A} (f : cb S A bool) : forall l s s1 bs e,
  answers f s l = (s1, bs, e) -> (e = Ok tt -> length bs = length l) /\ (length bs <= length l)%nat.
Proof.
  induction l as [|x l IH]; intros s s1 bs e H; cbn in H.
  - injection H as <- <- <-. auto.
  - destruct (f s x) as (s' & [b|k|]).
    + destruct (answers f s' l) as [[s2 bs'] e'] eqn:EA. injection H as <- <- <-.
      destruct (IH _ _ _ _ EA). cbn. split; [intros; f_equal; auto|lia].
    + injection H as <- <- <-. cbn. split; [discriminate|lia].
    + injection H as <- <- <-. cbn. split; [discriminate|lia].
Qed.
Lemma picked_count {A} (l : list A) : forall bs, length bs = length l ->
  (length (picked true l bs) + length (picked false l bs) = length l)%nat.
Proof.
  induction l as [|x l IH]; intros [|b bs] H; try discriminate; [reflexivity|].
  cbn in H. specialize (IH bs ltac:(lia)). unfold picked in *. destruct b; cbn [combine filter snd Bool.eqb map fst length] in *; lia.
Qed.
Lemma picked_perm {A} (l : list A) : forall bs, (length bs <= length l)%nat ->
  Permutation (picked true l bs ++ picked false l bs ++ skipn (length bs) l) l.
Proof.
  induction l as [|x l IH]; intros [|b bs] H; try (cbn in H; lia); try reflexivity.
  cbn [length] in H. specialize (IH bs ltac:(lia)). unfold picked in *.
  destruct b; cbn [combine filter snd Bool.eqb map fst length skipn app] in *.
  - apply perm_skip. exact IH.
  - rewrite <- Permutation_middle. apply perm_skip. exact IH.
Qed.
Lemma picked_none {A} (l : list A) : forall bs, length bs = length l ->
  picked false l bs = [] -> picked true l bs = l.
Proof.
  induction l as [|x l IH]; intros [|b bs] H; try discriminate; [reflexivity|].
  cbn in H. unfold picked in *. destruct b; cbn [combine filter snd Bool.eqb map fst].
  - intros E. f_equal. apply IH; [lia|exact E].
  - discriminate.
Qed.

Lemma retain_ok {S A} (f : cb S A bool) s l s1 bs e : answers f s l = (s1, bs, e) ->
  match e with
  | Ok _ => retain f s l = (s1, picked true l bs, Ok (negb (zlen (picked false l bs) =? 0)))
  | _ => exists D, Permutation D (picked false l bs) /\
       retain f s l = (s1, picked true l bs ++ D ++ skipn (length bs) l,
                       match e with Err k => Err k | _ => Panic end)
  end.
Proof.
  intros HA. destruct (retain_loop_ok f l s [] [] _ _ _ HA) as (D & HP & HR).
  cbn [app] in HP, HR. change (zlen (@nil A) + zlen (@nil A)) with 0 in HR. change (zlen (@nil A)) with 0 in HR.
  pose proof (answers_ok_length f l s s1 bs e HA) as (HL & HL2).
  unfold retain. rewrite HR. clear HR. destruct e as [u|k|].
  - destruct u. specialize (HL eq_refl). rewrite skipn_all2 by lia. rewrite app_nil_r.
    assert (EL : zlen D = zlen (picked false l bs)).
    { unfold zlen. f_equal. apply Permutation_length. exact HP. }
    pose proof (picked_count l bs HL) as HC.
    rewrite EL. f_equal. f_equal. destruct (Z.ltb_spec 0 (zlen (picked false l bs))).
    + unfold v_truncate. rewrite zfirst_app_l by (unfold zlen in *; lia). apply zfirst_all. unfold zlen; lia.
    + pose proof (zlen_le0 (picked false l bs) ltac:(lia)) as En. rewrite En in HP.
      apply Permutation_sym, Permutation_nil in HP. subst D. apply app_nil_r.
  - exists D. auto.
  - exists D. auto.
Qed.
(* no element is lost or duplicated when the block raises *)
Lemma retain_perm {S A} (f : cb S A bool) s l s1 v r : retain f s l = (s1, v, r) ->
  (forall b, r <> Ok b) -> Permutation v l.
Proof.
  intros H Hr. destruct (answers f s l) as [[s' bs] e] eqn:HA.
  pose proof (retain_ok f s l s' bs e HA) as HK.
  pose proof (answers_ok_length f l s s' bs e HA) as (_ & HL).
  destruct e as [u|k|].
  - rewrite HK in H. injection H as <- <- <-. exfalso. eapply Hr. reflexivity.
  - destruct HK as (D & HP & HK). rewrite HK in H. injection H as <- <- <-.
    rewrite HP. apply picked_perm. exact HL.
  - destruct HK as (D & HP & HK). rewrite HK in H. injection H as <- <- <-.
    rewrite HP. apply picked_perm. exact HL.
Qed.
(* pure blocks *)
Lemma answers_pure {A} (p : A -> bool) l :
  answers (fun (s : unit) x => (s, Ok (p x))) tt l = (tt, map p l, Ok tt).
Proof. induction l as [|x l IH]; [reflexivity|]. cbn. rewrite IH. reflexivity. Qed.
Lemma picked_filter {A} (p : A -> bool) (l : list A) : picked true l (map p l) = filter p l.
Proof.
  unfold picked. induction l as [|x l IH]; [reflexivity|]. cbn. destruct (p x); cbn; rewrite IH; reflexivity.
Qed.
Lemma picked_filter_neg {A} (p : A -> bool) (l : list A) : picked false l (map p l) = filter (fun x => negb (p x)) l.
Proof.
  unfold picked. induction l as [|x l IH]; [reflexivity|]. cbn. destruct (p x); cbn; rewrite IH; reflexivity.
Qed.
Lemma retain_pure {A} (p : A -> bool) l :
  retain (fun (s : unit) x => (s, Ok (p x))) tt l =
  (tt, filter p l, Ok (negb (zlen (filter (fun x => negb (p x)) l) =? 0))).
Proof.
  pose proof (retain_ok _ _ _ _ _ _ (answers_pure p l)) as H. cbn iota in H.
  rewrite H, picked_filter, picked_filter_neg. reflexivity.
Qed.
Lemma compact_ok {A} (isnil : A -> bool) l :
  compact_ isnil l = (filter (fun x => negb (isnil x)) l, Ok (existsb isnil l)).
Proof.
  unfold compact_. rewrite (retain_pure (fun x => negb (isnil x))). f_equal. f_equal.
  induction l as [|x l IH]; [reflexivity|]. cbn [filter existsb]. rewrite negb_involutive.
  destruct (isnil x); cbn [negb orb].
  - pose proof (zlen_nonneg (filter (fun x0 => negb (negb (isnil x0))) l)). zl.
    rewrite (proj2 (Z.eqb_neq _ _)) by lia. reflexivity.
  - exact IH.
Qed.
Lemma delete_answers {A} (eqb : A -> A -> bool) arg : forall l s,
  answers (fun (s : option A) x => if eqb x arg then (Some x, Ok false) else (s, Ok true)) s l =
  (fold_left (fun s x => if eqb x arg then Some x else s) l s, map (fun x => negb (eqb x arg)) l, Ok tt).
Proof.
  induction l as [|x l IH]; intros s; [reflexivity|]. cbn [answers map fold_left].
  destruct (eqb x arg); rewrite IH; reflexivity.
Qed.
Lemma delete_last {A} (eqb : A -> A -> bool) arg : forall (l : list A) s,
  fold_left (fun s x => if eqb x arg then Some x else s) l s =
  match rev (filter (fun x => eqb x arg) l) with x :: _ => Some x | [] => s end.
Proof.
  induction l as [|x l IH]; intros s; [reflexivity|]. cbn [fold_left filter]. rewrite IH.
  destruct (eqb x arg); [|reflexivity]. cbn [rev].
  destruct (rev (filter (fun x0 => eqb x0 arg) l)) as [|y r]; reflexivity.
Qed.
Lemma delete_ok {A} (eqb : A -> A -> bool) nilv (l : list A) arg :
  array_delete eqb nilv l arg = (filter (fun x => negb (eqb x arg)) l,
    Ok (last (filter (fun x => eqb x arg) l) nilv)).
Proof.
  unfold array_delete.
  pose proof (retain_ok _ _ _ _ _ _ (delete_answers eqb arg l None)) as H. cbn iota in H.
  rewrite H, picked_filter. f_equal. f_equal. rewrite delete_last.
  generalize (filter (fun x => eqb x arg) l). intros m.
  destruct m as [|y m _] using rev_ind; [reflexivity|]. rewrite rev_app_distr, last_last. reflexivity.
Qed.

(* ---- shift(n), slice!, drop ---- *)
Lemma shift_n_ok {A} (l : list A) n : 0 <= n <= zlen l ->
  array_shift_n l n = (zskip n l, Ok (zfirst n l)).
Proof.
  intros H. unfold array_shift_n. replace (n <? 0) with false by lia. replace (zlen l <? n) with false by lia.
  rewrite !v_slice_ok by lia. rewrite (zfirst_all (zlen l - n)) by (zl; lia).
  rewrite (zskip_0 0) by lia. f_equal. f_equal. f_equal. lia.
Qed.
Lemma slice_bang_ok {A} (l : list A) s n : 0 <= s <= zlen l -> 0 <= n ->
  array_slice_bang l s n = (zfirst s l ++ zskip (s + n) l, Ok (Some (zfirst n (zskip s l)))).
Proof.
  intros Hs Hn. unfold array_slice_bang. replace (s <? 0) with false by lia. replace (n <? 0) with false by lia.
  replace (zlen l <? s) with false by lia.
  destruct ((zlen l <=? s) || (n =? 0)) eqn:E.
  - destruct (Z.eqb_spec n 0) as [->|].
    + rewrite (zfirst_0 0) by lia. rewrite Z.add_0_r, zfirst_zskip. reflexivity.
    + assert (s = zlen l) as -> by lia. rewrite (zfirst_all (zlen l) l), (zskip_all (zlen l + n) l), (zskip_all (zlen l) l) by lia.
      rewrite app_nil_r. unfold zfirst. rewrite firstn_nil. reflexivity.
  - destruct (Z.ltb_spec (zlen l) (s + n)).
    + rewrite v_slice_ok by lia. rewrite (zskip_all (zlen l) l), (zskip_all (s + n) l) by lia.
      rewrite (zfirst_all (zlen l - s) (zskip s l)), (zfirst_all n (zskip s l)) by (zl; lia). reflexivity.
    + rewrite v_slice_ok by lia. do 4 f_equal. lia.
Qed.

(* ---- rotate! ---- *)
Lemma rd_in {A} (nilv : A) l j : 0 <= j < zlen l -> nth_error l (Z.to_nat j) = Some (rd nilv l j).
Proof.
  intros H. unfold rd. destruct (nth_error l (Z.to_nat j)) eqn:E; [reflexivity|].
  apply nth_error_None in E. unfold zlen in H. lia.
Qed.
Lemma rotate_left_rd {A} (nilv : A) l k j : 0 <= k <= zlen l -> 0 <= j < zlen l ->
  rd nilv (rotate_left l k) j = rd nilv l (if j + k <? zlen l then j + k else j + k - zlen l).
Proof.
  intros Hk Hj. unfold rotate_left, rd, zskip, zfirst. rewrite ne_app, ne_skipn, ne_firstn, skipn_length.
  unfold zlen in *. destruct (Nat.ltb_spec (Z.to_nat j) (length l - Z.to_nat k)).
  - replace (j + k <? Z.of_nat (length l)) with true by lia.
    replace (Z.to_nat k + Z.to_nat j)%nat with (Z.to_nat (j + k)) by lia. reflexivity.
  - replace (j + k <? Z.of_nat (length l)) with false by lia.
    destruct (Nat.ltb_spec (Z.to_nat j - (length l - Z.to_nat k)) (Z.to_nat k)); [|lia].
    replace (Z.to_nat j - (length l - Z.to_nat k))%nat with (Z.to_nat (j + k - Z.of_nat (length l))) by lia. reflexivity.
Qed.
Lemma rotate_left_mod {A} (nilv : A) l k j : 0 <= k <= zlen l -> 0 <= j < zlen l ->
  rd nilv (rotate_left l k) j = rd nilv l ((j + k) mod zlen l).
Proof.
  intros Hk Hj. rewrite rotate_left_rd by assumption. f_equal.
  destruct (Z.ltb_spec (j + k) (zlen l)).
  - rewrite Z.mod_small by lia. reflexivity.
  - symmetry. rewrite <- (Z.mod_add _ (-1)) by lia. rewrite Z.mod_small by lia. lia.
Qed.
Lemma zlen_rotate {A} (l : list A) k : 0 <= k <= zlen l -> zlen (rotate_left l k) = zlen l.
Proof. intros. unfold rotate_left. zl. lia. Qed.
Lemma rotate_ok {A} (nilv : A) (l : list A) i : l <> [] ->
  zlen (array_rotate l i) = zlen l /\
  forall j, 0 <= j < zlen l -> rd nilv (array_rotate l i) j = rd nilv l ((j + i) mod zlen l).
Proof.
  intros Hne. assert (HL : 0 < zlen l) by (destruct l; [congruence|]; pose proof (zlen_nonneg l); zl; lia).
  unfold array_rotate. destruct l as [|x0 l0]; [congruence|]. set (l := x0 :: l0) in *. clearbody l.
  assert (HX : exists k, 0 <= k <= zlen l /\ k mod zlen l = i mod zlen l /\
    (if 0 <=? i then rotate_left l (Z.rem i (zlen l)) else rotate_right l (Z.rem (- i) (zlen l))) = rotate_left l k).
  { destruct (Z.leb_spec 0 i).
    - exists (Z.rem i (zlen l)). rewrite Z.rem_mod_nonneg by lia.
      pose proof (Z.mod_pos_bound i (zlen l) HL). split; [lia|]. split; [apply Z.mod_mod; lia|reflexivity].
    - exists (zlen l - Z.rem (- i) (zlen l)). rewrite Z.rem_mod_nonneg by lia.
      pose proof (Z.mod_pos_bound (- i) (zlen l) HL). split; [lia|]. split; [|reflexivity].
      rewrite <- (Z.mod_add (_ - _) (-1)) by lia.
      replace (zlen l - (- i) mod zlen l + -1 * zlen l) with (- ((- i) mod zlen l)) by lia.
      rewrite <- Z.sub_0_l. rewrite Zminus_mod_idemp_r. f_equal. lia. }
  destruct HX as (k & Hk & Hmod & ->). split; [apply zlen_rotate; assumption|].
  intros j Hj. rewrite rotate_left_mod by assumption. f_equal.
  rewrite <- Zplus_mod_idemp_r, Hmod, Zplus_mod_idemp_r. reflexivity.
Qed.

(* ---- binary search ---- *)
Lemma v_get_rd {A} (nilv : A) (l : list A) i : 0 <= i < zlen l -> v_get l i = Ok (rd nilv l i).
Proof. intros H. unfold v_get. replace (_ && _) with true by lia. rewrite (rd_in nilv) by assumption. reflexivity. Qed.

(* any block: never stuck, never out of range; it ends with an index, nil, or
   the block's own failure *)
Definition quiet {S A B} (f : cb S A B) : Prop := forall s x, snd (f s x) <> Panic.
Lemma bs_loop_total {S A} (f : cb S A bool) (nilv : A) : quiet f -> forall fuel s l i_min i_max,
  0 <= i_min < i_max -> i_max < zlen l -> i_max - i_min <= Z.of_nat fuel ->
  exists s' r, bs_loop fuel f s l i_min i_max = (s', r) /\
    match r with Ok (Some i) => i_min < i <= i_max | Ok None => False | Err _ => True | Panic => False end.
Proof.
  intros Hq. induction fuel as [|fuel IH]; intros s l i_min i_max H1 H2 H3; [lia|].
  cbn [bs_loop]. destruct (Z.eqb_spec (i_min + (i_max - i_min) / 2) i_min) as [E|E].
  - do 2 eexists. split; [reflexivity|]. cbn. lia.
  - assert (i_min < i_min + (i_max - i_min) / 2 < i_max).
    { assert (0 <= (i_max - i_min) / 2) by (apply Z.div_pos; lia).
      assert ((i_max - i_min) / 2 < i_max - i_min) by (apply Z.div_lt; lia). lia. }
    set (i_mid := i_min + (i_max - i_min) / 2) in *. clearbody i_mid.
    rewrite (v_get_rd nilv) by lia.
    pose proof (Hq s (rd nilv l i_mid)) as HQ. destruct (f s (rd nilv l i_mid)) as (s' & [[|]|k|]); cbn in HQ.
    + destruct (IH s' l i_min i_mid ltac:(lia) ltac:(lia) ltac:(lia)) as (s2 & r & E2 & HR).
      exists s2, r. split; [exact E2|]. destruct r as [[i|]|k|]; try exact HR. lia.
    + destruct (IH s' l i_mid i_max ltac:(lia) ltac:(lia) ltac:(lia)) as (s2 & r & E2 & HR).
      exists s2, r. split; [exact E2|]. destruct r as [[i|]|k|]; try exact HR. lia.
    + do 2 eexists. split; [reflexivity|]. exact I.
    + congruence.
Qed.
Lemma binary_search_total {S A} (f : cb S A bool) (nilv : A) s l : quiet f ->
  exists s' r, binary_search f s l = (s', r) /\
    match r with Ok (Some i) => 0 <= i < zlen l | Panic => False | _ => True end.
Proof.
  intros Hq. unfold binary_search. destruct l as [|x0 l0].
  - do 2 eexists. split; [reflexivity|exact I].
  - set (l := x0 :: l0). assert (HL : 0 < zlen l) by (unfold l; pose proof (zlen_nonneg l0); zl; lia).
    assert (E0 : rd nilv l 0 = x0) by reflexivity. clearbody l.
    pose proof (Hq s x0) as HQ. destruct (f s x0) as (s1 & [[|]|k|]); cbn in HQ.
    + do 2 eexists. split; [reflexivity|]. cbv iota beta; lia.
    + rewrite (v_get_rd nilv) by lia.
      pose proof (Hq s1 (rd nilv l (zlen l - 1))) as HQ2.
      destruct (f s1 (rd nilv l (zlen l - 1))) as (s2 & [[|]|k|]); cbn in HQ2.
      * destruct (Z.eq_dec (zlen l) 1) as [E1|E1].
        -- exists s2, (Ok (Some 0)). assert (length l = 1%nat) as -> by (unfold zlen in E1; lia).
           rewrite E1. split; [reflexivity|lia].
        -- destruct (bs_loop_total f nilv Hq (length l) s2 l 0 (zlen l - 1) ltac:(lia) ltac:(lia) ltac:(unfold zlen; lia)) as (s3 & r & E & HR).
           exists s3, r. split; [exact E|]. destruct r as [[i|]|k|]; try exact HR; try exact I. lia.
      * do 2 eexists. split; [reflexivity|exact I].
      * do 2 eexists. split; [reflexivity|exact I].
      * congruence.
    + do 2 eexists. split; [reflexivity|exact I].
    + congruence.
Qed.
Lemma bs_loop_pure {A} (nilv : A) (p : A -> bool) : forall fuel l i_min i_max,
  0 <= i_min < i_max -> i_max < zlen l -> i_max - i_min <= Z.of_nat fuel ->
  p (rd nilv l i_min) = false -> p (rd nilv l i_max) = true ->
  exists i, bs_loop fuel (fun (s : unit) x => (s, Ok (p x))) tt l i_min i_max = (tt, Ok (Some i)) /\
    i_min < i <= i_max /\ p (rd nilv l i) = true /\ p (rd nilv l (i - 1)) = false.
Proof.
  induction fuel as [|fuel IH]; intros l i_min i_max H1 H2 H3 P1 P2; [lia|].
  cbn [bs_loop]. destruct (Z.eqb_spec (i_min + (i_max - i_min) / 2) i_min) as [E|E].
  - exists i_max. assert (i_max = i_min + 1) as -> by lia.
    split; [reflexivity|]. split; [lia|]. split; [exact P2|]. replace (i_min + 1 - 1) with i_min by lia. exact P1.
  - assert (i_min < i_min + (i_max - i_min) / 2 < i_max).
    { assert (0 <= (i_max - i_min) / 2) by (apply Z.div_pos; lia).
      assert ((i_max - i_min) / 2 < i_max - i_min) by (apply Z.div_lt; lia). lia. }
    set (i_mid := i_min + (i_max - i_min) / 2) in *. clearbody i_mid.
    rewrite (v_get_rd nilv) by lia.
    destruct (p (rd nilv l i_mid)) eqn:Pm.
    + destruct (IH l i_min i_mid ltac:(lia) ltac:(lia) ltac:(lia) P1 Pm) as (i & E2 & HR). exists i. intuition lia.
    + destruct (IH l i_mid i_max ltac:(lia) ltac:(lia) ltac:(lia) Pm P2) as (i & E2 & HR). exists i. intuition lia.
Qed.
(* with a block whose answer is monotone along the array: the least index *)
Lemma binary_search_least {A} (nilv : A) (p : A -> bool) l :
  (forall i j, 0 <= i <= j -> j < zlen l -> p (rd nilv l i) = true -> p (rd nilv l j) = true) ->
  match binary_search (fun (s : unit) x => (s, Ok (p x))) tt l with
  | (_, Ok (Some i)) => 0 <= i < zlen l /\ p (rd nilv l i) = true /\
                        forall j, 0 <= j < i -> p (rd nilv l j) = false
  | (_, Ok None) => forall j, 0 <= j < zlen l -> p (rd nilv l j) = false
  | _ => False
  end.
Proof.
  intros Hm. unfold binary_search. destruct l as [|x0 l0]; [cbn; intros; zl; lia|].
  set (l := x0 :: l0) in *. assert (HL : 0 < zlen l) by (unfold l; pose proof (zlen_nonneg l0); zl; lia).
  assert (E0 : rd nilv l 0 = x0) by reflexivity. clearbody l.
  destruct (p x0) eqn:P0.
  - split; [lia|]. split; [rewrite E0; exact P0|]. intros; lia.
  - rewrite (v_get_rd nilv) by lia. destruct (p (rd nilv l (zlen l - 1))) eqn:P1.
    + assert (zlen l <> 1).
      { intros E. rewrite E in P1. cbn in P1. rewrite E0 in P1. congruence. }
      destruct (bs_loop_pure nilv p (length l) l 0 (zlen l - 1) ltac:(lia) ltac:(lia) ltac:(unfold zlen; lia) ltac:(rewrite E0; exact P0) P1) as (i & E & Hi & Pi & Pi1).
      rewrite E. split; [lia|]. split; [exact Pi|]. intros j Hj.
      destruct (p (rd nilv l j)) eqn:Pj; [|reflexivity].
      rewrite (Hm j (i - 1)) in Pi1 by (try assumption; lia). discriminate.
    + intros j Hj. destruct (p (rd nilv l j)) eqn:Pj; [|reflexivity].
      rewrite (Hm j (zlen l - 1)) in P1 by (try assumption; lia). discriminate.
Qed.
