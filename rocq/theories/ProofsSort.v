(* The sort is a stable, memory-safe permutation for every comparison block. *)
From Coq Require Import Permutation Sorted.
From Verif Require Import Base ModelSort.

Record swo {A} (lt : A -> A -> bool) : Prop := {
  swo_asym : forall x y, lt x y = true -> lt y x = false;
  swo_neg : forall x y z, lt x y = true -> lt x z = true \/ lt z y = true }.
(* neither is before the other *)
Definition tie {A} (lt : A -> A -> bool) (x y : A) : bool := negb (lt x y) && negb (lt y x).
Definition ordered {A} (lt : A -> A -> bool) (l : list A) : Prop :=
  StronglySorted (fun x y => lt y x = false) l.
(* each group of tied elements appears in the same order in both lists *)
Definition same_ties {A} (lt : A -> A -> bool) (l l' : list A) : Prop :=
  forall x, filter (tie lt x) l = filter (tie lt x) l'.

Section Order.
  Context {A : Type} (lt : A -> A -> bool).
  Lemma st_refl l : same_ties lt l l.
  Proof. intros x. reflexivity. Qed.
  Lemma st_trans a b c : same_ties lt a b -> same_ties lt b c -> same_ties lt a c.
  Proof. intros H1 H2 x. rewrite H1. apply H2. Qed.
  Lemma st_app a b c d : same_ties lt a b -> same_ties lt c d -> same_ties lt (a ++ c) (b ++ d).
  Proof. intros H1 H2 x. rewrite !filter_app, H1, H2. reflexivity. Qed.
  Hypothesis H : swo lt.
  Lemma le_trans x y z : lt y x = false -> lt z y = false -> lt z x = false.
  Proof.
    intros H1 H2. destruct (lt z x) eqn:E; [|reflexivity].
    destruct (swo_neg _ H z x y E); congruence.
  Qed.
  Lemma lt_trans x y z : lt y x = true -> lt z y = true -> lt z x = true.
  Proof.
    intros H1 H2. destruct (swo_neg _ H z y x H2) as [E|E]; [exact E|].
    apply (swo_asym _ H) in E. congruence.
  Qed.
  Lemma rel_trans (want : bool) x y z : lt y x = want -> lt z y = want -> lt z x = want.
  Proof. destruct want; [apply lt_trans|apply le_trans]. Qed.
  Lemma lt_le_trans x y z : lt x y = true -> lt z y = false -> lt x z = true.
  Proof. intros H1 H2. destruct (swo_neg _ H x y z H1); congruence. Qed.
  Lemma tie_lt x y z : lt y z = true -> tie lt x y = true -> tie lt x z = false.
  Proof.
    unfold tie. intros H1 H2. apply andb_true_iff in H2 as (H2 & H3).
    apply negb_true_iff in H2, H3. destruct (swo_neg _ H y z x H1) as [E|E]; [congruence|].
    rewrite E. reflexivity.
  Qed.
  (* moving a run of strictly smaller elements in front of x *)
  Lemma st_move x a : Forall (fun y => lt y x = true) a -> same_ties lt (x :: a) (a ++ [x]).
  Proof.
    intros HF z. cbn [filter]. rewrite filter_app. cbn [filter].
    destruct (tie lt z x) eqn:E; [|rewrite app_nil_r; reflexivity].
    assert (En : filter (tie lt z) a = []).
    { clear -HF E H. induction HF as [|y a Hy _ IH]; [reflexivity|]. cbn. rewrite IH.
      destruct (tie lt z y) eqn:E2; [|reflexivity]. rewrite (tie_lt z y x Hy E2) in E. discriminate. }
    rewrite En. reflexivity.
  Qed.
  Lemma st_move1 y l : Forall (fun x => lt y x = true) l -> same_ties lt (l ++ [y]) (y :: l).
  Proof.
    intros HF z. cbn [filter]. rewrite filter_app. cbn [filter].
    destruct (tie lt z y) eqn:E; [|rewrite app_nil_r; reflexivity].
    assert (En : filter (tie lt z) l = []).
    { clear -HF E H. induction HF as [|x a Hy _ IH]; [reflexivity|]. cbn. rewrite IH.
      rewrite (tie_lt z y x Hy E). reflexivity. }
    rewrite En. reflexivity.
  Qed.
  Lemma ord_snoc l x : ordered lt l -> Forall (fun y => lt x y = false) l -> ordered lt (l ++ [x]).
  Proof.
    induction 1 as [|y l HS IH HF]; intros HX; cbn; [constructor; constructor|].
    inversion HX; subst. constructor; [apply IH; assumption|].
    apply Forall_app. split; [assumption|]. constructor; [assumption|constructor].
  Qed.
  Lemma rev_desc w : StronglySorted (fun x y => lt y x = true) w -> ordered lt (rev w) /\ same_ties lt w (rev w).
  Proof.
    induction 1 as [|x w HS (IH1 & IH2) HF]; cbn; [split; [constructor|apply st_refl]|]. split.
    - apply ord_snoc; [assumption|]. apply Forall_rev. eapply Forall_impl; [|exact HF].
      intros y Hy. apply (swo_asym _ H). exact Hy.
    - eapply st_trans; [apply st_move; exact HF|]. apply st_app; [exact IH2|apply st_refl].
  Qed.
  Lemma Forall_perm (P : A -> Prop) l l' : Permutation l l' -> Forall P l -> Forall P l'.
  Proof. intros HP HF. rewrite Forall_forall in *. intros x Hx. apply HF. eapply Permutation_in; [symmetry; exact HP|exact Hx]. Qed.
  Lemma ord_app_inv a b : ordered lt (a ++ b) -> ordered lt a /\ ordered lt b.
  Proof.
    induction a as [|x a IH]; cbn; intros HS; [split; [constructor|exact HS]|].
    inversion HS; subst. destruct (IH H2) as (I1 & I2). apply Forall_app in H3 as (F1 & F2).
    split; [constructor; assumption|assumption].
  Qed.
  Lemma ord_snoc_inv a x : ordered lt (a ++ [x]) -> Forall (fun y => lt x y = false) a.
  Proof.
    induction a as [|y a IH]; cbn; intros HS; [constructor|]. inversion HS; subst.
    constructor; [|apply IH; assumption]. apply Forall_app in H3 as (_ & F2). inversion F2; assumption.
  Qed.
End Order.

Section Wp.
  Context {S A : Type}.
  Variable f : S -> A -> A -> S * res bool.
  Variable lt : A -> A -> bool.
  (* the block answers consistently with a strict weak order and never raises
     (it may still change the program state) *)
  Definition W : Prop := swo lt /\ forall s x y, snd (f s x y) = Ok (lt x y).

  Notation M := (@M S A).
  Definition wp {B} (m : M B) (Q : B -> list A -> Prop) (E : list A -> Prop) (v : list A) : Prop :=
    forall s, match m s v with
    | (s', v', Ok b) => Q b v'
    | (s', v', Err k) => E v' /\ exists s0 x y, f s0 x y = (s', Err k)
    | (s', v', Panic) => E v' /\ exists s0 x y, f s0 x y = (s', Panic)
    end.
  Lemma wp_ret {B} (b : B) (Q : B -> list A -> Prop) E v : Q b v -> wp (mret b) Q E v.
  Proof. intros H s. exact H. Qed.
  Lemma wp_conseq {B} (m : M B) (Q Q' : B -> list A -> Prop) (E E' : list A -> Prop) v :
    wp m Q E v -> (forall b w, Q b w -> Q' b w) -> (forall w, E w -> E' w) -> wp m Q' E' v.
  Proof.
    intros H HQ HE s. specialize (H s). destruct (m s v) as [[s' v'] [b|k|]]; [auto| |]; destruct H; auto.
  Qed.
  Lemma wp_bind {B C} (m : M B) (k : B -> M C) Q E v :
    wp m (fun b w => wp (k b) Q E w) E v -> wp (mbind m k) Q E v.
  Proof.
    intros H s. specialize (H s). unfold mbind. destruct (m s v) as [[s' v'] [b|e|]]; [apply H| |]; exact H.
  Qed.
  Lemma wp_get (Q : A -> list A -> Prop) E a x b i : i = length a -> Q x (a ++ x :: b) -> wp (mget i) Q E (a ++ x :: b).
  Proof.
    intros -> H s. unfold mget. rewrite nth_error_app2, Nat.sub_diag by lia. exact H.
  Qed.
  Lemma wp_get_eq (Q : A -> list A -> Prop) E v a x b i : v = a ++ x :: b -> i = length a -> Q x v -> wp (mget i) Q E v.
  Proof. intros -> Hi H. apply wp_get; assumption. Qed.
  Lemma wp_len (Q : nat -> list A -> Prop) E v : Q (length v) v -> wp mlen Q E v.
  Proof. intros H s. exact H. Qed.
  Lemma put_app (a : list A) x y b : put (a ++ x :: b) (length a) y = a ++ y :: b.
  Proof.
    unfold put. rewrite firstn_app, firstn_all, Nat.sub_diag. cbn [firstn]. rewrite app_nil_r. f_equal. f_equal.
    replace (1 + length a)%nat with (length (a ++ [x])) by (rewrite app_length; cbn; lia).
    replace (a ++ x :: b) with ((a ++ [x]) ++ b) by (rewrite <- app_assoc; reflexivity).
    rewrite skipn_app, skipn_all, Nat.sub_diag. reflexivity.
  Qed.
  Lemma wp_set (Q : unit -> list A -> Prop) E a x y b i : i = length a -> Q tt (a ++ y :: b) -> wp (mset i y) Q E (a ++ x :: b).
  Proof.
    intros -> H s. unfold mset. rewrite put_app.
    destruct (Nat.ltb_spec (length a) (length (a ++ x :: b))) as [L|L]; [exact H|].
    rewrite app_length in L. cbn in L. lia.
  Qed.
  Lemma wp_copy (Q : unit -> list A -> Prop) E a j b src i : i = length a -> length j = length src ->
    Q tt (a ++ src ++ b) -> wp (copy_in src i) Q E (a ++ j ++ b).
  Proof.
    intros -> HJ H s. unfold copy_in. rewrite !app_length.
    destruct (Nat.leb_spec (length a + length src) (length a + (length j + length b))) as [L|L]; [|lia].
    rewrite firstn_app, firstn_all, Nat.sub_diag. cbn [firstn]. rewrite app_nil_r.
    rewrite (app_assoc a j b). rewrite <- HJ, <- app_length, skipn_app, skipn_all, Nat.sub_diag. exact H.
  Qed.
  (* the Drop handler runs from the state the block left behind *)
  Lemma wp_call x y (cl : M unit) (Q : bool -> list A -> Prop) (E : list A -> Prop) v :
    (forall b, (W -> b = lt x y) -> Q b v) ->
    (forall s, exists v', cl s v = (s, v', Ok tt) /\ E v') -> wp (mcall f x y cl) Q E v.
  Proof.
    intros HQ HE s. unfold mcall. destruct (f s x y) as (s' & [b|k|]) eqn:Ef.
    - apply HQ. intros (_ & HW). specialize (HW s x y). rewrite Ef in HW. cbn in HW. congruence.
    - destruct (HE s') as (v' & -> & HV). split; [exact HV|]. eauto.
    - destruct (HE s') as (v' & -> & HV). split; [exact HV|]. eauto.
  Qed.
  Lemma wp_call0 x y (Q : bool -> list A -> Prop) (E : list A -> Prop) v :
    (forall b, (W -> b = lt x y) -> Q b v) -> E v -> wp (mcall0 f x y) Q E v.
  Proof. intros HQ HE. apply wp_call; [exact HQ|]. intros s. exists v. auto. Qed.
  Lemma set_run (a : list A) x y b i (s : S) : i = length a -> mset i y s (a ++ x :: b) = (s, a ++ y :: b, Ok tt).
  Proof.
    intros ->. unfold mset. rewrite put_app.
    destruct (Nat.ltb_spec (length a) (length (a ++ x :: b))) as [L|L]; [reflexivity|].
    rewrite app_length in L. cbn in L. lia.
  Qed.
  Lemma copy_run (a j b src : list A) i (s : S) : i = length a -> length j = length src ->
    copy_in src i s (a ++ j ++ b) = (s, a ++ src ++ b, Ok tt).
  Proof.
    intros -> HJ. unfold copy_in. rewrite !app_length.
    destruct (Nat.leb_spec (length a + length src) (length a + (length j + length b))) as [L|L]; [|lia].
    rewrite firstn_app, firstn_all, Nat.sub_diag. cbn [firstn]. rewrite app_nil_r.
    rewrite (app_assoc a j b). rewrite <- HJ, <- app_length, skipn_app, skipn_all, Nat.sub_diag. reflexivity.
  Qed.
  Lemma wp_slice {B} (m : M B) (Q : B -> list A -> Prop) (E : list A -> Prop) a w b lo hi :
    lo = length a -> hi = (length a + length w)%nat ->
    wp m (fun r w' => Q r (a ++ w' ++ b)) (fun w' => E (a ++ w' ++ b)) w ->
    wp (on_slice lo hi m) Q E (a ++ w ++ b).
  Proof.
    intros -> -> H s. unfold on_slice. rewrite !app_length.
    destruct (Nat.leb_spec (length a) (length a + length w)); [|lia].
    destruct (Nat.leb_spec (length a + length w) (length a + (length w + length b))); [|lia]. cbn [andb].
    replace (length a + length w - length a)%nat with (length w) by lia.
    assert (E2 : firstn (length a) (a ++ w ++ b) = a).
    { rewrite firstn_app, firstn_all, Nat.sub_diag. cbn [firstn]. apply app_nil_r. }
    assert (E1 : firstn (length w) (skipn (length a) (a ++ w ++ b)) = w).
    { rewrite skipn_app, skipn_all, Nat.sub_diag. cbn [skipn app].
      rewrite firstn_app, firstn_all, Nat.sub_diag. cbn [firstn]. apply app_nil_r. }
    assert (E3 : skipn (length a + length w) (a ++ w ++ b) = b).
    { rewrite (app_assoc a w b), <- app_length, skipn_app, skipn_all, Nat.sub_diag. reflexivity. }
    rewrite E1, E2, E3.
    specialize (H s). destruct (m s w) as [[s' w'] [r|k|]]; exact H.
  Qed.

  (* ---- insert_head ---- *)
  Lemma ih_loop_wp tmp : forall R P h,
    wp (ih_loop f tmp (length P) (1 + length P) (length R))
       (fun _ v' => exists a b, R = a ++ b /\ v' = P ++ a ++ tmp :: b /\
          (W -> Forall (fun y => lt y tmp = true) a /\ match b with [] => True | y :: _ => lt y tmp = false end))
       (fun v' => exists a b, R = a ++ b /\ v' = P ++ a ++ tmp :: b)
       (P ++ h :: R).
  Proof.
    induction R as [|x R IH]; intros P h.
    - cbn [ih_loop length]. apply wp_set with (1 := eq_refl). exists [], []. auto.
    - cbn [ih_loop length]. apply wp_bind.
      replace (P ++ h :: x :: R) with ((P ++ [h]) ++ x :: R) by (rewrite <- app_assoc; reflexivity).
      apply wp_get; [rewrite app_length; cbn; lia|]. rewrite <- app_assoc. cbn [app].
      apply wp_bind. apply wp_call.
      + intros b Hb. destruct b.
        * apply wp_bind. replace (1 + length P - 1)%nat with (length P) by lia.
          apply wp_set with (1 := eq_refl).
          replace (P ++ x :: x :: R) with ((P ++ [x]) ++ x :: R) by (rewrite <- app_assoc; reflexivity).
          replace (1 + length P)%nat with (length (P ++ [x])) by (rewrite app_length; cbn; lia).
          eapply wp_conseq; [apply IH| |].
          -- intros _ w (a & b & -> & -> & HW). exists (x :: a), b. split; [reflexivity|].
             split; [rewrite <- app_assoc; reflexivity|]. intros Hw. destruct (HW Hw). split; [|assumption].
             constructor; [symmetry; auto|assumption].
          -- intros w (a & b & -> & ->). exists (x :: a), b. split; [reflexivity|]. rewrite <- app_assoc; reflexivity.
        * apply wp_set with (1 := eq_refl). exists [], (x :: R). split; [reflexivity|]. split; [reflexivity|].
          intros Hw. split; [constructor|symmetry; auto].
      + intros s. exists (P ++ tmp :: x :: R). split; [apply set_run; reflexivity|]. exists [], (x :: R). auto.
  Qed.
  Lemma insert_head_wp x l :
    wp (insert_head f) (fun _ v' => Permutation (x :: l) v' /\
          (W -> same_ties lt (x :: l) v' /\ (ordered lt l -> ordered lt v')))
       (fun v' => Permutation (x :: l) v') (x :: l).
  Proof.
    unfold insert_head. apply wp_bind. apply wp_len.
    destruct l as [|y l].
    - apply wp_ret. split; [reflexivity|]. intros _. split; [apply st_refl|]. intros _. constructor; constructor.
    - cbn [length Nat.leb]. apply wp_bind. apply (wp_get _ _ [x] y l); [reflexivity|].
      apply wp_bind. apply (wp_get _ _ [] x (y :: l)); [reflexivity|]. cbn [app].
      apply wp_bind. apply wp_call0; [|reflexivity]. intros b Hb. destruct b.
      + apply wp_bind. apply (wp_set _ _ [] x y (y :: l)); [reflexivity|]. cbn [app].
        replace (Datatypes.S (Datatypes.S (length l)) - 2)%nat with (length l) by lia.
        eapply wp_conseq; [apply (ih_loop_wp x l [y] y)| |].
        * intros _ w (a & b & -> & -> & HW). cbn [app]. split.
          { etransitivity; [|apply (Permutation_middle (y :: a) b x)]. reflexivity. }
          intros Hw. destruct (HW Hw) as (HA & HB). destruct Hw as (Hs & Hf).
          assert (HA' : Forall (fun z => lt z x = true) (y :: a)) by (constructor; [symmetry; apply Hb; split; assumption|assumption]).
          split.
          -- change (x :: y :: a ++ b) with ((x :: y :: a) ++ b). change (y :: a ++ x :: b) with ((y :: a) ++ [x] ++ b).
             rewrite app_assoc. apply st_app; [|apply st_refl]. apply (st_move lt Hs x (y :: a)). exact HA'.
          -- intros HO. change (y :: a ++ b) with ((y :: a) ++ b) in HO. change (y :: a ++ x :: b) with ((y :: a) ++ x :: b).
             revert HA' HO. generalize (y :: a). clear -HB Hs. intros a HA HO.
             induction a as [|z a IH]; cbn in *.
             ++ constructor; [exact HO|]. destruct b as [|c b]; [constructor|]. inversion HO; subst.
                constructor; [exact HB|]. eapply Forall_impl; [|exact H2]. intros d Hd. cbn in Hd.
                eapply (le_trans lt Hs); eassumption.
             ++ inversion HO; subst. inversion HA; subst. constructor; [apply IH; assumption|].
                apply Forall_app in H2 as (F1 & F2). apply Forall_app. split; [exact F1|].
                constructor; [apply (swo_asym _ Hs); assumption|exact F2].
        * intros w (a & b & -> & ->). cbn [app]. etransitivity; [|apply (Permutation_middle (y :: a) b x)]. reflexivity.
      + apply wp_ret. split; [reflexivity|]. intros Hw. split; [apply st_refl|]. intros HO.
        specialize (Hb Hw). destruct Hw as (Hs & _). constructor; [exact HO|]. inversion HO; subst.
        constructor; [symmetry; exact Hb|]. eapply Forall_impl; [|exact H2]. intros d Hd. cbn in Hd.
        eapply (le_trans lt Hs); [symmetry; exact Hb|exact Hd].
  Qed.

  (* ---- merge ---- *)
  Lemma skipn_nth (buf : list A) left : (left < length buf)%nat ->
    exists l, nth_error buf left = Some l /\ skipn left buf = l :: skipn (1 + left) buf.
  Proof.
    revert left. induction buf as [|x buf IH]; intros left H; cbn in H; [lia|].
    destruct left as [|left]; [exists x; auto|]. destruct (IH left ltac:(lia)) as (l & E1 & E2).
    exists l. split; [exact E1|exact E2].
  Qed.
  Lemma merge_fwd_wp buf vend : forall fuel left right out O J R,
    let Lr := skipn left buf in
    (left <= length buf)%nat -> length J = length Lr -> out = length O -> right = (length O + length J)%nat ->
    vend = (right + length R)%nat -> (length Lr + length R < fuel)%nat ->
    wp (merge_fwd f fuel buf left right out vend)
       (fun _ v' => exists Z, v' = O ++ Z /\ Permutation (Lr ++ R) Z /\
          (W -> ordered lt Lr -> ordered lt R -> same_ties lt (Lr ++ R) Z /\ ordered lt Z))
       (fun v' => exists Z, v' = O ++ Z /\ Permutation (Lr ++ R) Z)
       (O ++ J ++ R).
  Proof.
    induction fuel as [|fuel IH]; intros left right out O J R Lr H1 H2 H3 H4 H5 H6; [lia|].
    cbn [merge_fwd].
    destruct (Nat.ltb_spec left (length buf)) as [HL|HL]; cbn [andb].
    2:{ assert (En : Lr = []) by (apply skipn_all2; lia). rewrite En in *. destruct J; [|discriminate].
        fold Lr. rewrite En. cbn [app]. apply (wp_copy _ _ O [] R []); [assumption|reflexivity|].
        exists R. split; [reflexivity|]. split; [reflexivity|]. intros. split; [apply st_refl|assumption]. }
    destruct (skipn_nth buf left HL) as (l & EL & ESk). fold Lr in ESk.
    destruct (Nat.ltb_spec right vend) as [HR|HR].
    2:{ destruct R; [|cbn in H5; lia]. apply (wp_copy _ _ O J [] Lr); [assumption|assumption|].
        rewrite app_nil_r. exists Lr. split; [reflexivity|]. split; [reflexivity|]. intros. split; [apply st_refl|assumption]. }
    destruct R as [|r R]; [cbn in H5; lia|].
    apply wp_bind. replace (O ++ J ++ r :: R) with ((O ++ J) ++ r :: R) by (rewrite <- app_assoc; reflexivity).
    apply wp_get; [rewrite app_length; lia|]. rewrite <- app_assoc. rewrite EL.
    apply wp_bind. apply wp_call.
    - intros b Hb. rewrite ESk in H2. destruct J as [|j J]; [discriminate|]. cbn [length] in H2.
      destruct b.
      + destruct (Nat.eqb_spec right out); [cbn in *; lia|].
        apply wp_bind. cbn [app]. apply wp_set with (1 := H3).
        (* O ++ r :: J ++ r :: R *)
        replace (O ++ r :: J ++ r :: R) with ((O ++ [r]) ++ (J ++ [r]) ++ R) by (rewrite <- !app_assoc; reflexivity).
        eapply wp_conseq; [apply (IH left (1 + right)%nat (1 + out)%nat (O ++ [r]) (J ++ [r]) R)| |].
        * assumption.
        * fold Lr. rewrite ESk, app_length. cbn. cbn in H2. lia.
        * rewrite app_length; cbn; lia.
        * rewrite !app_length; cbn in *; lia.
        * cbn in *; lia.
        * fold Lr. cbn in H6. lia.
        * intros _ w (Z & -> & HP & HW). fold Lr in HP, HW. exists (r :: Z). split; [rewrite <- app_assoc; reflexivity|].
          split.
          { rewrite <- Permutation_middle. apply perm_skip. exact HP. }
          intros Hw HO1 HO2. pose proof (Hb Hw) as Hlt. inversion HO2 as [|? ? HOR HFR]; subst.
          destruct (HW Hw HO1 HOR) as (HT & HZ). destruct Hw as (Hs & _).
          assert (HFL : Forall (fun z => lt r z = true) Lr).
          { rewrite ESk. rewrite ESk in HO1. inversion HO1; subst. constructor; [symmetry; exact Hlt|].
            eapply Forall_impl; [|eassumption]. intros z Hz. cbn in Hz. eapply (lt_le_trans lt Hs); [symmetry; exact Hlt|exact Hz]. }
          split.
          -- change (r :: R) with ([r] ++ R). rewrite app_assoc. eapply st_trans.
             { apply st_app; [apply (st_move1 lt Hs r Lr HFL)|apply st_refl]. }
             cbn [app]. intros z. cbn [filter]. rewrite (HT z). reflexivity.
          -- constructor; [exact HZ|]. eapply Forall_perm; [exact HP|]. apply Forall_app. split; [|exact HFR].
             eapply Forall_impl; [|exact HFL]. intros z Hz. apply (swo_asym _ Hs). exact Hz.
        * intros w (Z & -> & HP). fold Lr in HP. exists (r :: Z). split; [rewrite <- app_assoc; reflexivity|].
          rewrite <- Permutation_middle. apply perm_skip. exact HP.
      + apply wp_bind. cbn [app]. apply wp_set with (1 := H3).
        replace (O ++ l :: J ++ r :: R) with ((O ++ [l]) ++ J ++ r :: R) by (rewrite <- !app_assoc; reflexivity).
        eapply wp_conseq; [apply (IH (1 + left)%nat right (1 + out)%nat (O ++ [l]) J (r :: R))| |].
        * lia.
        * lia.
        * rewrite app_length; cbn; lia.
        * rewrite !app_length; cbn in *; lia.
        * lia.
        * rewrite ESk in H6. cbn [length] in *. lia.
        * intros _ w (Z & -> & HP & HW). exists (l :: Z). split; [rewrite <- app_assoc; reflexivity|].
          rewrite ESk. cbn [app]. split; [apply perm_skip; exact HP|].
          intros Hw HO1 HO2. pose proof (Hb Hw) as Hlt. inversion HO1 as [|? ? HOL HFL]; subst.
          destruct (HW Hw HOL HO2) as (HT & HZ). destruct Hw as (Hs & _). split.
          -- intros z. cbn [filter]. rewrite (HT z). reflexivity.
          -- constructor; [exact HZ|]. eapply Forall_perm; [exact HP|]. apply Forall_app. split; [exact HFL|].
             inversion HO2; subst. constructor; [symmetry; exact Hlt|].
             eapply Forall_impl; [|eassumption]. intros z Hz. cbn in Hz. eapply (le_trans lt Hs); [symmetry; exact Hlt|exact Hz].
        * intros w (Z & -> & HP). exists (l :: Z). split; [rewrite <- app_assoc; reflexivity|].
          rewrite ESk. cbn [app]. apply perm_skip; exact HP.
    - intros s. exists (O ++ Lr ++ r :: R). split; [apply copy_run; assumption|].
      exists (Lr ++ r :: R). split; reflexivity.
  Qed.

  Lemma firstn_nth (buf : list A) r x : nth_error buf r = Some x ->
    firstn (1 + r) buf = firstn r buf ++ [x].
  Proof.
    revert r. induction buf as [|y buf IH]; intros [|r] H; try discriminate.
    - cbn in H. injection H as ->. reflexivity.
    - cbn in H. change (firstn (1 + Datatypes.S r) (y :: buf)) with (y :: firstn (1 + r) buf). rewrite (IH r H). reflexivity.
  Qed.
  Lemma merge_bwd_wp buf : forall fuel left right out L J O,
    let Rr := firstn right buf in
    (right <= length buf)%nat -> length J = length Rr -> left = length L -> out = (length L + length J)%nat ->
    (length L + length Rr < fuel)%nat ->
    wp (merge_bwd f fuel buf left right out)
       (fun _ v' => exists Z, v' = Z ++ O /\ Permutation (L ++ Rr) Z /\
          (W -> ordered lt L -> ordered lt Rr -> same_ties lt (L ++ Rr) Z /\ ordered lt Z))
       (fun v' => exists Z, v' = Z ++ O /\ Permutation (L ++ Rr) Z)
       (L ++ J ++ O).
  Proof.
    induction fuel as [|fuel IH]; intros left right out L J O Rr H1 H2 H3 H4 H5; [lia|].
    cbn [merge_bwd].
    assert (HCp : forall (Q : unit -> list A -> Prop) E, Q tt (L ++ Rr ++ O) -> wp (copy_in Rr left) Q E (L ++ J ++ O)).
    { intros Q E HQ. apply wp_copy; assumption. }
    destruct left as [|l'].
    { apply HCp. destruct L; [|discriminate]. exists Rr. split; [reflexivity|]. split; [reflexivity|].
      intros. split; [apply st_refl|assumption]. }
    destruct right as [|r'].
    { apply HCp. unfold Rr. cbn [firstn]. exists L. split; [reflexivity|]. rewrite app_nil_r. split; [reflexivity|].
      intros. split; [apply st_refl|assumption]. }
    destruct (nth_error buf r') as [x|] eqn:Ex; [|apply nth_error_None in Ex; lia].
    assert (ERr : Rr = firstn r' buf ++ [x]) by (apply firstn_nth; exact Ex).
    assert (HLr : length Rr = (1 + length (firstn r' buf))%nat) by (rewrite ERr, app_length; cbn; lia).
    destruct J as [|j J _] using rev_ind; [cbn [length] in H2; lia|]. rewrite app_length in H2, H4. cbn [length] in H2, H4.
    destruct L as [|y L _] using rev_ind; [discriminate|]. rewrite app_length in H3, H4, H5. cbn [length] in H3, H4, H5.
    destruct out as [|o']; [lia|].
    apply wp_bind. replace ((L ++ [y]) ++ (J ++ [j]) ++ O) with (L ++ y :: (J ++ [j]) ++ O) by (rewrite <- (app_assoc L [y]); reflexivity).
    apply wp_get; [lia|].
    apply wp_bind. apply wp_call.
    - intros b Hb. destruct b.
      + destruct (Nat.eqb_spec l' o'); [lia|]. apply wp_bind.
        replace (L ++ y :: (J ++ [j]) ++ O) with ((L ++ y :: J) ++ j :: O) by (rewrite <- !app_assoc; reflexivity).
        apply wp_set; [rewrite app_length; cbn; lia|].
        replace ((L ++ y :: J) ++ y :: O) with (L ++ (y :: J) ++ (y :: O)) by (rewrite <- !app_assoc; reflexivity).
        eapply wp_conseq; [apply (IH l' (Datatypes.S r') o' L (y :: J) (y :: O))| |].
        * assumption.
        * fold Rr. cbn [length]. lia.
        * lia.
        * cbn [length]. lia.
        * fold Rr. lia.
        * intros _ w (Z & -> & HP & HW). fold Rr in HP, HW. exists (Z ++ [y]). split; [rewrite <- app_assoc; reflexivity|].
          split.
          { rewrite <- app_assoc. etransitivity; [|apply Permutation_app_tail; exact HP].
            rewrite <- !app_assoc. apply Permutation_app_head. apply Permutation_app_comm. }
          intros Hw HO1 HO2. pose proof (Hb Hw) as Hlt. destruct (ord_app_inv lt L [y] HO1) as (HOL & _).
          destruct (HW Hw HOL HO2) as (HT & HZ). destruct Hw as (Hs & _).
          (* every element left in the right run is before y *)
          assert (HFR : Forall (fun z => lt z y = true) Rr).
          { rewrite ERr. rewrite ERr in HO2. pose proof (ord_snoc_inv lt _ _ HO2) as HF.
            apply Forall_app. split; [|constructor; [symmetry; exact Hlt|constructor]].
            eapply Forall_impl; [|exact HF]. intros z Hz. cbn in Hz.
            destruct (swo_neg _ Hs x y z (eq_sym Hlt)) as [E|E]; [congruence|exact E]. }
          split.
          -- rewrite <- app_assoc. cbn [app]. eapply st_trans.
             { apply st_app; [apply st_refl|]. apply (st_move lt Hs y Rr HFR). }
             rewrite app_assoc. apply st_app; [exact HT|apply st_refl].
          -- apply ord_snoc; [exact HZ|]. eapply Forall_perm; [exact HP|]. apply Forall_app. split.
             ++ apply ord_snoc_inv. exact HO1.
             ++ eapply Forall_impl; [|exact HFR]. intros z Hz. apply (swo_asym _ Hs). exact Hz.
        * intros w (Z & -> & HP). fold Rr in HP. exists (Z ++ [y]). split; [rewrite <- app_assoc; reflexivity|].
          rewrite <- app_assoc. etransitivity; [|apply Permutation_app_tail; exact HP].
          rewrite <- !app_assoc. apply Permutation_app_head. apply Permutation_app_comm.
      + apply wp_bind.
        replace (L ++ y :: (J ++ [j]) ++ O) with ((L ++ y :: J) ++ j :: O) by (rewrite <- !app_assoc; reflexivity).
        apply wp_set; [rewrite app_length; cbn; lia|].
        replace ((L ++ y :: J) ++ x :: O) with ((L ++ [y]) ++ J ++ (x :: O)) by (rewrite <- !app_assoc; reflexivity).
        eapply wp_conseq; [apply (IH (Datatypes.S l') r' o' (L ++ [y]) J (x :: O))| |].
        * lia.
        * lia.
        * rewrite app_length; cbn; lia.
        * rewrite app_length; cbn. lia.
        * rewrite app_length; cbn. lia.
        * intros _ w (Z & -> & HP & HW). exists (Z ++ [x]). split; [rewrite <- app_assoc; reflexivity|].
          rewrite ERr. rewrite app_assoc. split; [apply Permutation_app_tail; exact HP|].
          intros Hw HO1 HO2. pose proof (Hb Hw) as Hlt. destruct (ord_app_inv lt _ _ HO2) as (HOR & _).
          destruct (HW Hw HO1 HOR) as (HT & HZ). destruct Hw as (Hs & _). split.
          -- apply st_app; [exact HT|apply st_refl].
          -- apply ord_snoc; [exact HZ|]. eapply Forall_perm; [exact HP|]. apply Forall_app. split.
             ++ apply Forall_app. split; [|constructor; [symmetry; exact Hlt|constructor]].
                eapply Forall_impl; [|apply ord_snoc_inv; exact HO1]. intros z Hz. cbn in Hz.
                eapply (le_trans lt Hs); [exact Hz|symmetry; exact Hlt].
             ++ apply ord_snoc_inv. exact HO2.
        * intros w (Z & -> & HP). exists (Z ++ [x]). split; [rewrite <- app_assoc; reflexivity|].
          rewrite ERr. rewrite app_assoc. apply Permutation_app_tail; exact HP.
    - intros s. exists ((L ++ [y]) ++ Rr ++ O). split.
      + change (L ++ y :: (J ++ [j]) ++ O) with (L ++ [y] ++ (J ++ [j]) ++ O). rewrite (app_assoc L [y]).
        apply copy_run; rewrite app_length; cbn [length]; unfold Rr in *; lia.
      + exists ((L ++ [y]) ++ Rr). split; [rewrite <- !app_assoc; reflexivity|reflexivity].
  Qed.
  Lemma merge_wp L R cap : (length L + length R <= 2 * cap + 1)%nat ->
    wp (merge f (length L) cap)
       (fun _ v' => Permutation (L ++ R) v' /\
          (W -> ordered lt L -> ordered lt R -> same_ties lt (L ++ R) v' /\ ordered lt v'))
       (fun v' => Permutation (L ++ R) v') (L ++ R).
  Proof.
    intros Hc s. unfold merge. rewrite app_length.
    destruct (Nat.leb_spec (length L) (length L + length R)); [|lia]. cbn [negb].
    replace (length L + length R - length L)%nat with (length R) by lia.
    destruct (Nat.leb_spec (length L) (length R)).
    - destruct (Nat.ltb_spec cap (length L)); [lia|].
      rewrite firstn_app, firstn_all, Nat.sub_diag. cbn [firstn]. rewrite app_nil_r.
      pose proof (merge_fwd_wp L (length L + length R) (1 + (length L + length R)) 0 (length L) 0 [] L R) as HM.
      cbn zeta in HM. cbn [skipn length Nat.add app] in HM.
      specialize (HM ltac:(lia) eq_refl eq_refl eq_refl eq_refl ltac:(lia)).
      refine (wp_conseq _ _ _ _ _ _ HM _ _ s).
      + intros _ w (Z & -> & HP & HW). auto.
      + intros w (Z & -> & HP). auto.
    - destruct (Nat.ltb_spec cap (length R)); [lia|].
      rewrite skipn_app, skipn_all, Nat.sub_diag. cbn [skipn app].
      pose proof (merge_bwd_wp R (1 + (length L + length R)) (length L) (length R) (length L + length R) L R []) as HM.
      cbn zeta in HM. rewrite firstn_all, app_nil_r in HM.
      specialize (HM ltac:(lia) eq_refl eq_refl eq_refl ltac:(lia)).
      refine (wp_conseq _ _ _ _ _ _ HM _ _ s).
      + intros _ w (Z & -> & HP & HW). rewrite app_nil_r. auto.
      + intros w (Z & -> & HP). rewrite app_nil_r. auto.
  Qed.
End Wp.
