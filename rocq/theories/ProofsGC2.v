(* Marking visits exactly the reachable objects. *)
From Verif Require Import Base ProofsBase ModelArray ProofsArray ModelGC ProofsGC.
From Coq Require Import Permutation.
Ltac Zify.zify_post_hook ::= Z.div_mod_to_equations.

Section Mark.
  Variable off : Z.
  Hypothesis OFF : 0 <= off /\ off + GCBOX_SIZE * DATA_LEN <= ALLOC_SIZE.
  Variable m : Z -> cell.
  Variable A : Z -> option obj.
  Variable L : list Z.
  Hypothesis HA : forall a o, A a = Some o -> m a = Obj o /\ In a L.
  Hypothesis HC : forall a o x, A a = Some o -> In x (refs o) -> A x <> None.
  Hypothesis HL : forall a, In a L -> exists p i, page_ok p /\ 0 <= i < DATA_LEN /\ a = cell_addr off p i.
  Hypothesis ND : NoDup L.
  Notation mk := (mk off).
  Lemma dom_L a : A a <> None -> In a L.
  Proof using HA. intros H. destruct (A a) as [o|] eqn:E; [|contradiction]. apply (HA a o E). Qed.
  Lemma cam a b cnt : bits_ok b -> In a L ->
    exists b', check_and_mark off a (b, cnt) = Ok (mk b a, (b', if mk b a then cnt else cnt + 1)) /\ bits_ok b' /\
      (forall x, In x L -> mk b' x = (x =? a) || mk b x).
  Proof using OFF HL.
    intros HB Ha. destruct (HL a Ha) as (p & i & Hp & Hi & ->).
    destruct (check_and_mark_ok off OFF b cnt p i HB Hp Hi) as (b' & E & HB' & Hb). exists b'.
    rewrite (mk_cell off OFF) by assumption. split; [exact E|]. split; [exact HB'|].
    intros x Hx. destruct (HL x Hx) as (q & j & Hq & Hj & ->). rewrite !(mk_cell off OFF) by assumption. rewrite Hb by assumption. f_equal.
    destruct (Z.eqb_spec (cell_addr off q j) (cell_addr off p i)) as [Ec|Ec].
    - apply (cell_addr_inj off OFF) in Ec; try assumption. destruct Ec as [-> ->]. rewrite !Z.eqb_refl. reflexivity.
    - destruct (Z.eqb_spec q p) as [->|]; [|reflexivity]. destruct (Z.eqb_spec j i) as [->|]; [contradiction|reflexivity].
  Qed.
  Definition unm (b : Z -> list Z) : nat := length (filter (fun x => negb (mk b x)) L).
  Lemma unm_mono b b' : (forall x, In x L -> mk b x = true -> mk b' x = true) -> (unm b' <= unm b)%nat.
  Proof using.
    clear HA HC HL ND OFF m A. unfold unm. intros H. induction L as [|x l IH]; [apply le_n|]. cbn [filter].
    specialize (IH (fun y Hy => H y (or_intror Hy))). pose proof (H x (or_introl eq_refl)) as Hx.
    destruct (mk b x), (mk b' x); cbn [negb length] in *; try lia.
  Qed.
  Lemma unm_mark b b' a : In a L -> mk b a = false -> (forall x, In x L -> mk b' x = (x =? a) || mk b x) -> unm b = S (unm b').
  Proof using ND.
    clear HA HC HL OFF m A. unfold unm. intros Ha E H. revert Ha H ND. induction L as [|y l IH]; intros Ha H ND'; [destruct Ha|].
    inversion ND' as [|? ? Hny ND2]; subst. cbn [filter]. rewrite (H y (or_introl eq_refl)).
    destruct Ha as [->|Ha].
    - rewrite Z.eqb_refl, E. cbn [orb negb length]. f_equal. f_equal. apply filter_ext_in. intros x Hx. rewrite (H x (or_intror Hx)).
      destruct (Z.eqb_spec x a) as [->|]; [contradiction|reflexivity].
    - destruct (Z.eqb_spec y a) as [->|]; [contradiction|]. cbn [orb].
      specialize (IH Ha (fun x Hx => H x (or_intror Hx)) ND2). destruct (mk b y); cbn [negb length]; lia.
  Qed.
  Definition closed_in (b : Z -> list Z) (x : Z) : Prop := exists o, A x = Some o /\ forall y, In y (refs o) -> mk b y = true.
  Definition post (roots : list Z) (b : Z -> list Z) (cnt : Z) (b' : Z -> list Z) (cnt' : Z) : Prop :=
    bits_ok b' /\ (forall x, In x L -> mk b x = true -> mk b' x = true) /\ (forall x, In x roots -> mk b' x = true) /\
    (forall x, In x L -> mk b' x = true -> mk b x = true \/ (reach A roots x /\ closed_in b' x)) /\
    cnt' = cnt + Z.of_nat (unm b) - Z.of_nat (unm b').
  Lemma reach_sub r1 r2 x : (forall y, In y r1 -> reach A r2 y) -> reach A r1 x -> reach A r2 x.
  Proof using. intros H R. induction R as [a Ha|a o y _ IH E Hy]; [auto|]. eapply reach_ref; eassumption. Qed.
  Lemma closed_mono b b' x : (forall x, In x L -> mk b x = true -> mk b' x = true) -> closed_in b x -> closed_in b' x.
  Proof using HA HC HL OFF ND.
    intros H (o & E & C). exists o. split; [exact E|]. intros y Hy. apply H; [|auto]. apply dom_L. eapply HC; eassumption.
  Qed.
  Lemma all_ok (mark1 : Z -> (Z -> list Z) * Z -> res ((Z -> list Z) * Z)) N :
    (forall a b cnt, bits_ok b -> A a <> None -> (unm b < N)%nat -> exists b' cnt', mark1 a (b, cnt) = Ok (b', cnt') /\ post [a] b cnt b' cnt') ->
    forall l b cnt, bits_ok b -> (forall x, In x l -> A x <> None) -> (unm b < N)%nat ->
    exists b' cnt', (fix all (l : list Z) (s : (Z -> list Z) * Z) : res ((Z -> list Z) * Z) :=
                    match l with
                    | [] => Ok s
                    | x :: r => s' <- mark1 x s ;; all r s'
                    end) l (b, cnt) = Ok (b', cnt') /\ post l b cnt b' cnt'.
  Proof using HA HC HL OFF ND.
    intros H1. induction l as [|x l IH]; intros b cnt HB HD HN.
    - exists b, cnt. split; [reflexivity|]. split; [exact HB|]. split; [auto|]. split; [intros x []|]. split; [auto|lia].
    - destruct (H1 x b cnt HB (HD x (or_introl eq_refl)) HN) as (b1 & c1 & E1 & P1). destruct P1 as (B1 & M1 & R1 & N1 & C1).
      pose proof (unm_mono b b1 M1) as U1.
      destruct (IH b1 c1 B1 (fun y Hy => HD y (or_intror Hy)) ltac:(lia)) as (b2 & c2 & E2 & B2 & M2 & R2 & N2 & C2).
      exists b2, c2. rewrite E1. cbn [rbind]. split; [exact E2|]. split; [exact B2|]. split; [auto|]. split; [|split].
      + intros y [<-|Hy]; [|auto]. apply M2; [apply dom_L; apply HD; left; reflexivity|]. apply R1. left. reflexivity.
      + intros y Hy My. destruct (N2 y Hy My) as [My1|[Ry Cy]].
        * destruct (N1 y Hy My1) as [My0|[Ry Cy]]; [left; exact My0|]. right. split.
          { revert Ry. apply reach_sub. intros z [<-|[]]. apply reach_root. left. reflexivity. }
          { exact (closed_mono b1 b2 y M2 Cy). }
        * right. split; [|exact Cy]. revert Ry. apply reach_sub. intros z Hz. apply reach_root. right. exact Hz.
      + lia.
  Qed.
  Lemma mark_ok fuel : forall a b cnt, bits_ok b -> A a <> None -> (unm b < fuel)%nat ->
    exists b' cnt', mark off m fuel a (b, cnt) = Ok (b', cnt') /\ post [a] b cnt b' cnt'.
  Proof using OFF HA HC HL ND.
    induction fuel as [|n IH]; intros a b cnt HB Ha HN; [lia|]. pose proof (dom_L a Ha) as HaL.
    destruct (cam a b cnt HB HaL) as (b1 & E1 & B1 & M1). cbn [mark]. rewrite E1. cbn [rbind fst snd].
    destruct (mk b a) eqn:Em.
    - exists b1, cnt. split; [reflexivity|].
      assert (EM : forall x, In x L -> mk b1 x = mk b x).
      { intros x Hx. rewrite (M1 x Hx). destruct (Z.eqb_spec x a) as [->|]; [rewrite Em|]; reflexivity. }
      split; [exact B1|]. split; [intros x Hx; rewrite EM by exact Hx; auto|]. split.
      + intros x [<-|[]]. rewrite EM; assumption.
      + split; [intros x Hx; rewrite EM by exact Hx; auto|].
        assert (unm b1 = unm b); [|lia]. unfold unm. f_equal. apply filter_ext_in. intros x Hx. rewrite EM by exact Hx. reflexivity.
    - destruct (A a) as [o|] eqn:EA; [|contradiction]. destruct (HA a o EA) as [Em1 _]. rewrite Em1.
      pose proof (unm_mark b b1 a HaL Em M1) as U1.
      destruct (all_ok (mark off m n) n IH (refs o) b1 (cnt + 1) B1 (fun x Hx => HC a o x EA Hx) ltac:(lia)) as (b2 & c2 & E2 & B2 & M2 & R2 & N2 & C2).
      exists b2, c2. split; [exact E2|]. split; [exact B2|]. split; [|split; [|split]].
      + intros x Hx Mx. apply M2; [exact Hx|]. rewrite (M1 x Hx), Mx. apply orb_true_r.
      + intros x [<-|[]]. apply M2; [exact HaL|]. rewrite (M1 a HaL), Z.eqb_refl. reflexivity.
      + intros x Hx Mx. destruct (N2 x Hx Mx) as [Mx1|[Rx Cx]].
        * rewrite (M1 x Hx) in Mx1. apply orb_true_iff in Mx1. destruct Mx1 as [Ex|Mx0]; [|left; exact Mx0].
          apply Z.eqb_eq in Ex. subst x. right. split; [apply reach_root; left; reflexivity|]. exists o. split; [exact EA|exact R2].
        * right. split; [|exact Cx]. revert Rx. apply reach_sub. intros y Hy.
          eapply reach_ref; [apply reach_root; left; reflexivity|exact EA|exact Hy].
      + lia.
  Qed.
  Lemma mark_all_ok fuel roots b : bits_ok b -> (forall x, In x roots -> A x <> None) -> (length L < fuel)%nat ->
    (forall x, In x L -> mk b x = false) ->
    exists b' cnt', mark_all off m fuel roots (b, 0) = Ok (b', cnt') /\ bits_ok b' /\
      (forall x, In x L -> mk b' x = true <-> reach A roots x) /\
      cnt' = zlen (filter (fun x => mk b' x) L).
  Proof using OFF HA HC HL ND.
    intros HB HR HF HZ.
    assert (U0 : unm b = length L).
    { unfold unm. f_equal. clear - HZ. induction L as [|x l IH]; [reflexivity|]. cbn [filter]. rewrite HZ by (left; reflexivity). cbn [negb].
      f_equal. apply IH. intros y Hy. apply HZ. right. exact Hy. }
    destruct (all_ok (mark off m fuel) fuel (mark_ok fuel) roots b 0 HB HR ltac:(lia)) as (b' & c' & E & B' & M & R & N & C).
    exists b', c'. split.
    { rewrite <- E. clear. generalize (b, 0). induction roots as [|x r IH]; intros s; [reflexivity|]. cbn [mark_all]. destruct (mark off m fuel x s); [apply IH|reflexivity..]. }
    split; [exact B'|]. split.
    - intros x Hx. split.
      + intros Mx. destruct (N x Hx Mx) as [Mx0|[Rx _]]; [rewrite HZ in Mx0 by exact Hx; discriminate|exact Rx].
      + intros Rx. clear Hx. induction Rx as [a Ha|a o y Ra IH E' Hy]; [auto|].
        destruct (N a) as [Ma0|[_ (o' & E'' & C')]]; [apply (HA a o E')|exact IH| |].
        * rewrite HZ in Ma0 by (apply (HA a o E')). discriminate.
        * rewrite E' in E''. injection E'' as <-. auto.
    - rewrite C, U0. unfold unm, zlen. clear. induction L as [|x l IH]; [reflexivity|]. cbn [filter].
      destruct (mk b' x); cbn [negb length]; lia.
  Qed.
End Mark.
