(* The heap invariant, its preservation, and the refinement of the abstract
   heap by any history of allocations, stores and collections. *)
From Verif Require Import Base ProofsBase ModelArray ProofsArray ModelGC ProofsGC ProofsGC2 ProofsGC3.
Ltac Zify.zify_post_hook ::= Z.div_mod_to_equations.
Local Opaque free_page page_cells.

Section Inv.
  Variable off : Z.
  Hypothesis OFF : 0 <= off /\ off + GCBOX_SIZE * DATA_LEN <= ALLOC_SIZE.
  Notation mk := (mk off).
  Notation cells := (cells off).
  Definition all_pages (h : heap) : list Z := current h :: pages h ++ free_pages h.
  Definition live_cells (h : heap) (A : Z -> option obj) (fl : list Z) : Prop :=
    (forall a, In a (cells h) -> ~ In a fl -> exists o, A a = Some o) /\
    (forall a o, A a = Some o -> In a (cells h) /\ ~ In a fl /\ mem h a = Obj o).
  Definition closed (A : Z -> option obj) : Prop := forall a o x, A a = Some o -> In x (refs o) -> A x <> None.
  Record Inv (h : heap) (A : Z -> option obj) (fl : list Z) : Prop := {
    i_pages : Forall page_ok (all_pages h);
    i_nodup : NoDup (all_pages h);
    i_used : 0 <= used h <= DATA_LEN;
    i_bits : bits_ok (bits h);
    i_chain : chain (mem h) (free h) fl;
    i_cnt : free_cnt h = zlen fl;
    i_fnd : NoDup fl;
    i_fin : forall a, In a fl -> In a (cells h);
    i_live : live_cells h A fl;
    i_closed : closed A }.

  Lemma in_cells h a : In a (cells h) <->
    (exists p i, In p (pages h) /\ 0 <= i < DATA_LEN /\ a = cell_addr off p i) \/ (exists i, 0 <= i < used h /\ a = cell_addr off (current h) i).
  Proof using.
    unfold ProofsGC3.cells. rewrite in_app_iff, in_flat_map, in_page_cells. split; (intros [H|H]; [left|right; exact H]).
    - destruct H as (p & Hp & H). apply in_page_cells in H. destruct H as (i & Hi & ->). eauto.
    - destruct H as (p & i & Hp & Hi & ->). exists p. split; [exact Hp|]. apply in_page_cells. eauto.
  Qed.
  Lemma NoDup_app_intro {X} (l1 l2 : list X) : NoDup l1 -> NoDup l2 -> (forall x, In x l1 -> ~ In x l2) -> NoDup (l1 ++ l2).
  Proof using.
    induction l1 as [|x l1 IH]; intros H1 H2 HD; [exact H2|]. inversion H1; subst. cbn. constructor.
    - rewrite in_app_iff. intros [H|H]; [contradiction|]. apply (HD x); [left; reflexivity|exact H].
    - apply IH; auto. intros y Hy. apply HD. right. exact Hy.
  Qed.
  Lemma page_cells_NoDup p n : NoDup (page_cells off p n).
  Proof using.
    Local Transparent page_cells.
    unfold page_cells, run_of. apply FinFun.Injective_map_NoDup; [|apply seqZ_NoDup]. intros x y. unfold GCBOX_SIZE. lia.
  Qed.
  Local Opaque page_cells.
  Lemma cells_NoDup h : Forall page_ok (current h :: pages h) -> NoDup (current h :: pages h) -> 0 <= used h <= DATA_LEN -> NoDup (cells h).
  Proof using OFF.
    intros HP ND HU. inversion HP as [|? ? Hc HP']; subst. inversion ND as [|? ? Hn ND']; subst.
    unfold ProofsGC3.cells. apply NoDup_app_intro.
    - clear Hn HP ND. induction (pages h) as [|p ps IH]; [constructor|]. inversion HP' as [|? ? Hp HP'']; subst. inversion ND' as [|? ? Hn ND'']; subst.
      cbn [flat_map]. apply NoDup_app_intro; [apply page_cells_NoDup|auto|].
      intros x H1 H2. apply in_page_cells in H1. destruct H1 as (i & Hi & ->). apply in_flat_map in H2. destruct H2 as (q & Hq & H2).
      apply in_page_cells in H2. destruct H2 as (j & Hj & E). apply (cell_addr_inj off OFF) in E; auto.
      + destruct E as [-> _]. contradiction.
      + rewrite Forall_forall in HP''. auto.
    - apply page_cells_NoDup.
    - intros x H1 H2. apply in_page_cells in H2. destruct H2 as (i & Hi & ->). apply in_flat_map in H1. destruct H1 as (q & Hq & H1).
      apply in_page_cells in H1. destruct H1 as (j & Hj & E). apply (cell_addr_inj off OFF) in E; auto; [|rewrite Forall_forall in HP'; auto|lia].
      apply Hn. destruct E as [E _]. rewrite E. exact Hq.
  Qed.
  Lemma inv_cp h A fl : Inv h A fl -> Forall page_ok (current h :: pages h) /\ NoDup (current h :: pages h).
  Proof using.
    intros I. pose proof (i_pages _ _ _ I) as P. pose proof (i_nodup _ _ _ I) as N. unfold all_pages in *.
    rewrite app_comm_cons in P, N. apply Forall_app in P. split; [apply P|]. clear - N. induction (current h :: pages h) as [|x l IH]; [constructor|].
    inversion N; subst. constructor; [rewrite in_app_iff in *; auto|auto].
  Qed.
  Lemma inv_cells h A fl : Inv h A fl -> NoDup (cells h) /\ (forall a, In a (cells h) -> exists p i, page_ok p /\ 0 <= i < DATA_LEN /\ a = cell_addr off p i).
  Proof using OFF.
    intros I. destruct (inv_cp _ _ _ I) as [HP ND]. pose proof (i_used _ _ _ I) as HU. split; [apply cells_NoDup; assumption|].
    intros a Ha. apply in_cells in Ha. rewrite Forall_forall in HP. destruct Ha as [(p & i & Hp & Hi & ->)|(i & Hi & ->)].
    - exists p, i. split; [apply HP; right; exact Hp|auto].
    - exists (current h), i. split; [apply HP; left; reflexivity|]. split; [lia|reflexivity].
  Qed.

  (* ---- a fresh heap ---- *)
  Lemma new_inv page m b : page_ok page -> bits_ok b -> Inv (gc_new page m b) (fun _ => None) [].
  Proof using.
    intros Hp Hb. constructor; unfold all_pages; cbn; auto.
    - constructor; [intros []|constructor].
    - unfold DATA_LEN, SIZE. lia.
    - constructor.
    - split; [|intros; discriminate]. intros a Ha. apply in_cells in Ha. cbn in Ha. destruct Ha as [(p & i & [] & _)|(i & Hi & _)]. lia.
    - intros a o x. discriminate.
  Qed.
  (* ---- a store ---- *)
  Lemma write_inv h A fl a o : Inv h A fl -> A a <> None -> (forall x, In x (refs o) -> A x <> None) ->
    Inv (write h a o) (upd A a (Some o)) fl.
  Proof using.
    intros I Ha Hr. destruct I as [P N U B C K FN FI [L1 L2] CL]. destruct (A a) as [o0|] eqn:Ea; [clear Ha|congruence].
    destruct (L2 a o0 Ea) as (Hc & Hf & Hm).
    constructor; cbn [write all_pages current pages free_pages used bits mem free free_cnt]; auto.
    - eapply chain_ext; [|exact C]. intros x Hx. apply upd_other. intros ->. contradiction.
    - split.
      + intros x Hx Hn. unfold upd. destruct (Z.eqb_spec x a); [eauto|]. apply L1; assumption.
      + intros x o' E. unfold upd in *. cbn [write mem]. unfold upd. destruct (Z.eqb_spec x a) as [->|]; [|apply L2; exact E].
        injection E as <-. auto.
    - intros x o' y E Hy. unfold upd in *. destruct (Z.eqb_spec y a); [discriminate|]. destruct (Z.eqb_spec x a) as [->|]; [injection E as <-; auto|eauto].
  Qed.
  (* ---- allocation ---- *)
  Lemma closed_alloc A a o : closed A -> A a = None -> (forall x, In x (refs o) -> A x <> None) -> closed (upd A a (Some o)).
  Proof using.
    intros CL Ha Hr x o' y E Hy. unfold upd in *. destruct (Z.eqb_spec y a); [discriminate|].
    destruct (Z.eqb_spec x a) as [->|]; [injection E as <-; auto|eauto].
  Qed.
  Lemma alloc_inv h A fl o np : Inv h A fl -> (forall x, In x (refs o) -> A x <> None) -> page_ok np -> ~ In np (all_pages h) ->
    exists a h' fl', alloc off h o np = Ok (a, h') /\ A a = None /\ Inv h' (upd A a (Some o)) fl' /\ allocated h' = allocated h + 1 /\ In a (cells h').
  Proof using OFF.
    intros I Hr Hnp Hni. pose proof (inv_cells _ _ _ I) as [CN CA]. pose proof (inv_cp _ _ _ I) as [CP _].
    destruct I as [P N U B C K FN FI [L1 L2] CL]. unfold alloc.
    destruct fl as [|x fl].
    - cbn in C. rewrite C. change (zlen (@nil Z)) with 0 in K. destruct (Z.eqb_spec (used h) DATA_LEN) as [EU|NU].
      + (* next page *)
        assert (H : exists cur fps, match rev (free_pages h) with [] => (np, []) | p :: r => (p, rev r) end = (cur, fps) /\ page_ok cur /\
                   ~ In cur (current h :: pages h) /\ NoDup (cur :: (pages h ++ [current h]) ++ fps) /\ Forall page_ok fps).
        { unfold all_pages in *. destruct (rev (free_pages h)) as [|p r] eqn:Er.
          - exists np, []. split; [reflexivity|]. split; [exact Hnp|].
            assert (Hn : ~ In np (current h :: pages h)) by (intros H; apply Hni; rewrite app_comm_cons; apply in_or_app; left; exact H).
            split; [exact Hn|]. split; [|constructor]. rewrite app_nil_r. constructor.
            + intros H. apply in_app_iff in H. apply Hn. destruct H as [H|[H|[]]]; [right; exact H|left; exact H].
            + assert (N' : NoDup (current h :: pages h)).
              { apply (f_equal (@rev Z)) in Er. rewrite rev_involutive in Er. rewrite Er in N. cbn in N. rewrite app_nil_r in N. exact N. }
              inversion N'; subst. apply NoDup_app_intro; [assumption|constructor; [intros []|constructor]|]. intros y Hy [<-|[]]. contradiction.
          - apply (f_equal (@rev Z)) in Er. rewrite rev_involutive in Er. cbn in Er. exists p, (rev r). split; [reflexivity|].
            rewrite Er in *. rewrite app_comm_cons in P, N. apply Forall_app in P. destruct P as [P1 P2]. apply Forall_app in P2. destruct P2 as [P2 P3].
            inversion P3; subst. split; [assumption|]. rewrite app_assoc in N.
            apply NoDup_remove in N. destruct N as [N1 N2]. rewrite app_nil_r in *.
            split; [intros H'; apply N2; apply in_or_app; left; exact H'|]. split; [|exact P2].
            constructor.
            + intros H'. apply N2. rewrite !in_app_iff in *. cbn in *. tauto.
            + cbn in N1. inversion N1; subst. rewrite <- app_assoc. cbn. apply NoDup_Add with (a := current h) (l := pages h ++ rev r); [|split; assumption].
              apply Add_app. }
        destruct H as (cur & fps & Ecf & Hcur & Hnin & HND & Hfps). rewrite Ecf. cbn [data_ptr]. unfold data_ptr. cbn [andb Z.leb].
        change (0 <=? 0) with true. change (0 <? DATA_LEN) with true. cbn [andb rbind].
        set (a := cur + off + GCBOX_SIZE * 0).
        assert (Ha : a = cell_addr off cur 0) by reflexivity.
        assert (Hold : ~ In a (cells h)).
        { intros H. apply in_cells in H. rewrite Ha in H. rewrite Forall_forall in CP.
          destruct H as [(p & i & Hp & Hi & E)|(i & Hi & E)]; apply (cell_addr_inj off OFF) in E; auto; try (unfold DATA_LEN, SIZE in *; lia);
            try (apply CP; left; reflexivity); try (apply CP; right; assumption); destruct E as [-> _]; apply Hnin; [right; assumption|left; reflexivity]. }
        assert (HA : A a = None) by (destruct (A a) as [o'|] eqn:E; [destruct (L2 a o' E); contradiction|reflexivity]).
        eexists a, _, []. split; [reflexivity|]. split; [exact HA|].
        match goal with |- Inv ?hh _ _ /\ _ => set (h' := hh) end.
        assert (HC' : forall x, In x (cells h') <-> In x (cells h) \/ x = a).
        { intros x. rewrite !in_cells. unfold h'. cbn [pages current used]. split.
          - intros [(p & i & Hp & Hi & ->)|(i & Hi & ->)].
            + left. apply in_app_iff in Hp. destruct Hp as [Hp|[<-|[]]]; [left; eauto|right]. exists i. rewrite EU. auto.
            + right. replace i with 0 by lia. reflexivity.
          - intros [[(p & i & Hp & Hi & ->)|(i & Hi & ->)]| ->].
            + left. exists p, i. split; [apply in_or_app; left; exact Hp|auto].
            + left. exists (current h), i. split; [apply in_or_app; right; left; reflexivity|]. split; [lia|reflexivity].
            + right. exists 0. split; [lia|]. reflexivity. }
        split; [|split; [reflexivity|apply HC'; right; reflexivity]].
        constructor; unfold h'; cbn [all_pages current pages free_pages used bits mem free free_cnt]; auto.
        * unfold all_pages. cbn [current pages free_pages]. constructor; [exact Hcur|]. rewrite Forall_forall in CP |- *. intros y Hy. rewrite !in_app_iff in Hy.
          destruct Hy as [[Hy|[<-|[]]]|Hy]; [apply CP; right; exact Hy|apply CP; left; reflexivity|]. rewrite Forall_forall in Hfps. auto.
        * unfold DATA_LEN, SIZE. lia.
        * reflexivity.
        * intros y [].
        * fold h'. split.
          -- intros y Hy _. apply HC' in Hy. unfold upd. destruct (Z.eqb_spec y a); [eauto|]. destruct Hy as [Hy|]; [|contradiction]. apply L1; auto.
          -- intros y o' E. unfold h'. cbn [mem]. fold h'. unfold upd in *. rewrite HC'. destruct (Z.eqb_spec y a) as [->|].
             ++ injection E as <-. auto.
             ++ destruct (L2 y o' E) as (? & ? & ?). auto.
        * apply closed_alloc; assumption.
      + (* bump *)
        unfold data_ptr. destruct (Z.leb_spec 0 (used h)); [|lia]. destruct (Z.ltb_spec (used h) DATA_LEN); [|lia]. cbn [andb rbind].
        set (a := current h + off + GCBOX_SIZE * used h).
        assert (Ha : a = cell_addr off (current h) (used h)) by reflexivity.
        assert (Hold : ~ In a (cells h)).
        { intros H'. apply in_cells in H'. rewrite Ha in H'. inversion CP as [|? ? Hc CP']; subst. rewrite Forall_forall in CP'.
          destruct (inv_cp h A []) as [_ ND']; [constructor; auto; split; assumption|]. inversion ND'; subst.
          destruct H' as [(p & i & Hp & Hi & E)|(i & Hi & E)]; apply (cell_addr_inj off OFF) in E; auto; try lia.
          destruct E as [E _]. rewrite E in *. contradiction. }
        assert (HA : A a = None) by (destruct (A a) as [o'|] eqn:E; [destruct (L2 a o' E); contradiction|reflexivity]).
        eexists a, _, []. split; [reflexivity|]. split; [exact HA|].
        match goal with |- Inv ?hh _ _ /\ _ => set (h' := hh) end.
        assert (HC' : forall x, In x (cells h') <-> In x (cells h) \/ x = a).
        { intros x. rewrite !in_cells. unfold h'. cbn [pages current used]. split.
          - intros [H'|(i & Hi & ->)]; [auto|]. destruct (Z.eq_dec i (used h)) as [->|]; [right; reflexivity|]. left. right. exists i. split; [lia|reflexivity].
          - intros [[H'|(i & Hi & ->)]| ->]; [auto| |]; right; [exists i|exists (used h)]; (split; [lia|reflexivity]). }
        split; [|split; [reflexivity|apply HC'; right; reflexivity]].
        constructor; unfold h'; cbn [all_pages current pages free_pages used bits mem free free_cnt]; auto.
        * lia.
        * reflexivity.
        * intros y [].
        * fold h'. split.
          -- intros y Hy _. apply HC' in Hy. unfold upd. destruct (Z.eqb_spec y a); [eauto|]. destruct Hy as [Hy|]; [|contradiction]. apply L1; auto.
          -- intros y o' E. unfold h'. cbn [mem]. fold h'. unfold upd in *. rewrite HC'. destruct (Z.eqb_spec y a) as [->|].
             ++ injection E as <-. auto.
             ++ destruct (L2 y o' E) as (? & ? & ?). auto.
        * apply closed_alloc; assumption.
    - (* free list *)
      destruct C as (Ef & nx & Em & C). rewrite Ef, Em. cbn [cell_next rbind]. rewrite zlen_cons in K. pose proof (zlen_nonneg fl).
      destruct (Z.eqb_spec (free_cnt h) 0); [lia|]. inversion FN as [|? ? Hx FN']; subst.
      assert (HA : A x = None) by (destruct (A x) as [o'|] eqn:E; [destruct (L2 x o' E) as (_ & H' & _); exfalso; apply H'; left; reflexivity|reflexivity]).
      eexists x, _, fl. split; [reflexivity|]. split; [exact HA|].
      match goal with |- Inv ?hh _ _ /\ _ => set (h' := hh) end.
      assert (HC' : cells h' = cells h) by reflexivity.
      split; [|split; [reflexivity|rewrite HC'; apply FI; left; reflexivity]].
      constructor; unfold h'; cbn [all_pages current pages free_pages used bits mem free free_cnt]; auto.
      + eapply chain_ext; [|exact C]. intros y Hy. apply upd_other. intros ->. contradiction.
      + lia.
      + fold h'. rewrite HC'. intros y Hy. apply FI. right. exact Hy.
      + fold h'. split; rewrite HC'.
        * intros y Hy Hny. unfold upd. destruct (Z.eqb_spec y x); [eauto|]. apply L1; [exact Hy|]. intros [E|E]; [congruence|contradiction].
        * intros y o' E. unfold h'. cbn [mem]. unfold upd in *. destruct (Z.eqb_spec y x) as [->|].
          -- injection E as <-. split; [apply FI; left; reflexivity|auto].
          -- destruct (L2 y o' E) as (? & Hnf & ?). split; [assumption|]. split; [|assumption]. intros Hf. apply Hnf. right. exact Hf.
      + apply closed_alloc; assumption.
  Qed.

  (* ---- collection ---- *)
  Lemma clear_bits_fold ps : forall b p, (In p ps \/ b p = repeat 0 (Z.to_nat (SIZE - 1))) -> fold_left clear_bits ps b p = repeat 0 (Z.to_nat (SIZE - 1)).
  Proof using.
    induction ps as [|q ps IH]; intros b p H; cbn [fold_left].
    - destruct H as [[]|H]; exact H.
    - apply IH. unfold clear_bits, upd. destruct (Z.eqb_spec p q); [right; reflexivity|]. destruct H as [[H|H]|H]; [congruence|left; exact H|right; exact H].
  Qed.
  Lemma clear_bits_ok b p : bits_ok b -> bits_ok (clear_bits b p).
  Proof using.
    intros H q. unfold clear_bits, upd. destruct (q =? p); [|apply H]. split; [reflexivity|]. apply Forall_forall. intros w Hw. apply repeat_spec in Hw. subst w. lia.
  Qed.
  Lemma clear_bits_fold_ok ps : forall b, bits_ok b -> bits_ok (fold_left clear_bits ps b).
  Proof using. induction ps as [|p ps IH]; intros b H; [exact H|]. apply IH, clear_bits_ok, H. Qed.
  Lemma nth_repeat0 n k : nth k (repeat 0 n) 0 = 0.
  Proof using. revert k. induction n; intros [|k]; cbn; auto. Qed.
  Lemma bits_zero (w : list Z) : Forall (fun w => 0 <= w < 2 ^ 64) w -> zlen w = SIZE - 1 ->
    (forallb (fun w => w =? 0) w = true <-> forall i, 0 <= i < DATA_LEN -> Z.testbit (nth (Z.to_nat (i / 64)) w 0) (i mod 64) = false).
  Proof using.
    intros HF HL. rewrite forallb_forall. split.
    - intros H i Hi. rewrite (proj1 (Z.eqb_eq (nth (Z.to_nat (i / 64)) w 0) 0)); [apply Z.bits_0|]. apply H. apply nth_In.
      unfold zlen, DATA_LEN, SIZE in *. lia.
    - intros H x Hx. apply Z.eqb_eq. apply (In_nth _ _ 0) in Hx. destruct Hx as (k & Hk & <-).
      rewrite Forall_forall in HF. pose proof (HF _ (nth_In w 0 Hk)) as Hr.
      apply Z.bits_inj'. intros j Hj. rewrite Z.bits_0. destruct (Z.lt_ge_cases j 64).
      + specialize (H (64 * Z.of_nat k + j)). replace ((64 * Z.of_nat k + j) / 64) with (Z.of_nat k) in H by lia.
        replace ((64 * Z.of_nat k + j) mod 64) with j in H by lia. rewrite Nat2Z.id in H. apply H. unfold zlen, DATA_LEN, SIZE in *. lia.
      + destruct (Z.eq_dec (nth k w 0) 0) as [->|]; [apply Z.bits_0|]. apply Z.bits_above_log2; [lia|].
        enough (Z.log2 (nth k w 0) < 64) by lia. apply Z.log2_lt_pow2; lia.
  Qed.
  Lemma NoDup_app_l {X} (l1 l2 : list X) : NoDup (l1 ++ l2) -> NoDup l1.
  Proof using. induction l1; cbn; intros H; [constructor|]. inversion H; subst. constructor; [rewrite in_app_iff in *; auto|auto]. Qed.

  Lemma gc_inv h A fl roots fuel : Inv h A fl -> (forall x, In x roots -> A x <> None) -> (length (cells h) < fuel)%nat ->
    exists h' A' fl', gc off fuel roots h = Ok h' /\ Inv h' A' fl' /\
      (forall a, (reach A roots a -> A' a = A a) /\ (~ reach A roots a -> A' a = None)) /\
      (forall a, reach A roots a -> mem h' a = mem h a) /\
      (forall p, In p (all_pages h) <-> In p (all_pages h')) /\
      (forall a, In a (cells h) -> ~ reach A roots a -> In a fl' \/ exists p i, In p (free_pages h') /\ 0 <= i < DATA_LEN /\ a = cell_addr off p i) /\
      (exists live, NoDup live /\ (forall a, In a live <-> reach A roots a) /\ mark_cnt h' = zlen live /\ zlen (cells h') = mark_cnt h' + free_cnt h') /\
      alloc_flag h' = false /\ allocated h' = allocated h /\ current h' = current h /\ used h' = used h /\ (forall p, In p (pages h') -> In p (pages h)) /\
      (forall p, In p (free_pages h') -> In p (free_pages h) \/ forall i, 0 <= i < DATA_LEN -> ~ reach A roots (cell_addr off p i)).
  Proof using OFF.
    intros I HR HF. pose proof (inv_cells _ _ _ I) as [CN CA]. pose proof (inv_cp _ _ _ I) as [CP CPN].
    destruct I as [P N U B C K FN FI [L1 L2] CL]. unfold gc.
    set (h1 := clear_mark h). set (b1 := bits h1).
    assert (B1 : bits_ok b1) by (apply clear_bits_fold_ok, clear_bits_ok, B).
    assert (Z1 : forall a, In a (cells h) -> mk b1 a = false).
    { intros a Ha. rewrite Forall_forall in CP.
      assert (H : exists p i, In p (current h :: pages h) /\ 0 <= i < DATA_LEN /\ a = cell_addr off p i).
      { apply in_cells in Ha. destruct Ha as [(p & i & Hp & Hi & ->)|(i & Hi & ->)]; [exists p, i|exists (current h), i].
        - split; [right; exact Hp|auto]. - split; [left; reflexivity|]. split; [lia|reflexivity]. }
      destruct H as (p & i & Hp & Hi & ->). rewrite (mk_cell off OFF) by auto. unfold bit_of.
      assert (E : b1 p = repeat 0 (Z.to_nat (SIZE - 1))).
      { unfold b1, h1, clear_mark. cbn [bits]. apply clear_bits_fold. destruct Hp as [<-|Hp]; [right; apply upd_same|left; exact Hp]. }
      rewrite E, nth_repeat0. apply Z.bits_0. }
    assert (HLcell : forall a o, A a = Some o -> mem h a = Obj o /\ In a (cells h)) by (intros a o E; destruct (L2 a o E) as (? & ? & ?); auto).
    destruct (mark_all_ok off OFF (mem h) A (cells h) HLcell CL CA CN fuel roots b1 B1 HR HF Z1) as (b2 & c2 & E2 & B2 & M2 & C2).
    change (mem h1) with (mem h). change (mark_cnt h1) with 0. fold b1. rewrite E2. cbn [rbind fst snd].
    change (used h1) with (used h). change (allocated h1) with (allocated h). change (free_cnt h1) with (free_cnt h). change (current h1) with (current h).
    change (pages h1) with (pages h). change (free h1) with (free h). change (free_pages h1) with (free_pages h). change (alloc_flag h1) with (alloc_flag h).
    clearbody b1. clear h1.
    set (h2 := mkHeap (used h) (allocated h) (free_cnt h) (current h) (pages h) c2 (free h) (free_pages h) (alloc_flag h) (mem h) b2).
    unfold dealloc_empty_pages.
    destruct (dealloc_loop_ok off (pages h) h2 [] ltac:(rewrite app_nil_r; reflexivity)) as (h3 & E3 & P3 & F3 & U3 & Cu3 & B3 & MC3 & AL3 & _ & _ & FL3 & M3).
    change (pages h2) with (pages h) at 1. rewrite E3. cbn [rbind]. rewrite app_nil_r in P3.
    cbn [h2 used current bits mark_cnt allocated alloc_flag mem free_pages] in *.
    assert (RL : forall a, reach A roots a -> A a <> None).
    { intros a Ra. induction Ra as [a Ha|a o x Ra IH E Hx]; [auto|eauto]. }
    assert (RC : forall a, reach A roots a -> In a (cells h)).
    { intros a Ra. pose proof (RL a Ra) as H. destruct (A a) as [o|] eqn:E; [apply (L2 a o E)|congruence]. }
    assert (PO : forall p, In p (pages h) -> page_ok p) by (intros p Hp; rewrite Forall_forall in CP; apply CP; right; exact Hp).
    assert (D : forall p, In p (pages h) -> dead h2 p = true <-> forall i, 0 <= i < DATA_LEN -> mk b2 (cell_addr off p i) = false).
    { intros p Hp. unfold dead, all_dead. cbn [h2 bits]. destruct (B2 p) as [Lp Fp]. rewrite (bits_zero _ Fp Lp).
      split; intros H i Hi; specialize (H i Hi); [rewrite (mk_cell off OFF) by auto; exact H|rewrite (mk_cell off OFF) in H by auto; exact H]. }
    (* sweep *)
    assert (IncP : forall p, In p (pages h3) -> In p (pages h)) by (rewrite P3; intros p Hp; apply filter_In in Hp; apply Hp).
    assert (CP3 : Forall page_ok (current h3 :: pages h3)).
    { rewrite Cu3. inversion CP; subst. constructor; [assumption|]. apply Forall_forall. intros p Hp. auto. }
    assert (CN3 : NoDup (current h3 :: pages h3)).
    { rewrite Cu3, P3. inversion CPN; subst. constructor; [intros Hi; apply filter_In in Hi; apply H1, Hi|apply NoDup_filter; assumption]. }
    assert (HC3 : forall a, In a (cells h3) -> In a (cells h)).
    { intros a Ha. apply in_cells. apply in_cells in Ha. rewrite U3, Cu3 in Ha. destruct Ha as [(p & i & Hp & Hi & ->)|Ha]; [left; exists p, i; auto|right; exact Ha]. }
    assert (HC3' : forall a, In a (cells h) -> ~ In a (cells h3) -> exists p i, In p (pages h) /\ dead h2 p = true /\ 0 <= i < DATA_LEN /\ a = cell_addr off p i).
    { intros a Ha Hn. apply in_cells in Ha. destruct Ha as [(p & i & Hp & Hi & ->)|Ha].
      - exists p, i. split; [exact Hp|]. split; [|auto]. destruct (dead h2 p) eqn:Ed; [reflexivity|]. exfalso. apply Hn. apply in_cells. left. exists p, i.
        split; [|auto]. rewrite P3. apply filter_In. rewrite Ed. auto.
      - exfalso. apply Hn. apply in_cells. rewrite U3, Cu3. right. exact Ha. }
    assert (RC3 : forall a, reach A roots a -> In a (cells h3)).
    { intros a Ra. destruct (in_dec Z.eq_dec a (cells h3)) as [Hi|Hn]; [exact Hi|]. exfalso.
      destruct (HC3' a (RC a Ra) Hn) as (p & i & Hp & Hd & Hi & ->). apply (D p Hp) with (i := i) in Hd; [|exact Hi].
      apply M2 in Ra; [congruence|auto]. }
    destruct (sweep_ok off OFF h3) as (h4 & E4 & U4 & Cu4 & P4 & F4 & B4 & MC4 & AL4 & C4 & K4 & M4).
    { rewrite B3. exact B2. } { exact CP3. } { rewrite U3. exact U. } { apply cells_NoDup; [exact CP3|exact CN3|rewrite U3; exact U]. }
    rewrite E4. cbn [rbind]. rewrite B3 in *.
    set (F := filter (fun a => negb (mk b2 a)) (cells h3)) in *.
    assert (CN3' : NoDup (cells h3)) by (apply cells_NoDup; [exact CP3|exact CN3|rewrite U3; exact U]).
    eexists _, (fun a => if existsb (Z.eqb a) (cells h3) && mk b2 a then A a else None), F. split; [reflexivity|].
    match goal with |- Inv ?hh _ _ /\ _ => set (h' := hh) end.
    assert (Ein : forall a, existsb (Z.eqb a) (cells h3) = true <-> In a (cells h3)).
    { intros a. rewrite existsb_exists. split; [intros (x & Hx & E); apply Z.eqb_eq in E; subst; exact Hx|intros H; exists a; split; [exact H|apply Z.eqb_refl]]. }
    assert (Rmk : forall a, existsb (Z.eqb a) (cells h3) && mk b2 a = true <-> reach A roots a).
    { intros a. rewrite andb_true_iff, Ein. split; [intros [H1 H2]; apply M2; auto|intros H; split; [auto|apply M2; auto]]. }
    assert (HC' : cells h' = cells h3) by (unfold ProofsGC3.cells, h'; cbn [pages current used]; rewrite P4, Cu4, U4; reflexivity).
    assert (Mr : forall a, reach A roots a -> mem h' a = mem h a).
    { intros a Ra. unfold h'. cbn [mem]. rewrite M4, M3; [reflexivity| |].
      - intros p Hp Hd Hin. apply in_page_cells in Hin. destruct Hin as (i & Hi & ->). apply (D p Hp) with (i := i) in Hd; [|exact Hi].
        apply M2 in Ra; [congruence|auto].
      - unfold F. rewrite filter_In. intros [_ H]. apply (proj2 (Rmk a)) in Ra. apply andb_true_iff in Ra. destruct Ra as [_ Ra]. rewrite Ra in H. discriminate. }
    assert (FP : free_pages h' = free_pages h ++ rev (filter (dead h2) (pages h))) by (unfold h'; cbn [free_pages]; rewrite F4, F3; reflexivity).
    assert (PP : pages h' = filter (fun p => negb (dead h2 p)) (pages h)) by (unfold h'; cbn [pages]; rewrite P4, P3; reflexivity).
    assert (CC : current h' = current h) by (unfold h'; cbn [current]; rewrite Cu4, Cu3; reflexivity).
    assert (AP : forall p, In p (all_pages h) <-> In p (all_pages h')).
    { intros p. unfold all_pages. rewrite PP, FP, CC. cbn [In]. rewrite !in_app_iff, <- in_rev, !filter_In. destruct (dead h2 p); cbn [negb]; intuition congruence. }
    assert (LV : zlen (filter (mk b2) (cells h3)) = c2).
    { rewrite C2. assert (NoDup (filter (mk b2) (cells h3)) /\ NoDup (filter (mk b2) (cells h))) as [N1 N2] by (split; apply NoDup_filter; assumption).
      unfold zlen. f_equal. apply Nat.le_antisymm; apply NoDup_incl_length; try assumption; intros a; rewrite !filter_In; intros [H1 H2]; (split; [|exact H2]).
      - auto. - apply RC3. apply M2; assumption. }
    repeat split.
    - apply Forall_forall. intros p Hp. apply AP in Hp. rewrite Forall_forall in P. auto.
    - unfold all_pages. rewrite CC, PP, FP. unfold all_pages in N. inversion N as [|? ? Hn N']; subst. constructor.
      + intros Hi. apply Hn. rewrite !in_app_iff, <- in_rev, !filter_In in Hi. rewrite in_app_iff. tauto.
      + apply NoDup_app_intro; [apply NoDup_filter; eapply NoDup_app_l; exact N'| |].
        * apply NoDup_app_intro.
          -- clear - N'. induction (pages h); [exact N'|]. inversion N'; auto.
          -- apply NoDup_rev, NoDup_filter. eapply NoDup_app_l; exact N'.
          -- intros x H1 H2. rewrite <- in_rev, filter_In in H2. clear - N' H1 H2. destruct H2 as [H2 _].
             induction (pages h) as [|y l IH]; [exact H2|]. inversion N' as [|? ? Hy N'']; subst. destruct H2 as [->|H2]; [apply Hy, in_or_app; right; exact H1|auto].
        * intros x H1 H2. rewrite filter_In in H1. destruct H1 as [H1 H3]. rewrite in_app_iff, <- in_rev, filter_In in H2. destruct H2 as [H2|[_ H2]]; [|rewrite H2 in H3; discriminate].
          clear - N' H1 H2. induction (pages h) as [|y l IH]; [exact H1|]. inversion N' as [|? ? Hy N'']; subst. destruct H1 as [->|H1]; [apply Hy, in_or_app; right; exact H2|auto].
    - unfold h'. cbn [used]. rewrite U4, U3. apply U.
    - unfold h'. cbn [used]. rewrite U4, U3. apply U.
    - unfold h'. cbn [bits]. rewrite B4. apply B2.
    - unfold h'. cbn [bits]. rewrite B4. apply B2.
    - unfold h'. cbn [mem free]. exact C4.
    - exact K4.
    - apply NoDup_filter. exact CN3'.
    - rewrite HC'. intros a Ha. apply filter_In in Ha. apply Ha.
    - intros a Ha Hn. rewrite HC' in Ha. assert (Hm : mk b2 a = true).
      { destruct (mk b2 a) eqn:E; [reflexivity|]. exfalso. apply Hn. apply filter_In. rewrite E. auto. }
      rewrite (proj2 (Ein a) Ha), Hm. cbn [andb]. assert (Ra : reach A roots a) by (apply M2; auto).
      pose proof (RL a Ra). destruct (A a); [eauto|congruence].
    - destruct (existsb (Z.eqb a) (cells h3) && mk b2 a) eqn:E; [|discriminate]. rewrite HC'. apply andb_true_iff in E. apply Ein, E.
    - destruct (existsb (Z.eqb a) (cells h3) && mk b2 a) eqn:E; [|discriminate]. apply andb_true_iff in E. unfold F. rewrite filter_In. intros [_ H'].
      destruct E as [_ E]. rewrite E in H'. discriminate.
    - destruct (existsb (Z.eqb a) (cells h3) && mk b2 a) eqn:E; [|discriminate]. apply Rmk in E. rewrite Mr by exact E. apply (L2 a o H).
    - intros a o x H Hx. cbv beta in *. destruct (existsb (Z.eqb a) (cells h3) && mk b2 a) eqn:E; [|discriminate]. apply Rmk in E.
      assert (Rx : reach A roots x) by (eapply reach_ref; eassumption). rewrite (proj2 (Rmk x) Rx). auto.
    - intros Ra. rewrite (proj2 (Rmk a) Ra). reflexivity.
    - intros Nr. destruct (existsb (Z.eqb a) (cells h3) && mk b2 a) eqn:E; [|reflexivity]. apply Rmk in E. contradiction.
    - exact Mr.
    - apply AP.
    - apply AP.
    - intros a Ha Nr. destruct (in_dec Z.eq_dec a (cells h3)) as [Hi|Hn].
      + left. apply filter_In. split; [exact Hi|]. destruct (mk b2 a) eqn:E; [|reflexivity]. exfalso. apply Nr, M2; auto.
      + right. destruct (HC3' a Ha Hn) as (p & i & Hp & Hd & Hi & ->). exists p, i. split; [|auto]. rewrite FP. apply in_or_app. right.
        rewrite <- in_rev. apply filter_In. auto.
    - exists (filter (mk b2) (cells h3)). split; [apply NoDup_filter; exact CN3'|]. split; [|split].
      + intros a. rewrite filter_In. rewrite <- Rmk, andb_true_iff, Ein. reflexivity.
      + unfold h'. cbn [mark_cnt]. rewrite MC4, MC3. symmetry. exact LV.
      + rewrite HC'. unfold h'. cbn [mark_cnt free_cnt]. rewrite MC4, MC3, K4, <- LV. unfold F, zlen. clear. induction (cells h3) as [|x l IH]; [reflexivity|].
        cbn [filter length]. destruct (mk b2 x); cbn [negb length]; lia.
    - unfold h'. cbn [allocated]. congruence.
    - exact CC.
    - unfold h'. cbn [used]. rewrite U4. exact U3.
    - unfold h'. cbn [pages]. rewrite P4. exact IncP.
    - intros p Hp. rewrite FP in Hp. apply in_app_iff in Hp. destruct Hp as [Hp|Hp]; [left; exact Hp|right]. rewrite <- in_rev, filter_In in Hp. destruct Hp as [Hp Hd].
      intros i Hi Ra. apply (D p Hp) with (i := i) in Hd; [|exact Hi]. apply M2 in Ra; [congruence|auto].
  Qed.
End Inv.
