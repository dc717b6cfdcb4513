(* Sweeping and page deallocation. *)
From Verif Require Import Base ProofsBase ModelArray ProofsArray ModelGC ProofsGC ProofsGC2.
From Coq Require Import Permutation.
Ltac Zify.zify_post_hook ::= Z.div_mod_to_equations.

(* freeing one cell: memory, anchor, head, count *)
Definition swst : Type := (Z -> cell) * option Z * option Z * Z.
Definition fz (a : Z) (t : swst) : swst :=
  let '(m, anchor, head, c) := t in
  let '(m1, anchor1) := match head with None => (m, Some a) | Some hd => (upd m hd (Invalid (Some a)), anchor) end in
  (upd m1 a (Invalid None), anchor1, Some a, c + 1).
Definition sw (f : Z -> bool) (l : list Z) (t : swst) : swst := fold_left (fun t a => if f a then t else fz a t) l t.
Definition tup (s : sweeping) (c : Z) : swst := (smem s, sanchor s, shead s, c).
Definition untup (t : swst) (p : Z) : Z * sweeping := let '(m, a, h, c) := t in (c, mkSweep m a h p).
Definition run_of (p n : Z) : list Z := map (fun j => p + GCBOX_SIZE * j) (seqZ n).
Lemma seqZ_S n : seqZ (Z.of_nat (S n)) = 0 :: map (fun j => j + 1) (seqZ (Z.of_nat n)).
Proof.
  unfold seqZ. rewrite !Nat2Z.id. cbn [seq map]. f_equal. rewrite map_map, <- seq_shift, map_map. apply map_ext. intros a. lia.
Qed.
Lemma run_of_S p n : run_of p (Z.of_nat (S n)) = p :: run_of (p + GCBOX_SIZE) (Z.of_nat n).
Proof.
  unfold run_of. rewrite seqZ_S. cbn [map]. f_equal; [lia|]. rewrite map_map. apply map_ext. intros j. lia.
Qed.
Lemma seqZ_app a b : 0 <= a -> 0 <= b -> seqZ (a + b) = seqZ a ++ map (fun j => a + j) (seqZ b).
Proof.
  intros Ha Hb. unfold seqZ. rewrite Z2Nat.inj_add by lia. rewrite seq_app, map_app. f_equal. cbn [Nat.add].
  rewrite map_map. rewrite <- (Nat.add_0_r (Z.to_nat a)) at 1. clear Hb. generalize (Z.to_nat b) as n. intros n. generalize 0%nat as k.
  induction n as [|n IH]; intros k; [reflexivity|]. cbn [seq map]. f_equal; [lia|]. rewrite <- (IH (S k)). rewrite Nat.add_succ_r. reflexivity.
Qed.
Lemma run_of_app p a b : 0 <= a -> 0 <= b -> run_of p (a + b) = run_of p a ++ run_of (p + GCBOX_SIZE * a) b.
Proof.
  intros Ha Hb. unfold run_of. rewrite seqZ_app by assumption. rewrite map_app, map_map. f_equal. apply map_ext. intros j. lia.
Qed.
Lemma sw_app f a b t : sw f (a ++ b) t = sw f b (sw f a t).
Proof. apply fold_left_app. Qed.
Lemma sw_skip f l t : (forall a, In a l -> f a = true) -> sw f l t = t.
Proof.
  revert t. induction l as [|a l IH]; intros t H; [reflexivity|]. cbn. rewrite (H a (or_introl eq_refl)). apply IH.
  intros x Hx. apply H. right. exact Hx.
Qed.
Lemma sweep_loop_sw f n : forall w s c, 0 <= w ->
  (forall j, 0 <= j < Z.of_nat n -> f (sptr s + GCBOX_SIZE * j) = Z.testbit w j) ->
  sweep_loop n w s c = untup (sw f (run_of (sptr s) (Z.of_nat n)) (tup s c)) (sptr s + GCBOX_SIZE * Z.of_nat n).
Proof.
  induction n as [|n IH]; intros w s c Hw Hf.
  - cbn [sweep_loop]. change (run_of (sptr s) (Z.of_nat 0)) with (@nil Z). cbn. destruct s; cbn. do 2 f_equal. lia.
  - cbn [sweep_loop]. rewrite run_of_S.
    assert (H0 : f (sptr s) = Z.testbit w 0) by (rewrite <- (Hf 0) by lia; f_equal; lia).
    assert (Hodd : (Z.land w 1 =? 0) = negb (Z.testbit w 0)).
    { rewrite <- (negb_involutive (Z.land w 1 =? 0)). f_equal. change 1 with (2 ^ 0). apply land_pow2. lia. }
    assert (Hs : forall j, 0 <= j < Z.of_nat n -> f (sptr s + GCBOX_SIZE + GCBOX_SIZE * j) = Z.testbit (w / 2) j).
    { intros j Hj. change (w / 2) with (w / 2 ^ 1). rewrite Z.div_pow2_bits by lia. rewrite <- Hf by lia. f_equal. lia. }
    rewrite Hodd. unfold sw. cbn [fold_left]. rewrite H0. destruct (Z.testbit w 0); cbn [negb].
    + rewrite (IH (w / 2)); [|lia|exact Hs]. cbn [sptr]. unfold sw, tup. cbn [smem sanchor shead]. f_equal. lia.
    + unfold tup at 1. cbn [fz]. destruct (shead s) as [hd|] eqn:Eh.
      * rewrite (IH (w / 2)); [|lia|exact Hs]. cbn [sptr]. unfold sw, tup. cbn [smem sanchor shead fz]. f_equal. lia.
      * rewrite (IH (w / 2)); [|lia|exact Hs]. cbn [sptr]. unfold sw, tup. cbn [smem sanchor shead fz]. f_equal. lia.
Qed.
Lemma trailing_ones_spec n : forall w, 0 <= trailing_ones n w <= Z.of_nat n /\
  (forall j, 0 <= j < trailing_ones n w -> Z.testbit w j = true).
Proof.
  induction n as [|n IH]; intros w; cbn [trailing_ones]; [split; [lia|intros; lia]|].
  destruct (Z.odd w) eqn:E; [|split; [lia|intros; lia]]. destruct (IH (w / 2)) as [H1 H2]. split; [lia|].
  intros j Hj. destruct (Z.eq_dec j 0) as [->|]; [rewrite Z.bit0_odd; exact E|].
  replace j with ((j - 1) + 1) by lia. rewrite <- (Z.div_pow2_bits w 1) by lia. change (2 ^ 1) with 2. apply H2. lia.
Qed.
Lemma sweep_bits_sw f bit w s : 0 <= w < 2 ^ 64 -> 0 <= bit <= 64 ->
  (forall j, 0 <= j < bit -> f (sptr s + GCBOX_SIZE * j) = Z.testbit w j) ->
  exists p', sweep_bits bit w s = untup (sw f (run_of (sptr s) bit) (tup s 0)) p' /\ (bit = 64 -> p' = sptr s + GCBOX_SIZE * bit).
Proof.
  intros Hw Hb Hf. unfold sweep_bits. destruct (trailing_ones_spec 64 w) as [Ht1 Ht2]. set (mn := trailing_ones 64 w) in *. clearbody mn.
  change (Z.of_nat 64) with 64 in Ht1.
  destruct (Z.le_gt_cases mn bit) as [Hle|Hgt].
  - exists (sptr s + GCBOX_SIZE * bit). split; [|auto].
    replace bit with (mn + (bit - mn)) at 2 by lia. rewrite run_of_app, sw_app by lia. rewrite (sw_skip f (run_of (sptr s) mn)).
    2:{ intros a Ha. unfold run_of in Ha. apply in_map_iff in Ha. destruct Ha as (j & <- & Hj). apply in_seqZ in Hj. rewrite Hf by lia. apply Ht2. lia. }
    rewrite (sweep_loop_sw f); cbn [sptr].
    + rewrite Z2Nat.id by lia. unfold tup. cbn [smem sanchor shead]. f_equal. lia.
    + destruct (Z.eqb_spec mn 64); [lia|]. apply Z.div_pos; [lia|]. apply Z.pow_pos_nonneg; lia.
    + intros j Hj. rewrite Z2Nat.id in Hj by lia. rewrite <- Z.add_assoc, <- Z.mul_add_distr_l, Hf by lia.
      destruct (Z.eqb_spec mn 64); [lia|]. rewrite Z.div_pow2_bits by lia. f_equal. lia.
  - exists (sptr s + GCBOX_SIZE * mn). split; [|lia]. replace (Z.to_nat (bit - mn)) with 0%nat by lia. cbn [sweep_loop].
    rewrite (sw_skip f). 2:{ intros a Ha. unfold run_of in Ha. apply in_map_iff in Ha. destruct Ha as (j & <- & Hj). apply in_seqZ in Hj. rewrite Hf by lia. apply Ht2. lia. }
    reflexivity.
Qed.
Lemma fz_count a m an h c k : fz a (m, an, h, c + k) = let '(m', an', h', c') := fz a (m, an, h, k) in (m', an', h', c + c').
Proof. cbn. destruct h; cbn; f_equal; lia. Qed.
Lemma sw_count f l : forall m an h c k, sw f l (m, an, h, c + k) = let '(m', an', h', c') := sw f l (m, an, h, k) in (m', an', h', c + c').
Proof.
  induction l as [|a l IH]; intros m an h c k; [reflexivity|]. unfold sw in *. cbn [fold_left].
  destruct (f a); [apply IH|]. rewrite fz_count. destruct (fz a (m, an, h, k)) as [[[m' an'] h'] c']. apply IH.
Qed.
Lemma sweep_words_sw f ws : forall s c, Forall (fun w => 0 <= w < 2 ^ 64) ws ->
  (forall i, 0 <= i < 64 * zlen ws -> f (sptr s + GCBOX_SIZE * i) = Z.testbit (nth (Z.to_nat (i / 64)) ws 0) (i mod 64)) ->
  sweep_words ws s c = untup (sw f (run_of (sptr s) (64 * zlen ws)) (tup s c)) (sptr s + GCBOX_SIZE * (64 * zlen ws)).
Proof.
  induction ws as [|w ws IH]; intros s c HF Hf.
  - cbn [sweep_words]. change (zlen (@nil Z)) with 0. change (run_of (sptr s) (64 * 0)) with (@nil Z). cbn. destruct s. cbn. do 2 f_equal. lia.
  - inversion HF as [|? ? Hw HF']; subst. cbn [sweep_words]. rewrite zlen_cons in *. pose proof (zlen_nonneg ws).
    destruct (sweep_bits_sw f 64 w s Hw ltac:(lia)) as (p' & E & Ep).
    { intros j Hj. rewrite Hf by lia. rewrite Z.div_small, Z.mod_small by lia. reflexivity. }
    specialize (Ep eq_refl). subst p'. rewrite E.
    replace (64 * (zlen ws + 1)) with (64 + 64 * zlen ws) by lia. rewrite run_of_app, sw_app by lia.
    replace (tup s c) with (smem s, sanchor s, shead s, c + 0) by (unfold tup; f_equal; lia). unfold tup at 1.
    generalize (run_of (sptr s) 64) as l64. intros l64. rewrite (sw_count f l64 (smem s) (sanchor s) (shead s) c 0).
    destruct (sw f l64 (smem s, sanchor s, shead s, 0)) as [[[m' an'] h'] c'] eqn:Es. cbn [untup].
    rewrite IH; [|exact HF'|].
    + cbn [sptr]. unfold tup. cbn [smem sanchor shead]. f_equal. lia.
    + intros i Hi. cbn [sptr]. rewrite <- Z.add_assoc, <- Z.mul_add_distr_l, Hf by lia.
      replace ((64 + i) / 64) with (i / 64 + 1) by lia. replace ((64 + i) mod 64) with (i mod 64) by lia.
      rewrite Z2Nat.inj_add by lia. rewrite Nat.add_comm. reflexivity.
Qed.

(* the list under construction *)
Definition building (m0 : Z -> cell) (F : list Z) (t : swst) : Prop :=
  let '(m, an, h, c) := t in
  chain m an F /\ h = match F with [] => None | _ => Some (last F 0) end /\ c = zlen F /\ (forall a, ~ In a F -> m a = m0 a).
Lemma fz_building m0 F t a : building m0 F t -> NoDup (F ++ [a]) -> building m0 (F ++ [a]) (fz a t).
Proof.
  destruct t as [[[m an] h] c]. intros (C & Eh & Ec & Hm) ND. unfold building, fz. destruct F as [|x F].
  - subst h. cbn [app]. split; [|split; [reflexivity|split]].
    + split; [reflexivity|]. exists None. split; [apply upd_same|reflexivity].
    + subst c. reflexivity.
    + intros b Hb. rewrite upd_other; [apply Hm; intros []|]. intros ->. apply Hb. left. reflexivity.
  - subst h. cbn [app]. rewrite app_comm_cons. split; [|split; [|split]].
    + apply chain_snoc; [discriminate|exact C|exact ND].
    + rewrite last_last. destruct (x :: F) eqn:E; [discriminate|]. reflexivity.
    + change (x :: F ++ [a]) with ((x :: F) ++ [a]). rewrite zlen_app. change (zlen [a]) with 1. lia.
    + intros b Hb. rewrite upd_other; [rewrite upd_other; [apply Hm|]|]; intros E; apply Hb; apply in_or_app.
      * left. exact E.
      * left. subst b. clear. generalize dependent x. induction F as [|y F IH]; intros x; [left; reflexivity|]. right. apply (IH y).
      * right. left. auto.
Qed.
Lemma sw_building f m0 l : forall F t, building m0 F t -> NoDup (F ++ l) -> building m0 (F ++ filter (fun a => negb (f a)) l) (sw f l t).
Proof.
  induction l as [|a l IH]; intros F t HB ND; [cbn; rewrite app_nil_r; exact HB|]. unfold sw. cbn [fold_left filter].
  assert (ND1 : NoDup (F ++ [a]) /\ NoDup ((F ++ [a]) ++ l)).
  { rewrite <- app_assoc. cbn [app]. split; [|exact ND]. change (F ++ [a]) with (F ++ [a]). rewrite app_nil_end with (l := [a]) in *.
    clear - ND. induction F as [|x F IH]; cbn in *; [constructor; [intros []|constructor]|]. inversion ND as [|? ? Hn ND']; subst.
    constructor; [|apply IH; exact ND']. intros H. apply Hn. apply in_app_or in H. apply in_or_app. destruct H as [H|[H|[]]]; [left; exact H|right; left; exact H]. }
  destruct ND1 as [ND1 ND2]. destruct (f a); cbn [negb].
  - apply IH; [exact HB|]. eapply NoDup_remove_1. exact ND.
  - change (F ++ a :: filter (fun a => negb (f a)) l) with (F ++ [a] ++ filter (fun a => negb (f a)) l). rewrite app_assoc.
    apply IH; [apply fz_building; assumption|exact ND2].
Qed.

Section Sweep.
  Variable off : Z.
  Hypothesis OFF : 0 <= off /\ off + GCBOX_SIZE * DATA_LEN <= ALLOC_SIZE.
  Notation mk := (mk off).
  Definition page_cells (p n : Z) : list Z := run_of (p + off) n.
  Definition cells (h : heap) : list Z :=
    flat_map (fun p => page_cells p DATA_LEN) (pages h) ++ page_cells (current h) (used h).
  Lemma in_page_cells p n a : In a (page_cells p n) <-> exists i, 0 <= i < n /\ a = cell_addr off p i.
  Proof using.
    unfold page_cells, run_of. rewrite in_map_iff. unfold cell_addr. split.
    - intros (i & <- & H). apply in_seqZ in H. eauto.
    - intros (i & H & ->). exists i. split; [reflexivity|]. apply in_seqZ. exact H.
  Qed.
  Lemma mk_word b p n w i : page_ok p -> 0 <= i < n -> n <= DATA_LEN -> b p = w ->
    mk b (p + off + GCBOX_SIZE * i) = Z.testbit (nth (Z.to_nat (i / 64)) w 0) (i mod 64).
  Proof using OFF. intros Hp Hi Hn <-. change (p + off + GCBOX_SIZE * i) with (cell_addr off p i). rewrite (mk_cell off OFF) by (assumption || lia). reflexivity. Qed.
  Lemma sweep_pages_sw b ps : forall s c, bits_ok b -> Forall page_ok ps ->
    exists p', sweep_pages off b ps s c = untup (sw (mk b) (flat_map (fun p => page_cells p DATA_LEN) ps) (tup s c)) p'.
  Proof using OFF.
    induction ps as [|p ps IH]; intros s c HB HP.
    - exists (sptr s). cbn. destruct s. reflexivity.
    - inversion HP as [|? ? Hp HP']; subst. cbn [sweep_pages flat_map]. destruct (HB p) as [HLn HF].
      rewrite (sweep_words_sw (mk b)); [|exact HF|].
      + cbn [sptr]. rewrite HLn. change (64 * (SIZE - 1)) with DATA_LEN. rewrite sw_app. unfold page_cells at 2. unfold tup at 1. cbn [smem sanchor shead].
        change (smem s, sanchor s, shead s, c) with (tup s c).
        destruct (sw (mk b) (run_of (p + off) DATA_LEN) (tup s c)) as [[[m' an'] h'] c'] eqn:Es. cbn [untup].
        destruct (IH (mkSweep m' an' h' (p + off + GCBOX_SIZE * DATA_LEN)) c' HB HP') as (p' & E). exists p'. rewrite E. reflexivity.
      + cbn [sptr]. intros i Hi. rewrite HLn in Hi. change (64 * (SIZE - 1)) with DATA_LEN in Hi. apply (mk_word b p DATA_LEN); auto; lia.
  Qed.
  Lemma sweep_ok h : bits_ok (bits h) -> Forall page_ok (current h :: pages h) -> 0 <= used h <= DATA_LEN -> NoDup (cells h) ->
    exists h', sweep off h = Ok h' /\ used h' = used h /\ current h' = current h /\ pages h' = pages h /\ free_pages h' = free_pages h /\
      bits h' = bits h /\ mark_cnt h' = mark_cnt h /\ allocated h' = allocated h /\
      (let F := filter (fun a => negb (mk (bits h) a)) (cells h) in
       chain (mem h') (free h') F /\ free_cnt h' = zlen F /\ (forall a, ~ In a F -> mem h' a = mem h a)).
  Proof using OFF.
    intros HB HP HU ND. inversion HP as [|? ? Hc HP']; subst. unfold sweep.
    destruct (sweep_pages_sw (bits h) (pages h) (mkSweep (mem h) None None 0) 0 HB HP') as (p1 & E1). rewrite E1.
    set (fp := flat_map (fun p => page_cells p DATA_LEN) (pages h)) in *. unfold tup in *. cbn [smem sanchor shead] in *.
    destruct (sw (mk (bits h)) fp (mem h, None, None, 0)) as [[[m1 an1] h1] c1] eqn:Es. cbn [untup smem sanchor shead].
    destruct (Z.ltb_spec DATA_LEN (used h)); [lia|]. destruct (HB (current h)) as [HLn HF]. change (SIZE - 1) with 63 in *. change DATA_LEN with 4032 in *.
    assert (Hi : 0 <= used h / 64 <= 63) by lia.
    assert (Lz : zlen (zfirst (used h / 64) (bits h (current h))) = used h / 64) by (rewrite zlen_zfirst by lia; lia).
    rewrite (sweep_words_sw (mk (bits h))).
    2:{ rewrite <- (firstn_skipn (Z.to_nat (used h / 64)) (bits h (current h))) in HF. apply Forall_app in HF. apply HF. }
    2:{ cbn [sptr]. rewrite Lz. intros i Hi'. rewrite (mk_word (bits h) (current h) 4032 _ i Hc) by (reflexivity || (change DATA_LEN with 4032; lia)).
        f_equal. unfold zfirst. rewrite <- (firstn_skipn (Z.to_nat (used h / 64)) (bits h (current h))) at 1. rewrite app_nth1; [reflexivity|].
        rewrite firstn_length. unfold zlen in *. lia. }
    cbn [sptr]. rewrite Lz. unfold tup. cbn [smem sanchor shead].
    destruct (sw (mk (bits h)) (run_of (current h + off) (64 * (used h / 64))) (m1, an1, h1, c1)) as [[[m2 an2] h2] c2] eqn:Es2. cbn [untup].
    (* the partial word *)
    assert (HX : exists r, (if used h / 64 <? 63 then
            w <- v_get (bits h (current h)) (used h / 64) ;;
            let (k, s3) := sweep_bits (used h mod 64) w (mkSweep m2 an2 h2 (current h + off + GCBOX_SIZE * (64 * (used h / 64)))) in Ok (c2 + k, s3)
          else Ok (c2, mkSweep m2 an2 h2 (current h + off + GCBOX_SIZE * (64 * (used h / 64))))) = Ok r /\
          tup (snd r) (fst r) = sw (mk (bits h)) (cells h) (mem h, None, None, 0)).
    { assert (EU : run_of (current h + off) (used h) = run_of (current h + off) (64 * (used h / 64)) ++
                     run_of (current h + off + GCBOX_SIZE * (64 * (used h / 64))) (used h mod 64)).
      { rewrite <- run_of_app by lia. f_equal. lia. }
      unfold cells. change (page_cells (current h) (used h)) with (run_of (current h + off) (used h)). rewrite EU, !sw_app.
      change DATA_LEN with 4032. fold fp. rewrite Es, Es2.
      destruct (Z.ltb_spec (used h / 64) 63).
      - rewrite (v_get_nth _ _ 0) by lia. cbn [rbind].
        set (w := nth (Z.to_nat (used h / 64)) (bits h (current h)) 0).
        assert (Hw : 0 <= w < 2 ^ 64) by (rewrite Forall_forall in HF; apply HF; apply nth_In; unfold zlen in *; lia).
        edestruct (sweep_bits_sw (mk (bits h)) (used h mod 64) w (mkSweep m2 an2 h2 (current h + off + GCBOX_SIZE * (64 * (used h / 64))))) as (p' & E & _); [exact Hw|lia| |].
        { intros j Hj. cbn [sptr]. rewrite <- Z.add_assoc, <- Z.mul_add_distr_l.
          rewrite (mk_word (bits h) (current h) 4032 _ _ Hc) by (reflexivity || (change DATA_LEN with 4032; lia)).
          unfold w. f_equal; [|lia]. f_equal. f_equal. lia. }
        rewrite E. cbn [sptr]. unfold tup. cbn [smem sanchor shead].
        replace (m2, an2, h2, c2) with (m2, an2, h2, c2 + 0) by (f_equal; lia).
        generalize (run_of (current h + off + GCBOX_SIZE * (64 * (used h / 64))) (used h mod 64)) as lr. intros lr.
        rewrite (sw_count (mk (bits h)) lr m2 an2 h2 c2 0).
        destruct (sw (mk (bits h)) lr (m2, an2, h2, 0)) as [[[m3 an3] h3] c3] eqn:Es3. cbn [untup]. eexists. split; [reflexivity|]. reflexivity.
      - replace (used h mod 64) with 0 by lia. eexists. split; [reflexivity|]. reflexivity. }
    destruct HX as (r & E & ET). rewrite E. cbn [rbind].
    pose proof (sw_building (mk (bits h)) (mem h) (cells h) [] (mem h, None, None, 0)) as SB. cbn [app] in SB.
    rewrite <- ET in SB. unfold tup, building in SB. destruct SB as (C & _ & Ec & Hm).
    { split; [reflexivity|]. split; [reflexivity|]. split; [reflexivity|auto]. }
    { exact ND. }
    eexists. split; [reflexivity|]. cbn [used current pages free_pages bits mark_cnt allocated mem free free_cnt]. repeat (split; [reflexivity|]).
    split; [exact C|]. split; [exact Ec|exact Hm].
  Qed.

  (* ---- dealloc_empty_pages ---- *)
  Lemma free_page_mem m p a : free_page off m p a = if existsb (Z.eqb a) (page_cells p DATA_LEN) then cell_free (m a) else m a.
  Proof using.
    unfold free_page, page_cells, run_of, seqZ. set (l := map Z.of_nat _). generalize l. clear l. intros l. revert m.
    induction l as [|i l IH] using rev_ind; intros m; [reflexivity|]. rewrite fold_left_app. cbn [fold_left]. cbv zeta.
    rewrite map_app, existsb_app. cbn [map existsb]. rewrite orb_false_r. unfold upd at 1.
    destruct (Z.eqb_spec a (p + off + GCBOX_SIZE * i)) as [->|].
    - rewrite orb_true_r, IH. destruct (existsb _ _); [destruct (m _); reflexivity|reflexivity].
    - rewrite orb_false_r. apply IH.
  Qed.
  Local Opaque free_page page_cells.
  Definition dead (h : heap) (p : Z) : bool := all_dead (bits h) p.
  Lemma dealloc_loop_ok l1 : forall h l2, pages h = l1 ++ l2 ->
    exists h', dealloc_loop off (length l1) h = Ok h' /\ pages h' = filter (fun p => negb (dead h p)) l1 ++ l2 /\
      free_pages h' = free_pages h ++ rev (filter (dead h) l1) /\
      used h' = used h /\ current h' = current h /\ bits h' = bits h /\ mark_cnt h' = mark_cnt h /\ allocated h' = allocated h /\
      free h' = free h /\ free_cnt h' = free_cnt h /\ alloc_flag h' = alloc_flag h /\
      (forall a, (forall p, In p l1 -> dead h p = true -> ~ In a (page_cells p DATA_LEN)) -> mem h' a = mem h a).
  Proof using.
    induction l1 as [|p l1 IH] using rev_ind; intros h l2 E.
    - cbn [length dealloc_loop]. exists h. rewrite app_nil_r. repeat (split; [first [reflexivity|exact E]|]). auto.
    - rewrite app_length. cbn [length]. rewrite Nat.add_1_r. cbn [dealloc_loop]. rewrite <- app_assoc in E. cbn [app] in E.
      assert (G : v_get (pages h) (Z.of_nat (length l1)) = Ok p).
      { rewrite (v_get_nth _ _ 0).
        - rewrite E, Nat2Z.id, app_nth2 by lia. rewrite Nat.sub_diag. reflexivity.
        - rewrite E, zlen_app, zlen_cons. pose proof (zlen_nonneg l2). unfold zlen. lia. }
      rewrite G. cbn [rbind]. change (all_dead (bits h) p) with (dead h p). rewrite !filter_app. cbn [filter]. destruct (dead h p) eqn:Ed; cbn [negb].
      + edestruct (IH (mkHeap (used h) (allocated h) (free_cnt h) (current h)
            (zfirst (Z.of_nat (length l1)) (pages h) ++ zskip (Z.of_nat (length l1) + 1) (pages h)) (mark_cnt h) (free h) (free_pages h ++ [p])
            (alloc_flag h) (free_page off (mem h) p) (bits h)) l2) as (h' & E' & Hp & Hf & H1 & H2 & H3 & H4 & H5 & H6 & H7 & H8 & Hm).
        { cbn [pages]. rewrite E. unfold zfirst, zskip. rewrite Nat2Z.id. replace (Z.to_nat (Z.of_nat (length l1) + 1)) with (S (length l1)) by lia.
          rewrite firstn_app, firstn_all, Nat.sub_diag. cbn [firstn]. rewrite app_nil_r. f_equal.
          rewrite skipn_app, skipn_all2 by lia. replace (S (length l1) - length l1)%nat with 1%nat by lia. reflexivity. }
        exists h'. cbn [used current bits mark_cnt allocated free free_cnt alloc_flag free_pages mem] in *. unfold dead in *. cbn [bits] in *.
        split; [exact E'|]. rewrite app_nil_r. split; [exact Hp|]. split; [rewrite Hf, rev_app_distr, <- app_assoc; reflexivity|].
        repeat (split; [assumption|]). intros a Ha. rewrite Hm.
        * rewrite free_page_mem. destruct (existsb (Z.eqb a) (page_cells p DATA_LEN)) eqn:Ee; [|reflexivity]. exfalso.
          apply existsb_exists in Ee. destruct Ee as (x & Hx & Ex). apply Z.eqb_eq in Ex. subst x.
          apply (Ha p); [apply in_or_app; right; left; reflexivity|exact Ed|exact Hx].
        * intros q Hq Hd. apply Ha; [apply in_or_app; left; exact Hq|exact Hd].
      + destruct (IH h (p :: l2) E) as (h' & E' & Hp & Hf & H1 & H2 & H3 & H4 & H5 & H6 & H7 & H8 & Hm).
        exists h'. split; [exact E'|]. rewrite <- app_assoc, app_nil_r. split; [exact Hp|]. split; [exact Hf|]. repeat (split; [assumption|]).
        intros a Ha. apply Hm. intros q Hq. apply Ha. apply in_or_app. left. exact Hq.
  Qed.
End Sweep.
