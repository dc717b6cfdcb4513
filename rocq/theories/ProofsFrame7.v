(* Frames: moving environments to the heap. *)
From Verif Require Import Base ModelValue ModelArray ModelFrame SpecFrame ProofsFrame ProofsFrame2 ProofsFrame3 ProofsFrame4 ProofsFrame5 ProofsFrame6.

Lemma memok_weaken m l fs A L K (P P' : nat -> Prop) B : (forall a, P a -> P' a) -> memok m l fs A L K P B -> memok m l fs A L K P' B.
Proof. intros H [M1 M2 M3]. constructor; auto. Qed.
Lemma env_words_nth m a x i : m (a + EV_FLAG) = flag_of x -> (i < Z.to_nat (nv x + 10))%nat ->
  nth_error (env_words m a) i = Some (m (a - nv x - 2 + Z.of_nat i)).
Proof.
  intros F H. unfold env_words. rewrite (flag_len_of _ _ _ F). unfold CONT_FRAME_LEN, RUBY_FRAME_LEN.
  rewrite read_nth by lia. f_equal.
Qed.
Lemma env_words_len m a x : m (a + EV_FLAG) = flag_of x -> length (env_words m a) = Z.to_nat (nv x + 10).
Proof.
  intros F. unfold env_words. rewrite (flag_len_of _ _ _ F), read_length. unfold CONT_FRAME_LEN, RUBY_FRAME_LEN. f_equal. lia.
Qed.

Section Dup.
Variables (s : vm) (l : list act) (fs : list frame) (A L : nat -> Z) (K P : nat -> Prop) (hp0 : Z).
Let B := stack_bottom s.
Hypothesis ST : static l fs A L K B hp0 (hp s) (sp s).
Hypothesis MO : memok (mem s) l fs A L K P B.
Variables (k : nat) (f : frame) (a : nat) (x : act).
Hypothesis Hf : nth_error fs k = Some f.
Hypothesis Ha : f_act f = a.
Hypothesis Hx : nth_error l a = Some x.
Hypothesis Rx : a_ruby x = true.
Hypothesis NK : ~ K a.
Hypothesis Hpar : forall p, a_parent x = Some p -> K p /\ ~ P p.
Hypothesis Hcl : forall b, present fs K b -> ~ P b -> b <> a -> ~ within l b a.
Hypothesis Hh : hp s + nv x + 10 < 2 ^ 60.
Let e := hp s + nv x + 2.
Let L' := ext_at L a e.
Let K' := fun b => K b \/ b = a.
Let P' := fun b => P b /\ b <> a.

Lemma dup_static : static l fs A L' K' B hp0 (hp s + nv x + 10) (sp s).
Proof.
  assert (0 <= nv x) by (unfold nv; lia).
  assert (LO : forall b, b <> a -> L' b = L b) by (intros b N; apply ext_other; exact N).
  assert (NKa : forall b, K b -> b <> a) by (intros b Kb ->; contradiction).
  destruct ST. constructor; auto; unfold K'.
  - lia.
  - intros j g y p Hg Hy Hp. destruct (st_par _ _ _ _ Hg Hy Hp) as [C|C]; auto.
  - intros b y p [Kb| ->] Hy Hp; [left; eauto|]. assert (y = x) by congruence. subst y. left. apply Hpar. exact Hp.
  - intros b [Kb| ->]; [auto|]. exists x. auto.
  - intros b. destruct (st_Kdec b); [auto|]. destruct (Nat.eq_dec b a); [auto|]. right. tauto.
  - intros b Lb N. rewrite LO by tauto. apply st_loc; tauto.
  - intros b y [Kb| ->] Hy.
    + rewrite LO by auto. destruct (st_heap _ _ Kb Hy). lia.
    + assert (y = x) by congruence. subst y. unfold L'. rewrite ext_same. unfold e. lia.
  - intros b c y z [Kb| ->] [Kc| ->] N Hy Hz; [| | |congruence].
    + rewrite !LO by auto. eauto.
    + assert (z = x) by congruence. subst z. rewrite LO by auto. unfold L'. rewrite ext_same.
      destruct (st_heap _ _ Kb Hy). unfold e. lia.
    + assert (y = x) by congruence. subst y. rewrite (LO c) by auto. unfold L'. rewrite ext_same.
      destruct (st_heap _ _ Kc Hz). unfold e. lia.
Qed.

Lemma dup_ok : exists s', dup_frame (A a) (option_map L (a_parent x)) s = Ok (e, s') /\
  stack_bottom s' = B /\ sp s' = sp s /\ cfp s' = cfp s /\ lfp s' = lfp s /\ iseq s' = iseq s /\ pc s' = pc s /\
  hp s' = hp s + nv x + 10 /\ memok (mem s') l fs A L' K' P' B.
Proof.
  assert (NV : 0 <= nv x) by (unfold nv; lia).
  assert (Pa : present fs K a) by (left; exists k, f; auto).
  pose proof (st_bot _ _ _ _ _ _ _ _ _ ST) as SB. pose proof (st_fit _ _ _ _ _ _ _ _ _ ST) as SF.
  assert (EL : L a = A a) by (eapply st_loc; eauto; exists k, f; auto).
  assert (Hxf : nth_error l (f_act f) = Some x) by (rewrite Ha; exact Hx).
  pose proof (mo_fr _ _ _ _ _ _ _ _ MO _ _ _ Hf Hxf) as FR. rewrite ?Ha in FR.
  destruct (lay_bounds _ _ _ _ _ k f (st_lay _ _ _ _ _ _ _ _ _ ST) Hf) as (z & Hz & LB1 & LB2).
  assert (z = x) by congruence. subst z. rewrite ?Ha in LB1, LB2. assert (HD : hd_len x = 8) by (unfold hd_len; rewrite Rx; reflexivity).
  assert (NO : 0 <= nops f) by (unfold nops; lia).
  pose proof (fr_flag _ _ _ _ _ _ _ FR) as FL. rewrite Ha in FL.
  unfold dup_frame. rewrite (is_ruby_of _ _ _ FL), Rx. rewrite (flag_len_of _ _ _ FL). fold e.
  set (ws := env_words (mem s) (A a)).
  assert (LW : length ws = Z.to_nat (nv x + 10)) by (apply env_words_len; exact FL).
  set (m1 := upd (upd (write (mem s) (hp s) ws) (e + EV_EP) (enc e)) (A a + EV_EP) (enc e)).
  (* the method environment *)
  assert (MF : exists mf, (match option_map L (a_parent x) with None => Ok e | Some o => mfp m1 o end) = Ok mf /\
                 forall rt, method_of l a rt -> mf = L' rt).
  { destruct (a_parent x) as [p|] eqn:EP; cbn [option_map].
    - destruct (Hpar _ eq_refl) as (Kp & NPp).
      destruct (st_Kcode _ _ _ _ _ _ _ _ _ ST _ Kp) as (y & Hy & Ry).
      assert (Pp : present fs K p) by (right; exact Kp).
      destruct (root_exists ST _ Pp) as (rt & Mrt).
      exists (L rt). split.
      + rewrite <- (mfp_env ST MO p y rt Pp NPp Hy Ry Mrt). unfold mfp, is_ruby.
        destruct (st_heap _ _ _ _ _ _ _ _ _ ST _ _ Kp Hy) as (Y1 & Y2). assert (0 <= nv y) by (unfold nv; lia).
        assert (Q : forall j, 2 <= j < 8 -> m1 (L p + j) = mem s (L p + j)).
        { intros j Hj. unfold m1, EV_EP. rewrite !upd_other by (unfold e; lia). apply write_out. lia. }
        unfold EV_FLAG, EV_MFP. rewrite !Q by lia. reflexivity.
      + intros rt' M. assert (rt' = rt).
        { destruct M as [W (q & Hq & N)]. apply within_inv in W as [<-|(x' & p' & Hx' & Hp' & W)].
          - assert (q = x) by congruence. subst q. congruence.
          - assert (x' = x) by congruence. subst x'. assert (p' = p) by congruence. subst p'.
            eapply root_unique; [|exact Mrt]. split; [exact W|eauto]. }
        subst rt'. symmetry. apply ext_other. intros ->.
        destruct Mrt as [W _]. apply NK. 
        assert (KW : forall u v, within l u v -> K u -> K v).
        { intros u v' (d & U). revert u U. induction d as [|d IH]; intros u U Ku; cbn in U; [congruence|].
          destruct (nth_error l u) as [y'|] eqn:E1; [|discriminate]. destruct (a_parent y') as [q'|] eqn:E2; [|discriminate].
          apply (IH _ U). eapply st_Kpar; eauto. }
        eapply KW; eauto.
    - exists e. split; [reflexivity|]. intros rt [W (q & Hq & N)]. apply within_inv in W as [<-|(x' & p' & Hx' & Hp' & W)].
      + unfold L'. rewrite ext_same. reflexivity.
      + assert (x' = x) by congruence. subst x'. congruence. }
  destruct MF as (mf & EMF & HMF). rewrite EMF. cbn [rbind].
  set (m2 := upd (upd m1 (e + EV_MFP) (enc mf)) (A a + EV_MFP) (enc mf)).
  set (m3 := upd (upd m2 (e + EV_OUTER) _) (A a + EV_OUTER) _).
  eexists. split; [reflexivity|]. cbn [stack_bottom sp cfp lfp iseq pc hp mem set_hp set_mem].
  do 6 (split; [reflexivity|]). split; [unfold zlen; rewrite LW; lia|].
  (* the memory afterwards *)
  assert (Q0 : forall p, B - 1 <= p < B + 8192 \/ hp0 <= p < hp s ->
                 p <> A a + 1 -> p <> A a + 3 -> p <> A a + 4 -> m3 p = mem s p).
  { intros p Hp N1 N3 N4. unfold m3, m2, m1, EV_EP, EV_MFP, EV_OUTER. rewrite !upd_other by (unfold e; lia).
    apply write_out. lia. }
  assert (Q1 : forall j, - nv x - 2 <= j < 8 -> j <> 1 -> j <> 3 -> j <> 4 -> m3 (e + j) = mem s (A a + j)).
  { intros j Hj N1 N3 N4. unfold m3, m2, m1, EV_EP, EV_MFP, EV_OUTER. rewrite !upd_other by (unfold e; lia).
    replace (e + j) with (hp s + Z.of_nat (Z.to_nat (nv x + 2 + j))) by (unfold e; lia).
    apply write_in. unfold ws. rewrite (env_words_nth _ _ x) by (auto; lia). do 2 f_equal. lia. }
  assert (QE : m3 (e + 1) = enc e).
  { unfold m3, m2, m1, EV_EP, EV_MFP, EV_OUTER. rewrite !(upd_other _ _ _ (e + 1)) by (unfold e; lia). apply upd_same. }
  assert (QM : m3 (e + 3) = enc mf).
  { unfold m3, m2, EV_MFP, EV_OUTER. rewrite !(upd_other _ _ _ (e + 3)) by (unfold e; lia). apply upd_same. }
  assert (QO : m3 (e + 4) = enc_opt (option_map L (a_parent x))).
  { unfold m3, EV_OUTER. rewrite !(upd_other _ _ _ (e + 4)) by (unfold e; lia). apply upd_same. }
  assert (QC : m3 (A a + 1) = enc e).
  { unfold m3, m2, m1, EV_EP, EV_MFP, EV_OUTER. rewrite !(upd_other _ _ _ (A a + 1)) by (unfold e; lia). apply upd_same. }
  assert (LO : forall b, b <> a -> L' b = L b) by (intros b N; apply ext_other; exact N).
  assert (LA : L' a = e) by (unfold L'; apply ext_same).
  assert (PR : forall b, present fs K' b -> present fs K b).
  { intros b [Pb|[Pb| ->]]; [left|right|]; auto. }
  clearbody m3. clear m2 m1 EMF.
  (* other environments stay *)
  assert (QB : forall b y p, present fs K b -> b <> a -> nth_error l b = Some y ->
             L b - nv y - 2 <= p < L b + hd_len y -> m3 p = mem s p).
  { intros b y p Pb N Hy Hp. assert (0 <= nv y) by (unfold nv; lia). 
    assert (hd_len y <= 8) by (unfold hd_len; destruct (a_ruby y); lia).
    pose proof (env_apart _ _ _ _ _ _ _ _ _ a b x y ST Pa Pb ltac:(auto) Hx Hy) as AP. rewrite EL, HD in AP.
    apply Q0; try lia.
    destruct (env_place ST _ _ Pb Hy) as [(Kb & X1 & X2)|(Kb & X0 & X1 & X2)]; lia. }
  constructor.
  - intros j g y Hg Hy. destruct (Nat.eq_dec (f_act g) a) as [E|N].
    + assert (j = k) by (eapply live_inj; eauto; congruence). subst j. assert (g = f) by congruence. subst g.
      assert (y = x) by congruence. subst y. destruct FR as [G1 G2 G3 G4 G5 G6].
      unfold EV_PREV_CFP, EV_EP, EV_FLAG, EV_PC in *. rewrite Ha in *.
      constructor; unfold EV_PREV_CFP, EV_EP, EV_FLAG, EV_PC; rewrite ?Ha.
      * rewrite Q0 by lia. exact G1.
      * rewrite LA. exact QC.
      * rewrite Q0 by lia. exact G3.
      * intros R N0. rewrite Q0 by lia. auto.
      * intros i w Hi. assert (i < length (f_ops f))%nat by (eapply nth_some_lt; eauto).
        rewrite Q0; [auto| | | |]; unfold nops in *; lia.
      * rewrite Q0 by lia. exact G6.
    + pose proof (mo_fr _ _ _ _ _ _ _ _ MO _ _ _ Hg Hy) as G.
      apply (fr_ext (mem s)).
      * intros p Hp. destruct (lay_bounds _ _ _ _ _ j g (st_lay _ _ _ _ _ _ _ _ _ ST) Hg) as (z & Hz' & LB3 & LB4).
        assert (z = y) by congruence. subst z. assert (0 <= nv y) by (unfold nv; lia).
        assert (AP : forall q, A a <= q < A a + 8 -> q < A (f_act g) - 1 \/ A (f_act g) + hd_len y + nops g <= q).
        { intros q Hq. apply (env_frame_apart _ _ _ _ _ _ _ _ _ a j g x y ST Pa Hg Hx Hy); [rewrite EL, HD; lia|auto]. }
        pose proof (AP (A a + 1) ltac:(lia)). pose proof (AP (A a + 3) ltac:(lia)). pose proof (AP (A a + 4) ltac:(lia)).
        apply Q0; lia.
      * destruct G as [G1 G2 G3 G4 G5 G6]. constructor; auto. rewrite LO by exact N. exact G2.
  - intros b y Pb Hy. apply PR in Pb. destruct (Nat.eq_dec b a) as [->|N].
    + assert (y = x) by congruence. subst y.
      pose proof (mo_env _ _ _ _ _ _ _ _ MO _ _ Pa Hx) as [G1 G2 G3 G4 G5 G6 G7]. rewrite EL in *.
      unfold EV_EP, EV_FLAG, EV_ISEQ, EV_BLK in *.
      constructor; unfold EV_EP, EV_FLAG, EV_ISEQ, EV_BLK; rewrite ?LA.
      * exact QE.
      * rewrite Q1 by lia. exact G2.
      * replace (e - 1) with (e + -1) by lia. rewrite Q1 by lia. exact G3.
      * intros N0. replace (e - nv x - 2) with (e + (- nv x - 2)) by lia. rewrite Q1 by lia.
        rewrite <- (G4 N0). f_equal. lia.
      * intros i w Hi. assert (i < length (a_vars x))%nat by (eapply nth_some_lt; eauto).
        replace (e - nv x - 1 + Z.of_nat i) with (e + (- nv x - 1 + Z.of_nat i)) by lia.
        rewrite Q1 by (unfold nv in *; lia). rewrite <- (G5 _ _ Hi). f_equal. lia.
      * intros R. rewrite Q1 by lia. auto.
      * intros R. rewrite Q1 by lia. auto.
    + apply (env_ext (mem s)).
      * intros p Hp _. rewrite LO in Hp by exact N. eapply QB; eauto.
      * pose proof (mo_env _ _ _ _ _ _ _ _ MO _ _ Pb Hy) as [G1 G2 G3 G4 G5 G6 G7]. constructor; rewrite ?LO by exact N; auto.
  - intros b y Pb NP Hy R. apply PR in Pb. destruct (Nat.eq_dec b a) as [->|N].
    + assert (y = x) by congruence. subst y. constructor; unfold EV_OUTER, EV_MFP; rewrite LA.
      * rewrite QO. destruct (a_parent x) as [p|] eqn:EP; [|reflexivity]. cbn. rewrite LO; [reflexivity|].
        intros ->. destruct (Hpar _ eq_refl). contradiction.
      * intros rt M. rewrite QM, (HMF _ M). reflexivity.
    + assert (NPb : ~ P b) by (intros C; apply NP; split; auto).
      pose proof (mo_link _ _ _ _ _ _ _ _ MO _ _ Pb NPb Hy R) as [G1 G2].
      assert (0 <= nv y) by (unfold nv; lia).
      assert (HDy : hd_len y = 8) by (unfold hd_len; rewrite R; reflexivity).
      constructor; unfold EV_OUTER, EV_MFP in *; rewrite LO by exact N.
      * rewrite (QB b y) by (auto; lia). rewrite G1. destruct (a_parent y) as [p|] eqn:EP; [|reflexivity]. cbn. rewrite LO; [reflexivity|].
        intros ->. apply (Hcl b Pb NPb N). eapply within_step; eauto. apply within_refl.
      * intros rt M. rewrite (QB b y) by (auto; lia). rewrite (G2 _ M), LO; [reflexivity|].
        intros ->. apply (Hcl b Pb NPb N). apply M.
Qed.
End Dup.
