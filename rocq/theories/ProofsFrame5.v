(* Frames: entering a frame. *)
From Verif Require Import Base ModelValue ModelArray ModelFrame SpecFrame ProofsFrame ProofsFrame2 ProofsFrame3 ProofsFrame4.

Definition ext_at (g : nat -> Z) (id : nat) (c : Z) : nat -> Z := fun a => if Nat.eqb a id then c else g a.
Lemma ext_same g id c : ext_at g id c id = c.
Proof. unfold ext_at. rewrite Nat.eqb_refl. reflexivity. Qed.
Lemma ext_other g id c a : a <> id -> ext_at g id c a = g a.
Proof. intros H. unfold ext_at. destruct (Nat.eqb_spec a id); [contradiction|reflexivity]. Qed.

Lemma nth_app_old (l : list act) x a y : nth_error (l ++ [x]) a = Some y -> (a < length l)%nat -> nth_error l a = Some y.
Proof. intros H N. rewrite nth_error_app1 in H by exact N. exact H. Qed.
Lemma nth_app_new (l : list act) x : nth_error (l ++ [x]) (length l) = Some x.
Proof. rewrite nth_error_app2 by lia. rewrite Nat.sub_diag. reflexivity. Qed.
Lemma nth_app_inv (l : list act) x a y : nth_error (l ++ [x]) a = Some y -> ((a < length l)%nat /\ nth_error l a = Some y) \/ (a = length l /\ y = x).
Proof.
  intros H. assert (a < length (l ++ [x]))%nat by (apply nth_error_Some; congruence). rewrite app_length in H0. cbn in H0.
  destruct (Nat.eq_dec a (length l)) as [->|N].
  - right. rewrite nth_app_new in H. split; congruence.
  - left. split; [lia|]. eapply nth_app_old; [exact H|lia].
Qed.
Lemma nth_app_some (l : list act) x a y : nth_error l a = Some y -> nth_error (l ++ [x]) a = Some y.
Proof. intros H. rewrite nth_error_app1; [exact H|]. apply nth_error_Some. congruence. Qed.
Lemma nth_some_lt {T} (l : list T) a y : nth_error l a = Some y -> (a < length l)%nat.
Proof. intros H. apply nth_error_Some. congruence. Qed.

Section Up.
Variables (l : list act) (x : act).
Hypothesis PL : forall a y p, nth_error l a = Some y -> a_parent y = Some p -> (p < a)%nat.
Lemma up_app d : forall a, (a < length l)%nat -> up (l ++ [x]) d a = up l d a.
Proof.
  induction d as [|d IH]; intros a H; [reflexivity|]. cbn [up]. rewrite nth_error_app1 by exact H.
  destruct (nth_error l a) as [y|] eqn:E; [|reflexivity]. destruct (a_parent y) as [p|] eqn:E2; [|reflexivity].
  apply IH. specialize (PL _ _ _ E E2). lia.
Qed.
Lemma up_lt d : forall a b, (a < length l)%nat -> up l d a = Some b -> (b < length l)%nat.
Proof.
  induction d as [|d IH]; intros a b H; cbn [up]; [congruence|].
  destruct (nth_error l a) as [y|] eqn:E; [|discriminate]. destruct (a_parent y) as [p|] eqn:E2; [|discriminate].
  apply IH. specialize (PL _ _ _ E E2). lia.
Qed.
Lemma within_app a b : (a < length l)%nat -> within (l ++ [x]) a b <-> within l a b.
Proof. intros H. unfold within. split; intros (d & U); exists d; rewrite up_app in *; auto. Qed.
Lemma method_app a b : (a < length l)%nat -> method_of (l ++ [x]) a b <-> method_of l a b.
Proof.
  intros H. unfold method_of. split; intros [W (y & Hy & N)].
  - apply within_app in W; [|exact H]. split; [exact W|]. exists y. split; [|exact N]. destruct W as (d & U).
    eapply nth_app_old; [exact Hy|]. eapply up_lt; eauto.
  - split; [apply within_app; auto|]. exists y. split; [apply nth_app_some; exact Hy|exact N].
Qed.
End Up.

Section Enter.
Variables (s s' : vm) (l : list act) (f : frame) (fs : list frame) (A L : nat -> Z) (K : nat -> Prop) (hp0 : Z).
Variables (xf x : act) (pre r : list Z).
Hypothesis OK : vmok s l (f :: fs) A L K hp0.
Hypothesis Hxf : nth_error l (f_act f) = Some xf.
Hypothesis Hops : f_ops f = pre ++ r.
Let B := stack_bottom s.
Let id := length l.
Let base := A (f_act f) + hd_len xf + Z.of_nat (length r).
Let c := base + nv x + 2.
Let f' := top_ops f r.
Let fs' := mkframe id [] 0 :: f' :: fs.
Hypothesis Hfit : c + hd_len x <= B + 8192.
Hypothesis Hcode : a_ruby x = true -> code_ok (a_iseq x).
Hypothesis Hpar : forall p, a_parent x = Some p -> is_code l p /\ a_ruby x = true /\ (K p \/ livef (f :: fs) p).
Hypothesis Hblk : forall t b, a_blk x = Some (t, b) -> 0 < t < 2 ^ 30 /\ is_code l b.
Let ST : static l (f :: fs) A L K B hp0 (hp s) (sp s) := vo_static _ _ _ _ _ _ _ OK.
Let MO : memok (mem s) l (f :: fs) A L K (fun _ => False) B := vo_mem _ _ _ _ _ _ _ OK.

Lemma PL : forall a y p, nth_error l a = Some y -> a_parent y = Some p -> (p < a)%nat.
Proof. intros a y p H1 H2. apply (st_parent _ _ _ _ _ _ _ _ _ ST _ _ _ H1 H2). Qed.
Lemma facts : 0 <= nv x /\ 0 <= nv xf /\ 3 <= hd_len x /\ 3 <= hd_len xf /\ B - 1 <= A (f_act f) - nv xf - 2 /\
  sp s = A (f_act f) + hd_len xf + nops f /\ nops f = Z.of_nat (length pre) + Z.of_nat (length r).
Proof.
  destruct (lay_bounds _ _ _ _ _ O f (st_lay _ _ _ _ _ _ _ _ _ ST) eq_refl) as (z & Hz & H1 & H2).
  assert (z = xf) by congruence. subst z.
  pose proof (st_lay _ _ _ _ _ _ _ _ _ ST) as (z & Hz' & H3 & _). assert (z = xf) by congruence. subst z.
  unfold nops in *. rewrite Hops, app_length in *. unfold nv, hd_len in *. destruct (a_ruby x), (a_ruby xf); lia.
Qed.
Lemma id_notlive a : livef (f :: fs) a -> (a < length l)%nat.
Proof. intros (k & g & H & <-). eapply (live_lt ST); eauto. Qed.
Lemma K_lt a : K a -> (a < length l)%nat.
Proof. intros H. destruct (st_Kcode _ _ _ _ _ _ _ _ _ ST _ H) as (y & Hy & _). eapply nth_some_lt; eauto. Qed.
Lemma code_app a : is_code l a -> is_code (l ++ [x]) a.
Proof. intros (y & Hy & R). exists y. split; [apply nth_app_some; exact Hy|exact R]. Qed.
Lemma livef_new a : livef fs' a -> a = id \/ livef (f :: fs) a.
Proof.
  intros (k & g & H & <-). destruct k as [|[|k]]; cbn in H.
  - left. injection H as <-. reflexivity.
  - right. injection H as <-. exists O, f. auto.
  - right. exists (S k), g. auto.
Qed.
Lemma livef_old a : livef (f :: fs) a -> livef fs' a.
Proof.
  intros (k & g & H & <-). destruct k as [|k]; cbn in H.
  - injection H as <-. exists 1%nat, f'. auto.
  - exists (S (S k)), g. auto.
Qed.
Lemma lay_app gs : forall tp, lay l A B gs tp -> lay (l ++ [x]) (ext_at A id c) B gs tp.
Proof.
  induction gs as [|g gs IH]; intros tp H; cbn in *; [exact H|]. destruct H as (y & Hy & Ht & H).
  exists y. rewrite ext_other by (apply nth_some_lt in Hy; unfold id; lia). split; [apply nth_app_some; exact Hy|]. auto.
Qed.

Lemma static_new : static (l ++ [x]) fs' (ext_at A id c) (ext_at L id c) K B hp0 (hp s) (c + hd_len x).
Proof.
  pose proof facts as (F1 & F2 & F3 & F4 & F5 & F6 & F7).
  pose proof (nth_some_lt _ _ _ Hxf) as Lf.
  assert (NK : forall a, K a -> a <> id) by (intros a H; apply K_lt in H; unfold id; lia).
  assert (NL : forall a, livef (f :: fs) a -> a <> id) by (intros a H; apply id_notlive in H; unfold id; lia).
  destruct ST eqn:EST. constructor; auto.
  - destruct st_lay as (y & Hy & Ht & Hl). assert (y = xf) by congruence. subst y.
    exists x. cbn [f_act]. split; [apply nth_app_new|]. rewrite ext_same. split; [unfold nops; cbn; lia|].
    exists xf. cbn [f_act f' top_ops]. split; [apply nth_app_some; exact Hxf|].
    rewrite ext_other by (unfold id; lia). split; [unfold nops, c, base; cbn; lia|]. apply lay_app. exact Hl.
  - change (NoDup (id :: map f_act (f' :: fs))). constructor; [|exact st_nodup]. intros C. apply in_map_iff in C as (g & Eg & Hg).
    apply In_nth_error in Hg as (k & Hk). assert (id < length l)%nat; [|unfold id in *; lia].
    apply id_notlive. destruct k as [|k]; cbn in Hk.
    + injection Hk as <-. exists O, f. auto.
    + exists (S k), g. auto.
  - intros k g y p Hg Hy Hp. destruct k as [|k].
    + cbn in Hg. injection Hg as <-. cbn [f_act] in Hy. rewrite nth_app_new in Hy. injection Hy as <-.
      destruct (Hpar _ Hp) as (_ & _ & [C|C]); [left; exact C|]. right. destruct C as (j & g & Hj & Ej).
      destruct j as [|j]; cbn in Hj.
      * injection Hj as <-. exists 1%nat, f'. repeat split; auto.
      * exists (S (S j)), g. repeat split; auto. lia.
    + assert (G : exists g', nth_error (f :: fs) k = Some g' /\ f_act g' = f_act g).
      { destruct k; cbn in *; [injection Hg as <-; exists f; auto|exists g; auto]. }
      destruct G as (g' & Hg' & Eg). rewrite <- Eg in Hy.
      apply nth_app_old in Hy; [|eapply (live_lt ST); eauto].
      destruct (st_par _ _ _ _ Hg' Hy Hp) as [C|(j & q & J & Hq & Eq)]; [left; exact C|]. right.
      destruct j as [|j]; [lia|]. exists (S (S j)), q. repeat split; auto. lia.
  - intros a y p HK Hy Hp. apply nth_app_old in Hy; [|apply K_lt; exact HK]. eauto.
  - intros a HK. apply code_app. auto.
  - intros a y Hy. apply nth_app_inv in Hy as [(_ & Hy)|(_ & ->)]; [eauto|]. unfold c, base in Hfit. lia.
  - intros a y Hy. apply nth_app_inv in Hy as [(_ & Hy)|(_ & ->)]; eauto.
  - intros a y p Hy Hp. apply nth_app_inv in Hy as [(Ha & Hy)|(-> & ->)].
    + destruct (st_parent _ _ _ Hy Hp) as (P1 & P2 & P3). split; [exact P1|]. split; [apply code_app; exact P2|exact P3].
    + destruct (Hpar _ Hp) as (C & R & _). split; [|split; [apply code_app; exact C|exact R]].
      destruct C as (z & Hz & _). apply nth_some_lt in Hz. exact Hz.
  - intros a y t b Hy Hb. apply nth_app_inv in Hy as [(Ha & Hy)|(-> & ->)].
    + destruct (st_blk _ _ _ _ Hy Hb) as (P1 & P2). split; [exact P1|apply code_app; exact P2].
    + destruct (Hblk _ _ Hb) as (P1 & P2). split; [exact P1|apply code_app; exact P2].
  - intros a Ha. rewrite app_length in Ha. cbn in Ha. destruct (Nat.eq_dec a id) as [->|N].
    + rewrite ext_same. unfold c, base in *. lia.
    + rewrite ext_other by exact N. apply st_A. unfold id in N. lia.
  - intros a La NKa. apply livef_new in La as [->|La]; [rewrite !ext_same; reflexivity|].
    rewrite !ext_other by auto. auto.
  - intros a y HK Hy. rewrite ext_other by auto. apply nth_app_old in Hy; [|apply K_lt; exact HK]. eauto.
  - intros a b y z HKa HKb N Hy Hz. rewrite !ext_other by auto.
    apply nth_app_old in Hy; [|apply K_lt; exact HKa]. apply nth_app_old in Hz; [|apply K_lt; exact HKb]. eauto.
  - intros k g Hg. destruct k as [|[|k]]; cbn in Hg.
    + injection Hg as <-. cbn. lia.
    + injection Hg as <-. cbn. apply (st_pc O f eq_refl).
    + apply (st_pc (S k)). exact Hg.
  - destruct st_last as (f0 & H0 & E0). cbn [length fs'] in *. replace (S (S (length fs)) - 1)%nat with (S (length fs)) by lia.
    replace (S (length fs) - 1)%nat with (length fs) in H0 by lia. destruct fs as [|g gs]; cbn in *.
    + injection H0 as <-. exists f'. auto.
    + exists f0. auto.
  - destruct st_zero as (x0 & H0 & E0). exists x0. split; [apply nth_app_some; exact H0|exact E0].
Qed.

Hypothesis Eb : stack_bottom s' = B.
Hypothesis Eh : hp s' = hp s.
Hypothesis Es : sp s' = c + hd_len x.
Hypothesis Ec : cfp s' = c.
Hypothesis El : lfp s' = base + 1.
Hypothesis Ei : a_ruby x = true -> iseq s' = a_iseq x /\ pc s' = 0.
Hypothesis Hm : forall p, B - 1 <= p < base \/ hp0 <= p < hp s ->
  (a_ruby xf = true -> p <> A (f_act f) + 5) -> mem s' p = mem s p.
Hypothesis Hpc : a_ruby xf = true -> mem s' (A (f_act f) + EV_PC) = fixword (f_pc f).
Hypothesis W0 : mem s' base = a_self x.
Hypothesis W1 : forall i w, nth_error (a_vars x) i = Some w -> mem s' (base + 1 + Z.of_nat i) = w.
Hypothesis W2 : mem s' (c - 1) = a_self x.
Hypothesis W3 : mem s' (c + EV_PREV_CFP) = enc (A (f_act f)).
Hypothesis W4 : mem s' (c + EV_EP) = enc c.
Hypothesis W5 : mem s' (c + EV_FLAG) = flag_of x.
Hypothesis W6 : a_ruby x = true -> mem s' (c + EV_ISEQ) = iseq_word (a_iseq x).
Hypothesis W7 : a_ruby x = true ->
  mem s' (c + EV_BLK) = blk_word (match a_blk x with Some (t, b) => Some (KBlock t (A b - B)) | None => None end).
Hypothesis W8 : a_ruby x = true -> mem s' (c + EV_OUTER) = enc_opt (option_map L (a_parent x)).
Hypothesis W9 : a_ruby x = true -> a_parent x = None -> mem s' (c + EV_MFP) = enc c.
Hypothesis W10 : forall p rt, a_parent x = Some p -> method_of l p rt -> mem s' (c + EV_MFP) = enc (L rt).

Lemma old_env a y : present (f :: fs) K a -> nth_error l a = Some y ->
  forall p, L a - nv y - 2 <= p < L a + hd_len y -> p <> L a + 5 -> mem s' p = mem s p.
Proof.
  pose proof facts as (F1 & F2 & F3 & F4 & F5 & F6 & F7).
  intros Pa Hy p Hp Np. assert (0 <= nv y) by (unfold nv; lia).
  assert (hd_len y <= 8) by (unfold hd_len; destruct (a_ruby y); lia).
  pose proof (st_bot _ _ _ _ _ _ _ _ _ ST) as (G1 & G2 & G3 & G4).
  pose proof (st_fit _ _ _ _ _ _ _ _ _ ST) as G5.
  destruct (env_place ST _ _ Pa Hy) as [(HK & X1 & X2)|(HK & X0 & X1 & X2)].
  - apply Hm; [right; lia|]. intros R. unfold nops, hd_len in *. rewrite R in *. lia.
  - rewrite X0 in *. destruct Pa as [(k & g & Hg & <-)|Pa]; [|contradiction].
    destruct k as [|k]; cbn [nth_error] in Hg.
    + injection Hg as <-. assert (y = xf) by congruence. subst y. apply Hm; [left; unfold base; lia|]. intros _. lia.
    + destruct (lay_order _ _ _ _ _ O (S k) f g xf (st_lay _ _ _ _ _ _ _ _ _ ST) ltac:(lia) eq_refl Hg Hxf) as (z & Hz & Hb).
      assert (z = y) by congruence. subst z. unfold nops in Hb. apply Hm; [left; unfold base; lia|]. intros _. lia.
Qed.

Lemma vmok_new : vmok s' (l ++ [x]) fs' (ext_at A id c) (ext_at L id c) K hp0.
Proof.
  pose proof facts as (F1 & F2 & F3 & F4 & F5 & F6 & F7).
  pose proof (nth_some_lt _ _ _ Hxf) as Lf. pose proof static_new as ST'.
  assert (NK : forall a, K a -> a <> id) by (intros a H; apply K_lt in H; unfold id; lia).
  assert (NL : forall a, livef (f :: fs) a -> a <> id) by (intros a H; apply id_notlive in H; unfold id; lia).
  assert (PR : forall a, present fs' K a -> a = id \/ (a <> id /\ (a < length l)%nat /\ present (f :: fs) K a)).
  { intros a [Pa|Pa].
    - apply livef_new in Pa as [->|Pa]; [auto|]. right. split; [auto|]. split; [apply id_notlive; auto|left; auto].
    - right. split; [auto|]. split; [apply K_lt; auto|right; auto]. }
  assert (PA : forall b, (b < length l)%nat -> ext_at A id c b = A b) by (intros b H; apply ext_other; unfold id; lia).
  assert (PLl : forall b, (b < length l)%nat -> ext_at L id c b = L b) by (intros b H; apply ext_other; unfold id; lia).
  constructor.
  - rewrite Eb, Eh, Es. exact ST'.
  - rewrite Eb. constructor.
    + intros k g y Hg Hy. destruct k as [|[|k]].
      * cbn in Hg. injection Hg as <-. cbn [f_act] in *. unfold id in Hy. rewrite nth_app_new in Hy. injection Hy as <-.
        constructor; cbn [f_act f_ops f_pc nth_error fs' f' top_ops]; rewrite ?ext_same; auto.
        -- rewrite PA by exact Lf. exact W3.
        -- intros _ N. congruence.
        -- intros j w H. destruct j; discriminate.
      * cbn in Hg. injection Hg as <-. cbn [f_act f' top_ops] in *. apply nth_app_old in Hy; [|exact Lf].
        assert (y = xf) by congruence. subst y. change (nth_error fs' 2) with (nth_error (f :: fs) 1).
        pose proof (mo_fr _ _ _ _ _ _ _ _ MO O f xf eq_refl Hxf) as [G1 G2 G3 G4 G5 G6].
        assert (Q : forall p, A (f_act f) - 1 <= p < base -> (a_ruby xf = true -> p <> A (f_act f) + 5) -> mem s' p = mem s p).
        { intros p Hp1 Hp2. apply Hm; [left; lia|exact Hp2]. }
        unfold EV_PREV_CFP, EV_EP, EV_FLAG, EV_PC in *.
        constructor; unfold EV_PREV_CFP, EV_EP, EV_FLAG, EV_PC; cbn [f_act f_ops f_pc f' top_ops]; rewrite ?PA, ?PLl by exact Lf.
        -- rewrite Q; [|unfold base; lia|intros; lia]. rewrite G1.
           destruct (nth_error (f :: fs) 1) as [q|] eqn:Hq; [|reflexivity]. rewrite PA; [reflexivity|]. eapply (live_lt ST); eauto.
        -- rewrite Q; [exact G2|unfold base; lia|intros; lia].
        -- rewrite Q; [exact G3|unfold base; lia|intros; lia].
        -- auto.
        -- intros j w Hj. unfold nops, f'. cbn [f_ops top_ops].
           assert (j < length r)%nat by (apply nth_some_lt in Hj; exact Hj).
           rewrite Q; [|unfold base; lia|intros R; unfold hd_len; rewrite R; lia].
           rewrite <- (G5 (length pre + j)%nat w).
           ++ f_equal. rewrite F7. lia.
           ++ rewrite Hops, nth_error_app2 by lia. rewrite <- Hj. f_equal. lia.
        -- rewrite Q; [exact G6|unfold base; lia|intros; lia].
      * change (nth_error fs' (S (S k))) with (nth_error (f :: fs) (S k)) in Hg.
        change (nth_error fs' (S (S (S k)))) with (nth_error (f :: fs) (S (S k))).
        pose proof (live_lt ST _ _ Hg) as Lg. apply nth_app_old in Hy; [|exact Lg].
        pose proof (mo_fr _ _ _ _ _ _ _ _ MO (S k) g y Hg Hy) as G.
        destruct (lay_order _ _ _ _ _ O (S k) f g xf (st_lay _ _ _ _ _ _ _ _ _ ST) ltac:(lia) eq_refl Hg Hxf) as (z & Hz & Hb).
        assert (z = y) by congruence. subst z.
        destruct (lay_bounds _ _ _ _ _ (S k) g (st_lay _ _ _ _ _ _ _ _ _ ST) Hg) as (z & Hz' & Hb' & _).
        assert (z = y) by congruence. subst z. assert (0 <= nv y) by (unfold nv; lia).
        apply (fr_ext (mem s) (mem s')).
        -- intros p Hp. rewrite PA in Hp by exact Lg. apply Hm; [left; unfold base; lia|]. intros _. lia.
        -- destruct G as [G1 G2 G3 G4 G5 G6]. constructor; rewrite ?PA, ?PLl by exact Lg; auto.
           rewrite G1. destruct (nth_error (f :: fs) (S (S k))) as [q|] eqn:Hq; [|reflexivity].
           rewrite PA; [reflexivity|]. eapply (live_lt ST); eauto.
    + intros a y Pa Hy. destruct (PR _ Pa) as [->|(Na & La & Pa')].
      * unfold id in Hy. rewrite nth_app_new in Hy. injection Hy as <-. constructor; rewrite ?ext_same; auto.
        -- intros _. replace (c - nv x - 2) with base by (unfold c; lia). exact W0.
        -- intros i w Hi. replace (c - nv x - 1 + Z.of_nat i) with (base + 1 + Z.of_nat i) by (unfold c; lia). auto.
        -- intros R. rewrite W7 by exact R. destruct (a_blk x) as [[t b]|] eqn:E; [|reflexivity].
           rewrite PA; [reflexivity|]. destruct (Hblk _ _ eq_refl) as (_ & z & Hz & _). eapply nth_some_lt; eauto.
      * apply nth_app_old in Hy; [|exact La].
        pose proof (mo_env _ _ _ _ _ _ _ _ MO _ _ Pa' Hy) as G.
        apply (env_ext (mem s) (mem s')).
        -- intros p Hp Np. rewrite PLl in Hp, Np by exact La. eapply old_env; eauto.
        -- destruct G as [G1 G2 G3 G4 G5 G6 G7]. constructor; rewrite ?PLl by exact La; auto.
           intros R. rewrite G7 by exact R. destruct (a_blk y) as [[t b]|] eqn:E; [|reflexivity].
           rewrite PA; [reflexivity|]. destruct (st_blk _ _ _ _ _ _ _ _ _ ST _ _ _ _ Hy E) as (_ & z & Hz & _). eapply nth_some_lt; eauto.
    + intros a y Pa NP Hy R. destruct (PR _ Pa) as [->|(Na & La & Pa')].
      * unfold id in Hy. rewrite nth_app_new in Hy. injection Hy as <-. constructor; rewrite ?ext_same.
        -- rewrite W8 by exact R. destruct (a_parent x) as [p|] eqn:E; [|reflexivity]. cbn. rewrite PLl; [reflexivity|].
           destruct (Hpar _ eq_refl) as ((z & Hz & _) & _). eapply nth_some_lt; eauto.
        -- intros rt [W (z & Hz & N)]. apply within_inv in W as [<-|(z' & p & Hz' & Hp & W)].
           ++ unfold id in Hz. rewrite nth_app_new in Hz. injection Hz as <-. rewrite ext_same. auto.
           ++ unfold id in Hz'. rewrite nth_app_new in Hz'. injection Hz' as <-.
              destruct (Hpar _ Hp) as ((q & Hq & _) & _). apply nth_some_lt in Hq.
              assert (M : method_of l p rt).
              { apply (method_app l x PL); [exact Hq|]. split; [exact W|eauto]. }
              rewrite (W10 _ _ Hp M). f_equal. symmetry. apply PLl. destruct M as [_ (q' & Hq' & _)]. eapply nth_some_lt; eauto.
      * apply nth_app_old in Hy; [|exact La].
        pose proof (mo_link _ _ _ _ _ _ _ _ MO _ _ Pa' NP Hy R) as [G1 G2].
        assert (Q : forall j, 3 <= j <= 4 -> mem s' (L a + j) = mem s (L a + j)).
        { intros j Hj. assert (0 <= nv y) by (unfold nv; lia).
          apply (old_env a y Pa' Hy); [unfold hd_len; rewrite R; lia|lia]. }
        constructor; rewrite ?PLl by exact La; unfold EV_OUTER, EV_MFP in *.
        -- rewrite Q by lia. rewrite G1. destruct (a_parent y) as [p|] eqn:E; [|reflexivity]. cbn. rewrite PLl; [reflexivity|].
           pose proof (PL _ _ _ Hy E). lia.
        -- intros rt M. apply (method_app l x PL) in M; [|exact La]. rewrite Q by lia. rewrite (G2 _ M). f_equal. symmetry.
           apply PLl. destruct M as [_ (q & Hq & _)]. eapply nth_some_lt; eauto.
  - intros g [= <-]. cbn [f_act]. rewrite ext_same. exact Ec.
  - intros g y [= <-] _ Hy. cbn [f_act] in *. unfold id in Hy. rewrite nth_app_new in Hy. injection Hy as <-.
    rewrite ext_same, El. unfold c. lia.
  - intros g y [= <-] Hy R. cbn [f_act f_pc] in *. unfold id in Hy. rewrite nth_app_new in Hy. injection Hy as <-. auto.
Qed.
End Enter.
