(* Frames: a chain of environments moves to the heap. *)
From Verif Require Import Base ModelValue ModelArray ModelFrame SpecFrame ProofsFrame ProofsFrame2 ProofsFrame3 ProofsFrame4 ProofsFrame5 ProofsFrame6 ProofsFrame7.

Lemma within_le l : (forall a y p, nth_error l a = Some y -> a_parent y = Some p -> (p < a)%nat) ->
  forall a b, within l a b -> (b <= a)%nat.
Proof.
  intros HP a b (d & U). revert a U. induction d as [|d IH]; intros a U; cbn in U; [injection U as <-; lia|].
  destruct (nth_error l a) as [y|] eqn:E1; [|discriminate]. destruct (a_parent y) as [p|] eqn:E2; [|discriminate].
  pose proof (HP _ _ _ E1 E2). pose proof (IH _ U). lia.
Qed.
Lemma K_within l fs A L K B hp0 h tp : static l fs A L K B hp0 h tp -> forall a b, within l a b -> K a -> K b.
Proof.
  intros ST a b (d & U). revert a U. induction d as [|d IH]; intros a U Ka; cbn in U; [congruence|].
  destruct (nth_error l a) as [y'|] eqn:E1; [|discriminate]. destruct (a_parent y') as [q'|] eqn:E2; [|discriminate].
  apply (IH _ U). eapply st_Kpar; eauto.
Qed.

(* the state between two moves *)
Record moving (s : vm) (l : list act) (fs : list frame) (A L : nat -> Z) (K P : nat -> Prop) (hp0 : Z) : Prop := mkmoving {
  mv_static : static l fs A L K (stack_bottom s) hp0 (hp s) (sp s);
  mv_mem : memok (mem s) l fs A L K P (stack_bottom s);
  mv_cfp : forall f, nth_error fs 0 = Some f -> cfp s = A (f_act f);
  mv_lfp : forall f x, nth_error fs 0 = Some f -> (1 < length fs)%nat -> nth_error l (f_act f) = Some x ->
    lfp s = L (f_act f) - nv x - 1
}.
Definition same_regs (s s' : vm) : Prop :=
  stack_bottom s' = stack_bottom s /\ sp s' = sp s /\ cfp s' = cfp s /\ iseq s' = iseq s /\ pc s' = pc s.

Lemma dup_moving s l fs A L K P hp0 k f x :
  moving s l fs A L K P hp0 -> nth_error fs k = Some f -> nth_error l (f_act f) = Some x -> a_ruby x = true -> ~ K (f_act f) ->
  (forall p, a_parent x = Some p -> K p /\ ~ P p) ->
  (forall b, present fs K b -> ~ P b -> b <> f_act f -> ~ within l b (f_act f)) ->
  hp s + nv x + 10 < 2 ^ 60 ->
  exists s1, dup_frame (A (f_act f)) (option_map L (a_parent x)) s = Ok (hp s + nv x + 2, s1) /\
    let s2 := if cfp s1 =? A (f_act f) then set_lfp (get_lfp (mem s1) (hp s + nv x + 2)) s1 else s1 in
    same_regs s s2 /\ hp s2 = hp s + nv x + 10 /\
    moving s2 l fs A (ext_at L (f_act f) (hp s + nv x + 2)) (fun b => K b \/ b = f_act f) (fun b => P b /\ b <> f_act f) hp0.
Proof.
  intros [ST MO C1 C2] Hf Hx R NK Hp Hcl Hh.
  destruct (dup_ok s l fs A L K P hp0 ST MO k f (f_act f) x Hf eq_refl Hx R NK Hp Hcl)
    as (s1 & E & E1 & E2 & E3 & E4 & E5 & E6 & E7 & MO1).
  pose proof (dup_static s l fs A L K P hp0 ST k f (f_act f) x eq_refl Hx R NK Hp Hcl Hh) as ST1.
  exists s1. split; [exact E|]. cbv zeta.
  set (a := f_act f) in *. set (L' := ext_at L a (hp s + nv x + 2)) in *.
  assert (LA : L' a = hp s + nv x + 2) by apply ext_same.
  assert (GL : get_lfp (mem s1) (hp s + nv x + 2) = L' a - nv x - 1).
  { rewrite <- LA at 1. apply (lfp_env MO1); [right; right; reflexivity|exact Hx]. }
  rewrite <- E1, <- E2, <- E7 in ST1. rewrite <- E1 in MO1.
  assert (CT : forall g, nth_error fs 0 = Some g -> cfp s1 = A (f_act g)) by (intros g Hg; rewrite E3; auto).
  destruct (Z.eqb_spec (cfp s1) (A a)) as [C|C].
  - split; [repeat split; cbn; auto|]. split; [cbn; exact E7|]. constructor; cbn [mem set_lfp stack_bottom hp sp cfp lfp iseq pc]; auto.
    intros g y Hg N Hy. rewrite GL. assert (EG : f_act g = a).
    { destruct (Nat.eq_dec k 0) as [->|Nk]; [unfold a; congruence|]. exfalso. rewrite (CT _ Hg) in C.
      destruct (lay_order _ _ _ _ _ O k g f y (st_lay _ _ _ _ _ _ _ _ _ ST) ltac:(lia) Hg Hf Hy) as (z & Hz & Hb).
      fold a in Hb. unfold nv, nops, hd_len in Hb. destruct (a_ruby z); lia. }
    rewrite EG in *. assert (y = x) by congruence. subst y. reflexivity.
  - split; [repeat split; auto|]. split; [exact E7|]. constructor; auto.
    intros g y Hg N Hy. rewrite E4. rewrite (C2 _ _ Hg N Hy). unfold L'. rewrite ext_other; [reflexivity|].
    intros EG. apply C. rewrite (CT _ Hg), EG. reflexivity.
Qed.

Lemma move_ok l fs A hp0 (N : nat -> Prop) : forall fuel s L K a,
  moving s l fs A L K (fun _ => False) hp0 ->
  is_code l a -> present fs K a ->
  (forall b, within l a b -> K b \/ N b) ->
  (forall b c, present fs K b -> within l b c -> N c -> N b) ->
  (forall b, N b -> ~ K b) ->
  (forall k f, nth_error fs k = Some f -> f_act f = a -> ~ K a -> (length fs - k < fuel)%nat) -> (0 < fuel)%nat ->
  hp s + 8202 * Z.of_nat fuel < 2 ^ 60 ->
  exists s' L' K', move_ep_to_heap fuel (L a) s = Ok (L' a, s') /\
    moving s' l fs A L' K' (fun b => N b /\ ~ within l a b) hp0 /\
    same_regs s s' /\ hp s <= hp s' <= hp s + 8202 * Z.of_nat fuel /\
    (forall b, K' b <-> K b \/ within l a b) /\
    (forall b, K b -> L' b = L b).
Proof.
  induction fuel as [|fuel IH]; intros s L K a MV CA Pa HN HC HNK HF F0 Hh; [lia|].
  pose proof MV as [ST MO C1 C2]. cbn [move_ep_to_heap]. unfold on_stack, VM_STACK_SIZE.
  assert (PL : forall a y p, nth_error l a = Some y -> a_parent y = Some p -> (p < a)%nat).
  { intros a' y p H1 H2. apply (st_parent _ _ _ _ _ _ _ _ _ ST _ _ _ H1 H2). }
  pose proof (st_bot _ _ _ _ _ _ _ _ _ ST) as SB.
  destruct CA as (x & Hx & R). assert (NV : 0 <= nv x) by (unfold nv; lia).
  destruct (st_Kdec _ _ _ _ _ _ _ _ _ ST a) as [Ka|Ka].
  { destruct (st_heap _ _ _ _ _ _ _ _ _ ST _ _ Ka Hx) as (X1 & X2).
    destruct (Z.leb_spec (stack_bottom s) (L a)); [|lia].
    destruct (Z.ltb_spec (L a) (stack_bottom s + 8192)); [lia|]. cbn [andb].
    exists s, L, K. split; [reflexivity|]. split.
    { constructor; auto. eapply memok_weaken; [|exact MO]. intros b []. }
    split; [repeat split|]. split; [lia|]. split; [|auto].
    intros b. split; [auto|]. intros [Kb|W]; [exact Kb|]. eapply K_within; eauto. }
  assert (La : livef fs a) by (destruct Pa; [assumption|contradiction]).
  assert (EL : L a = A a) by (eapply st_loc; eauto).
  destruct La as (k & f & Hf & <-).
  pose proof (st_A _ _ _ _ _ _ _ _ _ ST _ (live_lt ST _ _ Hf)) as RA. rewrite EL.
  destruct (Z.leb_spec (stack_bottom s) (A (f_act f))); [|lia].
  destruct (Z.ltb_spec (A (f_act f)) (stack_bottom s + 8192)); [|lia]. cbn [andb].
  pose proof (outer_env ST MO _ _ Pa (fun X => X) Hx R) as EO. rewrite EL in EO. rewrite EO. cbn [rbind].
  pose proof (st_len _ _ _ _ _ _ _ _ _ ST _ _ Hx) as LV.
  assert (NA : N (f_act f)) by (destruct (HN _ (within_refl _ _)); [contradiction|assumption]).
  pose proof (HF _ _ Hf eq_refl) as HFf. pose proof (nth_some_lt _ _ _ Hf) as Hk.
  destruct (a_parent x) as [p|] eqn:EP; cbn [option_map].
  - pose proof (PL _ _ _ Hx EP) as Lp.
    destruct (st_parent _ _ _ _ _ _ _ _ _ ST _ _ _ Hx EP) as (_ & Cp & _).
    pose proof (present_parent ST _ _ _ Pa Hx EP) as Pp.
    assert (WS : forall b, within l p b -> within l (f_act f) b) by (intros b W; eapply within_step; eauto).
    destruct (IH s L K p MV Cp Pp) as (s1 & L1 & K1 & EM & MV1 & SR & HB & HK1 & HL1); auto.
    { intros j g Hg Eg NKp. destruct (st_par _ _ _ _ _ _ _ _ _ ST _ _ _ _ Hf Hx EP) as [C|(j' & g' & J & Hg' & Eg')]; [contradiction|].
      assert (j = j') by (eapply live_inj; eauto; congruence). subst j'. lia. }
    { lia. }
    { lia. }
    rewrite EM. cbn [rbind fst snd].
    pose proof MV1 as [ST1 MO1 C11 C21]. destruct SR as (S1 & S2 & S3 & S4 & S5).
    assert (NW : ~ within l p (f_act f)) by (intros W; apply (within_le l PL) in W; lia).
    assert (NK1 : ~ K1 (f_act f)) by (rewrite HK1; tauto).
    assert (PR : forall b, present fs K1 b -> present fs K b).
    { intros b [Lb|Kb]; [left; exact Lb|]. apply HK1 in Kb as [Kb|W]; [right; exact Kb|].
      eapply (present_within ST); eauto. }
    destruct (dup_moving s1 l fs A L1 K1 (fun b => N b /\ ~ within l p b) hp0 k f x MV1 Hf Hx R NK1) as (s2 & ED & SR2 & HB2 & MV2).
    { intros q Hq. assert (q = p) by congruence. subst q. split; [apply HK1; right; apply within_refl|].
      intros [_ C]. apply C. apply within_refl. }
    { intros b Pb NPb Nb W. apply NPb. split; [eapply HC; eauto|]. intros W2.
      apply (within_le l PL) in W, W2. lia. }
    { lia. }
    rewrite EP in ED. cbn [option_map] in ED. rewrite ED. cbn [rbind].
    eexists _, _, _. split; [|split; [|split; [|split; [|split]]]].
    + f_equal. f_equal. symmetry. apply (ext_same L1 (f_act f)).
    + destruct MV2 as [ST2 MO2 C12 C22]. constructor; [exact ST2| |exact C12|exact C22].
      eapply memok_weaken; [|exact MO2]. intros b ((Nb & NWb) & Nb2). split; [exact Nb|].
      intros W. apply within_inv in W as [W|(x' & p' & Hx' & Hp' & W)]; [congruence|].
      assert (x' = x) by congruence. subst x'. assert (p' = p) by congruence. subst p'. contradiction.
    + destruct SR2 as (T1 & T2 & T3 & T4 & T5). repeat split; congruence.
    + cbv zeta in HB2. rewrite HB2. lia.
    + intros b. cbv beta. rewrite HK1. split.
      * intros [[Kb|W]| ->]; [left; exact Kb|right; auto|right; apply within_refl].
      * intros [Kb|W]; [left; left; exact Kb|]. apply within_inv in W as [W|(x' & p' & Hx' & Hp' & W)]; [right; congruence|].
        assert (x' = x) by congruence. subst x'. assert (p' = p) by congruence. subst p'. left. right. exact W.
    + intros b Kb. rewrite ext_other by (intros ->; contradiction). auto.
  - cbn [rbind fst snd].
    destruct (dup_moving s l fs A L K N hp0 k f x) as (s2 & ED & SR2 & HB2 & MV2); auto.
    { constructor; auto. eapply memok_weaken; [|exact MO]. intros b []. }
    { intros q Hq. congruence. }
    { intros b Pb NPb Nb W. apply NPb. eapply HC; eauto. }
    { lia. }
    rewrite EP in ED. cbn [option_map] in ED. rewrite ED. cbn [rbind].
    eexists _, _, _. split; [|split; [|split; [|split; [|split]]]].
    + f_equal. f_equal. symmetry. apply (ext_same L (f_act f)).
    + destruct MV2 as [ST2 MO2 C12 C22]. constructor; [exact ST2| |exact C12|exact C22].
      eapply memok_weaken; [|exact MO2]. intros b (Nb & Nb2). split; [exact Nb|].
      intros W. apply within_inv in W as [W|(x' & p' & Hx' & Hp' & W)]; [congruence|].
      assert (x' = x) by congruence. subst x'. congruence.
    + exact SR2.
    + cbv zeta in HB2. rewrite HB2. lia.
    + intros b. cbv beta. split.
      * intros [Kb| ->]; [left; exact Kb|right; apply within_refl].
      * intros [Kb|W]; [left; exact Kb|]. apply within_inv in W as [W|(x' & p' & Hx' & Hp' & W)]; [right; congruence|].
        assert (x' = x) by congruence. subst x'. congruence.
    + intros b Kb. rewrite ext_other by (intros ->; contradiction). auto.
Qed.

Lemma lay_count l A B fs : forall tp, lay l A B fs tp -> 5 * Z.of_nat (length fs) - 1 <= tp - B.
Proof.
  induction fs as [|f fs IH]; intros tp H; cbn in H; [cbn; lia|]. destruct H as (x & Hx & -> & H). apply IH in H.
  cbn [length]. unfold nv, nops, hd_len in *. destruct (a_ruby x); lia.
Qed.

(* a whole capture *)
Lemma capture_ok s l fs A L K hp0 h fuel k f :
  vmok s l fs A L K hp0 -> (forall a, K a <-> kept (mkstate l fs h) a) ->
  nth_error fs k = Some f -> is_code l (f_act f) -> no_sibling (mkstate l fs h) (f_act f) ->
  8192 <= Z.of_nat fuel -> hp s + 8202 * Z.of_nat fuel < 2 ^ 60 ->
  exists s' L' K', move_cfp_to_heap fuel (A (f_act f)) s = Ok (L' (f_act f), s') /\
    vmok s' l fs A L' K' hp0 /\ cfp s' = cfp s /\ hp s <= hp s' <= hp s + 8202 * Z.of_nat fuel /\
    (forall b, K' b <-> K b \/ within l (f_act f) b) /\ (forall b, K b -> L' b = L b) /\
    stack_bottom s' = stack_bottom s.
Proof.
  intros [ST MO C1 C2 C3] HK Hf CA NS FU Hh. set (a := f_act f) in *.
  pose proof (live_present (K := K) _ _ Hf) as Pa. fold a in Pa.
  unfold move_cfp_to_heap. pose proof (ep_live ST MO _ _ Hf) as EE. fold a in EE. rewrite EE. cbn [rbind].
  destruct (move_ok l fs A hp0 (fun b => within l a b /\ ~ K b) fuel s L K a) as (s' & L' & K' & E & MV & (S1 & S2 & S3 & S4 & S5) & HB & HK' & HL'); auto.
  - constructor; auto.
  - intros b W. destruct (st_Kdec _ _ _ _ _ _ _ _ _ ST b); tauto.
  - intros b c Pb (d & U). revert b Pb U. induction d as [|d IH]; intros b Pb U NC; cbn in U; [congruence|].
    destruct (nth_error l b) as [y|] eqn:Ey; [|discriminate]. destruct (a_parent y) as [p|] eqn:Ep; [|discriminate].
    destruct (IH p (present_parent ST _ _ _ Pb Ey Ep) U NC) as (W & NKp).
    assert (NKb : ~ K b) by (intros Kb; apply NKp; eapply st_Kpar; eauto).
    split; [|exact NKb]. destruct Pb as [(j & g & Hg & Eg)|Pb]; [|contradiction].
    eapply (NS b y p); cbn [acts frames]; eauto.
    + exists g. split; [eapply nth_error_In; eauto|exact Eg].
    + rewrite <- HK. exact NKb.
    + rewrite <- HK. exact NKp.
  - intros b [_ C]. exact C.
  - intros j g Hg Eg _. pose proof (lay_count _ _ _ _ _ (st_lay _ _ _ _ _ _ _ _ _ ST)).
    pose proof (st_fit _ _ _ _ _ _ _ _ _ ST). lia.
  - lia.
  - exists s', L', K'. split; [exact E|]. destruct MV as [ST' MO' C1' C2']. split.
    + constructor; auto.
      * eapply memok_weaken; [|exact MO']. intros b ((W & _) & NW). contradiction.
      * intros g y Hg Hy R. rewrite S4, S5. eauto.
    + repeat split; auto; try lia; apply HK'.
Qed.
