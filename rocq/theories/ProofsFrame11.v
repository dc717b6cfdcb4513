(* Frames: the machine follows the activations. *)
From Verif Require Import Base ModelValue ModelArray ModelFrame SpecFrame ProofsFrame ProofsFrame2 ProofsFrame3 ProofsFrame4 ProofsFrame5 ProofsFrame6 ProofsFrame7 ProofsFrame8 ProofsFrame9 ProofsFrame10.

Definition ruby_at (l : list act) (a : nat) : bool := match nth_error l a with Some x => a_ruby x | None => false end.
(* the registers on the host stack belong to the frames below builtin functions *)
Fixpoint host_ok (l : list act) (A : nat -> Z) (fs : list frame) (h : list (Z * Z * Z)) : Prop :=
  match fs with
  | [] => h = []
  | f :: r =>
      match r with
      | [] => h = []
      | g :: _ =>
          if ruby_at l (f_act f) then host_ok l A r h
          else match h with
               | [] => False
               | (c, i, p) :: h' =>
                   c = A (f_act g) /\
                   (forall y, nth_error l (f_act g) = Some y -> a_ruby y = true -> i = a_iseq y /\ p = f_pc g) /\
                   host_ok l A r h'
               end
      end
  end.
Lemma host_top l A f f' fs h : f_act f' = f_act f -> host_ok l A (f :: fs) h -> host_ok l A (f' :: fs) h.
Proof. intros E H. cbn in *. rewrite E. exact H. Qed.
Lemma host_change l l' A A' fs :
  (forall k f, nth_error fs k = Some f -> A' (f_act f) = A (f_act f) /\
     ruby_at l' (f_act f) = ruby_at l (f_act f) /\
     (forall y, nth_error l' (f_act f) = Some y -> exists z, nth_error l (f_act f) = Some z /\ a_ruby z = a_ruby y /\ a_iseq z = a_iseq y)) ->
  forall h, host_ok l A fs h -> host_ok l' A' fs h.
Proof.
  induction fs as [|f fs IH]; intros HC h H; [exact H|].
  assert (IH' : forall h, host_ok l A fs h -> host_ok l' A' fs h) by (apply IH; intros k g Hg; apply (HC (S k) g Hg)).
  destruct fs as [|g r]; [exact H|]. cbn [host_ok] in H |- *.
  destruct (HC O f eq_refl) as (_ & -> & _). destruct (ruby_at l (f_act f)); [apply IH'; exact H|].
  destruct h as [|[[c i] p] h]; [exact H|]. destruct H as (E1 & E2 & E3). destruct (HC 1%nat g eq_refl) as (-> & _ & HG).
  split; [exact E1|]. split; [|apply IH'; exact E3].
  intros y Hy R. destruct (HG y Hy) as (z & Hz & Ez & Ei). destruct (E2 z Hz ltac:(congruence)) as (-> & ->). split; congruence.
Qed.

Definition rel (s : state) (x : mach) (hp0 : Z) : Prop :=
  exists A L K, vmok (v x) (acts s) (frames s) A L K hp0 /\ (forall a, K a <-> kept s a) /\
    host_ok (acts s) A (frames s) (host x) /\ procs x = map L (held s).

Lemma kept_app l fs fs' h x : (forall a y p, nth_error l a = Some y -> a_parent y = Some p -> (p < a)%nat) ->
  (forall p, In p h -> (p < length l)%nat) ->
  forall a, kept (mkstate (l ++ [x]) fs' h) a <-> kept (mkstate l fs h) a.
Proof.
  intros PL HH a. unfold kept. cbn [held acts]. split; intros (p & Hp & W); exists p; (split; [exact Hp|]);
    apply (within_app l x PL); auto.
Qed.
Lemma held_lt l fs A L (K : nat -> Prop) B hp0 h tp hs : static l fs A L K B hp0 h tp ->
  (forall a, K a <-> kept (mkstate l fs hs) a) -> forall p, In p hs -> K p /\ (p < length l)%nat.
Proof.
  intros ST HK p Hp. assert (Kp : K p).
  { apply HK. exists p. split; [exact Hp|apply within_refl]. }
  split; [exact Kp|]. destruct (st_Kcode _ _ _ _ _ _ _ _ _ ST _ Kp) as (y & Hy & _). eapply nth_some_lt; eauto.
Qed.

(* after entering a frame *)
Lemma rel_enter l f fs h x r A L K hp0 s' c hs hs' ps :
  static l (f :: fs) A L K (stack_bottom s') hp0 (hp s') c ->
  (forall a, K a <-> kept (mkstate l (f :: fs) h) a) -> ps = map L h ->
  forall c', vmok s' (l ++ [x]) (mkframe (length l) [] 0 :: top_ops f r :: fs) (ext_at A (length l) c') (ext_at L (length l) c') K hp0 ->
  (host_ok l A (f :: fs) hs -> host_ok (l ++ [x]) (ext_at A (length l) c') (mkframe (length l) [] 0 :: top_ops f r :: fs) hs') ->
  host_ok l A (f :: fs) hs ->
  rel (mkstate (l ++ [x]) (mkframe (length l) [] 0 :: top_ops f r :: fs) h) (mkmach s' hs' ps) hp0.
Proof.
  intros ST HK -> c' OK HH H0. exists (ext_at A (length l) c'), (ext_at L (length l) c'), K. cbn [v host procs acts frames held].
  split; [exact OK|]. split; [|split; [auto|]].
  - intros a. rewrite HK. symmetry. apply kept_app.
    + intros b y p Hy Hp. apply (st_parent _ _ _ _ _ _ _ _ _ ST _ _ _ Hy Hp).
    + intros p Hp. eapply held_lt; eauto.
  - apply map_ext_in. intros p Hp. symmetry. apply ext_other.
    destruct (held_lt _ _ _ _ _ _ _ _ _ _ ST HK _ Hp). lia.
Qed.
Lemma host_old l f fs x A L K B hp0 h tp c r hs : static l (f :: fs) A L K B hp0 h tp ->
  host_ok l A (f :: fs) hs -> host_ok (l ++ [x]) (ext_at A (length l) c) (top_ops f r :: fs) hs.
Proof.
  intros ST H. apply (host_top _ _ f); [reflexivity|]. revert H. apply host_change.
  intros k g Hg. pose proof (live_lt ST _ _ Hg). split; [apply ext_other; lia|].
  unfold ruby_at. rewrite nth_error_app1 by lia. split; [reflexivity|]. intros y Hy. exists y. auto.
Qed.

Lemma with_v_ok g x s' : g (v x) = Ok s' -> with_v g x = Ok (mkmach s' (host x) (procs x)).
Proof. intros H. unfold with_v. rewrite H. reflexivity. Qed.

Definition grow : Z := 2 ^ 27.
Lemma sim s o s' x hp0 : acts_as no_sibling s o s' -> rel s x hp0 -> hp (v x) + grow < 2 ^ 60 ->
  exists x', step o x = Ok x' /\ rel s' x' hp0 /\ stack_bottom (v x') = stack_bottom (v x) /\
    hp (v x) <= hp (v x') <= hp (v x) + grow.
Proof.
  intros H (A & L & K & OK & HK & HH & HP) Hh. assert (G0 : 0 <= grow) by (unfold grow; lia).
  destruct H; cbn [acts frames held] in *.
  - (* push *)
    destruct (push_ok _ _ _ _ _ _ _ _ OK w) as (v' & E & OK' & Eb & Eh); [exact H|].
    eexists. split; [apply with_v_ok; exact E|]. cbn [v]. split; [|rewrite Eb, Eh; split; [reflexivity|lia]].
    exists A, L, K. repeat (split; [assumption||exact HK|]). exact HP.
  - (* pop *)
    destruct (pop_ok _ _ _ _ _ _ _ _ OK _ _ H) as (E & OK').
    eexists. split; [apply with_v_ok; rewrite E; reflexivity|]. cbn [v fst snd]. split; [|cbn; split; [reflexivity|lia]].
    exists A, L, K. repeat (split; [assumption||exact HK|]). exact HP.
  - (* self *)
    destruct (push_ok _ _ _ _ _ _ _ _ OK (a_self x0)) as (v' & E & OK' & Eb & Eh); [exact H1|].
    assert (ES : mem (v x) (lfp (v x) - 1) = a_self x0).
    { pose proof (vo_static _ _ _ _ _ _ _ OK) as ST. pose proof (vo_mem _ _ _ _ _ _ _ OK) as MO.
      assert (LF : lfp (v x) = L (f_act f) - nv x0 - 1).
      { apply (vo_lfp _ _ _ _ _ _ _ OK f x0 eq_refl); [destruct fs; [congruence|cbn; lia]|exact H0]. }
      rewrite LF.
      pose proof (live_present (fs := f :: fs) (K := K) O f eq_refl) as Pf.
      replace (L (f_act f) - nv x0 - 1 - 1) with (L (f_act f) - nv x0 - 2) by lia.
      eapply en_self2; [eapply mo_env; eauto|].
      destruct (st_last _ _ _ _ _ _ _ _ _ ST) as (f0 & Hf0 & E0). intros Ef.
      assert (length (f :: fs) - 1 = 0)%nat.
      { eapply live_inj; [exact ST|exact Hf0|reflexivity|congruence]. }
      destruct fs; [congruence|cbn in *; lia]. }
    eexists. split; [apply with_v_ok; rewrite ES; exact E|]. cbn [v]. split; [|rewrite Eb, Eh; split; [reflexivity|lia]].
    exists A, L, K. repeat (split; [assumption||exact HK|]). exact HP.
  - (* get *)
    destruct (look_var OK f d a x0 i w eq_refl) as (p & Ep & _ & Em); auto.
    { destruct fs; [congruence|cbn; lia]. }
    destruct (push_ok _ _ _ _ _ _ _ _ OK w) as (v' & E & OK' & Eb & Eh); [assumption|].
    eexists. split; [apply with_v_ok; rewrite Ep; cbn [rbind]; rewrite Em; exact E|]. cbn [v]. split; [|rewrite Eb, Eh; split; [reflexivity|lia]].
    exists A, L, K. repeat (split; [assumption||exact HK|]). exact HP.
  - (* set *)
    destruct (pop_ok _ _ _ _ _ _ _ _ OK _ _ H0) as (E & OK').
    destruct (nth_error (a_vars x0) i) as [w0|] eqn:Ew; [|apply nth_error_None in Ew; lia].
    destruct (look_var OK' (top_ops f r) d a x0 i w0 eq_refl) as (p & Ep & Ep2 & Em); auto.
    { destruct fs; [congruence|cbn; lia]. }
    assert (Pa : present (top_ops f r :: fs) K a).
    { eapply (present_within (vo_static _ _ _ _ _ _ _ OK')); [exists d; exact H1|]. left. exists O, (top_ops f r). auto. }
    pose proof (vmok_set _ _ _ _ _ _ _ a x0 i w OK' Pa H2 H3) as OK2. rewrite <- Ep2 in OK2.
    pose proof (put_alikes _ _ _ _ H2 (set_var_alike x0 i w H3)) as AL.
    eexists. split; [apply with_v_ok; rewrite E; cbn [rbind snd fst]; rewrite Ep; reflexivity|]. cbn [v]. split; [|cbn; split; [reflexivity|lia]].
    exists A, L, K. cbn [v host procs acts frames held]. split; [exact OK2|]. split; [|split; [|exact HP]].
    + intros b. rewrite HK. unfold kept. cbn [acts held].
      split; intros (q & Hq & W); exists q; (split; [exact Hq|]); apply (within_alikes _ _ _ _ AL); exact W.
    + apply (host_top _ _ f); [reflexivity|]. revert HH. apply host_change. intros k g Hg. split; [reflexivity|]. split.
      * unfold ruby_at. destruct (nth_error (put l a (set_var x0 i w)) (f_act g)) as [y|] eqn:Ey.
        -- destruct (alikes_nth _ _ AL _ _ Ey) as (z & -> & Ez). apply Ez.
        -- apply nth_error_None in Ey. rewrite (alikes_length _ _ AL) in Ey. apply nth_error_None in Ey. rewrite Ey. reflexivity.
      * intros y Hy. destruct (alikes_nth _ _ AL _ _ Hy) as (z & Hz & Ez). exists z. split; [exact Hz|].
        destruct Ez as (Z1 & _ & _ & _ & _ & Z6 & _). split; congruence.
  - (* pc *)
    pose proof (pc_ok _ _ _ _ _ _ _ _ OK n H H0) as OK'.
    eexists. split; [apply with_v_ok; reflexivity|]. cbn [v]. split; [|cbn; split; [reflexivity|lia]].
    exists A, L, K. repeat (split; [assumption||exact HK|]). exact HP.
  - (* clear *)
    pose proof (clear_ok _ _ _ _ _ _ _ _ OK) as OK'.
    eexists. split; [apply with_v_ok; reflexivity|]. cbn [v]. split; [|cbn; split; [reflexivity|lia]].
    exists A, L, K. repeat (split; [assumption||exact HK|]). exact HP.
  - (* call *)
    pose proof (vo_static _ _ _ _ _ _ _ OK) as ST.
    destruct (present_act ST _ (live_present (fs := f :: fs) (K := K) O f eq_refl)) as (xf & Hxf).
    destruct (call_ok _ _ _ _ _ _ _ _ xf OK Hxf uv i vs self r blk H H0 H1 H2) as (v' & c & E & OK' & Eb & Eh).
    eexists. split; [apply with_v_ok; exact E|]. cbn [v]. split; [|rewrite Eb, Eh; split; [reflexivity|lia]].
    eapply rel_enter; [rewrite Eb, Eh; exact ST|exact HK|exact HP|exact OK'| |exact HH].
    intros H9. pose proof (host_old _ _ _ x0 _ _ _ _ _ _ _ c r _ ST H9) as HO.
    cbn [host_ok f_act]. unfold ruby_at at 1. rewrite nth_app_new. cbn [a_ruby]. exact HO.
  - (* yield *)
    pose proof (vo_static _ _ _ _ _ _ _ OK) as ST. pose proof (vo_mem _ _ _ _ _ _ _ OK) as MO.
    destruct H0 as (xf & Hxf & Rf).
    pose proof (look_block OK f xf m y eq_refl Hxf Rf H2 H3) as GB. rewrite H4 in GB.
    destruct (st_blk _ _ _ _ _ _ _ _ _ ST _ _ _ _ H3 H4) as (Ht & Cb).
    destruct H5 as (g & Hg & Eg). apply In_nth_error in Hg as (k & Hg). cbn [frames] in Hg. subst b.
    assert (Lb : livef (f :: fs) (f_act g)) by (exists k, g; auto).
    destruct (block_ok _ _ _ _ _ _ _ _ xf OK Hxf i vs (a_self z) r (f_act g) H H1 Cb (or_intror Lb) H7)
      as (v1 & v' & c & E1 & E2 & OK' & Eb & Eh).
    assert (EY : yield_block true i (Z.of_nat (length vs)) (A (f_act g) - stack_bottom (v x)) (v x) = Ok v').
    { unfold yield_block, cfp_from_frame. replace (stack_bottom (v x) + (A (f_act g) - stack_bottom (v x))) with (A (f_act g)) by lia.
      rewrite (ep_live ST MO _ _ Hg). cbn [rbind]. unfold self_value.
      rewrite (en_self1 _ _ _ _ _ _ (mo_env _ _ _ _ _ _ _ _ MO _ _ (or_introl Lb) H6)). rewrite E1. exact E2. }
    eexists. split; [apply with_v_ok; rewrite GB; exact EY|]. cbn [v]. split; [|rewrite Eb, Eh; split; [reflexivity|lia]].
    eapply rel_enter; [rewrite Eb, Eh; exact ST|exact HK|exact HP|exact OK'| |exact HH].
    intros H9. pose proof (host_old _ _ _ x0 _ _ _ _ _ _ _ c r _ ST H9) as HO.
    cbn [host_ok f_act]. unfold ruby_at at 1. rewrite nth_app_new. cbn [a_ruby]. exact HO.
  - (* proc *)
    pose proof (vo_static _ _ _ _ _ _ _ OK) as ST.
    destruct (present_act ST _ (live_present (fs := f :: fs) (K := K) O f eq_refl)) as (xf & Hxf).
    destruct (held_lt _ _ _ _ _ _ _ _ _ _ ST HK b (nth_error_In _ _ H1)) as (Kb & _).
    pose proof (st_Kcode _ _ _ _ _ _ _ _ _ ST _ Kb) as Cb.
    destruct (block_ok _ _ _ _ _ _ _ _ xf OK Hxf i vs self r b H H0 Cb (or_introl Kb) H2)
      as (v1 & v' & c & E1 & E2 & OK' & Eb & Eh).
    eexists. split.
    { cbn [step]. rewrite HP, (map_nth_error L _ _ H1). cbn [unwrap rbind].
      apply with_v_ok. rewrite E1. exact E2. }
    cbn [v]. split; [|rewrite Eb, Eh; split; [reflexivity|lia]].
    eapply rel_enter; [rewrite Eb, Eh; exact ST|exact HK|exact HP|exact OK'| |exact HH].
    intros H9. pose proof (host_old _ _ _ x0 _ _ _ _ _ _ _ c r _ ST H9) as HO.
    cbn [host_ok f_act]. unfold ruby_at at 1. rewrite nth_app_new. cbn [a_ruby]. exact HO.
  - (* native *)
    pose proof (vo_static _ _ _ _ _ _ _ OK) as ST.
    destruct (present_act ST _ (live_present (fs := f :: fs) (K := K) O f eq_refl)) as (xf & Hxf).
    destruct (native_ok _ _ _ _ _ _ _ _ xf OK Hxf vs self r H H0) as (v' & c & E & OK' & Eb & Eh).
    eexists. split; [cbn [step]; rewrite E; reflexivity|]. cbn [v]. split; [|rewrite Eb, Eh; split; [reflexivity|lia]].
    eapply rel_enter; [rewrite Eb, Eh; exact ST|exact HK|exact HP|exact OK'| |exact HH].
    intros H9. pose proof (host_old _ _ _ x0 _ _ _ _ _ _ _ c r _ ST H9) as HO.
    pose proof (nth_some_lt _ _ _ Hxf).
    cbn [host_ok f_act]. unfold ruby_at at 1. rewrite nth_app_new. cbn [a_ruby x0]. split; [|split; [|exact HO]].
    + rewrite ext_other by (cbn; lia). apply (vo_cfp _ _ _ _ _ _ _ OK f eq_refl).
    + cbn [f_act f_pc top_ops]. intros y Hy R. apply nth_app_old in Hy; [|assumption].
      apply (vo_code _ _ _ _ _ _ _ OK f y eq_refl Hy R).
  - (* return *)
    pose proof (vo_static _ _ _ _ _ _ _ OK) as ST. pose proof (vo_mem _ _ _ _ _ _ _ OK) as MO.
    destruct (pop_ok _ _ _ _ _ _ _ _ OK _ _ H1) as (E & OK1).
    destruct (unwind_vmok _ _ _ _ _ _ _ _ _ OK1) as (v2 & E2 & OK2 & Em & Eb & Eh).
    assert (EU : (Z.land (mem (v x) (cfp (v x) + EV_FLAG)) FLG_DISCARD =? 0) = a_use x0).
    { rewrite (vo_cfp _ _ _ _ _ _ _ OK f eq_refl). rewrite (fr_flag _ _ _ _ _ _ _ (mo_fr _ _ _ _ _ _ _ _ MO O f x0 eq_refl H)).
      apply discard_of. exact H0. }
    assert (HH' : host_ok l A (g :: fs) (host x)).
    { cbn [host_ok] in HH. unfold ruby_at in HH. rewrite H, H0 in HH. exact HH. }
    destruct (a_use x0) eqn:U.
    + assert (F : total l (top_ops g (w :: f_ops g) :: fs) <= 8192).
      { destruct (top_act _ _ _ _ _ _ _ _ OK) as (y & Hy & T1 & T2 & T3). assert (y = x0) by congruence. subst y.
        pose proof (st_fit _ _ _ _ _ _ _ _ _ ST) as SF. 
        destruct (present_act ST _ (live_present (fs := f :: g :: fs) (K := K) 1%nat g eq_refl)) as (yg & Hyg).
        rewrite (total_top l g (top_ops g (w :: f_ops g)) fs yg Hyg eq_refl). cbn [total] in T3. unfold frame_size in T3 at 1. rewrite H in T3.
        unfold nops. cbn [top_ops f_ops length]. cbn [total]. destruct (a_ruby x0); lia. }
      destruct (push_ok _ _ _ _ _ _ _ _ OK2 w F) as (v3 & E3 & OK3 & Eb3 & Eh3).
      eexists. split; [apply with_v_ok; rewrite EU, E; cbn [rbind snd fst]; rewrite E2; cbn [rbind]; exact E3|]. cbn [v].
      split; [|rewrite Eb3, Eb, Eh3, Eh; cbn; split; [reflexivity|lia]].
      exists A, L, K. cbn [v host procs acts frames held]. split; [exact OK3|]. split; [exact HK|]. split; [|exact HP].
      apply (host_top _ _ g); [reflexivity|exact HH'].
    + eexists. split; [apply with_v_ok; rewrite EU, E; cbn [rbind snd fst]; rewrite E2; reflexivity|]. cbn [v].
      split; [|rewrite Eb, Eh; cbn; split; [reflexivity|lia]].
      exists A, L, K. cbn [v host procs acts frames held]. repeat (split; [assumption||exact HK|]). exact HP.
  - (* unwind *)
    pose proof (vo_static _ _ _ _ _ _ _ OK) as ST. pose proof (vo_mem _ _ _ _ _ _ _ OK) as MO.
    destruct (present_act ST _ (live_present (fs := f :: g :: fs) (K := K) O f eq_refl)) as (xf & Hxf).
    destruct (present_act ST _ (live_present (fs := f :: g :: fs) (K := K) 1%nat g eq_refl)) as (xg & Hxg).
    assert (RU : is_ruby (mem (v x)) (cfp (v x)) = a_ruby xf).
    { rewrite (vo_cfp _ _ _ _ _ _ _ OK f eq_refl). apply (ruby_live MO O f xf eq_refl Hxf). }
    cbn [step]. rewrite RU. cbn [host_ok] in HH. unfold ruby_at in HH at 1. rewrite Hxf in HH.
    destruct (a_ruby xf) eqn:R.
    + destruct (unwind_vmok _ _ _ _ _ _ _ _ _ OK) as (v2 & E2 & OK2 & Em & Eb & Eh).
      eexists. split; [apply with_v_ok; exact E2|]. cbn [v]. split; [|rewrite Eb, Eh; split; [reflexivity|lia]].
      exists A, L, K. cbn [v host procs acts frames held]. repeat (split; [assumption||exact HK|]). exact HP.
    + destruct (host x) as [|[[c i] p] hs] eqn:EH; [contradiction|]. destruct HH as (-> & HI & HH).
      unfold unwind_native_frame. cbn [mem set_cfp set_sp]. rewrite (ep_live ST MO 1%nat g eq_refl). cbn [rbind].
      eexists. split; [reflexivity|]. cbn [v]. split; [|cbn; split; [reflexivity|lia]].
      exists A, L, K. cbn [v host procs acts frames held]. split; [|split; [exact HK|split; [exact HH|exact HP]]].
      pose proof (live_present (fs := f :: g :: fs) (K := K) 1%nat g eq_refl) as Pg.
      eapply (vmok_pop (v x)); [exact OK|exact Hxf|reflexivity|reflexivity|reflexivity| |reflexivity|].
      * cbn [sp set_code set_lfp set_cfp set_sp]. unfold get_prev_sp. rewrite (vo_cfp _ _ _ _ _ _ _ OK f eq_refl), (flag_live MO O f xf eq_refl Hxf). reflexivity.
      * intros y Hy. assert (y = xg) by congruence. subst y. cbn [lfp set_code set_lfp iseq pc]. split.
        -- apply (lfp_env MO _ _ Pg Hxg).
        -- intros Ry. exact (HI _ Hxg Ry).
  - (* capture *)
    pose proof (vo_static _ _ _ _ _ _ _ OK) as ST. pose proof (vo_mem _ _ _ _ _ _ _ OK) as MO.
    assert (F0 : exists f0, nth_error fs 0 = Some f0).
    { destruct fs as [|f0 fs0]; [destruct k; discriminate|]. exists f0. reflexivity. }
    destruct F0 as (f0 & Hf0).
    assert (NP : nth_prev (mem (v x)) k (cfp (v x)) = Ok (A (f_act f))).
    { rewrite (vo_cfp _ _ _ _ _ _ _ OK f0 Hf0). apply (nth_prev_live ST MO k O f0 f Hf0). exact H. }
    destruct (capture_ok _ _ _ _ _ _ _ h (Z.to_nat VM_STACK_SIZE) k f OK HK H H0 H1) as (v' & L' & K' & E & OK' & Ec & HB & HK' & HL' & Eb).
    { unfold VM_STACK_SIZE. lia. }
    { unfold VM_STACK_SIZE, grow in *. lia. }
    eexists. split; [cbn [step]; rewrite NP; cbn [rbind]; unfold capture; rewrite E; reflexivity|]. cbn [v fst snd].
    split; [|split; [exact Eb|unfold VM_STACK_SIZE, grow in *; lia]].
    exists A, L', K'. cbn [v host procs acts frames held]. split; [exact OK'|]. split; [|split; [exact HH|]].
    + intros b. rewrite HK', HK. unfold kept. cbn [held acts]. split.
      * intros [(q & Hq & W)|W]; [exists q|exists (f_act f)]; (split; [|exact W]); apply in_app_iff; [left; exact Hq|right; left; reflexivity].
      * intros (q & Hq & W). apply in_app_iff in Hq as [Hq|[<-|[]]]; [left; exists q; auto|right; exact W].
    + rewrite map_app. cbn [map]. f_equal. rewrite HP. apply map_ext_in. intros q Hq. symmetry. apply HL'.
      eapply held_lt; eauto.
  - (* grab *)
    pose proof (vo_static _ _ _ _ _ _ _ OK) as ST. pose proof (vo_mem _ _ _ _ _ _ _ OK) as MO.
    destruct H as (xf & Hxf & Rf).
    pose proof (look_block OK f xf m y eq_refl Hxf Rf H0 H1) as GB. rewrite H2 in GB.
    destruct (st_blk _ _ _ _ _ _ _ _ _ ST _ _ _ _ H1 H2) as (Ht & Cb).
    destruct H3 as (g & Hg & Eg). apply In_nth_error in Hg as (k & Hg). cbn [frames] in Hg. subst b.
    destruct (capture_ok _ _ _ _ _ _ _ h (Z.to_nat VM_STACK_SIZE) k g OK HK Hg Cb H4) as (v' & L' & K' & E & OK' & Ec & HB & HK' & HL' & Eb).
    { unfold VM_STACK_SIZE. lia. }
    { unfold VM_STACK_SIZE, grow in *. lia. }
    eexists. split.
    { cbn [step]. rewrite GB. cbn [rbind]. unfold capture, cfp_from_frame.
      replace (stack_bottom (v x) + (A (f_act g) - stack_bottom (v x))) with (A (f_act g)) by lia. rewrite E. reflexivity. }
    cbn [v fst snd]. split; [|split; [exact Eb|unfold VM_STACK_SIZE, grow in *; lia]].
    exists A, L', K'. cbn [v host procs acts frames held]. split; [exact OK'|]. split; [|split; [exact HH|]].
    + intros b. rewrite HK', HK. unfold kept. cbn [held acts]. split.
      * intros [(q & Hq & W)|W]; [exists q|exists (f_act g)]; (split; [|exact W]); apply in_app_iff; [left; exact Hq|right; left; reflexivity].
      * intros (q & Hq & W). apply in_app_iff in Hq as [Hq|[<-|[]]]; [left; exists q; auto|right; exact W].
    + rewrite map_app. cbn [map]. f_equal. rewrite HP. apply map_ext_in. intros q Hq. symmetry. apply HL'.
      eapply held_lt; eauto.
Qed.

(* ---- the first frame ---- *)
Definition fresh (m : Z -> Z) (B h : Z) : vm := mkvm m B h B 0 0 0 0.
Lemma init_ok m B h : 0 < B -> B + 8192 <= h -> h < 2 ^ 60 ->
  exists s, init_frame (fresh m B h) = Ok s /\ rel start (mkmach s [] []) h /\ stack_bottom s = B /\ hp s = h.
Proof.
  intros HB Hh Hh2. unfold init_frame, fresh, push. cbn [sp stack_bottom].
  rewrite (proj2 (Z.eqb_neq (B - B) VM_STACK_SIZE)) by (unfold VM_STACK_SIZE; lia). cbn [rbind].
  unfold extend_from_slice. cbn [set_sp set_cfp set_mem sp cfp stack_bottom mem hp lfp iseq pc].
  change (zlen (control_frame 0 (B + 1) (native_flag 0))) with 3.
  rewrite (proj2 (Z.leb_le _ _)) by (unfold VM_STACK_SIZE; lia). cbn [set_sp set_cfp set_mem sp cfp stack_bottom mem hp lfp iseq pc].
  eexists. split; [reflexivity|]. cbn [stack_bottom hp]. split; [|auto].
  set (m' := write (upd m B NIL_VALUE) (B + 1) (control_frame 0 (B + 1) (native_flag 0))).
  assert (M0 : m' B = 36) by (unfold m', control_frame, write, upd; repeat match goal with |- context [?a =? ?b] => destruct (Z.eqb_spec a b); try lia end; reflexivity).
  assert (M1 : m' (B + 1) = enc 0) by (unfold m', control_frame, write, upd; repeat match goal with |- context [?a =? ?b] => destruct (Z.eqb_spec a b); try lia end; reflexivity).
  assert (M2 : m' (B + 1 + 1) = enc (B + 1)) by (unfold m', control_frame, write, upd; repeat match goal with |- context [?a =? ?b] => destruct (Z.eqb_spec a b); try lia end; reflexivity).
  assert (M3 : m' (B + 1 + 2) = native_flag 0) by (unfold m', control_frame, write, upd; repeat match goal with |- context [?a =? ?b] => destruct (Z.eqb_spec a b); try lia end; reflexivity).
  exists (fun _ => B + 1), (fun _ => B + 1), (fun _ => False). unfold start. cbn [v host procs acts frames held].
  split; [|split; [|split; [reflexivity|reflexivity]]].
  2:{ intros a. split; [contradiction|]. intros (p & [] & _). }
  assert (ONE : forall k f, nth_error [mkframe 0 [] 0] k = Some f -> k = O /\ f = mkframe 0 [] 0).
  { intros [|[|k]] f E; [split; [reflexivity|injection E as <-; reflexivity]|discriminate|discriminate]. }
  assert (ACT : forall a x, nth_error [mkact false true 0x24 [] None 0 None] a = Some x -> a = O /\ x = mkact false true 0x24 [] None 0 None).
  { intros [|[|a]] x E; [split; [reflexivity|injection E as <-; reflexivity]|discriminate|discriminate]. }
  split.
  - cbn [stack_bottom hp sp mem cfp lfp iseq pc set_sp set_cfp set_mem]. split.
    + exists (mkact false true 36 [] None 0 None). repeat split; cbn; lia.
    + lia.
    + lia.
    + repeat constructor; auto.
    + intros k f x p E Hx Hp. apply ONE in E as [-> ->]. apply ACT in Hx as [_ ->]. discriminate.
    + contradiction.
    + contradiction.
    + auto.
    + intros a x Hx. apply ACT in Hx as [_ ->]. cbn. lia.
    + intros a x Hx R. apply ACT in Hx as [_ ->]. discriminate.
    + intros a x p Hx R. apply ACT in Hx as [_ ->]. discriminate.
    + intros a x t b Hx R. apply ACT in Hx as [_ ->]. discriminate.
    + intros a Ha. lia.
    + auto.
    + contradiction.
    + contradiction.
    + intros k f E. apply ONE in E as [-> ->]. cbn. lia.
    + exists (mkframe 0 [] 0). auto.
    + eexists. split; reflexivity.
  - cbn [stack_bottom hp sp mem cfp lfp iseq pc set_sp set_cfp set_mem]. fold m'. split.
    + intros k f x E Hx. apply ONE in E as [-> ->]. apply ACT in Hx as [_ ->]. split; cbn [f_act f_ops f_pc a_ruby].
      * cbn [nth_error]. replace (B + 1 + EV_PREV_CFP) with (B + 1) by (unfold EV_PREV_CFP; lia). exact M1.
      * exact M2.
      * exact M3.
      * discriminate.
      * intros [|j] w; discriminate.
      * replace (B + 1 - 1) with B by lia. exact M0.
    + intros a x _ Hx. apply ACT in Hx as [-> ->]. split; cbn [a_ruby a_vars].
      * exact M2.
      * exact M3.
      * replace (B + 1 - 1) with B by lia. exact M0.
      * congruence.
      * intros [|i] w; discriminate.
      * discriminate.
      * discriminate.
    + intros a x _ _ Hx R. apply ACT in Hx as [_ ->]. discriminate.
  - cbn [cfp]. reflexivity.
  - cbn. lia.
  - intros f x E Hx R. apply ACT in Hx as [_ ->]. discriminate.
Qed.

Lemma rel_agrees s x hp0 : rel s x hp0 -> agrees x s.
Proof.
  intros (A & L & K & OK & _). pose proof (vo_static _ _ _ _ _ _ _ OK) as ST. pose proof (vo_mem _ _ _ _ _ _ _ OK) as MO.
  destruct s as [l fs h]. cbn [acts frames held] in *. destruct fs as [|f fs].
  { destruct (st_last _ _ _ _ _ _ _ _ _ ST) as (f0 & E & _). discriminate. }
  destruct (top_act _ _ _ _ _ _ _ _ OK) as (a & Ha & T1 & T2 & T3).
  exists f, fs, a. split; [reflexivity|]. split; [exact Ha|].
  pose proof (vo_cfp _ _ _ _ _ _ _ OK f eq_refl) as EC.
  split; cbn [acts frames held].
  - exact T3.
  - rewrite EC, T1. unfold hd_len, nops. lia.
  - rewrite EC. apply (ruby_live MO O f a eq_refl Ha).
  - intros j w. apply (look_op OK f a j w eq_refl Ha).
  - intros R. apply (vo_code _ _ _ _ _ _ _ OK f a eq_refl Ha R).
  - intros NE. assert (LF : lfp (v x) = L (f_act f) - nv a - 1).
    { apply (vo_lfp _ _ _ _ _ _ _ OK f a eq_refl); [destruct fs; [congruence|cbn; lia]|exact Ha]. }
    rewrite LF. replace (L (f_act f) - nv a - 1 - 1) with (L (f_act f) - nv a - 2) by lia.
    eapply en_self2; [eapply mo_env; [exact MO|apply (live_present (fs := f :: fs) (K := K) O f eq_refl)|exact Ha]|].
    destruct (st_last _ _ _ _ _ _ _ _ _ ST) as (f0 & Hf0 & E0). intros Ef.
    assert (length (f :: fs) - 1 = 0)%nat by (eapply live_inj; [exact ST|exact Hf0|reflexivity|congruence]).
    destruct fs; [congruence|cbn in *; lia].
  - intros NE d i b y w U Hy Hw. destruct (look_var OK f d b y i w eq_refl) as (p & Ep & _ & Em); auto.
    { destruct fs; [congruence|cbn; lia]. }
    exists p. auto.
  - intros R m y HM Hy. pose proof (look_block OK f a m y eq_refl Ha R HM Hy) as GB. eexists. split; [exact GB|].
    destruct (a_blk y) as [[t b]|]; auto.
Qed.

Lemma sims s ops s' : runs no_sibling s ops s' -> forall x hp0, rel s x hp0 -> hp (v x) + grow * Z.of_nat (length ops) < 2 ^ 60 ->
  exists x', steps ops x = Ok x' /\ rel s' x' hp0 /\ stack_bottom (v x') = stack_bottom (v x) /\
    hp (v x) <= hp (v x') <= hp (v x) + grow * Z.of_nat (length ops).
Proof.
  assert (G0 : 0 <= grow) by (unfold grow; lia).
  induction 1 as [s|s o s1 l s2 HA HR IH]; intros x hp0 R H.
  - exists x. cbn. repeat split; auto; lia.
  - cbn [length] in *. destruct (sim _ _ _ _ _ HA R) as (x1 & E1 & R1 & B1 & H1); [nia|].
    destruct (IH _ _ R1) as (x2 & E2 & R2 & B2 & H2); [nia|].
    exists x2. cbn [steps]. rewrite E1. cbn [rbind]. split; [exact E2|]. split; [exact R2|]. split; [congruence|nia].
Qed.
