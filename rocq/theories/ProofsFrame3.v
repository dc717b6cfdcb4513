(* Frames: reading registers, environments and variables. *)
From Verif Require Import Base ModelValue ModelArray ModelFrame SpecFrame ProofsFrame ProofsFrame2.

Record vmok (s : vm) (l : list act) (fs : list frame) (A L : nat -> Z) (K : nat -> Prop) (hp0 : Z) : Prop := mkvmok {
  vo_static : static l fs A L K (stack_bottom s) hp0 (hp s) (sp s);
  vo_mem : memok (mem s) l fs A L K (fun _ => False) (stack_bottom s);
  vo_cfp : forall f, nth_error fs 0 = Some f -> cfp s = A (f_act f);
  vo_lfp : forall f x, nth_error fs 0 = Some f -> (1 < length fs)%nat -> nth_error l (f_act f) = Some x ->
    lfp s = L (f_act f) - nv x - 1;
  vo_code : forall f x, nth_error fs 0 = Some f -> nth_error l (f_act f) = Some x -> a_ruby x = true ->
    iseq s = a_iseq x /\ pc s = f_pc f
}.

Section Read.
Context {l : list act} {fs : list frame} {A L : nat -> Z} {K : nat -> Prop} {B hp0 h tp : Z}.
Hypothesis ST : static l fs A L K B hp0 h tp.

Lemma live_present k f : nth_error fs k = Some f -> present fs K (f_act f).
Proof. intros H. left. exists k, f. auto. Qed.
Lemma present_act a : present fs K a -> exists x, nth_error l a = Some x.
Proof.
  intros [(k & f & E & <-)|H].
  - destruct (lay_bounds _ _ _ _ _ _ _ (st_lay _ _ _ _ _ _ _ _ _ ST) E) as (x & Hx & _). eauto.
  - destruct (st_Kcode _ _ _ _ _ _ _ _ _ ST _ H) as (x & Hx & _). eauto.
Qed.
Lemma present_parent a x p : present fs K a -> nth_error l a = Some x -> a_parent x = Some p -> present fs K p.
Proof.
  intros [(k & f & E & <-)|H] Hx Hp.
  - destruct (st_par _ _ _ _ _ _ _ _ _ ST _ _ _ _ E Hx Hp) as [C|(j & g & _ & Hg & <-)]; [right; exact C|].
    apply (live_present _ _ Hg).
  - right. eapply st_Kpar; eauto.
Qed.
Lemma present_within a b : within l a b -> present fs K a -> present fs K b.
Proof.
  intros (d & H). revert a H. induction d as [|d IH]; intros a H Pa; cbn in H; [congruence|].
  destruct (nth_error l a) as [x|] eqn:E; [|discriminate]. destruct (a_parent x) as [p|] eqn:E2; [|discriminate].
  apply (IH _ H). eapply present_parent; eauto.
Qed.
(* where an environment lies *)
Lemma env_place a x : present fs K a -> nth_error l a = Some x ->
  (K a /\ hp0 <= L a - nv x - 2 /\ L a + 8 <= h) \/
  (~ K a /\ L a = A a /\ B - 1 <= A a - nv x - 2 /\ A a + hd_len x <= tp).
Proof.
  intros Pa Hx. destruct (st_Kdec _ _ _ _ _ _ _ _ _ ST a) as [HK|HK].
  - left. split; [exact HK|]. eapply st_heap; eauto.
  - right. destruct Pa as [Pa|Pa]; [|contradiction]. split; [exact HK|]. split; [eapply st_loc; eauto|].
    destruct Pa as (k & f & E & <-).
    destruct (lay_bounds _ _ _ _ _ _ _ (st_lay _ _ _ _ _ _ _ _ _ ST) E) as (y & Hy & H1 & H2).
    assert (x = y) by congruence. subst y. unfold nops in *. lia.
Qed.
Lemma L_range a : present fs K a -> 0 < L a < 2 ^ 60.
Proof.
  intros Pa. destruct (present_act _ Pa) as (x & Hx). pose proof (st_bot _ _ _ _ _ _ _ _ _ ST).
  pose proof (st_fit _ _ _ _ _ _ _ _ _ ST).
  destruct (env_place _ _ Pa Hx) as [(_ & H1 & H2)|(_ & -> & H1 & H2)]; unfold nv, hd_len in *; destruct (a_ruby x); lia.
Qed.
Lemma A_range a : (a < length l)%nat -> 0 < A a < 2 ^ 60.
Proof. intros H. pose proof (st_A _ _ _ _ _ _ _ _ _ ST _ H). pose proof (st_bot _ _ _ _ _ _ _ _ _ ST). lia. Qed.
Lemma live_lt k f : nth_error fs k = Some f -> (f_act f < length l)%nat.
Proof.
  intros E. destruct (present_act _ (live_present _ _ E)) as (x & Hx). apply nth_error_Some. congruence.
Qed.

Context {m : Z -> Z} {P : nat -> Prop}.
Hypothesis MO : memok m l fs A L K P B.
Lemma ep_live k f : nth_error fs k = Some f -> ep m (A (f_act f)) = Ok (L (f_act f)).
Proof.
  intros E. destruct (present_act _ (live_present _ _ E)) as (x & Hx).
  unfold ep. rewrite (fr_ep _ _ _ _ _ _ _ (mo_fr _ _ _ _ _ _ _ _ MO _ _ _ E Hx)).
  rewrite dec_enc; [reflexivity|]. apply L_range. eapply live_present; eauto.
Qed.
Lemma ep_env a : present fs K a -> ep m (L a) = Ok (L a).
Proof.
  intros Pa. destruct (present_act _ Pa) as (x & Hx). unfold ep.
  rewrite (en_ep _ _ _ _ _ _ (mo_env _ _ _ _ _ _ _ _ MO _ _ Pa Hx)). rewrite dec_enc by (apply L_range; auto). reflexivity.
Qed.
Lemma ruby_env a x : present fs K a -> nth_error l a = Some x -> is_ruby m (L a) = a_ruby x.
Proof. intros Pa Hx. apply is_ruby_of. eapply en_flag, mo_env; eauto. Qed.
Lemma ruby_live k f x : nth_error fs k = Some f -> nth_error l (f_act f) = Some x -> is_ruby m (A (f_act f)) = a_ruby x.
Proof. intros E Hx. apply is_ruby_of. eapply fr_flag, mo_fr; eauto. Qed.
Lemma flag_env a x : present fs K a -> nth_error l a = Some x -> flag_len m (L a) = nv x.
Proof. intros Pa Hx. apply flag_len_of. eapply en_flag, mo_env; eauto. Qed.
Lemma flag_live k f x : nth_error fs k = Some f -> nth_error l (f_act f) = Some x -> flag_len m (A (f_act f)) = nv x.
Proof. intros E Hx. apply flag_len_of. eapply fr_flag, mo_fr; eauto. Qed.
Lemma lfp_env a x : present fs K a -> nth_error l a = Some x -> get_lfp m (L a) = L a - nv x - 1.
Proof. intros Pa Hx. unfold get_lfp. rewrite (flag_env _ _ Pa Hx). reflexivity. Qed.
Lemma outer_env a x : present fs K a -> ~ P a -> nth_error l a = Some x -> a_ruby x = true ->
  outer m (L a) = Ok (option_map L (a_parent x)).
Proof.
  intros Pa NP Hx R. unfold outer. rewrite (ruby_env _ _ Pa Hx), R.
  rewrite (ln_outer _ _ _ _ _ (mo_link _ _ _ _ _ _ _ _ MO _ _ Pa NP Hx R)).
  destruct (a_parent x) as [p|] eqn:E; cbn [option_map enc_opt]; [|reflexivity].
  rewrite dec_enc; [reflexivity|]. apply L_range. eapply present_parent; eauto.
Qed.
Lemma mfp_env a x r : present fs K a -> ~ P a -> nth_error l a = Some x -> a_ruby x = true -> method_of l a r ->
  mfp m (L a) = Ok (L r).
Proof.
  intros Pa NP Hx R M. unfold mfp. rewrite (ruby_env _ _ Pa Hx), R.
  rewrite (ln_mfp _ _ _ _ _ (mo_link _ _ _ _ _ _ _ _ MO _ _ Pa NP Hx R) _ M).
  rewrite dec_enc; [reflexivity|]. apply L_range. destruct M as [W _]. eapply present_within; eauto.
Qed.
Lemma outer_up d : forall a b, present fs K a -> (forall c, within l a c -> ~ P c) -> up l d a = Some b ->
  outer_frame m d (L a) = Ok (L b).
Proof.
  induction d as [|d IH]; intros a b Pa NP H; cbn in H |- *; [congruence|].
  destruct (nth_error l a) as [x|] eqn:E; [|discriminate]. destruct (a_parent x) as [p|] eqn:E2; [|discriminate].
  destruct (st_parent _ _ _ _ _ _ _ _ _ ST _ _ _ E E2) as (_ & _ & R).
  rewrite (outer_env _ _ Pa (NP _ (within_refl _ _)) E R), E2. cbn [rbind option_map unwrap].
  apply IH; [eapply present_parent; eauto | | exact H].
  intros c W. apply NP. eapply within_step; eauto.
Qed.
Lemma prev_live k f g : nth_error fs k = Some f -> nth_error fs (S k) = Some g -> prev m (A (f_act f)) = Some (A (f_act g)).
Proof.
  intros E E2. destruct (present_act _ (live_present _ _ E)) as (x & Hx). unfold prev.
  rewrite (fr_prev _ _ _ _ _ _ _ (mo_fr _ _ _ _ _ _ _ _ MO _ _ _ E Hx)), E2. apply dec_enc.
  apply A_range. eapply live_lt; eauto.
Qed.
Lemma nth_prev_live k : forall j f g, nth_error fs j = Some f -> nth_error fs (j + k) = Some g ->
  nth_prev m k (A (f_act f)) = Ok (A (f_act g)).
Proof.
  induction k as [|k IH]; intros j f g E1 E2; cbn [nth_prev].
  - rewrite Nat.add_0_r in E2. congruence.
  - destruct (nth_error fs (S j)) as [h'|] eqn:E3.
    + rewrite (prev_live _ _ _ E1 E3). cbn [unwrap rbind]. apply (IH (S j)); [exact E3|]. rewrite <- E2. f_equal. lia.
    + exfalso. apply nth_error_None in E3. assert (nth_error fs (j + S k) <> None) by congruence.
      apply nth_error_Some in H. lia.
Qed.
(* the method of a present activation *)
Lemma root_exists : forall a, present fs K a -> exists r, method_of l a r.
Proof.
  induction a as [a IH] using (well_founded_induction lt_wf). intros Pa.
  destruct (present_act _ Pa) as (x & Hx). destruct (a_parent x) as [p|] eqn:E.
  - destruct (st_parent _ _ _ _ _ _ _ _ _ ST _ _ _ Hx E) as (Hlt & _).
    destruct (IH p Hlt (present_parent _ _ _ Pa Hx E)) as (r & W & y & Hy & N).
    exists r. split; [eapply within_step; eauto|eauto].
  - exists a. split; [apply within_refl|eauto].
Qed.
Lemma root_unique a r r' : method_of l a r -> method_of l a r' -> r = r'.
Proof.
  intros [(d & H) (x & Hx & N)] [(d' & H') (x' & Hx' & N')]. revert a d' H H'.
  induction d as [|d IH]; intros a d' H H'; destruct d' as [|d']; cbn in H, H'.
  - congruence.
  - injection H as ->. rewrite Hx, N in H'. discriminate.
  - injection H' as ->. rewrite Hx', N' in H. discriminate.
  - destruct (nth_error l a) as [y|]; [|discriminate]. destruct (a_parent y) as [p|]; [|discriminate]. eauto.
Qed.
Lemma code_within a b : is_code l a -> within l a b -> is_code l b.
Proof.
  intros C (d & H). revert a C H. induction d as [|d IH]; intros a C H; cbn in H; [congruence|].
  destruct (nth_error l a) as [x|] eqn:E; [|discriminate]. destruct (a_parent x) as [p|] eqn:E2; [|discriminate].
  destruct (st_parent _ _ _ _ _ _ _ _ _ ST _ _ _ E E2) as (_ & Cp & _). exact (IH p Cp H).
Qed.
End Read.

Lemma blk_word_read t f : 0 < t < 2 ^ 30 -> 0 <= f < 2 ^ 32 ->
  word_blk (blk_word (Some (KBlock t f))) = Ok (Some (KBlock t f)).
Proof. intros. apply word_blk_block; lia. Qed.

(* What the machine shows of its innermost frame. *)
Section Look.
Context {s : vm} {l : list act} {fs : list frame} {A L : nat -> Z} {K : nat -> Prop} {hp0 : Z}.
Hypothesis OK : vmok s l fs A L K hp0.
Let ST := vo_static _ _ _ _ _ _ _ OK.
Let MO := vo_mem _ _ _ _ _ _ _ OK.
Lemma look_var f d a x i w : nth_error fs 0 = Some f -> (1 < length fs)%nat -> up l d (f_act f) = Some a ->
  nth_error l a = Some x -> nth_error (a_vars x) i = Some w ->
  exists p, var_slot d (Z.of_nat i) s = Ok p /\ p = L a - nv x - 1 + Z.of_nat i /\ mem s p = w.
Proof.
  intros E N U Hx Hw. pose proof (live_present (K := K) _ _ E) as Pf.
  assert (Pa : present fs K a) by (eapply (present_within ST); [exists d; exact U | exact Pf]).
  exists (L a - nv x - 1 + Z.of_nat i). split; [|split; [reflexivity|]].
  - unfold var_slot. destruct d as [|d].
    + cbn in U. injection U as <-. rewrite (vo_lfp _ _ _ _ _ _ _ OK _ _ E N Hx). reflexivity.
    + unfold get_dyn_local. rewrite (vo_cfp _ _ _ _ _ _ _ OK _ E), (ep_live ST MO _ _ E). cbn [rbind].
      rewrite (outer_up ST MO _ _ _ Pf (fun _ _ X => X) U). cbn [rbind]. rewrite (lfp_env MO _ _ Pa Hx). reflexivity.
  - eapply en_vars; [eapply (mo_env _ _ _ _ _ _ _ _ MO); eauto | exact Hw].
Qed.
Lemma look_block f x r y : nth_error fs 0 = Some f -> nth_error l (f_act f) = Some x -> a_ruby x = true ->
  method_of l (f_act f) r -> nth_error l r = Some y ->
  get_method_block s = Ok (match a_blk y with Some (t, b) => Some (KBlock t (A b - stack_bottom s)) | None => None end).
Proof.
  intros E Hx R M Hy. pose proof (live_present (K := K) _ _ E) as Pf.
  assert (Pr : present fs K r) by (eapply (present_within ST); [apply M | exact Pf]).
  assert (Cr : is_code l r) by (eapply (code_within ST); [exists x; split; eassumption | apply M]).
  destruct Cr as (y' & Hy' & Ry). assert (y' = y) by congruence. subst y'.
  unfold get_method_block. rewrite (vo_cfp _ _ _ _ _ _ _ OK _ E), (ep_live ST MO _ _ E). cbn [rbind].
  rewrite (mfp_env ST MO _ _ _ Pf (fun X => X) Hx R M). cbn [rbind]. unfold frame_block.
  rewrite (ruby_env MO _ _ Pr Hy), Ry.
  rewrite (en_blk _ _ _ _ _ _ (mo_env _ _ _ _ _ _ _ _ MO _ _ Pr Hy) Ry).
  destruct (a_blk y) as [[t b]|] eqn:EB; [|reflexivity].
  destruct (st_blk _ _ _ _ _ _ _ _ _ ST _ _ _ _ Hy EB) as (Ht & z & Hz & _).
  assert (b < length l)%nat by (apply nth_error_Some; congruence).
  pose proof (st_A _ _ _ _ _ _ _ _ _ ST _ H). apply blk_word_read; lia.
Qed.
Lemma look_op f x j w : nth_error fs 0 = Some f -> nth_error l (f_act f) = Some x -> nth_error (f_ops f) j = Some w ->
  mem s (sp s - 1 - Z.of_nat j) = w.
Proof.
  intros E Hx Hw. rewrite <- (fr_ops _ _ _ _ _ _ _ (mo_fr _ _ _ _ _ _ _ _ MO _ _ _ E Hx) _ _ Hw). f_equal.
  pose proof (st_lay _ _ _ _ _ _ _ _ _ ST) as La. destruct fs as [|g r]; [discriminate|]. cbn in E. injection E as ->.
  destruct La as (y & Hy & Htp & _). assert (y = x) by congruence. subst y. lia.
Qed.
End Look.
