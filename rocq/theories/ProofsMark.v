(* Frames: what marking visits. *)
From Verif Require Import Base ModelValue ModelArray ModelFrame SpecFrame ProofsFrame ProofsFrame2 ProofsFrame3 ProofsFrame5 ProofsFrame11 ModelMark SpecMark.

Lemma In_read m : forall n a p, a <= p < a + Z.of_nat n -> In (m p) (read m a n).
Proof.
  induction n as [|n IH]; intros a p H; [lia|]. cbn [read]. destruct (Z.eq_dec p a) as [->|N]; [left; reflexivity|].
  right. apply IH. lia.
Qed.

Section Mark.
Context {l : list act} {fs : list frame} {A L : nat -> Z} {K : nat -> Prop} {B hp0 h tp : Z} {m : Z -> Z}.
Hypothesis ST : static l fs A L K B hp0 h tp.
Hypothesis MO : memok m l fs A L K (fun _ => False) B.

Lemma vars_in_locals a x w : present fs K a -> nth_error l a = Some x -> In w (a_vars x) -> In w (locals m (L a)).
Proof.
  intros Pa Hx Hw. apply In_nth_error in Hw as (i & Hi). pose proof (nth_some_lt _ _ _ Hi) as Li.
  rewrite <- (en_vars _ _ _ _ _ _ (mo_env _ _ _ _ _ _ _ _ MO _ _ Pa Hx) _ _ Hi).
  unfold locals. rewrite (flag_env MO _ _ Pa Hx). apply In_read. unfold nv. lia.
Qed.
Lemma env_marked fuel : forall a, present fs K a -> is_code l a -> (a < fuel)%nat ->
  exists r, env_mark fuel m (L a) = Ok r /\ forall b y w, within l a b -> nth_error l b = Some y -> In w (a_vars y) -> In w r.
Proof.
  induction fuel as [|n IH]; intros a Pa (x & Hx & R) Hf; [lia|]. cbn [env_mark].
  rewrite (ruby_env MO _ _ Pa Hx), R. rewrite (outer_env ST MO _ _ Pa (fun X => X) Hx R). cbn [rbind].
  destruct (a_parent x) as [p|] eqn:E; cbn [option_map].
  - destruct (st_parent _ _ _ _ _ _ _ _ _ ST _ _ _ Hx E) as (Hp & Cp & _).
    destruct (IH p (present_parent ST _ _ _ Pa Hx E) Cp ltac:(lia)) as (r & -> & Hr). cbn [rbind].
    eexists. split; [reflexivity|]. intros b y w W Hy Hw. apply in_or_app.
    apply within_inv in W as [<-|(z & q & Hz & Hq & W)].
    + left. assert (y = x) by congruence. subst y. eapply vars_in_locals; eauto.
    + right. rewrite Hx in Hz. injection Hz as <-. rewrite E in Hq. injection Hq as <-. eauto.
  - eexists. split; [reflexivity|]. intros b y w W Hy Hw. rewrite app_nil_r.
    apply within_inv in W as [<-|(z & q & Hz & Hq & W)]; [|congruence].
    assert (y = x) by congruence. subst y. eapply vars_in_locals; eauto.
Qed.
End Mark.

Section Frames.
Context {s : vm} {l : list act} {fs : list frame} {A L : nat -> Z} {K : nat -> Prop} {hp0 : Z}.
Hypothesis OK : vmok s l fs A L K hp0.
Let ST := vo_static _ _ _ _ _ _ _ OK.
Let MO := vo_mem _ _ _ _ _ _ _ OK.
Let stack := read (mem s) (stack_bottom s) (Z.to_nat (sp s - stack_bottom s)).

Lemma in_stack p : stack_bottom s <= p < sp s -> In (mem s p) stack.
Proof. intros H. apply In_read. lia. Qed.
Lemma frame_marked depth k f x : nth_error fs k = Some f -> nth_error l (f_act f) = Some x -> (f_act f <= depth)%nat ->
  exists r, frame_mark depth s (A (f_act f)) = Ok r /\
    forall b y w, within l (f_act f) b -> nth_error l b = Some y -> In w (a_vars y) -> In w (stack ++ r).
Proof.
  intros Hf Hx Hd. pose proof (live_present (K := K) _ _ Hf) as Pf. unfold frame_mark.
  rewrite (ruby_live MO _ _ _ Hf Hx).
  pose proof (lay_bounds _ _ _ _ _ k f (st_lay _ _ _ _ _ _ _ _ _ ST) Hf) as (z & Hz & LB1 & LB2).
  assert (z = x) by congruence. subst z.
  assert (HD : 3 <= hd_len x) by (unfold hd_len; destruct (a_ruby x); lia). assert (NO : 0 <= nops f) by (unfold nops; lia).
  (* the frame's own variables *)
  assert (OWN : forall w r, In w (a_vars x) -> In w (stack ++ (if on_stack s (L (f_act f)) then [] else locals (mem s) (L (f_act f))) ++ r)).
  { intros w r Hw. destruct (st_Kdec _ _ _ _ _ _ _ _ _ ST (f_act f)) as [HK|HK].
    - destruct (st_heap _ _ _ _ _ _ _ _ _ ST _ _ HK Hx) as (H1 & H2). pose proof (st_bot _ _ _ _ _ _ _ _ _ ST) as H3.
      assert (0 <= nv x) by (unfold nv; lia).
      replace (on_stack s (L (f_act f))) with false by (unfold on_stack, VM_STACK_SIZE; symmetry; apply andb_false_iff; right; apply Z.ltb_ge; lia).
      apply in_or_app. right. apply in_or_app. left. eapply (vars_in_locals MO); eauto.
    - apply in_or_app. left. pose proof (st_loc _ _ _ _ _ _ _ _ _ ST _ ltac:(exists k, f; auto) HK) as EL.
      apply In_nth_error in Hw as (i & Hi). pose proof (nth_some_lt _ _ _ Hi) as Li.
      rewrite <- (en_vars _ _ _ _ _ _ (mo_env _ _ _ _ _ _ _ _ MO _ _ Pf Hx) _ _ Hi). apply in_stack.
      rewrite EL. unfold nv in *. lia. }
  destruct (a_ruby x) eqn:R.
  - rewrite (ep_live ST MO _ _ Hf). cbn [rbind]. rewrite (outer_env ST MO _ _ Pf (fun X => X) Hx R). cbn [rbind].
    destruct (a_parent x) as [p|] eqn:E; cbn [option_map].
    + destruct (st_parent _ _ _ _ _ _ _ _ _ ST _ _ _ Hx E) as (Hp & Cp & _).
      destruct (env_marked ST MO depth p (present_parent ST _ _ _ Pf Hx E) Cp ltac:(lia)) as (r & -> & Hr). cbn [rbind].
      eexists. split; [reflexivity|]. intros b y w W Hy Hw. apply within_inv in W as [<-|(z & q & Hz' & Hq & W)].
      * assert (y = x) by congruence. subst y. apply OWN. exact Hw.
      * rewrite Hx in Hz'. injection Hz' as <-. rewrite E in Hq. injection Hq as <-.
        apply in_or_app. right. apply in_or_app. right. eauto.
    + eexists. split; [reflexivity|]. intros b y w W Hy Hw. apply within_inv in W as [<-|(z & q & Hz' & Hq & W)]; [|congruence].
      assert (y = x) by congruence. subst y. apply OWN. exact Hw.
  - eexists. split; [reflexivity|]. intros b y w W Hy Hw. apply within_inv in W as [<-|(z & q & Hz' & Hq & W)].
    + assert (y = x) by congruence. subst y. rewrite app_nil_r.
      apply In_nth_error in Hw as (i & Hi). pose proof (nth_some_lt _ _ _ Hi) as Li.
      rewrite <- (en_vars _ _ _ _ _ _ (mo_env _ _ _ _ _ _ _ _ MO _ _ Pf Hx) _ _ Hi). apply in_stack.
      rewrite (st_loc _ _ _ _ _ _ _ _ _ ST _ ltac:(exists k, f; auto)); [unfold nv in *; lia|].
      intros HK. destruct (st_Kcode _ _ _ _ _ _ _ _ _ ST _ HK) as (q & Hq & Rq). congruence.
    + destruct (st_parent _ _ _ _ _ _ _ _ _ ST _ _ _ Hz' Hq) as (_ & _ & Rz). congruence.
Qed.
Lemma prev_last k f : nth_error fs k = Some f -> nth_error fs (S k) = None -> prev (mem s) (A (f_act f)) = None.
Proof.
  intros E E2. destruct (present_act ST _ (live_present (K := K) _ _ E)) as (x & Hx). unfold prev.
  rewrite (fr_prev _ _ _ _ _ _ _ (mo_fr _ _ _ _ _ _ _ _ MO _ _ _ E Hx)), E2. reflexivity.
Qed.
Lemma frames_marked depth : (length l <= depth)%nat -> forall fuel k f, nth_error fs k = Some f -> (length fs <= k + fuel)%nat ->
  exists r, frames_mark fuel depth s (A (f_act f)) = Ok r /\
    forall j g b y w, (k <= j)%nat -> nth_error fs j = Some g -> within l (f_act g) b -> nth_error l b = Some y -> In w (a_vars y) ->
      In w (stack ++ r).
Proof.
  intros Hl. induction fuel as [|n IH]; intros k f Hf Hk.
  - apply nth_some_lt in Hf. lia.
  - cbn [frames_mark]. pose proof (live_lt ST _ _ Hf) as Lf. destruct (present_act ST _ (live_present (K := K) _ _ Hf)) as (x & Hx).
    destruct (frame_marked depth k f x Hf Hx ltac:(lia)) as (r & -> & Hr). cbn [rbind].
    destruct (nth_error fs (S k)) as [g|] eqn:E.
    + rewrite (prev_live ST MO _ _ _ Hf E). destruct (IH (S k) g E ltac:(lia)) as (r' & -> & Hr'). cbn [rbind].
      eexists. split; [reflexivity|]. intros j q b y w Hj Hq W Hy Hw. destruct (Nat.eq_dec j k) as [->|N].
      * assert (q = f) by congruence. subst q. rewrite app_assoc. apply in_or_app. left. eauto.
      * pose proof (Hr' j q b y w ltac:(lia) Hq W Hy Hw) as I. apply in_app_or in I as [I|I]; apply in_or_app; [left; exact I|right].
        apply in_or_app. right. exact I.
    + rewrite (prev_last _ _ Hf E). cbn [rbind]. eexists. split; [reflexivity|]. intros j q b y w Hj Hq W Hy Hw.
      assert (j = k). { apply nth_error_None in E. apply nth_some_lt in Hq. lia. } subst j.
      assert (q = f) by congruence. subst q. rewrite app_nil_r. eauto.
Qed.
Lemma ops_in_stack k f w : nth_error fs k = Some f -> In w (f_ops f) -> In w stack.
Proof.
  intros Hf Hw. destruct (lay_bounds _ _ _ _ _ k f (st_lay _ _ _ _ _ _ _ _ _ ST) Hf) as (x & Hx & LB1 & LB2).
  apply In_nth_error in Hw as (j & Hj). pose proof (nth_some_lt _ _ _ Hj).
  rewrite <- (fr_ops _ _ _ _ _ _ _ (mo_fr _ _ _ _ _ _ _ _ MO _ _ _ Hf Hx) _ _ Hj). apply in_stack.
  unfold nops, hd_len, nv in *. destruct (a_ruby x); lia.
Qed.
Lemma self_in_stack k f x : nth_error fs k = Some f -> nth_error l (f_act f) = Some x -> In (a_self x) stack.
Proof.
  intros Hf Hx. destruct (lay_bounds _ _ _ _ _ k f (st_lay _ _ _ _ _ _ _ _ _ ST) Hf) as (z & Hz & LB1 & LB2).
  assert (z = x) by congruence. subst z.
  rewrite <- (fr_self _ _ _ _ _ _ _ (mo_fr _ _ _ _ _ _ _ _ MO _ _ _ Hf Hx)). apply in_stack.
  unfold nops, hd_len, nv in *. destruct (a_ruby x); lia.
Qed.
End Frames.

Lemma all_marked s x hp0 temp fuel : rel s x hp0 -> (length (acts s) <= fuel)%nat -> (length (frames s) <= fuel)%nat -> frames s <> [] ->
  exists r, vm_mark fuel temp (v x) = Ok r /\ (forall w, usable s w -> In w r) /\ (forall w, In w temp -> In w r).
Proof.
  intros (A & L & K & OK & HK & HO & HP) H1 H2 NE. unfold vm_mark.
  destruct (frames s) as [|f fs] eqn:EF; [congruence|]. pose proof OK as OK'.
  rewrite (vo_cfp _ _ _ _ _ _ _ OK f eq_refl).
  destruct (frames_marked OK fuel H1 fuel O f eq_refl ltac:(cbn in *; lia)) as (r & -> & Hr). cbn [rbind].
  eexists. split; [reflexivity|]. split.
  - intros w U. inversion U as [g w0 Hg Hw|g y Hg Hy|g b y w0 Hg W Hy Hw]; subst; rewrite EF in Hg; apply In_nth_error in Hg as (k & Hk).
    + apply in_or_app. left. eapply (ops_in_stack OK); eauto.
    + apply in_or_app. left. eapply (self_in_stack OK); eauto.
    + pose proof (Hr k g b y w ltac:(lia) Hk W Hy Hw) as I. apply in_app_or in I as [I|I]; apply in_or_app; [left; exact I|right].
      apply in_or_app. right. exact I.
  - intros w Hw. apply in_or_app. right. apply in_or_app. left. exact Hw.
Qed.
Lemma proc_marked s x hp0 self j p fuel : rel s x hp0 -> nth_error (held s) j = Some p -> (length (acts s) <= fuel)%nat ->
  exists e r, nth_error (procs x) j = Some e /\ proc_mark fuel (mem (v x)) self e = Ok r /\ In self r /\
    forall w, closed_over s p w -> In w r.
Proof.
  intros (A & L & K & OK & HK & HO & HP) Hj Hf. pose proof (vo_static _ _ _ _ _ _ _ OK) as ST.
  destruct s as [l fs hs]. cbn [acts frames held] in *.
  destruct (held_lt _ _ _ _ _ _ _ _ _ _ ST HK p ltac:(eapply nth_error_In; eauto)) as (Kp & Lp).
  destruct (env_marked ST (vo_mem _ _ _ _ _ _ _ OK) fuel p ltac:(right; exact Kp) (st_Kcode _ _ _ _ _ _ _ _ _ ST _ Kp) ltac:(lia)) as (r & E & Hr).
  exists (L p), (self :: r). rewrite HP. split; [apply map_nth_error; exact Hj|]. unfold proc_mark. rewrite E. split; [reflexivity|].
  split; [left; reflexivity|]. intros w (b & y & W & Hy & Hw). right. eauto.
Qed.
