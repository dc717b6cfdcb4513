(** Where the changes of stack arrive. *)
From Coq Require Import ZArith List Bool Lia.
From Verif Require Import ModelSwitch SpecSwitch ProofsSwitch ProofsSwitch2 ProofsSwitch3.
Import ListNotations.
Local Open Scope Z_scope.

Section Arr.
Variable A : arch.
Variables ml mh : Z.
Notation area := (area ml mh). Notation block := (block ml mh). Notation act := (act A ml mh). Notation reach := (reach A ml mh).
Notation on_stack := (on_stack A ml mh). Notation fresh := (fresh ml mh). Notation inv := (inv A ml mh).
Notation first_entry := (first_entry A). Notation resume_writes := (resume_writes A).

Lemma land m s c p : image A m p s -> p = s_sp s - room A -> (forall a, s_sp s - room A <= a < s_sp s -> mem c a = m a) ->
  resumed A p c -> regs c SP = p + room A -> back A s c.
Proof.
  intros [I1 I2] -> E [R1 R2] Hs. split; [|split].
  - rewrite R1, E; [exact I1|]. pose proof (pcoff_in A). lia.
  - lia.
  - intros r H. rewrite (R2 r H), E; [exact (I2 r H)|]. pose proof (off_in A r H). lia.
Qed.

Lemma resume_ok m w ra f b m' : inv m w -> no_other m w -> ~ In f (map fst (chain w)) -> on_stack m w ->
  (pool m = [] -> b <> 0 /\ b mod 4096 = 0 /\ fresh m b STACK_SIZE) -> resume A ra f b m = Some m' ->
  let w' := mkwho ((f, snap_of ra (cp m)) :: chain w) (sets f None (susp w)) in
  inv m' w' /\ no_other m' w'
  /\ match susp w f with Some s => back A s (cp m') | None => first_entry f m' end
  /\ (forall a, mem (cp m') a <> mem (cp m) a -> resume_writes m m' w f a).
Proof.
  intros I NO N On Al. unfold resume. destruct (fibs m f) as [x|] eqn:F; [|discriminate].
  destruct (state x) eqn:Sx; intros E; [| |discriminate]; injection E as <-; cbv zeta;
    set (w' := mkwho ((f, snap_of ra (cp m)) :: chain w) (sets f None (susp w))).
  - (* first *)
    assert (Su : susp w f = None).
    { destruct (susp w f) as [s|] eqn:Su; [|reflexivity]. destruct (i_susp _ _ _ _ _ I f s Su) as (_ & (y & Fy & Ry) & _). congruence. }
    destruct (init_inv A ml mh m w f x b I F Sx Al) as (s & I' & F' & Fo & M4 & Nz & Rg & MW & Mf & M32 & M24 & Ds).
    set (m1 := initialize A f b m) in *.
    assert (On' : on_stack m1 w).
    { destruct On as (lo & hi & Ar & B). exists lo, hi. rewrite Rg. split; [|exact B]. destruct (runner (chain w)) as [g|] eqn:Rn; [|exact Ar].
      destruct Ar as (y & G & R). exists y. rewrite Fo; [auto|]. intros ->. apply N. destruct (chain w) as [|[h t] l]; [discriminate|].
      injection Rn as ->. now left. }
    assert (D : f + 8 + 8 <= regs (cp m1) SP - room A \/ regs (cp m1) SP <= f).
    { destruct On' as (lo & hi & Ar & B). destruct (area_block _ _ _ _ _ _ Ar) as (n & Bk & Hh & _).
      exact (proj2 (proj2 (out_fcb A ml mh m1 w (regs (cp m1) SP) I' lo n Bk ltac:(lia) ltac:(lia) f _ F'))). }
    destruct (go_invoke A ra f (cp m1) D) as (M & Hpc & Hra).
    set (c := call A (invoke_context A) ra f (cp m1)) in *.
    pose proof (depart A ml mh m1 w f _ ra c I' On' N F' eq_refl M) as I2.
    assert (Eq : snap_of ra (cp m1) = snap_of ra (cp m)) by (unfold snap_of; now rewrite Rg).
    rewrite Eq in I2. split; [exact I2|]. split; [|split].
    + intros g y G Ry. cbn [fibs chain susp w' map fst] in *. destruct (Z.eq_dec g f) as [->|Ng]; [left; now left|].
      rewrite Fo in G by exact Ng. destruct (NO g y G Ry) as [H|H]; [left; now right|right]. unfold sets. now apply Z.eqb_neq in Ng as ->.
    + rewrite Su. cbn [cp]. rewrite Z.add_0_r, Mf in Hpc, Hra.
      pose proof (mv_dst _ _ _ _ _ _ _ M) as Hsp. rewrite Z.add_0_r, Mf in Hsp.
      assert (Wk : forall a, s + STACK_SIZE - 32 <= a < s + STACK_SIZE -> mem c a = mem (cp m1) a).
      { intros a Ha. apply (mv_out _ _ _ _ _ _ _ M).
        - destruct On as (lo & hi & Ar & B). destruct (area_block _ _ _ _ _ _ Ar) as (n & Bk & Hh & _).
          assert (Nr : runner (chain w) <> Some f).
          { intros Rn. apply N. destruct (chain w) as [|[h t] l]; [discriminate|]. injection Rn as ->. now left. }
          pose proof (Ds _ _ _ _ Nr Ar Bk) as Dj. rewrite Rg. unfold disjoint, STACK_SIZE in *. pose proof (room_pos A). lia.
        - assert (block m1 (TStack f) s STACK_SIZE) as B1 by (apply (B_stack _ _ _ f _ F'); exact Nz).
          pose proof (i_disj _ _ _ _ _ I' _ _ _ _ _ _ B1 (B_fcb _ _ _ f _ F') ltac:(discriminate)) as Dj. unfold disjoint, STACK_SIZE in *. lia. }
      exists (mkfcb s Running). split; [exact F'|]. cbn [stack]. split; [|split].
      * cbn [cp]. rewrite Hsp. unfold entry_sp. destruct A; cbn [room OFFSET]; lia.
      * split; [|split].
        -- cbn [cp]. rewrite Hpc. replace (s + STACK_SIZE - 32 - OFFSET A + OFFSET A) with (s + STACK_SIZE - 32) by lia.
           rewrite Wk by (unfold STACK_SIZE; lia). exact M32.
        -- exact (mv_arg _ _ _ _ _ _ _ M).
        -- unfold aligned. cbn [cp]. rewrite Hsp. unfold STACK_SIZE. pose proof M4 as M4'. destruct A; cbn [room OFFSET]; Z.div_mod_to_equations; lia.
      * cbn [cp]. rewrite Hra. replace (s + STACK_SIZE - 32 - OFFSET A + OFFSET A + 8) with (s + STACK_SIZE - 24) by lia.
        rewrite Wk by (unfold STACK_SIZE; lia). exact M24.
    + intros a Ha. unfold resume_writes. cbn [cp fibs] in *. rewrite <- Rg.
      destruct (Z.eq_dec a f) as [->|Na]; [auto|]. destruct (Z.eq_dec a (f + 8)) as [->|Nb]; [auto|].
      assert (Dc : (regs (cp m1) SP - room A <= a < regs (cp m1) SP) \/ ~ (regs (cp m1) SP - room A <= a < regs (cp m1) SP)) by lia.
      destruct Dc as [Dc|Dc]; [auto|]. right; right; right. split; [exact Su|]. exists (mkfcb s Running). split; [exact F'|]. cbn [stack].
      assert (Dd : (s + STACK_SIZE - 32 <= a < s + STACK_SIZE) \/ ~ (s + STACK_SIZE - 32 <= a < s + STACK_SIZE)) by lia.
      destruct Dd as [Dd|Dd]; [exact Dd|]. exfalso. apply Ha. rewrite (mv_out _ _ _ _ _ _ _ M a Dc Nb). exact (MW a Na Dd).
  - (* again *)
    destruct (susp w f) as [s|] eqn:Su; [|destruct (NO f x F Sx); [contradiction|congruence]].
    assert (D : f + 8 + 8 <= regs (cp m) SP - room A \/ regs (cp m) SP <= f).
    { destruct On as (lo & hi & Ar & B). destruct (area_block _ _ _ _ _ _ Ar) as (n & Bk & Hh & _).
      exact (proj2 (proj2 (out_fcb A ml mh m w (regs (cp m) SP) I lo n Bk ltac:(lia) ltac:(lia) f _ F))). }
    destruct (go_switch A ra f (cp m) D) as (M & Rs).
    set (c := call A (switch_context A) ra f (cp m)) in *.
    split; [exact (depart A ml mh m w f x ra c I On N F Sx M)|]. split; [|split].
    + intros g y G Ry. cbn [fibs chain susp w' map fst] in *. destruct (Z.eq_dec g f) as [->|Ng]; [left; now left|].
      destruct (NO g y G Ry) as [H|H]; [left; now right|right]. unfold sets. now apply Z.eqb_neq in Ng as ->.
    + destruct (i_susp _ _ _ _ _ I f s Su) as (_ & _ & Im & Wd & _).
      destruct On as (lo & hi & Ar & B). destruct (area_block _ _ _ _ _ _ Ar) as (n & Bk & Hh & _).
      destruct (agree A ml mh m w f x 8 (regs (cp m) SP) lo n (mem c) I F (or_intror eq_refl) Bk ltac:(lia) ltac:(lia) (mv_out _ _ _ _ _ _ _ M))
        as (_ & G2 & _ & _).
      apply (land (mem (cp m)) s c (mem (cp m) f)).
      * rewrite Wd. exact Im.
      * exact Wd.
      * intros a. exact (G2 f s a Su).
      * now rewrite Z.add_0_r in Rs.
      * pose proof (mv_dst _ _ _ _ _ _ _ M) as H. now rewrite Z.add_0_r in H.
    + intros a Ha. unfold resume_writes. cbn [cp] in Ha.
      destruct (Z.eq_dec a (f + 8)) as [->|Nb]; [auto|].
      assert (Dc : (regs (cp m) SP - room A <= a < regs (cp m) SP) \/ ~ (regs (cp m) SP - room A <= a < regs (cp m) SP)) by lia.
      destruct Dc as [Dc|Dc]; [auto|]. exfalso. apply Ha. exact (mv_out _ _ _ _ _ _ _ M a Dc Nb).
Qed.

Lemma yield_ok m w ra f s l : inv m w -> no_other m w -> chain w = (f, s) :: l -> on_stack m w ->
  let m' := fiber_yield A ra f m in let w' := mkwho l (sets f (Some (snap_of ra (cp m))) (susp w)) in
  inv m' w' /\ no_other m' w' /\ back A s (cp m')
  /\ (forall a, mem (cp m') a <> mem (cp m) a -> regs (cp m) SP - room A <= a < regs (cp m) SP \/ a = f).
Proof.
  intros I NO Ch On m' w'.
  destruct (i_run _ _ _ _ _ I f ltac:(rewrite Ch; now left)) as (x & F & R).
  pose proof On as (lo & hi & Ar & B). destruct (area_block _ _ _ _ _ _ Ar) as (n & Bk & Hh & _).
  pose proof (proj2 (proj2 (out_fcb A ml mh m w (regs (cp m) SP) I lo n Bk ltac:(lia) ltac:(lia) f _ F))) as D.
  destruct (go_yield A ra f (cp m) D) as (M & Rs). unfold fiber_yield in m'.
  set (c := call A (yield_context A) ra f (cp m)) in *.
  split; [exact (yielded A ml mh m w f s l ra c I On Ch M)|]. split; [|split].
  - intros g y G Ry. cbn [fibs m' chain susp w'] in *. unfold sets. destruct (Z.eqb_spec g f) as [->|Ng]; [right; discriminate|].
    destruct (NO g y G Ry) as [H|H]; [|right; exact H]. rewrite Ch in H. destruct H as [E|H]; [cbn in E; congruence|left; exact H].
  - destruct (agree A ml mh m w f x 0 (regs (cp m) SP) lo n (mem c) I F (or_introl eq_refl) Bk ltac:(lia) ltac:(lia) (mv_out _ _ _ _ _ _ _ M))
      as (G1 & _ & _ & _).
    pose proof (i_chain _ _ _ _ _ I) as CO. rewrite Ch in CO. destruct CO as [(Im & Wd & _) _].
    apply (land (mem (cp m)) s c (mem (cp m) (f + 8))).
    + rewrite Wd. exact Im.
    + exact Wd.
    + intros a. apply (G1 f s a). rewrite Ch. now left.
    + exact Rs.
    + exact (mv_dst _ _ _ _ _ _ _ M).
  - intros a Ha. destruct (Z.eq_dec a f) as [->|Nb]; [auto|].
    assert (Dc : (regs (cp m) SP - room A <= a < regs (cp m) SP) \/ ~ (regs (cp m) SP - room A <= a < regs (cp m) SP)) by lia.
    destruct Dc as [Dc|Dc]; [auto|]. exfalso. apply Ha. apply (mv_out _ _ _ _ _ _ _ M a Dc). lia.
Qed.

Lemma skip_ok m w f s l x : inv m w -> chain w = (f, s) :: l -> fibs m f = Some x ->
  regs (cp m) SP = entry_sp A (stack x) + popped A ->
  called A GUARD f (cp (after_skip A m)) /\ mem (cp (after_skip A m)) = mem (cp m)
  /\ stack x + STACK_SIZE - 32 <= regs (cp (after_skip A m)) SP <= stack x + STACK_SIZE.
Proof.
  intros I Ch F Hs.
  assert (R : state x = Running).
  { destruct (i_run _ _ _ _ _ I f ltac:(rewrite Ch; now left)) as (x' & F' & R). congruence. }
  destruct (i_bot _ _ _ _ _ I f x F R) as [B1 B2]. destruct (i_stk _ _ _ _ _ I f x F) as [_ M4].
  destruct m as [[g mm p] fb pl]. cbn [cp regs mem fibs] in *. unfold called, aligned, after_skip. cbn [cp fibs pool].
  unfold STACK_SIZE in *. destruct A; unfold entry_sp, STACK_SIZE in Hs; cbn [popped] in Hs; cbn [first_arg]; step_all; (split; [|split; [reflexivity|lia]]);
    rewrite Hs.
  - repeat split; [etransitivity; [|exact B2]; f_equal; lia|etransitivity; [|exact B1]; f_equal; lia|Z.div_mod_to_equations; lia].
  - repeat split; [etransitivity; [|exact B2]; f_equal; lia|etransitivity; [|exact B1]; f_equal; lia|Z.div_mod_to_equations; lia].
  - repeat split; [etransitivity; [|exact B2]; f_equal; lia|etransitivity; [|exact B1]; f_equal; lia|Z.div_mod_to_equations; lia].
Qed.

Lemma finish_ok m w ra k f s l x : inv m w -> no_other m w -> chain w = (f, s) :: l -> fibs m f = Some x ->
  regs (cp m) SP = entry_sp A (stack x) + popped A -> 0 <= k < STACK_SIZE - 1024 ->
  let m' := finish A ra k m in let w' := mkwho l (susp w) in
  inv m' w' /\ no_other m' w' /\ back A s (cp m') /\ fibs m' f = Some (mkfcb (stack x) Dead)
  /\ (forall g, g <> f -> fibs m' g = fibs m g).
Proof.
  intros I NO Ch F Hs Hk m' w'.
  destruct (skip_ok m w f s l x I Ch F Hs) as ((Hp & Harg & Hal) & Hm & Hb).
  assert (R : state x = Running).
  { destruct (i_run _ _ _ _ _ I f ltac:(rewrite Ch; now left)) as (x' & F' & R). congruence. }
  pose proof (running_stk _ _ _ _ _ _ _ I F R) as Nz.
  set (m1 := after_skip A m) in *.
  set (c0 := putr SP (regs (cp m1) SP - k) (cp m1)).
  assert (E0 : regs c0 SP = regs (cp m1) SP - k) by reflexivity.
  assert (Em : mem c0 = mem (cp m)) by exact Hm.
  set (c := call A (yield_context A) ra f c0).
  assert (Em' : m' = mkmach c (setf f (Some (mkfcb (stack x) Dead)) (fibs m)) (pool m)).
  { unfold m', finish. fold m1. change (arg_reg A) with (first_arg A). rewrite Harg. unfold set_dead.
    change (fibs m1) with (fibs m). rewrite F. reflexivity. }
  assert (Bk : block m (TStack f) (stack x) STACK_SIZE) by (now apply (B_stack _ _ _ f x F)).
  pose proof (room_pos A) as Rp.
  assert (Bk' : block m (otag (runner (chain w))) (stack x) STACK_SIZE) by (rewrite Ch; exact Bk).
  assert (Pl : stack x + room A <= regs c0 SP) by (rewrite E0; unfold STACK_SIZE in *; lia).
  assert (Ph : regs c0 SP <= stack x + STACK_SIZE) by (rewrite E0; lia).
  pose proof (proj2 (proj2 (out_fcb A ml mh m w (regs c0 SP) I _ _ Bk' Pl Ph f _ F))) as D.
  destruct (go_yield A ra f c0 D) as (M & Rs). fold c in M, Rs.
  rewrite Em'. split; [exact (ended A ml mh m w f x s l ra c0 c _ _ I Ch F Bk Pl Ph Em M)|]. split; [|split; [|split]].
  - intros g y G Ry. cbn [fibs chain susp w'] in *. destruct (Z.eq_dec g f) as [->|Ng].
    + rewrite setf_same in G. injection G as <-. discriminate.
    + rewrite setf_other in G by exact Ng. destruct (NO g y G Ry) as [H|H]; [|right; exact H].
      rewrite Ch in H. destruct H as [E|H]; [cbn in E; congruence|left; exact H].
  - pose proof (mv_out _ _ _ _ _ _ _ M) as MO. rewrite Em in MO.
    destruct (agree A ml mh m w f x 0 (regs c0 SP) _ _ (mem c) I F (or_introl eq_refl) Bk' Pl Ph MO) as (G1 & _ & _ & _).
    pose proof (i_chain _ _ _ _ _ I) as CO. rewrite Ch in CO. destruct CO as [(Im & Wd & _) _].
    rewrite Em in Rs. pose proof (mv_dst _ _ _ _ _ _ _ M) as Hd. rewrite Em in Hd.
    apply (land (mem (cp m)) s c (mem (cp m) (f + 8))).
    + rewrite Wd. exact Im.
    + exact Wd.
    + intros a. apply (G1 f s a). rewrite Ch. now left.
    + exact Rs.
    + exact Hd.
  - apply setf_same.
  - intros g Ng. now apply setf_other.
Qed.

Lemma reach_inv m w : reach m w -> inv m w /\ no_other m w.
Proof.
  induction 1 as [c|m w m' w' _ [I NO] Ac].
  - split; [|intros f x; discriminate]. constructor; cbn; try discriminate; try contradiction; auto.
    + intros t a n t' a' n' B B' N. destruct B as [|f x E|f x E|i b E], B' as [|f' x' E'|f' x' E'|j d E']; cbn in *; try congruence;
        try (destruct i; discriminate); try (destruct j; discriminate).
    + constructor.
  - destruct Ac.
    + split; [now apply frame|]. exact NO.
    + split; [now apply new_inv|]. intros g x. cbn [new_fiber fibs]. destruct (Z.eq_dec g f) as [->|Ng].
      * rewrite setf_same. intros E. injection E as <-. discriminate.
      * rewrite setf_other by exact Ng. apply NO.
    + split; [now apply drop_inv|]. intros g x. unfold drop_fiber. destruct (fibs m f) as [y|] eqn:F; cbn [fibs chain susp].
      * destruct (Z.eq_dec g f) as [->|Ng]; [rewrite setf_same; discriminate|]. rewrite setf_other by exact Ng.
        unfold sets. apply Z.eqb_neq in Ng as ->. apply NO.
      * intros G Rx. unfold sets. destruct (Z.eqb_spec g f) as [->|Ng]; [congruence|]. exact (NO g x G Rx).
    + destruct (resume_ok m w ra f b m' I NO H H0 H1 H2) as (I' & NO' & _). auto.
    + destruct (yield_ok m w ra f s l I NO H H0) as (I' & NO' & _). auto.
    + destruct (finish_ok m w ra k f s l x I NO H H0 H1 H2) as (I' & NO' & _). auto.
Qed.
End Arr.
