(** The invariant holds in all executions; where the changes of stack arrive. *)
From Coq Require Import ZArith List Bool Lia.
From Verif Require Import ModelSwitch SpecSwitch ProofsSwitch ProofsSwitch2.
Import ListNotations.
Local Open Scope Z_scope.

Section Inv.
Variable A : arch.
Variables ml mh : Z.
Notation area := (area ml mh). Notation block := (block ml mh). Notation act := (act A ml mh). Notation reach := (reach A ml mh).
Notation on_stack := (on_stack A ml mh). Notation fresh := (fresh ml mh). Notation inv := (inv A ml mh).

Lemma setf_same f x m : setf f x m f = x.
Proof. unfold setf. now rewrite Z.eqb_refl. Qed.
Lemma setf_other f g x m : g <> f -> setf f x m g = m g.
Proof. intros N. unfold setf. now apply Z.eqb_neq in N as ->. Qed.
Lemma disjoint_sym a n a' n' : disjoint a n a' n' -> disjoint a' n' a n.
Proof. unfold disjoint. tauto. Qed.

(** words of memory that matter, when nothing is taken away *)
Lemma inv_grow m w m' : inv m w ->
  (forall t a n t' a' n', block m' t a n -> block m' t' a' n' -> t <> t' -> disjoint a n a' n') ->
  (forall f x, fibs m' f = Some x -> (state x = Created <-> stack x = 0) /\ stack x mod 4096 = 0) ->
  (forall b, In b (pool m') -> b <> 0 /\ b mod 4096 = 0) ->
  (forall f x, fibs m f = Some x -> state x = Running -> fibs m' f = Some x) ->
  (forall f x, fibs m f = Some x -> state x = Running -> mem (cp m') f = mem (cp m) f /\ mem (cp m') (f + 8) = mem (cp m) (f + 8)) ->
  (forall t a n b, block m t a n -> t = TMain \/ (exists f x, t = TStack f /\ fibs m f = Some x /\ state x = Running) ->
     a <= b < a + n -> mem (cp m') b = mem (cp m) b) ->
  (forall f x, fibs m' f = Some x -> state x = Running -> fibs m f = Some x \/
     mem (cp m') (stack x + STACK_SIZE - 8) = f /\ mem (cp m') (stack x + STACK_SIZE - 16) = GUARD) ->
  inv m' w.
Proof.
  intros I D Stk P Fb Fw Mm Bot.
  assert (HA : forall o lo hi, area m o lo hi -> o = None \/ (exists f x, o = Some f /\ fibs m f = Some x /\ state x = Running) -> area m' o lo hi).
  { intros [f|] lo hi; cbn [SpecSwitch.area]; [|auto]. intros (x & F & S & -> & ->) [E|(g & y & E & G & R)]; [discriminate|].
    injection E as <-. rewrite F in G. injection G as <-. exists x. auto. }
  assert (HM : forall o lo hi a, area m o lo hi -> o = None \/ (exists f x, o = Some f /\ fibs m f = Some x /\ state x = Running) ->
             lo <= a < hi -> mem (cp m') a = mem (cp m) a).
  { intros o lo hi a Ar O Ha. destruct (area_block _ _ _ _ _ _ Ar) as (n & Bk & Hh & _). apply (Mm _ _ _ a Bk); [|lia].
    destruct O as [->|(g & y & -> & G & R)]; [left; reflexivity|right; exists g, y; auto]. }
  constructor; auto.
  - exact (i_nodup _ _ _ _ _ I).
  - intros f F. destruct (i_run _ _ _ _ _ I f F) as (x & Fx & R). eauto.
  - eapply chain_eq; [| | |exact (i_chain _ _ _ _ _ I)].
    + intros o lo hi Ar [->|(f & -> & F)]; apply HA; auto. right. destruct (i_run _ _ _ _ _ I f F) as (x & Fx & R). eauto.
    + intros f s a F Ha. destruct (chain_where _ _ _ _ _ _ _ (i_chain _ _ _ _ _ I) F) as (o & lo & hi & Ar & B & O).
      apply (HM o lo hi a Ar); [|lia]. destruct O as [->|(g & -> & G)]; [auto|]. right.
      destruct (i_run _ _ _ _ _ I g) as (x & Fx & R); [destruct (chain w); [destruct G|right; exact G]|]. eauto.
    + intros f F. destruct (i_run _ _ _ _ _ I f F) as (x & Fx & R). apply (Fw f x Fx R).
  - intros f s Su. destruct (i_susp _ _ _ _ _ I f s Su) as (N & (x & Fx & R) & H). split; [exact N|]. split; [eauto|].
    pose proof H as (_ & _ & lo & hi & Ar & B). eapply held_eq; [| | |exact H].
    + intros lo' hi' Ar'. apply HA; [exact Ar'|]. right. eauto.
    + intros a Ha. apply (HM _ lo hi a Ar); [right; eauto|lia].
    + apply (Fw f x Fx R).
  - intros f x F R. destruct (Bot f x F R) as [F'|B]; [|exact B]. pose proof (running_stk _ _ _ _ _ _ _ I F' R) as S.
    destruct (i_bot _ _ _ _ _ I f x F' R) as [B1 B2].
    assert (T : forall a, stack x <= a < stack x + STACK_SIZE -> mem (cp m') a = mem (cp m) a).
    { intros a Ha. apply (Mm _ _ _ a (B_stack _ _ _ f x F' S)); [|exact Ha]. right. eauto. }
    rewrite !T by (unfold STACK_SIZE; lia). auto.
Qed.

Lemma new_inv m w f : inv m w -> fibs m f = None -> fresh m f 16 -> inv (new_fiber f m) w.
Proof.
  intros I N Fr. unfold new_fiber.
  assert (NB : forall t a n, block (mkmach (putm (f + 8) 0 (putm f 0 (cp m))) (setf f (Some (mkfcb 0 Created)) (fibs m)) (pool m)) t a n ->
     t = TFcb f /\ a = f /\ n = 16 \/ block m t a n).
  { intros t a n []; cbn [fibs pool] in *.
    - right; constructor.
    - destruct (Z.eq_dec f0 f) as [->|Nf]; [auto|]. right. rewrite setf_other in H by exact Nf. econstructor; eauto.
    - destruct (Z.eq_dec f0 f) as [->|Nf].
      + rewrite setf_same in H. injection H as <-. cbn in H0. contradiction.
      + right. rewrite setf_other in H by exact Nf. now econstructor.
    - right. now constructor. }
  assert (MW : forall a, a <> f -> a <> f + 8 -> setm (f + 8) 0 (setm f 0 (mem (cp m))) a = mem (cp m) a).
  { intros a H1 H2. rewrite !setm_other; auto. }
  apply (inv_grow m w); cbn [fibs pool cp mem putm]; auto.
  - intros t a n t' a' n' B B' Nt. destruct (NB _ _ _ B) as [(-> & -> & ->)|B1]; destruct (NB _ _ _ B') as [(-> & -> & ->)|B2].
    + congruence.
    + exact (Fr _ _ _ B2).
    + apply disjoint_sym. exact (Fr _ _ _ B1).
    + exact (i_disj _ _ _ _ _ I _ _ _ _ _ _ B1 B2 Nt).
  - intros g x. destruct (Z.eq_dec g f) as [->|Ng]; [rewrite setf_same|rewrite setf_other by exact Ng; apply (i_stk _ _ _ _ _ I)].
    intros E. injection E as <-. cbn. split; [tauto|reflexivity].
  - exact (i_pool _ _ _ _ _ I).
  - intros g x G _. rewrite setf_other; [exact G|]. congruence.
  - intros g x G R. pose proof (Fr _ _ _ (B_fcb _ _ _ g x G)) as D. unfold disjoint in D. split; apply MW; lia.
  - intros t a n b B _ Hb. pose proof (Fr _ _ _ B) as D. unfold disjoint in D. apply MW; lia.
  - intros g x. destruct (Z.eq_dec g f) as [->|Ng]; [rewrite setf_same|rewrite setf_other by exact Ng; auto].
    intros E. injection E as <-. discriminate.
Qed.

Lemma drop_inv m w f : inv m w -> ~ In f (map fst (chain w)) -> inv (drop_fiber f m) (mkwho (chain w) (sets f None (susp w))).
Proof.
  intros I N. unfold drop_fiber. destruct (fibs m f) as [x|] eqn:F.
  2:{ destruct I. constructor; cbn [chain susp]; auto. intros g s. unfold sets. destruct (g =? f); [discriminate|auto]. }
  set (m' := mkmach (cp m) (setf f None (fibs m)) (deallocate (stack x) (pool m))).
  assert (HA : forall o lo hi, o <> Some f -> area m o lo hi -> area m' o lo hi).
  { intros [g|] lo hi Ng; cbn; [|auto]. intros (y & G & R). exists y. rewrite setf_other by congruence. auto. }
  set (pt := fun i => if stack x =? 0 then TPool i else match i with O => TStack f | S j => TPool j end).
  set (dt := fun t => match t with TPool i => pt i | t => t end).
  assert (NB : forall t a n, block m' t a n -> block m (dt t) a n /\ t <> TStack f).
  { intros t a n []; cbn [fibs pool m'] in *.
    - split; [constructor|discriminate].
    - assert (f0 <> f) by (intros ->; rewrite setf_same in H; discriminate). rewrite setf_other in H by assumption.
      split; [econstructor; eauto|discriminate].
    - assert (f0 <> f) by (intros ->; rewrite setf_same in H; discriminate). rewrite setf_other in H by assumption.
      split; [now econstructor|congruence].
    - split; [|discriminate]. cbn [dt]. unfold pt, deallocate in *. destruct (Z.eqb_spec (stack x) 0) as [Z0|NZ]; [now constructor|].
      destruct i; cbn in H; [injection H as <-; now constructor|now constructor]. }
  assert (Inj : forall t t', t <> TStack f -> t' <> TStack f -> dt t = dt t' -> t = t').
  { intros t t' T T'. unfold dt, pt. destruct t as [| | |i], t' as [| | |j]; try (destruct (stack x =? 0)); try destruct i; try destruct j; congruence. }
  constructor; cbn [chain susp].
  - intros t a n t' a' n' B B' Nt. destruct (NB _ _ _ B) as [B1 T1]. destruct (NB _ _ _ B') as [B2 T2].
    apply (i_disj _ _ _ _ _ I _ _ _ _ _ _ B1 B2). intros E. apply Nt. auto.
  - intros g y G. cbn in G. destruct (Z.eq_dec g f) as [->|Ng]; [rewrite setf_same in G; discriminate|].
    rewrite setf_other in G by exact Ng. exact (i_stk _ _ _ _ _ I g y G).
  - cbn. intros b. unfold deallocate. destruct (Z.eqb_spec (stack x) 0) as [Z0|NZ]; [apply (i_pool _ _ _ _ _ I)|].
    intros [<-|B]; [split; [exact NZ|apply (i_stk _ _ _ _ _ I f x F)]|exact (i_pool _ _ _ _ _ I b B)].
  - exact (i_nodup _ _ _ _ _ I).
  - intros g G. cbn. rewrite setf_other by congruence. exact (i_run _ _ _ _ _ I g G).
  - eapply chain_eq; [| | |exact (i_chain _ _ _ _ _ I)]; try reflexivity.
    intros o lo hi Ar O. apply HA; [|exact Ar]. intros ->. destruct O as [E|(g & E & G)]; [discriminate|]. injection E as <-. auto.
  - intros g s. unfold sets. destruct (Z.eqb_spec g f) as [->|Ng]; [discriminate|]. intros Su.
    destruct (i_susp _ _ _ _ _ I g s Su) as (N' & Ex & H). split; [exact N'|]. split; [cbn; rewrite setf_other by exact Ng; exact Ex|].
    eapply held_eq; [| | |exact H]; try reflexivity. intros lo hi. apply HA. congruence.
  - intros g y G R. cbn in G. destruct (Z.eq_dec g f) as [->|Ng]; [rewrite setf_same in G; discriminate|].
    rewrite setf_other in G by exact Ng. exact (i_bot _ _ _ _ _ I g y G R).
Qed.

(** A first resume: a stack of its own. *)
Lemma init_inv m w f x b : inv m w -> fibs m f = Some x -> state x = Created ->
  (pool m = [] -> b <> 0 /\ b mod 4096 = 0 /\ fresh m b STACK_SIZE) ->
  let m' := initialize A f b m in
  exists s, inv m' w /\ fibs m' f = Some (mkfcb s Running) /\ (forall g, g <> f -> fibs m' g = fibs m g)
  /\ s mod 4096 = 0 /\ s <> 0 /\ regs (cp m') = regs (cp m)
  /\ (forall a, a <> f -> ~ (s + STACK_SIZE - 32 <= a < s + STACK_SIZE) -> mem (cp m') a = mem (cp m) a)
  /\ mem (cp m') f = s + STACK_SIZE - 32 - OFFSET A
  /\ mem (cp m') (s + STACK_SIZE - 32) = NEW_CONTEXT /\ mem (cp m') (s + STACK_SIZE - 24) = SKIP
  /\ (forall o lo hi n, o <> Some f -> area m o lo hi -> block m (otag o) lo n -> disjoint s STACK_SIZE lo n).
Proof.
  intros I F C Al.
  assert (S0 : stack x = 0) by (apply (i_stk _ _ _ _ _ I f x F); exact C).
  destruct (allocate b (pool m)) as [s l] eqn:EA.
  set (mm := setm f (s + STACK_SIZE - 32 - OFFSET A) (setm (s + STACK_SIZE - 32) NEW_CONTEXT (setm (s + STACK_SIZE - 24) SKIP
     (setm (s + STACK_SIZE - 16) GUARD (setm (s + STACK_SIZE - 8) f (mem (cp m))))))).
  set (m' := mkmach (mkcpu (regs (cp m)) mm (pc (cp m))) (setf f (Some (mkfcb s Running)) (fibs m)) l).
  assert (Em : initialize A f b m = m') by (unfold initialize; rewrite EA; reflexivity). cbv zeta. rewrite Em. clear Em.
  (* the stack is nobody else's *)
  assert (Own : s <> 0 /\ s mod 4096 = 0 /\ (forall t a n, block m t a n -> (forall i, t <> TPool i) -> disjoint s STACK_SIZE a n)
     /\ (forall i c, nth_error l i = Some c -> disjoint s STACK_SIZE c STACK_SIZE /\ exists j, nth_error (pool m) j = Some c)
     /\ (forall i j c d, nth_error l i = Some c -> nth_error l j = Some d -> i <> j -> disjoint c STACK_SIZE d STACK_SIZE)
     /\ (forall c t a n i, nth_error l i = Some c -> block m t a n -> (forall i, t <> TPool i) -> disjoint c STACK_SIZE a n)).
  { destruct (pool m) as [|s' l'] eqn:P; cbn in EA; injection EA as <- <-.
    - destruct (Al eq_refl) as (H1 & H2 & H3). split; [exact H1|]. split; [exact H2|]. split; [intros; eapply H3; eauto|].
      split; [intros [|i]; discriminate|]. split; [intros [|i]; discriminate|intros c t a n [|i]; discriminate].
    - assert (B0 : block m (TPool 0) s' STACK_SIZE) by (constructor; rewrite P; reflexivity).
      assert (Bi : forall i c, nth_error l' i = Some c -> block m (TPool (S i)) c STACK_SIZE) by (intros; constructor; rewrite P; assumption).
      destruct (i_pool _ _ _ _ _ I s') as [H1 H2]; [rewrite P; now left|]. split; [exact H1|]. split; [exact H2|]. split; [|split; [|split]].
      + intros t a n B T. apply (i_disj _ _ _ _ _ I _ _ _ _ _ _ B0 B). intros E. exact (T _ (eq_sym E)).
      + intros i c H. split; [|exists (S i); exact H]. apply (i_disj _ _ _ _ _ I _ _ _ _ _ _ B0 (Bi i c H)). discriminate.
      + intros i j c d H H' Nij. apply (i_disj _ _ _ _ _ I _ _ _ _ _ _ (Bi i c H) (Bi j d H')). congruence.
      + intros c t a n i H B T. apply (i_disj _ _ _ _ _ I _ _ _ _ _ _ (Bi i c H) B). intros E. exact (T _ (eq_sym E)). }
  destruct Own as (Nz & M4 & Os & Ol & Oll & Olb).
  assert (Of : disjoint s STACK_SIZE f 16) by (apply (Os (TFcb f)); [econstructor; eauto|discriminate]).
  assert (MW : forall a, a <> f -> ~ (s + STACK_SIZE - 32 <= a < s + STACK_SIZE) -> mm a = mem (cp m) a).
  { intros a H1 H2. unfold mm. rewrite !setm_other; auto; unfold STACK_SIZE in *; lia. }
  assert (MB : mm (s + STACK_SIZE - 8) = f /\ mm (s + STACK_SIZE - 16) = GUARD /\ mm (s + STACK_SIZE - 24) = SKIP /\ mm (s + STACK_SIZE - 32) = NEW_CONTEXT).
  { unfold mm. unfold disjoint, STACK_SIZE in *. repeat split; mm; reflexivity. }
  destruct MB as (MB1 & MB2 & MB3 & MB4).
  assert (NB : forall t a n, block m' t a n -> t = TStack f /\ a = s /\ n = STACK_SIZE
     \/ (exists i, t = TPool i /\ n = STACK_SIZE /\ nth_error l i = Some a) \/ block m t a n /\ forall i, t <> TPool i).
  { intros t a n []; cbn [fibs pool m'] in *.
    - right; right; split; [constructor|discriminate].
    - right; right; split; [|discriminate]. destruct (Z.eq_dec f0 f) as [->|Nf]; [econstructor; eauto|].
      rewrite setf_other in H by exact Nf. econstructor; eauto.
    - destruct (Z.eq_dec f0 f) as [->|Nf].
      + rewrite setf_same in H. injection H as <-. auto.
      + right; right. rewrite setf_other in H by exact Nf. split; [now econstructor|discriminate].
    - right; left. eauto. }
  exists s.
  split; [|split; [|split; [|split; [|split; [|split; [|split; [|split; [|split; [|split]]]]]]]]].
  - apply (inv_grow m w); [exact I| | | | | | |].
    + intros t a n t' a' n' B B' Nt.
      destruct (NB _ _ _ B) as [(-> & -> & ->)|[(i & -> & -> & Hi)|[B1 T1]]]; destruct (NB _ _ _ B') as [(-> & -> & ->)|[(j & -> & -> & Hj)|[B2 T2]]].
      * congruence.
      * apply (Ol _ _ Hj).
      * exact (Os _ _ _ B2 T2).
      * apply disjoint_sym. apply (Ol _ _ Hi).
      * apply (Oll i j); congruence.
      * exact (Olb _ _ _ _ _ Hi B2 T2).
      * apply disjoint_sym. exact (Os _ _ _ B1 T1).
      * apply disjoint_sym. exact (Olb _ _ _ _ _ Hj B1 T1).
      * exact (i_disj _ _ _ _ _ I _ _ _ _ _ _ B1 B2 Nt).
    + intros g y. change (fibs m') with (setf f (Some (mkfcb s Running)) (fibs m)). destruct (Z.eq_dec g f) as [->|Ng]; [rewrite setf_same|rewrite setf_other by exact Ng; apply (i_stk _ _ _ _ _ I)].
      intros E. injection E as <-. cbn. split; [split; [discriminate|contradiction]|exact M4].
    + intros c Hc. apply In_nth_error in Hc as [i Hi]. destruct (Ol i c Hi) as [_ [j Hj]]. apply nth_error_In in Hj. exact (i_pool _ _ _ _ _ I c Hj).
    + intros g y G R. change (fibs m') with (setf f (Some (mkfcb s Running)) (fibs m)). rewrite setf_other; [exact G|]. intros ->. rewrite F in G. injection G as <-. congruence.
    + intros g y G R. assert (Ng : g <> f) by (intros ->; rewrite F in G; injection G as <-; congruence).
      pose proof (fcb_fcb _ _ _ m w g y f x I G F Ng) as D1. assert (D2 : disjoint s STACK_SIZE g 16) by (apply (Os (TFcb g)); [econstructor; eauto|discriminate]).
      unfold disjoint, STACK_SIZE in *. split; apply MW; lia.
    + intros t a n c B T Hc. assert (T' : forall i, t <> TPool i) by (destruct T as [->|(g & y & -> & _)]; discriminate).
      pose proof (Os t a n B T') as D1. assert (D2 : disjoint a n f 16).
      { apply (i_disj _ _ _ _ _ I _ _ _ _ _ _ B (B_fcb _ _ _ f x F)). destruct T as [->|(g & y & -> & _)]; discriminate. }
      unfold disjoint, STACK_SIZE in *. apply MW; lia.
    + intros g y. change (fibs m') with (setf f (Some (mkfcb s Running)) (fibs m)). destruct (Z.eq_dec g f) as [->|Ng]; [rewrite setf_same|rewrite setf_other by exact Ng; auto].
      intros E _. injection E as <-. right. cbn. auto.
  - apply setf_same.
  - intros g Ng. apply setf_other. exact Ng.
  - exact M4.
  - exact Nz.
  - reflexivity.
  - exact MW.
  - cbn. unfold mm. now rewrite setm_same.
  - exact MB4.
  - exact MB3.
  - intros o lo hi n No Ar B. apply (Os _ _ _ B). destruct o; discriminate.
Qed.
End Inv.
