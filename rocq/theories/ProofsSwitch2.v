(** The invariant of the executions. *)
From Coq Require Import ZArith List Bool Lia.
From Verif Require Import ModelSwitch SpecSwitch ProofsSwitch.
Import ListNotations.
Local Open Scope Z_scope.

Section Inv.
Variable A : arch.
Variables ml mh : Z.
Notation area := (area ml mh). Notation block := (block ml mh). Notation act := (act A ml mh). Notation reach := (reach A ml mh).
Notation on_stack := (on_stack A ml mh). Notation fresh := (fresh ml mh).

Definition held (m : mach) (o : option Z) (s : snap) (word : Z) : Prop :=
  image A (mem (cp m)) (s_sp s - room A) s /\ mem (cp m) word = s_sp s - room A
  /\ exists lo hi, area m o lo hi /\ lo + room A <= s_sp s <= hi.
Fixpoint chain_ok (m : mach) (l : list (Z * snap)) : Prop :=
  match l with
  | [] => True
  | (f, s) :: r => held m (runner r) s (f + 8) /\ chain_ok m r
  end.
Record inv (m : mach) (w : who) : Prop := {
  i_disj : forall t a n t' a' n', block m t a n -> block m t' a' n' -> t <> t' -> disjoint a n a' n';
  i_stk : forall f x, fibs m f = Some x -> (state x = Created <-> stack x = 0) /\ stack x mod 4096 = 0;
  i_pool : forall b, In b (pool m) -> b <> 0 /\ b mod 4096 = 0;
  i_nodup : NoDup (map fst (chain w));
  i_run : forall f, In f (map fst (chain w)) -> exists x, fibs m f = Some x /\ state x = Running;
  i_chain : chain_ok m (chain w);
  i_susp : forall f s, susp w f = Some s -> ~ In f (map fst (chain w))
             /\ (exists x, fibs m f = Some x /\ state x = Running) /\ held m (Some f) s f;
  i_bot : forall f x, fibs m f = Some x -> state x = Running ->
            mem (cp m) (stack x + STACK_SIZE - 8) = f /\ mem (cp m) (stack x + STACK_SIZE - 16) = GUARD }.

Definition no_other (m : mach) (w : who) : Prop :=
  forall f x, fibs m f = Some x -> state x = Running -> In f (map fst (chain w)) \/ susp w f <> None.

Lemma room_pos : 0 < room A < 500.
Proof. destruct A; cbn; lia. Qed.
Lemma off_in r : In r (callee_saved A) -> 0 <= off A r < room A.
Proof. destruct A; intros H; each_reg r H; cbn; lia. Qed.
Lemma pcoff_in : 0 <= pcoff A < room A.
Proof. destruct A; cbn; lia. Qed.

Lemma image_eq m m' p s : (forall a, p <= a < p + room A -> m' a = m a) -> image A m p s -> image A m' p s.
Proof.
  intros E [H1 H2]. split.
  - rewrite E; [exact H1|]. pose proof pcoff_in. lia.
  - intros r R. rewrite E; [auto|]. pose proof (off_in r R). lia.
Qed.
Lemma held_eq m m' o s wd : (forall lo hi, area m o lo hi -> area m' o lo hi) ->
  (forall a, s_sp s - room A <= a < s_sp s -> mem (cp m') a = mem (cp m) a) -> mem (cp m') wd = mem (cp m) wd ->
  held m o s wd -> held m' o s wd.
Proof.
  intros HA E W (I & J & lo & hi & Ar & B). split; [|split].
  - eapply image_eq; [|exact I]. intros a Ha. apply E. lia.
  - congruence.
  - exists lo, hi. auto.
Qed.
Lemma chain_eq m m' l : (forall o lo hi, area m o lo hi -> o = None \/ (exists f, o = Some f /\ In f (map fst l)) -> area m' o lo hi) ->
  (forall f s a, In (f, s) l -> s_sp s - room A <= a < s_sp s -> mem (cp m') a = mem (cp m) a) ->
  (forall f, In f (map fst l) -> mem (cp m') (f + 8) = mem (cp m) (f + 8)) ->
  chain_ok m l -> chain_ok m' l.
Proof.
  intros HA E W. induction l as [|[f s] l IH]; [auto|]. cbn [chain_ok]. intros [H1 H2]. split.
  - eapply held_eq; [| | |exact H1].
    + intros lo hi Ar. apply HA; [exact Ar|]. destruct l as [|[f' s'] l]; [left; reflexivity|]. right. exists f'. cbn. auto.
    + intros a. apply (E f s a). now left.
    + apply W. now left.
  - apply IH; [| | |exact H2].
    + intros o lo hi Ar [->|(f' & -> & F)]; apply HA; auto. right. exists f'. cbn. auto.
    + intros f' s' a F. apply (E f' s' a). now right.
    + intros f' F. apply W. now right.
Qed.

(** calls that wait have put their words into the stacks of those who made them *)
Lemma chain_where m l f s : chain_ok m l -> In (f, s) l ->
  exists o lo hi, area m o lo hi /\ lo + room A <= s_sp s <= hi
    /\ (o = None \/ exists f', o = Some f' /\ In f' (map fst (tl l))).
Proof.
  induction l as [|[g t] l IH]; [contradiction|]. cbn [chain_ok tl]. intros [(_ & _ & lo & hi & Ar & B) H2] [E|F].
  - injection E as -> ->. exists (runner l), lo, hi. split; [exact Ar|]. split; [exact B|].
    destruct l as [|[f' s'] l]; [left; reflexivity|]. right. exists f'. cbn. auto.
  - destruct (IH H2 F) as (o & lo' & hi' & Ar' & B' & [->|(f' & -> & I)]).
    + exists None, lo', hi'. auto.
    + exists (Some f'), lo', hi'. repeat split; auto; try tauto. right. exists f'. split; [reflexivity|].
      destruct l as [|p l]; [destruct I|right; exact I].
Qed.
Definition otag (o : option Z) : tag := match o with None => TMain | Some f => TStack f end.
Lemma area_block m o lo hi : area m o lo hi -> exists n, block m (otag o) lo n /\ hi <= lo + n /\ (o <> None -> n = STACK_SIZE /\ hi = lo + n - 24).
Proof.
  destruct o as [f|]; cbn [SpecSwitch.area otag].
  - intros (x & F & S & -> & ->). exists STACK_SIZE. split; [now constructor|]. unfold STACK_SIZE. split; [lia|]. intros _. lia.
  - intros [-> ->]. exists (mh - ml). split; [constructor|]. split; [lia|]. congruence.
Qed.
Lemma otag_inj o o' : otag o = otag o' -> o = o'.
Proof. destruct o, o'; cbn; congruence. Qed.
(** same blocks *)
Lemma block_shape m m' : (forall f, option_map stack (fibs m' f) = option_map stack (fibs m f)) -> pool m' = pool m ->
  forall t a n, block m' t a n -> block m t a n.
Proof.
  intros H P t a n []; [constructor| | |].
  - specialize (H f). rewrite H0 in H. destruct (fibs m f) as [y|] eqn:E; [|discriminate]. now apply (B_fcb _ _ _ f y).
  - specialize (H f). rewrite H0 in H. destruct (fibs m f) as [y|] eqn:E; [|discriminate]. injection H as H. rewrite H in *.
    now apply (B_stack _ _ _ f y).
  - rewrite P in *. now constructor.
Qed.
Lemma area_shape m m' : (forall f, option_map stack (fibs m' f) = option_map stack (fibs m f)) ->
  forall o lo hi, area m o lo hi -> area m' o lo hi.
Proof.
  intros H [f|] lo hi; cbn; [|auto]. intros (x & F & S & -> & ->). specialize (H f). rewrite F in H.
  destruct (fibs m' f) as [y|] eqn:E; [|discriminate]. injection H as H. exists y. rewrite H. auto.
Qed.

(** what is written below the stack pointer of who is running is nobody else's *)
Section Out.
Variables (m : mach) (w : who) (p : Z).
Hypothesis I : inv m w.
Variables lo n : Z.
Hypothesis Bk : block m (otag (runner (chain w))) lo n.
Hypothesis Pl : lo + room A <= p.
Hypothesis Ph : p <= lo + n.
Definition out (a : Z) : Prop := ~ (p - room A <= a < p).
Lemma out_fcb f x : fibs m f = Some x -> out f /\ out (f + 8) /\ (f + 8 + 8 <= p - room A \/ p <= f).
Proof.
  intros F. pose proof (i_disj _ _ I _ _ _ _ _ _ Bk (B_fcb _ _ _ f x F)) as D.
  unfold disjoint, out in *. destruct (runner (chain w)); cbn in D; specialize (D ltac:(discriminate)); lia.
Qed.
Lemma out_chain f s a : In (f, s) (chain w) -> s_sp s - room A <= a < s_sp s -> out a.
Proof.
  intros F Ha. destruct (chain_where _ _ _ _ (i_chain _ _ I) F) as (o & lo' & hi' & Ar & B & O).
  destruct (area_block _ _ _ _ Ar) as (n' & Bk' & H1 & _).
  assert (N : otag (runner (chain w)) <> otag o).
  { intros E. apply otag_inj in E. pose proof (i_nodup _ _ I) as ND. destruct (chain w) as [|[g t] l]; [destruct F|].
    cbn [runner tl] in *. destruct O as [->|(f' & -> & In')]; [discriminate|]. injection E as <-. inversion ND; auto. }
  pose proof (i_disj _ _ I _ _ _ _ _ _ Bk Bk' N) as Dj. unfold disjoint, out in *. lia.
Qed.
Lemma out_susp f s a : susp w f = Some s -> s_sp s - room A <= a < s_sp s -> out a.
Proof.
  intros F Ha. destruct (i_susp _ _ I _ _ F) as (Ni & _ & _ & _ & lo' & hi' & Ar & B).
  destruct (area_block _ _ _ _ Ar) as (n' & Bk' & H1 & _).
  assert (N : otag (runner (chain w)) <> otag (Some f)).
  { intros E. apply otag_inj in E. destruct (chain w) as [|[g t] l]; [discriminate|]. injection E as ->. apply Ni. now left. }
  pose proof (i_disj _ _ I _ _ _ _ _ _ Bk Bk' N) as Dj. unfold disjoint, out in *. lia.
Qed.
Lemma out_bot f x a : fibs m f = Some x -> stack x <> 0 -> runner (chain w) <> Some f ->
  stack x <= a < stack x + STACK_SIZE -> out a.
Proof.
  intros F S R Ha. pose proof (i_disj _ _ I _ _ _ _ _ _ Bk (B_stack _ _ _ f x F S)) as Dj.
  specialize (Dj ltac:(intros E; apply R; destruct (runner (chain w)); cbn in E; congruence)).
  unfold disjoint, out in *. lia.
Qed.
End Out.
(** no word of a FiberContext is in a stack, or of another FiberContext *)
Lemma fcb_img m w o lo hi f x a : inv m w -> area m o lo hi -> fibs m f = Some x -> lo <= a < hi -> a <> f /\ a <> f + 8.
Proof.
  intros I Ar F Ha. destruct (area_block _ _ _ _ Ar) as (n & Bk & H1 & _).
  pose proof (i_disj _ _ I _ _ _ _ _ _ Bk (B_fcb _ _ _ f x F)) as Dj.
  specialize (Dj ltac:(destruct o; discriminate)). unfold disjoint in Dj. lia.
Qed.
Lemma fcb_fcb m w f x f' x' : inv m w -> fibs m f = Some x -> fibs m f' = Some x' -> f <> f' -> f + 16 <= f' \/ f' + 16 <= f.
Proof.
  intros I F F' N. pose proof (i_disj _ _ I _ _ _ _ _ _ (B_fcb _ _ _ f x F) (B_fcb _ _ _ f' x' F')) as Dj.
  specialize (Dj ltac:(congruence)). exact Dj.
Qed.
Lemma fcb_stk m w f x f' x' a : inv m w -> fibs m f = Some x -> fibs m f' = Some x' -> stack x' <> 0 ->
  stack x' <= a < stack x' + STACK_SIZE -> a <> f /\ a <> f + 8.
Proof.
  intros I F F' S Ha. pose proof (i_disj _ _ I _ _ _ _ _ _ (B_fcb _ _ _ f x F) (B_stack _ _ _ f' x' F' S)) as Dj.
  specialize (Dj ltac:(congruence)). unfold disjoint in Dj. lia.
Qed.
Lemma in_fst (f : Z) (s : snap) l : In (f, s) l -> In f (map fst l).
Proof. intros H. apply (in_map fst) in H. exact H. Qed.
Lemma running_stk m w f x : inv m w -> fibs m f = Some x -> state x = Running -> stack x <> 0.
Proof. intros I F R E. apply (i_stk _ _ I f x F) in E. congruence. Qed.
(** what a change of stack leaves alone *)
Lemma agree m w f x o1 p lo n (mm : Z -> Z) : inv m w -> fibs m f = Some x -> (o1 = 0 \/ o1 = 8) ->
  block m (otag (runner (chain w))) lo n -> lo + room A <= p -> p <= lo + n ->
  (forall a, ~ (p - room A <= a < p) -> a <> f + o1 -> mm a = mem (cp m) a) ->
  (forall f' s a, In (f', s) (chain w) -> s_sp s - room A <= a < s_sp s -> mm a = mem (cp m) a)
  /\ (forall f' s a, susp w f' = Some s -> s_sp s - room A <= a < s_sp s -> mm a = mem (cp m) a)
  /\ (forall f' x' o, fibs m f' = Some x' -> (o = 0 \/ o = 8) -> f' <> f \/ o <> o1 -> mm (f' + o) = mem (cp m) (f' + o))
  /\ (forall f' x' a, fibs m f' = Some x' -> stack x' <> 0 -> stack x' <= a < stack x' + STACK_SIZE ->
        (runner (chain w) = Some f' -> p <= a) -> mm a = mem (cp m) a).
Proof.
  intros I F O Bk Pl Ph E. split; [|split; [|split]].
  - intros f' s a In' Ha. apply E; [exact (out_chain m w p I lo n Bk Pl Ph f' s a In' Ha)|].
    destruct (chain_where _ _ _ _ (i_chain _ _ I) In') as (o & lo' & hi' & Ar & B & _).
    destruct (fcb_img m w o lo' hi' f x a I Ar F); [lia|]. destruct O as [->| ->]; lia.
  - intros f' s a Su Ha. apply E; [exact (out_susp m w p I lo n Bk Pl Ph f' s a Su Ha)|].
    destruct (i_susp _ _ I _ _ Su) as (_ & _ & _ & _ & lo' & hi' & Ar & B).
    destruct (fcb_img m w _ lo' hi' f x a I Ar F); [lia|]. destruct O as [->| ->]; lia.
  - intros f' x' o F' Oo N. destruct (out_fcb m w p I lo n Bk Pl Ph f' x' F') as (O1 & O2 & _). apply E.
    + destruct Oo as [->| ->]; [rewrite Z.add_0_r|]; assumption.
    + destruct (Z.eq_dec f' f) as [->|N']; [destruct N; lia|].
      pose proof (fcb_fcb m w f' x' f x I F' F N'). lia.
  - intros f' x' a F' S Ha R. destruct (fcb_stk m w f x f' x' a I F F' S Ha). apply E; [|destruct O as [->| ->]; lia].
    assert (D : runner (chain w) = Some f' \/ runner (chain w) <> Some f').
    { destruct (runner (chain w)) as [g|]; [|right; discriminate]. destruct (Z.eq_dec g f'); [left|right]; congruence. }
    destruct D as [D|D]; [specialize (R D); lia|]. exact (out_bot m w p I lo n Bk Pl Ph f' x' a F' S D Ha).
Qed.

Lemma frame m w c : inv m w -> (forall a, reserved A m w a -> mem c a = mem (cp m) a) -> inv (mkmach c (fibs m) (pool m)) w.
Proof.
  intros I E.
  assert (EF : forall f x, fibs m f = Some x -> mem c f = mem (cp m) f /\ mem c (f + 8) = mem (cp m) (f + 8)).
  { intros f x F. split; apply E; left; exists f, x; auto. }
  constructor; cbn [fibs pool cp].
  - intros t a n t' a' n' B B' N. apply (i_disj _ _ I t a n t' a' n'); first [exact (block_shape m (mkmach c (fibs m) (pool m)) (fun _ => eq_refl) eq_refl _ _ _ B) | exact (block_shape m (mkmach c (fibs m) (pool m)) (fun _ => eq_refl) eq_refl _ _ _ B') | auto].
  - exact (i_stk _ _ I).
  - exact (i_pool _ _ I).
  - exact (i_nodup _ _ I).
  - exact (i_run _ _ I).
  - eapply chain_eq; [| | |exact (i_chain _ _ I)].
    + intros o lo hi Ar _. revert Ar. apply area_shape. reflexivity.
    + intros f s a F Ha. apply E. right. left. exists s. split; [left; eauto|exact Ha].
    + intros f F. destruct (i_run _ _ I f F) as (x & Fx & _). apply (EF f x Fx).
  - intros f s Su. destruct (i_susp _ _ I f s Su) as (N & (x & Fx & R) & H). split; [exact N|]. split; [eauto|].
    eapply held_eq; [| | |exact H].
    + intros lo hi. apply area_shape. reflexivity.
    + intros a Ha. apply E. right. left. exists s. split; [right; eauto|exact Ha].
    + apply (EF f x Fx).
  - intros f x F R. pose proof (running_stk m w f x I F R) as S. destruct (i_bot _ _ I f x F R) as [B1 B2].
    split; [etransitivity; [|exact B1]|etransitivity; [|exact B2]]; apply E; right; right; exists f, x; auto.
Qed.

Lemma depart m w f x ra c : inv m w -> on_stack m w -> ~ In f (map fst (chain w)) -> fibs m f = Some x -> state x = Running ->
  moved A ra f 8 0 (cp m) c ->
  inv (mkmach c (fibs m) (pool m)) (mkwho ((f, snap_of ra (cp m)) :: chain w) (sets f None (susp w))).
Proof.
  intros I (lo & hi & Ar & Pl & Ph) N F R M.
  destruct (area_block _ _ _ _ Ar) as (n & Bk & Hh & Hs).
  destruct (agree m w f x 8 (regs (cp m) SP) lo n (mem c) I F (or_intror eq_refl) Bk Pl ltac:(lia) (mv_out _ _ _ _ _ _ _ M))
    as (G1 & G2 & G3 & G4).
  constructor; cbn [fibs pool cp chain susp map fst].
  - intros t a k t' a' k' B B' Nt. apply (i_disj _ _ I t a k t' a' k'); first [exact (block_shape m (mkmach c (fibs m) (pool m)) (fun _ => eq_refl) eq_refl _ _ _ B) | exact (block_shape m (mkmach c (fibs m) (pool m)) (fun _ => eq_refl) eq_refl _ _ _ B') | auto].
  - exact (i_stk _ _ I).
  - exact (i_pool _ _ I).
  - constructor; [exact N|exact (i_nodup _ _ I)].
  - intros g [<-|G]; [eauto|exact (i_run _ _ I g G)].
  - cbn [chain_ok]. split.
    + split; [exact (mv_img _ _ _ _ _ _ _ M)|]. split; [exact (mv_sp _ _ _ _ _ _ _ M)|].
      exists lo, hi. split; [|split; assumption]. revert Ar. apply area_shape. reflexivity.
    + eapply chain_eq; [| | |exact (i_chain _ _ I)].
      * intros o lo' hi' Ar' _. revert Ar'. apply area_shape. reflexivity.
      * exact G1.
      * intros g G. destruct (i_run _ _ I g G) as (y & Fy & _). apply (G3 g y 8 Fy); [auto|]. left. congruence.
  - intros g s. unfold sets. destruct (Z.eqb_spec g f) as [->|Ng]; [discriminate|]. intros Su.
    destruct (i_susp _ _ I g s Su) as (N' & (y & Fy & Ry) & H). split; [intros [E|E]; [congruence|auto]|]. split; [eauto|].
    eapply held_eq; [| | |exact H].
    + intros lo' hi'. apply area_shape. reflexivity.
    + intros a. exact (G2 g s a Su).
    + pose proof (G3 g y 0 Fy (or_introl eq_refl) (or_introl Ng)) as W. now rewrite Z.add_0_r in W.
  - intros g y G Ry. pose proof (running_stk m w g y I G Ry) as Sy. destruct (i_bot _ _ I g y G Ry) as [B1 B2].
    assert (T : forall a, stack y + STACK_SIZE - 16 <= a < stack y + STACK_SIZE -> mem c a = mem (cp m) a).
    { intros a Ha. apply (G4 g y a G Sy); [unfold STACK_SIZE in *; lia|]. intros Rn. rewrite Rn in Ar.
      destruct Ar as (y' & Fy' & _ & E1 & E2). rewrite G in Fy'. injection Fy' as <-. lia. }
    rewrite !T by (unfold STACK_SIZE; lia). split; assumption.
Qed.

Lemma yielded m w f s l ra c : inv m w -> on_stack m w -> chain w = (f, s) :: l ->
  moved A ra f 0 8 (cp m) c ->
  inv (mkmach c (fibs m) (pool m)) (mkwho l (sets f (Some (snap_of ra (cp m))) (susp w))).
Proof.
  intros I (lo & hi & Ar & Pl & Ph) Ch M.
  destruct (i_run _ _ I f ltac:(rewrite Ch; now left)) as (x & F & R).
  destruct (area_block _ _ _ _ Ar) as (n & Bk & Hh & Hs).
  destruct (agree m w f x 0 (regs (cp m) SP) lo n (mem c) I F (or_introl eq_refl) Bk Pl ltac:(lia) (mv_out _ _ _ _ _ _ _ M))
    as (G1 & G2 & G3 & G4).
  pose proof (i_nodup _ _ I) as ND. rewrite Ch in ND. cbn in ND. inversion ND as [|? ? Nf ND']. subst.
  pose proof (i_chain _ _ I) as CO. rewrite Ch in CO. destruct CO as [_ CO].
  constructor; cbn [fibs pool cp chain susp].
  - intros t a k t' a' k' B B' Nt. apply (i_disj _ _ I t a k t' a' k'); first [exact (block_shape m (mkmach c (fibs m) (pool m)) (fun _ => eq_refl) eq_refl _ _ _ B) | exact (block_shape m (mkmach c (fibs m) (pool m)) (fun _ => eq_refl) eq_refl _ _ _ B') | auto].
  - exact (i_stk _ _ I).
  - exact (i_pool _ _ I).
  - exact ND'.
  - intros g G. apply (i_run _ _ I g). rewrite Ch. now right.
  - eapply chain_eq; [| | |exact CO].
    + intros o lo' hi' Ar' _. revert Ar'. apply area_shape. reflexivity.
    + intros g t a G. apply (G1 g t a). rewrite Ch. now right.
    + intros g G. destruct (i_run _ _ I g ltac:(rewrite Ch; now right)) as (y & Fy & _). apply (G3 g y 8 Fy); [auto|]. right. lia.
  - intros g t. unfold sets. destruct (Z.eqb_spec g f) as [->|Ng].
    + intros E. injection E as <-. split; [exact Nf|]. split; [eauto|]. split; [exact (mv_img _ _ _ _ _ _ _ M)|].
      split; [pose proof (mv_sp _ _ _ _ _ _ _ M) as W; now rewrite Z.add_0_r in W|].
      exists lo, hi. split; [|split; assumption]. rewrite Ch in Ar. revert Ar. apply area_shape. reflexivity.
    + intros Su. destruct (i_susp _ _ I g t Su) as (N' & (y & Fy & Ry) & H). split; [intros E; apply N'; rewrite Ch; now right|].
      split; [eauto|]. eapply held_eq; [| | |exact H].
      * intros lo' hi'. apply area_shape. reflexivity.
      * intros a. exact (G2 g t a Su).
      * pose proof (G3 g y 0 Fy (or_introl eq_refl) (or_introl Ng)) as W. now rewrite Z.add_0_r in W.
  - intros g y G Ry. pose proof (running_stk m w g y I G Ry) as Sy. destruct (i_bot _ _ I g y G Ry) as [B1 B2].
    assert (T : forall a, stack y + STACK_SIZE - 16 <= a < stack y + STACK_SIZE -> mem c a = mem (cp m) a).
    { intros a Ha. apply (G4 g y a G Sy); [unfold STACK_SIZE in *; lia|]. intros Rn. rewrite Rn in Ar.
      destruct Ar as (y' & Fy' & _ & E1 & E2). rewrite G in Fy'. injection Fy' as <-. lia. }
    rewrite !T by (unfold STACK_SIZE; lia). split; assumption.
Qed.
(** the end of a fiber *)
Lemma ended m w f x s l ra c0 c lo n : inv m w -> chain w = (f, s) :: l -> fibs m f = Some x ->
  block m (TStack f) lo n -> lo + room A <= regs c0 SP -> regs c0 SP <= lo + n -> mem c0 = mem (cp m) ->
  moved A ra f 0 8 c0 c ->
  inv (mkmach c (setf f (Some (mkfcb (stack x) Dead)) (fibs m)) (pool m)) (mkwho l (susp w)).
Proof.
  intros I Ch F Bk Pl Ph Em M.
  assert (Rx : state x = Running).
  { destruct (i_run _ _ I f ltac:(rewrite Ch; now left)) as (x' & F' & R). congruence. }
  pose proof (mv_out _ _ _ _ _ _ _ M) as MO. rewrite Em in MO.
  assert (Bk' : block m (otag (runner (chain w))) lo n) by (rewrite Ch; exact Bk).
  destruct (agree m w f x 0 (regs c0 SP) lo n (mem c) I F (or_introl eq_refl) Bk' Pl Ph MO) as (G1 & G2 & G3 & G4).
  pose proof (i_nodup _ _ I) as ND. rewrite Ch in ND. cbn in ND. inversion ND as [|? ? Nf ND']. subst.
  pose proof (i_chain _ _ I) as CO. rewrite Ch in CO. destruct CO as [_ CO].
  set (fb := setf f (Some (mkfcb (stack x) Dead)) (fibs m)).
  assert (Sh : forall g, option_map stack (fb g) = option_map stack (fibs m g)).
  { intros g. unfold fb, setf. destruct (Z.eqb_spec g f) as [->|]; [rewrite F|]; reflexivity. }
  assert (Oth : forall g, g <> f -> fb g = fibs m g).
  { intros g Ng. unfold fb, setf. now apply Z.eqb_neq in Ng as ->. }
  assert (Me : fb f = Some (mkfcb (stack x) Dead)) by (unfold fb, setf; now rewrite Z.eqb_refl).
  constructor; cbn [fibs pool cp chain susp].
  - intros t a k t' a' k' B B' Nt. apply (i_disj _ _ I t a k t' a' k'); first [exact (block_shape m (mkmach c fb (pool m)) Sh eq_refl _ _ _ B) | exact (block_shape m (mkmach c fb (pool m)) Sh eq_refl _ _ _ B') | auto].
  - intros g y G. destruct (Z.eq_dec g f) as [->|Ng].
    + rewrite Me in G. injection G as <-. cbn. destruct (i_stk _ _ I f x F) as [[H1 H2] H3]. split; [|exact H3].
      split; [discriminate|]. intros E. apply H2 in E. congruence.
    + rewrite (Oth g Ng) in G. exact (i_stk _ _ I g y G).
  - exact (i_pool _ _ I).
  - exact ND'.
  - intros g G. rewrite (Oth g ltac:(intros ->; auto)). apply (i_run _ _ I g). rewrite Ch. now right.
  - eapply chain_eq; [| | |exact CO].
    + intros o lo' hi' Ar' _. revert Ar'. apply area_shape. exact Sh.
    + intros g t a G. apply (G1 g t a). rewrite Ch. now right.
    + intros g G. destruct (i_run _ _ I g ltac:(rewrite Ch; now right)) as (y & Fy & _). apply (G3 g y 8 Fy); [auto|]. right. lia.
  - intros g t Su. destruct (i_susp _ _ I g t Su) as (N' & (y & Fy & Ry) & H).
    assert (Ng : g <> f) by (intros ->; apply N'; rewrite Ch; now left).
    split; [intros E; apply N'; rewrite Ch; now right|]. rewrite (Oth g Ng).
    split; [eauto|]. eapply held_eq; [| | |exact H].
    + intros lo' hi'. apply area_shape. exact Sh.
    + intros a. exact (G2 g t a Su).
    + pose proof (G3 g y 0 Fy (or_introl eq_refl) (or_introl Ng)) as W. now rewrite Z.add_0_r in W.
  - intros g y G Ry. destruct (Z.eq_dec g f) as [->|Ng]; [rewrite Me in G; injection G as <-; discriminate|]. rewrite (Oth g Ng) in G.
    pose proof (running_stk m w g y I G Ry) as Sy. destruct (i_bot _ _ I g y G Ry) as [B1 B2].
    assert (T : forall a, stack y + STACK_SIZE - 16 <= a < stack y + STACK_SIZE -> mem c a = mem (cp m) a).
    { intros a Ha. apply (G4 g y a G Sy); [unfold STACK_SIZE in *; lia|]. rewrite Ch. cbn. congruence. }
    rewrite !T by (unfold STACK_SIZE; lia). split; assumption.
Qed.
End Inv.
