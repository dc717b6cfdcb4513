(** Lemmas for C42: the invariant of the machine of stacks. *)
From Coq Require Import ZArith List Bool Arith Lia.
From Verif Require Import ModelFiber SpecFiber.
Import ListNotations.

Lemma set_same A i (a : A) m : set i a m i = a.
Proof. unfold set. rewrite Nat.eqb_refl. reflexivity. Qed.
Lemma set_other A i (a : A) m j : j <> i -> set i a m j = m j.
Proof. intros H. unfold set. destruct (Nat.eqb_spec j i); [contradiction|reflexivity]. Qed.
Lemma upd_same K f p (ph : fid -> phase K) : upd f p ph f = p.
Proof. unfold upd. rewrite Nat.eqb_refl. reflexivity. Qed.
Lemma upd_other K f p (ph : fid -> phase K) j : j <> f -> upd f p ph j = ph j.
Proof. intros H. unfold upd. destruct (Nat.eqb_spec j f); [contradiction|reflexivity]. Qed.
Lemma vm_eqb_refl t : vm_eqb t t = true.
Proof. destruct t; [apply Nat.eqb_refl|reflexivity]. Qed.
Lemma vm_eqb_neq t u : t <> u -> vm_eqb t u = false.
Proof.
  destruct t as [a|], u as [b|]; cbn; intros H; auto; [|contradiction].
  apply Nat.eqb_neq. intros ->. apply H. reflexivity.
Qed.

Section Inv.
Variables K G : Type.
Variable next : K -> G -> G * op K.
Variable k0 : K.
Notation ev := (event K).
Notation M := (mach K G).

Lemma active_app f a (l r : list ev) : active f a (l ++ r) = active f (active f a l) r.
Proof. revert a. induction l as [|e l IH]; intros a; [reflexivity|]. cbn. apply IH. Qed.
Lemma events_app t (l r : list ev) : events_of t (l ++ r) = events_of t l ++ events_of t r.
Proof. apply filter_app. Qed.

Definition stack_of (m : M) (t : vmid) : option sid :=
  match t with
  | None => Some 0
  | Some f => match m_fib m f with Some x => f_stack x | None => None end
  end.
Definition made (tr : list ev) (f : fid) (b : kind K) : Prop := exists t, In (ENew t f b) tr.
(** where the code of a thread is, by the events it took part in *)
Definition loc (tr : list ev) (t : vmid) (p : place K) : Prop :=
  match t with
  | None => does next None k0 (events_of None tr) p
  | Some f => exists b vars l, made tr f b /\ events_of (Some f) tr = EStart f vars :: l /\
                               does next (Some f) (body b vars) l p
  end.
Fixpoint chain (m : M) (tr : list ev) (t : vmid) (rest : list vmid) : Prop :=
  match rest with
  | [] => t = None
  | t' :: r => exists f x s n kf, t = Some f /\ m_fib m f = Some x /\ f_main x = (s, n) /\
      stack_of m t' = Some s /\ m_mem m s = (n, CResume f t' kf) /\ loc tr t' (InResume f kf) /\ chain m tr t' r
  end.
Definition phase_ok (m : M) (tr : list ev) (f : fid) (p : phase K) : Prop :=
  match p with
  | Absent => m_fib m f = None /\ events_of (Some f) tr = [] /\ (forall b, ~ made tr f b)
  | Gone => m_fib m f = None /\ (exists t, In (EDrop t f) tr) /\ (events_of (Some f) tr = [] \/ exists p, loc tr (Some f) p)
  | Fresh b => exists x, m_fib m f = Some x /\ f_state x = Created /\ f_kind x = b /\ f_stack x = None /\
                         made tr f b /\ events_of (Some f) tr = []
  | Active b => exists x s n, m_fib m f = Some x /\ f_state x = Running /\ f_kind x = b /\ f_stack x = Some s /\
                              f_handle x = true /\ f_rsp x = (s, n) /\ n < fst (m_mem m s) /\ made tr f b
  | Waiting b => exists x s n k, m_fib m f = Some x /\ f_state x = Running /\ f_kind x = b /\ f_stack x = Some s /\
                              f_handle x = true /\ f_rsp x = (s, n) /\ m_mem m s = (n, CYield (Some f) k) /\ made tr f b /\
                              loc tr (Some f) (InYield k)
  | Finished => exists x, m_fib m f = Some x /\ f_state x = Dead /\ loc tr (Some f) Ended
  end.
Record inv (m : M) (tr : list ev) (rest : list vmid) (ph : fid -> phase K) : Prop := mkinv {
  i_cur : stack_of m (m_vm m) = Some (m_cur m);
  i_loc : loc tr (m_vm m) (At (m_k m));
  i_chain : chain m tr (m_vm m) rest;
  i_nodup : NoDup (m_vm m :: rest);
  i_act : forall f, In (Some f) (m_vm m :: rest) <-> exists b, ph f = Active b;
  i_trace : forall f, active f false tr = true <-> exists b, ph f = Active b;
  i_ph : forall f, phase_ok m tr f (ph f);
  i_new : forall f, ph f = Absent <-> m_nfib m <= f;
  i_stk : forall f x s, m_fib m f = Some x -> f_stack x = Some s ->
            1 <= s < m_nsid m /\ ~ In s (m_pool m) /\ m_base m s = f;
  i_pool : NoDup (m_pool m) /\ forall s, In s (m_pool m) -> 1 <= s < m_nsid m;
  i_nsid : 1 <= m_nsid m;
  i_once : forall f b b', made tr f b -> made tr f b' -> b = b' }.

Lemma stack_inj m tr rest ph t t' s : inv m tr rest ph ->
  stack_of m t = Some s -> stack_of m t' = Some s -> t = t'.
Proof.
  intros I H H'. destruct t as [f|], t' as [f'|]; cbn in H, H'; [| | |reflexivity].
  - destruct (m_fib m f) as [x|] eqn:E; [|discriminate]. destruct (m_fib m f') as [x'|] eqn:E'; [|discriminate].
    destruct (i_stk _ _ _ _ I _ _ _ E H) as (_ & _ & A). destruct (i_stk _ _ _ _ I _ _ _ E' H') as (_ & _ & B). congruence.
  - injection H' as <-. destruct (m_fib m f) as [x|] eqn:E; [|discriminate].
    destruct (i_stk _ _ _ _ I _ _ _ E H) as (A & _). lia.
  - injection H as <-. destruct (m_fib m f') as [x|] eqn:E; [|discriminate].
    destruct (i_stk _ _ _ _ I _ _ _ E H') as (A & _). lia.
Qed.

(** events of others do not move a thread *)
Lemma made_app tr tr' f b : made tr f b -> made (tr ++ tr') f b.
Proof. intros (t & H). exists t. apply in_or_app. auto. Qed.
Lemma loc_other tr tr' t p : loc tr t p -> events_of t tr' = [] -> loc (tr ++ tr') t p.
Proof.
  intros H E. destruct t as [f|]; cbn in *.
  - destruct H as (b & vars & l & A & B & C). exists b, vars, l. split; [apply made_app; exact A|]. split; [|exact C].
    rewrite events_app, E, app_nil_r. exact B.
  - rewrite events_app, E, app_nil_r. exact H.
Qed.
(** an event of a thread that has started *)
Lemma loc_step tr tr' t p p' : loc tr t p ->
  (forall k l, does next t k l p -> does next t k (l ++ events_of t tr') p') -> loc (tr ++ tr') t p'.
Proof.
  intros H E. destruct t as [f|]; cbn in *.
  - destruct H as (b & vars & l & A & B & C). exists b, vars, (l ++ events_of (Some f) tr'). split; [apply made_app; exact A|]. split.
    + rewrite events_app, B. reflexivity.
    + apply E. exact C.
  - rewrite events_app. apply E. exact H.
Qed.
Lemma chain_ext m m' tr tr' t rest : chain m tr t rest ->
  (forall f, In (Some f) (t :: rest) -> exists x x', m_fib m f = Some x /\ m_fib m' f = Some x' /\ f_main x' = f_main x /\ f_stack x' = f_stack x) ->
  (forall u s, In u rest -> stack_of m u = Some s -> m_mem m' s = m_mem m s) ->
  (forall u, In u rest -> events_of u tr' = []) ->
  chain m' (tr ++ tr') t rest.
Proof.
  revert t. induction rest as [|u rest IH]; intros t H HF HM HE; [exact H|].
  destruct H as (f & x & s & n & kf & -> & A & B & C & D & E & F).
  destruct (HF f (or_introl eq_refl)) as (y & y' & Y1 & Y2 & Y3 & Y4).
  rewrite A in Y1. injection Y1 as <-.
  exists f, y', s, n, kf. split; [reflexivity|]. split; [exact Y2|]. split; [congruence|]. split.
  - destruct u as [g|]; [|exact C]. destruct (HF g (or_intror (or_introl eq_refl))) as (z & z' & Z1 & Z2 & Z3 & Z4).
    cbn in *. rewrite Z1 in C. rewrite Z2. congruence.
  - split; [rewrite (HM u s (or_introl eq_refl) C); exact D|]. split.
    + apply loc_other; [exact E|]. apply HE. left. reflexivity.
    + apply IH; [exact F| | |].
      * intros g Hg. apply HF. right. exact Hg.
      * intros w z Hw. apply HM. right. exact Hw.
      * intros w Hw. apply HE. right. exact Hw.
Qed.
Lemma phase_ext m m' tr tr' f p : phase_ok m tr f p -> m_fib m' f = m_fib m f ->
  (forall x s, m_fib m f = Some x -> f_stack x = Some s -> m_mem m' s = m_mem m s) ->
  events_of (Some f) tr' = [] -> (forall b, ~ made tr' f b) -> phase_ok m' (tr ++ tr') f p.
Proof.
  intros H HF HM HE HN. destruct p as [|b|b|b| |]; cbn [phase_ok] in *; rewrite ?HF, ?events_app, ?HE, ?app_nil_r.
  - destruct H as (A & B & C). split; [exact A|]. split; [exact B|]. intros b (t & Q). apply in_app_or in Q.
    destruct Q as [Q|Q]; [apply (C b)|apply (HN b)]; exists t; exact Q.
  - destruct H as (x & A & B & C & D & E & F). exists x. repeat (split; [assumption|]). split; [apply made_app; exact E|exact F].
  - destruct H as (x & s & n & A & B & C & D & E & F & N & W). exists x, s, n. rewrite (HM x s A D).
    repeat (split; [assumption|]). apply made_app. exact W.
  - destruct H as (x & s & n & k & A & B & C & D & E & F & N & W & L). exists x, s, n, k. rewrite (HM x s A D).
    repeat (split; [assumption|]). split; [apply made_app; exact W|]. apply (loc_other tr tr' (Some f)); assumption.
  - destruct H as (x & A & B & C). exists x. split; [exact A|]. split; [exact B|]. apply (loc_other tr tr' (Some f)); assumption.
  - destruct H as (A & (t & B) & C). split; [exact A|]. split; [exists t; apply in_or_app; auto|].
    destruct C as [C|(p & C)]; [left; exact C|]. right. exists p. apply (loc_other tr tr' (Some f)); assumption.
Qed.
Lemma in_stack m tr rest ph f : inv m tr rest ph -> In (Some f) (m_vm m :: rest) ->
  exists x s, m_fib m f = Some x /\ f_stack x = Some s.
Proof.
  intros I H. apply (i_act _ _ _ _ I) in H. destruct H as (b & H). pose proof (i_ph _ _ _ _ I f) as Q. rewrite H in Q.
  destruct Q as (x & s & n & A & _ & _ & D & _). eauto.
Qed.
Lemma once_app tr tr' : (forall f b b', made tr f b -> made tr f b' -> b = b') -> (forall f b, ~ made tr' f b) ->
  forall f b b', made (tr ++ tr') f b -> made (tr ++ tr') f b' -> b = b'.
Proof.
  intros H N f b b' (t & A) (t' & A'). apply in_app_or in A, A'.
  destruct A as [A|A]; [|exfalso; eapply N; eexists; exact A]. destruct A' as [A'|A']; [|exfalso; eapply N; eexists; exact A'].
  apply (H f); eexists; eassumption.
Qed.

Lemma phase_act m m' tr tr' f b : phase_ok m tr f (Active b) -> m_fib m' f = m_fib m f ->
  (forall x s, m_fib m f = Some x -> f_stack x = Some s -> fst (m_mem m s) <= fst (m_mem m' s)) ->
  phase_ok m' (tr ++ tr') f (Active b).
Proof.
  intros (x & s & n & A & B & C & D & E & F & N & W) HF HM. exists x, s, n. rewrite HF. specialize (HM x s A D).
  repeat (split; [assumption|]). split; [lia|]. apply made_app. exact W.
Qed.
Definition quiet (grp : list ev) : Prop := forall f b, ~ made grp f b.
(** the running thread goes on *)
Lemma inv_stay m m' tr grp rest ph : inv m tr rest ph ->
  m_fib m' = m_fib m -> m_nfib m' = m_nfib m -> m_mem m' = m_mem m -> m_base m' = m_base m -> m_pool m' = m_pool m ->
  m_nsid m' = m_nsid m -> m_cur m' = m_cur m -> m_vm m' = m_vm m ->
  (forall u, u <> m_vm m -> events_of u grp = []) -> quiet grp -> (forall f a, active f a grp = a) ->
  (forall k l, does next (m_vm m) k l (At (m_k m)) -> does next (m_vm m) k (l ++ events_of (m_vm m) grp) (At (m_k m'))) ->
  inv m' (tr ++ grp) rest ph.
Proof.
  intros I E1 E2 E3 E4 E5 E6 E7 E8 HE HN HA HD. pose proof I as [A B C D E F P N S L Z O].
  assert (ND := D). apply NoDup_cons_iff in ND. destruct ND as [D1 D2].
  constructor; rewrite ?E2, ?E4, ?E5, ?E6, ?E7, ?E8; try assumption.
  - rewrite <- A. unfold stack_of. rewrite E1. reflexivity.
  - apply (loc_step _ _ _ _ _ B HD).
  - apply (chain_ext m).
    + exact C.
    + intros f Hf. destruct (in_stack _ _ _ _ f I Hf) as (x & s & Q & _). exists x, x. rewrite E1. auto.
    + intros u s _ _. rewrite E3. reflexivity.
    + intros u Hu. apply HE. intros ->. contradiction.
  - intros f. rewrite active_app, HA. apply F.
  - intros f. destruct (ph f) eqn:Q; try (rewrite <- Q; apply (phase_ext m); [apply P|rewrite E1; reflexivity|rewrite E3; auto| |apply HN];
      apply HE; intros W; assert (In (Some f) (m_vm m :: rest)) as W2 by (left; auto); apply E in W2; destruct W2 as (b' & W2); congruence).
    apply (phase_act m); [rewrite <- Q; apply P|rewrite E1; reflexivity|rewrite E3; auto].
  - rewrite E1. exact S.
  - apply once_app; assumption.
Qed.
(** a fiber is resumed *)
Lemma inv_enter m m' tr grp rest ph f x' s n n0 kk b : inv m tr rest ph ->
  match ph f with Fresh c | Waiting c => c = b | _ => False end ->
  (forall g, g <> f -> m_fib m' g = m_fib m g) -> m_fib m' f = Some x' ->
  f_state x' = Running -> f_kind x' = b -> f_stack x' = Some s -> f_handle x' = true -> f_rsp x' = (s, n0) ->
  f_main x' = (m_cur m, n) -> n0 < fst (m_mem m' s) -> n = fst (m_mem m (m_cur m)) -> m_mem m' (m_cur m) = (n, CResume f (m_vm m) kk) ->
  (forall z, z <> m_cur m -> z <> s -> m_mem m' z = m_mem m z) -> (forall u z, u <> Some f -> stack_of m u = Some z -> z <> s) ->
  m_nfib m' = m_nfib m -> m_cur m' = s -> m_vm m' = Some f ->
  (forall f x s, m_fib m' f = Some x -> f_stack x = Some s -> 1 <= s < m_nsid m' /\ ~ In s (m_pool m') /\ m_base m' s = f) ->
  (NoDup (m_pool m') /\ forall s, In s (m_pool m') -> 1 <= s < m_nsid m') -> 1 <= m_nsid m' ->
  (forall u, u <> m_vm m -> u <> Some f -> events_of u grp = []) -> quiet grp ->
  (forall g a, active g a grp = if Nat.eqb g f then true else a) ->
  (forall k l, does next (m_vm m) k l (At (m_k m)) -> does next (m_vm m) k (l ++ events_of (m_vm m) grp) (InResume f kk)) ->
  loc (tr ++ grp) (Some f) (At (m_k m')) -> inv m' (tr ++ grp) (m_vm m :: rest) (upd f (Active b) ph).
Proof.
  intros I Hp F1 F2 X1 X2 X3 X4 X5 X6 HV Hn0 M1 M2 HS N1 C1 V1 S1 L1 Z1 HE HN HA HD HL. pose proof I as [A B C D E F P N S L Z O].
  assert (ND := D). apply NoDup_cons_iff in ND. destruct ND as [D1 D2].
  assert (NI : ~ In (Some f) (m_vm m :: rest)).
  { intros Q. apply E in Q. destruct Q as (c & Q). rewrite Q in Hp. exact Hp. }
  assert (CS : m_cur m <> s). { apply (HS (m_vm m)); [|exact A]. intros Q. apply NI. left. exact Q. }
  assert (OT : forall u, u <> Some f -> stack_of m' u = stack_of m u).
  { intros [g|] Q; [|reflexivity]. cbn. rewrite F1; [reflexivity|congruence]. }
  assert (HV0 : m_vm m <> Some f) by (intros Q; apply NI; left; exact Q).
  constructor; rewrite ?V1, ?C1, ?N1; try assumption.
  - cbn. rewrite F2. exact X3.
  - exists f, x', (m_cur m), n, kk. split; [reflexivity|]. split; [exact F2|]. split; [exact X6|].
    split; [rewrite OT by exact HV0; exact A|]. split; [exact M1|]. split; [apply (loc_step _ _ _ _ _ B HD)|].
    apply (chain_ext m); [exact C| | |].
    + intros g Hg. destruct (in_stack _ _ _ _ g I Hg) as (x & z & Q & _). exists x, x. rewrite F1; [auto|]. intros ->. contradiction.
    + intros u z Hu Hz. apply M2.
      * intros ->. apply D1. rewrite <- (stack_inj _ _ _ _ u (m_vm m) _ I Hz A). exact Hu.
      * apply (HS u); [|exact Hz]. intros ->. apply NI. right. exact Hu.
    + intros u Hu. apply HE; intros ->; [contradiction|]. apply NI. right. exact Hu.
  - constructor; [exact NI|]. constructor; assumption.
  - intros g. destruct (Nat.eq_dec g f) as [->|Q].
    + rewrite upd_same. split; [eauto|]. intros _. left. reflexivity.
    + rewrite upd_other by exact Q. rewrite <- E. split; [|right; assumption]. intros [W|W]; [congruence|exact W].
  - intros g. rewrite active_app, HA. destruct (Nat.eqb_spec g f) as [->|Q].
    + rewrite upd_same. split; eauto.
    + rewrite upd_other by exact Q. apply F.
  - intros g. destruct (Nat.eq_dec g f) as [->|Q].
    + rewrite upd_same. exists x', s, n0. repeat (split; [assumption|]). apply made_app.
      pose proof (P f) as W. destruct (ph f); try contradiction; subst b0.
      * destruct W as (x & _ & _ & _ & _ & W & _). exact W.
      * destruct W as (x & s1 & n1 & k1 & _ & _ & _ & _ & _ & _ & _ & W & _). exact W.
    + rewrite upd_other by exact Q. pose proof (P g) as W.
      assert (NG : forall x z, m_fib m g = Some x -> f_stack x = Some z -> z <> s).
      { intros x z Y1 Y2. apply (HS (Some g)); [congruence|]. cbn. rewrite Y1. exact Y2. }
      destruct (ph g) eqn:W0; try (apply (phase_ext m); [exact W|apply F1; exact Q| | |apply HN];
        [intros x z Y1 Y2; apply M2; [|apply (NG x); assumption]; intros ->;
         assert (Y3 : Some g = m_vm m) by (apply (stack_inj _ _ _ _ _ _ (m_cur m) I); [cbn; rewrite Y1; exact Y2|exact A]);
         assert (Y4 : In (Some g) (m_vm m :: rest)) by (left; auto); apply E in Y4; destruct Y4 as (c & Y4); congruence
        |apply HE; [|congruence]; intros Y3; assert (Y4 : In (Some g) (m_vm m :: rest)) by (left; auto); apply E in Y4; destruct Y4 as (c & Y4); congruence]).
      apply (phase_act m); [exact W|apply F1; exact Q|]. intros x z Y1 Y2. destruct (Nat.eq_dec z (m_cur m)) as [->|Y3].
      * rewrite M1, Hn0. cbn. lia.
      * rewrite M2; [lia|exact Y3|apply (NG x); assumption].
  - intros g. destruct (Nat.eq_dec g f) as [->|Q].
    + rewrite upd_same. split; [discriminate|]. intros W. apply N in W. rewrite W in Hp. contradiction.
    + rewrite upd_other by exact Q. apply N.
  - apply once_app; assumption.
Qed.
(** a fiber yields or ends *)
Lemma inv_leave m m' tr grp t' rest ph f x' p' s n : inv m tr (t' :: rest) ph -> m_vm m = Some f ->
  (forall g, g <> f -> m_fib m' g = m_fib m g) -> m_fib m' f = Some x' -> f_stack x' = Some (m_cur m) ->
  stack_of m t' = Some s -> fst (m_mem m s) = n -> fst (m_mem m' s) = S n ->
  (forall z, z <> m_cur m -> z <> s -> m_mem m' z = m_mem m z) ->
  m_nfib m' = m_nfib m -> m_base m' = m_base m -> m_pool m' = m_pool m -> m_nsid m' = m_nsid m -> m_cur m' = s -> m_vm m' = t' ->
  (forall u, u <> t' -> u <> Some f -> events_of u grp = []) -> quiet grp ->
  (forall g a, active g a grp = if Nat.eqb g f then false else a) ->
  match p' with Waiting _ | Finished => True | _ => False end -> phase_ok m' (tr ++ grp) f p' ->
  loc (tr ++ grp) t' (At (m_k m')) -> inv m' (tr ++ grp) rest (upd f p' ph).
Proof.
  intros I V F1 F2 X3 ST MV MV' M2 N1 BB PP NS C1 V1 HE HN HA Hp HP HL. pose proof I as [A B C D E F P N S L Z O].
  rewrite V in *. assert (ND := D). apply NoDup_cons_iff in ND. destruct ND as [D1 D2]. assert (ND := D2). apply NoDup_cons_iff in ND. destruct ND as [D3 D4].
  assert (OT : forall u, u <> Some f -> stack_of m' u = stack_of m u).
  { intros [g|] Q; [|reflexivity]. cbn. rewrite F1; [reflexivity|congruence]. }
  assert (T0 : t' <> Some f) by (intros Q; apply D1; left; exact Q).
  assert (AB : ph f <> Absent). { intros Q. pose proof (P f) as W. rewrite Q in W. destruct W as (W & _). cbn in A. rewrite W in A. discriminate. }
  constructor; rewrite ?V1, ?C1, ?N1, ?BB, ?PP, ?NS; try assumption.
  - rewrite OT by exact T0. exact ST.
  - destruct C as (f0 & x & s0 & n0 & kf & _ & _ & _ & _ & _ & _ & C). apply (chain_ext m); [exact C| | |].
    + intros g Hg. destruct (in_stack _ _ _ _ g I) as (x1 & z & Q & _); [rewrite V; right; exact Hg|]. exists x1, x1.
      rewrite F1; [auto|]. intros ->. contradiction.
    + intros u z Hu Hz. apply M2.
      * intros ->. apply D1. right. rewrite <- (stack_inj _ _ _ _ u (Some f) _ I Hz A). exact Hu.
      * intros ->. apply D3. rewrite <- (stack_inj _ _ _ _ u t' _ I Hz ST). exact Hu.
    + intros u Hu. apply HE; intros ->; [contradiction|]. apply D1. right. exact Hu.
  - intros g. destruct (Nat.eq_dec g f) as [->|Q].
    + rewrite upd_same. split; [contradiction|]. intros (b & W). rewrite W in Hp. contradiction.
    + rewrite upd_other by exact Q. rewrite <- E. split; [right; assumption|]. intros [W|W]; [congruence|exact W].
  - intros g. rewrite active_app, HA. destruct (Nat.eqb_spec g f) as [->|Q].
    + rewrite upd_same. split; [discriminate|]. intros (b & W). rewrite W in Hp. contradiction.
    + rewrite upd_other by exact Q. apply F.
  - intros g. destruct (Nat.eq_dec g f) as [->|Q]; [rewrite upd_same; exact HP|].
    rewrite upd_other by exact Q. pose proof (P g) as W.
    assert (NG : forall x z, m_fib m g = Some x -> f_stack x = Some z -> z <> m_cur m).
    { intros x z Y1 Y2 ->. apply Q. assert (Y3 : Some g = Some f) by (apply (stack_inj _ _ _ _ _ _ (m_cur m) I); [cbn; rewrite Y1; exact Y2|exact A]). congruence. }
    destruct (ph g) eqn:W0; try (apply (phase_ext m); [exact W|apply F1; exact Q| | |apply HN];
      [intros x z Y1 Y2; apply M2; [apply (NG x); assumption|]; intros ->;
       assert (Y3 : Some g = t') by (apply (stack_inj _ _ _ _ _ _ s I); [cbn; rewrite Y1; exact Y2|exact ST]);
       assert (Y4 : In (Some g) (Some f :: t' :: rest)) by (right; left; auto); apply E in Y4; destruct Y4 as (c & Y4); congruence
      |apply HE; [|congruence]; intros Y3; assert (Y4 : In (Some g) (Some f :: t' :: rest)) by (right; left; auto); apply E in Y4; destruct Y4 as (c & Y4); congruence]).
    apply (phase_act m); [exact W|apply F1; exact Q|]. intros x z Y1 Y2. destruct (Nat.eq_dec z s) as [->|Y3].
    * rewrite MV'. lia.
    * rewrite M2; [lia|apply (NG x); assumption|exact Y3].
  - intros g. destruct (Nat.eq_dec g f) as [->|Q].
    + rewrite upd_same. split; [intros W; rewrite W in Hp; contradiction|]. intros W. apply N in W. contradiction.
    + rewrite upd_other by exact Q. apply N.
  - intros g x z Y1 Y2. destruct (Nat.eq_dec g f) as [->|Q].
    + rewrite F2 in Y1. injection Y1 as <-. rewrite X3 in Y2. injection Y2 as <-. cbn in A.
      destruct (m_fib m f) as [y|] eqn:Y; [|discriminate]. apply (S f y); assumption.
    + rewrite F1 in Y1 by exact Q. apply (S g x); assumption.
  - apply once_app; assumption.
Qed.

(** a new fiber *)
Lemma inv_new m m' tr rest ph b k : inv m tr rest ph ->
  m_fib m' = set (m_nfib m) (Some (mkfctx (0, 0) (0, 0) None Created [] false b)) (m_fib m) -> m_nfib m' = S (m_nfib m) ->
  m_mem m' = m_mem m -> m_base m' = m_base m -> m_pool m' = m_pool m ->
  m_nsid m' = m_nsid m -> m_cur m' = m_cur m -> m_vm m' = m_vm m ->
  (exists g g', next (m_k m) g = (g', ONew b k)) -> m_k m' = k (m_nfib m) ->
  inv m' (tr ++ [ENew (m_vm m) (m_nfib m) b]) rest (upd (m_nfib m) (Fresh b) ph).
Proof.
  intros I E1 E2 E3 E4 E5 E6 E7 E8 (g & g' & HD) EK. pose proof I as [A B C D E F P N S L Z O]. set (f0 := m_nfib m) in *.
  assert (ND := D). apply NoDup_cons_iff in ND. destruct ND as [D1 D2].
  assert (AB : ph f0 = Absent) by (apply N; unfold f0; lia).
  pose proof (P f0) as PA. rewrite AB in PA. destruct PA as (PA1 & PA2 & PA3).
  assert (NI : ~ In (Some f0) (m_vm m :: rest)).
  { intros Q. apply E in Q. destruct Q as (c & Q). congruence. }
  assert (OT : forall g, g <> f0 -> m_fib m' g = m_fib m g) by (intros h Q; rewrite E1; apply set_other; exact Q).
  assert (EO : forall u, u <> m_vm m -> events_of u [ENew (m_vm m) f0 b] = []).
  { intros u Q. cbn. rewrite vm_eqb_neq by exact Q. reflexivity. }
  constructor; rewrite ?E4, ?E5, ?E6, ?E7, ?E8; try assumption.
  - unfold stack_of in *. destruct (m_vm m) as [h|]; [|exact A]. rewrite OT; [exact A|]. intros ->. apply NI. left. reflexivity.
  - rewrite EK. apply (loc_step _ _ _ _ _ B). intros k1 l H. cbn. rewrite vm_eqb_refl. eapply D_new; eassumption.
  - apply (chain_ext m); [exact C| | |].
    + intros h Hf. destruct (in_stack _ _ _ _ h I Hf) as (x & s & Q & _). exists x, x. rewrite OT; [auto|]. intros ->. contradiction.
    + intros u s _ _. rewrite E3. reflexivity.
    + intros u Hu. apply EO. intros ->. contradiction.
  - intros h. destruct (Nat.eq_dec h f0) as [->|Q].
    + rewrite upd_same. split; [contradiction|]. intros (c & W). discriminate.
    + rewrite upd_other by exact Q. apply E.
  - intros h. rewrite active_app. cbn. destruct (Nat.eq_dec h f0) as [->|Q].
    + rewrite upd_same, F, AB. split; intros (c & W); discriminate.
    + rewrite upd_other by exact Q. apply F.
  - intros h. destruct (Nat.eq_dec h f0) as [->|Q].
    + rewrite upd_same. eexists. rewrite E1, set_same. split; [reflexivity|]. cbn [f_state f_kind f_stack]. repeat (split; [reflexivity|]).
      split; [exists (m_vm m); apply in_or_app; right; left; reflexivity|]. rewrite events_app, PA2, EO; [reflexivity|].
      intros W. apply NI. left. auto.
    + rewrite upd_other by exact Q.
      assert (NM : forall c, ~ made [ENew (m_vm m) f0 b] h c).
      { intros c (t & [W|[]]). injection W as _ W _. congruence. }
      destruct (ph h) eqn:W; try (rewrite <- W; apply (phase_ext m); [apply P|apply OT; exact Q|rewrite E3; auto| |exact NM];
        apply EO; intros V; assert (In (Some h) (m_vm m :: rest)) as W2 by (left; auto); apply E in W2; destruct W2 as (b' & W2); congruence).
      apply (phase_act m); [rewrite <- W; apply P|apply OT; exact Q|rewrite E3; auto].
  - intros h. rewrite E2. destruct (Nat.eq_dec h f0) as [->|Q].
    + rewrite upd_same. split; [discriminate|]. lia.
    + rewrite upd_other by exact Q. rewrite N. unfold f0 in *. lia.
  - intros h x s Y1 Y2. destruct (Nat.eq_dec h f0) as [->|Q].
    + rewrite E1, set_same in Y1. injection Y1 as <-. discriminate.
    + rewrite OT in Y1 by exact Q. apply (S h x); assumption.
  - intros h c c' (t & Q) (t' & Q'). apply in_app_or in Q, Q'.
    destruct Q as [Q|[Q|[]]], Q' as [Q'|[Q'|[]]].
    + apply (O h); eexists; eassumption.
    + injection Q' as _ <- <-. exfalso. apply (PA3 c). exists t. exact Q.
    + injection Q as _ <- <-. exfalso. apply (PA3 c'). exists t'. exact Q'.
    + congruence.
Qed.
(** the end of a fiber's life *)
Lemma inv_drop m m' tr rest ph f x : inv m tr rest ph -> m_fib m f = Some x -> (forall b, ph f <> Active b) ->
  m_fib m' = set f None (m_fib m) -> m_nfib m' = m_nfib m ->
  m_mem m' = m_mem m -> m_base m' = m_base m -> m_pool m' = match f_stack x with Some s => s :: m_pool m | None => m_pool m end ->
  m_nsid m' = m_nsid m -> m_cur m' = m_cur m -> m_vm m' = m_vm m ->
  (exists g g', next (m_k m) g = (g', ODrop f (m_k m'))) ->
  inv m' (tr ++ [EDrop (m_vm m) f]) rest (upd f Gone ph).
Proof.
  intros I HX NA E1 E2 E3 E4 E5 E6 E7 E8 (g & g' & HD). pose proof I as [A B C D E F P N S L Z O].
  assert (ND := D). apply NoDup_cons_iff in ND. destruct ND as [D1 D2].
  assert (AB : ph f <> Absent) by (intros Q; pose proof (P f) as W; rewrite Q in W; destruct W; congruence).
  assert (NI : ~ In (Some f) (m_vm m :: rest)).
  { intros Q. apply E in Q. destruct Q as (c & Q). apply (NA c). exact Q. }
  assert (OT : forall g, g <> f -> m_fib m' g = m_fib m g) by (intros h Q; rewrite E1; apply set_other; exact Q).
  assert (EO : forall u, u <> m_vm m -> events_of u [@EDrop K (m_vm m) f] = []).
  { intros u Q. cbn. rewrite vm_eqb_neq by exact Q. reflexivity. }
  assert (QU : quiet [EDrop (m_vm m) f]) by (intros h c (t & [W|[]]); discriminate).
  constructor; rewrite ?E2, ?E4, ?E6, ?E7, ?E8; try assumption.
  - unfold stack_of in *. destruct (m_vm m) as [h|]; [|exact A]. rewrite OT; [exact A|]. intros ->. apply NI. left. reflexivity.
  - apply (loc_step _ _ _ _ _ B). intros k1 l H. cbn. rewrite vm_eqb_refl. eapply D_drop; eassumption.
  - apply (chain_ext m); [exact C| | |].
    + intros h Hf. destruct (in_stack _ _ _ _ h I Hf) as (y & s & Q & _). exists y, y. rewrite OT; [auto|]. intros ->. contradiction.
    + intros u s _ _. rewrite E3. reflexivity.
    + intros u Hu. apply EO. intros ->. contradiction.
  - intros h. destruct (Nat.eq_dec h f) as [->|Q].
    + rewrite upd_same. split; [contradiction|]. intros (c & W). discriminate.
    + rewrite upd_other by exact Q. apply E.
  - intros h. rewrite active_app. cbn. destruct (Nat.eq_dec h f) as [->|Q].
    + rewrite upd_same, F. split; intros (c & W); [destruct (NA _ W)|discriminate].
    + rewrite upd_other by exact Q. apply F.
  - intros h. destruct (Nat.eq_dec h f) as [->|Q].
    + rewrite upd_same. split; [rewrite E1; apply set_same|]. split; [exists (m_vm m); apply in_or_app; right; left; reflexivity|].
      assert (EF : events_of (Some f) [@EDrop K (m_vm m) f] = []) by (apply EO; intros W; apply NI; left; auto).
      pose proof (P f) as W. destruct (ph f).
      * contradiction.
      * left. destruct W as (_ & _ & _ & _ & _ & _ & W). rewrite events_app, W, EF. reflexivity.
      * destruct (NA _ eq_refl).
      * right. destruct W as (x1 & s1 & n1 & k1 & _ & _ & _ & _ & _ & _ & _ & _ & W). eexists. apply (loc_other _ _ _ _ W EF).
      * right. destruct W as (x1 & _ & _ & W). eexists. apply (loc_other _ _ _ _ W EF).
      * destruct W; congruence.
    + rewrite upd_other by exact Q.
      destruct (ph h) eqn:W; try (rewrite <- W; apply (phase_ext m); [apply P|apply OT; exact Q|rewrite E3; auto| |apply QU];
        apply EO; intros V; assert (In (Some h) (m_vm m :: rest)) as W2 by (left; auto); apply E in W2; destruct W2 as (b' & W2); congruence).
      apply (phase_act m); [rewrite <- W; apply P|apply OT; exact Q|rewrite E3; auto].
  - intros h. destruct (Nat.eq_dec h f) as [->|Q].
    + rewrite upd_same. split; [discriminate|]. intros W. apply N in W. contradiction.
    + rewrite upd_other by exact Q. apply N.
  - intros h y s Y1 Y2. destruct (Nat.eq_dec h f) as [->|Q]; [rewrite E1, set_same in Y1; discriminate|].
    rewrite OT in Y1 by exact Q. destruct (S h y s Y1 Y2) as (W1 & W2 & W3). split; [exact W1|]. split; [|exact W3].
    rewrite E5. destruct (f_stack x) as [s'|] eqn:W; [|exact W2]. intros [<-|V]; [|contradiction].
    destruct (S f x s' HX W) as (_ & _ & V). congruence.
  - rewrite E5. destruct (f_stack x) as [s'|] eqn:W; [|exact L]. destruct (S f x s' HX W) as (W1 & W2 & _). destruct L as [L1 L2].
    split; [constructor; assumption|]. intros s [<-|V]; [exact W1|apply L2; exact V].
  - apply once_app; assumption.
Qed.

Lemma inv_boot g : inv (boot k0 g) [] [] (fun _ => Absent).
Proof.
  constructor; cbn; try reflexivity.
  - constructor.
  - constructor; [intros []|constructor].
  - intros f. split; [intros [W|[]]; discriminate|]. intros (b & W). discriminate.
  - intros f. split; [discriminate|]. intros (b & W). discriminate.
  - intros f. split; [reflexivity|]. split; [reflexivity|]. intros b (t & []).
  - intros f. split; [lia|reflexivity].
  - discriminate.
  - split; [constructor|intros s []].
  - intros f b b' (t & []).
Qed.
End Inv.
