(** Lemmas for C42: every step keeps the invariant and obeys the specification. *)
From Coq Require Import ZArith List Bool Arith Lia.
From Verif Require Import ModelFiber SpecFiber ProofsFiber.
Import ListNotations.

Section Step.
Variables K G : Type.
Variable next : K -> G -> G * op K.
Variable k0 : K.
Notation ev := (event K).
Notation M := (mach K G).
Notation inv := (inv K G next k0).
Notation loc := (loc K G next k0).

(** *** What the operations compute *)
Definition vars_of (b : kind K) (v : fval) : list fval :=
  match b with KFiber _ l _ => first_vars l v | KEnum _ => [] end.
Definition free_stack (m : M) : sid := match m_pool m with s :: _ => s | [] => m_nsid m end.
(** what is common to both ways of resuming *)
Definition entered (m m' : M) (f : fid) (b : kind K) (k : outcome -> K) (s : sid) : Prop :=
  exists x' n0, (forall g, g <> f -> m_fib m' g = m_fib m g) /\ m_fib m' f = Some x' /\ f_state x' = Running /\ f_kind x' = b /\
    f_stack x' = Some s /\ f_handle x' = true /\ f_rsp x' = (s, n0) /\ f_main x' = (m_cur m, fst (m_mem m (m_cur m))) /\
    n0 < fst (m_mem m' s) /\ m_mem m' (m_cur m) = (fst (m_mem m (m_cur m)), CResume f (m_vm m) k) /\
    (forall z, z <> m_cur m -> z <> s -> m_mem m' z = m_mem m z) /\
    m_nfib m' = m_nfib m /\ m_cur m' = s /\ m_vm m' = Some f.
Lemma resume_fresh m f x v k : m_fib m f = Some x -> f_state x = Created -> m_cur m <> free_stack m ->
  exists m', resume f v k m = MStep [EStart f (vars_of (f_kind x) v)] m' /\ entered m m' f (f_kind x) k (free_stack m) /\
    m_k m' = body (f_kind x) (vars_of (f_kind x) v) /\ m_base m' = set (free_stack m) f (m_base m) /\
    m_pool m' = tl (m_pool m) /\ m_nsid m' = match m_pool m with [] => S (m_nsid m) | _ => m_nsid m end.
Proof.
  intros HX HS HC. unfold resume. rewrite HX, HS. unfold initialize, free_stack in *.
  assert (forall s m1, m_cur m <> s -> m_fib m1 = m_fib m -> m_nfib m1 = m_nfib m -> m_mem m1 = m_mem m -> m_cur m1 = m_cur m -> m_vm m1 = m_vm m -> m_base m1 = m_base m ->
    exists m', match m_fib (with_fib K G (with_base K G (with_mem K G m1 s (S (fst (m_mem m1 s)), CInit f)) s f) f
                  (Some (mkfctx (s, S (fst (m_mem m1 s))) (f_main x) (Some s) Running (f_vals x) (f_handle x) (f_kind x)))) f with
       | None => MUndef
       | Some x0 => switch_context f (CResume f (m_vm (with_fib K G (with_base K G (with_mem K G m1 s (S (fst (m_mem m1 s)), CInit f)) s f) f
                  (Some (mkfctx (s, S (fst (m_mem m1 s))) (f_main x) (Some s) Running (f_vals x) (f_handle x) (f_kind x))))) k)
              (with_fib K G (with_fib K G (with_base K G (with_mem K G m1 s (S (fst (m_mem m1 s)), CInit f)) s f) f
                  (Some (mkfctx (s, S (fst (m_mem m1 s))) (f_main x) (Some s) Running (f_vals x) (f_handle x) (f_kind x)))) f (Some (push_val K x0 v)))
       end = MStep [EStart f (vars_of (f_kind x) v)] m' /\ entered m m' f (f_kind x) k s /\
       m_k m' = body (f_kind x) (vars_of (f_kind x) v) /\ m_base m' = set s f (m_base m) /\ m_pool m' = m_pool m1 /\ m_nsid m' = m_nsid m1) as Q.
  { clear HC. intros s m1 HC E1 E2 E3 E4 E5 E6. cbn -[set]. rewrite set_same. unfold switch_context. cbn -[set]. rewrite !set_same. unfold load. cbn -[set].
    rewrite E4. rewrite (set_other _ (m_cur m)), set_same by congruence. cbn -[set]. rewrite Nat.eqb_refl. cbn -[set].
    unfold new_context. cbn -[set]. rewrite !set_same. cbn -[set].
    assert (W : forall vals mm, (forall g, g <> f -> m_fib mm g = m_fib m g) ->
       m_fib mm f = Some (mkfctx (s, S (fst (m_mem m s))) (m_cur m, fst (m_mem m (m_cur m))) (Some s) Running vals true (f_kind x)) ->
       m_mem mm = set s (S (S (fst (m_mem m s))), CInit f) (set (m_cur m) (fst (m_mem m (m_cur m)), CResume f (m_vm m) k) (set s (S (fst (m_mem m s)), CInit f) (m_mem m))) ->
       m_nfib mm = m_nfib m -> m_cur mm = s -> m_vm mm = Some f -> entered m mm f (f_kind x) k s).
    { intros vals mm W1 W2 W3 W4 W5 W6. eexists _, _. split; [exact W1|]. split; [exact W2|]. cbn -[set]. rewrite W3.
      repeat (split; [reflexivity|]). split; [rewrite set_same; cbn; lia|]. split; [rewrite set_other, set_same by congruence; reflexivity|].
      split; [intros z Z1 Z2; rewrite !set_other by assumption; reflexivity|]. repeat split; assumption. }
    destruct (f_kind x) as [p l st|st] eqn:EK; eexists; (split; [reflexivity|]); cbn -[set];
      (split; [eapply W|split; [reflexivity|split; [rewrite E6; reflexivity|split; reflexivity]]]); cbn -[set]; try reflexivity; try assumption.
    all: try (intros g Hg; rewrite !set_other by exact Hg; rewrite E1; reflexivity).
    all: try (rewrite !set_same, ?E3, ?(set_other _ s) by congruence; cbn; rewrite ?(set_other _ s) by congruence; reflexivity).
    all: rewrite ?E3, ?E5, ?(set_other _ s) by congruence; reflexivity. }
  destruct (m_pool m) as [|s0 l] eqn:EP.
  - apply (Q (m_nsid m) (with_pool K G m [] (S (m_nsid m)))); try reflexivity. exact HC.
  - apply (Q s0 (with_pool K G m l (m_nsid m))); try reflexivity. exact HC.
Qed.
Lemma resume_waiting m f x v k s n k1 : m_fib m f = Some x -> f_state x = Running -> f_stack x = Some s -> f_handle x = true ->
  f_rsp x = (s, n) -> m_mem m s = (n, CYield (Some f) k1) -> m_cur m <> s ->
  exists m', resume f v k m = MStep [EBack f v] m' /\ entered m m' f (f_kind x) k s /\
    m_k m' = k1 (Value v) /\ m_base m' = m_base m /\ m_pool m' = m_pool m /\ m_nsid m' = m_nsid m.
Proof.
  intros HX HS X1 X2 X3 HM HC. unfold resume. rewrite HX, HS. unfold switch_context. cbn -[set]. rewrite !set_same. unfold load. cbn -[set]. rewrite X3.
  rewrite set_other by congruence. rewrite HM. rewrite Nat.eqb_refl. cbn -[set]. rewrite set_same. cbn -[set].
  eexists. split; [reflexivity|]. cbn -[set]. split; [|repeat split].
  eexists _, n. cbn -[set]. split; [intros g Hg; rewrite !set_other by exact Hg; reflexivity|]. split; [apply set_same|]. cbn -[set].
  repeat (split; [first [assumption|reflexivity]|]). split; [rewrite set_same; cbn; lia|].
  split; [rewrite set_other, set_same by congruence; reflexivity|].
  split; [intros z Z1 Z2; rewrite !set_other by assumption; reflexivity|]. repeat split.
Qed.
(** a fiber that runs, or waits for one it has resumed, must not be resumed *)
Lemma resume_active (m : M) f x v k s n : m_fib m f = Some x -> f_state x = Running -> f_rsp x = (s, n) -> n < fst (m_mem m s) ->
  resume f v k m = MUndef.
Proof.
  intros HX HS X3 HM. unfold resume. rewrite HX, HS. unfold switch_context. cbn -[set]. rewrite !set_same. unfold load. cbn -[set]. rewrite X3.
  destruct (Nat.eq_dec s (m_cur m)) as [->|Q].
  - rewrite set_same. destruct (Nat.eqb_spec n (fst (m_mem m (m_cur m)))); [lia|reflexivity].
  - rewrite set_other by exact Q. destruct (m_mem m s) as [n' c]. cbn in HM. destruct (Nat.eqb_spec n n'); [lia|reflexivity].
Qed.
(** what is common to the ways of leaving a fiber *)
Definition left_to (m m' : M) (f : fid) (t : vmid) (s : sid) : Prop :=
  (forall g, g <> f -> m_fib m' g = m_fib m g) /\ fst (m_mem m' s) = S (fst (m_mem m s)) /\
  (forall z, z <> m_cur m -> z <> s -> m_mem m' z = m_mem m z) /\
  m_nfib m' = m_nfib m /\ m_base m' = m_base m /\ m_pool m' = m_pool m /\ m_nsid m' = m_nsid m /\ m_cur m' = s /\ m_vm m' = t.
Lemma yield_leaves m f x args k s n t kf : m_vm m = Some f -> m_fib m f = Some x -> f_handle x = true -> f_main x = (s, n) ->
  m_mem m s = (n, CResume f t kf) -> m_cur m <> s ->
  exists m', fiber_yield args k m = MStep [EYield f (yield_val args); EReturn t f (Value (yield_val args))] m' /\ left_to m m' f t s /\
    m_k m' = kf (Value (yield_val args)) /\ m_mem m' (m_cur m) = (fst (m_mem m (m_cur m)), CYield (Some f) k) /\
    m_fib m' f = Some (with_rsp K x (m_cur m, fst (m_mem m (m_cur m)))).
Proof.
  intros HV HX XH XM HM HC. unfold fiber_yield, handle. rewrite HV, HX, XH. unfold yield_context. cbn -[set]. rewrite HX. cbn -[set]. unfold load.
  rewrite XM. cbn -[set]. rewrite set_other by congruence. rewrite HM, Nat.eqb_refl. cbn -[set].
  eexists. split; [reflexivity|]. cbn -[set]. split.
  - split; [intros g Hg; cbn -[set]; rewrite !set_other by exact Hg; reflexivity|]. cbn -[set]. split; [rewrite set_same, HM; reflexivity|].
    split; [intros z Z1 Z2; rewrite !set_other by assumption; reflexivity|]. repeat split.
  - split; [reflexivity|]. split; [rewrite set_other, set_same by congruence; reflexivity|]. apply set_same.
Qed.
Lemma end_leaves m f x r s n t kf : m_vm m = Some f -> m_fib m f = Some x -> m_base m (m_cur m) = f -> f_main x = (s, n) ->
  m_mem m s = (n, CResume f t kf) -> m_cur m <> s ->
  exists m', fiber_end r m = MStep [EEnd f r; EReturn t f (native (final (f_kind x) r))] m' /\ left_to m m' f t s /\
    m_k m' = kf (native (final (f_kind x) r)) /\
    m_fib m' f = Some (with_rsp K (with_state K x Dead) (m_cur m, fst (m_mem m (m_cur m)))).
Proof.
  intros HV HX HB XM HM HC. unfold fiber_end. rewrite HV, HX. cbn -[set]. rewrite HB, HX. unfold yield_context. cbn -[set]. rewrite set_same. cbn -[set]. unfold load.
  rewrite XM. cbn -[set]. rewrite set_other by congruence. rewrite HM, Nat.eqb_refl. cbn -[set].
  eexists. split; [reflexivity|]. cbn -[set]. split.
  - split; [intros g Hg; cbn -[set]; rewrite !set_other by exact Hg; reflexivity|]. cbn -[set]. split; [rewrite set_same, HM; reflexivity|].
    split; [intros z Z1 Z2; rewrite !set_other by assumption; reflexivity|]. repeat split.
  - split; [reflexivity|]. apply set_same.
Qed.

(** *** Steps *)
Lemma stack_fresh m tr rest ph : inv m tr rest ph -> m_cur m <> free_stack m.
Proof.
  intros [A _ _ _ _ _ _ _ S [L1 L2] Z _]. unfold stack_of in A. unfold free_stack. destruct (m_vm m) as [f|].
  - destruct (m_fib m f) as [x|] eqn:E; [|discriminate]. destruct (S f x _ E A) as (B & C & _). destruct (m_pool m) as [|s l]; [lia|].
    intros Q. apply C. left. auto.
  - injection A as A. destruct (m_pool m) as [|s l]; [lia|]. intros Q. pose proof (L2 s (or_introl eq_refl)). lia.
Qed.
Lemma stack_other m tr rest ph f x s : inv m tr rest ph -> m_fib m f = Some x -> f_stack x = Some s -> m_vm m <> Some f -> m_cur m <> s.
Proof.
  intros I HX HS Q W. apply Q. apply (stack_inj _ _ _ _ _ _ _ _ _ _ s I); [rewrite <- W; apply (i_cur _ _ _ _ _ _ _ _ I)|].
  cbn. rewrite HX. exact HS.
Qed.
Definition fine (m : M) (tr : list ev) (rest : list vmid) (ph : fid -> phase K) (o : op K) (r : mres K G) : Prop :=
  match r with
  | MStep grp m' => kept (tr ++ grp) ->
      exists rest' ph', inv m' (tr ++ grp) rest' ph' /\
        (plain_blocks (tr ++ grp) -> no_break (tr ++ grp) -> obeys tr (m_vm m :: rest) ph -> obeys (tr ++ grp) (m_vm m' :: rest') ph')
  | MHalt _ => m_vm m = None
  | MUndef => exists f, about o = Some f /\ (active f false tr = true \/ missing f tr)
  end.
Lemma quiet_no grp : (forall t f b, ~ In (ENew t f b) grp) -> quiet K grp.
Proof. intros H f b (t & Q). exact (H _ _ _ Q). Qed.
Ltac no_new := apply quiet_no; intros ? ? ? W; cbn in W; intuition discriminate.

Lemma enter_obeys tr t rest ph f b n v grp : match ph f with Fresh c | Waiting c => c = b | _ => False end -> made K tr f b ->
  grp = [match ph f with Fresh _ => EStart f (vars_of b v) | _ => EBack f v end] ->
  plain_blocks (tr ++ EResume t f n v :: grp) -> obeys tr (t :: rest) ph ->
  obeys (tr ++ EResume t f n v :: grp) (Some f :: t :: rest) (upd f (Active b) ph).
Proof.
  intros Hp (t0 & Hm) -> HB Ho. destruct (ph f) eqn:EP; try contradiction; subst b0.
  - replace (vars_of b v) with (first_values b v); [apply O_first; assumption|].
    destruct b as [p l st|st]; [|reflexivity]. cbn. destruct (HB t0 f p l st) as [(-> & Q)|(-> & ->)]; [apply in_or_app; auto| |reflexivity].
    destruct l as [|l]; [lia|]. cbn. rewrite Nat.sub_0_r. reflexivity.
  - apply O_again; assumption.
Qed.

Lemma resume_fine m tr rest ph g o f n v k : inv m tr rest ph ->
  (forall t k1 l, does next t k1 l (At (m_k m)) -> does next t k1 (l ++ [EResume t f n v]) (InResume f k)) -> about o = Some f ->
  fine m tr rest ph o (also (EResume (m_vm m) f n v)
     (if n then match m_fib m f with
                | None => MUndef
                | Some x => match f_state x with
                            | Dead => MStep [EReturn (m_vm m) f (Raise Stop)] (go K G (with_g K G m g) (k (Raise Stop)))
                            | _ => resume f v k (with_g K G m g)
                            end
                end
      else resume f v k (with_g K G m g))).
Proof.
  intros I HD HO. pose proof (i_ph _ _ _ _ _ _ _ _ I f) as P.
  assert (ALT : forall r : mres K G, (if n then match m_fib m f with
                | None => MUndef
                | Some x => match f_state x with
                            | Dead => MStep [EReturn (m_vm m) f (Raise Stop)] (go K G (with_g K G m g) (k (Raise Stop)))
                            | _ => resume f v k (with_g K G m g)
                            end
                end
      else resume f v k (with_g K G m g)) = r -> fine m tr rest ph o (also (EResume (m_vm m) f n v) r) ->
      fine m tr rest ph o (also (EResume (m_vm m) f n v) (if n then match m_fib m f with
                | None => MUndef
                | Some x => match f_state x with
                            | Dead => MStep [EReturn (m_vm m) f (Raise Stop)] (go K G (with_g K G m g) (k (Raise Stop)))
                            | _ => resume f v k (with_g K G m g)
                            end
                end
      else resume f v k (with_g K G m g)))) by (intros r ->; auto).
  assert (NV : (forall b, ph f <> Active b) -> m_vm m <> Some f).
  { intros H Q. assert (W : In (Some f) (m_vm m :: rest)) by (left; exact Q). apply (i_act _ _ _ _ _ _ _ _ I) in W. destruct W as (b & W). exact (H b W). }
  assert (OTH : forall u (grp : list ev), u <> m_vm m -> u <> Some f -> (forall e, In e grp -> takes_part u e = false) -> events_of u (EResume (m_vm m) f n v :: grp) = []).
  { intros u grp Q1 Q2 Q3. cbn. rewrite (vm_eqb_neq _ _ Q1). induction grp as [|e grp IH]; [reflexivity|]. cbn. rewrite (Q3 e (or_introl eq_refl)).
    apply IH. intros e' W. apply Q3. right. exact W. }
  assert (MISS : missing f tr -> m_fib m f = None -> fine m tr rest ph o (also (EResume (m_vm m) f n v) (if n then match m_fib m f with
                | None => MUndef
                | Some x => match f_state x with
                            | Dead => MStep [EReturn (m_vm m) f (Raise Stop)] (go K G (with_g K G m g) (k (Raise Stop)))
                            | _ => resume f v k (with_g K G m g)
                            end
                end
      else resume f v k (with_g K G m g)))).
  { intros W HX. apply (ALT MUndef); [unfold resume; cbn; rewrite HX; destruct n; reflexivity|]. exists f. split; [exact HO|right; exact W]. }
  destruct (ph f) eqn:EP; cbn [phase_ok] in P.
  - destruct P as (HX & _ & HM). apply MISS; [left; intros t b Q; apply (HM b); exists t; exact Q|exact HX].
  - destruct P as (x & HX & XS & XK & XT & HM & HE).
    destruct (resume_fresh (with_g K G m g) f x v k HX XS (stack_fresh _ _ _ _ I)) as (m' & E & (x' & n0 & Q1 & Q2 & Q3 & Q4 & Q5 & Q6 & Q7 & Q8 & Q9 & Q10 & Q11 & Q12 & Q13 & Q14) & EK & EB & EP2 & EN).
    eapply ALT; [destruct n; [rewrite HX, XS|]; exact E|].
    intros HK. cbn [also] in *. rewrite XK in *. subst b.
    assert (NV' : m_vm m <> Some f) by (apply NV; congruence).
    exists (m_vm m :: rest), (upd f (Active (f_kind x)) ph). cbn -[set free_stack] in *.
    change (free_stack (with_g K G m g)) with (free_stack m) in *. split.
    + apply (inv_enter _ _ _ _ m m' tr _ rest ph f x' (free_stack m) (fst (m_mem m (m_cur m))) n0 k (f_kind x)); try assumption; try reflexivity.
      * rewrite EP. reflexivity.
      * intros u z U1 U2 ->. destruct I as [_ _ _ _ _ _ _ _ S [_ L2] Z _]. unfold free_stack in U2. destruct u as [h|]; cbn in U2.
        -- destruct (m_fib m h) as [y|] eqn:EY; [|discriminate]. destruct (S h y _ EY U2) as (A1 & A2 & _). destruct (m_pool m); [lia|]. apply A2. left. reflexivity.
        -- injection U2 as U2. destruct (m_pool m) as [|s l]; [lia|]. pose proof (L2 s (or_introl eq_refl)). lia.
      * intros h y s Y1 Y2. destruct I as [_ _ _ _ _ _ _ _ S [L1 L2] Z _]. rewrite EN, EP2, EB.
        destruct (Nat.eq_dec h f) as [->|QQ].
        -- rewrite Q2 in Y1. injection Y1 as <-. rewrite Q5 in Y2. injection Y2 as <-. rewrite set_same. unfold free_stack.
           destruct (m_pool m) as [|s0 l]; [cbn; split; [lia|auto]|]. cbn. split; [apply L2; left; reflexivity|]. split; [|reflexivity].
           apply NoDup_cons_iff in L1. apply L1.
        -- rewrite Q1 in Y1 by exact QQ. destruct (S h y s Y1 Y2) as (A1 & A2 & A3). unfold free_stack. destruct (m_pool m) as [|s0 l]; cbn [tl].
           ++ split; [lia|]. split; [auto|]. rewrite set_other by lia. exact A3.
           ++ split; [exact A1|]. split; [intros W; apply A2; right; exact W|]. rewrite set_other; [exact A3|]. intros ->. apply A2. left. reflexivity.
      * destruct I as [_ _ _ _ _ _ _ _ S [L1 L2] Z _]. rewrite EN, EP2. destruct (m_pool m) as [|s0 l]; cbn [tl]; [split; [constructor|intros s []]|].
        apply NoDup_cons_iff in L1. split; [apply L1|]. intros s W. apply L2. right. exact W.
      * rewrite EN. pose proof (i_nsid _ _ _ _ _ _ _ _ I). destruct (m_pool m); lia.
      * intros u U1 U2. apply OTH; try assumption. intros e [<-|[]]. cbn. apply vm_eqb_neq. exact U2.
      * no_new.
      * intros k1 l H. cbn. rewrite vm_eqb_refl. rewrite (vm_eqb_neq _ _ NV'). apply HD. exact H.
      * exists (f_kind x), (vars_of (f_kind x) v), []. split; [apply made_app; exact HM|]. split.
        -- rewrite events_app, HE. cbn -[vm_eqb]. rewrite (vm_eqb_neq (Some f) (m_vm m)) by auto. rewrite vm_eqb_refl. reflexivity.
        -- rewrite EK. constructor.
    + intros HB _ Ho. rewrite Q14. apply enter_obeys; try assumption; rewrite EP; reflexivity.
  - destruct P as (x & s & n1 & HX & XS & XK & XT & XH & XR & XV & HM). apply (ALT MUndef).
    + destruct n; [rewrite HX, XS|]; apply (resume_active (with_g K G m g) f x v k s n1); assumption.
    + exists f. split; [exact HO|]. left. apply (i_trace _ _ _ _ _ _ _ _ I). eauto.
  - destruct P as (x & s & n1 & k1 & HX & XS & XK & XT & XH & XR & XM & HM & HL).
    assert (NV' : m_vm m <> Some f) by (apply NV; congruence).
    assert (CS : m_cur m <> s) by (apply (stack_other m tr rest ph f x); assumption).
    destruct (resume_waiting (with_g K G m g) f x v k s n1 k1 HX XS XT XH XR XM CS) as (m' & E & (x' & n0 & Q1 & Q2 & Q3 & Q4 & Q5 & Q6 & Q7 & Q8 & Q9 & Q10 & Q11 & Q12 & Q13 & Q14) & EK & EB & EP2 & EN).
    eapply ALT; [destruct n; [rewrite HX, XS|]; exact E|].
    intros HK. cbn [also] in *. rewrite XK in *. subst b.
    exists (m_vm m :: rest), (upd f (Active (f_kind x)) ph). cbn -[set free_stack] in *. split.
    + apply (inv_enter _ _ _ _ m m' tr _ rest ph f x' s (fst (m_mem m (m_cur m))) n0 k (f_kind x)); try assumption; try reflexivity.
      * rewrite EP. reflexivity.
      * intros u z U1 U2 ->. apply U1. apply (stack_inj _ _ _ _ _ _ _ _ _ _ s I); [exact U2|]. cbn. rewrite HX. exact XT.
      * intros h y s1 Y1 Y2. destruct I as [_ _ _ _ _ _ _ _ S [L1 L2] Z _]. rewrite EN, EP2, EB.
        destruct (Nat.eq_dec h f) as [->|QQ].
        -- rewrite Q2 in Y1. injection Y1 as <-. rewrite Q5 in Y2. injection Y2 as <-. apply (S f x); assumption.
        -- rewrite Q1 in Y1 by exact QQ. apply (S h y); assumption.
      * rewrite EN, EP2. apply (i_pool _ _ _ _ _ _ _ _ I).
      * rewrite EN. apply (i_nsid _ _ _ _ _ _ _ _ I).
      * intros u U1 U2. apply OTH; try assumption. intros e [<-|[]]. cbn. apply vm_eqb_neq. exact U2.
      * no_new.
      * intros k2 l H. cbn. rewrite vm_eqb_refl. rewrite (vm_eqb_neq _ _ NV'). apply HD. exact H.
      * apply (loc_step K G next k0 tr _ (Some f) (InYield k1) _ HL). intros k2 l H. cbn -[vm_eqb]. rewrite (vm_eqb_neq (Some f) (m_vm m)) by auto. rewrite vm_eqb_refl, EK. apply D_back; [reflexivity|exact H].
    + intros HB _ Ho. rewrite Q14. apply enter_obeys; try assumption; rewrite EP; reflexivity.
  - destruct P as (x & HX & XS & _).
    assert (NV' : m_vm m <> Some f) by (apply NV; congruence).
    apply (ALT (MStep [EReturn (m_vm m) f (Raise (if n then Stop else DeadFiber))] (go K G (with_g K G m g) (k (Raise (if n then Stop else DeadFiber)))))).
    + destruct n; [rewrite HX, XS; reflexivity|]. unfold resume. cbn. rewrite HX, XS. reflexivity.
    + intros HK. cbn [also] in *. exists rest, ph. split.
      * apply (inv_stay _ _ _ _ m); try assumption; try reflexivity.
        -- intros u U. cbn. rewrite (vm_eqb_neq _ _ U). reflexivity.
        -- no_new.
        -- intros k1 l H. cbn. rewrite vm_eqb_refl. change (l ++ [?a; ?b]) with (l ++ ([a] ++ [b])). rewrite app_assoc. apply (D_return _ _ _ _ _ _ f k). apply HD. exact H.
      * intros _ _ Ho. apply O_dead; assumption.
  - destruct P as (HX & HG & _). apply MISS; [right; exact HG|exact HX].
Qed.

Lemma leave_setup m tr rest ph f : inv m tr rest ph -> m_vm m = Some f ->
  exists b x t' r s n kf, ph f = Active b /\ m_fib m f = Some x /\ f_kind x = b /\ f_state x = Running /\ f_handle x = true /\ f_stack x = Some (m_cur m) /\
    m_base m (m_cur m) = f /\ rest = t' :: r /\ f_main x = (s, n) /\ stack_of K G m t' = Some s /\ m_mem m s = (n, CResume f t' kf) /\
    loc tr t' (InResume f kf) /\ m_cur m <> s /\ t' <> Some f /\ made K tr f b.
Proof.
  intros I V. pose proof I as [A _ C D E _ P _ S _ _ _]. rewrite V in *.
  destruct (proj1 (E f) (or_introl eq_refl)) as (b & EP). specialize (P f). rewrite EP in P. destruct P as (x & s & n & HX & XS & XK & XT & XH & _ & _ & HM).
  cbn in A. rewrite HX, XT in A. injection A as ->. destruct rest as [|t' r]; [discriminate|].
  destruct C as (f0 & x0 & s0 & n0 & kf & E0 & HX0 & XM & ST & MM & HL & _). injection E0 as <-. rewrite HX in HX0. injection HX0 as <-.
  assert (T0 : t' <> Some f). { intros ->. apply NoDup_cons_iff in D. apply (proj1 D). left. reflexivity. }
  exists b, x, t', r, s0, n0, kf. repeat (split; [first [assumption|reflexivity]|]). split; [apply (S f x); assumption|].
  repeat (split; [first [assumption|reflexivity]|]). split; [|split; assumption].
  intros W. apply T0. apply (stack_inj _ _ _ _ _ _ _ _ _ _ s0 I); [exact ST|]. cbn. rewrite HX, XT, W. reflexivity.
Qed.
Lemma two_others u t f (e e' : ev) : u <> t -> u <> Some f -> takes_part u e = vm_eqb u (Some f) -> takes_part u e' = vm_eqb u t -> events_of u [e; e'] = [].
Proof. intros A B C D. unfold events_of. cbn [filter]. rewrite C, D, (vm_eqb_neq _ _ A), (vm_eqb_neq _ _ B). reflexivity. Qed.

Lemma yield_fine m tr rest ph g args k : inv m tr rest ph -> next (m_k m) (m_g m) = (g, OYield args k) ->
  fine m tr rest ph (OYield args k) (fiber_yield args k (with_g K G m g)).
Proof.
  intros I HN. destruct (m_vm m) as [f|] eqn:V.
  - destruct (leave_setup _ _ _ _ f I V) as (b & x & t' & r & s & n & kf & EP & HX & XK & XS & XH & XT & HB & -> & XM & ST & MM & HL & HC & T0 & HM).
    destruct (yield_leaves (with_g K G m g) f x args k s n t' kf V HX XH XM MM HC) as (m' & E & (Q1 & Q2 & Q3 & Q4 & Q5 & Q6 & Q7 & Q8 & Q9) & EK & EM & EF).
    rewrite E. intros _. exists r, (upd f (Waiting b) ph). cbn -[set] in Q1, Q2, Q3, Q4, Q5, Q6, Q7, Q8, Q9, EK, EM, EF.
    assert (HY : yield_val args = given args) by reflexivity. split.
    + apply (inv_leave _ _ _ _ m m' tr _ t' r ph f (with_rsp K x (m_cur m, fst (m_mem m (m_cur m)))) (Waiting b) s n); try assumption.
      * rewrite MM. reflexivity.
      * rewrite Q2, MM. reflexivity.
      * intros u U1 U2. apply (two_others _ t' f); try assumption; reflexivity.
      * no_new.
      * intros h a. cbn. destruct (Nat.eqb h f); reflexivity.
      * exact Logic.I.
      * exists (with_rsp K x (m_cur m, fst (m_mem m (m_cur m)))), (m_cur m), (fst (m_mem m (m_cur m))), k.
        repeat (split; [first [assumption|reflexivity]|]). split; [apply made_app; exact HM|].
        pose proof (i_loc _ _ _ _ _ _ _ _ I) as L. rewrite V in L. apply (loc_step _ _ _ _ _ _ _ _ _ L). intros k1 l H.
        unfold events_of. cbn [filter takes_part]. rewrite vm_eqb_refl, (vm_eqb_neq (Some f) t') by auto. rewrite HY.
        eapply D_yield; [reflexivity|exact H|exact HN].
      * rewrite EK. apply (loc_step _ _ _ _ _ _ _ _ _ HL). intros k1 l H. unfold events_of. cbn [filter takes_part].
        rewrite vm_eqb_refl, (vm_eqb_neq t' (Some f)) by auto. apply D_return. exact H.
    + intros _ _ Ho. rewrite V in Ho. rewrite Q9. apply O_yield; assumption.
  - unfold fiber_yield, handle. cbn. rewrite V. intros _. exists rest, ph. rewrite app_nil_r. split.
    + replace tr with (tr ++ []) by apply app_nil_r.
      apply (inv_stay _ _ _ _ m); try assumption; try reflexivity; [no_new|].
      intros k1 l H. cbn. rewrite app_nil_r. rewrite V in *. eapply D_main; [reflexivity|exact H|exact HN].
    + intros _ _ Ho. rewrite V in Ho. cbn. rewrite V. exact Ho.
Qed.
Lemma end_fine m tr rest ph g r : inv m tr rest ph -> next (m_k m) (m_g m) = (g, OEnd r) ->
  fine m tr rest ph (OEnd r) (fiber_end r (with_g K G m g)).
Proof.
  intros I HN. destruct (m_vm m) as [f|] eqn:V.
  - destruct (leave_setup _ _ _ _ f I V) as (b & x & t' & rr & s & n & kf & EP & HX & XK & XS & XH & XT & HB & -> & XM & ST & MM & HL & HC & T0 & HM).
    destruct (end_leaves (with_g K G m g) f x r s n t' kf V HX HB XM MM HC) as (m' & E & (Q1 & Q2 & Q3 & Q4 & Q5 & Q6 & Q7 & Q8 & Q9) & EK & EF).
    rewrite E. intros _. exists rr, (upd f Finished ph). cbn -[set] in Q1, Q2, Q3, Q4, Q5, Q6, Q7, Q8, Q9, EK, EF. rewrite XK in *. split.
    + apply (inv_leave _ _ _ _ m m' tr _ t' rr ph f (with_rsp K (with_state K x Dead) (m_cur m, fst (m_mem m (m_cur m)))) Finished s n); try assumption.
      * rewrite MM. reflexivity.
      * rewrite Q2, MM. reflexivity.
      * intros u U1 U2. apply (two_others _ t' f); try assumption; reflexivity.
      * no_new.
      * intros h a. cbn. destruct (Nat.eqb h f); reflexivity.
      * exact Logic.I.
      * exists (with_rsp K (with_state K x Dead) (m_cur m, fst (m_mem m (m_cur m)))).
        repeat (split; [first [assumption|reflexivity]|]).
        pose proof (i_loc _ _ _ _ _ _ _ _ I) as L. rewrite V in L. apply (loc_step _ _ _ _ _ _ _ _ _ L). intros k1 l H.
        unfold events_of. cbn [filter takes_part]. rewrite vm_eqb_refl, (vm_eqb_neq (Some f) t') by auto.
        eapply D_end; [reflexivity|exact H|exact HN].
      * rewrite EK. apply (loc_step _ _ _ _ _ _ _ _ _ HL). intros k1 l H. unfold events_of. cbn [filter takes_part].
        rewrite vm_eqb_refl, (vm_eqb_neq t' (Some f)) by auto. apply D_return. exact H.
    + intros _ HBr Ho. rewrite V in Ho. rewrite Q9. replace (native (final b r)) with (last_result b r); [apply O_end; assumption|].
      destruct b as [p l st|st]; destruct r as [v|e|v|v]; try reflexivity;
        (exfalso; apply (HBr f v); apply in_or_app; right; left; reflexivity).
  - unfold fiber_end. cbn. rewrite V. exact V.
Qed.

Lemma step_fine m tr rest ph : inv m tr rest ph -> fine m tr rest ph (snd (next (m_k m) (m_g m))) (step next m).
Proof.
  intros I. unfold step. destruct (next (m_k m) (m_g m)) as [g o] eqn:HN. cbn [snd]. destruct o as [args k|f args k|f k|b k|f k|k|r].
  - apply yield_fine; assumption.
  - assert (R : forall v, length args <= 1 -> given args = v ->
      fine m tr rest ph (OResume f args k) (also (EResume (m_vm m) f false v) (resume f v k (with_g K G m g)))).
    { intros v HA <-. apply (resume_fine m tr rest ph g _ f false); [exact I| |reflexivity].
      intros t k1 l H. eapply D_resume; eassumption. }
    destruct args as [|v [|v' args]]; [apply R; [cbn; lia|reflexivity]|apply R; [cbn; lia|reflexivity]|].
    intros _. exists rest, ph. rewrite app_nil_r. split; [|auto].
    replace tr with (tr ++ []) by apply app_nil_r. apply (inv_stay _ _ _ _ m); try assumption; try reflexivity; [no_new|].
    intros k1 l H. cbn. rewrite app_nil_r. eapply D_many; [exact H|exact HN|cbn; lia].
  - apply (resume_fine m tr rest ph g _ f true); [exact I| |reflexivity]. intros t k1 l H. eapply D_next; eassumption.
  - intros _. exists rest, (upd (m_nfib m) (Fresh b) ph). split.
    + apply (inv_new _ _ _ _ m _ tr rest ph b k I); try reflexivity. eauto.
    + intros _ _ Ho. apply O_new; [exact Ho|]. apply (i_new _ _ _ _ _ _ _ _ I). lia.
  - unfold drop_fiber. cbn [with_g m_fib]. destruct (m_fib m f) as [x|] eqn:HX.
    + intros HK. exists rest, (upd f Gone ph). set (m0 := match f_stack x with Some s => _ | None => _ end) in *.
      assert (E : m_vm m0 = m_vm m) by (unfold m0; destruct (f_stack x); reflexivity). rewrite E in *.
      assert (NA : active f false tr = false) by (apply (HK tr (m_vm m) f []); reflexivity).
      assert (NA' : forall b, ph f <> Active b).
      { intros b Q. assert (W : active f false tr = true) by (apply (i_trace _ _ _ _ _ _ _ _ I); eauto). congruence. }
      assert (VV : m_vm (go K G (with_fib K G m0 f None) k) = m_vm m) by exact E. split.
      * apply (inv_drop _ _ _ _ m _ tr rest ph f x I HX NA'); unfold m0; try (destruct (f_stack x); reflexivity). cbn. eauto.
      * intros _ _ Ho. rewrite VV. apply O_drop; [exact Ho|]. pose proof (i_ph _ _ _ _ _ _ _ _ I f) as P.
        destruct (ph f) eqn:EP; try exact Logic.I.
        -- destruct P; congruence.
        -- destruct (NA' b eq_refl).
        -- destruct P; congruence.
    + exists f. split; [reflexivity|]. pose proof (i_ph _ _ _ _ _ _ _ _ I f) as P. destruct (ph f) eqn:EP; cbn [phase_ok] in P.
      * destruct P as (_ & _ & P). right. left. intros t b W. apply (P b). exists t. exact W.
      * destruct P as (x & P & _). congruence.
      * destruct P as (x & s & n & P & _). congruence.
      * destruct P as (x & s & n & k1 & P & _). congruence.
      * destruct P as (x & P & _). congruence.
      * destruct P as (_ & P & _). right. right. exact P.
  - intros _. exists rest, ph. rewrite app_nil_r. split; [|auto].
    replace tr with (tr ++ []) by apply app_nil_r. apply (inv_stay _ _ _ _ m); try assumption; try reflexivity; [no_new|].
    intros k1 l H. cbn. rewrite app_nil_r. eapply D_tau; [exact H|exact HN].
  - apply end_fine; assumption.
Qed.

(** *** Executions *)
Lemma kept_prefix (a b : list ev) : kept (a ++ b) -> kept a.
Proof. intros H l t f r ->. apply (H l t f (r ++ b)). rewrite <- app_assoc. reflexivity. Qed.
Lemma runs_inv m tr' m' : runs next m tr' m' -> forall tr rest ph, inv m tr rest ph -> kept (tr ++ tr') ->
  exists rest' ph', inv m' (tr ++ tr') rest' ph' /\
    (plain_blocks (tr ++ tr') -> no_break (tr ++ tr') -> obeys tr (m_vm m :: rest) ph -> obeys (tr ++ tr') (m_vm m' :: rest') ph').
Proof.
  intros H. induction H as [m|m grp m1 tr' m' Hs Hr IH]; intros tr rest ph I HK.
  - rewrite app_nil_r in *. exists rest, ph. auto.
  - pose proof (step_fine _ _ _ _ I) as F. rewrite Hs in F. rewrite app_assoc in *. destruct (F (kept_prefix _ _ HK)) as (r1 & p1 & I1 & O1).
    destruct (IH (tr ++ grp) r1 p1 I1 HK) as (r2 & p2 & I2 & O2). exists r2, p2. split; [exact I2|]. intros HP HB Ho.
    apply O2; [exact HP|exact HB|]. apply O1; [|intros f v Q; apply (HB f v); apply in_or_app; auto|exact Ho].
    intros t f p l s Q. apply (HP t f p l s). apply in_or_app. auto.
Qed.
Lemma boot_inv g tr m : runs next (boot k0 g) tr m -> kept tr ->
  exists rest ph, inv m tr rest ph /\ (plain_blocks tr -> no_break tr -> obeys tr (m_vm m :: rest) ph).
Proof.
  intros H HK. destruct (runs_inv _ _ _ H [] [] (fun _ => Absent) (inv_boot _ _ _ _ g) HK) as (r & p & I & O).
  exists r, p. split; [exact I|]. intros A B. apply O; [exact A|exact B|]. apply O_start.
Qed.
End Step.
