(** The code of [defined?] does what it means. *)
From Coq Require Import ZArith List Bool Lia Permutation.
From Verif Require Import Base ModelValue ModelInst ProofsInst ModelCodegen ModelVM
  SpecCore ProofsValue ProofsCore1 ProofsCore2 ProofsCore3 ProofsCore5 ProofsCore6.
Import ListNotations.
Open Scope nat_scope.

(** ** The size of a tree *)
Definition sum (l : list nat) : nat := fold_right Nat.add O l.
Definition osize (g : node -> nat) (o : option node) : nat :=
  match o with Some n => g n | None => O end.

Fixpoint nsize (n : node) : nat :=
  S match n with
    | NSend r _ args _ => nsize r + sum (map nsize args)
    | NIndex a b | NBin _ a b | NAssign a b | NAssignOp _ a b | NWhile a b _ | NRange a b _ => nsize a + nsize b
    | NArray l | NOp _ l | NSeq l => sum (map nsize l)
    | NUn _ e | NBreak e | NNext e | NReturn e | NDefined e _ => nsize e
    | NMAssign a b => sum (map nsize a) + sum (map nsize b)
    | NIf a b c => nsize a + nsize b + nsize c
    | NCase c whens els =>
        osize nsize c + sum (map (fun b => sum (map nsize (fst b)) + nsize (snd b)) whens)
        + nsize els
    | NBegin b rs els ens =>
        nsize b
        + sum (map (fun b => sum (map nsize (fst (fst b))) + osize nsize (snd (fst b))
                             + nsize (snd b)) rs)
        + osize nsize els + osize nsize ens
    | _ => O
    end.

Lemma sum_in {A} (g : A -> nat) (x : A) l : In x l -> g x <= sum (map g l).
Proof.
  induction l as [|y l IH]; [intros []|]. cbn. intros [->|H]; [lia|].
  specialize (IH H). unfold sum in IH. lia.
Qed.

Lemma Forall_sum {A} (g : A -> nat) (Q : A -> Prop) l k :
  sum (map g l) <= k -> (forall x, In x l -> g x <= k -> Q x) -> Forall Q l.
Proof.
  intros H HQ. apply Forall_forall. intros x I. apply HQ; [exact I|].
  pose proof (sum_in g x l I). lia.
Qed.

Open Scope Z_scope.

(** ** Handlers that keep the stack *)
Definition in_exs (exs : list (Z * Z)) (pc : Z) : bool :=
  existsb (fun p => (fst p <? pc) && (pc <=? snd p)) exs.

Lemma in_exs_app a b pc : in_exs (a ++ b) pc = in_exs a pc || in_exs b pc.
Proof. apply existsb_app. Qed.
Lemma in_exs_out lo hi e pc : Forall (fun p => lo <= fst p /\ snd p <= hi) e ->
  pc <= lo \/ hi < pc -> in_exs e pc = false.
Proof.
  unfold in_exs. intros F O. induction F as [|p e [A B] F IH]; [reflexivity|]. cbn [existsb].
  rewrite IH. destruct (Z.ltb_spec (fst p) pc), (Z.leb_spec pc (snd p)); cbn; try reflexivity; lia.
Qed.

Definition keep_env (exs : list (Z * Z)) (d : Z) (E : renv) : renv :=
  set_hf E (fun pc => if in_exs exs pc then Some (d, true) else r_hf E pc).

Lemma run_extabs bl H a b d M exs : run bl H a b M ->
  Forall (fun p => cur a <= fst p /\ snd p < cur b) exs ->
  run bl H a (set_extab (extab b ++ map (fun p => mkex (fst p) (snd p) d true) exs) b)
    (fun G E t => M G (keep_env exs d E) t).
Proof.
  intros (its & ex & X & P & L) F. exists its, (ex ++ map (fun p => mkex (fst p) (snd p) d true) exs).
  split; [|split; [exact P|]].
  - destruct X. constructor; cbn [set_extab code loops jds extab consts g_map g_map2 caches]; auto.
    + rewrite e_ex, app_assoc. reflexivity.
    + apply Forall_app. split; [exact e_range|]. apply Forall_map.
      eapply Forall_impl; [|exact F]. intros p [A B]. split; assumption.
  - intros G E t [LC LE]. apply L. constructor; auto. intros pc Hpc.
    rewrite LE by exact Hpc. rewrite find_ex_app.
    destruct (find_ex ex pc); [reflexivity|]. unfold keep_env. cbn [set_hf r_hf].
    clear. induction exs as [|p exs IH]; [reflexivity|]. unfold find_ex, in_exs in *. cbn [map find existsb ex_start ex_end].
    destruct ((fst p <? pc) && (pc <=? snd p)); [reflexivity|]. exact IH.
Qed.

Section Compile.
Context {W : Type}.
Variable P : prims W.
Variable cx : sctx.
Hypothesis PO : prims_ok P.
Hypothesis SC : scoped cx.

Notation setter := (sc_setter cx).
Notation std := (sc_stderr cx).
Notation blk := (blk cx).
Notation reach := (reach P cx).
Notation erel := (erel cx).
Notation star := (star P).
Notation runs := (runs P).
Notation compiled := (compiled P cx setter std).
Notation EV f := (eval P setter std f).

(** From the state [a] the interpreter gets to [pos] when the answer is yes, to [tgt]
    when it is no. *)
Definition dmeet (G : prog) (f : nat) (tgt : Z) (a : vst W) (stk : list value) (pos : Z) (r : dres (W:=W)) : Prop :=
  match r with
  | DYes s => exists env, star G a (mkvst pos stk env (s_w s)) /\ erel s env
  | DNo s => exists env, star G a (mkvst tgt stk env (s_w s)) /\ erel s env
  | DStop o => match o with Fuel => runs G f a | Out => True | _ => False end
  end.

Lemma dmeet_star G f tgt a b stk pos r : star G a b -> dmeet G f tgt b stk pos r -> dmeet G f tgt a stk pos r.
Proof.
  intros S. destruct r as [s|s|o]; cbn [dmeet].
  - intros (env & T & R). exists env. split; [eapply star_trans; eassumption|exact R].
  - intros (env & T & R). exists env. split; [eapply star_trans; eassumption|exact R].
  - destruct o; auto. apply runs_star, S.
Qed.

Definition dsem (st st' : cg) (l : list Z) (e : list (Z * Z)) (okc : fctx -> bool)
  (dv : nat -> sst (W:=W) -> dres (W:=W)) (G : prog) (E : renv) (t : Z -> Z) : Prop :=
  good G -> tgt_ok E -> forall f c h tgt dest s env stk,
    okc c = true -> ctx_ok (in_loop st) (ens_top st) c E ->
    (forall p, In p l -> t p = tgt) -> 0 <= tgt < 2 ^ 31 ->
    (forall pc, cur st < pc <= cur st' -> r_hf E pc = if in_exs e pc then Some (dest, true) else h) ->
    erel s env -> (f_clean c = true -> stk = []) ->
    dmeet G f tgt (mkvst (cur st) stk env (s_w s)) stk (cur st') (dv f s).

Definition checked (r : cg -> res chk) (okc : fctx -> bool) (dv : nat -> sst (W:=W) -> dres (W:=W)) : Prop :=
  forall st l e st', r st = Ok (l, e, st') ->
  run blk l st st' (dsem st st' l e okc dv)
  /\ Forall (fun p => cur st <= fst p /\ snd p <= cur st') e.

Lemma checked_none okc : checked (fun st => Ok ([], [], st)) okc (fun _ s => DYes s).
Proof.
  intros st l e st' H. injection H as <- <- <-. split; [|constructor].
  eapply run_weaken; [apply run_refl|reflexivity|]. intros G E t _ HG HT f c h tgt dest s env stk _ _ _ _ _ ER _.
  exists env. split; [apply star_refl|exact ER].
Qed.

Lemma checked_weaken r okc okc' dv : (forall c, okc' c = true -> okc c = true) -> checked r okc dv -> checked r okc' dv.
Proof.
  intros W1 H st l e st' B. destruct (H _ _ _ _ B) as [R F]. split; [|exact F].
  eapply run_weaken; [exact R|reflexivity|]. cbv beta. intros G E t M HG HT f c h tgt dest s env stk OK.
  apply (M HG HT). apply W1, OK.
Qed.

Lemma checked_then r k ok1 ok2 d1 d2 : checked r ok1 d1 -> checked k ok2 d2 ->
  checked (fun st => cthen (r st) k) (fun c => ok1 c && ok2 c) (fun f s => dand (d1 f s) (d2 f)).
Proof.
  intros H1 H2 st l e st' B. unfold cthen in B.
  destruct (r st) as [[[l1 e1] st1]| |] eqn:B1; cbn [rbind] in B; try discriminate B.
  destruct (k st1) as [[[l2 e2] st2]| |] eqn:B2; cbn [rbind] in B; try discriminate B.
  injection B as <- <- <-. destruct (H1 _ _ _ _ B1) as [R1 F1]. destruct (H2 _ _ _ _ B2) as [R2 F2].
  facts R1. facts R2. split.
  2: { apply Forall_app. split; (eapply Forall_impl; [|eassumption]); cbn; intros p ?; lia. }
  eapply run_weaken; [exact (run_trans _ _ _ _ _ _ _ _ R1 R2)|reflexivity|]. cbv beta.
  intros G E t (M1 & M2) HG HT f c h tgt dest s env stk OK CO TL TB HX ER CL.
  apply andb_prop in OK as [OK1 OK2].
  assert (X1 : dmeet G f tgt (mkvst (cur st) stk env (s_w s)) stk (cur st1) (d1 f s)).
  { apply (M1 HG HT f c h tgt dest); auto.
    - intros p I. apply TL, in_or_app. left. exact I.
    - intros pc Hpc. rewrite HX by lia. rewrite in_exs_app, (in_exs_out _ _ e2 pc F2) by lia.
      rewrite orb_false_r. reflexivity. }
  destruct (d1 f s) as [s1|s1|o] eqn:D1; cbn [dand]; [|exact X1|exact X1].
  destruct X1 as (env1 & S1 & ER1). eapply dmeet_star; [exact S1|].
  apply (M2 HG HT f c h tgt dest); auto.
  - ctx.
  - intros p I. apply TL, in_or_app. right. exact I.
  - intros pc Hpc. rewrite HX by lia. rewrite in_exs_app, (in_exs_out _ _ e1 pc F1) by lia. reflexivity.
Qed.

(** an instruction that asks, and the jump after it *)
Lemma check_inst_ok i st l e st' : check_inst i st = Ok (l, e, st') -> fits i ->
  e = [] /\ l = [cur st'] /\
  run blk l st st' (fun G E t => good G -> forall tgt stk stk' env w b,
    t (cur st') = tgt -> 0 <= tgt < 2 ^ 31 ->
    (forall nxt, exec P G i (cur st) nxt (mkvst (cur st) stk env w) = SNext (mkvst nxt (vbool (negb b) :: stk') env w)) ->
    star G (mkvst (cur st) stk env w) (mkvst (if b then cur st' else tgt) stk' env w)).
Proof.
  intros H F. unfold check_inst in H. injection H as <- <- <-. split; [reflexivity|]. split; [reflexivity|].
  pose proof (run_emit blk i st) as R1. pose proof (run_jump blk (JJ oJMP_T) (emit i st)) as R2.
  cbn [jinst] in R2. cbv zeta in R2. set (st1 := emit i st) in *. set (st2 := emit (IJ oJMP_T 0) st1) in *.
  facts R1. facts R2.
  eapply run_weaken; [exact (run_len _ _ _ _ _ (run_trans _ _ _ _ _ _ _ _ R1 R2))|reflexivity|]. cbv beta.
  intros G E t (LEN & M1 & M2) HG tgt stk stk' env w b TT TB X. pose proof (cur_nonneg st1).
  eapply star_trans; [eapply step_next; [exact M1|exact F|apply X]|].
  eapply step_next; [exact M2|apply (jump_fits G); [exact HG|rewrite TT; exact TB|lia]|].
  cbn [exec v_stk v_env v_w]. rewrite negb_involutive || idtac. unfold jmp_cond. rewrite TT.
  destruct b; cbn; [reflexivity|]. replace (cur st2 + (tgt - cur st2)) with tgt by lia. reflexivity.
Qed.

(** something that does not need a receiver *)
Lemma ask_ok i (b : sst (W:=W) -> bool) : fits i ->
  (forall G pos nxt stk env s, erel s env ->
     exec P G i pos nxt (mkvst pos stk env (s_w s)) = SNext (mkvst nxt (vbool (negb (b s)) :: stk) env (s_w s))) ->
  checked (check_inst i) (fun _ => true) (fun _ s => dask (b s) s).
Proof.
  intros F X st l e st' B. destruct (check_inst_ok _ _ _ _ _ B F) as (-> & -> & R). split; [|constructor].
  eapply run_weaken; [exact R|reflexivity|]. cbv beta.
  intros G E t M HG HT f c h tgt dest s env stk _ _ TL TB _ ER _.
  pose proof (M HG tgt stk stk env (s_w s) (b s) (TL _ (or_introl eq_refl)) TB (fun nxt => X _ _ _ _ _ _ ER)) as S.
  destruct (b s); exists env; split; [exact S|exact ER|exact S|exact ER].
Qed.

(** a receiver, and what is asked about it *)
Lemma recv_ok o (q : value -> Z -> defq) r x caught : compiled r -> id32 x = true ->
  (forall G pos nxt v stk env w, exec P G (I32 o x) pos nxt (mkvst pos (v :: stk) env w)
     = SNext (mkvst nxt (vbool (negb (p_defd P (q v x) w)) :: stk) env w)) ->
  checked (fun st => cthen (check_recv (gen cx r) caught st) (check_inst (I32 o x)))
    (fun c => ok blk c true r)
    (fun f s => dvalue (EV f r s) (fun v s => dask (p_defd P (q v x) (s_w s)) s)).
Proof.
  intros HR HX X st l e st' B. unfold cthen, check_recv in B. cbv zeta in B.
  destruct (gen cx r true st) as [st1| |] eqn:B1; cbn [rbind] in B; try discriminate B.
  destruct (check_inst (I32 o x) st1) as [[[l2 e2] st2]| |] eqn:B2; cbn [rbind] in B; try discriminate B.
  pose proof (f_equal (fun z => match z with Ok (a, _, _) => a | _ => [] end) B) as EL.
  pose proof (f_equal (fun z => match z with Ok (_, a, _) => a | _ => [] end) B) as EE.
  pose proof (f_equal (fun z => match z with Ok (_, _, a) => a | _ => st end) B) as ES.
  cbn in EL, EE, ES. subst l e st'. clear B.
  destruct (check_inst_ok _ _ _ _ _ B2 (id32_fits _ HX)) as (-> & -> & R2).
  pose proof (HR _ _ _ B1) as R1. facts R1. facts R2. rewrite app_nil_r. cbn [app]. split.
  2: { destruct caught; constructor; [cbn; lia|constructor]. }
  eapply run_weaken; [exact (run_trans _ _ _ _ _ _ _ _ R1 R2)|reflexivity|]. cbv beta.
  intros G E t (M1 & M2) HG HT f c h tgt dest s env stk OK CO TL TB HXX ER CL.
  set (h' := if caught then Some (dest, true) else h).
  assert (CV : covered E h' (cur st) (cur st1)).
  { intros pc Hpc. rewrite HXX by lia. unfold h'. destruct caught; cbn; [|reflexivity].
    replace (cur st <? pc) with true by lia. replace (pc <=? cur st1) with true by lia. reflexivity. }
  pose proof (M1 HG HT f c h' s env stk OK CO CV ER CL) as R. cbn [used] in R.
  destruct (EV f r s) as [v s1|v s1|v s1|d v s1|v s1| |]; cbn [dvalue dmeet]; auto.
  destruct R as (env1 & S1 & ER1). cbn [fst snd] in S1.
  pose proof (M2 HG tgt (v :: stk) stk env1 (s_w s1) (p_defd P (q v x) (s_w s1))
    (TL _ (or_introl eq_refl)) TB (fun nxt => X _ _ _ _ _ _ _)) as S2.
  unfold dask. destruct (p_defd P (q v x) (s_w s1)); exists env1;
    (split; [eapply star_trans; eassumption|exact ER1]).
Qed.

(** Object::X *)
Lemma top_check d x : id32 x = true -> id32 (dn_object d) = true ->
  checked (fun st => check_inst (I32 oCHECK_SCOPE x) (emit (I2 oGET_CONST (dn_object d) 0) st)) (fun _ => true)
    (fun _ s => dvalue (prim (p_op P (bConst (dn_object d) 0) [] (s_w s)) s) (fun v s =>
                  dask (p_defd P (qScope v x) (s_w s)) s)).
Proof.
  intros HX HO st l e st' B.
  destruct (check_inst_ok _ _ _ _ _ B (id32_fits _ HX)) as (-> & -> & R2).
  pose proof (run_emit blk (I2 oGET_CONST (dn_object d) 0) st) as R1. facts R1. facts R2.
  split; [|constructor].
  eapply run_weaken; [exact (run_trans _ _ _ _ _ _ _ _ R1 R2)|reflexivity|]. cbv beta.
  intros G E t (M1 & M2) HG HT f c h tgt dest s env stk _ _ TL TB _ ER _.
  destruct (p_op P (bConst (dn_object d) 0) [] (s_w s)) as [v w|v w] eqn:PE; cbn [prim dvalue dmeet]; [|exact I].
  assert (S1 : star G (mkvst (cur st) stk env (s_w s)) (mkvst (cur (emit (I2 oGET_CONST (dn_object d) 0) st)) (v :: stk) env w)).
  { eapply step_next; [exact M1|split; [apply id32_fits, HO|unfold u32_ok; lia]|].
    cbn [exec]. unfold opn. cbn [v_stk v_env v_w].
    change (popn 0 stk) with (Some (@Datatypes.nil value, stk)). cbn [push]. rewrite PE. reflexivity. }
  pose proof (M2 HG tgt (v :: stk) stk env w (p_defd P (qScope v x) w)
    (TL _ (or_introl eq_refl)) TB (fun nxt => eq_refl)) as S2.
  cbn [set_w s_w]. unfold dask. destruct (p_defd P (qScope v x) w); exists env;
    (split; [eapply star_trans; eassumption|apply erel_w, ER]).
Qed.

(** ** The parts of a list *)
Definition checks_of (ck : node -> cg -> res chk) :=
  fix checks (m : nat) (l : list node) (st : cg) {struct l} : res chk :=
    match m, l with
    | S m, x :: r => cthen (ck x st) (checks m r)
    | _, _ => Ok ([], [], st)
    end.
Definition all_of (go : node -> sst (W:=W) -> dres (W:=W)) :=
  fix all (m : nat) (l : list node) (s : sst (W:=W)) {struct l} : dres (W:=W) :=
    match m, l with
    | S m, x :: r => dand (go x s) (all m r)
    | _, _ => DYes s
    end.

Lemma checks_ok ck okf dv l : Forall (fun x => checked (ck x) (fun c => okf c x) (fun f => dv f x)) l ->
  forall m, checked (checks_of ck m l) (fun c => forallb (okf c) l) (fun f => all_of (dv f) m l).
Proof.
  induction 1 as [|x r H F IH]; intros m.
  - destruct m; exact (checked_weaken _ _ _ _ (fun c _ => eq_refl) (checked_none (fun _ => true))).
  - destruct m as [|m].
    + exact (checked_weaken _ _ _ _ (fun c _ => eq_refl) (checked_none (fun _ => true))).
    + exact (checked_then _ _ _ _ _ _ H (IH m)).
Qed.

Lemma names_bin d op : names32 d = true -> id32 (dn_bin d op) = true.
Proof.
  unfold names32. intros H. do 3 (apply andb_prop in H as [H _]).
  rewrite forallb_forall in H. apply H. destruct op; cbn; auto 25.
Qed.
Lemma names_un d op : names32 d = true -> id32 (dn_un d op) = true.
Proof.
  unfold names32. intros H. apply andb_prop in H as [H _]. apply andb_prop in H as [H _].
  apply andb_prop in H as [_ H]. rewrite forallb_forall in H. apply H. destruct op; cbn; auto 25.
Qed.
Lemma names_index d : names32 d = true -> id32 (dn_index d) = true.
Proof.
  unfold names32. intros H. apply andb_prop in H as [H _]. apply andb_prop in H as [_ H]. exact H.
Qed.
Lemma names_object d : names32 d = true -> id32 (dn_object d) = true.
Proof. unfold names32. intros H. apply andb_prop in H as [_ H]. exact H. Qed.

(** Assignments to anything but local variables are not looked at. *)
Definition no_local (x : node) : bool := match target_id x with Some _ => false | None => true end.
Lemma targets_ok l : forallb no_local l = true -> forall st, check_targets cx l st = Ok st.
Proof.
  induction l as [|x l IH]; [reflexivity|]. cbn [forallb]. intros H st. apply andb_prop in H as [A B].
  destruct x; cbn [check_targets]; try discriminate A; apply IH, B.
Qed.
Lemma targets_checked (l : list node) : 
  checked (fun st => st <- check_targets cx l st ;; Ok ([], [], st)) (fun _ => forallb no_local l) (fun _ s => DYes s).
Proof.
  destruct (forallb no_local l) eqn:NL.
  - intros st a e st' H. rewrite (targets_ok _ NL) in H. cbn [rbind] in H.
    exact (checked_none (fun _ => true) st a e st' H).
  - intros st a e st' H.
    destruct (check_targets cx l st) as [st1| |] eqn:B; cbn [rbind] in H; try discriminate H.
    assert (K : exists M, run blk [] st st1 M).
    { clear H NL. revert st B. induction l as [|x l IH]; intros st B.
      - injection B as <-. exists (fun _ _ _ => True). apply run_refl.
      - assert (D : check_targets cx l st = Ok st1 \/
                    exists y st2, emit_set_local cx y (emit (I0 oPUSH_NIL) st) = Ok st2 /\ check_targets cx l st2 = Ok st1).
        { destruct x; cbn [check_targets] in B; try (left; exact B);
            (destruct (emit_set_local cx id (emit (I0 oPUSH_NIL) st)) as [st2| |] eqn:E2; cbn [rbind] in B; try discriminate B;
             right; exists id, st2; split; [exact E2|exact B]). }
        destruct D as [D|(y & st2 & E2 & D)]; [exact (IH _ D)|].
        destruct (IH _ D) as [M R]. unfold emit_set_local in E2.
        destruct (get_local_var cx y) as [[o i]|]; [|discriminate E2]. injection E2 as <-.
        eexists. exact (run_trans _ _ _ _ _ _ _ _ (run_emit blk _ st)
                          (run_trans _ _ _ _ _ _ _ _ (run_emit blk _ _) R)). }
    injection H as <- <- <-. destruct K as [M R]. split; [|constructor].
    eapply run_weaken; [exact R|reflexivity|]. intros G E t _ HG HT f c h tgt dest s env stk OK. discriminate OK.
Qed.

(** ** All trees *)
Lemma check_all d k : names32 d = true ->
  (forall m, (nsize m <= k)%nat -> sized cx m = true -> compiled m) ->
  forall j n, (nsize n <= j)%nat -> (j <= k)%nat -> sized cx n = true -> in_scope cx n = true ->
  checked (check_defined cx (gen cx) d n) (fun c => ok_defined (ok blk c true) n)
          (fun f => defined_in P (EV f) d n).
Proof.
  intros ND CP. induction j as [|j IH]; intros n L JK SZ IS; [destruct n; cbn in L; lia|].
  assert (ONE : forall m, (nsize m <= j)%nat -> sized cx m = true -> in_scope cx m = true ->
    checked (check_defined cx (gen cx) d m) (fun c => ok_defined (ok blk c true) m)
          (fun f => defined_in P (EV f) d m)).
  { intros m Lm Sm Im. apply IH; auto; lia. }
  assert (LST : forall l i, (sum (map nsize l) <= j)%nat -> forallb (sized cx) l = true ->
    forallb (in_scope cx) l = true ->
    checked (checks_of (check_defined cx (gen cx) d) i l) (fun c => forallb (ok_defined (ok blk c true)) l)
          (fun f => all_of (defined_in P (EV f) d) i l)).
  { intros l i Ls Ss Is. apply (checks_ok _ (fun c => ok_defined (ok blk c true)) (fun f => defined_in P (EV f) d)).
    rewrite forallb_forall in Ss, Is. eapply Forall_sum; [exact Ls|]. intros x Ix Lx. apply ONE; auto. }
  assert (HAS : forall r x caught, (nsize r <= j)%nat -> sized cx r = true -> id32 x = true ->
    checked (fun st => cthen (check_recv (gen cx r) caught st) (check_inst (I32 oCHECK_METHOD x)))
      (fun c => ok blk c true r)
      (fun f s => dvalue (EV f r s) (fun v s => dask (p_defd P (qMethod v x) (s_w s)) s))).
  { intros r x caught Lr Sr Ix. apply recv_ok; [apply CP; [lia|exact Sr]|exact Ix|reflexivity]. }
  assert (DEF : forall okc, checked (fun st => Ok ([], [], st)) okc (fun _ s => DYes s)) by apply checked_none.
  destruct n; cbn [sized in_scope] in SZ, IS; cbn [nsize] in L; try exact (DEF _).
  all: repeat match goal with H : _ && _ = true |- _ => apply andb_prop in H as [? H] end.
  - (* a local variable *)
    destruct (get_local_var cx id) as [[o i]|] eqn:LV; [|discriminate IS].
    destruct SC as [_ SB]. destruct (SB _ _ _ LV).
    assert (X : checked (check_inst (I2 oCHECK_LOCAL i o)) (fun _ => true)
                  (fun _ s => dask (negb (is_uninit (s_rho s id))) s)).
    { apply (ask_ok _ (fun s => negb (is_uninit (s_rho s id)))); [split; cbn; unfold u32_ok; lia|].
      intros G pos nxt stk env s ER. cbn [exec v_env v_stk v_w]. rewrite (ER _ _ _ LV), negb_involutive.
      reflexivity. }
    intros st l e st' B. cbn [check_defined] in B. rewrite LV in B. exact (X st l e st' B).
  - exact (ask_ok (I32 oCHECK_GVAR id) (fun s => p_defd P (qGvar id) (s_w s)) (id32_fits _ SZ)
             (fun _ _ _ _ _ _ _ => eq_refl)).
  - exact (ask_ok (I32 oCHECK_IVAR id) (fun s => p_defd P (qIvar id) (s_w s)) (id32_fits _ SZ)
             (fun _ _ _ _ _ _ _ => eq_refl)).
  - exact (recv_ok oCHECK_METHOD qMethod NSelf id false (CP NSelf ltac:(cbn; lia) eq_refl) SZ
             (fun _ _ _ _ _ _ _ => eq_refl)).
  - apply (checked_weaken _ (fun c => ok_defined (ok blk c true) n &&
      (forallb (ok_defined (ok blk c true)) args && ok blk c true n))).
    { intros c. cbn [ok_defined]. rewrite !andb_true_iff. tauto. }
    exact (checked_then _ _ _ _ _ _ (ONE n ltac:(lia) ltac:(assumption) ltac:(assumption))
             (checked_then _ _ _ _ _ _ (LST args (length args) ltac:(lia) ltac:(assumption) ltac:(assumption))
               (HAS n id true ltac:(lia) ltac:(assumption) ltac:(assumption)))).
  - apply (checked_weaken _ (fun c => ok_defined (ok blk c true) n1 &&
      (ok_defined (ok blk c true) n2 && ok blk c true n1))).
    { intros c. cbn [ok_defined]. rewrite !andb_true_iff. tauto. }
    exact (checked_then _ _ _ _ _ _ (ONE n1 ltac:(lia) ltac:(assumption) ltac:(assumption))
             (checked_then _ _ _ _ _ _ (ONE n2 ltac:(lia) ltac:(assumption) ltac:(assumption))
               (HAS n1 (dn_index d) false ltac:(lia) ltac:(assumption) (names_index _ ND)))).
  - exact (LST l (length l) ltac:(lia) ltac:(assumption) ltac:(assumption)).
  - (* operations *)
    destruct k0; try exact (DEF _).
    all: repeat match goal with H : _ && _ = true |- _ => apply andb_prop in H as [? H] end.
    + exact (checked_weaken _ (fun _ => true) _ _ (fun c _ => eq_refl)
               (ask_ok (I32 oCHECK_CONST id) (fun s => p_defd P (qConst id) (s_w s)) (id32_fits id ltac:(assumption))
                 (fun _ _ _ _ _ _ _ => eq_refl))).
    + exact (checked_weaken _ (fun _ => true) _ _ (fun c _ => eq_refl)
               (top_check d id ltac:(assumption) (names_object _ ND))).
    + destruct l as [|p l]; [exact (DEF _)|]. cbn [map sum fold_right] in L. fold (sum (map nsize l)) in L.
      cbn [forallb] in *.
      repeat match goal with H : _ && _ = true |- _ => apply andb_prop in H as [? H] end.
      exact (checked_then _ _ _ _ _ _ (ONE p ltac:(lia) ltac:(assumption) ltac:(assumption))
               (recv_ok oCHECK_SCOPE qScope p id false (CP p ltac:(lia) ltac:(assumption)) ltac:(assumption)
                 (fun _ _ _ _ _ _ _ => eq_refl))).
    + destruct l as [|p l]; [exact (DEF _)|]. cbn [map sum fold_right] in L. fold (sum (map nsize l)) in L.
      cbn [forallb] in *.
      repeat match goal with H : _ && _ = true |- _ => apply andb_prop in H as [? H] end.
      apply (checked_weaken _ (fun c => ok_defined (ok blk c true) p &&
        (forallb (ok_defined (ok blk c true)) l && ok blk c true p))).
      { intros c. cbn [ok_defined]. rewrite !andb_true_iff. tauto. }
      exact (checked_then _ _ _ _ _ _ (ONE p ltac:(lia) ltac:(assumption) ltac:(assumption))
               (checked_then _ _ _ _ _ _ (LST l (Z.to_nat nargs) ltac:(lia) ltac:(assumption) ltac:(assumption))
                 (HAS p id true ltac:(lia) ltac:(assumption) ltac:(assumption)))).
  - (* operators *)
    assert (X : checked (fun st => cthen (check_defined cx (gen cx) d n1 st) (fun st =>
          cthen (check_defined cx (gen cx) d n2 st) (fun st =>
          cthen (check_recv (gen cx n1) false st) (check_inst (I32 oCHECK_METHOD (dn_bin d op))))))
        (fun c => ok_defined (ok blk c true) n1 && (ok_defined (ok blk c true) n2 && ok blk c true n1))
        (fun f s => dand (defined_in P (EV f) d n1 s) (fun s => dand (defined_in P (EV f) d n2 s) (fun s =>
           dvalue (EV f n1 s) (fun v s => dask (p_defd P (qMethod v (dn_bin d op)) (s_w s)) s))))).
    { exact (checked_then _ _ _ _ _ _ (ONE n1 ltac:(lia) ltac:(assumption) ltac:(assumption))
               (checked_then _ _ _ _ _ _ (ONE n2 ltac:(lia) ltac:(assumption) ltac:(assumption))
                 (HAS n1 (dn_bin d op) false ltac:(lia) ltac:(assumption) (names_bin _ op ND)))). }
    destruct op.
    all: try (apply (checked_weaken _ (fun c => ok_defined (ok blk c true) n1 &&
      (ok_defined (ok blk c true) n2 && ok blk c true n1)));
      [intros c; cbn [ok_defined]; rewrite !andb_true_iff; tauto|exact X]).
    all: intros st l e st' B; destruct (X st l e st' B) as [R F]; (split; [|exact F]);
      (eapply run_weaken; [exact R|reflexivity|]);
      intros G E t _ HG HT f c h tgt dest s env stk OK; discriminate OK.
  - exact (checked_then _ _ _ _ _ _ (ONE n ltac:(lia) ltac:(assumption) ltac:(assumption))
             (HAS n (dn_un d op) false ltac:(lia) ltac:(assumption) (names_un _ op ND))).
  - apply (checked_weaken _ (fun _ => forallb no_local [n1])).
    { intros c X. cbn [forallb]. rewrite andb_true_r. exact X. }
    exact (targets_checked [n1]).
  - apply (checked_weaken _ (fun _ => forallb no_local [n1])).
    { intros c X. cbn [forallb]. rewrite andb_true_r. exact X. }
    exact (targets_checked [n1]).
  - exact (targets_checked lhs).
Qed.

Lemma answer_ok f e : ok_defined f e = true -> defined_str e = answer e.
Proof.
  destruct e; try reflexivity; cbn [ok_defined].
  all: try (intros _; reflexivity).
  all: intros H; match goal with
       | |- context [NBool ?b] => destruct b
       | |- context [NOp ?k _] => destruct k
       | |- context [NBin ?o _ _] => destruct o
       end; try reflexivity; discriminate H.
Qed.

Lemma tgt_ok_keep exs d E : tgt_ok E -> tgt_ok (keep_env exs d E).
Proof. intros H. exact H. Qed.
Lemma ctx_ok_keep il er c exs d E : ctx_ok il er c E -> ctx_ok il er c (keep_env exs d E).
Proof. intros []. constructor; assumption. Qed.

Lemma defined_ok d e k : (nsize e <= k)%nat -> names32 d = true -> sized cx e = true -> in_scope cx e = true ->
  (forall m, (nsize m <= k)%nat -> sized cx m = true -> compiled m) ->
  compiled (NDefined e d).
Proof.
  intros L ND SZ IS CP u st st' H. cbn [gen] in H. ub H. okinv H.
  unfold gen_defined in B.
  destruct (check_defined cx (gen cx) d e st) as [[[labels exs] st1]| |] eqn:B1; cbn [rbind] in B; try discriminate B.
  destruct (check_all d k ND CP k e L (le_n k) SZ IS _ _ _ _ B1) as [R1 F1].
  destruct (gen_const_val (dn_str d (defined_str e)) st1) as [st2| |] eqn:B2; cbn [rbind] in B; try discriminate B.
  destruct (run_const blk _ _ _ B2) as [R2 LC]. cbv zeta in B.
  pose proof (run_jump blk (JJ oJMP) st2) as R3. cbn [jinst] in R3. cbv zeta in R3.
  set (st3 := emit (IJ oJMP 0) st2) in *. set (pos := cur st3) in *.
  facts R1. facts R2. facts R3.
  pose proof (run_trans _ _ _ _ _ _ _ _ R1 (run_trans _ _ _ _ _ _ _ _ R2 R3)) as R.
  apply (run_extabs _ _ _ _ pos _ exs) in R.
  2: { eapply Forall_impl; [|exact F1]. cbv beta. intros p ?. unfold st3. rewrite cur_emit. cbn. lia. }
  set (st4 := set_extab _ st3) in *.
  assert (C34 : cur st4 = cur st3) by reflexivity.
  pose proof (run_holes _ _ _ _ _ R1) as HO1.
  cbn [app] in R.
  pose proof (run_emit blk (I0 oPOP) st4) as R4. facts R. facts R4.
  set (st5 := emit (I0 oPOP) st4) in *.
  destruct (wcurs labels st5) as [st6| |] eqn:B3; cbn [rbind] in B; try discriminate B.
  pose proof (run_trans _ _ _ _ _ _ _ _ R R4) as R5. rewrite app_nil_r in R5.
  destruct (run_patches blk labels [pos] _ _ _ _ R5 B3) as (R6 & CU & _). clear R5. facts R6.
  pose proof (run_emit blk (I0 oPUSH_NIL) st6) as R7. facts R7.
  set (st7 := emit (I0 oPUSH_NIL) st6) in *.
  pose proof (run_len _ _ _ _ _ (run_trans _ _ _ _ _ _ _ _ R6 R7)) as R8. cbn [app] in R8.
  destruct (run_patch blk _ pos (cur st7) st st7 st0 _ R8 B) as (R9 & CU2 & _).
  pose proof (run_popped P cx u st0) as RP. fold (popped u st0).
  eapply run_weaken; [exact (run_trans _ _ _ _ _ _ _ _ R9 RP)|reflexivity|]. cbv beta.
  intros G E t ((LEN & ((M1 & (M2 & N2) & M3) & M4) & M7) & MP) HG HT f c h s env stk OK CO CV ER CL.
  pose proof (g_short _ HG) as GS. pose proof (cur_nonneg st3).
  assert (UP : upds (upd t pos (cur st7)) (rev labels) (cur st5) pos = cur st7).
  { rewrite upds_notin; [apply upd_same|]. intros I. apply in_rev in I. apply HO1 in I.
    unfold pos, st3 in I. rewrite cur_emit in I. cbn in I. lia. }
  rewrite UP in M3. cbn [eval]. unfold eval_defined.
  pose proof (M1 HG (tgt_ok_keep _ _ _ HT) f c h (cur st5) pos s env stk OK (ctx_ok_keep _ _ _ _ _ _ CO)) as D.
  assert (D' : dmeet G f (cur st5) (mkvst (cur st) stk env (s_w s)) stk (cur st1) (defined_in P (EV f) d e s)).
  { apply D; auto.
    - intros p I. apply upds_in. apply -> in_rev. exact I.
    - pose proof (cur_nonneg st5). lia.
    - intros pc Hpc. unfold keep_env. cbn [set_hf r_hf]. destruct (in_exs exs pc); [reflexivity|].
      apply CV. facts RP. rewrite CU2 in *. lia. }
  clear D. destruct (defined_in P (EV f) d e s) as [s1|s1|o]; cbn [dmeet] in D'.
  - destruct D' as (env1 & S1 & ER1). eapply reach_star; [exact S1|].
    pose proof (answer_ok _ _ OK) as AN. rewrite AN in N2.
    destruct (p_dup P (dn_str d (answer e)) (s_w s1)) as [x w] eqn:DU.
    pose proof (zlength_nonneg (consts st1)).
    eapply reach_star; [eapply step_next; [exact M2|cbn; unfold u32_ok; lia|]|].
    { cbn [exec step32 v_stk v_env v_w]. unfold zlength. rewrite Nat2Z.id, N2, DU. reflexivity. }
    eapply reach_star; [eapply step_next; [exact M3|apply (jump_fits G); auto; unfold pos; lia|reflexivity]|].
    cbn [v_stk v_env v_w]. replace (pos + (cur st7 - pos)) with (cur st0) by lia.
    eapply reach_star; [apply MP|].
    apply reach_val; [reflexivity|reflexivity|apply erel_w, ER1].
  - destruct D' as (env1 & S1 & ER1). eapply reach_star; [exact S1|]. rewrite <- CU.
    eapply reach_next; [exact M7|exact I|reflexivity|]. cbn [v_stk v_env v_w]. rewrite <- CU2.
    eapply reach_star; [apply MP|].
    apply reach_val; [reflexivity|reflexivity|exact ER1].
  - destruct o; try contradiction D'; [exact D'|exact I].
Qed.
End Compile.
