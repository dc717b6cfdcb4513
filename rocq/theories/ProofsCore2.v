(** Executions of the interpreter over generated code, and how they are put
    together to match the meaning of a program. *)
From Coq Require Import ZArith List Bool Lia Permutation.
From Verif Require Import Base ModelValue ModelInst ProofsInst ModelCodegen ModelVM
  SpecCore ProofsCore1.
Import ListNotations.
Open Scope Z_scope.

Section Exec.
Context {W : Type}.
Variable P : prims W.
Variable cx : sctx.

Definition blk : bool := is_block cx.

(** ** Several steps *)
Inductive steps (G : prog) : nat -> vst W -> vst W -> Prop :=
| steps_O a : steps G O a a
| steps_S n a b c : vstep P G a = SNext b -> steps G n b c -> steps G (S n) a c.

Definition star G a b := exists n, steps G n a b.
Definition plus G a b := exists n, steps G (S n) a b.
Definition halts G a h env w := exists b, star G a b /\ vstep P G b = SHalt h env w.
Definition runs G (f : nat) a := exists n b, (f <= n)%nat /\ steps G n a b.

Lemma steps_app G n a b : steps G n a b -> forall m c, steps G m b c -> steps G (n + m) a c.
Proof. induction 1; intros m z Hz; cbn; [exact Hz|]. econstructor; eauto. Qed.
Lemma star_refl G a : star G a a.
Proof. exists O. constructor. Qed.
Lemma star_trans G a b c : star G a b -> star G b c -> star G a c.
Proof. intros [n H] [m K]. exists (n + m)%nat. eapply steps_app; eassumption. Qed.
Lemma star_step G a b c : vstep P G a = SNext b -> star G b c -> star G a c.
Proof. intros H [m K]. exists (S m). econstructor; eassumption. Qed.
Lemma plus_star G a b c : star G a b -> plus G b c -> plus G a c.
Proof.
  intros [n H] [m K]. exists (n + m)%nat. rewrite <- (Nat.add_succ_r n m).
  eapply steps_app; eassumption.
Qed.
Lemma plus_step G a b : vstep P G a = SNext b -> plus G a b.
Proof. intros H. exists O. econstructor; [exact H|constructor]. Qed.
Lemma star_plus G a b : star G a b -> a <> b -> plus G a b.
Proof.
  intros [[|n] H] N; [|exists n; exact H]. inversion H; subst. contradiction.
Qed.
Lemma plus_runs G a b k : plus G a b -> runs G k b -> runs G (S k) a.
Proof.
  intros [n H] (m & c & L & K). exists (S n + m)%nat, c. split; [lia|].
  eapply steps_app; eassumption.
Qed.
Lemma plus_trans_star G a b c : plus G a b -> star G b c -> plus G a c.
Proof.
  intros [n H] [m K]. exists (n + m)%nat. exact (steps_app G _ _ _ H _ _ K).
Qed.
Lemma star_of_plus G a b : plus G a b -> star G a b.
Proof. intros [n H]. exists (S n). exact H. Qed.
Lemma halts_star G a b h env w : star G a b -> halts G b h env w -> halts G a h env w.
Proof. intros S (c & T & U). exists c. split; [eapply star_trans; eassumption|exact U]. Qed.
Lemma runs_star G f a b : star G a b -> runs G f b -> runs G f a.
Proof.
  intros [n H] (m & c & L & K). exists (n + m)%nat, c. split; [lia|].
  eapply steps_app; eassumption.
Qed.
Lemma runs_le G f f' a : runs G f a -> (f' <= f)%nat -> runs G f' a.
Proof. intros (n & b & L & K) H. exists n, b. split; [lia|exact K]. Qed.

(** ** Agreement of the frame with the variables of the program *)
Definition erel (s : sst (W:=W)) (env : list (list value)) : Prop :=
  forall x o i, get_local_var cx x = Some (o, i) -> env_get env o i = Some (s_rho s x).

(** Different names have different slots, and slots can be encoded. *)
Definition scoped : Prop :=
  (forall x y o i, get_local_var cx x = Some (o, i) -> get_local_var cx y = Some (o, i) -> x = y)
  /\ (forall x o i, get_local_var cx x = Some (o, i) -> 0 <= o < 2 ^ 32 /\ 0 <= i < 2 ^ 32).

Lemma erel_w s env w : erel s env -> erel (set_w w s) env.
Proof. intros H x o i Q. exact (H x o i Q). Qed.

Lemma erel_get s env x o i : erel s env -> get_local_var cx x = Some (o, i) ->
  env_get env o i = Some (s_rho s x).
Proof. intros H. apply H. Qed.

Lemma env_get_upd env o i o' i' v l :
  nth_error env (Z.to_nat o) = Some l -> 0 <= o -> 0 <= i -> 0 <= o' -> 0 <= i' ->
  (Z.to_nat i < length l)%nat ->
  env_get (upd_nth (Z.to_nat o) (upd_nth (Z.to_nat i) v l) env) o' i'
  = if (o' =? o) && (i' =? i) then Some v else env_get env o' i'.
Proof.
  intros N Ho Hi Ho' Hi' Hl. unfold env_get.
  replace ((o' <? 0) || (i' <? 0)) with false by lia.
  destruct (Z.eqb_spec o' o) as [->|NO]; cbn [andb].
  - rewrite upd_nth_same by (apply nth_error_Some; congruence). rewrite N.
    destruct (Z.eqb_spec i' i) as [->|NI].
    + apply upd_nth_same. exact Hl.
    + apply upd_nth_other. lia.
  - rewrite upd_nth_other by lia. reflexivity.
Qed.

Lemma erel_set s env x o i v : scoped -> erel s env -> get_local_var cx x = Some (o, i) ->
  exists env', env_set env o i v = Some env' /\ erel (set_var x v s) env'.
Proof.
  intros [SC SB] H Q. pose proof (H x o i Q) as G. destruct (SB _ _ _ Q) as [Ho Hi].
  unfold env_set. rewrite G.
  assert (G' := G). unfold env_get in G'.
  destruct ((o <? 0) || (i <? 0)); [discriminate|].
  destruct (nth_error env (Z.to_nat o)) as [l|] eqn:N; [|discriminate].
  eexists. split; [reflexivity|]. intros y o' i' Q'. destruct (SB _ _ _ Q') as [Ho' Hi'].
  rewrite env_get_upd with (l := l); try lia; auto.
  2: { apply nth_error_Some. congruence. }
  cbn [set_var s_rho].
  destruct (Z.eqb_spec y x) as [->|NE].
  - assert (Q2 : (o', i') = (o, i)) by congruence. injection Q2 as -> ->.
    rewrite !Z.eqb_refl. reflexivity.
  - destruct (Z.eqb_spec o' o) as [->|]; destruct (Z.eqb_spec i' i) as [->|]; cbn [andb];
      try (apply (H y); exact Q'). exfalso. apply NE. eapply SC; eassumption.
Qed.

(** ** Programs that fit their tables *)
Record good (G : prog) : Prop := {
  g_short : zlength (pr_code G) < 2 ^ 31;
  g_m1 : zlength (pr_map G) <= 2 ^ 32;
  g_m2 : zlength (pr_map2 G) <= 2 ^ 32
}.

Definition tgt_ok (E : renv) : Prop :=
  0 <= r_brk E < 2 ^ 31 /\ 0 <= r_nxt E < 2 ^ 31 /\ -1 <= rt_of E < 2 ^ 31 /\
  forall t, r_ret E = Some t -> t = rt_of E.

Definition covered (E : renv) (h : option (Z * bool)) (lo hi : Z) : Prop :=
  forall pc, lo < pc <= hi -> r_hf E pc = h.

Lemma covered_sub E h lo hi lo' hi' : covered E h lo hi -> lo <= lo' -> hi' <= hi ->
  covered E h lo' hi'.
Proof. intros H A B pc Hp. apply H. lia. Qed.

Lemma rstep_at G pos i nxt stk env w :
  at_inst G pos i -> nxt = pos + zlength (encode i) -> fits i ->
  rstep P G (mkvst pos stk env w) = exec P G i pos nxt (mkvst pos stk env w).
Proof.
  intros (pre & post & E & L) N F. unfold rstep. cbn [v_pc].
  pose proof (zlength_nonneg pre). destruct (Z.ltb_spec pos 0); [lia|].
  rewrite E, <- L. unfold zlength. rewrite Nat2Z.id, skipn_app, skipn_all, Nat.sub_diag.
  cbn [app skipn]. rewrite decode_encode by exact F. rewrite N, <- L. reflexivity.
Qed.

(** ** Matching an outcome *)
Section Reach.
Variable G : prog.
Variable E : renv.
Variable c : fctx.
Variable h : option (Z * bool).
Variable f : nat.

Definition fin_ret (st : vst W) (v : value) (s : sst) : Prop :=
  exists env, halts G st (if blk then HMRet v else HRet v) env (s_w s) /\ erel s env.

(** [stops st stk o]: from [st] the interpreter leaves the way the outcome [o],
    which is no value, says.  [stk] is the stack at the start of the innermost
    loop. *)
Definition stops (st : vst W) (stk : list value) (o : outcome) : Prop :=
  match o with
  | Val _ _ => False
  | Brk v s =>
      match f_loop c with
      | Lfree => exists env, star G st (mkvst (r_brk E) (v :: stk) env (s_w s)) /\ erel s env
      | Lpend => False
      | Lout => blk = true /\ exists env, halts G st (HBreak v) env (s_w s) /\ erel s env
      end
  | Nxt v s =>
      match f_loop c with
      | Lfree => exists env, plus G st (mkvst (r_nxt E) stk env (s_w s)) /\ erel s env
      | Lpend => False
      | Lout => blk = true /\ exists env, halts G st (HRet v) env (s_w s) /\ erel s env
      end
  | Ret d v s =>
      if d then fin_ret st v s
      else match r_ret E with
           | Some t => exists env junk, star G st (mkvst t (v :: junk) env (s_w s)) /\ erel s env
           | None => fin_ret st v s
           end
  | Exn v s =>
      match h with
      | Some (d, false) => exists env, star G st (mkvst d [v] env (s_w s)) /\ erel s env
      | Some (_, true) => True
      | None => exists env, halts G st (HExn v) env (s_w s) /\ erel s env
      end
  | Fuel => runs G f st
  | Out => True
  end.

Definition reach (st : vst W) (stk : list value) (o : outcome)
  (K : value -> Z * list value) : Prop :=
  match o with
  | Val v s => exists env, star G st (mkvst (fst (K v)) (snd (K v)) env (s_w s)) /\ erel s env
  | o => stops st stk o
  end.

Definition reachl (st : vst W) (stk : list value) (r : lres)
  (K : list value -> Z * list value) : Prop :=
  match r with
  | LVals vs s => exists env, star G st (mkvst (fst (K vs)) (snd (K vs)) env (s_w s)) /\ erel s env
  | LStop o => stops st stk o
  end.

Lemma stops_star st st' stk o : star G st st' -> stops st' stk o -> stops st stk o.
Proof.
  intros S. destruct o as [v s|v s|v s|d v s|v s| |]; cbn [stops]; auto.
  - destruct (f_loop c); auto.
    + intros (env & T & R). exists env. split; [eapply star_trans; eassumption|exact R].
    + intros (B & env & T & R). split; [exact B|]. exists env.
      split; [eapply halts_star; eassumption|exact R].
  - destruct (f_loop c); auto.
    + intros (env & T & R). exists env. split; [eapply plus_star; eassumption|exact R].
    + intros (B & env & T & R). split; [exact B|]. exists env.
      split; [eapply halts_star; eassumption|exact R].
  - assert (FR : fin_ret st' v s -> fin_ret st v s).
    { intros (env & T & R). exists env. split; [eapply halts_star; eassumption|exact R]. }
    destruct d; auto. destruct (r_ret E); auto.
    intros (env & junk & T & R). exists env, junk.
    split; [eapply star_trans; eassumption|exact R].
  - destruct h as [[d []]|]; [auto| |].
    + intros (env & T & R). exists env. split; [eapply star_trans; eassumption|exact R].
    + intros (env & T & R). exists env. split; [eapply halts_star; eassumption|exact R].
  - apply runs_star, S.
Qed.

Lemma reach_star st st' stk o K : star G st st' -> reach st' stk o K -> reach st stk o K.
Proof.
  intros S. destruct o as [v s|v s|v s|d v s|v s| |]; cbn [reach];
    try (apply stops_star, S).
  intros (env & T & R). exists env. split; [eapply star_trans; eassumption|exact R].
Qed.

Lemma reachl_star st st' stk r K : star G st st' -> reachl st' stk r K -> reachl st stk r K.
Proof.
  intros S. destruct r as [vs s|o]; cbn [reachl]; [|apply stops_star, S].
  intros (env & T & R). exists env. split; [eapply star_trans; eassumption|exact R].
Qed.

Lemma stops_reach st stk o K : stops st stk o -> reach st stk o K.
Proof. destruct o; cbn; auto. intros []. Qed.

Lemma reach_val pos stk' env w s v stk K : K v = (pos, stk') -> w = s_w s -> erel s env ->
  reach (mkvst pos stk' env w) stk (Val v s) K.
Proof. intros EK -> R. exists env. rewrite EK. split; [apply star_refl|exact R]. Qed.

(** one instruction *)
Lemma step_plus pos i nxt k env w st' : inst_at G E pos i nxt -> fits i ->
  exec P G i pos nxt (mkvst pos k env w) = SNext st' -> plus G (mkvst pos k env w) st'.
Proof.
  intros [A N _ _ _] F X. apply plus_step. unfold vstep.
  rewrite (rstep_at _ _ _ nxt) by eassumption. rewrite X. reflexivity.
Qed.
Lemma step_next pos i nxt k env w st' : inst_at G E pos i nxt -> fits i ->
  exec P G i pos nxt (mkvst pos k env w) = SNext st' -> star G (mkvst pos k env w) st'.
Proof.
  intros [A N _ _ _] F X. eapply star_step; [|apply star_refl]. unfold vstep.
  rewrite (rstep_at _ _ _ nxt) by eassumption. rewrite X. reflexivity.
Qed.

Lemma step_halt pos i nxt k env w x env' w' : inst_at G E pos i nxt -> fits i ->
  exec P G i pos nxt (mkvst pos k env w) = SHalt x env' w' ->
  halts G (mkvst pos k env w) x env' w'.
Proof.
  intros [A N _ _ _] F X. eexists. split; [apply star_refl|]. unfold vstep.
  rewrite (rstep_at _ _ _ nxt) by eassumption. rewrite X. reflexivity.
Qed.

Lemma raise_at st pc v k env s :
  rstep P G st = SRaise v pc k env (s_w s) -> find_ex (pr_ex G) pc = h -> erel s env ->
  forall stk, stops st stk (Exn v s).
Proof.
  intros X FX R stk. cbn [stops]. destruct h as [[d []]|]; [exact I| |].
  - exists env. split; [|exact R]. eapply star_step; [|apply star_refl].
    unfold vstep. rewrite X, FX. reflexivity.
  - exists env. split; [|exact R]. eexists. split; [apply star_refl|].
    unfold vstep. rewrite X, FX. reflexivity.
Qed.

Lemma step_raise pos i nxt k env w pc v k' env' s : inst_at G E pos i nxt ->
  covered E h pos nxt -> fits i ->
  exec P G i pos nxt (mkvst pos k env w) = SRaise v pc k' env' (s_w s) ->
  pos < pc <= nxt -> erel s env' ->
  forall stk, stops (mkvst pos k env w) stk (Exn v s).
Proof.
  intros [A N X _ _] C F Y B R stk. eapply raise_at; [| |exact R].
  - rewrite (rstep_at _ _ _ nxt) by eassumption. exact Y.
  - rewrite X by exact B. apply C, B.
Qed.

Lemma reach_next pos i nxt k env w st' stk o K : inst_at G E pos i nxt -> fits i ->
  exec P G i pos nxt (mkvst pos k env w) = SNext st' ->
  reach st' stk o K -> reach (mkvst pos k env w) stk o K.
Proof. intros A F X. apply reach_star. eapply step_next; eassumption. Qed.

Lemma inst_lt pos i nxt : inst_at G E pos i nxt -> pos < nxt.
Proof. intros [_ -> _ _ _]. pose proof (encode_pos i). lia. Qed.

Lemma reach_prim pos i nxt k env s t r fn stk K : inst_at G E pos i nxt ->
  covered E h pos nxt -> fits i ->
  exec P G i pos nxt (mkvst pos k env (s_w s)) = push nxt t env r ->
  erel s env ->
  (forall v w, r = POk v w -> erel (set_w w s) env ->
     reach (mkvst nxt (v :: t) env w) stk (fn v (set_w w s)) K) ->
  reach (mkvst pos k env (s_w s)) stk (bindv (prim r s) fn) K.
Proof.
  intros A C F X R H. pose proof (inst_lt _ _ _ A). destruct r as [v w|e w]; cbn [prim bindv].
  - eapply reach_next; [exact A|exact F|rewrite X; reflexivity|].
    apply H; [reflexivity|apply erel_w, R].
  - apply stops_reach. eapply step_raise; [exact A|exact C|exact F|rewrite X; reflexivity|lia|].
    apply erel_w, R.
Qed.

Lemma bindv_Val (o : outcome (W:=W)) : bindv o Val = o.
Proof. destruct o; reflexivity. Qed.

Lemma reach_K st stk o K K' : (forall v, K v = K' v) -> reach st stk o K -> reach st stk o K'.
Proof.
  intros H. destruct o as [v s|v s|v s|d v s|v s| |]; cbn [reach]; auto.
  rewrite H. auto.
Qed.
End Reach.

(** ** Composition *)
Lemma stops_pend G E c h f st stk stk' o :
  stops G E (pend c) h f st stk' o -> stops G E c h f st stk o.
Proof.
  destruct o as [v s|v s|v s|d v s|v s| |]; cbn [stops]; auto;
    unfold pend; cbn [f_loop]; destruct (f_loop c); auto; intros [].
Qed.

Lemma stops_any G E c h f st stk stk' o :
  stops G E (pend c) h f st stk' o -> stops G E (pend c) h f st stk o.
Proof.
  destruct o as [v s|v s|v s|d v s|v s| |]; cbn [stops]; auto;
    unfold pend; cbn [f_loop]; destruct (f_loop c); auto.
Qed.

Lemma reach_bind G E c h f st stk o fn K1 K :
  reach G E c h f st stk o K1 ->
  (forall v s env, o = Val v s -> erel s env ->
     reach G E c h f (mkvst (fst (K1 v)) (snd (K1 v)) env (s_w s)) stk (fn v s) K) ->
  reach G E c h f st stk (bindv o fn) K.
Proof.
  intros R H. destruct o as [v s|v s|v s|d v s|v s| |]; cbn [bindv reach] in *; try exact R.
  destruct R as (env & S & Q). eapply reach_star; [exact S|]. apply H; auto.
Qed.

Lemma reach_bind_pend G E c h f st stk stk' o fn K1 K :
  reach G E (pend c) h f st stk' o K1 ->
  (forall v s env, o = Val v s -> erel s env ->
     reach G E c h f (mkvst (fst (K1 v)) (snd (K1 v)) env (s_w s)) stk (fn v s) K) ->
  reach G E c h f st stk (bindv o fn) K.
Proof.
  intros R H. destruct o as [v s|v s|v s|d v s|v s| |]; cbn [bindv] in *;
    try (apply stops_reach; eapply (stops_pend _ _ _ _ _ _ _ stk'); exact R).
  destruct R as (env & S & Q). eapply reach_star; [exact S|]. apply H; auto.
Qed.

Lemma reachl_bind G E c h f st stk r fn K1 K :
  reachl G E c h f st stk r K1 ->
  (forall vs s env, r = LVals vs s -> erel s env ->
     reach G E c h f (mkvst (fst (K1 vs)) (snd (K1 vs)) env (s_w s)) stk (fn vs s) K) ->
  reach G E c h f st stk (bindl r fn) K.
Proof.
  intros R H. destruct r as [vs s|o]; cbn [bindl reachl] in *; [|apply stops_reach, R].
  destruct R as (env & S & Q). eapply reach_star; [exact S|]. apply H; auto.
Qed.

Lemma reachl_pend G E c h f st stk stk' r K :
  reachl G E (pend c) h f st stk' r K -> reachl G E c h f st stk r K.
Proof. destruct r; cbn [reachl]; auto. apply stops_pend. Qed.

Lemma reach_pend G E c h f st stk stk' o K :
  reach G E (pend c) h f st stk' o K -> reach G E c h f st stk o K.
Proof.
  destruct o as [v s|v s|v s|d v s|v s| |]; cbn [reach]; auto; apply stops_pend.
Qed.

(** ** The statement about a tree *)
Variable setter : Z -> Z.
Variable std : Z.

Definition is_out (c : fctx) : bool := match f_loop c with Lout => true | _ => false end.
Definition is_some {A} (o : option A) : bool := match o with Some _ => true | None => false end.

(** [il]: the generator is in a loop; [er]: the innermost begin has an ensure
    clause.  What context [c] says must agree. *)
Record ctx_ok (il er : bool) (c : fctx) (E : renv) : Prop := {
  co_loop : il = negb (is_out c);
  co_ret : er = is_some (r_ret E)
}.

Lemma ctx_pend il er c E : ctx_ok il er c E -> ctx_ok il er (pend c) E.
Proof. intros [A B]. constructor; auto. rewrite A. destruct c as [[] ?]; reflexivity. Qed.

(** [okc]: the contexts the statement covers; [ev]: the meaning; [K]: where the
    interpreter arrives with a value. *)
Definition sem (il er : bool) (okc : fctx -> bool) (ev : nat -> sst (W:=W) -> outcome)
  (lo hi : Z) (K : value -> list value -> Z * list value) (G : prog) (E : renv) : Prop :=
  forall f c h s env stk,
    okc c = true -> ctx_ok il er c E -> covered E h lo hi -> erel s env ->
    (f_clean c = true -> stk = []) ->
    reach G E c h f (mkvst lo stk env (s_w s)) stk (ev f s) (fun v => K v stk).

Definition used (hi : Z) (u : bool) (v : value) (stk : list value) : Z * list value :=
  (hi, if u then v :: stk else stk).

(** [g] generates code that means [ev]. *)
Definition cgen (okc : fctx -> bool -> bool) (ev : nat -> sst (W:=W) -> outcome)
  (g : bool -> cg -> res cg) : Prop :=
  forall u st st', g u st = Ok st' ->
  run blk [] st st' (fun G E t => good G -> tgt_ok E ->
    sem (in_loop st) (ens_top st) (fun c => okc c u) ev (cur st) (cur st')
        (used (cur st') u) G E).

Definition compiled (n : node) : Prop :=
  cgen (fun c u => ok blk c u n) (fun f => eval P setter std f n) (gen cx n).
End Exec.
