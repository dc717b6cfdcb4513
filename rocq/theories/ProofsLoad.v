(* Lemmas on require and load. *)
From Verif Require Import Base ModelText ModelPath SpecPath ProofsPath ModelLoad SpecLoad.

Lemma chars_eqb_spec : forall a b, chars_eqb a b = true <-> a = b.
Proof.
  induction a as [|x a IH]; destruct b as [|y b]; cbn; split; try congruence; intro H.
  - apply andb_true_iff in H as [H1 H2]. apply Z.eqb_eq in H1. apply IH in H2. congruence.
  - injection H as -> ->. rewrite Z.eqb_refl. apply IH. reflexivity.
Qed.
Lemma place_eqb_spec : forall a b, place_eqb a b = true <-> a = b.
Proof.
  induction a as [|x a IH]; destruct b as [|y b]; cbn; split; try congruence; intro H.
  - apply andb_true_iff in H as [H1 H2]. apply chars_eqb_spec in H1. apply IH in H2. congruence.
  - injection H as -> ->. rewrite (proj2 (chars_eqb_spec y y) eq_refl). apply IH. reflexivity.
Qed.
Lemma known_spec : forall p l, existsb (place_eqb p) l = true <-> In p l.
Proof.
  intros p l. rewrite existsb_exists. split.
  - intros (x & Hx & E). apply place_eqb_spec in E. subst. exact Hx.
  - intro H. exists p. split; [exact H | apply place_eqb_spec; reflexivity].
Qed.
Lemma unknown_spec : forall p l, existsb (place_eqb p) l = false <-> ~ In p l.
Proof.
  intros p l. rewrite <- known_spec. destruct (existsb (place_eqb p) l); split; congruence.
Qed.
Lemma known_last : forall p l, existsb (place_eqb p) (l ++ [p]) = true.
Proof. intros p l. apply known_spec. apply in_or_app. right. left. reflexivity. Qed.
Lemma set_files_id : forall s, set_files s (files s) = s.
Proof. intros [f p r e]. reflexivity. Qed.

(* ---- what a call does ---- *)
Definition executor := list chars -> list act -> state -> option (ans unit).
Definition finish (r : option (ans unit)) : option (ans bool) :=
  match r with Some (s, r) => Some (s, answer r) | None => None end.
(* nothing is run, or one program is started *)
Inductive shape (parse : chars -> option (list act)) (s : state) (F : executor -> option (ans bool)) : Prop :=
| shape_false : (forall e, F e = Some (s, Ok false)) -> shape parse s F
| shape_err s2 k : s2 = s \/ (exists p, ~ In p (files s) /\ s2 = set_files s (files s ++ [p])) ->
    (forall e, F e = Some (s2, Err k)) -> shape parse s F
| shape_run place t acts : ~ In place (files s) -> node_at (root s) place = Some (FFile t) -> parse t = Some acts ->
    (forall e, F e = finish (e place acts (started s (files s ++ [place]) place))) -> shape parse s F.

Lemma load_exec_shape : forall cwd parse s p, shape parse s (fun e => load_exec cwd parse e s p false).
Proof.
  intros cwd parse s p. unfold load_exec. destruct (os_resolve (root s) cwd p) as [place|].
  2:{ eapply shape_err; [left; reflexivity | reflexivity]. }
  unfold add_source_file. destruct (existsb (place_eqb place) (files s)) eqn:K.
  - apply shape_false. intro e. reflexivity.
  - apply unknown_spec in K. cbn [negb andb]. unfold load_file, load_text. cbn [root set_files].
    destruct (node_at (root s) place) as [[t|es]|] eqn:N.
    2,3: eapply shape_err; [right; exists place; split; [exact K | reflexivity] | reflexivity].
    unfold add_source_file. cbn [files set_files].
    rewrite (known_last place (files s)).
    cbn [fst]. unfold run_file. destruct (parse t) as [acts|] eqn:P.
    + eapply shape_run; [exact K | exact N | exact P |]. intro e. unfold started, happens, set_files. cbn.
      destruct (e place acts _) as [[s2 [[]|k|]]|]; reflexivity.
    + eapply shape_err; [right; exists place; split; [exact K | reflexivity] | reflexivity].
Qed.
Lemma require_in_shape : forall cwd parse dirs s name, shape parse s (fun e => require_in cwd parse e s dirs name).
Proof.
  intros cwd parse. induction dirs as [|d dirs IH]; intros s name; cbn [require_in].
  - eapply shape_err; [left; reflexivity | reflexivity].
  - destruct d as [d|l|]; cbn [expect_string];
      try (eapply shape_err; [left; reflexivity | reflexivity]).
    cbv zeta. destruct (exists_at (root s) cwd (set_extension (push d name) rb)); [apply load_exec_shape|].
    destruct (exists_at _ _ _); [apply shape_false; reflexivity | apply IH].
Qed.
Lemma require_search_shape : forall cwd parse s name, shape parse s (fun e => require_search cwd parse e s name).
Proof.
  intros cwd parse s name. unfold require_search. destruct (load_path s) as [[d|l|]|].
  - eapply shape_err; [left; reflexivity | reflexivity].
  - apply require_in_shape.
  - eapply shape_err; [left; reflexivity | reflexivity].
  - apply shape_false. reflexivity.
Qed.
Lemma require_name_eq : forall cwd parse e s name, require_name cwd parse e s name =
  if match name with 47 :: _ => true | _ => false end then
    if exists_at (root s) cwd (set_extension name rb) then load_exec cwd parse e s (set_extension name rb) false
    else if exists_at (root s) cwd (set_extension (set_extension name rb) so) then Some (s, Ok false)
    else require_search cwd parse e s name
  else require_search cwd parse e s name.
Proof.
  intros. destruct name as [|c name]; [reflexivity|]. unfold require_name.
  destruct c as [|c|c]; try reflexivity. repeat (destruct c as [c|c|]; try reflexivity).
Qed.
Lemma shape_ext : forall parse s F G, (forall e, F e = G e) -> shape parse s F -> shape parse s G.
Proof.
  intros parse s F G E H. destruct H as [H | s2 k H1 H2 | place t acts H1 H2 H3 H4].
  - apply shape_false. intro e. rewrite <- E. apply H.
  - eapply shape_err; [exact H1|]. intro e. rewrite <- E. apply H2.
  - eapply shape_run; eauto. intro e. rewrite <- E. apply H4.
Qed.
Lemma require_shape : forall cwd parse s v, shape parse s (fun e => require cwd parse e s v).
Proof.
  intros cwd parse s [name|l|]; cbn [require].
  2,3: eapply shape_err; [left; reflexivity | reflexivity].
  eapply shape_ext; [intro e; symmetry; apply require_name_eq|].
  destruct (match name with 47 :: _ => true | _ => false end); [|apply require_search_shape].
  destruct (exists_at (root s) cwd (set_extension name rb)); [apply load_exec_shape|].
  destruct (exists_at _ _ _); [apply shape_false; reflexivity | apply require_search_shape].
Qed.
Lemma relative_shape : forall cwd parse s here v, shape parse s (fun e => require_relative cwd parse e s here v).
Proof.
  intros cwd parse s here [name|l|]; cbn [require_relative].
  - apply load_exec_shape.
  - eapply shape_err; [left; reflexivity | reflexivity].
  - eapply shape_err; [left; reflexivity | reflexivity].
Qed.

(* load *)
Inductive lshape (parse : chars -> option (list act)) (s : state) (F : executor -> option (ans bool)) : Prop :=
| lshape_err s2 k : s2 = s \/ (exists p, ~ In p (files s) /\ s2 = set_files s (files s ++ [p])) ->
    (forall e, F e = Some (s2, Err k)) -> lshape parse s F
| lshape_run place t acts known : (forall p, In p known <-> p = place \/ In p (files s)) ->
    (forall x, In x (files s) -> In x known) ->
    node_at (root s) place = Some (FFile t) -> parse t = Some acts ->
    (forall e, F e = finish (e place acts (started s known place))) -> lshape parse s F.

Definition known (s : state) (place : list chars) : list (list chars) :=
  if existsb (place_eqb place) (files s) then files s else files s ++ [place].
Lemma load_exec_true : forall cwd parse s p place e, os_resolve (root s) cwd p = Some place ->
  load_exec cwd parse e s p true =
  match node_at (root s) place with
  | Some (FFile t) => match parse t with
                      | Some acts => finish (e place acts (started s (known s place) place))
                      | None => Some (set_files s (known s place), Err OtherErr)
                      end
  | _ => Some (set_files s (known s place), Err OtherErr)
  end.
Proof.
  intros cwd parse s p place e R. unfold load_exec. rewrite R.
  unfold add_source_file, known. cbn [negb andb].
  destruct (existsb (place_eqb place) (files s)) eqn:K; unfold load_file, load_text, add_source_file; cbn [root files set_files].
  - destruct (node_at (root s) place) as [[t|es]|] eqn:N; rewrite ?set_files_id; try reflexivity.
    rewrite K. cbn [fst]. unfold run_file. destruct (parse t) as [acts|]; [|rewrite ?set_files_id; reflexivity].
    unfold started, happens. destruct (e place acts _) as [[s2 [[]|k|]]|]; reflexivity.
  - destruct (node_at (root s) place) as [[t|es]|] eqn:N; try reflexivity.
    rewrite known_last. cbn [fst]. unfold run_file. destruct (parse t) as [acts|]; [|reflexivity].
    unfold started, happens, set_files. cbn. destruct (e place acts _) as [[s2 [[]|k|]]|]; reflexivity.
Qed.
Lemma known_or : forall s place p, In p (known s place) <-> p = place \/ In p (files s).
Proof.
  intros s place p. unfold known. destruct (existsb (place_eqb place) (files s)) eqn:K.
  - apply known_spec in K. split; [auto|]. intros [->|H]; assumption.
  - rewrite in_app_iff. cbn. split; intros [H|H]; auto. destruct H as [H|[]]; auto.
Qed.
Lemma known_cases : forall s place, set_files s (known s place) = s \/
  (exists p, ~ In p (files s) /\ set_files s (known s place) = set_files s (files s ++ [p])).
Proof.
  intros s place. unfold known. destruct (existsb (place_eqb place) (files s)) eqn:K.
  - left. apply set_files_id.
  - right. exists place. split; [apply unknown_spec; exact K | reflexivity].
Qed.
Lemma then_true_finish : forall r, then_true (finish r) = finish r.
Proof. intros [[s [[]|k|]]|]; reflexivity. Qed.
Lemma load_found_shape : forall cwd parse s p, exists_at (root s) cwd p = true ->
  lshape parse s (fun e => then_true (load_exec cwd parse e s p true)).
Proof.
  intros cwd parse s p X. unfold exists_at in X. destruct (os_resolve (root s) cwd p) as [place|] eqn:R; [|discriminate].
  pose proof (fun e => load_exec_true cwd parse s p place e R) as H.
  destruct (node_at (root s) place) as [[t|es]|] eqn:N.
  2,3: eapply lshape_err; [apply (known_cases s place) | intro e; rewrite H; reflexivity].
  destruct (parse t) as [acts|] eqn:P.
  2: eapply lshape_err; [apply (known_cases s place) | intro e; rewrite H; reflexivity].
  eapply lshape_run; [apply (known_or s place) | | exact N | exact P | intro e; rewrite H; apply then_true_finish].
  intros x Hx. apply known_or. auto.
Qed.
Lemma load_in_shape : forall cwd parse dirs s name, lshape parse s (fun e => load_in cwd parse e s dirs name).
Proof.
  intros cwd parse. induction dirs as [|d dirs IH]; intros s name; cbn [load_in].
  - eapply lshape_err; [left; reflexivity | reflexivity].
  - destruct d as [d|l|]; cbn [expect_string];
      try (eapply lshape_err; [left; reflexivity | reflexivity]).
    cbv zeta. destruct (exists_at (root s) cwd (push d name)) eqn:X; [apply load_found_shape; exact X | apply IH].
Qed.
Lemma load_shape : forall cwd parse s v, lshape parse s (fun e => load cwd parse e s v).
Proof.
  intros cwd parse s [name|l|]; cbn [load].
  2,3: eapply lshape_err; [left; reflexivity | reflexivity].
  destruct (exists_at (root s) cwd name) eqn:X; [apply load_found_shape; exact X|].
  destruct (load_path s) as [[d|l|]|]; try (eapply lshape_err; [left; reflexivity | reflexivity]).
  apply load_in_shape.
Qed.

(* ---- more time does not change the outcome ---- *)
Definition below (e1 e2 : executor) : Prop := forall h a s r, e1 h a s = Some r -> e2 h a s = Some r.
Lemma finish_mono : forall a b, (forall r, a = Some r -> b = Some r) -> forall r, finish a = Some r -> finish b = Some r.
Proof.
  intros [x|] b H r E; [|discriminate]. rewrite (H x eq_refl). exact E.
Qed.
Lemma shape_mono : forall parse s F e1 e2 r, shape parse s F -> below e1 e2 -> F e1 = Some r -> F e2 = Some r.
Proof.
  intros parse s F e1 e2 r [H | s2 k H1 H2 | place t acts H1 H2 H3 H4] B E.
  - rewrite H in *. exact E.
  - rewrite H2 in *. exact E.
  - rewrite H4 in *. revert E. apply finish_mono. apply B.
Qed.
Lemma lshape_mono : forall parse s F e1 e2 r, lshape parse s F -> below e1 e2 -> F e1 = Some r -> F e2 = Some r.
Proof.
  intros parse s F e1 e2 r [s2 k H1 H2 | place t acts known H0 H1 H2 H3 H4] B E.
  - rewrite H2 in *. exact E.
  - rewrite H4 in *. revert E. apply finish_mono. apply B.
Qed.
Lemma drop_mono : forall a b, (forall r, a = Some r -> b = Some r) -> forall r, drop a = Some r -> drop b = Some r.
Proof.
  intros [x|] b H r E; [|discriminate]. rewrite (H x eq_refl). exact E.
Qed.
Lemma do_act_mono : forall cwd parse e1 e2 h a s r, below e1 e2 ->
  do_act cwd parse e1 h a s = Some r -> do_act cwd parse e2 h a s = Some r.
Proof.
  intros cwd parse e1 e2 h a s r B. destruct a; cbn [do_act]; try (intro E; exact E).
  - apply drop_mono. intro. apply (shape_mono parse s (fun e => require cwd parse e s v)); [apply require_shape | exact B].
  - apply drop_mono. intro. apply (shape_mono parse s (fun e => require_relative cwd parse e s h v)); [apply relative_shape | exact B].
  - apply drop_mono. intro. apply (lshape_mono parse s (fun e => load cwd parse e s v)); [apply load_shape | exact B].
  - destruct (e1 h body s) as [x|] eqn:E1; [|discriminate]. rewrite (B _ _ _ _ E1). exact (fun E => E).
Qed.
Lemma exec_step_mono : forall cwd parse f, below (exec cwd parse f) (exec cwd parse (S f)).
Proof.
  intros cwd parse. induction f as [|f IH]; intros h acts s r E; [discriminate|].
  destruct acts as [|a acts]; [exact E|]. cbn [exec] in E.
  change (match do_act cwd parse (exec cwd parse (S f)) h a s with
          | Some (s, Ok _) => exec cwd parse (S f) h acts s | r => r end = Some r).
  destruct (do_act cwd parse (exec cwd parse f) h a s) as [x|] eqn:D; [|discriminate].
  rewrite (do_act_mono _ _ _ _ _ _ _ _ IH D). destruct x as [s1 [u|k|]]; auto.
Qed.
Lemma exec_mono : forall cwd parse f g, (f <= g)%nat -> below (exec cwd parse f) (exec cwd parse g).
Proof.
  intros cwd parse f g H. induction H as [|g H IH]; [intros h a s r E; exact E|].
  intros h a s r E. apply exec_step_mono. apply IH. exact E.
Qed.

(* ---- what stays true ---- *)
Definition grows (s s2 : state) : Prop :=
  (exists later, past s2 = later ++ past s) /\ (forall p, In p (files s) -> In p (files s2)).
Lemma grows_refl : forall s, grows s s.
Proof. intro s. split; [exists []; reflexivity | auto]. Qed.
Lemma grows_trans : forall a b c, grows a b -> grows b c -> grows a c.
Proof.
  intros a b c [[l1 E1] F1] [[l2 E2] F2]. split; [|auto]. exists (l2 ++ l1). rewrite E2, E1, app_assoc. reflexivity.
Qed.
Definition keeps (P : list act -> Prop) (I : state -> Prop) (e : executor) : Prop :=
  forall h acts s s2 r, P acts -> I s -> e h acts s = Some (s2, r) -> I s2 /\ grows s s2.

(* an invariant that holds after every single step *)
Record inv (I : state -> Prop) (loads : bool) : Prop := Inv {
  inv_add : forall s p, I s -> I (set_files s (files s ++ [p]));
  inv_out : forall s z, I s -> I (happens s (EOut z));
  inv_path : forall s v, I s -> I (set_path s v);
  inv_root : forall s r, I s -> I (set_root s r);
  inv_run : forall s p, I s -> ~ In p (files s) -> I (started s (files s ++ [p]) p);
  inv_load : loads = true -> forall s p known, I s -> (forall x, In x known <-> x = p \/ In x (files s)) -> I (started s known p) }.

Lemma grows_add : forall s p, grows s (set_files s (files s ++ [p])).
Proof. intros s p. split; [exists []; reflexivity|]. intros x H. cbn. apply in_or_app. auto. Qed.
Lemma grows_started : forall s known p, (forall x, In x (files s) -> In x known) -> grows s (started s known p).
Proof. intros s known p H. split; [exists [ERun p]; reflexivity | exact H]. Qed.

Section Keeps.
Variable cwd : list chars.
Variable parse : chars -> option (list act).
Variable I : state -> Prop.
Variable loads : bool.
Hypothesis HI : inv I loads.
Definition fine (a : act) : Prop :=
  match a with ALoad _ => loads = true | ARescue _ => False | _ => True end.
Hypothesis texts : forall t acts, parse t = Some acts -> only fine acts.

Lemma finish_keeps : forall e, keeps (only fine) I e -> forall h acts s s2 r, only fine acts -> I s ->
  finish (e h acts s) = Some (s2, r) -> I s2 /\ grows s s2.
Proof.
  intros e K h acts s s2 r O Is E. destruct (e h acts s) as [[s3 r3]|] eqn:X; [|discriminate].
  injection E as <- _. eapply K; eauto.
Qed.
Lemma shape_keeps : forall s F e s2 r, shape parse s F -> keeps (only fine) I e -> I s -> F e = Some (s2, r) ->
  I s2 /\ grows s s2.
Proof.
  intros s F e s2 r Sh K Is E. destruct Sh as [H | s3 k H1 H2 | place t acts H1 H2 H3 H4].
  - rewrite H in E. injection E as <- _. split; [exact Is | apply grows_refl].
  - rewrite H2 in E. injection E as <- _. destruct H1 as [->|(p & Hp & ->)].
    + split; [exact Is | apply grows_refl].
    + split; [apply (inv_add _ _ HI); exact Is | apply grows_add].
  - rewrite H4 in E. apply finish_keeps in E; auto.
    + destruct E as [E1 E2]. split; [exact E1|]. eapply grows_trans; [|exact E2]. apply grows_started.
      intros x Hx. apply in_or_app. auto.
    + eapply texts; eauto.
    + apply (inv_run _ _ HI); assumption.
Qed.
Lemma lshape_keeps : loads = true -> forall s F e s2 r, lshape parse s F -> keeps (only fine) I e -> I s ->
  F e = Some (s2, r) -> I s2 /\ grows s s2.
Proof.
  intros L s F e s2 r Sh K Is E. destruct Sh as [s3 k H1 H2 | place t acts known H0 H1 H2 H3 H4].
  - rewrite H2 in E. injection E as <- _. destruct H1 as [->|(p & Hp & ->)].
    + split; [exact Is | apply grows_refl].
    + split; [apply (inv_add _ _ HI); exact Is | apply grows_add].
  - rewrite H4 in E. apply finish_keeps in E; auto.
    + destruct E as [E1 E2]. split; [exact E1|]. eapply grows_trans; [|exact E2]. apply grows_started. exact H1.
    + eapply texts; eauto.
    + apply (inv_load _ _ HI); auto.
Qed.
Lemma drop_some : forall r s2 x, drop r = Some (s2, x) -> exists y, r = Some (s2, y).
Proof. intros [[s [b|k|]]|] s2 x E; cbn in E; try discriminate; injection E as <- _; eexists; reflexivity. Qed.
Lemma do_act_keeps : forall e h a s s2 r, keeps (only fine) I e ->
  (fine a \/ exists body, a = ARescue body /\ only fine body) -> I s ->
  do_act cwd parse e h a s = Some (s2, r) -> I s2 /\ grows s s2.
Proof.
  intros e h a s s2 r K A Is E. destruct a; cbn [do_act] in E.
  - apply drop_some in E as [y E]. eapply (shape_keeps s (fun e => require cwd parse e s v)); eauto. apply require_shape.
  - apply drop_some in E as [y E]. eapply (shape_keeps s (fun e => require_relative cwd parse e s h v)); eauto. apply relative_shape.
  - apply drop_some in E as [y E]. destruct A as [A|(body & A & _)]; [|discriminate].
    eapply (lshape_keeps A s (fun e => load cwd parse e s v)); eauto. apply load_shape.
  - injection E as <- _. split; [apply (inv_out _ _ HI); exact Is|]. split; [exists [EOut z]; reflexivity | auto].
  - injection E as <- _. split; [exact Is | apply grows_refl].
  - injection E as <- _. split; [apply (inv_path _ _ HI); exact Is | split; [exists []; reflexivity | auto]].
  - injection E as <- _. split; [apply (inv_root _ _ HI); exact Is | split; [exists []; reflexivity | auto]].
  - destruct A as [[]|(b & A & O)]. injection A as <-.
    destruct (e h body s) as [[s3 [u|k|]]|] eqn:X; try discriminate; injection E as <- _; eapply K; eauto.
Qed.
Lemma only_head : forall a acts, only fine (a :: acts) ->
  (fine a \/ exists body, a = ARescue body /\ only fine body) /\ only fine acts.
Proof. intros a acts H. inversion H; subst; split; eauto. Qed.
Lemma exec_keeps : forall f, keeps (only fine) I (exec cwd parse f).
Proof.
  induction f as [|f IH]; intros h acts s s2 r O Is E; [discriminate|].
  destruct acts as [|a acts]; cbn [exec] in E.
  - injection E as <- _. split; [exact Is | apply grows_refl].
  - apply only_head in O as [A O].
    destruct (do_act cwd parse (exec cwd parse f) h a s) as [[s1 r1]|] eqn:D; [|discriminate].
    destruct (do_act_keeps _ _ _ _ _ _ IH A Is D) as [I1 G1].
    destruct r1 as [u|k|].
    + destruct (IH _ _ _ _ _ O I1 E) as [I2 G2]. split; [exact I2 | eapply grows_trans; eauto].
    + injection E as <- _. split; assumption.
    + injection E as <- _. split; assumption.
Qed.
Lemma main_keeps : forall f s file s2 r, I s -> (forall p t, os_resolve (root s) cwd file = Some p -> 
    node_at (root s) p = Some (FFile t) -> ~ In p (files s)) ->
  main cwd parse f s file = Some (s2, r) -> I s2 /\ grows s s2.
Proof.
  intros f s file s2 r Is New E. unfold main in E.
  destruct (os_resolve (root s) cwd file) as [place|]; [|injection E as <- _; split; [exact Is | apply grows_refl]].
  unfold load_file, load_text in E. destruct (node_at (root s) place) as [[t|es]|] eqn:N;
    try (injection E as <- _; split; [exact Is | apply grows_refl]).
  specialize (New place t eq_refl N). unfold add_source_file in E. rewrite (proj2 (unknown_spec _ _) New) in E. cbn [fst] in E.
  unfold run_file in E. destruct (parse t) as [acts|] eqn:P.
  - change (happens (set_files s (files s ++ [place])) (ERun place)) with (started s (files s ++ [place]) place) in E.
    destruct (exec_keeps f place acts (started s (files s ++ [place]) place) s2 r) as [I2 G2];
      [eapply texts; eauto | apply (inv_run _ _ HI); assumption | exact E |].
    split; [exact I2|]. eapply grows_trans; [|exact G2]. apply grows_started. intros x Hx. apply in_or_app. auto.
  - injection E as <- _. split; [apply (inv_add _ _ HI); exact Is | apply grows_add].
Qed.
End Keeps.

Lemma runs_in : forall es p, In p (runs es) <-> In (ERun p) es.
Proof.
  induction es as [|[q|z] es IH]; intro p; cbn; [tauto| |].
  - rewrite IH. split; intros [H|H]; auto; left; congruence.
  - rewrite IH. split; [auto|]. intros [H|H]; [discriminate | exact H].
Qed.
Lemma inv_sound : inv sound true.
Proof.
  constructor; unfold sound, ran.
  - intros s p H q Hq. cbn. apply in_or_app. left. apply H. exact Hq.
  - intros s z H q [Hq|Hq]; [discriminate | apply H; exact Hq].
  - intros s v H q Hq. apply H. exact Hq.
  - intros s v H q Hq. apply H. exact Hq.
  - intros s p H N q [Hq|Hq]; cbn; apply in_or_app; [injection Hq as ->; right; left; reflexivity | left; apply H; exact Hq].
  - intros _ s p known H K q [Hq|Hq]; cbn; apply K; [left; congruence | right; apply H; exact Hq].
Qed.
Lemma inv_once : inv (fun s => sound s /\ NoDup (runs (past s))) false.
Proof.
  constructor.
  - intros s p [H1 H2]. split; [apply (inv_add _ _ inv_sound); exact H1 | exact H2].
  - intros s z [H1 H2]. split; [apply (inv_out _ _ inv_sound); exact H1 | exact H2].
  - intros s v [H1 H2]. split; [apply (inv_path _ _ inv_sound); exact H1 | exact H2].
  - intros s v [H1 H2]. split; [apply (inv_root _ _ inv_sound); exact H1 | exact H2].
  - intros s p [H1 H2] N. split; [apply (inv_run _ _ inv_sound); assumption|]. cbn. constructor; [|exact H2].
    intro X. apply runs_in in X. apply N. apply H1. exact X.
  - discriminate.
Qed.
Lemma only_imp : forall (P Q : act -> Prop) acts, (forall a, P a -> Q a) -> only P acts -> only Q acts.
Proof. intros P Q acts H O. induction O; [apply only_nil | apply only_act; auto | apply only_rescue; auto]. Qed.

(* ---- the end ---- *)
Fixpoint places (n : fnode) : list (list chars) :=
  [] :: match n with
        | FFile _ => []
        | FDir es => flat_map (fun '(name, x) => map (cons name) (places x)) es
        end.
Lemma entry_in : forall name es x, entry name es = Some x -> In (name, x) es.
Proof.
  intros name. induction es as [|[n y] es IH]; intros x E; [discriminate|]. cbn in E.
  destruct (chars_eqb n name) eqn:C; [|right; auto]. apply chars_eqb_spec in C. injection E as ->. left. congruence.
Qed.
Lemma places_all : forall place n x, node_at n place = Some x -> In place (places n).
Proof.
  induction place as [|name place IH]; intros n x E; [destruct n; left; reflexivity|].
  cbn in E. destruct n as [t|es]; [discriminate|]. destruct (entry name es) as [y|] eqn:Y; [|discriminate].
  right. apply in_flat_map. exists (name, y). split; [apply entry_in; exact Y | apply in_map; eapply IH; eauto].
Qed.
Definition left_over (s : state) : nat :=
  length (filter (fun p => negb (existsb (place_eqb p) (files s))) (places (root s))).
Lemma filter_le : forall (A : Type) (f g : A -> bool) l, (forall x, In x l -> g x = true -> f x = true) ->
  (length (filter g l) <= length (filter f l))%nat.
Proof.
  intros A f g. induction l as [|x l IH]; intro H; [apply le_n|]. cbn.
  specialize (IH (fun y Hy => H y (or_intror Hy))). pose proof (H x (or_introl eq_refl)).
  destruct (g x), (f x); cbn; try lia.
Qed.
Lemma filter_lt : forall (A : Type) (f g : A -> bool) l p, (forall x, In x l -> g x = true -> f x = true) ->
  In p l -> f p = true -> g p = false -> (length (filter g l) < length (filter f l))%nat.
Proof.
  intros A f g. induction l as [|x l IH]; intros p H Hp F G; [destruct Hp|]. destruct Hp as [->|Hp]; cbn.
  - rewrite F, G. cbn. pose proof (filter_le A f g l (fun y Hy => H y (or_intror Hy))). lia.
  - specialize (IH p (fun y Hy => H y (or_intror Hy)) Hp F G). pose proof (H x (or_introl eq_refl)).
    destruct (g x), (f x); cbn; try lia.
Qed.
Lemma left_over_grows : forall s s2, root s2 = root s -> (forall p, In p (files s) -> In p (files s2)) ->
  (left_over s2 <= left_over s)%nat.
Proof.
  intros s s2 R F. unfold left_over. rewrite R. apply filter_le. intros x _ H.
  apply negb_true_iff in H. apply negb_true_iff. apply unknown_spec in H. apply unknown_spec. auto.
Qed.
Lemma left_over_started : forall s p x, ~ In p (files s) -> node_at (root s) p = Some x ->
  (left_over (started s (files s ++ [p]) p) < left_over s)%nat.
Proof.
  intros s p x N E. unfold left_over. cbn [files root started]. eapply filter_lt with (p := p).
  - intros y _ H. apply negb_true_iff in H. apply negb_true_iff. apply unknown_spec in H. apply unknown_spec.
    intro Y. apply H. apply in_or_app. auto.
  - eapply places_all; eauto.
  - apply negb_true_iff. apply unknown_spec. exact N.
  - apply negb_false_iff. apply known_spec. apply in_or_app. right. left. reflexivity.
Qed.

Section Ends.
Variable cwd : list chars.
Variable parse : chars -> option (list act).
Hypothesis texts : forall t acts, parse t = Some acts -> only no_load_no_change acts.
Definition good_end (s s2 : state) : Prop := root s2 = root s /\ (forall p, In p (files s) -> In p (files s2)).
Lemma good_end_trans : forall a b c, good_end a b -> good_end b c -> good_end a c.
Proof. intros a b c [R1 F1] [R2 F2]. split; [congruence | auto]. Qed.
Definition ends (h : list chars) (acts : list act) (s : state) : Prop :=
  exists f s2 r, exec cwd parse f h acts s = Some (s2, r) /\ good_end s s2.
Lemma shape_ends : forall m s F, shape parse s F -> (left_over s < S m)%nat ->
  (forall h acts s, only no_load_no_change acts -> (left_over s < m)%nat -> ends h acts s) ->
  exists f s2 r, F (exec cwd parse f) = Some (s2, r) /\ good_end s s2.
Proof.
  intros m s F Sh L IH. destruct Sh as [H | s3 k H1 H2 | place t acts H1 H2 H3 H4].
  - exists 0%nat, s, (Ok false). split; [apply H | split; auto].
  - exists 0%nat, s3, (Err k). split; [apply H2|]. destruct H1 as [->|(p & Hp & ->)]; split; auto.
    intros x Hx. cbn. apply in_or_app. auto.
  - pose proof (left_over_started s place _ H1 H2) as LT.
    destruct (IH place acts (started s (files s ++ [place]) place)) as (f & s2 & r & E & G);
      [eapply texts; eauto | lia|].
    exists f, s2, (answer r). split; [rewrite H4, E; reflexivity|].
    destruct G as [G1 G2]. split; [exact G1|]. intros x Hx. apply G2. cbn. apply in_or_app. auto.
Qed.
Definition act_ends (h : list chars) (a : act) (s : state) : Prop :=
  exists f s2 r, do_act cwd parse (exec cwd parse f) h a s = Some (s2, r) /\ good_end s s2.
Lemma drop_ends : forall s F, (exists f s2 r, F (exec cwd parse f) = Some (s2, r) /\ good_end s s2) ->
  exists f s2 r, drop (F (exec cwd parse f)) = Some (s2, r) /\ good_end s s2.
Proof.
  intros s F (f & s2 & r & E & G). exists f, s2. rewrite E. destruct r; cbn; eexists; split; try reflexivity; exact G.
Qed.
Lemma plain_act_ends : forall m h a s, no_load_no_change a -> (left_over s < S m)%nat ->
  (forall h acts s, only no_load_no_change acts -> (left_over s < m)%nat -> ends h acts s) -> act_ends h a s.
Proof.
  intros m h a s A L IH. unfold act_ends. destruct a; cbn [do_act no_load_no_change] in *; try contradiction.
  - apply (drop_ends s (fun e => require cwd parse e s v)).
    eapply (shape_ends m s (fun e => require cwd parse e s v)); eauto. apply require_shape.
  - apply (drop_ends s (fun e => require_relative cwd parse e s h v)).
    eapply (shape_ends m s (fun e => require_relative cwd parse e s h v)); eauto. apply relative_shape.
  - exists 0%nat. eexists. eexists. split; [reflexivity | split; auto].
  - exists 0%nat. eexists. eexists. split; [reflexivity | split; auto].
  - exists 0%nat. eexists. eexists. split; [reflexivity | split; auto].
Qed.
Lemma cons_ends : forall h a acts s, act_ends h a s -> (forall s2, good_end s s2 -> ends h acts s2) -> ends h (a :: acts) s.
Proof.
  intros h a acts s (f & s2 & r & E & G) K. destruct r as [u|k|].
  - destruct (K s2 G) as (g & s3 & r & E2 & G2). exists (S (f + g)), s3, r.
    split; [|eapply good_end_trans; eauto]. cbn [exec].
    rewrite (do_act_mono cwd parse _ _ h a s _ (exec_mono cwd parse f (f + g) (Nat.le_add_r _ _)) E).
    apply (exec_mono cwd parse g (f + g)); [lia | exact E2].
  - exists (S f), s2, (Err k). split; [cbn [exec]; rewrite E; reflexivity | exact G].
  - exists (S f), s2, Panic. split; [cbn [exec]; rewrite E; reflexivity | exact G].
Qed.
Lemma all_end : forall m h acts s, only no_load_no_change acts -> (left_over s < m)%nat -> ends h acts s.
Proof.
  induction m as [|m IH]; [lia|]. intros h acts s O. revert h s. induction O as [|a acts A O IO | body acts B IB O IO]; intros h s L.
  - exists 1%nat, s, (Ok tt). split; [reflexivity | split; auto].
  - apply cons_ends; [eapply plain_act_ends; eauto|]. intros s2 [G1 G2]. apply IO.
    pose proof (left_over_grows s s2 G1 G2). lia.
  - apply cons_ends.
    + destruct (IB h s L) as (f & s2 & r & E & G). exists f, s2. cbn [do_act]. rewrite E.
      destruct r; eexists; split; try reflexivity; exact G.
    + intros s2 [G1 G2]. apply IO. pose proof (left_over_grows s s2 G1 G2). lia.
Qed.
Lemma main_ends : forall s file, exists n, forall f, (n <= f)%nat -> exists s2 r, main cwd parse f s file = Some (s2, r).
Proof.
  intros s file. unfold main. destruct (os_resolve (root s) cwd file) as [place|]; [|exists 0%nat; eauto].
  destruct (load_file s place) as [s1 [t|k|]]; [|exists 0%nat; eauto|exists 0%nat; eauto].
  unfold run_file. destruct (parse t) as [acts|] eqn:P; [|exists 0%nat; eauto].
  destruct (all_end (S (left_over (happens s1 (ERun place)))) place acts (happens s1 (ERun place))) as (f & s2 & r & E & _);
    [eapply texts; eauto | lia|].
  exists f. intros g G. exists s2, r. eapply exec_mono; eauto.
Qed.
End Ends.
