From Verif Require Import Base ModelText ModelLexer ModelPath SpecPath ProofsPath.
Local Open Scope Z_scope.

(* ---- the names in a path ---- *)
Definition W (s : chars) : list chars := filter (fun x => match x with [] => false | _ => true end) (split_slash [] s).
Lemma full_filter : forall parts ns, full parts ns <-> ns = filter (fun x => match x with [] => false | _ => true end) parts.
Proof.
  split.
  - induction 1; cbn; [reflexivity | assumption |]. destruct p; [congruence |]. now rewrite <- IHfull.
  - revert ns. induction parts as [| x r IH]; intros ns E; cbn in E; subst; [constructor |].
    destruct x; [constructor; now apply IH |]. constructor; [congruence |]. now apply IH.
Qed.
Lemma words_W : forall s ns, words s ns <-> ns = W s.
Proof.
  intros s ns. split.
  - intros (parts & A & B). apply full_filter in B. unfold W. now rewrite (written_split _ _ A).
  - intros ->. exists (split_slash [] s). split; [apply split_written |]. now apply full_filter.
Qed.
Lemma W_app : forall a b, W (a ++ 47 :: b) = W a ++ W b.
Proof. intros. unfold W. now rewrite split_app, filter_app. Qed.
Lemma W_slash : forall b, W (47 :: b) = W b.
Proof. reflexivity. Qed.

Lemma ends_slash : forall p, last p 0 = 47 -> exists b, p = b ++ [47].
Proof.
  intros p L. destruct p as [| c p]; [discriminate |]. exists (removelast (c :: p)). rewrite <- L.
  apply app_removelast_last. congruence.
Qed.
(* the end of the path in front of the next string *)
Definition ready (p : chars) : chars := match p with [] => [] | _ => if last p 0 =? 47 then p else p ++ [47] end.
Definition strip (s : chars) : chars := match s with 47 :: s => s | _ => s end.
Lemma strip_cases : forall s, (exists q, s = 47 :: q /\ strip s = q) \/ (~ absolute s /\ strip s = s).
Proof.
  intros s. destruct (abs_dec s) as [[q ->] | N]; [left; now exists q |]. right. split; [assumption |].
  destruct s as [| [| z | z] s]; try reflexivity. do 7 (try destruct z as [z | z |]; try reflexivity).
  exfalso. apply N. now exists s.
Qed.
Lemma append_eq : forall p s, append p s = match p with [] => s | _ => ready p ++ strip s end.
Proof.
  intros p s. unfold append, ready. destruct p as [| c p].
  - reflexivity.
  - destruct (last (c :: p) 0 =? 47); cbn [app]; f_equal; f_equal; unfold strip;
      (destruct s as [| [| z | z] s]; try reflexivity; do 7 (try destruct z as [z | z |]; try reflexivity)).
Qed.
Lemma ready_slash : forall p, p <> [] -> exists b, ready p = b ++ [47] /\ W b = W p.
Proof.
  intros p N. unfold ready. destruct p as [| c p]; [congruence |].
  destruct (last (c :: p) 0 =? 47) eqn:L.
  - apply Z.eqb_eq in L. destruct (ends_slash _ L) as [b E]. exists b. split; [assumption |].
    rewrite E, W_app. cbn. now rewrite app_nil_r.
  - exists (c :: p). split; reflexivity.
Qed.
Lemma append_words : forall p s, W (append p s) = W p ++ W s.
Proof.
  intros p s. rewrite append_eq. destruct p as [| c p]; [reflexivity |].
  destruct (ready_slash (c :: p)) as (b & E & Eb); [congruence |]. rewrite E, <- app_assoc. cbn [app]. rewrite W_app, Eb. f_equal.
  destruct (strip_cases s) as [(q & -> & ->) | [_ ->]]; reflexivity.
Qed.
Lemma append_abs : forall p s, absolute (append p s) <-> (p = [] /\ absolute s) \/ absolute p.
Proof.
  intros p s. rewrite append_eq. destruct p as [| c p].
  - split; [intros H; left; now split | intros [[_ H] | [q H]]; [assumption | discriminate]].
  - assert (R : exists t, ready (c :: p) = c :: t).
    { unfold ready. destruct (last (c :: p) 0 =? 47); cbn; now eexists. }
    destruct R as [t ->]. cbn. split.
    + intros [q E]. injection E as -> _. right. now eexists.
    + intros [[? _] | [q E]]; [discriminate |]. injection E as -> _. now eexists.
Qed.
Lemma append_empty : forall p s, append p s = [] <-> p = [] /\ s = [].
Proof.
  intros p s. rewrite append_eq. destruct p as [| c p]; [tauto |]. split; [| intros [? _]; discriminate].
  destruct (ready_slash (c :: p)) as (b & E & _); [congruence |]. rewrite E. destruct b; discriminate.
Qed.

Lemma flatten_ary : forall l p, flatten p (PAry l) = join_args p l.
Proof.
  induction l as [| v l IH]; intros p; [reflexivity |].
  cbn [join_args]. rewrite <- (fun q => IH q : flatten q (PAry l) = join_args q l) || idtac.
  cbn. destruct (flatten p v); cbn; [| reflexivity..]. apply IH.
Qed.
Lemma join_strings : forall vs ss, strings vs ss -> forall p, join_args p vs = Ok (fold_left append ss p).
Proof.
  induction 1; intros p.
  - reflexivity.
  - cbn. apply IHstrings.
  - cbn [join_args]. rewrite flatten_ary, IHstrings1. cbn [rbind]. rewrite IHstrings2, fold_left_app. reflexivity.
Qed.
Fixpoint flatten_res (v : pval) : forall p, (exists r, flatten p v = Ok r) \/ flatten p v = Err TypeErr.
Proof.
  destruct v as [s | l |]; intros p.
  - left. cbn. now eexists.
  - rewrite flatten_ary. revert p. induction l as [| v l IH]; intros p; [left; now eexists |].
    cbn [join_args]. destruct (flatten_res v p) as [[r ->] | ->]; cbn [rbind]; [apply IH | now right].
  - right. reflexivity.
Qed.
Lemma join_other : forall vs, other vs -> forall p, join_args p vs = Err TypeErr.
Proof.
  induction 1; intros p.
  - reflexivity.
  - cbn [join_args]. now rewrite flatten_ary, IHother.
  - cbn [join_args]. destruct (flatten_res v p) as [[r ->] | ->]; cbn [rbind]; [apply IHother | reflexivity].
Qed.
Lemma fold_append_words : forall ss p, W (fold_left append ss p) = W p ++ concat (map W ss).
Proof.
  induction ss as [| s ss IH]; intros p; cbn [fold_left map concat]; [now rewrite app_nil_r |]. rewrite IH, append_words. now rewrite <- app_assoc.
Qed.
Lemma fold_append_abs : forall ss p, p <> [] -> (absolute (fold_left append ss p) <-> absolute p).
Proof.
  induction ss as [| s ss IH]; intros p N; cbn [fold_left]; [tauto |]. rewrite IH.
  - rewrite append_abs. tauto.
  - rewrite append_empty. tauto.
Qed.

(* ---- paths without dots ---- *)
Lemma flat_plain : forall parts ns, Forall plain parts -> full parts ns -> flat_map comp_of parts = map Normal ns.
Proof.
  intros parts ns P F. induction F; cbn; [reflexivity | |]; inversion P; subst; [now apply IHF |].
  rewrite IHF by assumption. destruct H2 as [-> | (A & B & C)]; [congruence |].
  destruct (comp_of_cases p) as [[[E | E] _] | [[E _] | [_ E]]]; try congruence. now rewrite E.
Qed.
Lemma red_noparent : forall cs acc, ~ In Parent cs -> fold_left red_step cs acc = acc ++ cs.
Proof.
  induction cs as [| c cs IH]; intros acc N; cbn; [now rewrite app_nil_r |].
  rewrite IH. 2:{ intro I. apply N. now right. }
  destruct c; cbn [red_step]; try (now rewrite <- app_assoc). exfalso. apply N. now left.
Qed.
Lemma components_plain : forall s parts ns, written s parts -> Forall plain parts -> full parts ns ->
  (absolute s -> components s = Root :: map Normal ns) /\ (~ absolute s -> components s = map Normal ns).
Proof.
  intros s parts ns Wr P F. rewrite components_comps, (written_split _ _ Wr). pose proof (written_abs _ _ Wr) as A.
  destruct (comps_cases parts) as [(x & r & E & C) | [(r & E & C) | (C & N1 & N2)]].
  - rewrite C. subst parts. inversion F as [| ? ? F2 |]; subst; [| congruence]. inversion P; subst.
    rewrite (flat_plain _ _ H2 F2). split; [reflexivity |]. intros N. exfalso. apply N, A. now exists x, r.
  - subst parts. inversion P as [| ? ? [E | (A1 & A2 & A3)] _]; subst; [discriminate | congruence].
  - rewrite C, (flat_plain _ _ P F). split; [| reflexivity]. intros X. apply A in X. destruct X as (x & r & E).
    subst parts. specialize (N2 eq_refl). discriminate.
Qed.

(* ---- the system's walk ---- *)
Lemma os_step_name : forall root pl n, is_name n ->
  os_step root (Some pl) n = if is_dir (node_at root pl) then match node_at root (pl ++ [n]) with Some _ => Some (pl ++ [n]) | None => None end else None.
Proof.
  intros root pl n (A & B & C). unfold os_step. destruct (is_dir (node_at root pl)); [| reflexivity].
  destruct n as [| c [| c2 [| c3 r]]]; [congruence | | |].
  - destruct c as [| p | p]; try reflexivity. do 7 (try destruct p as [p | p |]; try reflexivity). exfalso; now apply B.
  - destruct c as [| p | p]; try reflexivity. do 7 (try destruct p as [p | p |]; try reflexivity).
    destruct c2 as [| p | p]; try reflexivity. do 7 (try destruct p as [p | p |]; try reflexivity). exfalso; now apply C.
  - destruct c as [| p | p]; try reflexivity. do 7 (try destruct p as [p | p |]; try reflexivity).
    destruct c2 as [| p | p]; try reflexivity. do 7 (try destruct p as [p | p |]; try reflexivity).
Qed.
Lemma os_step_dir : forall root pl part r, os_step root (Some pl) part = Some r -> is_dir (node_at root pl) = true.
Proof. intros root pl part r H. unfold os_step in H. destruct (is_dir (node_at root pl)); [reflexivity | discriminate]. Qed.
Lemma os_step_stay : forall root pl part, part = [] \/ part = dot -> is_dir (node_at root pl) = true -> os_step root (Some pl) part = Some pl.
Proof. intros root pl part [-> | ->] D; cbn; now rewrite D. Qed.
Lemma os_walk_none : forall root parts, fold_left (os_step root) parts None = None.
Proof. induction parts; [reflexivity | assumption]. Qed.
Lemma os_walk_cons : forall root pl x r, os_walk root pl (x :: r) = match os_step root (Some pl) x with Some q => os_walk root q r | None => None end.
Proof. intros. unfold os_walk. cbn [fold_left]. destruct (os_step root (Some pl) x); [reflexivity | apply os_walk_none]. Qed.
Lemma os_walk_app : forall root a b pl, os_walk root pl (a ++ b) = match os_walk root pl a with Some q => os_walk root q b | None => None end.
Proof.
  intros. unfold os_walk. rewrite fold_left_app. destruct (fold_left (os_step root) a (Some pl)); [reflexivity | apply os_walk_none].
Qed.

Lemma os_drop : forall root parts pl r, os_walk root pl parts = Some r -> os_walk root pl (map comp_text (flat_map comp_of parts)) = Some r.
Proof.
  intros root. induction parts as [| x parts IH]; intros pl r H; [exact H |].
  rewrite os_walk_cons in H. destruct (os_step root (Some pl) x) as [q |] eqn:S; [| discriminate].
  cbn [flat_map]. rewrite map_app, os_walk_app.
  destruct (comp_of_cases x) as [[E C] | [[E C] | [E C]]]; rewrite C; cbn [map comp_text].
  - pose proof (os_step_dir _ _ _ _ S) as D. rewrite (os_step_stay _ _ _ E D) in S. injection S as <-. cbn. now apply IH.
  - subst x. rewrite os_walk_cons. change [46; 46] with dotdot. rewrite S. cbn. now apply IH.
  - rewrite os_walk_cons, S. cbn. now apply IH.
Qed.
Lemma os_undrop : forall root parts pl r, ~ In dotdot parts ->
  os_walk root pl (map comp_text (flat_map comp_of parts)) = Some r ->
  is_dir (node_at root r) = true \/ is_name (last parts []) -> parts <> [] -> os_walk root pl parts = Some r.
Proof.
  intros root. induction parts as [| x parts IH]; intros pl r N H L NE; [congruence |].
  rewrite os_walk_cons. cbn [flat_map] in H. rewrite map_app, os_walk_app in H.
  destruct (comp_of_cases x) as [[E C] | [[E C] | [E C]]]; rewrite C in H; cbn [map comp_text] in H.
  - cbn in H.
    destruct parts as [| y parts].
    + cbn in H. injection H as <-. destruct L as [L | L].
      * rewrite os_step_stay by assumption. reflexivity.
      * cbn in L. destruct L as (A & B & _). destruct E; congruence.
    + assert (R : os_walk root pl (y :: parts) = Some r).
      { apply IH; [intro I; apply N; now right | assumption | | congruence].
        destruct L as [L | L]; [now left | right; exact L]. }
      rewrite os_step_stay; [exact R | assumption |].
      rewrite os_walk_cons in R. destruct (os_step root (Some pl) y) eqn:S; [| discriminate]. now apply os_step_dir in S.
  - exfalso. apply N. now left.
  - rewrite os_walk_cons in H. destruct (os_step root (Some pl) x) as [q |] eqn:S; [| discriminate].
    cbn in H. destruct parts as [| y parts]; [exact H |]. apply IH; [intro I; apply N; now right | assumption | | congruence].
    destruct L as [L | L]; [now left | right; exact L].
Qed.

Lemma os_red : forall root t acc pl r, Forall good t -> Forall good acc -> os_walk root pl (map comp_text (acc ++ t)) = Some r ->
  os_walk root pl (map comp_text (fold_left red_step t acc)) = Some r /\ Forall good (fold_left red_step t acc).
Proof.
  intros root. induction t as [| c t IH]; intros acc pl r G A H; [rewrite app_nil_r in H; now split |].
  inversion G as [| ? ? Gc Gt]; subst. cbn [fold_left].
  assert (P : Forall good (acc ++ [c]) /\ os_walk root pl (map comp_text ((acc ++ [c]) ++ t)) = Some r).
  { split; [apply Forall_app; split; [assumption | constructor; [assumption | constructor]] |]. rewrite <- app_assoc. exact H. }
  destruct P as [P1 P2].
  destruct c; try contradiction; cbn [red_step].
  - destruct (rev acc) as [| [] l] eqn:E; try (apply IH; assumption).
    apply rev_last in E. set (b := removelast acc) in *. rewrite E in A. apply Forall_app in A. destruct A as [A1 A2].
    apply IH; [assumption.. |]. rewrite E in H. rewrite <- app_assoc in H. rewrite !map_app in *. rewrite os_walk_app in H. rewrite os_walk_app.
    destruct (os_walk root pl (map comp_text b)) as [q |]; [| discriminate].
    cbn [app map comp_text] in H. rewrite os_walk_cons in H.
    pose proof (Forall_inv A2) as An. cbn [good] in An. destruct An as [An _]. rewrite os_step_name in H by assumption.
    destruct (is_dir (node_at root q)); [| discriminate]. destruct (node_at root (q ++ [n])) eqn:E2; [| discriminate].
    rewrite os_walk_cons in H. unfold os_step in H. destruct (is_dir (node_at root (q ++ [n]))); [| discriminate].
    rewrite removelast_last in H. exact H.
  - apply IH; assumption.
Qed.

Definition tail_of (cs : list comp) : list comp := match cs with Root :: t | Cur :: t => t | t => t end.
Definition start_of (cwd : list chars) (cs : list comp) : list chars := match cs with Root :: _ => [] | _ => cwd end.
Lemma red_head : forall h t acc, h = Root \/ h = Cur -> fold_left red_step t (h :: acc) = h :: fold_left red_step t acc.
Proof.
  intros h t. induction t as [| c t IH]; intros acc H; [reflexivity |]. cbn [fold_left].
  assert (E : red_step (h :: acc) c = h :: red_step acc c).
  { destruct c; try reflexivity. cbn [red_step rev].
    destruct acc as [| x acc] using rev_ind; [destruct H as [-> | ->]; reflexivity |].
    rewrite rev_unit. cbn [app]. destruct x; try reflexivity. rewrite removelast_last.
    change (h :: acc ++ [Normal n]) with ((h :: acc) ++ [Normal n]). now rewrite removelast_last. }
  rewrite E. now apply IH.
Qed.
Lemma resolve_render : forall root cwd cs, wf cs -> cs <> [] -> is_dir (Some root) = true -> is_dir (node_at root cwd) = true ->
  os_resolve root cwd (render cs) = os_walk root (start_of cwd cs) (map comp_text (tail_of cs)).
Proof.
  intros root cwd cs Wf N R C.
  assert (NE : render cs <> []).
  { intro E. apply N. rewrite <- (components_render cs Wf), E. reflexivity. }
  unfold os_resolve. destruct (render cs) as [| c0 p0] eqn:E; [congruence |]. rewrite <- E. rewrite render_parts by assumption.
  assert (S : os_start cwd (render cs) = start_of cwd cs).
  { destruct cs as [| c t]; [congruence |]. destruct c; cbn [start_of wf] in *.
    - rewrite render_root by assumption. reflexivity.
    - rewrite render_cur by assumption. destruct t; reflexivity.
    - rewrite render_good by assumption. destruct t; reflexivity.
    - rewrite render_good by assumption. pose proof (Forall_inv Wf) as G. cbn in G. destruct G as [(A & _) B].
      assert (H : ~ absolute (slashed (map comp_text (Normal n :: t)))).
      { intros [q F]. destruct n as [| z n]; [congruence |]. cbn [map comp_text] in F.
        destruct (map comp_text t); cbn in F; injection F as -> _; apply B; now left. }
      destruct (slashed (map comp_text (Normal n :: t))) as [| [| z | z] l]; try reflexivity.
      do 7 (try destruct z as [z | z |]; try reflexivity). exfalso. apply H. now exists l. }
  rewrite S. destruct cs as [| c t]; [congruence |]. destruct c; cbn [start_of tail_of].
  - rewrite os_walk_cons. rewrite os_step_stay by (now left || assumption).
    destruct t; [| reflexivity]. rewrite os_walk_cons. rewrite os_step_stay by (now left || assumption). reflexivity.
  - rewrite os_walk_cons. rewrite os_step_stay by (now right || assumption). reflexivity.
  - reflexivity.
  - reflexivity.
Qed.

Lemma start_components : forall cwd s, os_start cwd s = start_of cwd (components s).
Proof.
  intros cwd s. rewrite components_comps. pose proof (written_abs _ _ (split_written s)) as A.
  assert (B : forall x y : list chars, absolute s -> (match s with 47 :: _ => x | _ => y end) = x) by (intros x y [q ->]; reflexivity).
  assert (B2 : forall x y : list chars, ~ absolute s -> (match s with 47 :: _ => x | _ => y end) = y).
  { intros x y N. destruct s as [| [| z | z] s]; try reflexivity. do 7 (try destruct z as [z | z |]; try reflexivity).
    exfalso. apply N. now exists s. }
  unfold os_start.
  destruct (comps_cases (split_slash [] s)) as [(x & r & E & C) | [(r & E & C) | (C & N1 & N2)]]; rewrite C.
  - cbn. apply B, A. now exists x, r.
  - cbn. apply B2. intro X. apply A in X. destruct X as (x & r2 & E2). rewrite E in E2. discriminate.
  - rewrite B2.
    + assert (G : Forall good (flat_map comp_of (split_slash [] s))) by (apply flat_good, (split_written s)).
      destruct (flat_map comp_of (split_slash [] s)) as [| c t]; [reflexivity |]. inversion G; subst. destruct c; try contradiction; reflexivity.
    + intro X. apply A in X. destruct X as (x & r2 & E2). rewrite E2 in N2. specialize (N2 eq_refl). discriminate.
Qed.
Lemma tail_flat : forall root cwd s, is_dir (Some root) = true -> is_dir (node_at root cwd) = true ->
  tail_of (components s) = flat_map comp_of (split_slash [] s) /\ Forall good (flat_map comp_of (split_slash [] s)).
Proof.
  intros root cwd s _ _. assert (G : Forall good (flat_map comp_of (split_slash [] s))) by (apply flat_good, (split_written s)).
  split; [| assumption]. rewrite components_comps.
  destruct (comps_cases (split_slash [] s)) as [(x & r & E & C) | [(r & E & C) | (C & N1 & N2)]]; rewrite C.
  - rewrite E. reflexivity.
  - rewrite E. reflexivity.
  - destruct (flat_map comp_of (split_slash [] s)) as [| c t]; [reflexivity |]. inversion G; subst. destruct c; try contradiction; reflexivity.
Qed.
Lemma red_parts : forall s, start_of [] (red (components s)) = start_of [] (components s)
  /\ (forall cwd, start_of cwd (red (components s)) = start_of cwd (components s))
  /\ tail_of (red (components s)) = fold_left red_step (tail_of (components s)) [].
Proof.
  intros s. pose proof (components_wf s) as Wf. unfold red.
  destruct (components s) as [| c t]; [repeat split |]. destruct c; cbn [wf] in Wf.
  - cbn [fold_left red_step app]. rewrite red_head by now left. repeat split.
  - cbn [fold_left red_step app]. rewrite red_head by now right. repeat split.
  - assert (G : Forall good (fold_left red_step (Parent :: t) [])).
    { assert (K : forall t acc, Forall good t -> Forall good acc -> Forall good (fold_left red_step t acc)).
      { clear. induction t as [| c t IH]; intros acc G A; [assumption |]. inversion G; subst. cbn. apply IH; [assumption |].
        assert (P : Forall good (acc ++ [c])) by (apply Forall_app; split; [assumption | constructor; [assumption | constructor]]).
        destruct c; try contradiction; cbn [red_step]; [| assumption].
        destruct (rev acc) as [| [] ?] eqn:E; try assumption. apply rev_last in E. rewrite E in A. now apply Forall_app in A. }
      apply K; [assumption | constructor]. }
    cbn [tail_of start_of]. set (x := fold_left red_step (Parent :: t) []) in *. clearbody x.
    destruct x as [| d x]; [repeat split |]. inversion G; subst. destruct d; try contradiction; repeat split.
  - assert (G : Forall good (fold_left red_step (Normal n :: t) [])).
    { assert (K : forall t acc, Forall good t -> Forall good acc -> Forall good (fold_left red_step t acc)).
      { clear. induction t as [| c t IH]; intros acc G A; [assumption |]. inversion G; subst. cbn. apply IH; [assumption |].
        assert (P : Forall good (acc ++ [c])) by (apply Forall_app; split; [assumption | constructor; [assumption | constructor]]).
        destruct c; try contradiction; cbn [red_step]; [| assumption].
        destruct (rev acc) as [| [] ?] eqn:E; try assumption. apply rev_last in E. rewrite E in A. now apply Forall_app in A. }
      apply K; [assumption | constructor]. }
    cbn [tail_of start_of]. set (x := fold_left red_step (Normal n :: t) []) in *. clearbody x.
    destruct x as [| d x]; [repeat split |]. inversion G; subst. destruct d; try contradiction; repeat split.
Qed.

(* where the system finds something, so does the shortened path *)
Lemma lexical_found : forall root cwd s parts r, is_dir (Some root) = true -> is_dir (node_at root cwd) = true ->
  written s parts -> is_name (last parts []) -> os_resolve root cwd s = Some r ->
  os_resolve root cwd (render (red (components s))) = Some r.
Proof.
  intros root cwd s parts r R C Wr L H.
  destruct (string_to_path_red s) as [_ Wf]. destruct (red_parts s) as (_ & S & T).
  destruct (tail_flat root cwd s R C) as [Tf G].
  assert (NE : red (components s) <> []).
  { intro E. rewrite E in T. cbn [tail_of] in T. rewrite Tf in T. rewrite (written_split _ _ Wr) in T.
    destruct Wr as (Nn & _ & _). destruct (exists_last Nn) as (l & n & E2). rewrite E2 in T, L. rewrite last_last in L.
    rewrite flat_map_app, fold_left_app in T. cbn [flat_map] in T. rewrite app_nil_r in T.
    destruct (comp_of_cases n) as [[[X | X] _] | [[X _] | [_ X]]]; try (destruct L as (L1 & L2 & L3); congruence).
    rewrite X in T. cbn in T. destruct (fold_left red_step (flat_map comp_of l) []); discriminate. }
  rewrite resolve_render by assumption. rewrite S, T, <- start_components, Tf.
  unfold os_resolve in H. destruct s as [| c s]; [discriminate |].
  apply os_drop in H. apply (os_red root _ [] _ _ G); [constructor |]. exact H.
Qed.
(* without .. the shortened path finds only what the system finds *)
Lemma lexical_only : forall root cwd s parts r, is_dir (Some root) = true -> is_dir (node_at root cwd) = true ->
  written s parts -> ~ In dotdot parts -> is_dir (node_at root r) = true \/ is_name (last parts []) ->
  os_resolve root cwd (render (red (components s))) = Some r -> os_resolve root cwd s = Some r.
Proof.
  intros root cwd s parts r R C Wr N L H.
  destruct (string_to_path_red s) as [_ Wf]. destruct (red_parts s) as (_ & S & T).
  destruct (tail_flat root cwd s R C) as [Tf G].
  assert (NE : red (components s) <> []). { intro E. rewrite E in H. discriminate. }
  rewrite resolve_render in H by assumption. rewrite S, T, <- start_components, Tf in H.
  rewrite red_noparent in H.
  2:{ rewrite in_flat_map. intros (x & I & J). rewrite (written_split _ _ Wr) in I.
      destruct (comp_of_cases x) as [[_ E] | [[E _] | [_ E]]].
      - rewrite E in J. destruct J.
      - subst x. contradiction.
      - rewrite E in J. destruct J as [J | []]. discriminate. }
  cbn [app] in H. rewrite (written_split _ _ Wr) in H. unfold os_resolve.
  destruct s as [| c s]; [exfalso; apply NE; reflexivity |].
  rewrite (written_split _ _ Wr). apply os_undrop; [assumption.. |]. apply Wr.
Qed.
Lemma lexical_same : forall root cwd s parts r, is_dir (Some root) = true -> is_dir (node_at root cwd) = true ->
  written s parts -> ~ In dotdot parts -> os_resolve root cwd s = Some r -> os_resolve root cwd (render (red (components s))) = Some r.
Proof.
  intros root cwd s parts r R C Wr N H.
  destruct (string_to_path_red s) as [_ Wf]. destruct (red_parts s) as (_ & S & T).
  destruct (tail_flat root cwd s R C) as [Tf G].
  assert (NP : ~ In Parent (flat_map comp_of (split_slash [] s))).
  { rewrite in_flat_map. intros (x & I & J). rewrite (written_split _ _ Wr) in I.
    destruct (comp_of_cases x) as [[_ E] | [[E _] | [_ E]]].
    - rewrite E in J. destruct J.
    - subst x. contradiction.
    - rewrite E in J. destruct J as [J | []]. discriminate. }
  assert (NE : red (components s) <> []).
  { unfold red. rewrite red_noparent; cbn [app].
    - rewrite components_comps, (written_split _ _ Wr). destruct Wr as (Nn & F & E).
      destruct (comps_cases parts) as [(x & r0 & _ & ->) | [(r0 & _ & ->) | (Cc & N1 & N2)]]; try discriminate.
      rewrite Cc. destruct parts as [| x p]; [congruence |]. cbn in N1, N2.
      destruct (comp_of_cases x) as [[[E2 | E2] _] | [[_ E2] | [_ E2]]].
      + subst x. rewrite (N2 eq_refl) in *. subst s. discriminate.
      + congruence.
      + cbn. rewrite E2. discriminate.
      + cbn. rewrite E2. discriminate.
    - rewrite <- Tf in NP. clear - NP. destruct (components s) as [| [] t]; cbn in *; try tauto; intros [J | J]; try discriminate; auto. }
  rewrite resolve_render by assumption. rewrite S, T, <- start_components, Tf.
  unfold os_resolve in H. destruct s as [| c s]; [discriminate |].
  apply os_drop in H. apply (os_red root _ [] _ _ G); [constructor |]. exact H.
Qed.

(* ---- writing ---- *)
Lemma chars_eqb_spec : forall a b, chars_eqb a b = true <-> a = b.
Proof.
  induction a as [| x a IH]; intros [| y b]; cbn; split; intros H; try discriminate; try reflexivity.
  - apply andb_true_iff in H. destruct H as [H1 H2]. apply Z.eqb_eq in H1. apply IH in H2. congruence.
  - injection H as -> ->. rewrite Z.eqb_refl. cbn. now apply IH.
Qed.
Lemma entry_set : forall name x es m, entry m (set_entry name x es) = if chars_eqb name m then Some x else entry m es.
Proof.
  intros name x. induction es as [| (n, y) es IH]; intros m; cbn; [reflexivity |].
  destruct (chars_eqb n name) eqn:E; cbn.
  - apply chars_eqb_spec in E. subst n. destruct (chars_eqb name m); reflexivity.
  - rewrite IH. destruct (chars_eqb n m) eqn:E2; [| reflexivity]. apply chars_eqb_spec in E2. subst m.
    destruct (chars_eqb name n) eqn:E3; [| reflexivity]. apply chars_eqb_spec in E3. subst n.
    assert (chars_eqb name name = true) by now apply chars_eqb_spec. congruence.
Qed.
Definition same_node (a b : option fnode) : Prop :=
  match a with
  | None => b = None
  | Some (FFile t) => b = Some (FFile t)
  | Some (FDir _) => is_dir b = true
  end.
Lemma same_refl : forall a, same_node a a.
Proof. intros [[] |]; reflexivity. Qed.
Lemma put_spec : forall s name es pl root, node_at root pl = Some (FDir es) ->
  (forall ds, entry name es <> Some (FDir ds)) ->
  node_at (put_at root (pl ++ [name]) (FFile s)) (pl ++ [name]) = Some (FFile s)
  /\ forall q, q = pl ++ [name] \/ same_node (node_at root q) (node_at (put_at root (pl ++ [name]) (FFile s)) q).
Proof.
  intros s name es. induction pl as [| k pl IH]; intros root H E.
  - cbn in H. injection H as ->. cbn [app].
    assert (P : put_at (FDir es) [name] (FFile s) = FDir (set_entry name (FFile s) es)).
    { cbn. destruct (entry name es); reflexivity. }
    rewrite P. cbn [node_at]. rewrite entry_set.
    assert (X : chars_eqb name name = true) by now apply chars_eqb_spec. rewrite X. split; [reflexivity |].
    intros [| m q]; [right; reflexivity |]. cbn [node_at]. rewrite entry_set.
    destruct (chars_eqb name m) eqn:Em.
    + apply chars_eqb_spec in Em. subst m. destruct q as [| m2 q]; [now left |]. right.
      destruct (entry name es) as [[t | ds] |] eqn:Ee; [reflexivity | now destruct (E ds) | reflexivity].
    + right. apply same_refl.
  - cbn [node_at] in H. destruct root as [t | rs]; [discriminate |].
    destruct (entry k rs) as [y |] eqn:Ek; [| discriminate].
    destruct (IH y H E) as [I1 I2]. cbn [app].
    assert (P : put_at (FDir rs) (k :: pl ++ [name]) (FFile s) = FDir (set_entry k (put_at y (pl ++ [name]) (FFile s)) rs)).
    { cbn [put_at]. rewrite Ek. reflexivity. }
    rewrite P. cbn [node_at]. rewrite entry_set.
    assert (X : chars_eqb k k = true) by now apply chars_eqb_spec. rewrite X. split; [exact I1 |].
    intros [| m q]; [right; reflexivity |]. cbn [node_at]. rewrite entry_set.
    destruct (chars_eqb k m) eqn:Em.
    + apply chars_eqb_spec in Em. subst m. rewrite Ek. destruct (I2 q) as [-> | S]; [now left | now right].
    + right. apply same_refl.
Qed.
Lemma walk_put : forall root root2 tp, (forall q, q = tp \/ same_node (node_at root q) (node_at root2 q)) ->
  (forall n, node_at root tp = Some n -> is_dir (Some n) = false) -> node_at root2 tp <> None ->
  forall parts pl r, os_walk root pl parts = Some r -> os_walk root2 pl parts = Some r.
Proof.
  intros root root2 tp S D F.
  assert (DD : forall q, is_dir (node_at root q) = true -> is_dir (node_at root2 q) = true).
  { intros q H. destruct (S q) as [-> | X].
    - destruct (node_at root tp) as [n |]; [| discriminate]. now rewrite (D n eq_refl) in H.
    - unfold same_node in X. destruct (node_at root q) as [[] |]; try discriminate. exact X. }
  assert (NN : forall q, node_at root q <> None -> node_at root2 q <> None).
  { intros q H. destruct (S q) as [-> | X]; [assumption |]. unfold same_node in X.
    destruct (node_at root q) as [[] |]; [congruence | | congruence]. intro Y. rewrite Y in X. discriminate. }
  induction parts as [| x parts IH]; intros pl r H; [exact H |].
  rewrite os_walk_cons in *. destruct (os_step root (Some pl) x) as [q |] eqn:St; [| discriminate].
  assert (St2 : os_step root2 (Some pl) x = Some q).
  { pose proof (os_step_dir _ _ _ _ St) as Dp.
    destruct (comp_of_cases x) as [[E _] | [[-> _] | [E _]]].
    - rewrite os_step_stay in * by (assumption || now apply DD). assumption.
    - unfold os_step in *. rewrite Dp in St. rewrite (DD _ Dp). exact St.
    - rewrite os_step_name in * by assumption. rewrite Dp in St. rewrite (DD _ Dp).
      destruct (node_at root (pl ++ [x])) eqn:N; [| discriminate].
      destruct (node_at root2 (pl ++ [x])) eqn:N2; [assumption |]. exfalso. apply (NN (pl ++ [x])); congruence. }
  rewrite St2. now apply IH.
Qed.
