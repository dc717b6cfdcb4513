From Verif Require Import Base ModelText ModelPath SpecPath.
Local Open Scope Z_scope.

(* ---- splitting ---- *)
Lemma slashed_cons : forall x r, r <> [] -> slashed (x :: r) = x ++ 47 :: slashed r.
Proof. intros x [| y r] H; [congruence | reflexivity]. Qed.

Lemma split_app : forall s acc q, split_slash acc (s ++ 47 :: q) = split_slash acc s ++ split_slash [] q.
Proof.
  induction s as [| c s IH]; intros acc q; cbn.
  - reflexivity.
  - destruct (c =? 47); cbn; rewrite IH; reflexivity.
Qed.

Lemma split_plain : forall s acc, no_slash s -> split_slash acc s = [acc ++ s].
Proof.
  unfold no_slash. induction s as [| c s IH]; intros acc H; cbn.
  - now rewrite app_nil_r.
  - destruct (Z.eqb_spec c 47) as [-> | N].
    + exfalso. apply H. now left.
    + rewrite IH. 2:{ intro I. apply H. now right. } now rewrite <- app_assoc.
Qed.

Lemma split_slashed : forall parts, parts <> [] -> Forall no_slash parts -> split_slash [] (slashed parts) = parts.
Proof.
  induction parts as [| x r IH]; intros N F; [congruence |].
  inversion F as [| ? ? Fx Fr]; subst.
  destruct r as [| y r].
  - cbn [slashed]. now rewrite split_plain.
  - rewrite slashed_cons by congruence. rewrite split_app, split_plain by assumption.
    rewrite IH by (congruence || assumption). reflexivity.
Qed.

Lemma written_split : forall p parts, written p parts -> split_slash [] p = parts.
Proof. intros p parts (N & F & ->). now apply split_slashed. Qed.

Lemma split_written_gen : forall s acc, no_slash acc ->
  exists x r, split_slash acc s = x :: r /\ Forall no_slash (x :: r) /\ slashed (x :: r) = acc ++ s.
Proof.
  induction s as [| c s IH]; intros acc H; cbn [split_slash].
  - exists acc, []. repeat split; [constructor; [assumption | constructor] | cbn; now rewrite app_nil_r].
  - destruct (Z.eqb_spec c 47) as [-> | N].
    + destruct (IH []) as (x & r & E & F & S). { intros []. }
      exists acc, (x :: r). rewrite E. repeat split; [constructor; assumption |].
      rewrite slashed_cons by congruence. now rewrite S.
    + destruct (IH (acc ++ [c])) as (x & r & E & F & S).
      { unfold no_slash in *. rewrite in_app_iff. cbn. intuition. }
      exists x, r. repeat split; [assumption.. |]. rewrite S, <- app_assoc. reflexivity.
Qed.

Lemma split_written : forall s, written s (split_slash [] s).
Proof.
  intros s. destruct (split_written_gen s []) as (x & r & E & F & S). { intros []. }
  rewrite E. repeat split; [congruence | assumption | now rewrite S].
Qed.

Lemma split_nonempty : forall s acc, split_slash acc s <> [].
Proof.
  induction s as [| c s IH]; intros acc; cbn; [congruence |]. destruct (c =? 47); [congruence | apply IH].
Qed.

(* ---- lists of components that are their own text ---- *)
Definition good (c : comp) : Prop :=
  match c with Parent => True | Normal n => is_name n /\ no_slash n | _ => False end.
Definition wf (cs : list comp) : Prop :=
  match cs with
  | Root :: t | Cur :: t => Forall good t
  | _ => Forall good cs
  end.
Definition render (cs : list comp) : path := fold_left push (map comp_text cs) [].

Lemma comp_of_good : forall part, no_slash part -> Forall good (comp_of part).
Proof.
  intros part N. unfold comp_of.
  assert (G : forall part, no_slash part -> is_name part -> Forall good [Normal part]).
  { intros. constructor; [split; assumption | constructor]. }
  destruct part as [| c [| c2 [| c3 r]]]; [constructor | | |].
  - destruct (Z.eq_dec c 46) as [-> | D]; [constructor |].
    assert (E : comp_of [c] = [Normal [c]]).
    { unfold comp_of. destruct c as [| p | p]; try reflexivity.
      do 7 (try destruct p as [p | p |]; try reflexivity); congruence. }
    unfold comp_of in E. rewrite E. apply G; [assumption |]. repeat split; unfold dot, dotdot; congruence.
  - destruct (list_eq_dec Z.eq_dec [c; c2] dotdot) as [E | D].
    + injection E as -> ->. constructor; [exact I | constructor].
    + assert (E : comp_of [c; c2] = [Normal [c; c2]]).
      { unfold comp_of. destruct (Z.eq_dec c 46) as [-> | D2].
        - destruct c2 as [| p | p]; try reflexivity.
          do 7 (try destruct p as [p | p |]; try reflexivity); exfalso; apply D; reflexivity.
        - destruct c as [| p | p]; try reflexivity.
          do 7 (try destruct p as [p | p |]; try reflexivity); congruence. }
      unfold comp_of in E. rewrite E. apply G; [assumption |]. repeat split; unfold dot in *; congruence.
  - assert (E : comp_of (c :: c2 :: c3 :: r) = [Normal (c :: c2 :: c3 :: r)]).
    { unfold comp_of. destruct c as [| p | p]; try reflexivity.
      do 7 (try destruct p as [p | p |]; try reflexivity).
      destruct c2 as [| p | p]; try reflexivity.
      do 7 (try destruct p as [p | p |]; try reflexivity). }
    unfold comp_of in E. rewrite E. apply G; [assumption |]. repeat split; unfold dot, dotdot; congruence.
Qed.

Lemma comp_of_cases : forall part,
  (part = [] \/ part = dot) /\ comp_of part = [] \/ part = dotdot /\ comp_of part = [Parent]
  \/ is_name part /\ comp_of part = [Normal part].
Proof.
  intros part.
  destruct (list_eq_dec Z.eq_dec part []) as [-> | D1]; [left; split; [now left | reflexivity] |].
  destruct (list_eq_dec Z.eq_dec part dot) as [-> | D2]; [left; split; [now right | reflexivity] |].
  destruct (list_eq_dec Z.eq_dec part dotdot) as [-> | D3]; [right; left; split; reflexivity |].
  right; right. split; [repeat split; assumption |].
  unfold comp_of. destruct part as [| c [| c2 [| c3 r]]]; [congruence | | |].
  - destruct c as [| p | p]; try reflexivity.
    do 7 (try destruct p as [p | p |]; try reflexivity). exfalso; apply D2; reflexivity.
  - destruct c as [| p | p]; try reflexivity.
    do 7 (try destruct p as [p | p |]; try reflexivity).
    destruct c2 as [| p | p]; try reflexivity.
    do 7 (try destruct p as [p | p |]; try reflexivity). exfalso; apply D3; reflexivity.
  - destruct c as [| p | p]; try reflexivity.
    do 7 (try destruct p as [p | p |]; try reflexivity).
    destruct c2 as [| p | p]; try reflexivity.
    do 7 (try destruct p as [p | p |]; try reflexivity).
Qed.

Lemma flat_good : forall parts, Forall no_slash parts -> Forall good (flat_map comp_of parts).
Proof.
  induction parts as [| x r IH]; intros F; cbn; [constructor |].
  inversion F; subst. apply Forall_app. split; [now apply comp_of_good | now apply IH].
Qed.

(* components of a list of parts *)
Definition comps (parts : list chars) : list comp :=
  match parts with
  | [] :: ((_ :: _) as parts) => Root :: flat_map comp_of parts
  | [46] :: parts => Cur :: flat_map comp_of parts
  | parts => flat_map comp_of parts
  end.
Lemma components_comps : forall p, components p = comps (split_slash [] p).
Proof.
  intros p. unfold components, comps. destruct (split_slash [] p) as [| [| c x] r]; [reflexivity | destruct r; reflexivity |].
  destruct c as [| q | q]; try reflexivity.
  do 7 (try destruct q as [q | q |]; try reflexivity). destruct x; reflexivity.
Qed.
Lemma comps_cases : forall parts,
  (exists x r, parts = [] :: x :: r /\ comps parts = Root :: flat_map comp_of (x :: r))
  \/ (exists r, parts = dot :: r /\ comps parts = Cur :: flat_map comp_of r)
  \/ (comps parts = flat_map comp_of parts /\ hd [] parts <> dot /\ (hd [] parts = [] -> tl parts = [])).
Proof.
  intros parts. destruct parts as [| x r]; [right; right; split; [reflexivity | split; [discriminate | reflexivity]] |].
  destruct (list_eq_dec Z.eq_dec x dot) as [-> | D].
  - right; left. exists r. split; reflexivity.
  - destruct x as [| c x].
    + destruct r as [| y r].
      * right; right. split; [reflexivity | split; [discriminate | reflexivity]].
      * left. exists y, r. split; reflexivity.
    + right; right. split; [| split; [assumption | discriminate]].
      unfold comps. destruct c as [| p | p]; try reflexivity.
      do 7 (try destruct p as [p | p |]; try reflexivity).
      destruct x; [exfalso; apply D; reflexivity | reflexivity].
Qed.

Lemma wf_good : forall t, Forall good t -> wf t.
Proof. intros [| c t] F; [constructor |]. inversion F; subst. destruct c; try contradiction; exact F. Qed.
Lemma comps_wf : forall parts, Forall no_slash parts -> wf (comps parts).
Proof.
  intros parts F. destruct (comps_cases parts) as [(x & r & -> & ->) | [(r & -> & ->) | (-> & _ & _)]].
  - inversion F; subst. now apply flat_good.
  - inversion F; subst. now apply flat_good.
  - apply wf_good. now apply flat_good.
Qed.
Lemma components_wf : forall p, wf (components p).
Proof. intros p. rewrite components_comps. apply comps_wf. apply (split_written p). Qed.

(* ---- rendering ---- *)
Lemma good_text : forall c, good c -> comp_text c <> [] /\ no_slash (comp_text c) /\ comp_text c <> dot.
Proof.
  intros [| | | n] G; try contradiction.
  - unfold no_slash. cbn. repeat split; [discriminate | intuition discriminate | discriminate].
  - destruct G as ((A & B & C) & D). repeat split; assumption.
Qed.

Definition tight (ts : list chars) : Prop := Forall (fun t => t <> [] /\ no_slash t) ts.
Lemma good_tight : forall t, Forall good t -> tight (map comp_text t).
Proof.
  induction 1 as [| c t G F IH]; cbn; constructor; [| assumption].
  destruct (good_text c G) as (A & B & _). now split.
Qed.
Lemma tight_no_slash : forall ts, tight ts -> Forall no_slash ts.
Proof. intros ts H. eapply Forall_impl; [| exact H]. now intros a [_ ?]. Qed.

Lemma slashed_snoc : forall ts x, ts <> [] -> slashed (ts ++ [x]) = slashed ts ++ 47 :: x.
Proof.
  induction ts as [| y r IH]; intros x N; [congruence |].
  destruct r as [| z r]; [reflexivity |].
  change ((y :: z :: r) ++ [x]) with (y :: ((z :: r) ++ [x])).
  rewrite slashed_cons. 2:{ destruct r; discriminate. }
  rewrite IH by congruence. rewrite (slashed_cons y (z :: r)) by congruence. now rewrite <- app_assoc.
Qed.

Lemma last_app_ne : forall (a b : chars) d, b <> [] -> last (a ++ b) d = last b d.
Proof.
  induction a as [| c a IH]; intros b d N; [reflexivity |].
  cbn [app]. rewrite <- (IH b d N). destruct (a ++ b) eqn:E; [| reflexivity].
  apply app_eq_nil in E. destruct E; congruence.
Qed.
Lemma last_in : forall (a : chars) d, a <> [] -> In (last a d) a.
Proof.
  induction a as [| c a IH]; intros d N; [congruence |].
  destruct a as [| c2 a]; [now left |]. right. apply IH. congruence.
Qed.

Lemma tight_last : forall ts, tight ts -> ts <> [] -> slashed ts <> [] /\ last (slashed ts) 0 <> 47.
Proof.
  intros ts H N. destruct (exists_last N) as (l & x & ->).
  apply Forall_app in H. destruct H as [_ H]. inversion H as [| ? ? [Hx Sx] _]; subst.
  assert (L : last x 0 <> 47).
  { intro E. apply Sx. rewrite <- E. now apply last_in. }
  destruct l as [| y l].
  - split; assumption.
  - rewrite slashed_snoc by congruence. split.
    + destruct (slashed (y :: l)); discriminate.
    + rewrite last_app_ne by congruence. destruct x as [| c x]; [congruence |]. exact L.
Qed.

Lemma push_rel : forall p q, ~ absolute q ->
  push p q = match p with [] => q | _ => if last p 0 =? 47 then p ++ q else p ++ 47 :: q end.
Proof.
  intros p q N. unfold push. destruct q as [| c q]; [reflexivity |].
  destruct (Z.eq_dec c 47) as [-> | D]; [exfalso; apply N; now exists q |].
  destruct c as [| c | c]; try reflexivity. do 7 (try destruct c as [c | c |]; try reflexivity). congruence.
Qed.
Lemma push_abs : forall p q, push p (47 :: q) = 47 :: q.
Proof. reflexivity. Qed.
Lemma plain_rel : forall q, no_slash q -> ~ absolute q.
Proof. intros q N [r ->]. apply N. now left. Qed.

Lemma push_slashed : forall ts x, tight ts -> no_slash x -> push (slashed ts) x = slashed (ts ++ [x]).
Proof.
  intros ts x T N. rewrite push_rel by now apply plain_rel.
  destruct ts as [| y r]; [reflexivity |].
  destruct (tight_last (y :: r) T) as [A B]; [congruence |].
  rewrite slashed_snoc by congruence.
  destruct (slashed (y :: r)) eqn:E; [congruence |].
  apply Z.eqb_neq in B. now rewrite B.
Qed.
Lemma push_abs_slashed : forall ts x, tight ts -> no_slash x -> push (47 :: slashed ts) x = 47 :: slashed (ts ++ [x]).
Proof.
  intros ts x T N. rewrite push_rel by now apply plain_rel.
  destruct ts as [| y r]; [reflexivity |].
  destruct (tight_last (y :: r) T) as [A B]; [congruence |].
  rewrite slashed_snoc by congruence.
  destruct (slashed (y :: r)) as [| c l] eqn:E; [congruence |].
  change (last (47 :: c :: l) 0) with (last (c :: l) 0).
  apply Z.eqb_neq in B. now rewrite B.
Qed.

Lemma tight_app : forall a b, tight a -> tight b -> tight (a ++ b).
Proof. intros a b A B. now apply Forall_app. Qed.
Lemma fold_push : forall us ts, tight us -> tight ts -> fold_left push us (slashed ts) = slashed (ts ++ us).
Proof.
  induction us as [| u us IH]; intros ts U T; cbn [fold_left]; [now rewrite app_nil_r |].
  inversion U as [| ? ? [U1 U2] U3]; subst. rewrite push_slashed by assumption.
  rewrite IH; [now rewrite <- app_assoc | assumption |].
  apply tight_app; [assumption |]. constructor; [now split | constructor].
Qed.
Lemma fold_push_abs : forall us ts, tight us -> tight ts -> fold_left push us (47 :: slashed ts) = 47 :: slashed (ts ++ us).
Proof.
  induction us as [| u us IH]; intros ts U T; cbn [fold_left]; [now rewrite app_nil_r |].
  inversion U as [| ? ? [U1 U2] U3]; subst. rewrite push_abs_slashed by assumption.
  rewrite IH; [now rewrite <- app_assoc | assumption |].
  apply tight_app; [assumption |]. constructor; [now split | constructor].
Qed.

Lemma dot_tight : tight [dot].
Proof. constructor; [| constructor]. split; [discriminate |]. unfold no_slash. cbn. intuition discriminate. Qed.

Lemma render_root : forall t, Forall good t -> render (Root :: t) = 47 :: slashed (map comp_text t).
Proof.
  intros t G. unfold render. cbn [map fold_left comp_text]. rewrite push_abs.
  change [47] with (47 :: slashed []). rewrite fold_push_abs; [reflexivity | now apply good_tight | constructor].
Qed.
Lemma render_cur : forall t, Forall good t -> render (Cur :: t) = slashed (dot :: map comp_text t).
Proof.
  intros t G. unfold render. cbn [map fold_left comp_text].
  change (push [] [46]) with (slashed [dot]). rewrite fold_push; [reflexivity | now apply good_tight | apply dot_tight].
Qed.
Lemma render_good : forall t, Forall good t -> render t = slashed (map comp_text t).
Proof.
  intros t G. unfold render. change (@nil Z) with (slashed []). rewrite fold_push; [reflexivity | now apply good_tight | constructor].
Qed.

Lemma flat_comp_text : forall t, Forall good t -> flat_map comp_of (map comp_text t) = t.
Proof.
  induction 1 as [| c t G F IH]; [reflexivity |]. cbn [map flat_map]. rewrite IH.
  destruct c as [| | | n]; try contradiction; [reflexivity |].
  destruct G as [(A & B & C) _]. cbn [comp_text].
  destruct (comp_of_cases n) as [[[H | H] _] | [[H _] | [_ H]]]; try congruence. now rewrite H.
Qed.

Lemma render_parts : forall cs, wf cs ->
  split_slash [] (render cs) =
  match cs with
  | Root :: t => [] :: match t with [] => [[]] | _ => map comp_text t end
  | Cur :: t => dot :: map comp_text t
  | [] => [[]]
  | t => map comp_text t
  end.
Proof.
  intros cs W. destruct cs as [| c t]; [reflexivity |].
  assert (NG : forall t, Forall good t -> t <> [] -> split_slash [] (slashed (map comp_text t)) = map comp_text t).
  { intros u G N. apply split_slashed.
    - destruct u; [congruence | discriminate].
    - apply tight_no_slash. now apply good_tight. }
  destruct c.
  - rewrite render_root by exact W. change (47 :: slashed (map comp_text t)) with ([] ++ 47 :: slashed (map comp_text t)).
    rewrite split_app. cbn [split_slash app]. f_equal. destruct t; [reflexivity |]. apply NG; [exact W | congruence].
  - rewrite render_cur by exact W. change (dot :: map comp_text t) with ([dot] ++ map comp_text t).
    apply split_slashed; [discriminate |]. apply tight_no_slash. apply tight_app; [apply dot_tight | now apply good_tight].
  - rewrite render_good by exact W. apply NG; [exact W | congruence].
  - rewrite render_good by exact W. apply NG; [exact W | congruence].
Qed.

Lemma components_render : forall cs, wf cs -> components (render cs) = cs.
Proof.
  intros cs W. rewrite components_comps, render_parts by assumption.
  destruct cs as [| c t]; [reflexivity |]. destruct c; cbn [wf] in W.
  - destruct t as [| c t]; [reflexivity |]. change (map comp_text (c :: t)) with (comp_text c :: map comp_text t).
    cbn [comps]. change (comp_text c :: map comp_text t) with (map comp_text (c :: t)). now rewrite flat_comp_text.
  - change (comps (dot :: map comp_text t)) with (Cur :: flat_map comp_of (map comp_text t)). now rewrite flat_comp_text.
  - destruct (comps_cases (map comp_text (Parent :: t))) as [(x & r & E & _) | [(r & E & _) | (E & _ & _)]]; try discriminate.
    rewrite E. now rewrite flat_comp_text.
  - pose proof (Forall_inv W) as G. cbn [good] in G. destruct G as [(A & B & C) D].
    destruct (comps_cases (map comp_text (Normal n :: t))) as [(x & r & E & _) | [(r & E & _) | (E & _ & _)]].
    + injection E. intros. congruence.
    + injection E. intros. congruence.
    + rewrite E. now rewrite flat_comp_text.
Qed.

Lemma wf_push : forall cs c, wf cs -> good c -> wf (cs ++ [c]).
Proof.
  intros cs c W G. assert (G1 : Forall good [c]) by (constructor; [assumption | constructor]).
  destruct cs as [| h t]; [now apply wf_good |].
  destruct h; cbn [wf app] in *; try (apply Forall_app; split; assumption).
  - change (Forall good ((Parent :: t) ++ [c])). apply Forall_app. split; assumption.
  - change (Forall good ((Normal n :: t) ++ [c])). apply Forall_app. split; assumption.
Qed.
Lemma wf_removelast : forall cs, wf cs -> wf (removelast cs).
Proof.
  assert (R : forall t, Forall good t -> Forall good (removelast t)).
  { induction 1 as [| x t G F IH]; [constructor |]. cbn. destruct t; [constructor |]. constructor; assumption. }
  intros [| h t] W; [constructor |]. destruct t as [| c t]; [constructor |].
  change (removelast (h :: c :: t)) with (h :: removelast (c :: t)).
  destruct h; cbn [wf] in *.
  - now apply R.
  - now apply R.
  - change (Forall good (removelast (Parent :: c :: t))). now apply R.
  - change (Forall good (removelast (Normal n :: c :: t))). now apply R.
Qed.
Lemma render_snoc : forall cs c, render (cs ++ [c]) = push (render cs) (comp_text c).
Proof. intros. unfold render. rewrite map_app, fold_left_app. reflexivity. Qed.

Lemma last_comp_render : forall cs, wf cs -> last_comp (render cs) = match rev cs with c :: _ => Some c | [] => None end.
Proof. intros cs W. unfold last_comp. now rewrite components_render. Qed.
Lemma file_name_render : forall cs, wf cs -> file_name (render cs) = match rev cs with Normal n :: _ => Some n | _ => None end.
Proof. intros cs W. unfold file_name. rewrite last_comp_render by assumption. destruct (rev cs) as [| [] ?]; reflexivity. Qed.
Lemma parent_render : forall cs, wf cs ->
  parent (render cs) = match rev cs with [] | Root :: _ => None | _ => Some (render (removelast cs)) end.
Proof.
  intros cs W. unfold parent. rewrite last_comp_render, components_render by assumption.
  destruct (rev cs) as [| [] ?]; reflexivity.
Qed.

(* ---- string_to_path ---- *)
Definition red_step (cs : list comp) (c : comp) : list comp :=
  match c with
  | Parent => match rev cs with Normal _ :: _ => removelast cs | _ => cs ++ [c] end
  | _ => cs ++ [c]
  end.
Definition red (cs : list comp) : list comp := fold_left red_step cs [].

Lemma red_step_wf : forall cs c, wf cs -> good c -> wf (red_step cs c).
Proof.
  intros cs c W G. destruct c; try contradiction; cbn [red_step].
  - destruct (rev cs) as [| [] ?]; try (apply wf_push; assumption). now apply wf_removelast.
  - now apply wf_push.
Qed.
Lemma norm_step_render : forall cs c, wf cs -> good c -> norm_step (render cs) c = render (red_step cs c).
Proof.
  intros cs c W G. destruct c; try contradiction; cbn [red_step norm_step].
  - rewrite file_name_render by assumption. unfold pop. rewrite parent_render by assumption.
    destruct (rev cs) as [| [] ?]; rewrite ?render_snoc; reflexivity.
  - now rewrite render_snoc.
Qed.
Lemma norm_fold : forall t cs, Forall good t -> wf cs ->
  fold_left norm_step t (render cs) = render (fold_left red_step t cs) /\ wf (fold_left red_step t cs).
Proof.
  induction t as [| c t IH]; intros cs G W; cbn [fold_left]; [now split |].
  inversion G; subst. rewrite norm_step_render by assumption. apply IH; [assumption | now apply red_step_wf].
Qed.
Lemma string_to_path_red : forall s, string_to_path (PStr s) = Ok (render (red (components s))) /\ wf (red (components s)).
Proof.
  intros s. unfold string_to_path. cbn [expect_string rbind]. pose proof (components_wf s) as W.
  destruct (components s) as [| c t].
  - split; [reflexivity | constructor].
  - assert (K : fold_left norm_step (c :: t) (render []) = render (red (c :: t)) /\ wf (red (c :: t))).
    { unfold red. destruct c; cbn [wf] in W; cbn [fold_left red_step app].
      - change (norm_step (render []) Root) with (render [Root]). apply norm_fold; [assumption | constructor].
      - change (norm_step (render []) Cur) with (render [Cur]). apply norm_fold; [assumption | constructor].
      - change (norm_step (render []) Parent) with (render [Parent]). inversion W; subst.
        apply norm_fold; [assumption | repeat constructor].
      - inversion W as [| ? ? G F]; subst. rewrite norm_step_render by (assumption || constructor).
        apply norm_fold; [assumption |]. apply wf_good. constructor; [assumption | constructor]. }
    destruct K as [K1 K2]. split; [| assumption]. change (@nil Z) with (render []). now rewrite K1.
Qed.

(* ---- following a path by names ---- *)
Definition walk_step (pos : list chars) (c : comp) : list chars :=
  match c with Root => [] | Cur => pos | Parent => removelast pos | Normal n => pos ++ [n] end.
Definition walk (cs : list comp) (pos : list chars) : list chars := fold_left walk_step cs pos.

Lemma walk_app : forall a b pos, walk (a ++ b) pos = walk b (walk a pos).
Proof. intros. apply fold_left_app. Qed.
Lemma rev_last : forall (A : Type) (l : list A) x r, rev l = x :: r -> l = removelast l ++ [x].
Proof.
  intros A l x r H. assert (E : l = rev r ++ [x]).
  { rewrite <- (rev_involutive l), H. reflexivity. }
  rewrite E. now rewrite removelast_last.
Qed.
Lemma walk_red_step : forall acc c pos, walk (red_step acc c) pos = walk_step (walk acc pos) c.
Proof.
  intros acc c pos. destruct c; cbn [red_step]; try (rewrite walk_app; reflexivity).
  destruct (rev acc) as [| [] r] eqn:E; try (rewrite walk_app; reflexivity).
  apply rev_last in E. rewrite E at 2. rewrite walk_app. cbn. now rewrite removelast_last.
Qed.
Lemma walk_red_acc : forall cs acc pos, walk (fold_left red_step cs acc) pos = walk cs (walk acc pos).
Proof.
  induction cs as [| c cs IH]; intros acc pos; cbn [fold_left]; [reflexivity |].
  rewrite IH, walk_red_step. reflexivity.
Qed.
Lemma walk_red : forall cs pos, walk (red cs) pos = walk cs pos.
Proof. intros. unfold red. now rewrite walk_red_acc. Qed.

Lemma goes_walk : forall parts pos pos2, goes pos parts pos2 -> walk (flat_map comp_of parts) pos = pos2.
Proof.
  induction 1; cbn [flat_map].
  - reflexivity.
  - destruct H as [-> | ->]; exact IHgoes.
  - exact IHgoes.
  - change (comp_of dotdot) with [Parent]. cbn [app walk fold_left walk_step]. rewrite removelast_last. exact IHgoes.
  - destruct (comp_of_cases n) as [[[E | E] _] | [[E _] | [_ E]]]; try (destruct H as (A & B & C); congruence).
    rewrite E. exact IHgoes.
Qed.

Lemma written_abs : forall p parts, written p parts -> (absolute p <-> exists x r, parts = [] :: x :: r).
Proof.
  intros p parts (N & F & ->). split.
  - intros [q E]. destruct parts as [| y r]; [congruence |].
    destruct r as [| z r].
    + cbn in E. exfalso. inversion F as [| ? ? S _]; subst. apply S. now left.
    + rewrite slashed_cons in E by congruence. destruct y as [| c y]; [now exists z, r |].
      cbn in E. injection E as -> _. exfalso. inversion F as [| ? ? S _]; subst. apply S. now left.
  - intros (x & r & ->). rewrite slashed_cons by congruence. now eexists.
Qed.

(* the components of a path lead where its parts lead *)
Lemma components_goes : forall p parts start base pos, written p parts -> begins base p start -> goes start parts pos ->
  walk (components p) base = pos.
Proof.
  intros p parts start base pos W B G. rewrite components_comps, (written_split p parts W).
  apply goes_walk in G. pose proof (written_abs p parts W) as A.
  destruct (comps_cases parts) as [(x & r & E & C) | [(r & E & C) | (C & N1 & N2)]].
  - destruct B as [[_ ->] | [B _]]. 2:{ exfalso. apply B, A. now exists x, r. }
    rewrite C. subst parts. exact G.
  - destruct B as [[B _] | [_ ->]]. { apply A in B. destruct B as (y & r2 & E2). subst parts. discriminate. }
    rewrite C. subst parts. exact G.
  - destruct B as [[B _] | [_ ->]].
    { apply A in B. destruct B as (y & r2 & E2). subst parts. cbn in N2. specialize (N2 eq_refl). discriminate. }
    rewrite C. exact G.
Qed.

(* ---- the absolute text of a place ---- *)
Lemma abs_text_render : forall pos, proper pos -> abs_text pos = render (Root :: map Normal pos).
Proof.
  intros pos P. rewrite render_root.
  - rewrite map_map. cbn. rewrite map_id. destruct pos; reflexivity.
  - apply Forall_map. exact P.
Qed.
Lemma proper_wf : forall pos, proper pos -> wf (Root :: map Normal pos).
Proof. intros pos P. cbn. apply Forall_map. exact P. Qed.
Lemma removelast_map : forall (A B : Type) (f : A -> B) l, removelast (map f l) = map f (removelast l).
Proof. induction l as [| x l IH]; [reflexivity |]. cbn. destruct l; [reflexivity |]. cbn in *. now rewrite IH. Qed.
Lemma proper_removelast : forall pos, proper pos -> proper (removelast pos).
Proof. induction 1 as [| x t G F IH]; [constructor |]. cbn. destruct t; [constructor |]. constructor; assumption. Qed.
Lemma pop_abs : forall pos, proper pos -> pop (abs_text pos) = abs_text (removelast pos).
Proof.
  intros pos P. rewrite !abs_text_render by (assumption || now apply proper_removelast).
  unfold pop. rewrite parent_render by now apply proper_wf.
  destruct pos as [| n t] using rev_ind; [reflexivity |].
  rewrite map_app. cbn [map]. change (Root :: map Normal t ++ [Normal n]) with ((Root :: map Normal t) ++ [Normal n]).
  rewrite rev_unit, !removelast_last. reflexivity.
Qed.
Lemma push_abs_text : forall pos n, proper pos -> no_slash n -> is_name n -> push (abs_text pos) n = abs_text (pos ++ [n]).
Proof.
  intros pos n P N I. rewrite !abs_text_render.
  - rewrite map_app. change (Root :: map Normal pos ++ map Normal [n]) with ((Root :: map Normal pos) ++ [Normal n]).
    now rewrite render_snoc.
  - apply Forall_app. split; [assumption |]. constructor; [now split | constructor].
  - assumption.
Qed.

Definition no_tilde (cs : list comp) : Prop := Forall (fun c => c <> Normal tilde) cs.
Lemma is_tilde_spec : forall n, is_tilde n = true <-> n = tilde.
Proof.
  intros n. split; [| now intros ->]. destruct n as [| c n]; [discriminate |]. unfold is_tilde.
  destruct c as [| p | p]; try discriminate.
  do 7 (try destruct p as [p | p |]; try discriminate). destruct n; [reflexivity | discriminate].
Qed.
Lemma expand_fold : forall home t pos, proper pos -> Forall good t -> no_tilde t ->
  fold_left (expand_step home) t (abs_text pos) = abs_text (walk t pos) /\ proper (walk t pos).
Proof.
  intros home. induction t as [| c t IH]; intros pos P G T; cbn [fold_left walk]; [now split |].
  inversion G as [| ? ? Gc Gt]; subst. inversion T as [| ? ? Tc Tt]; subst.
  destruct c; try contradiction; cbn [expand_step].
  - rewrite pop_abs by assumption. apply IH; [now apply proper_removelast | assumption..].
  - destruct Gc as [A B]. destruct (is_tilde n) eqn:E. { apply is_tilde_spec in E. congruence. }
    rewrite push_abs_text by assumption. apply IH; [| assumption..].
    apply Forall_app. split; [assumption |]. constructor; [now split | constructor].
Qed.
Lemma expand_wf : forall home cs pos, proper pos -> wf cs -> no_tilde cs ->
  fold_left (expand_step home) cs (abs_text pos) = abs_text (walk cs pos) /\ proper (walk cs pos).
Proof.
  intros home cs pos P W T. destruct cs as [| c t]; [now split |].
  inversion T; subst. destruct c; cbn [wf] in W.
  - cbn [fold_left expand_step walk walk_step]. change [47] with (abs_text []). apply expand_fold; [constructor | assumption..].
  - cbn [fold_left expand_step walk walk_step]. apply expand_fold; assumption.
  - apply expand_fold; assumption.
  - apply expand_fold; assumption.
Qed.

Lemma red_step_tilde : forall cs c, no_tilde cs -> c <> Normal tilde -> no_tilde (red_step cs c).
Proof.
  intros cs c T N. assert (A : no_tilde (cs ++ [c])) by (apply Forall_app; split; [assumption | constructor; [assumption | constructor]]).
  destruct c; cbn [red_step]; try exact A. destruct (rev cs) as [| [] ?] eqn:E; try exact A.
  apply rev_last in E. rewrite E in T. apply Forall_app in T. apply T.
Qed.
Lemma red_tilde : forall cs acc, no_tilde acc -> no_tilde cs -> no_tilde (fold_left red_step cs acc).
Proof.
  induction cs as [| c cs IH]; intros acc A T; [assumption |]. inversion T; subst. cbn. apply IH; [| assumption].
  now apply red_step_tilde.
Qed.
Lemma components_tilde : forall p parts, written p parts -> ~ In tilde parts -> no_tilde (components p).
Proof.
  intros p parts W N. rewrite components_comps, (written_split p parts W).
  assert (K : forall l, ~ In tilde l -> no_tilde (flat_map comp_of l)).
  { induction l as [| x l IH]; intros H; cbn; [constructor |]. apply Forall_app. split.
    - destruct (comp_of_cases x) as [[_ E] | [[_ E] | [_ E]]]; rewrite E; repeat constructor; [congruence |].
      intro F. injection F as ->. apply H. now left.
    - apply IH. intro I. apply H. now right. }
  destruct (comps_cases parts) as [(x & r & E & ->) | [(r & E & ->) | (-> & _ & _)]].
  - constructor; [discriminate |]. apply K. intro I. apply N. subst. now right.
  - constructor; [discriminate |]. apply K. intro I. apply N. subst. now right.
  - now apply K.
Qed.

(* ---- a path behind another ---- *)
Lemma abs_dec : forall p, absolute p \/ ~ absolute p.
Proof.
  intros [| c p]; [right; now intros [q E] |]. destruct (Z.eq_dec c 47) as [-> | D]; [left; now exists p |].
  right. intros [q E]. congruence.
Qed.
Lemma walk_parts : forall p pos, walk (components p) pos =
  walk (flat_map comp_of (split_slash [] p)) (match p with 47 :: _ => [] | _ => pos end).
Proof.
  intros p pos. rewrite components_comps. pose proof (split_written p) as W. pose proof (written_abs _ _ W) as A.
  assert (S : forall x, (match p with 47 :: _ => [] | _ => x end) = (if match p with 47 :: _ => true | _ => false end then [] else x) :> list chars).
  { intros x. destruct p as [| [| q | q] p]; try reflexivity. do 7 (try destruct q as [q | q |]; try reflexivity). }
  rewrite S.
  assert (B : (match p with 47 :: _ => true | _ => false end) = true <-> absolute p).
  { split.
    - destruct p as [| [| q | q] p]; try discriminate. do 7 (try destruct q as [q | q |]; try discriminate). intros _. now exists p.
    - intros [q ->]. reflexivity. }
  destruct (comps_cases (split_slash [] p)) as [(x & r & E & C) | [(r & E & C) | (C & N1 & N2)]]; rewrite C.
  - assert (X : absolute p) by (apply A; now exists x, r). apply B in X. rewrite X, E. reflexivity.
  - destruct (match p with 47 :: _ => true | _ => false end) eqn:X.
    + exfalso. assert (Y : absolute p) by now apply B. apply A in Y. destruct Y as (x & r2 & Y). rewrite E in Y. discriminate.
    + rewrite E. reflexivity.
  - destruct (match p with 47 :: _ => true | _ => false end) eqn:X.
    + exfalso. assert (Y : absolute p) by now apply B. apply A in Y. destruct Y as (x & r2 & Y).
      rewrite Y in N2. cbn in N2. specialize (N2 eq_refl). discriminate.
    + reflexivity.
Qed.
Lemma walk_push : forall p q pos, ~ absolute q -> walk (components (push p q)) pos = walk (components q) (walk (components p) pos).
Proof.
  intros p q pos N. rewrite push_rel by assumption.
  destruct p as [| c p]; [reflexivity |].
  rewrite (walk_parts q). replace (match q with 47 :: _ => [] | _ => walk (components (c :: p)) pos end) with (walk (components (c :: p)) pos).
  2:{ destruct q as [| [| z | z] q]; try reflexivity. do 7 (try destruct z as [z | z |]; try reflexivity). exfalso. apply N. now exists q. }
  rewrite !(walk_parts (c :: p)).
  destruct (last (c :: p) 0 =? 47) eqn:L.
  - apply Z.eqb_eq in L. assert (E : c :: p = removelast (c :: p) ++ [47]).
    { rewrite <- L. apply app_removelast_last. congruence. }
    set (b := removelast (c :: p)) in *.
    assert (F : forall x, flat_map comp_of (split_slash [] (b ++ 47 :: x)) = flat_map comp_of (split_slash [] b) ++ flat_map comp_of (split_slash [] x)).
    { intros x. now rewrite split_app, flat_map_app. }
    assert (F1 : flat_map comp_of (split_slash [] ((c :: p) ++ q)) = flat_map comp_of (split_slash [] b) ++ flat_map comp_of (split_slash [] q)).
    { rewrite E, <- app_assoc. apply F. }
    assert (F2 : flat_map comp_of (split_slash [] (c :: p)) = flat_map comp_of (split_slash [] b)).
    { rewrite E. rewrite F. cbn. now rewrite app_nil_r. }
    rewrite (walk_parts ((c :: p) ++ q)), F1, F2, walk_app. reflexivity.
  - rewrite (walk_parts ((c :: p) ++ 47 :: q)). cbn [app]. change (c :: p ++ 47 :: q) with ((c :: p) ++ 47 :: q).
    rewrite split_app, flat_map_app, walk_app. reflexivity.
Qed.
Lemma push_tilde : forall cs q, wf cs -> no_tilde cs -> wf q -> no_tilde q -> no_tilde (components (push (render cs) (render q))).
Proof.
  intros cs q W T Wq Tq.
  assert (K : forall p parts, split_slash [] p = parts -> (forall x, In x parts -> comp_of x <> [Normal tilde]) -> no_tilde (components p)).
  { intros p parts E H. apply components_tilde with (parts := parts); [rewrite <- E; apply split_written |].
    intro I. now apply (H _ I). }
  assert (P : forall c, wf c -> no_tilde c -> forall x, In x (split_slash [] (render c)) -> comp_of x <> [Normal tilde]).
  { intros c Wc Tc x I E. pose proof (components_render c Wc) as R. rewrite components_comps in R.
    assert (In (Normal tilde) (comps (split_slash [] (render c)))) as J.
    { assert (J : In (Normal tilde) (flat_map comp_of (split_slash [] (render c)))).
      { apply in_flat_map. exists x. split; [assumption |]. rewrite E. now left. }
      destruct (comps_cases (split_slash [] (render c))) as [(y & r & E2 & C) | [(r & E2 & C) | (C & _ & _)]]; rewrite C.
      - rewrite E2 in J. right. exact J.
      - rewrite E2 in J. right. exact J.
      - exact J. }
    rewrite R in J. unfold no_tilde in Tc. rewrite Forall_forall in Tc. now apply (Tc _ J). }
  destruct (abs_dec (render q)) as [A | A].
  - destruct A as [r E]. rewrite E, push_abs, <- E. now rewrite components_render.
  - rewrite push_rel by assumption. destruct (render cs) as [| c p] eqn:R.
    { now rewrite components_render. }
    destruct (last (c :: p) 0 =? 47) eqn:L.
    + apply Z.eqb_eq in L. assert (E : c :: p = removelast (c :: p) ++ [47]).
      { rewrite <- L. apply app_removelast_last. congruence. }
      eapply K; [reflexivity |]. intros x I. rewrite E, <- app_assoc in I. cbn [app] in I. rewrite split_app in I.
      apply in_app_or in I. destruct I as [I | I]; [| now apply (P q)].
      apply (P cs); [assumption.. |]. rewrite R, E, split_app. apply in_or_app. now left.
    + eapply K; [reflexivity |]. intros x I. rewrite split_app in I.
      apply in_app_or in I. destruct I as [I | I]; [| now apply (P q)].
      apply (P cs); [assumption.. |]. now rewrite R.
Qed.
