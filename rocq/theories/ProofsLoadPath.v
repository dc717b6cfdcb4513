(* Which file require and require_relative find. *)
From Verif Require Import Base ModelText ModelPath SpecPath ProofsPath ProofsPathFs ModelLoad SpecLoad.
Local Open Scope Z_scope.

(* ---- extensions ---- *)
Lemma last_dot_none : forall s seen found, no_dot s -> last_dot seen found s = found.
Proof.
  unfold no_dot. induction s as [|c s IH]; intros seen found H; [reflexivity|]. cbn [last_dot].
  destruct (Z.eqb_spec c 46) as [->|N]; [exfalso; apply H; left; reflexivity|]. apply IH. intro X. apply H. right. exact X.
Qed.
Lemma last_dot_app : forall s seen found e, no_dot e -> last_dot seen found (s ++ 46 :: e) = Some (seen ++ s, e).
Proof.
  induction s as [|c s IH]; intros seen found e H.
  - cbn. rewrite last_dot_none by exact H. rewrite app_nil_r. reflexivity.
  - cbn [app last_dot]. rewrite IH by exact H. rewrite <- app_assoc. reflexivity.
Qed.
Lemma stem_plain : forall n, no_dot n -> stem n = n.
Proof. intros n H. unfold stem. rewrite last_dot_none by exact H. reflexivity. Qed.
Lemma stem_dot : forall n e, n <> [] -> no_dot e -> stem (n ++ 46 :: e) = n.
Proof. intros n e N H. unfold stem. rewrite last_dot_app by exact H. cbn. destruct n; [congruence | reflexivity]. Qed.
Lemma no_dot_rb : no_dot rb.
Proof. intros [H|[H|[]]]; discriminate. Qed.
Lemma no_dot_so : no_dot so.
Proof. intros [H|[H|[]]]; discriminate. Qed.
Lemma asks_stem : forall n b, asks n b -> b <> [] /\ stem n = b.
Proof.
  intros n b [m N D | m N]; split; auto; [apply stem_plain; exact D|].
  change dot_rb with (46 :: rb). apply stem_dot; [exact N | exact no_dot_rb].
Qed.
Lemma asks_slash : forall n b, asks n b -> no_slash n -> no_slash (b ++ dot_rb).
Proof.
  intros n b [m N D | m N] S X; [|exact (S X)]. apply in_app_or in X as [X|X]; [exact (S X)|].
  destruct X as [X|[X|[X|[]]]]; discriminate.
Qed.
Lemma asks_base_slash : forall n b, asks n b -> no_slash n -> no_slash b.
Proof. intros n b [m N D | m N] S X; [exact (S X)|]. apply S. apply in_or_app. left. exact X. Qed.
Lemma asks_name : forall n b, asks n b -> is_name n.
Proof.
  intros n b [m N D | m N]; repeat split; auto; unfold dot, dotdot; intro E.
  - subst. apply D. left. reflexivity.
  - subst. apply D. left. reflexivity.
  - destruct m; discriminate.
  - destruct m as [|? [|? [|? ?]]]; discriminate.
  - destruct m as [|? [|? [|? ?]]]; discriminate.
Qed.
Lemma ext_name : forall b e, b <> [] -> e <> [] -> is_name (b ++ 46 :: e).
Proof.
  intros b e B N. repeat split; unfold dot, dotdot; intro E; destruct b as [|? [|? [|? ?]]]; destruct e; try discriminate; congruence.
Qed.

Definition ends_slash (q : chars) : Prop := q = [] \/ exists q0, q = q0 ++ [47].
Lemma split_ends : forall q, ends_slash q -> exists parts, forall n, no_slash n -> split_slash [] (q ++ n) = parts ++ [n].
Proof.
  intros q [->|[q0 ->]].
  - exists []. intros n H. cbn. apply (split_plain n [] H).
  - exists (split_slash [] q0). intros n H. rewrite <- app_assoc. cbn [app]. rewrite split_app.
    f_equal. apply (split_plain n [] H).
Qed.
Lemma name_comp : forall n, is_name n -> comp_of n = [Normal n].
Proof.
  intros n (A & B & C). destruct (comp_of_cases n) as [[[-> | ->] _] | [[-> _] | [_ E]]]; try congruence.
Qed.
Lemma comps_snoc : forall parts n, is_name n -> exists cs, comps (parts ++ [n]) = cs ++ [Normal n].
Proof.
  intros parts n H. destruct (comps_cases (parts ++ [n])) as [(x & r & E & ->) | [(r & E & ->) | (-> & _ & _)]].
  - destruct parts as [|y parts]; [injection E as E1 E2; discriminate|].
    cbn [app] in E. injection E as -> E. rewrite <- E, flat_map_app. cbn [flat_map]. rewrite (name_comp n H).
    exists (Root :: flat_map comp_of parts). reflexivity.
  - destruct parts as [|y parts]; [cbn in E; injection E as E1 E2; destruct H as (_ & H & _); congruence|].
    cbn [app] in E. injection E as -> E. rewrite <- E, flat_map_app. cbn [flat_map]. rewrite (name_comp n H).
    exists (Cur :: flat_map comp_of parts). reflexivity.
  - rewrite flat_map_app. cbn [flat_map]. rewrite (name_comp n H). exists (flat_map comp_of parts). reflexivity.
Qed.
Lemma file_name_ends : forall q n, ends_slash q -> is_name n -> no_slash n -> file_name (q ++ n) = Some n.
Proof.
  intros q n Q N S. destruct (split_ends q Q) as [parts E]. unfold file_name, last_comp.
  rewrite components_comps, (E n S). destruct (comps_snoc parts n N) as [cs ->]. rewrite rev_unit. reflexivity.
Qed.
Lemma strip_name : forall q n, is_name n -> no_slash n -> ends_slash q -> strip (rev (q ++ n)) = rev (q ++ n).
Proof.
  intros q n (N1 & N2 & N3) S Q. rewrite rev_app_distr.
  destruct n as [|c n] using rev_ind; [congruence|]. rewrite rev_unit. cbn [app].
  assert (C : c <> 47) by (intro X; apply S; apply in_or_app; right; left; exact X).
  destruct (Z.eq_dec c 46) as [->|D].
  - destruct n as [|x n] using rev_ind; [exfalso; apply N2; reflexivity|]. rewrite rev_unit. cbn [app].
    assert (X : x <> 47) by (intro X; apply S; apply in_or_app; left; apply in_or_app; right; left; exact X).
    cbn [strip]. destruct x as [|x|x]; try reflexivity. do 7 (try destruct x as [x|x|]; try reflexivity). congruence.
  - unfold strip. destruct c as [|c|c]; try reflexivity. do 7 (try destruct c as [c|c|]; try reflexivity); congruence.
Qed.
Lemma set_ext_ends : forall q n e, ends_slash q -> is_name n -> no_slash n -> set_extension (q ++ n) e = q ++ stem n ++ 46 :: e.
Proof.
  intros q n e Q N S. unfold set_extension. rewrite file_name_ends by assumption.
  cbv zeta. rewrite strip_name by assumption. rewrite rev_involutive. rewrite app_length.
  replace (length q + length n - length n)%nat with (length q) by lia.
  rewrite firstn_app, Nat.sub_diag, firstn_O, app_nil_r, firstn_all. reflexivity.
Qed.

(* ---- resolution ---- *)
Lemma os_skip : forall root pl x parts, x = [] \/ x = dot -> parts <> [] -> os_walk root pl (x :: parts) = os_walk root pl parts.
Proof.
  intros root pl x parts X N. rewrite os_walk_cons. destruct (is_dir (node_at root pl)) eqn:D.
  - rewrite os_step_stay by assumption. reflexivity.
  - assert (E : forall y, os_step root (Some pl) y = None) by (intro y; unfold os_step; rewrite D; reflexivity).
    rewrite E. destruct parts as [|y parts]; [congruence|]. rewrite os_walk_cons, E. reflexivity.
Qed.
Lemma node_at_app : forall a n b, node_at n (a ++ b) = match node_at n a with Some x => node_at x b | None => None end.
Proof.
  induction a as [|x a IH]; intros n b; [reflexivity|]. cbn. destruct n as [t|es]; [reflexivity|].
  destruct (entry x es); [apply IH | reflexivity].
Qed.
Lemma os_names : forall root names pl, names <> [] -> Forall is_name names ->
  os_walk root pl names = match node_at root (pl ++ names) with Some _ => Some (pl ++ names) | None => None end.
Proof.
  intros root. induction names as [|n names IH]; intros pl N F; [congruence|]. inversion F as [|? ? Hn Hr]; subst.
  rewrite os_walk_cons, os_step_name by exact Hn.
  change (pl ++ n :: names) with (pl ++ [n] ++ names). rewrite app_assoc.
  destruct (is_dir (node_at root pl)) eqn:D.
  - rewrite (node_at_app (pl ++ [n])). destruct (node_at root (pl ++ [n])) as [x|] eqn:X; [|reflexivity].
    destruct names as [|m names]; [unfold os_walk; cbn; rewrite app_nil_r; reflexivity|].
    rewrite IH by (congruence || assumption). rewrite (node_at_app (pl ++ [n])), X. reflexivity.
  - rewrite <- app_assoc, node_at_app. destruct (node_at root pl) as [[t|es]|]; [reflexivity | discriminate | reflexivity].
Qed.
Lemma os_start_app : forall cwd d x, d <> [] -> os_start cwd (d ++ x) = os_start cwd d.
Proof. intros cwd [|c d] x H; [congruence | reflexivity]. Qed.
Lemma proper_slashed_rel : forall names, proper names -> names <> [] -> ~ absolute (slashed names) /\ slashed names <> [].
Proof.
  intros names P N. destruct names as [|x names]; [congruence|]. inversion P as [|? ? [(X & _) S] _]; subst.
  destruct x as [|c x]; [congruence|]. assert (E : exists r, slashed (((c :: x) : chars) :: names) = c :: r).
  { destruct names; [exists x; reflexivity|]. eexists. rewrite slashed_cons by congruence. reflexivity. }
  destruct E as [r E]. rewrite E. split; [|discriminate]. intros [q A]. injection A as -> _. apply S. left. reflexivity.
Qed.
Lemma resolve_push : forall root cwd d names, d <> [] -> proper names -> names <> [] ->
  os_resolve root cwd (push d (slashed names)) =
  match os_resolve root cwd d with
  | Some D => match node_at root (D ++ names) with Some _ => Some (D ++ names) | None => None end
  | None => None
  end.
Proof.
  intros root cwd d names Dn P N. destruct (proper_slashed_rel names P N) as [R Z].
  assert (Fn : Forall is_name names) by (eapply Forall_impl; [|exact P]; intros a [H _]; exact H).
  assert (Fs : Forall no_slash names) by (eapply Forall_impl; [|exact P]; intros a [_ H]; exact H).
  assert (Sp : split_slash [] (slashed names) = names) by (apply split_slashed; assumption).
  rewrite push_rel by exact R.
  assert (U : forall p, p <> [] -> os_resolve root cwd p = os_walk root (os_start cwd p) (split_slash [] p)) by (intros [|c p] H; [congruence | reflexivity]).
  assert (G : forall p, p = d ++ 47 :: slashed names \/ (last d 0 = 47 /\ p = d ++ slashed names) -> os_resolve root cwd p =
     match os_resolve root cwd d with
  | Some D => match node_at root (D ++ names) with Some _ => Some (D ++ names) | None => None end
  | None => None
  end).
  { intros p Hp. rewrite (U d Dn). assert (Pn : p <> []) by (destruct Hp as [->|[_ ->]]; (destruct d; [congruence | discriminate])).
    rewrite (U p Pn). assert (St : os_start cwd p = os_start cwd d) by (destruct Hp as [->|[_ ->]]; apply os_start_app; exact Dn).
    rewrite St. destruct Hp as [->|[L ->]].
    - rewrite split_app, Sp, os_walk_app. destruct (os_walk root (os_start cwd d) (split_slash [] d)) as [D|]; [|reflexivity].
      apply os_names; assumption.
    - destruct d as [|c d0 _] using rev_ind; [congruence|]. rewrite last_last in L. subst c.
      rewrite <- app_assoc. cbn [app]. rewrite !split_app, Sp, !os_walk_app. cbn [split_slash].
      set (st := os_start cwd (d0 ++ [47])). destruct (os_walk root st (split_slash [] d0)) as [D|]; [|reflexivity].
      rewrite os_walk_cons. destruct (is_dir (node_at root D)) eqn:Q.
      + rewrite os_step_stay by auto. unfold os_walk at 2. cbn [fold_left]. apply os_names; assumption.
      + unfold os_step. rewrite Q. rewrite os_names by assumption. rewrite node_at_app.
        destruct (node_at root D) as [[t|es]|]; [destruct names; [congruence | reflexivity] | discriminate | reflexivity]. }
  destruct d as [|c d]; [congruence|]. destruct (Z.eqb_spec (last (c :: d) 0) 47) as [L|L]; apply G; [right | left]; auto.
Qed.
(* the text in front of the last name *)
Lemma push_last : forall d ns, proper ns -> exists q, ends_slash q /\
  forall n, no_slash n -> is_name n -> push d (slashed (ns ++ [n])) = q ++ n.
Proof.
  intros d ns P.
  assert (S : exists q, ends_slash q /\ forall n, slashed (ns ++ [n]) = q ++ n).
  { destruct ns as [|x ns]; [exists []; split; [left; reflexivity | reflexivity]|].
    exists (slashed (x :: ns) ++ [47]). split; [right; eexists; reflexivity|]. intro n.
    rewrite slashed_snoc by congruence. rewrite <- app_assoc. reflexivity. }
  destruct S as (q & Q & E).
  assert (A : forall n, no_slash n -> is_name n -> ~ absolute (slashed (ns ++ [n]))).
  { intros n S N. apply proper_slashed_rel; [|destruct ns; discriminate]. apply Forall_app. split; [exact P|].
    constructor; [split; assumption | constructor]. }
  assert (J : forall p, ends_slash p -> p <> [] -> ends_slash (p ++ q)).
  { intros p Hp Np. destruct Q as [->|[q0 ->]]; [rewrite app_nil_r; exact Hp|]. right. exists (p ++ q0). apply app_assoc. }
  destruct d as [|c d].
  - exists q. split; [exact Q|]. intros n S N. rewrite push_rel by (apply A; assumption). apply E.
  - destruct (Z.eqb_spec (last (c :: d) 0) 47) as [L|L].
    + exists ((c :: d) ++ q). split.
      * apply J; [|congruence]. right. exists (removelast (c :: d)). rewrite <- L. apply app_removelast_last. congruence.
      * intros n S N. rewrite push_rel by (apply A; assumption). rewrite (proj2 (Z.eqb_eq _ _) L), E, app_assoc. reflexivity.
    + exists (((c :: d) ++ [47]) ++ q). split.
      * apply J; [right; eexists; reflexivity | destruct d; discriminate].
      * intros n S N. rewrite push_rel by (apply A; assumption). rewrite (proj2 (Z.eqb_neq _ _) L), E, <- !app_assoc. reflexivity.
Qed.

(* ---- require_relative ---- *)
Definition leads (p : path) (pos : list chars) : Prop := absolute p /\ components p = Root :: map Normal pos.
Lemma absolute_components : forall p, absolute p -> components p = Root :: flat_map comp_of (split_slash [] p).
Proof.
  intros p A. rewrite components_comps. apply (written_abs p _ (split_written p)) in A. destruct A as (x & r & E).
  rewrite E. reflexivity.
Qed.
Lemma leads_push : forall p pos, leads p pos -> exists q parts, ends_slash q /\ absolute q /\
  flat_map comp_of parts = map Normal pos /\
  forall n, no_slash n -> push p n = q ++ n /\ split_slash [] (q ++ n) = parts ++ [n].
Proof.
  intros p pos [A C]. rewrite (absolute_components p A) in C. injection C as C.
  destruct A as [r A]. destruct (Z.eqb_spec (last p 0) 47) as [L|L].
  - assert (E : p = removelast p ++ [47]) by (rewrite <- L; apply app_removelast_last; rewrite A; discriminate).
    exists p, (split_slash [] (removelast p)). split; [right; eexists; exact E|]. split; [exists r; exact A|]. split.
    + rewrite E in C. change (removelast p ++ [47]) with (removelast p ++ 47 :: []) in C. rewrite split_app in C.
      cbn [split_slash] in C. rewrite flat_map_app in C. cbn in C. rewrite app_nil_r in C. exact C.
    + intros n S. split.
      * rewrite push_rel by (apply plain_rel; exact S). rewrite (proj2 (Z.eqb_eq _ _) L). rewrite A. reflexivity.
      * rewrite E at 1. rewrite <- app_assoc. cbn [app]. rewrite split_app. f_equal. apply (split_plain n [] S).
  - exists (p ++ [47]), (split_slash [] p). split; [right; eexists; reflexivity|]. split; [exists (r ++ [47]); rewrite A; reflexivity|].
    split; [exact C|]. intros n S. split.
    + rewrite push_rel by (apply plain_rel; exact S). rewrite (proj2 (Z.eqb_neq _ _) L). rewrite <- app_assoc. rewrite A. reflexivity.
    + rewrite <- app_assoc. cbn [app]. rewrite split_app. f_equal. apply (split_plain n [] S).
Qed.
Lemma absolute_app : forall q n, absolute q -> absolute (q ++ n).
Proof. intros q n [r ->]. exists (r ++ n). reflexivity. Qed.
Lemma leads_push_comp : forall p pos n, leads p pos -> no_slash n ->
  absolute (push p n) /\ components (push p n) = Root :: map Normal pos ++ comp_of n.
Proof.
  intros p pos n Ld S. destruct (leads_push p pos Ld) as (q & parts & Q & A & F & H). destruct (H n S) as [E1 E2].
  rewrite E1. split; [apply absolute_app; exact A|]. rewrite absolute_components by (apply absolute_app; exact A).
  rewrite E2, flat_map_app, F. cbn [flat_map]. rewrite app_nil_r. reflexivity.
Qed.
Lemma leads_pop : forall p pos, proper pos -> leads p pos -> leads (pop p) (removelast pos).
Proof.
  intros p pos P [A C]. unfold pop, parent, last_comp. rewrite C. destruct pos as [|n pos _] using rev_ind.
  - cbn. split; assumption.
  - rewrite map_app. cbn [map]. change (Root :: map Normal pos ++ [Normal n]) with ((Root :: map Normal pos) ++ [Normal n]).
    rewrite rev_unit, !removelast_last.
    assert (P2 : proper pos) by (apply Forall_app in P; apply P).
    change (fold_left push (map comp_text (Root :: map Normal pos)) []) with (render (Root :: map Normal pos)).
    split; [rewrite render_root; [eexists; reflexivity | apply Forall_map; exact P2]|].
    apply components_render. apply proper_wf. exact P2.
Qed.
Definition step_ok (c : comp) : Prop := match c with Normal n => is_name n /\ no_slash n | _ => True end.
Lemma leads_fold : forall cs p pos, proper pos -> leads p pos -> Forall step_ok cs ->
  leads (fold_left relative_step cs p) (walk cs pos) /\ proper (walk cs pos).
Proof.
  induction cs as [|c cs IH]; intros p pos P Ld F; [split; assumption|]. inversion F as [|? ? Fc Fr]; subst.
  cbn [fold_left walk]. change (walk (c :: cs) pos) with (walk cs (walk_step pos c)).
  destruct c; cbn [relative_step comp_text walk_step].
  - apply IH; [constructor| |exact Fr]. split; [exists []; reflexivity | reflexivity].
  - apply IH; [exact P| |exact Fr]. destruct (leads_push_comp p pos dot Ld) as [A C]; [intros [H|[]]; discriminate|].
    split; [exact A|]. change [46] with dot. rewrite C. cbn. rewrite app_nil_r. reflexivity.
  - apply IH; [apply proper_removelast; exact P| apply leads_pop; assumption |exact Fr].
  - destruct Fc as [N S]. apply IH; [apply Forall_app; split; [exact P | constructor; [split; assumption | constructor]]| |exact Fr].
    destruct (leads_push_comp p pos n Ld S) as [A C]. split; [exact A|]. rewrite C, (name_comp n N), map_app. reflexivity.
Qed.
Lemma wf_step_ok : forall cs, wf cs -> Forall step_ok cs.
Proof.
  assert (G : forall t, Forall good t -> Forall step_ok t).
  { intros t H. eapply Forall_impl; [|exact H]. intros [] K; cbn in *; auto. }
  intros [|c cs] W; [constructor|]. destruct c; cbn [wf] in W; try (constructor; [exact I | apply G; exact W]); apply G; exact W.
Qed.
Lemma os_same : forall root f parts pos pl, flat_map comp_of parts = map Normal pos ->
  os_walk root pl (parts ++ [f]) = os_walk root pl (pos ++ [f]) /\ Forall is_name pos.
Proof.
  intros root f. induction parts as [|x parts IH]; intros pos pl E.
  - destruct pos; [|discriminate]. split; [reflexivity | constructor].
  - cbn [flat_map] in E. destruct (comp_of_cases x) as [[X C] | [[-> C] | [X C]]]; rewrite C in E; cbn [app] in E.
    + cbn [app]. rewrite os_skip by (auto; destruct parts; discriminate). apply IH. exact E.
    + destruct pos; discriminate.
    + destruct pos as [|y pos]; [discriminate|]. injection E as <- E. cbn [app].
      split; [|constructor; [exact X | apply (IH pos pl E)]].
      rewrite !os_walk_cons. destruct (os_step root (Some pl) x) as [pl2|]; [|reflexivity]. apply (IH pos pl2 E).
Qed.
Lemma relative_resolve : forall root cwd dir f name parts n b start pos,
  proper (dir ++ [f]) -> written name (parts ++ [n]) -> asks n b -> begins dir name start -> goes start parts pos ->
  os_resolve root cwd (relative_path (dir ++ [f]) name) =
  match node_at root (pos ++ [b ++ dot_rb]) with Some _ => Some (pos ++ [b ++ dot_rb]) | None => None end.
Proof.
  intros root cwd dir f name parts n b start pos P W A B G.
  pose proof (asks_name n b A) as N. destruct (asks_stem n b A) as [Bn St].
  assert (Sn : no_slash n) by (destruct W as (_ & W & _); apply Forall_app in W; destruct W as [_ W]; inversion W; assumption).
  unfold relative_path.
  assert (T : place_text (dir ++ [f]) = abs_text (dir ++ [f])).
  { rewrite abs_text_render by exact P. unfold place_text, render. cbn [map fold_left comp_text]. rewrite map_map. cbn [comp_text].
    rewrite map_id. reflexivity. }
  rewrite T, pop_abs by exact P. rewrite removelast_last.
  assert (Pd : proper dir) by (apply Forall_app in P; apply P).
  assert (Ld : leads (abs_text dir) dir).
  { split; [destruct dir; eexists; reflexivity|]. rewrite abs_text_render by exact Pd. apply components_render. apply proper_wf. exact Pd. }
  destruct (comps_snoc parts n N) as [cs Cs].
  assert (Cn : components name = cs ++ [Normal n]) by (rewrite components_comps, (written_split _ _ W); exact Cs).
  assert (Gn : goes start (parts ++ [n]) (pos ++ [n])).
  { clear - G N. induction G; cbn [app].
    - apply goes_down; [exact N | constructor].
    - apply goes_stay; auto.
    - apply goes_top; auto.
    - apply goes_up; auto.
    - apply goes_down; auto. }
  pose proof (components_goes name _ start dir _ W B Gn) as Wk. rewrite Cn, walk_app in Wk. cbn [walk fold_left walk_step] in Wk.
  apply app_inj_tail in Wk as [Wk _].
  pose proof (wf_step_ok _ (components_wf name)) as Fs. rewrite Cn in Fs. apply Forall_app in Fs as [Fs _].
  destruct (leads_fold cs (abs_text dir) dir Pd Ld Fs) as [L2 P2]. rewrite Wk in L2, P2.
  rewrite Cn, fold_left_app. cbn [fold_left relative_step comp_text].
  destruct (leads_push _ _ L2) as (q & ps & Q & Aq & F & H). destruct (H n Sn) as [E1 _]. rewrite E1.
  rewrite set_ext_ends by assumption. rewrite St. change (46 :: rb) with dot_rb.
  pose proof (asks_slash n b A Sn) as Sb.
  destruct (H (b ++ dot_rb) Sb) as [_ E2].
  assert (R : os_resolve root cwd (q ++ b ++ dot_rb) = os_walk root [] (ps ++ [b ++ dot_rb])).
  { destruct Aq as [r ->]. exact (f_equal (os_walk root []) E2). }
  rewrite R. destruct (os_same root (b ++ dot_rb) ps pos [] F) as [O1 O2].
  etransitivity; [exact O1|].
  apply (os_names root (pos ++ [b ++ dot_rb]) []).
  - destruct pos; discriminate.
  - apply Forall_app. split; [exact O2|]. constructor; [|constructor]. apply (ext_name b rb); [exact Bn | discriminate].
Qed.
