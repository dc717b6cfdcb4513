(* C106: paths and files. *)
From Coq Require Import String Ascii.
From Verif Require Import Base ModelText ModelLexer ModelPath SpecPath ProofsPath ProofsPathFs.
Local Open Scope Z_scope.
Local Open Scope list_scope.

Definition t (s : string) : chars := map (fun a => Z.of_N (N_of_ascii a)) (list_ascii_of_string s).

(* ---- File.join ---- *)
Theorem C106_join : forall args ss, strings args ss ->
  exists p, join args = Ok p
    /\ (forall ns, Forall2 words ss ns -> words p (concat ns))
    /\ (absolute p <-> exists es s rest, ss = es ++ s :: rest /\ Forall (fun e => e = []) es /\ absolute s).
Proof.
  intros args ss S. exists (fold_left append ss []). split; [now apply join_strings |]. split.
  - intros ns F. apply words_W. rewrite fold_append_words. change (W []) with (@nil chars). cbn [app].
    induction F as [| x y l r H F IH].
    + reflexivity.
    + apply words_W in H. cbn [map concat]. rewrite <- H. f_equal.
      assert (G : forall ss2 ns2, Forall2 words ss2 ns2 -> concat ns2 = concat (map W ss2)).
      { clear. induction 1 as [| ? ? ? ? H F IH]; [reflexivity |]. cbn. apply words_W in H. now rewrite H, IH. }
      now apply G.
  - clear S. induction ss as [| s ss IH].
    + cbn. split; [intros [q E]; discriminate |]. intros (es & s & rest & E & _). destruct es; discriminate.
    + cbn [fold_left]. rewrite append_eq. destruct s as [| c s].
      * rewrite IH. split.
        -- intros (es & x & rest & -> & F & A). exists ([] :: es), x, rest. repeat split; [constructor; [reflexivity | assumption] | assumption].
        -- intros (es & x & rest & E & F & A). destruct es as [| e es].
           ++ cbn in E. injection E as <- <-. destruct A as [q A]. discriminate.
           ++ cbn in E. injection E as <- ->. inversion F; subst. now exists es, x, rest.
      * rewrite fold_append_abs by congruence. split.
        -- intros A. exists [], (c :: s), ss. repeat split; [constructor | assumption].
        -- intros (es & x & rest & E & F & A). destruct es as [| e es].
           ++ cbn in E. injection E as <- <-. exact A.
           ++ cbn in E. injection E as <- _. inversion F; subst. discriminate.
Qed.
Print Assumptions C106_join.

(* one slash between two strings, whether they bring slashes or not *)
Theorem C106_join_two : forall a b x y, a <> [] -> last a 0 <> 47 -> ~ absolute b ->
  x = [] \/ x = [47] -> y = [] \/ y = [47] -> join [PStr (a ++ x); PStr (y ++ b)] = Ok (a ++ 47 :: b).
Proof.
  intros a b x y N L B X Y. unfold join. cbn [join_args flatten expect_string rbind].
  rewrite (append_eq []), append_eq. f_equal.
  assert (R : ready (a ++ x) = a ++ [47]).
  { unfold ready. destruct X as [-> | ->].
    - rewrite app_nil_r. destruct a; [congruence |]. apply Z.eqb_neq in L. now rewrite L.
    - rewrite last_last. destruct a; [congruence |]. reflexivity. }
  assert (S : strip (y ++ b) = b).
  { destruct Y as [-> | ->]; [| reflexivity]. cbn. destruct (strip_cases b) as [(q & -> & _) | [_ E]]; [| exact E].
    exfalso. apply B. now exists q. }
  rewrite R, S, <- app_assoc. destruct a; [congruence |]. reflexivity.
Qed.
Print Assumptions C106_join_two.

Theorem C106_join_type : forall args, other args -> join args = Err TypeErr.
Proof. intros args O. now apply join_other. Qed.
Print Assumptions C106_join_type.

(* an empty first string does not count *)
Theorem C106_join_refuted : exists a b, ~ absolute b /\ last a 0 <> 47 /\ join [PStr a; PStr b] <> Ok (a ++ 47 :: b).
Proof. exists [], (t "b"). repeat split; [intros [q E] | |]; discriminate. Qed.
Print Assumptions C106_join_refuted.

(* ---- basename, dirname, extname ---- *)
Theorem C106_names_partial : forall s parts ns n, written s parts -> Forall plain parts -> full parts (ns ++ [n]) ->
  basename (PStr s) = Ok (Some n)
  /\ (absolute s -> dirname (PStr s) = Ok (abs_text ns))
  /\ (~ absolute s -> dirname (PStr s) = Ok (slashed ns))
  /\ (forall stem x, n = stem ++ 46 :: x -> stem <> [] -> ~ In 46 x -> extname (PStr s) = Ok (46 :: x))
  /\ ((forall stem x, n = stem ++ 46 :: x -> stem = []) -> extname (PStr s) = Ok []).
Proof.
  intros s parts ns n Wr P F.
  destruct (components_plain s parts _ Wr P F) as [C1 C2].
  assert (PN : proper (ns ++ [n])).
  { destruct Wr as (_ & Sl & _). revert P Sl F. generalize (ns ++ [n]). clear. intros l P Sl F.
    induction F as [| ps ns F IH | p ps ns N F IH]; [constructor | |]; inversion P; inversion Sl; subst; [now apply IH |].
    constructor; [| now apply IH]. split; [| assumption]. destruct H1 as [-> | I]; [congruence | exact I]. }
  assert (PNs : proper ns) by (apply Forall_app in PN; apply PN).
  assert (X : exists h, (h = [Root] \/ h = []) /\ (absolute s <-> h = [Root]) /\ red (components s) = (h ++ map Normal ns) ++ [Normal n]).
  { assert (NP : forall l, ~ In Parent (map Normal l)) by (intros l I; apply in_map_iff in I; destruct I as (? & ? & _); discriminate).
    destruct (abs_dec s) as [A | A].
    - exists [Root]. split; [now left |]. split; [tauto |]. rewrite (C1 A). unfold red. rewrite red_noparent.
      + rewrite map_app. reflexivity.
      + intros [I | I]; [discriminate | now apply NP in I].
    - exists []. split; [now right |]. split; [split; [tauto | discriminate] |]. rewrite (C2 A). unfold red. rewrite red_noparent by apply NP.
      rewrite map_app. reflexivity. }
  destruct X as (h & Hh & Ha & E). destruct (string_to_path_red s) as [SP Wf]. rewrite E in SP, Wf.
  set (cs := h ++ map Normal ns) in *.
  assert (FN : file_name (render (cs ++ [Normal n])) = Some n) by (rewrite file_name_render by assumption; now rewrite rev_unit).
  assert (PA : parent (render (cs ++ [Normal n])) = Some (render cs)).
  { rewrite parent_render by assumption. now rewrite rev_unit, removelast_last. }
  assert (LD : forall s0 seen found, last_dot seen found s0 =
    match last_dot [] None s0 with Some (a, x) => Some (seen ++ a, x) | None => found end).
  { clear. induction s0 as [| c s0 IH]; intros seen found; [reflexivity |]. cbn [last_dot].
    rewrite (IH (seen ++ [c])), (IH ([] ++ [c])). destruct (last_dot [] None s0) as [[a x] |].
    - now rewrite <- app_assoc.
    - destruct (c =? 46); [now rewrite app_nil_r | reflexivity]. }
  assert (LS : forall s0, match last_dot [] None s0 with Some (a, x) => s0 = a ++ 46 :: x /\ ~ In 46 x | None => ~ In 46 s0 end).
  { induction s0 as [| c s0 IH]; [intros [] |]. cbn [last_dot]. rewrite LD. destruct (last_dot [] None s0) as [[a x] |].
    - destruct IH as [-> I]. split; [reflexivity | assumption].
    - destruct (Z.eqb_spec c 46) as [-> | N]; [split; [reflexivity | assumption] |]. intros [K | K]; [congruence | contradiction]. }
  repeat split.
  - unfold basename. rewrite SP. cbn [rbind]. now rewrite FN.
  - intros A. unfold dirname. rewrite SP. cbn [rbind]. rewrite PA. apply Ha in A. unfold cs. rewrite A.
    now rewrite (abs_text_render ns PNs).
  - intros A. unfold dirname. rewrite SP. cbn [rbind]. rewrite PA. destruct Hh as [-> | ->]; [exfalso; apply A; now apply Ha |].
    unfold cs. cbn [app]. rewrite render_good by (apply Forall_map; exact PNs). rewrite map_map. cbn. now rewrite map_id.
  - intros stem x En Ns Nx. unfold extname. rewrite SP. cbn [rbind]. unfold extension. rewrite FN.
    specialize (LS n). destruct (last_dot [] None n) as [[a y] |].
    + destruct LS as [E2 Ny]. assert (U : stem = a /\ x = y).
      { rewrite En in E2. clear - E2 Nx Ny. revert a E2. induction stem as [| c stem IH]; intros [| d a] E2; cbn in E2.
        - injection E2 as ->. now split.
        - injection E2 as <- E2. exfalso. apply Nx. rewrite E2. apply in_or_app. right. now left.
        - injection E2 as -> E2. exfalso. apply Ny. rewrite <- E2. apply in_or_app. right. now left.
        - injection E2 as -> E2. destruct (IH _ E2) as [-> ->]. now split. }
      destruct U as [<- <-]. destruct stem; [congruence | reflexivity].
    + exfalso. apply LS. rewrite En. apply in_or_app. right. now left.
  - intros H. unfold extname. rewrite SP. cbn [rbind]. unfold extension. rewrite FN.
    specialize (LS n). destruct (last_dot [] None n) as [[a y] |]; [| reflexivity].
    destruct LS as [E2 _]. apply H in E2. subst a. reflexivity.
Qed.
Print Assumptions C106_names_partial.

(* dots are taken away first; a path without a name has no basename and no dirname; neither has a single name a dirname *)
Theorem C106_names_refuted :
  (exists s, s = t "a/b/.." /\ basename (PStr s) = Ok (Some (t "a")) /\ dirname (PStr s) = Ok [])
  /\ (exists s, s = t "/" /\ basename (PStr s) = Ok None /\ dirname (PStr s) = Ok [])
  /\ (exists s, s = t "." /\ basename (PStr s) = Ok None)
  /\ (exists s, s = t "a" /\ dirname (PStr s) = Ok []).
Proof. repeat split; eexists; repeat split. Qed.
Print Assumptions C106_names_refuted.

(* ---- File.expand_path ---- *)
Theorem C106_expand_partial : forall cwd home s parts start place, proper cwd -> written s parts -> ~ In tilde parts ->
  begins cwd s start -> goes start parts place ->
  expand_path (abs_text cwd) home (PStr s) None = Ok (abs_text place) /\ proper place.
Proof.
  intros cwd home s parts start place P Wr T B G. unfold expand_path.
  destruct (string_to_path_red s) as [SP Wf]. rewrite SP. cbn [rbind]. rewrite components_render by assumption.
  assert (Tr : no_tilde (red (components s))).
  { apply red_tilde; [constructor | now apply (components_tilde s parts)]. }
  destruct (expand_wf home _ cwd P Wf Tr) as [E1 E2]. rewrite E1, walk_red in *.
  rewrite (components_goes s parts start cwd place Wr B G) in *. now split.
Qed.
Print Assumptions C106_expand_partial.

Lemma walk_abs_any : forall s pos, absolute s -> walk (components s) pos = walk (components s) [].
Proof. intros s pos [q ->]. now rewrite !walk_parts. Qed.

Theorem C106_expand_dir_partial : forall cwd home s parts d dparts dstart dir start place, proper cwd ->
  written s parts -> ~ In tilde parts -> written d dparts -> ~ In tilde dparts ->
  begins cwd d dstart -> goes dstart dparts dir -> begins dir s start -> goes start parts place ->
  expand_path (abs_text cwd) home (PStr s) (Some (PStr d)) = Ok (abs_text place) /\ proper place.
Proof.
  intros cwd home s parts d dparts dstart dir start place P Wr T Wd Td Bd Gd B G. unfold expand_path.
  destruct (string_to_path_red s) as [SP Wf]. destruct (string_to_path_red d) as [DP Wfd]. rewrite DP, SP. cbn [rbind].
  assert (Tr : no_tilde (red (components s))) by (apply red_tilde; [constructor | now apply (components_tilde s parts)]).
  assert (Tdr : no_tilde (red (components d))) by (apply red_tilde; [constructor | now apply (components_tilde d dparts)]).
  set (p := push (render (red (components d))) (render (red (components s)))).
  assert (Tp : no_tilde (components p)) by (apply push_tilde; assumption).
  destruct (expand_wf home _ cwd P (components_wf p) Tp) as [E1 E2]. rewrite E1.
  assert (K : walk (components p) cwd = place).
  { unfold p. destruct (abs_dec (render (red (components s)))) as [A | A].
    - destruct A as [q E]. rewrite E, push_abs, <- E.
      assert (A2 : absolute s).
      { assert (X : start_of [[]] (red (components s)) = []).
        { assert (Y : os_start [[]] (render (red (components s))) = []) by (rewrite E; reflexivity).
          rewrite start_components, components_render in Y by assumption. exact Y. }
        destruct (red_parts s) as (_ & S & _). rewrite S, <- start_components in X.
        destruct (abs_dec s) as [A3 | A3]; [assumption |]. exfalso. unfold os_start in X.
        destruct s as [| [| z | z] s]; try discriminate. do 7 (try destruct z as [z | z |]; try discriminate). apply A3. now exists s. }
      rewrite components_render, walk_red by assumption.
      rewrite walk_abs_any by assumption. rewrite <- (walk_abs_any s dir A2). apply (components_goes s parts start dir place Wr B G).
    - rewrite walk_push by assumption. rewrite !components_render by assumption. rewrite !walk_red.
      rewrite (components_goes d dparts dstart cwd dir Wd Bd Gd). apply (components_goes s parts start dir place Wr B G). }
  rewrite K in *. now split.
Qed.
Print Assumptions C106_expand_dir_partial.

(* ~ at the beginning is the home directory *)
Theorem C106_home : forall cwd home rest place, proper home -> Forall no_slash rest -> rest <> [] -> ~ In tilde rest -> ~ In dotdot rest ->
  goes home rest place -> expand_path cwd (abs_text home) (PStr (slashed (tilde :: rest))) None = Ok (abs_text place).
Proof.
  intros cwd home rest place P F N T D G. unfold expand_path.
  set (s := slashed (tilde :: rest)).
  assert (Wr : written s (tilde :: rest)).
  { repeat split; [congruence |]. constructor; [| assumption]. unfold no_slash. cbn. intuition discriminate. }
  destruct (string_to_path_red s) as [SP Wf]. rewrite SP. cbn [rbind]. rewrite components_render by assumption.
  assert (E : components s = Normal tilde :: flat_map comp_of rest).
  { rewrite components_comps, (written_split _ _ Wr). reflexivity. }
  assert (NP : ~ In Parent (components s)).
  { rewrite E. intros [I | I]; [discriminate |]. apply in_flat_map in I. destruct I as (x & I & J).
    destruct (comp_of_cases x) as [[_ C] | [[C _] | [_ C]]]; [rewrite C in J; destruct J | subst; contradiction | rewrite C in J; destruct J as [J | []]; discriminate]. }
  unfold red. rewrite red_noparent by assumption. rewrite E. cbn [app fold_left]. unfold expand_step at 2. cbn [is_tilde tilde].
  assert (Tt : no_tilde (flat_map comp_of rest)).
  { apply Forall_forall. intros c I. apply in_flat_map in I. destruct I as (x & I & J).
    destruct (comp_of_cases x) as [[_ C] | [[_ C] | [_ C]]]; rewrite C in J; cbn in J; try contradiction; destruct J as [<- | J]; try contradiction; [discriminate |]. intros K. injection K as ->. contradiction. }
  destruct (expand_fold (abs_text home) (flat_map comp_of rest) home P (flat_good _ F) Tt) as [E1 _].
  apply goes_walk in G. rewrite E1, G. reflexivity.
Qed.
Print Assumptions C106_home.

(* .. takes away the ~ before it, and a ~ elsewhere is the home directory, too *)
Theorem C106_expand_refuted :
  (exists cwd home s, s = t "~/.." /\ expand_path cwd home (PStr s) None = Ok cwd /\ cwd = t "/a/b" /\ home = t "/home/me")
  /\ (exists cwd home s, s = t "/a/~" /\ expand_path cwd home (PStr s) None = Ok home /\ home = t "/home/me").
Proof.
  split; [exists (t "/a/b"), (t "/home/me"), (t "~/..") | exists (t "/a/b"), (t "/home/me"), (t "/a/~")]; repeat split.
Qed.
Print Assumptions C106_expand_refuted.

(* ---- questions about files ---- *)
Section files.
Variable root : fnode.
Variable cwd : list chars.
Hypothesis root_dir : is_dir (Some root) = true.
Hypothesis cwd_dir : is_dir (node_at root cwd) = true.

Theorem C106_exist_partial : forall s parts, written s parts -> is_name (last parts []) ->
  (os_resolve root cwd s <> None -> exist root cwd (PStr s) = true)
  /\ (~ In dotdot parts -> exist root cwd (PStr s) = true -> os_resolve root cwd s <> None).
Proof.
  intros s parts Wr L. destruct (string_to_path_red s) as [SP Wf].
  unfold exist, string_to_canonicalized_path. rewrite SP. cbn [rbind]. split.
  - intros H. destruct (os_resolve root cwd s) as [r |] eqn:E; [| congruence].
    now rewrite (lexical_found root cwd s parts r root_dir cwd_dir Wr L E).
  - intros N H. destruct (os_resolve root cwd (render (red (components s)))) as [r |] eqn:E; [| discriminate].
    rewrite (lexical_only root cwd s parts r root_dir cwd_dir Wr N (or_intror L) E). congruence.
Qed.

Theorem C106_directory_partial : forall s parts, written s parts -> ~ In dotdot parts ->
  (directory root cwd (PStr s) = true <-> exists pl es, os_resolve root cwd s = Some pl /\ node_at root pl = Some (FDir es)).
Proof.
  intros s parts Wr N. destruct (string_to_path_red s) as [SP Wf].
  unfold directory, string_to_canonicalized_path. rewrite SP. cbn [rbind]. split.
  - intros H. destruct (os_resolve root cwd (render (red (components s)))) as [r |] eqn:E; [| discriminate].
    exists r. rewrite (lexical_only root cwd s parts r root_dir cwd_dir Wr N (or_introl H) E).
    destruct (node_at root r) as [[] |]; try discriminate. now eexists.
  - intros (pl & es & E & D). rewrite (lexical_same root cwd s parts pl root_dir cwd_dir Wr N E). now rewrite D.
Qed.

Theorem C106_file_partial : forall s parts, written s parts -> is_name (last parts []) ->
  (forall pl x, os_resolve root cwd s = Some pl -> node_at root pl = Some (FFile x) ->
     file root cwd (PStr s) = true /\ read root cwd (PStr s) = Ok x)
  /\ (~ In dotdot parts -> file root cwd (PStr s) = true ->
      exists pl x, os_resolve root cwd s = Some pl /\ node_at root pl = Some (FFile x)).
Proof.
  intros s parts Wr L. destruct (string_to_path_red s) as [SP Wf].
  unfold file, read, string_to_canonicalized_path. rewrite SP. cbn [rbind]. split.
  - intros pl x E F. rewrite (lexical_found root cwd s parts pl root_dir cwd_dir Wr L E). now rewrite F.
  - intros N H. destruct (os_resolve root cwd (render (red (components s)))) as [r |] eqn:E; [| discriminate].
    exists r. rewrite (lexical_only root cwd s parts r root_dir cwd_dir Wr N (or_intror L) E).
    destruct (node_at root r) as [[] |]; try discriminate. now eexists.
Qed.

(* ---- writing and reading ---- *)
Theorem C106_write_read : forall s x root2 n, write root cwd (PStr s) (PStr x) = Ok (root2, n) ->
  read root2 cwd (PStr s) = Ok x /\ n = octets x
  /\ exists place, os_resolve root2 cwd s = Some place
     /\ forall q y, q <> place -> (node_at root2 q = Some (FFile y) <-> node_at root q = Some (FFile y)).
Proof.
  intros s x root2 n H. unfold write in H. cbn [expect_string rbind] in H.
  destruct (os_write root cwd s x) as [r2 |] eqn:O; [| discriminate]. injection H as -> <-.
  unfold os_write in O. destruct s as [| c0 s0]; [discriminate |]. set (s := c0 :: s0) in *.
  pose proof (split_written s) as Wr. set (parts := split_slash [] s) in *.
  destruct (os_walk root (os_start cwd s) (removelast parts)) as [pl |] eqn:Wk; [| discriminate].
  assert (Nm : is_name (last parts [])).
  { destruct (comp_of_cases (last parts [])) as [[[E | E] _] | [[E _] | [E _]]]; [rewrite E in O; discriminate.. | exact E]. }
  assert (O2 : match node_at root pl with
       | Some (FDir es) => match entry (last parts []) es with Some (FDir _) => None | _ => Some (put_at root (pl ++ [last parts []]) (FFile x)) end
       | _ => None end = Some root2).
  { destruct (last parts []) as [| c [| c2 [| c3 r]]].
    - discriminate.
    - destruct c as [| p | p]; try exact O. do 7 (try destruct p as [p | p |]; try exact O). discriminate.
    - destruct c as [| p | p]; try exact O. do 7 (try destruct p as [p | p |]; try exact O).
      destruct c2 as [| p | p]; try exact O. do 7 (try destruct p as [p | p |]; try exact O). discriminate.
    - destruct c as [| p | p]; try exact O. do 7 (try destruct p as [p | p |]; try exact O).
      destruct c2 as [| p | p]; try exact O. do 7 (try destruct p as [p | p |]; try exact O). }
  clear O. set (name := last parts []) in *.
  destruct (node_at root pl) as [[tx | es] |] eqn:Np; try discriminate.
  assert (ND : forall ds, entry name es <> Some (FDir ds)). { intros ds E. rewrite E in O2. discriminate. }
  assert (E2 : root2 = put_at root (pl ++ [name]) (FFile x)). { destruct (entry name es) as [[] |]; congruence. }
  clear O2. destruct (put_spec x name es pl root Np ND) as [P1 P2]. rewrite <- E2 in P1, P2.
  assert (NN : forall m, node_at root (pl ++ [name]) = Some m -> is_dir (Some m) = false).
  { intros m Em. assert (A : forall l r, node_at r (l ++ [name]) = match node_at r l with Some (FDir es) => entry name es | _ => None end).
    { induction l as [| k l IH]; intros r; cbn [app node_at].
      - destruct r as [| rs]; [reflexivity |]. destruct (entry name rs); reflexivity.
      - destruct r as [| rs]; [reflexivity |]. destruct (entry k rs); [apply IH | reflexivity]. }
    rewrite A, Np in Em. destruct m; [reflexivity |]. now apply ND in Em. }
  assert (P3 : node_at root2 (pl ++ [name]) <> None) by congruence.
  pose proof (walk_put root root2 (pl ++ [name]) P2 NN P3) as Wp.
  assert (D2 : forall q, is_dir (node_at root q) = true -> is_dir (node_at root2 q) = true).
  { intros q Hq. destruct (P2 q) as [-> | Sm].
    - destruct (node_at root (pl ++ [name])) as [m |]; [| discriminate]. now rewrite (NN m eq_refl) in Hq.
    - unfold same_node in Sm. destruct (node_at root q) as [[] |]; try discriminate. exact Sm. }
  assert (R2 : is_dir (Some root2) = true) by exact (D2 [] root_dir).
  assert (C2 : is_dir (node_at root2 cwd) = true) by exact (D2 cwd cwd_dir).
  assert (Rs : os_resolve root2 cwd s = Some (pl ++ [name])).
  { unfold os_resolve. fold s. change (split_slash [] s) with parts.
    assert (Ep : parts = removelast parts ++ [name]) by (apply app_removelast_last, Wr).
    change (os_walk root2 (os_start cwd s) parts = Some (pl ++ [name])). rewrite Ep, os_walk_app, (Wp _ _ _ Wk), os_walk_cons, os_step_name by assumption.
    rewrite D2 by now rewrite Np. now rewrite P1. }
  split; [| split].
  - unfold read. destruct (string_to_path_red s) as [SP _]. rewrite SP. cbn [rbind].
    rewrite (lexical_found root2 cwd s parts _ R2 C2 Wr Nm Rs). now rewrite P1.
  - clear. induction x as [| c x IH]; [reflexivity |]. cbn [bytes octets]. now rewrite IH.
  - exists (pl ++ [name]). split; [assumption |]. intros q y Hq. destruct (P2 q) as [-> | Sm]; [congruence |].
    unfold same_node in Sm. destruct (node_at root q) as [[tq | dq] |].
    + rewrite Sm. tauto.
    + split; [intros E; rewrite E in Sm; discriminate | congruence].
    + rewrite Sm. split; congruence.
Qed.

(* the lines of a file *)
Theorem C106_lines : forall s x, read root cwd (PStr s) = Ok x ->
  exists lines, readlines root cwd (PStr s) = Ok lines /\ lines <> [] /\ Forall no_newline lines /\ lined lines = x.
Proof.
  intros s x H. unfold readlines. rewrite H. cbn [rbind]. eexists. split; [reflexivity |].
  assert (K : forall y acc, no_newline acc -> exists l r, split_lines acc y = l :: r /\ Forall no_newline (l :: r) /\ lined (l :: r) = acc ++ y).
  { clear. induction y as [| c y IH]; intros acc N; cbn [split_lines].
    - exists acc, []. repeat split; [constructor; [assumption | constructor] | cbn; now rewrite app_nil_r].
    - destruct (Z.eqb_spec c 10) as [-> | D].
      + destruct (IH []) as (l & r & E & F & S); [intros [] |]. exists acc, (l :: r). rewrite E. repeat split; [constructor; assumption |].
        change (lined (acc :: l :: r)) with (acc ++ 10 :: lined (l :: r)). now rewrite S.
      + destruct (IH (acc ++ [c])) as (l & r & E & F & S).
        { unfold no_newline in *. rewrite in_app_iff. cbn. intuition. }
        exists l, r. repeat split; [assumption.. |]. rewrite S, <- app_assoc. reflexivity. }
  destruct (K x []) as (l & r & E & F & S); [intros [] |]. rewrite E. repeat split; [congruence | assumption | assumption].
Qed.
End files.
Print Assumptions C106_exist_partial.
Print Assumptions C106_directory_partial.
Print Assumptions C106_file_partial.
Print Assumptions C106_write_read.
Print Assumptions C106_lines.

(* the directory d/ and the file f *)
Definition tree : fnode := FDir [(t "d", FDir []); (t "f", FFile (t "one"))].
Theorem C106_exist_refuted :
  (exists root s, s = t "d/.." /\ os_resolve root [] s = Some [] /\ exist root [] (PStr s) = false /\ directory root [] (PStr s) = false)
  /\ (exists root s, s = t "nosuch/../f" /\ os_resolve root [] s = None /\ exist root [] (PStr s) = true)
  /\ (exists root s, s = t "f/" /\ os_resolve root [] s = None /\ exist root [] (PStr s) = true /\ file root [] (PStr s) = true)
  /\ (exists root, exist root [] POther = false).
Proof. repeat split; exists tree; try eexists; repeat split. Qed.
Print Assumptions C106_exist_refuted.

(* ---- examples ---- *)
Example C106_example_join : join [PStr (t "a/"); PAry [PStr (t "/b"); PAry []]; PStr (t "c")] = Ok (t "a/b/c").
Proof. reflexivity. Qed.
Example C106_example_strings : strings [PStr (t "a/"); PAry [PStr (t "/b"); PAry []]; PStr (t "c")] [t "a/"; t "/b"; t "c"].
Proof. constructor. apply (strings_ary _ _ [t "/b"] [t "c"]); [constructor; apply (strings_ary [] [] [] []); constructor | repeat constructor]. Qed.
Example C106_example_other : other [PStr (t "a"); PAry [POther]].
Proof. apply other_later, other_in, other_here. Qed.
Example C106_example_names : basename (PStr (t "/home//usr/file.tar.gz/")) = Ok (Some (t "file.tar.gz"))
  /\ dirname (PStr (t "/home//usr/file.tar.gz/")) = Ok (t "/home/usr") /\ extname (PStr (t "/home//usr/file.tar.gz/")) = Ok (t ".gz")
  /\ extname (PStr (t "a/.bashrc")) = Ok [] /\ dirname (PStr (t "a/b/c")) = Ok (t "a/b").
Proof. repeat split. Qed.
Example C106_example_expand : expand_path (t "/a/b") (t "/h") (PStr (t ".././c//d/../../../../e")) None = Ok (t "/e")
  /\ expand_path (t "/a/b") (t "/h") (PStr (t "../x")) (Some (PStr (t "../y/z"))) = Ok (t "/a/y/x")
  /\ expand_path (t "/a/b") (t "/h") (PStr (t "~/./x")) None = Ok (t "/h/x").
Proof. repeat split. Qed.
Example C106_example_goes : goes [t "a"; t "b"] [dotdot; dot; t "c"] [t "a"; t "c"].
Proof.
  apply (goes_up [t "a"]). apply goes_stay; [now right |].
  apply goes_down; [repeat split; discriminate |]. constructor.
Qed.
Example C106_example_write : exists root2 n, write tree [] (PStr (t "d/.././d/new")) (PStr (t "two")) = Ok (root2, n)
  /\ read root2 [] (PStr (t "d/new")) = Ok (t "two") /\ read root2 [] (PStr (t "f")) = Ok (t "one").
Proof. do 2 eexists. split; [reflexivity |]. split; reflexivity. Qed.
Example C106_example_exist : is_name (last [t "d"; dotdot; t "f"] []) /\ os_resolve tree [] (t "d/../f") = Some [t "f"]
  /\ exist tree [] (PStr (t "d/../f")) = true /\ directory tree [] (PStr (t "./d/")) = true.
Proof. repeat split; discriminate. Qed.
