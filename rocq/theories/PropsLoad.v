(* C112: require runs each file once *)
From Coq Require Import Ascii String.
From Verif Require Import Base ModelText ModelPath SpecPath ModelLoad SpecLoad ProofsLoad ProofsLoadPath.

Fixpoint lt (s : string) : chars :=
  match s with EmptyString => [] | String c s => Z.of_nat (nat_of_ascii c) :: lt s end.

(* ---- an example: a.rb and b.rb require each other, bad.rb raises ---- *)
Definition ex_root : fnode :=
  FDir [(lt "lib"%string, FDir [(lt "a.rb"%string, FFile (lt "A"%string)); (lt "b.rb"%string, FFile (lt "B"%string));
                               (lt "bad.rb"%string, FFile (lt "X"%string)); (lt "v1.rb"%string, FFile (lt "1"%string));
                               (lt "v1.2.rb"%string, FFile (lt "2"%string))]);
        (lt "alt"%string, FDir [(lt "a.rb"%string, FFile (lt "Z"%string)); (lt "c.rb"%string, FFile (lt "C"%string))]);
        (lt "main.rb"%string, FFile (lt "M"%string))].
Definition ex_parse (t : chars) : option (list act) :=
  match t with
  | [77] => Some [ARequire (PStr (lt "a"%string)); ARequire (PStr (lt "b.rb"%string)); ARelative (PStr (lt "lib/b"%string));
                  ARescue [ARequire (PStr (lt "bad"%string))]; ARequire (PStr (lt "c"%string)); AOut 0]
  | [65] => Some [AOut 1; ARelative (PStr (lt "./b"%string)); AOut 2]
  | [66] => Some [AOut 3; ARequire (PStr (lt "a"%string)); AOut 4]
  | [67] => Some [AOut 5; ARelative (PStr (lt "../main"%string))]
  | [88] => Some [AOut 6; ARaise TypeErr; AOut 7]
  | [49] => Some [AOut 8]
  | [50] => Some [AOut 9]
  | _ => None
  end%Z.
Definition ex_dirs : list chars := [lt "lib"%string; lt "/alt/"%string].
Definition ex_state : state := State [] (Some (PAry (map PStr ex_dirs))) ex_root [].
Definition ex_place (l : list string) : list chars := map lt l.
Lemma ex_texts : forall t acts, ex_parse t = Some acts -> only no_load_no_change acts.
Proof.
  intros t acts H. unfold ex_parse in H.
  destruct t as [|c [|c2 t]]; [discriminate| |destruct c as [|p|p]; try discriminate; do 7 (try destruct p as [p|p|]; try discriminate)].
  destruct c as [|p|p]; try discriminate; do 7 (try destruct p as [p|p|]; try discriminate);
    injection H as <-; repeat (first [apply only_nil | apply only_rescue | apply only_act; [exact Logic.I|]]).
Qed.
Example ex_main : match main [] ex_parse 40 ex_state (lt "main.rb"%string) with
  | Some (s, Ok _) => rev (past s) =
      [ERun (ex_place ["main.rb"]); ERun (ex_place ["lib"; "a.rb"]); EOut 1; ERun (ex_place ["lib"; "b.rb"]); EOut 3; EOut 4; EOut 2;
       ERun (ex_place ["lib"; "bad.rb"]); EOut 6; ERun (ex_place ["alt"; "c.rb"]); EOut 5; EOut 0]%string
  | _ => False end.
Proof. vm_compute. reflexivity. Qed.

(* ---- at most once ---- *)
(* In an execution without load no file is run twice, not even the program itself; whether files raise errors or
   require each other in a circle makes no difference. *)
Theorem C112_once : forall cwd parse,
  (forall t acts, parse t = Some acts -> only no_load acts) ->
  forall fuel s file s2 r, past s = [] -> files s = [] ->
  main cwd parse fuel s file = Some (s2, r) -> NoDup (runs (past s2)).
Proof.
  intros cwd parse T fuel s file s2 r E1 E2 M.
  assert (X : (sound s2 /\ NoDup (runs (past s2))) /\ grows s s2).
  { eapply (main_keeps cwd parse (fun s => sound s /\ NoDup (runs (past s))) false inv_once); [| | |exact M].
    - intros t acts P. eapply only_imp; [|exact (T t acts P)]. intros [] H; cbn in *; auto; contradiction.
    - split; [intros p H; unfold ran in H; rewrite E1 in H; destruct H | rewrite E1; constructor].
    - intros p t _ _. rewrite E2. intros []. }
  apply X.
Qed.
Print Assumptions C112_once.
Example C112_once_ex : (forall t acts, ex_parse t = Some acts -> only no_load acts) /\ past ex_state = [] /\ files ex_state = [] /\
  exists s2 r, main [] ex_parse 40 ex_state (lt "main.rb"%string) = Some (s2, r) /\ List.length (runs (past s2)) = 5%nat.
Proof.
  split; [intros t acts H; eapply only_imp; [|exact (ex_texts t acts H)]; intros [] K; cbn in *; auto|].
  repeat split. eexists. eexists. split; [vm_compute; reflexivity | reflexivity].
Qed.

Definition any (a : act) : Prop := match a with ARescue _ => False | _ => True end.
Lemma any_act : forall a acts, only any acts -> only any (a :: acts).
Proof.
  fix IH 1. intros a acts O. destruct a; try (apply only_act; [exact Logic.I | exact O]).
  apply only_rescue; [|exact O]. induction body as [|x body IB]; [apply only_nil | apply IH; exact IB].
Qed.
Lemma any_program : forall acts, only any acts.
Proof. induction acts as [|a acts IH]; [apply only_nil | apply any_act; exact IH]. Qed.
Lemma fine_program : forall acts, only (fine true) acts.
Proof. intro acts. eapply only_imp; [|apply any_program]. intros [] H; cbn in *; auto. Qed.

(* Programs with load too: every file that was started is known. *)
Theorem C112_known : forall cwd parse fuel s file s2 r,
  past s = [] -> files s = [] -> main cwd parse fuel s file = Some (s2, r) -> sound s2.
Proof.
  intros cwd parse fuel s file s2 r E1 E2 M.
  assert (X : sound s2 /\ grows s s2).
  { eapply (main_keeps cwd parse sound true inv_sound); [| | |exact M].
    - intros t acts _. apply fine_program.
    - intros p H. unfold ran in H. rewrite E1 in H. destruct H.
    - intros p t _ _. rewrite E2. intros []. }
  apply X.
Qed.
Print Assumptions C112_known.
Example C112_known_ex : exists s2 r, main [] ex_parse 40 ex_state (lt "main.rb"%string) = Some (s2, r) /\
  ran s2 (ex_place ["lib"; "bad.rb"]%string) /\ In (ex_place ["lib"; "bad.rb"]%string) (files s2).
Proof.
  eexists. eexists. split; [vm_compute; reflexivity|]. split; unfold ran; cbn; tauto.
Qed.
(* The answer of require and require_relative.  true: a file that never ran before was run, and to its end; before it
   nothing else happened.  false: nothing happened at all. *)
Definition told (s s2 : state) (b : bool) : Prop :=
  if b then exists place later, ~ ran s place /\ past s2 = later ++ ERun place :: past s /\ In place (files s2)
  else s2 = s.
Lemma shape_told : forall cwd parse fuel s F s2 b, shape parse s F -> sound s ->
  F (exec cwd parse fuel) = Some (s2, Ok b) -> told s s2 b.
Proof.
  intros cwd parse fuel s F s2 b [H | s3 k H1 H2 | place t acts H1 H2 H3 H4] So E.
  - rewrite H in E. injection E as <- <-. reflexivity.
  - rewrite H2 in E. discriminate.
  - rewrite H4 in E. destruct (exec cwd parse fuel place acts _) as [[s3 r3]|] eqn:X; [|discriminate].
    destruct r3 as [u|k|]; try discriminate. injection E as <- <-. cbn [told].
    destruct (exec_keeps cwd parse (fun _ => True) true (Inv (fun _ => True) true (fun _ _ _ => Logic.I) (fun _ _ _ => Logic.I)
       (fun _ _ _ => Logic.I) (fun _ _ _ => Logic.I) (fun _ _ _ _ => Logic.I) (fun _ _ _ _ _ _ => Logic.I))
      (fun t acts _ => fine_program acts) fuel place acts _ _ _ (fine_program acts) Logic.I X)
      as [_ [[later L] K]].
    exists place, later. split; [|split].
    + intro R. apply H1. apply So. exact R.
    + exact L.
    + apply K. cbn. apply in_or_app. right. left. reflexivity.
Qed.
Theorem C112_answer : forall cwd parse fuel s here v s2 b, sound s ->
  require cwd parse (exec cwd parse fuel) s v = Some (s2, Ok b) \/
  require_relative cwd parse (exec cwd parse fuel) s here v = Some (s2, Ok b) -> told s s2 b.
Proof.
  intros cwd parse fuel s here v s2 b So [E|E].
  - exact (shape_told cwd parse fuel s _ s2 b (require_shape cwd parse s v) So E).
  - exact (shape_told cwd parse fuel s _ s2 b (relative_shape cwd parse s here v) So E).
Qed.
Print Assumptions C112_answer.
Example C112_answer_ex : sound ex_state /\
  match require [] ex_parse (exec [] ex_parse 20) ex_state (PStr (lt "a"%string)) with
  | Some (s1, Ok true) => match require [] ex_parse (exec [] ex_parse 20) s1 (PStr (lt "b"%string)) with
                          | Some (s2, Ok false) => s2 = s1
                          | _ => False
                          end
  | _ => False
  end.
Proof. split; [intros p [] | vm_compute; reflexivity]. Qed.

(* ---- the end ---- *)
(* Programs without load, and that do not change the files, always end: circles of require are no problem. *)
Theorem C112_ends : forall cwd parse,
  (forall t acts, parse t = Some acts -> only no_load_no_change acts) ->
  forall s file, exists n, forall fuel, (n <= fuel)%nat -> exists s2 r, main cwd parse fuel s file = Some (s2, r).
Proof. intros cwd parse T s file. apply main_ends. exact T. Qed.
Print Assumptions C112_ends.
Example C112_ends_ex : forall t acts, ex_parse t = Some acts -> only no_load_no_change acts.
Proof. exact ex_texts. Qed.

(* ---- which file ---- *)
Lemma load_exec_once : forall cwd parse e s p place, os_resolve (root s) cwd p = Some place ->
  loads_once parse e s place (load_exec cwd parse e s p false).
Proof.
  intros cwd parse e s p place R. unfold load_exec. rewrite R. unfold add_source_file. split.
  - intro K. rewrite (proj2 (known_spec place (files s)) K). reflexivity.
  - intros K t acts s2 r2 N P E. rewrite (proj2 (unknown_spec place (files s)) K). cbn [negb andb].
    unfold load_file, load_text. cbn [root set_files]. rewrite N. unfold add_source_file. cbn [files set_files].
    rewrite known_last. cbn [fst]. unfold run_file. rewrite P.
    change (happens (set_files s (files s ++ [place])) (ERun place)) with (started s (files s ++ [place]) place).
    rewrite E. destruct r2 as [[]|k|]; reflexivity.
Qed.
Lemma dir_paths : forall d ns n b, proper (ns ++ [n]) -> asks n b ->
  set_extension (push d (slashed (ns ++ [n]))) rb = push d (slashed (ns ++ [b ++ dot_rb])) /\
  set_extension (push d (slashed (ns ++ [b ++ dot_rb]))) so = push d (slashed (ns ++ [b ++ dot_so])) /\
  proper (ns ++ [b ++ dot_rb]) /\ proper (ns ++ [b ++ dot_so]).
Proof.
  intros d ns n b P A. apply Forall_app in P as [P Pn]. inversion Pn as [|? ? [N S] _]; subst.
  destruct (asks_stem n b A) as [B St].
  pose proof (asks_base_slash n b A S) as Sb.
  assert (S1 : no_slash (b ++ dot_rb)) by (intro X; apply in_app_or in X as [X|[X|[X|[X|[]]]]]; [exact (Sb X)|discriminate..]).
  assert (S2 : no_slash (b ++ dot_so)) by (intro X; apply in_app_or in X as [X|[X|[X|[X|[]]]]]; [exact (Sb X)|discriminate..]).
  assert (N1 : is_name (b ++ dot_rb)) by (apply (ext_name b rb); [exact B | discriminate]).
  assert (N2 : is_name (b ++ dot_so)) by (apply (ext_name b so); [exact B | discriminate]).
  destruct (push_last d ns P) as (q & Q & E). rewrite !E by assumption.
  split; [|split; [|split; (apply Forall_app; split; [exact P | constructor; [split; assumption | constructor]])]].
  - rewrite set_ext_ends by assumption. rewrite St. reflexivity.
  - rewrite set_ext_ends by assumption. change dot_rb with (46%Z :: rb). rewrite (stem_dot b rb B no_dot_rb). reflexivity.
Qed.
Lemma not_has : forall root cwd d names, d <> [] -> proper names -> names <> [] -> ~ has root cwd d names ->
  exists_at root cwd (push d (slashed names)) = false.
Proof.
  intros root cwd d names D P N H. unfold exists_at. rewrite resolve_push by assumption.
  destruct (os_resolve root cwd d) as [pl|] eqn:R; [|reflexivity].
  destruct (node_at root (pl ++ names)) eqn:X; [|reflexivity]. exfalso. apply H. exists pl. split; [exact R | congruence].
Qed.
Lemma require_skips : forall cwd parse e s ns n b pre post, proper (ns ++ [n]) -> asks n b -> Forall (fun d => d <> []) pre ->
  (forall d, In d pre -> ~ has (root s) cwd d (ns ++ [b ++ dot_rb]) /\ ~ has (root s) cwd d (ns ++ [b ++ dot_so])) ->
  require_in cwd parse e s (map PStr pre ++ post) (slashed (ns ++ [n])) = require_in cwd parse e s post (slashed (ns ++ [n])).
Proof.
  intros cwd parse e s ns n b pre post P A. induction pre as [|d pre IH]; intros F H; [reflexivity|].
  inversion F as [|? ? Fd Fp]; subst. cbn [map app require_in expect_string]. cbv zeta.
  destruct (dir_paths d ns n b P A) as (E1 & E2 & P1 & P2). rewrite E1, E2.
  destruct (H d (or_introl eq_refl)) as [H1 H2].
  rewrite (not_has _ _ _ _ Fd P1 ltac:(destruct ns; discriminate) H1), (not_has _ _ _ _ Fd P2 ltac:(destruct ns; discriminate) H2).
  apply IH; [exact Fp | intros x Hx; apply H; right; exact Hx].
Qed.
Lemma proper_not_abs : forall cwd parse e s names, proper names -> names <> [] ->
  require cwd parse e s (PStr (slashed names)) = require_search cwd parse e s (slashed names).
Proof.
  intros cwd parse e s names P N. cbn [require]. rewrite require_name_eq.
  destruct (proper_slashed_rel names P N) as [A _].
  destruct (slashed names) as [|c r]; [reflexivity|].
  destruct (Z.eq_dec c 47) as [->|D]; [exfalso; apply A; eexists; reflexivity|].
  destruct c as [|p|p]; try reflexivity. do 7 (try destruct p as [p|p|]; try reflexivity). congruence.
Qed.
(* Of the directories of $: the first one counts that has the file with the ending .rb (or with .so, which is not
   loaded); the name may be given with or without .rb. *)
Theorem C112_search : forall cwd parse e s pre d post ns n b D, proper (ns ++ [n]) -> asks n b ->
  load_path s = Some (PAry (map PStr pre ++ PStr d :: post)) ->
  Forall (fun d => d <> []) (pre ++ [d]) ->
  (forall d, In d pre -> ~ has (root s) cwd d (ns ++ [b ++ dot_rb]) /\ ~ has (root s) cwd d (ns ++ [b ++ dot_so])) ->
  os_resolve (root s) cwd d = Some D -> node_at (root s) (D ++ ns ++ [b ++ dot_rb]) <> None ->
  loads_once parse e s (D ++ ns ++ [b ++ dot_rb]) (require cwd parse e s (PStr (slashed (ns ++ [n])))).
Proof.
  intros cwd parse e s pre d post ns n b D P A L F H R N.
  rewrite proper_not_abs by (exact P || (destruct ns; discriminate)). unfold require_search. rewrite L.
  apply Forall_app in F as [F1 F2]. inversion F2 as [|? ? Fd _]; subst.
  rewrite (require_skips cwd parse e s ns n b) by assumption.
  cbn [require_in expect_string]. cbv zeta. destruct (dir_paths d ns n b P A) as (E1 & _ & P1 & _). rewrite E1.
  assert (X : os_resolve (root s) cwd (push d (slashed (ns ++ [b ++ dot_rb]))) = Some (D ++ ns ++ [b ++ dot_rb])).
  { rewrite resolve_push by (assumption || (destruct ns; discriminate)). rewrite R. 
    destruct (node_at (root s) (D ++ ns ++ [b ++ dot_rb])); [reflexivity | congruence]. }
  unfold exists_at. rewrite X. apply load_exec_once. exact X.
Qed.
Print Assumptions C112_search.

Example C112_search_ex : proper [lt "c.rb"%string] /\ asks (lt "c.rb"%string) (lt "c"%string) /\
  load_path ex_state = Some (PAry (map PStr [lt "lib"%string] ++ [PStr (lt "/alt/"%string)])) /\
  (forall d, In d [lt "lib"%string] -> ~ has ex_root [] d [lt "c"%string ++ dot_rb] /\ ~ has ex_root [] d [lt "c"%string ++ dot_so]) /\
  os_resolve ex_root [] (lt "/alt/"%string) = Some [lt "alt"%string] /\
  node_at ex_root ([lt "alt"%string] ++ [lt "c"%string ++ dot_rb]) <> None.
Proof.
  split. { constructor; [|constructor]. split; [repeat split; discriminate|]. intros H. cbn in H. intuition discriminate. }
  split. { apply (asks_rb (lt "c"%string)). discriminate. }
  split; [reflexivity|]. split.
  { intros d [<-|[]]. split; intros (D & R & N); vm_compute in R; injection R as <-; apply N; reflexivity. }
  split; [reflexivity | discriminate].
Qed.

(* An absolute name does not depend on $:. *)
Theorem C112_absolute : forall cwd parse e s dir n b, proper (dir ++ [n]) -> asks n b ->
  node_at (root s) (dir ++ [b ++ dot_rb]) <> None ->
  loads_once parse e s (dir ++ [b ++ dot_rb]) (require cwd parse e s (PStr (47%Z :: slashed (dir ++ [n])))).
Proof.
  intros cwd parse e s dir n b P A N. cbn [require]. rewrite require_name_eq. cbv iota.
  destruct (dir_paths [47%Z] dir n b P A) as (E1 & _ & P1 & _).
  assert (Q : forall l, proper l -> l <> [] -> push [47%Z] (slashed l) = 47%Z :: slashed l).
  { intros l Pl Nl. destruct (proper_slashed_rel l Pl Nl) as [Ab _]. rewrite ProofsPath.push_rel by exact Ab. reflexivity. }
  rewrite !Q in E1 by (assumption || (destruct dir; discriminate)). rewrite E1.
  assert (X : os_resolve (root s) cwd (47%Z :: slashed (dir ++ [b ++ dot_rb])) = Some (dir ++ [b ++ dot_rb])).
  { rewrite <- Q by (assumption || (destruct dir; discriminate)).
    rewrite resolve_push by (discriminate || assumption || (destruct dir; discriminate)).
    assert (Rt : os_resolve (root s) cwd [47%Z] = Some []).
    { cbn. unfold os_walk. cbn. destruct (root s) as [t|es] eqn:R; [|reflexivity].
      exfalso. apply N. destruct dir; reflexivity. }
    rewrite Rt. cbn [app]. destruct (node_at (root s) (dir ++ [b ++ dot_rb])); [reflexivity | congruence]. }
  unfold exists_at. rewrite X. apply load_exec_once. exact X.
Qed.
Print Assumptions C112_absolute.
Example C112_absolute_ex : proper [lt "lib"%string; lt "a"%string] /\ asks (lt "a"%string) (lt "a"%string) /\
  node_at ex_root [lt "lib"%string; lt "a"%string ++ dot_rb] = Some (FFile (lt "A"%string)).
Proof.
  split. { repeat constructor; try discriminate; intros H; cbn in H; intuition discriminate. }
  split; [|reflexivity]. apply asks_plain; [discriminate|]. intros H. cbn in H. intuition discriminate.
Qed.

(* If no directory has the file, require raises and nothing happens. *)
Theorem C112_missing : forall cwd parse e s dirs ns n b, proper (ns ++ [n]) -> asks n b ->
  load_path s = Some (PAry (map PStr dirs)) -> Forall (fun d => d <> []) dirs ->
  (forall d, In d dirs -> ~ has (root s) cwd d (ns ++ [b ++ dot_rb]) /\ ~ has (root s) cwd d (ns ++ [b ++ dot_so])) ->
  require cwd parse e s (PStr (slashed (ns ++ [n]))) = Some (s, Err OtherErr).
Proof.
  intros cwd parse e s dirs ns n b P A L F H.
  rewrite proper_not_abs by (exact P || (destruct ns; discriminate)). unfold require_search. rewrite L.
  rewrite <- (app_nil_r (map PStr dirs)). rewrite (require_skips cwd parse e s ns n b) by assumption. reflexivity.
Qed.
Print Assumptions C112_missing.
Example C112_missing_ex : load_path ex_state = Some (PAry (map PStr ex_dirs)) /\ Forall (fun d => d <> []) ex_dirs /\
  (forall d, In d ex_dirs -> ~ has ex_root [] d [lt "d"%string ++ dot_rb] /\ ~ has ex_root [] d [lt "d"%string ++ dot_so]).
Proof.
  split; [reflexivity|]. split; [repeat constructor; discriminate|].
  intros d [<-|[<-|[]]]; split; intros (D & R & N); vm_compute in R; injection R as <-; apply N; reflexivity.
Qed.

(* require_relative starts at the directory of the file in which it is written, wherever the program was started. *)
Theorem C112_relative : forall cwd parse e s dir f name parts n b start pos,
  proper (dir ++ [f]) -> written name (parts ++ [n]) -> asks n b -> begins dir name start -> goes start parts pos ->
  node_at (root s) (pos ++ [b ++ dot_rb]) <> None ->
  loads_once parse e s (pos ++ [b ++ dot_rb]) (require_relative cwd parse e s (dir ++ [f]) (PStr name)).
Proof.
  intros cwd parse e s dir f name parts n b start pos P W A B G N. cbn [require_relative]. apply load_exec_once.
  rewrite (relative_resolve (root s) cwd dir f name parts n b start pos) by assumption.
  destruct (node_at (root s) (pos ++ [b ++ dot_rb])); [reflexivity | congruence].
Qed.
Print Assumptions C112_relative.
Example C112_relative_ex : proper [lt "alt"%string; lt "c.rb"%string] /\
  written (lt "../lib/a"%string) [dotdot; lt "lib"%string; lt "a"%string] /\
  begins [lt "alt"%string] (lt "../lib/a"%string) [lt "alt"%string] /\
  goes [lt "alt"%string] [dotdot; lt "lib"%string] [lt "lib"%string] /\
  node_at ex_root [lt "lib"%string; lt "a"%string ++ dot_rb] <> None.
Proof.
  split. { repeat constructor; try discriminate; intros H; cbn in H; intuition discriminate. }
  split. { split; [discriminate|]. split; [|reflexivity]. repeat constructor; intros H; cbn in H; intuition discriminate. }
  split. { right. split; [|reflexivity]. intros [q Q]. discriminate. }
  split; [|discriminate]. apply (goes_up []). apply goes_down; [repeat split; discriminate | apply goes_nil].
Qed.

(* load runs the file each time, known or not. *)
Theorem C112_load : forall cwd parse e s name place t acts s2 r2,
  os_resolve (root s) cwd name = Some place -> node_at (root s) place = Some (FFile t) -> parse t = Some acts ->
  (In place (files s) -> e place acts (started s (files s) place) = Some (s2, r2)) ->
  (~ In place (files s) -> e place acts (started s (files s ++ [place]) place) = Some (s2, r2)) ->
  load cwd parse e s (PStr name) = Some (s2, answer r2).
Proof.
  intros cwd parse e s name place t acts s2 r2 R N P E1 E2. cbn [load]. unfold exists_at. rewrite R.
  rewrite (load_exec_true cwd parse s name place e R), N, P, then_true_finish. unfold known.
  destruct (existsb (place_eqb place) (files s)) eqn:K.
  - rewrite E1 by (apply known_spec; exact K). reflexivity.
  - rewrite E2 by (apply unknown_spec; exact K). reflexivity.
Qed.
Print Assumptions C112_load.
Example C112_load_ex : os_resolve ex_root [] (lt "lib/../lib//b.rb"%string) = Some (ex_place ["lib"; "b.rb"]%string) /\
  node_at ex_root (ex_place ["lib"; "b.rb"]%string) = Some (FFile (lt "B"%string)).
Proof. split; reflexivity. Qed.

(* ---- findings ---- *)
(* A file that raised an error counts as loaded: a second require answers false although the file never ran to its
   end. *)
Theorem C112_error_refuted : exists parse s s1 v k,
  require [] parse (exec [] parse 20) s v = Some (s1, Err k) /\
  require [] parse (exec [] parse 20) s1 v = Some (s1, Ok false).
Proof.
  exists ex_parse, ex_state,
    (State [ex_place ["lib"; "bad.rb"]%string] (load_path ex_state) ex_root [EOut 6; ERun (ex_place ["lib"; "bad.rb"]%string)]),
    (PStr (lt "bad"%string)), TypeErr. split; vm_compute; reflexivity.
Qed.
Print Assumptions C112_error_refuted.
(* What follows a dot in the name is cut off: require "v1.2" runs v1.rb, though there is a v1.2.rb. *)
Theorem C112_dot_refuted : exists parse s s1,
  node_at (root s) (ex_place ["lib"; "v1.2.rb"]%string) = Some (FFile (lt "2"%string)) /\
  require [] parse (exec [] parse 20) s (PStr (lt "v1.2"%string)) = Some (s1, Ok true) /\
  ran s1 (ex_place ["lib"; "v1.rb"]%string) /\ ~ ran s1 (ex_place ["lib"; "v1.2.rb"]%string).
Proof.
  exists ex_parse, ex_state,
    (State [ex_place ["lib"; "v1.rb"]%string] (load_path ex_state) ex_root [EOut 8; ERun (ex_place ["lib"; "v1.rb"]%string)]).
  split; [reflexivity|]. split; [vm_compute; reflexivity|]. split; [right; left; reflexivity|].
  intros [H|[H|[]]]; vm_compute in H; discriminate.
Qed.
Print Assumptions C112_dot_refuted.
(* A file that was loaded is not required any more. *)
Theorem C112_load_refuted : exists parse s s1 v w,
  load [] parse (exec [] parse 20) s v = Some (s1, Ok true) /\
  require [] parse (exec [] parse 20) s w = Some (s1, Ok true) /\
  require [] parse (exec [] parse 20) s1 w = Some (s1, Ok false).
Proof.
  exists ex_parse, ex_state,
    (State [ex_place ["lib"; "v1.rb"]%string] (load_path ex_state) ex_root [EOut 8; ERun (ex_place ["lib"; "v1.rb"]%string)]),
    (PStr (lt "v1.rb"%string)), (PStr (lt "v1"%string)). repeat split; vm_compute; reflexivity.
Qed.
Print Assumptions C112_load_refuted.
