(* C115: the variables of bindings. *)
From Coq Require Import Lia.
From Verif Require Import Base ModelValue ModelArray ModelFrame ModelMark ModelCodegen ModelScope ModelBinding SpecBinding ProofsFrame ProofsBinding ProofsBinding2.

(* C115. Texts evaluated with bindings read and write the variables of the scopes
   around them: bindings made from one frame share the variables of that frame and
   of the frames around it, each has further variables of its own, which keep their
   values from text to text; nothing else happens to them.
   Partial: a text may bring in one new variable at most, and a binding has no more
   than 63 ([modest]); beyond that the statement is false, see
   [C115_new_variables_refuted] and [C115_many_refuted]. *)
Theorem C115_evals_partial s w l w' outs :
  shows s w -> history l w w' outs -> exists s', run_ops l s = Ok (s', outs) /\ shows s' w'.
Proof. intros Hs H. destruct (history_ok l w w' outs H s Hs) as (s' & A & B & _). eauto. Qed.
Print Assumptions C115_evals_partial.

(* a method frame at 1000 whose variables 1 and 2 are 31 and 33 *)
Definition ex_mem : Z -> Z :=
  write (fun _ => 0) 996 [17; 31; 33; 17; enc 0; enc 1000; ruby_flag true 2; enc 1000; enc_opt None; fixword 0; iseq_word 3; fixword 0].
Definition ex_s : bst := mkbst (mkvm ex_mem 100000 1008 100000 100000 100000 3 0) [] [(1000, [1; 2])].
Definition ex_w : world := mkw [] [[(1, 31); (2, 33)]].
Lemma ex_shows : shows ex_s ex_w.
Proof.
  exists (fun _ => 996), (fun _ => [(1, 31); (2, 33)]), (fun _ => None). cbn [ex_s ex_w vmof bindings frames own shared eps map fst app hp mem].
  split; [reflexivity|]. split; [reflexivity|]. split; [discriminate|]. split; [|split; [|split; [|split]]].
  - split; [repeat constructor; intros []|]. split; [intros ? []|]. split.
    + intros a [<-|[]]. cbn. lia.
    + intros a b [<-|[]] [<-|[]]. congruence.
  - intros a t [[= <- <-]|[]]. split; [reflexivity|]. split; [reflexivity|]. split; [reflexivity|]. split; [reflexivity|].
    split; [repeat constructor; cbn; intuition lia|].
    intros [|[|k]] x v; cbn [nth_error]; intros H; try (injection H as <- <-; reflexivity). destruct k; discriminate.
  - intros b [].
  - repeat split.
  - intros f [= <-]. split; [lia|]. exists 1000. reflexivity.
Qed.
Definition ex_ops : list bop :=
  [New 4; New 5; Eval 6 0 [Assign 8 41; Assign 1 43; Use 8; Use 1]; Eval 7 1 [Use 1; Use 8; Use 2]; Eval 8 0 [Skip 9; Use 9; Use 8]].
Lemma ex_hist : history ex_ops ex_w (mkw [[(8, 41); (9, NIL_VALUE)]; []] [[(1, 43); (2, 33)]])
  [([41; 43], false); ([43], true); ([NIL_VALUE; 41], false)].
Proof.
  apply h_new, h_new. eapply h_eval with (c := []) (c' := [(8, 41)]) (cs' := [[(1, 43); (2, 33)]]); [reflexivity| | |].
  - eexists _, _. split; [reflexivity|cbn; lia].
  - cbn. left. split; [tauto|]. exists 41, [43]. repeat split. left. split; [tauto|]. exists 43, []. repeat split.
  - eapply h_eval with (c := []) (c' := []) (cs' := [[(1, 43); (2, 33)]]); [reflexivity| | |].
    + eexists _, _. split; [reflexivity|cbn; lia].
    + cbn. left. split; [discriminate|]. exists 43, []. repeat split. right. repeat split. intros H. now apply H.
    + eapply h_eval with (c := [(8, 41)]) (c' := [(8, 41); (9, NIL_VALUE)]) (cs' := [[(1, 43); (2, 33)]]); [reflexivity| | |].
      * eexists _, _. split; [reflexivity|cbn; lia].
      * cbn. left. split; [tauto|]. exists NIL_VALUE, [41]. repeat split. left. split; [right; discriminate|]. exists 41, []. repeat split.
      * apply h_nil.
Qed.
Example C115_evals_ex : exists s', run_ops ex_ops ex_s = Ok (s', [([41; 43], false); ([43], true); ([NIL_VALUE; 41], false)]).
Proof. destruct (C115_evals_partial _ _ _ _ _ ex_shows ex_hist) as (s' & H & _). eauto. Qed.

(* What one binding does to a variable of the frame, the other one sees. *)
Theorem C115_shared s w j k cj ck x v i i' :
  shows s w -> nth_error (own w) j = Some cj -> nth_error (own w) k = Some ck ->
  (length cj <= 63)%nat -> (length ck <= 63)%nat ->
  value_in x cj = None -> value_in x ck = None -> value_of x (shared w) <> None ->
  exists s', run_ops [Eval i j [Assign x v]; Eval i' k [Use x]] s = Ok (s', [([], false); ([v], false)]).
Proof.
  intros Hs Hj Hk Lj Lk Nj Nk Hx.
  assert (Hxj : value_of x (cj :: shared w) <> None) by (cbn; now rewrite Nj).
  assert (Dj : declared [Assign x v] (cj :: shared w) = cj :: shared w).
  { cbn. unfold declare. destruct (value_of x (cj :: shared w)); [reflexivity|congruence]. }
  assert (Pv : forall cs, value_of x cs <> None -> value_of x (put x v cs) = Some v).
  { assert (Pin : forall c, value_in x c <> None -> value_in x (put_in x v c) = Some v).
    { induction c as [|(y, u) r IH]; cbn; [congruence|]. destruct (Z.eq_dec x y) as [->|N]; cbn.
      - destruct (Z.eq_dec y y); [reflexivity|congruence].
      - destruct (Z.eq_dec x y); [congruence|assumption]. }
    induction cs as [|c r IH]; cbn; [congruence|]. destruct (value_in x c) as [u|] eqn:E; cbn.
    - intros _. rewrite Pin; congruence.
    - rewrite E. exact IH. }
  assert (Pj : put x v (cj :: shared w) = cj :: put x v (shared w)) by (cbn; now rewrite Nj).
  destruct (C115_evals_partial s w [Eval i j [Assign x v]; Eval i' k [Use x]]
    (mkw (own w) (put x v (shared w))) [([], false); ([v], false)]) as (s' & H & _); [assumption| |eauto].
  assert (Same : forall n c, nth_error (own w) n = Some c -> firstn n (own w) ++ c :: skipn (S n) (own w) = own w).
  { intros n. generalize (own w). induction n as [|n IH]; intros [|a l] c; cbn; try discriminate.
    - now intros [= ->].
    - intros H. f_equal. now apply IH. }
  eapply h_eval with (c := cj) (c' := cj) (cs' := put x v (shared w)); [exact Hj| | |].
  - exists cj, (shared w). split; [exact Dj|lia].
  - rewrite Dj. cbn [meaning]. rewrite Pj. auto.
  - rewrite (Same j cj Hj). eapply h_eval with (c := ck) (c' := ck) (cs' := put x v (shared w)); [exact Hk| | |].
    + exists ck, (put x v (shared w)). split; [reflexivity|lia].
    + cbn [declared assigned flat_map fold_left meaning shared]. left.
      assert (V : value_of x (ck :: put x v (shared w)) = Some v) by (cbn; rewrite Nk; now apply Pv).
      split; [unfold declared; cbn [assigned flat_map app fold_left]; congruence|]. exists v, []. auto.
    + cbn [own shared]. rewrite (Same k ck Hk). destruct w. apply h_nil.
Qed.
Print Assumptions C115_shared.
Example C115_shared_ex : exists s s', run_ops [New 4; New 5] ex_s = Ok (s, []) /\
  run_ops [Eval 6 0 [Assign 1 43]; Eval 7 1 [Use 1]] s = Ok (s', [([], false); ([43], false)]).
Proof.
  destruct (C115_evals_partial ex_s ex_w [New 4; New 5] (mkw [[]; []] [[(1, 31); (2, 33)]]) [] ex_shows) as (s & E & S);
    [apply h_new, h_new, h_nil|].
  destruct (C115_shared s _ 0 1 [] [] 1 43 6 7 S) as (s' & E'); [reflexivity|reflexivity|cbn; lia|cbn; lia|reflexivity|reflexivity|discriminate|].
  eauto.
Qed.

(* self of a binding is that of the frame it was made from, whatever is evaluated. *)
Theorem C115_receiver s w l w' outs :
  shows s w -> history l w w' outs ->
  exists s', run_ops l s = Ok (s', outs) /\
    (forall j, (j < length (bindings s))%nat -> receiver s' j = receiver s j) /\
    (forall j f t r, (j < length (bindings s'))%nat -> frames s' = (f, t) :: r -> receiver s' j = Ok (self_value (mem (vmof s')) f)).
Proof.
  intros Hs H. destruct (history_ok l w w' outs H s Hs) as (s' & A & B & _ & C). exists s'. split; [exact A|]. split; [exact C|].
  intros j f t r Hj Hf. destruct B as (lo & sc & out & _ & _ & _ & _ & _ & Hb & _).
  unfold receiver. destruct (nth_error (bindings s') j) as [[b u]|] eqn:E; [|apply nth_error_None in E; lia].
  f_equal. destruct (Hb b) as [_ Hb']; [apply nth_error_eps in E; eapply nth_error_In; eassumption|].
  apply Hb'. rewrite Hf. reflexivity.
Qed.
Print Assumptions C115_receiver.
Example C115_receiver_ex : exists s', run_ops ex_ops ex_s = Ok (s', [([41; 43], false); ([43], true); ([NIL_VALUE; 41], false)]) /\
  receiver s' 0 = Ok 17 /\ receiver s' 1 = Ok 17.
Proof. eexists. split; [vm_compute; reflexivity|]. split; vm_compute; reflexivity. Qed.

(* local_variables: every variable a text of the binding could use, each once, the
   innermost first; local_variable_defined? tells whether a name is one of them. *)
Lemma existsb_in x l : existsb (Z.eqb x) l = true <-> In x l.
Proof.
  rewrite existsb_exists. split; [intros (y & H & E); apply Z.eqb_eq in E; congruence|].
  intros H. exists x. split; [assumption|apply Z.eqb_refl].
Qed.
Lemma once_in x l : In x (once l) <-> In x l.
Proof.
  induction l as [|a r IH]; cbn; [tauto|]. rewrite filter_In, IH.
  destruct (Z.eqb_spec x a); cbn; intuition congruence.
Qed.
Lemma filter_filter {A} (p q : A -> bool) l : filter p (filter q l) = filter (fun x => q x && p x) l.
Proof. induction l as [|a r IH]; cbn; [reflexivity|]. destruct (q a); cbn; [destruct (p a); congruence|assumption]. Qed.
Lemma fold_insert t : forall vec, fold_left (fun v x => set_insert x v) t vec =
  vec ++ filter (fun x => negb (existsb (Z.eqb x) vec)) (once t).
Proof.
  induction t as [|x r IH]; intros vec; cbn [fold_left once filter]; [now rewrite app_nil_r|].
  rewrite IH. unfold set_insert. rewrite filter_filter. destruct (existsb (Z.eqb x) vec) eqn:E; cbn [negb].
  - f_equal. apply filter_ext_in. intros y _. destruct (Z.eqb_spec y x) as [->|]; cbn; [now rewrite E|reflexivity].
  - rewrite <- app_assoc. cbn [app]. do 2 f_equal. apply filter_ext. intros y. rewrite existsb_app. cbn.
    destruct (existsb (Z.eqb y) vec); destruct (y =? x); reflexivity.
Qed.
Lemma enumerate_fold ts : forall vec, enumerate_local_vars ts vec = fold_left (fun v x => set_insert x v) (concat ts) vec.
Proof. induction ts as [|t r IH]; intros vec; cbn; [reflexivity|]. now rewrite IH, fold_left_app. Qed.
Lemma value_of_in x cs : value_of x cs <> None <-> In x (flat_map (map fst) cs).
Proof.
  induction cs as [|c r IH]; cbn; [tauto|]. rewrite in_app_iff. pose proof (value_in_In x c) as V.
  destruct (value_in x c) as [u|] eqn:E.
  - split; [|discriminate]. intros _. left. destruct (in_dec Z.eq_dec x (map fst c)) as [I|I]; [exact I|]. apply V in I. discriminate.
  - rewrite IH. intuition.
Qed.
Theorem C115_local_variables s w j c :
  shows s w -> nth_error (own w) j = Some c ->
  local_variables s j = Ok (names (c :: shared w)) /\
  forall x, (local_variable_defined s j x = Ok true <-> value_of x (c :: shared w) <> None) /\
            (local_variable_defined s j x = Ok false <-> value_of x (c :: shared w) = None).
Proof.
  intros (lo & sc & out & Hown & Hsh & _ & _ & Hall & _) Hj. rewrite Hown in Hj.
  assert (E : exists b t, nth_error (bindings s) j = Some (b, t) /\ c = sc b /\ t = map fst c).
  { unfold eps in Hj. rewrite map_map in Hj. destruct (nth_error (bindings s) j) as [[b t]|] eqn:E.
    - rewrite (map_nth_error _ j _ E) in Hj. cbn in Hj. injection Hj as <-. exists b, t. repeat split.
      apply (Hall b t). apply in_or_app. left. eapply nth_error_In; eassumption.
    - exfalso. apply nth_error_None in E. assert (H : nth_error (map (fun x => sc (fst x)) (bindings s)) j <> None) by congruence.
      apply nth_error_Some in H. rewrite map_length in H. lia. }
  destruct E as (b & t & Ej & Ec & Et).
  assert (Efr : map snd (frames s) = map (map fst) (shared w)).
  { rewrite Hsh. unfold eps. rewrite !map_map. apply map_ext_in. intros (a, u) Ha. cbn. apply (Hall a u). apply in_or_app. now right. }
  assert (L : local_variables s j = Ok (names (c :: shared w))).
  { unfold local_variables. rewrite Ej. f_equal. rewrite enumerate_fold, fold_insert. cbn [app existsb negb].
    rewrite Efr, Et. unfold names. cbn [concat flat_map]. rewrite flat_map_concat_map.
    generalize (once (map fst c ++ concat (map (map fst) (shared w)))). induction l as [|a r IH]; cbn; congruence. }
  split; [exact L|]. intros x. unfold local_variable_defined. rewrite L. cbn [rbind].
  assert (X : existsb (Z.eqb x) (names (c :: shared w)) = true <-> value_of x (c :: shared w) <> None).
  { rewrite existsb_in, value_of_in. unfold names. apply once_in. }
  destruct (existsb (Z.eqb x) (names (c :: shared w))); destruct (value_of x (c :: shared w)); split; split; intros; try congruence; tauto || (exfalso; apply X; congruence) || idtac.
  - assert (false = true) by (apply X; discriminate). discriminate.
  - assert (false = true) by (apply X; discriminate). discriminate.
Qed.
Print Assumptions C115_local_variables.
Example C115_local_variables_ex : exists s', run_ops ex_ops ex_s = Ok (s', [([41; 43], false); ([43], true); ([NIL_VALUE; 41], false)]) /\
  local_variables s' 0 = Ok [8; 9; 1; 2] /\ local_variables s' 1 = Ok [1; 2] /\ local_variable_defined s' 1 8 = Ok false.
Proof. eexists. split; [vm_compute; reflexivity|]. repeat split; vm_compute; reflexivity. Qed.

(* Refuted: of several new variables only the first is nil. After b.eval("x = 77"),
   b.eval("y = 1 if false; z = 2 if false; z") is 77. *)
Theorem C115_new_variables_refuted : exists s w j c t i c' cs' out,
  shows s w /\ nth_error (own w) j = Some c /\
  meaning t (fun y => value_of y (c :: shared w) <> None) (declared t (c :: shared w)) (c' :: cs') out false /\
  exists s' out', eval_binding i j t s = Ok (s', out', false) /\ out' <> out.
Proof.
  destruct (C115_evals_partial ex_s ex_w [New 4; Eval 5 0 [Assign 8 77]] (mkw [[(8, 77)]] [[(1, 31); (2, 33)]]) [([], false)] ex_shows) as (s & E & S).
  { apply h_new. eapply h_eval with (c := []) (c' := [(8, 77)]) (cs' := [[(1, 31); (2, 33)]]); [reflexivity| | |apply h_nil].
    - eexists _, _. split; [reflexivity|cbn; lia].
    - cbn. auto. }
  exists s, (mkw [[(8, 77)]] [[(1, 31); (2, 33)]]), 0%nat, [(8, 77)], [Skip 9; Skip 10; Use 10], 6.
  exists [(8, 77); (9, NIL_VALUE); (10, NIL_VALUE)], [[(1, 31); (2, 33)]], [NIL_VALUE].
  split; [exact S|]. split; [reflexivity|]. split.
  { cbn. left. split; [auto|]. exists NIL_VALUE, []. repeat split. }
  assert (E' : run_ops [New 4; Eval 5 0 [Assign 8 77]] ex_s = Ok (s, [([], false)])) by exact E.
  vm_compute in E'. injection E' as <-. eexists _, [77]. split; [vm_compute; reflexivity|discriminate].
Qed.
Print Assumptions C115_new_variables_refuted.

(* Refuted: from the 64th variable on the words of other objects are written. The
   box of the binding starts at 1008. *)
Fixpoint one_by_one (n : nat) (x : Z) : list bop :=
  match n with O => [] | S n => Eval 5 0 [Assign x 77] :: one_by_one n (x + 1) end.
Theorem C115_many_refuted : exists s w l s' outs b a,
  shows s w /\ run_ops [New 4] s = Ok (b, []) /\ run_ops l b = Ok (s', outs) /\
  a < hp (vmof s) /\ (forall j t, nth_error (frames b) j = Some t -> a > fst t + 7 \/ a < fst t - zlen (snd t) - 2) /\
  mem (vmof s') a <> mem (vmof b) a.
Proof.
  exists (mkbst (set_hp 1010 (vmof ex_s)) [] [(1000, [1; 2])]), ex_w, (one_by_one 64 8).
  assert (Sh : shows (mkbst (set_hp 1010 (vmof ex_s)) [] [(1000, [1; 2])]) ex_w).
  { destruct ex_shows as (lo & sc & out & A & B & C & (D1 & D2 & D3 & D4) & E & F & G & H).
    exists lo, sc, out. split; [exact A|]. split; [exact B|]. split; [exact C|]. split; [|exact (conj E (conj F (conj G H)))].
    split; [exact D1|]. split; [exact D2|]. split; [|exact D4]. intros a Ha. destruct (D3 a Ha) as (X & Y & Z).
    split; [exact X|]. split; [exact Y|]. cbn in Z |- *. lia. }
  eexists _, _, _, 1009. split; [exact Sh|]. split; [vm_compute; reflexivity|]. split; [vm_compute; reflexivity|].
  split; [reflexivity|]. split.
  - intros [|[|j]] t; cbn; try discriminate. intros [= <-]. cbn. left. lia.
  - vm_compute. discriminate.
Qed.
Print Assumptions C115_many_refuted.

(* A method called by an evaluated text returns into the text: its code, its place
   in the code and its variables are those before the call. The memory of the
   caller and of the binding is as the call left it when the method returns
   ([leaves]); the binding lies outside the stack. *)
Definition in_text (e : Z) (s : vm) : Prop :=
  ep (mem s) (cfp s) = Ok e /\ is_ruby (mem s) (cfp s) = true /\ frame_iseq (mem s) e = Ok (iseq s) /\
  lfp s = get_lfp (mem s) e /\ 0 < cfp s < 2 ^ 60 /\ 0 <= pc s < 2 ^ 62.
Definition leaves (s1 s2 : vm) (top e : Z) : Prop :=
  cfp s2 = cfp s1 /\ (forall a, a < top \/ cfp s1 <= a < cfp s1 + 8 \/ e <= a < e + 8 -> mem s2 a = mem s1 a).
Theorem C115_resume s e u i n blk s1 s2 :
  in_text e s -> 0 <= n < 2 ^ 31 -> stack_bottom s <= cfp s -> cfp s + 8 <= sp s - n - 1 ->
  (e + 8 <= stack_bottom s \/ stack_bottom s + VM_STACK_SIZE <= e) ->
  push_method_frame u i n blk s = Ok s1 -> leaves s1 s2 (sp s - n - 1) e ->
  exists s3, unwind_frame s2 = Ok s3 /\
    iseq s3 = iseq s /\ pc s3 = pc s /\ lfp s3 = lfp s /\ cfp s3 = cfp s /\ sp s3 = sp s - n - 1.
Proof.
  intros (Hep & Hru & His & Hlfp & Hc & Hpc) Hn Hb Hsp He Hpush [Hc2 Hm2].
  unfold push_method_frame in Hpush. unfold save_next_pc in Hpush. rewrite Hru in Hpush.
  unfold push in Hpush. cbn [set_mem sp stack_bottom mem cfp] in Hpush.
  destruct (sp s - stack_bottom s =? VM_STACK_SIZE) eqn:E1; [discriminate|]. cbn [rbind] in Hpush.
  unfold extend_from_slice in Hpush. cbn [set_mem set_sp set_cfp sp stack_bottom mem cfp] in Hpush.
  destruct (_ <=? _) eqn:E2 in Hpush; [|discriminate]. cbn [rbind] in Hpush.
  cbn [set_mem set_sp set_cfp sp stack_bottom mem cfp] in Hpush.
  destruct (_ <=? _) eqn:E3 in Hpush; [|discriminate]. cbn [rbind] in Hpush. injection Hpush as <-.
  cbn [set_lfp ModelFrame.set_code set_mem set_sp set_cfp sp stack_bottom mem cfp] in Hc2, Hm2.
  set (m0 := upd (mem s) (cfp s + EV_PC) (fixword (pc s))) in *.
  set (cf := control_frame (cfp s) (sp s + 1) (ruby_flag u n)) in *.
  change (zlen cf) with 3 in *. change (zlen (method_env_frame (sp s + 1) i blk)) with 5 in *.
  set (mf := method_env_frame (sp s + 1) i blk) in *.
  apply Z.leb_le in E2, E3.
  set (m1 := write (write (upd m0 (sp s) (mem s (sp s - n - 1))) (sp s + 1) cf) (sp s + 1 + 3) mf) in *.
  assert (M1 : forall a, a < sp s \/ sp s + 9 <= a -> m1 a = m0 a).
  { intros a Ha. unfold m1. rewrite write_out by (change (Z.of_nat (length mf)) with 5; lia).
    rewrite write_out by (change (Z.of_nat (length cf)) with 3; lia). apply upd_other. lia. }
  assert (C0 : m1 (sp s + 1 + 0) = enc (cfp s)).
  { unfold m1. rewrite write_out by (change (Z.of_nat (length mf)) with 5; lia).
    now apply (write_at cf _ (sp s + 1) 0). }
  assert (C2 : m1 (sp s + 1 + 2) = ruby_flag u n).
  { unfold m1. rewrite write_out by (change (Z.of_nat (length mf)) with 5; lia).
    now apply (write_at cf _ (sp s + 1) 2). }
  assert (Old : forall a, cfp s <= a < cfp s + 8 -> a <> cfp s + 5 -> mem s2 a = mem s a).
  { intros a Ha Na. rewrite Hm2 by lia. rewrite M1 by lia. apply upd_other. unfold EV_PC. lia. }
  assert (Bind : forall a, e <= a < e + 8 -> mem s2 a = mem s a).
  { intros a Ha. rewrite Hm2 by lia. rewrite M1 by (unfold VM_STACK_SIZE in *; lia). apply upd_other.
    unfold EV_PC, VM_STACK_SIZE in *. lia. }
  assert (Pc : mem s2 (cfp s + 5) = fixword (pc s)).
  { rewrite Hm2 by lia. rewrite M1 by lia. apply upd_same. }
  unfold unwind_frame, prev, get_prev_sp, flag_len, EV_PREV_CFP, EV_FLAG. rewrite Hc2.
  assert (D0 : mem s2 (sp s + 1 + 0) = enc (cfp s)) by (etransitivity; [apply Hm2; lia|exact C0]).
  assert (D2 : mem s2 (sp s + 1 + 2) = ruby_flag u n) by (etransitivity; [apply Hm2; lia|exact C2]).
  rewrite D0, dec_enc by lia. rewrite D2. cbn [unwrap rbind].
  cbn [set_cfp set_sp set_lfp mem cfp].
  unfold ep, EV_EP in Hep |- *. rewrite Old by lia. rewrite Hep. cbn [rbind].
  unfold is_ruby, EV_FLAG in Hru |- *. rewrite Old by lia. rewrite Hru.
  unfold frame_iseq, is_ruby, EV_FLAG, EV_ISEQ in His |- *. rewrite !Bind by lia. rewrite His. cbn [rbind].
  eexists; split; [reflexivity|]. cbn [ModelFrame.set_code set_lfp set_cfp set_sp iseq pc lfp cfp sp].
  split; [reflexivity|]. split.
  - unfold frame_pc, EV_PC. rewrite Pc. now apply fix_roundtrip.
  - split; [|split; [reflexivity|]].
    + rewrite Hlfp. unfold get_lfp, flag_len, EV_FLAG. now rewrite Bind by lia.
    + rewrite ruby_flag_eq, flag_shift. lia.
Qed.
Print Assumptions C115_resume.
(* the text of code 5 of the binding made in [ex_s] calls a method of code 9 *)
Definition ex_text : res vm :=
  q <- run_ops [New 4] ex_s ;;
  s <- init_frame (vmof (fst q)) ;; s <- push NIL_VALUE s ;;
  s <- push_method_frame true 3 0 None s ;; s <- push_native_frame 0 s ;;
  s <- start_eval 1073 5 0 s ;; push 17 s.
Example C115_resume_ex : exists s s1, ex_text = Ok s /\ push_method_frame true 9 0 None s = Ok s1 /\
  in_text 1073 s /\ iseq s = 5 /\ stack_bottom s <= cfp s /\ cfp s + 8 <= sp s - 0 - 1 /\ 1073 + 8 <= stack_bottom s /\
  leaves s1 s1 (sp s - 0 - 1) 1073.
Proof.
  eexists _, _. split; [vm_compute; reflexivity|]. split; [vm_compute; reflexivity|].
  split; [repeat split; vm_compute; try reflexivity; discriminate|].
  repeat split; vm_compute; try reflexivity; discriminate.
Qed.

(* Refuted: a text during which another text is evaluated with the same binding does
   not go on after the next call of a method: the code that goes on is that of the
   inner text, at the place of the outer one. b = binding;
   b.eval("b.eval('0'); m(); 5") *)
Theorem C115_nested_refuted : exists s e s1 s2 s3 i' i n,
  in_text e s /\ nested_eval e i' n s = Ok s1 /\ iseq s1 = iseq s /\ pc s1 = pc s /\ cfp s1 = cfp s /\
  push_method_frame true i 0 None s1 = Ok s2 /\ unwind_frame s2 = Ok s3 /\ cfp s3 = cfp s /\
  iseq s3 <> iseq s.
Proof.
  assert (H : match ex_text with
    | Ok s => (ep (mem s) (cfp s), is_ruby (mem s) (cfp s), frame_iseq (mem s) 1073, lfp s - get_lfp (mem s) 1073, (0 <? cfp s) && (cfp s <? 2 ^ 60), pc s, iseq s) =
              (Ok 1073, true, Ok 5, 0, true, 0, 5) /\
      match nested_eval 1073 6 0 s with
      | Ok s1 => (iseq s1, pc s1, cfp s1 - cfp s) = (5, 0, 0) /\
          match push_method_frame true 9 0 None s1 with
          | Ok s2 => match unwind_frame s2 with Ok s3 => (iseq s3, cfp s3 - cfp s) = (6, 0) | _ => False end
          | _ => False end
      | _ => False end
    | _ => False end) by (vm_compute; repeat split).
  destruct ex_text as [s| |]; [|contradiction|contradiction]. destruct H as [H0 H].
  injection H0 as A1 A2 A3 A4 A5 A6 A7.
  destruct (nested_eval 1073 6 0 s) as [s1| |] eqn:E1; [|contradiction|contradiction]. destruct H as [H1 H].
  destruct (push_method_frame true 9 0 None s1) as [s2| |] eqn:E2; [|contradiction|contradiction].
  destruct (unwind_frame s2) as [s3| |] eqn:E3; [|contradiction|contradiction].
  injection H1 as B1 B2 B3. injection H as D1 D2. apply andb_prop in A5. destruct A5 as [A5 A5']. apply Z.ltb_lt in A5, A5'.
  exists s, 1073, s1, s2, s3, 6, 9, 0. unfold in_text. rewrite A7, A6. repeat split; trivial; lia.
Qed.
Print Assumptions C115_nested_refuted.
