(* Property C36: how call arguments reach parameters. *)
From Verif Require Import Base ModelValue ModelArray ProofsArray ModelArgs SpecArgs ProofsArgs ProofsArgs2.
From Coq Require Import Lia.

(* Room on the stack for the callee's variables and one more value. *)
Definition room (st : stack) (iq : iseq) (n : Z) : Prop :=
  sp st + 1 <= STACK_SIZE /\ sp st - n + iq_lvars iq <= STACK_SIZE.
(* a parameter list without keyword parameters *)
Definition keyless (s : sig) : Prop := s_key s = [] /\ s_kwrest s = None.
(* Ruby's rule for the number of arguments *)
Definition count_ok (s : sig) (n : nat) : Prop :=
  (length (s_req s) + length (s_post s) <= n)%nat /\
  (s_rest s = None -> (n <= length (s_req s) + length (s_opt s) + length (s_post s))%nat).

(* ---- methods ---- *)
(* Any keyless parameter list, any arguments, any body: a wrong number raises
   ArgumentError; otherwise the arguments are R ++ O ++ X ++ P, where R goes to
   the required parameters, O to the first optional ones, X to the rest
   parameter and P to the post-required ones; rest and left-over optional
   parameters do not compete; the other variables are nil. *)
Theorem C36_method : forall s body iq st args blk,
  NoDup (names s) -> keyless s -> compile (formals s) body = Some iq ->
  on_top st args -> room st iq (zlen args) ->
  let call := bind_method st iq {| a_len := zlen args; a_kw := None; a_block := blk |} in
  (~ count_ok s (length args) -> call = Err ArgErr) /\
  (count_ok s (length args) ->
     exists R O X P k st',
       args = R ++ O ++ X ++ P /\
       length R = length (s_req s) /\ (length O + k = length (s_opt s))%nat /\ length P = length (s_post s) /\
       (k <> 0%nat -> X = []) /\ (s_rest s = None -> X = []) /\
       call = Ok st' /\
       bound iq st st' (sp st - zlen args)
         (combine (names s)
            (R ++ O ++ repeat cuninit k ++ (match s_rest s with Some (Some _) => [CArr X] | _ => [] end) ++ P ++
             match s_block s with Some _ => [match blk with Some b => CProc b | None => cnil end] | None => [] end))).
Proof.
  intros s body iq st args blk Hn [Hk Hr] Hc Ht [Hf1 Hf2] call.
  destruct (compile_sig s body Hn) as (ext & Hn' & Ec). rewrite Hc in Ec. injection Ec as ->.
  set (iq := {| iq_params := _ |}) in *.
  assert (M := bind_method_ok s iq ext eq_refl eq_refl eq_refl Hn' eq_refl st args
                 {| a_len := zlen args; a_kw := None; a_block := blk |} Ht eq_refl Hf1 Hf2).
  cbn [a_kw a_block kw_list map] in M.
  specialize (M (NoDup_nil _) (fun _ => Hk) (fun _ => eq_refl)).
  assert (Hm : forall k, In (k, false) (s_key s) -> given k [] <> None) by (rewrite Hk; intros k []).
  specialize (M Hm). fold call in M.
  assert (Ht' : takes_kw s = false) by (unfold takes_kw; rewrite Hk, Hr; reflexivity).
  assert (Ep : positional s args None = args) by (unfold positional; rewrite Ht'; apply app_nil_r).
  unfold spec_call in M. rewrite Ht', Ep in M.
  split; intros Hco.
  - assert (E : spec_positional s args = None).
    { destruct (Nat.le_gt_cases (length (s_req s) + length (s_post s)) (length args)) as [Hle|Hlt].
      - rewrite spec_positional_vals by exact Hle. destruct (s_rest s) eqn:Es; cbn [andb].
        + exfalso. apply Hco. split; [exact Hle|congruence].
        + destruct (Z.ltb_spec (zlen (s_req s) + zlen (s_post s) + zlen (s_opt s)) (zlen args)); [reflexivity|].
          exfalso. apply Hco. split; [exact Hle|]. intros _. unfold zlen in *. lia.
      - unfold spec_positional. destruct (Nat.ltb_spec (length args) (length (s_req s) + length (s_post s))); [reflexivity|lia]. }
    rewrite E in M. exact M.
  - destruct Hco as [Hle Hmax].
    rewrite spec_positional_vals in M by exact Hle.
    assert (Eb : (match s_rest s with None => true | Some _ => false end) &&
                 (zlen (s_req s) + zlen (s_post s) + zlen (s_opt s) <? zlen args) = false).
    { destruct (s_rest s); [reflexivity|]. specialize (Hmax eq_refl). cbn [andb].
      destruct (Z.ltb_spec (zlen (s_req s) + zlen (s_post s) + zlen (s_opt s)) (zlen args)); [unfold zlen in *; lia|reflexivity]. }
    rewrite Eb in M. destruct M as (st' & E & Hb).
    set (A := pre_args s args) in *.
    assert (LA : length A = (length args - length (s_post s))%nat) by (unfold A, pre_args; rewrite firstn_length; lia).
    exists (firstn (length (s_req s)) A), (firstn (length (s_opt s)) (skipn (length (s_req s)) A)),
      (skipn (length (s_opt s)) (skipn (length (s_req s)) A)), (post_args s args), (length (s_opt s) - (length A - length (s_req s)))%nat, st'.
    split; [|split; [|split; [|split; [|split; [|split; [|split]]]]]].
    + rewrite (app_assoc (firstn (length (s_opt s)) _)), firstn_skipn, app_assoc, firstn_skipn.
      symmetry. apply firstn_skipn.
    + rewrite firstn_length. lia.
    + rewrite firstn_length, skipn_length. lia.
    + unfold post_args. rewrite skipn_length. lia.
    + intros Hk0. apply skipn_all2. rewrite skipn_length. lia.
    + intros Hs. specialize (Hmax Hs). apply skipn_all2. rewrite skipn_length. lia.
    + exact E.
    + match goal with |- bound _ _ _ _ (combine _ ?l) => replace l with
        (pos_vals s A (post_args s args) ++ [] ++ match s_block s with Some _ => [match blk with Some b => CProc b | None => cnil end] | None => [] end) end; [exact Hb|].
      unfold pos_vals. replace (length (s_req s) - length A)%nat with O by lia. cbn [repeat app].
      rewrite <- !app_assoc. reflexivity.
Qed.
Print Assumptions C36_method.
(* def f(a, b = .., *c, d, &e); x; end  called with 1..5: *)
Definition num (n : Z) : cell := CVal (fixnum n).
Definition stack_with (l : list cell) : stack := {| buf := fun j => nth (Z.to_nat j) l cnil; sp := zlen l |}.
Definition var (iq : option iseq) (r : res stack) (base x : Z) : option cell :=
  match iq, r with
  | Some iq, Ok st => option_map (fun i => buf st (base + i)) (get_lvarid (lc_table (iq_lvar iq)) x)
  | _, _ => None
  end.
Definition call_m (s : sig) (body : list Z) (l : list cell) (kw : option (list (Z * cell))) (blk : option Z) : res stack :=
  match compile (formals s) body with
  | Some iq => bind_method (stack_with l) iq {| a_len := zlen l; a_kw := kw; a_block := blk |}
  | None => Panic
  end.
Definition call_b (s : sig) (body : list Z) (l : list cell) (kw : option (list (Z * cell))) : res stack :=
  match compile (formals s) body with
  | Some iq => bind_block (stack_with l) iq {| a_len := zlen l; a_kw := kw; a_block := None |}
  | None => Panic
  end.
Definition var_m s body l kw blk x := var (compile (formals s) body) (call_m s body l kw blk) 0 x.
Definition var_b s body l kw x := var (compile (formals s) body) (call_b s body l kw) 0 x.

Definition sig_ex : sig :=
  {| s_req := [1]; s_opt := [2]; s_rest := Some (Some 3); s_post := [4]; s_key := []; s_kwrest := None; s_block := Some 5 |}.
Example C36_method_ex :
  NoDup (names sig_ex) /\ keyless sig_ex /\ count_ok sig_ex 5 /\ ~ count_ok sig_ex 1 /\
  (exists iq, compile (formals sig_ex) [6] = Some iq /\ room (stack_with (map num [1; 2; 3; 4; 5])) iq 5 /\ iq_lvars iq = 6) /\
  map (var_m sig_ex [6] (map num [1; 2; 3; 4; 5]) None (Some 77)) [1; 2; 3; 4; 5; 6] =
    [Some (num 1); Some (num 2); Some (CArr [num 3; num 4]); Some (num 5); Some (CProc 77); Some cnil] /\
  map (var_m sig_ex [6] (map num [1; 2]) None None) [1; 2; 3; 4; 5; 6] =
    [Some (num 1); Some cuninit; Some (CArr []); Some (num 2); Some cnil; Some cnil].
Proof.
  split; [repeat constructor; cbn; intuition lia|]. split; [split; reflexivity|].
  split; [split; [cbn; lia|discriminate]|]. split; [intros [H _]; cbn in H; lia|].
  split; [eexists; split; [reflexivity|]; split; [vm_compute; split; discriminate|reflexivity]|].
  split; vm_compute; reflexivity.
Qed.

(* With keyword parameters. Full statement: for every parameter list and all
   keywords given. Missing: a discarded rest `*` together with keywords, a
   method with required parameters only that is given keywords, and a missing
   mandatory keyword; all three fail (below). *)
Theorem C36_method_keywords_partial : forall s body iq st args kw blk,
  NoDup (names s) -> compile (formals s) body = Some iq ->
  on_top st args -> room st iq (zlen args) -> NoDup (map fst (kw_list kw)) ->
  (s_rest s = Some None -> s_key s = []) ->
  (formals s = map (Build_fparam PReq) (s_req s) -> kw = None) ->
  (forall k, In (k, false) (s_key s) -> In k (map fst (kw_list kw))) ->
  let call := bind_method st iq {| a_len := zlen args; a_kw := kw; a_block := blk |} in
  match spec_call s args kw blk with
  | None => call = Err ArgErr
  | Some env => exists st', call = Ok st' /\ bound iq st st' (sp st - zlen args) env
  end.
Proof.
  intros s body iq st args kw blk Hn Hc Ht [Hf1 Hf2] Hnd Hdis Hro Hman call.
  destruct (compile_sig s body Hn) as (ext & Hn' & Ec). rewrite Hc in Ec. injection Ec as ->.
  set (iq := {| iq_params := _ |}) in *.
  assert (M := bind_method_ok s iq ext eq_refl eq_refl eq_refl Hn' eq_refl st args
                 {| a_len := zlen args; a_kw := kw; a_block := blk |} Ht eq_refl Hf1 Hf2 Hnd Hdis).
  cbn [a_kw a_block] in M. apply M.
  - intros H. apply Hro. apply required_only_spec in H. destruct H as (E1 & E2 & E3 & E4 & E5 & E6).
    unfold formals. rewrite E1, E2, E3, E4, E5, E6. cbn. rewrite app_nil_r. reflexivity.
  - intros k Hk. specialize (Hman k Hk). clear - Hman. induction (kw_list kw) as [|[k' v] l IH]; [contradiction|].
    cbn [given]. destruct (Z.eqb_spec k k') as [->|E]; [discriminate|]. apply IH. destruct Hman as [H|H]; [cbn in H; congruence|exact H].
Qed.
Print Assumptions C36_method_keywords_partial.
(* def f(a, *b, k: .., l:, **m) called as f(1, 2, l: 5, z: 6) *)
Definition sig_kw : sig :=
  {| s_req := [1]; s_opt := []; s_rest := Some (Some 2); s_post := []; s_key := [(3, true); (4, false)];
     s_kwrest := Some 5; s_block := None |}.
Example C36_method_keywords_ex :
  NoDup (names sig_kw) /\ (In (4, false) (s_key sig_kw) /\ In 4 (map fst (kw_list (Some [(4, num 5); (9, num 6)])))) /\
  spec_call sig_kw (map num [1; 2]) (Some [(4, num 5); (9, num 6)]) None =
    Some [(1, num 1); (2, CArr [num 2]); (3, cuninit); (4, num 5); (5, CHash [(9, num 6)])] /\
  map (var_m sig_kw [] (map num [1; 2]) (Some [(4, num 5); (9, num 6)]) None) [1; 2; 3; 4; 5] =
    [Some (num 1); Some (CArr [num 2]); Some cuninit; Some (num 5); Some (CHash [(9, num 6)])].
Proof.
  split; [repeat constructor; cbn; intuition lia|]. split; [cbn; auto|]. split; vm_compute; reflexivity.
Qed.

(* def f *, k: 1 end: f(k: 5) leaves k at its default *)
Theorem C36_discarded_rest_keyword_refuted : exists s k v,
  NoDup (names s) /\ In (k, true) (s_key s) /\ v <> cuninit /\
  spec_call s [] (Some [(k, v)]) None = Some [(k, v)] /\
  var_m s [] [] (Some [(k, v)]) None k = Some cuninit.
Proof.
  exists {| s_req := []; s_opt := []; s_rest := Some None; s_post := []; s_key := [(7, true)]; s_kwrest := None; s_block := None |}, 7, (num 5).
  split; [repeat constructor; cbn; intuition lia|]. split; [left; reflexivity|]. split; [discriminate|].
  split; vm_compute; reflexivity.
Qed.
Print Assumptions C36_discarded_rest_keyword_refuted.
(* def f(h): f(k: 1) is refused instead of binding h = {k: 1};
   def f(a): f(1, k: 2) is accepted and k: 2 is lost *)
Theorem C36_keywords_as_hash_refuted : exists s h,
  NoDup (names s) /\
  (exists x, spec_call s [] (Some h) None = Some [(x, CHash h)]) /\ call_m s [] [] (Some h) None = Err ArgErr /\
  (forall c, spec_call s [c] (Some h) None = None /\ exists st', call_m s [] [c] (Some h) None = Ok st').
Proof.
  exists {| s_req := [1]; s_opt := []; s_rest := None; s_post := []; s_key := []; s_kwrest := None; s_block := None |}, [(7, num 1)].
  split; [repeat constructor; cbn; intuition lia|].
  split; [exists 1; reflexivity|]. split; [vm_compute; reflexivity|]. intros c. split; [reflexivity|]. eexists. vm_compute. reflexivity.
Qed.
Print Assumptions C36_keywords_as_hash_refuted.
(* def f(k:): f() raises nothing *)
Theorem C36_missing_keyword_refuted : exists s k,
  NoDup (names s) /\ In (k, false) (s_key s) /\ spec_call s [] None None = None /\
  var_m s [] [] None None k = Some cuninit.
Proof.
  exists {| s_req := []; s_opt := []; s_rest := None; s_post := []; s_key := [(7, false)]; s_kwrest := None; s_block := None |}, 7.
  split; [repeat constructor; cbn; intuition lia|]. split; [left; reflexivity|]. split; vm_compute; reflexivity.
Qed.
Print Assumptions C36_missing_keyword_refuted.

(* ---- blocks ---- *)
(* blocks that have required parameters only: superfluous arguments are
   dropped, missing ones nil, a lone array is taken apart when there are two or
   more parameters *)
Theorem C36_block_required : forall s body iq st args blk,
  NoDup (names s) -> formals s = map (Build_fparam PReq) (s_req s) -> compile (formals s) body = Some iq ->
  on_top st args -> room st iq (zlen args) ->
  let al := match args with [CArr l] => if (1 <? length (s_req s))%nat then l else args | _ => args end in
  sp st - zlen args + zlen al <= STACK_SIZE ->
  exists st',
    bind_block st iq {| a_len := zlen args; a_kw := None; a_block := blk |} = Ok st' /\
    bound iq st st' (sp st - zlen args)
      (combine (s_req s) (firstn (length (s_req s)) (al ++ repeat cnil (length (s_req s))))).
Proof.
  intros s body iq st args blk Hn Hro Hc Ht [Hf1 Hf2] al Hf3.
  destruct (compile_sig s body Hn) as (ext & Hn' & Ec). rewrite Hc in Ec. injection Ec as ->.
  set (iq := {| iq_params := _ |}) in *.
  assert (Er : s_opt s = [] /\ s_rest s = None /\ s_post s = [] /\ s_key s = [] /\ s_kwrest s = None /\ s_block s = None).
  { assert (E := f_equal (map fp_kind) Hro). unfold formals in Hro.
    assert (E' := f_equal (@length fparam) Hro). rewrite !app_length, !map_length in E'.
    destruct (s_opt s); [|cbn in E'; lia]. destruct (s_post s); [|cbn in E'; lia]. destruct (s_key s); [|cbn in E'; lia].
    destruct (s_kwrest s); [cbn in E'; lia|]. destruct (s_block s); [cbn in E'; lia|].
    destruct (s_rest s) as [[z|]|]; [cbn in E'; lia|cbn in E'; lia|]. repeat split. }
  assert (Er' := proj2 (required_only_spec s) Er). destruct Er as (E1 & E2 & E3 & E4 & E5 & E6).
  assert (Esp : al = spread s args).
  { unfold al, spread. rewrite E3. change (zlen []) with 0. destruct args as [|[v|l|kv|id] [|c' args']]; try reflexivity.
    unfold zlen. destruct (Nat.ltb_spec 1 (length (s_req s))), (Z.ltb_spec 1 (Z.of_nat (length (s_req s)) + 0)); try reflexivity; lia. }
  rewrite Esp in *. clear Esp al.
  assert (Hm : iq_mularg_flag iq = (1 <? zlen (s_req s) + zlen (s_post s))) by reflexivity.
  destruct (bind_block_required s iq ext eq_refl eq_refl eq_refl Hn' eq_refl Hm st args
              {| a_len := zlen args; a_kw := None; a_block := blk |} Er' Ht eq_refl Hf3 Hf2) as (st' & env & Es & Eb & Hb).
  exists st'. split; [exact Eb|].
  assert (Ee : env = combine (s_req s) (firstn (length (s_req s)) (spread s args ++ repeat cnil (length (s_req s))))).
  { unfold spec_block, spec_call in Es. cbn [a_block] in Es.
    rewrite block_args_spread in Es.
    2: { unfold splats. rewrite E1, E2, E3. cbn [app andb]. rewrite app_nil_r, Bool.orb_false_r.
         change (zlen []) with 0. destruct args as [|[v|l|kv|id] [|c' args']]; auto.
         unfold zlen. destruct (Nat.ltb_spec 1 (length (s_req s))), (Z.ltb_spec 1 (Z.of_nat (length (s_req s)) + 0)); try reflexivity; lia. }
    set (l := spread s args) in *.
    set (v := cut s l ++ repeat cnil (length (s_req s ++ s_post s) - length (cut s l))) in *.
    assert (Ev : v = firstn (length (s_req s)) (l ++ repeat cnil (length (s_req s)))).
    { unfold v, cut. rewrite E1, E2, E3. cbn [app]. rewrite app_nil_r, firstn_app, firstn_length.
      f_equal. assert (Er : forall n m (c : cell), (n <= m)%nat -> firstn n (repeat c m) = repeat c n).
      { induction n as [|n IH]; intros m c H; [reflexivity|]. destruct m; [lia|]. cbn. rewrite IH by lia. reflexivity. }
      rewrite Er by lia. f_equal. lia. }
    assert (Lv : length v = length (s_req s)).
    { rewrite Ev, firstn_length, app_length, repeat_length. lia. }
    unfold positional, takes_kw in Es. rewrite E4, E5, E6, app_nil_r in Es.
    rewrite spec_positional_vals in Es by (rewrite E3; cbn; lia). rewrite E1, E2, E3 in Es. cbn [andb] in Es. change (zlen []) with 0 in Es.
    destruct (Z.ltb_spec (zlen (s_req s) + 0 + 0) (zlen v)); [unfold zlen in *; lia|].
    injection Es as <-. rewrite (names_required s Er'). f_equal.
    unfold pos_vals, pre_args, post_args. rewrite E1, E2, E3. cbn [length firstn repeat app Nat.sub].
    rewrite Nat.sub_0_r, firstn_all, skipn_all, Lv, Nat.sub_diag. cbn [repeat app]. rewrite !app_nil_r.
    rewrite firstn_all2 by lia. exact Ev. }
  rewrite <- Ee. exact Hb.
Qed.
Print Assumptions C36_block_required.
(* {|a, b| x} given [1, 2, 3]; given 1 *)
Definition sig_b : sig :=
  {| s_req := [1; 2]; s_opt := []; s_rest := None; s_post := []; s_key := []; s_kwrest := None; s_block := None |}.
Example C36_block_required_ex :
  NoDup (names sig_b) /\ formals sig_b = map (Build_fparam PReq) (s_req sig_b) /\
  map (var_b sig_b [6] [CArr (map num [1; 2; 3])] None) [1; 2; 6] = [Some (num 1); Some (num 2); Some cnil] /\
  map (var_b sig_b [6] [num 1] None) [1; 2; 6] = [Some (num 1); Some cnil; Some cnil].
Proof. split; [repeat constructor; cbn; intuition lia|]. vm_compute. auto. Qed.

Fixpoint depth (c : cell) : nat := match c with CArr l => S (fold_right (fun c n => (depth c + n)%nat) O l) | _ => O end.
Lemma no_self l : l <> [CArr l].
Proof.
  intros E. assert (H := f_equal (fold_right (fun c n => (depth c + n)%nat) O) E). cbn in H. lia.
Qed.
(* The other blocks. Full statement: for every parameter list and all
   arguments. Missing: keyword arguments; a lone array where only one of Ruby
   and the code takes it apart; post-required parameters with fewer arguments
   than required parameters, or with superfluous ones (all fail, below). *)
Theorem C36_block_partial : forall s body iq st args blk,
  NoDup (names s) -> compile (formals s) body = Some iq ->
  on_top st args -> room st iq (zlen args) ->
  (s_rest s = Some None -> s_key s = []) -> (forall k, ~ In (k, false) (s_key s)) ->
  let al := match args with [CArr l] => if splats s then l else args | _ => args end in
  sp st - zlen args + zlen al <= STACK_SIZE ->
  (al <> args -> (1 < length (s_req s) + length (s_post s))%nat) ->
  (splats s = false -> (length (s_req s) + length (s_post s) <= 1)%nat) ->
  (s_post s = [] \/ count_ok s (length al)) ->
  exists st' env,
    spec_block s args blk = Some env /\
    bind_block st iq {| a_len := zlen args; a_kw := None; a_block := blk |} = Ok st' /\
    bound iq st st' (sp st - zlen args) env.
Proof.
  intros s body iq st args blk Hn Hc Ht [Hf1 Hf2] Hdis Hman al Hf3 Hne Hns Hfit.
  destruct (compile_sig s body Hn) as (ext & Hn' & Ec). rewrite Hc in Ec. injection Ec as ->.
  set (iq := {| iq_params := _ |}) in *.
  assert (Hm : iq_mularg_flag iq = (1 <? zlen (s_req s) + zlen (s_post s))) by reflexivity.
  assert (Hsp : al = spread s args).
  { unfold al, spread in *. destruct args as [|[v|l|kv|id] [|c' args']]; try reflexivity.
    destruct (splats s).
    - assert (D : l <> [CArr l]) by apply no_self.
      specialize (Hne D). destruct (Z.ltb_spec 1 (zlen (s_req s) + zlen (s_post s))); [reflexivity|unfold zlen in *; lia].
    - specialize (Hns eq_refl). destruct (Z.ltb_spec 1 (zlen (s_req s) + zlen (s_post s))); [unfold zlen in *; lia|reflexivity]. }
  destruct (required_only s) eqn:Er.
  - eapply (bind_block_required s iq ext eq_refl eq_refl eq_refl Hn' eq_refl Hm st args
              {| a_len := zlen args; a_kw := None; a_block := blk |} Er Ht eq_refl); [rewrite <- Hsp; exact Hf3|exact Hf2].
  - eapply (bind_block_slow s iq ext eq_refl eq_refl eq_refl Hn' eq_refl Hm st args
              {| a_len := zlen args; a_kw := None; a_block := blk |} Er Ht eq_refl eq_refl Hf1);
      [rewrite <- Hsp; exact Hf3|exact Hf2|exact Hdis|exact Hman| |rewrite <- Hsp; exact Hfit].
    unfold al, spread in *. destruct args as [|[v|l|kv|id] [|c' args']]; auto.
    destruct (splats s) eqn:Es.
    + assert (D : l <> [CArr l]) by apply no_self.
      specialize (Hne D). destruct (Z.ltb_spec 1 (zlen (s_req s) + zlen (s_post s))); [reflexivity|unfold zlen in *; lia].
    + specialize (Hns eq_refl). destruct (Z.ltb_spec 1 (zlen (s_req s) + zlen (s_post s))); [unfold zlen in *; lia|reflexivity].
Qed.
Print Assumptions C36_block_partial.
(* {|a, b = .., *c| x} given [1, 2, 3, 4] as four arguments; given none *)
Definition sig_b2 : sig :=
  {| s_req := [1; 7]; s_opt := [2]; s_rest := Some (Some 3); s_post := []; s_key := []; s_kwrest := None; s_block := None |}.
Example C36_block_ex :
  NoDup (names sig_b2) /\ splats sig_b2 = true /\ (1 < length (s_req sig_b2) + length (s_post sig_b2))%nat /\ s_post sig_b2 = [] /\
  spec_block sig_b2 [CArr (map num [1; 2; 3; 4])] None = Some [(1, num 1); (7, num 2); (2, num 3); (3, CArr [num 4])] /\
  map (var_b sig_b2 [6] [CArr (map num [1; 2; 3; 4])] None) [1; 7; 2; 3; 6] =
    [Some (num 1); Some (num 2); Some (num 3); Some (CArr [num 4]); Some cnil] /\
  spec_block sig_b2 [] None = Some [(1, cnil); (7, cnil); (2, cuninit); (3, CArr [])].
Proof. split; [repeat constructor; cbn; intuition lia|]. split; [reflexivity|]. split; [cbn; lia|]. vm_compute. auto. Qed.

(* {|a, *b, c|} called without arguments: the length subtraction underflows *)
Definition sig_post (o : list Z) (r : option (option Z)) : sig :=
  {| s_req := [1]; s_opt := o; s_rest := r; s_post := [3]; s_key := []; s_kwrest := None; s_block := None |}.
Theorem C36_block_few_refuted : exists s env,
  NoDup (names s) /\ keyless s /\ spec_block s [] None = Some env /\ call_b s [] [] None = Panic.
Proof.
  exists (sig_post [] (Some (Some 2))). eexists. split; [repeat constructor; cbn; intuition lia|]. split; [split; reflexivity|].
  split; [reflexivity|]. vm_compute. reflexivity.
Qed.
Print Assumptions C36_block_few_refuted.
(* {|a, *b, c|} given 1: a is nil and c is 1, the other way round in Ruby *)
Theorem C36_block_post_first_refuted : exists s a c v,
  NoDup (names s) /\ keyless s /\ v <> cnil /\
  (exists env, spec_block s [v] None = Some env /\ In (a, v) env /\ In (c, cnil) env) /\
  var_b s [] [v] None a = Some cnil /\ var_b s [] [v] None c = Some v.
Proof.
  exists (sig_post [] (Some (Some 2))), 1, 3, (num 1). split; [repeat constructor; cbn; intuition lia|]. split; [split; reflexivity|].
  split; [discriminate|]. split; [eexists; split; [reflexivity|]; cbn; auto|]. vm_compute. auto.
Qed.
Print Assumptions C36_block_post_first_refuted.
(* {|a, b = .., c|} given 1, 2, 3, 4: c is 4, but 3 in Ruby *)
Theorem C36_block_surplus_refuted : exists s c args,
  NoDup (names s) /\ keyless s /\
  (exists env v v', spec_block s args None = Some env /\ In (c, v) env /\ var_b s [] args None c = Some v' /\ v <> v').
Proof.
  exists (sig_post [2] None), 3, (map num [1; 2; 3; 4]). split; [repeat constructor; cbn; intuition lia|]. split; [split; reflexivity|].
  eexists. exists (num 3), (num 4). split; [reflexivity|]. split; [cbn; auto|]. split; [vm_compute; reflexivity|discriminate].
Qed.
Print Assumptions C36_block_surplus_refuted.
(* {|a, *b|} given [1, 2]: a is [1, 2], but 1 in Ruby *)
Theorem C36_block_splat_refuted : exists s a v w,
  NoDup (names s) /\ keyless s /\ s_post s = [] /\
  (exists env, spec_block s [CArr [v; w]] None = Some env /\ In (a, v) env) /\
  var_b s [] [CArr [v; w]] None a = Some (CArr [v; w]).
Proof.
  exists {| s_req := [1]; s_opt := []; s_rest := Some (Some 2); s_post := []; s_key := []; s_kwrest := None; s_block := None |}, 1, (num 1), (num 2).
  split; [repeat constructor; cbn; intuition lia|]. split; [split; reflexivity|]. split; [reflexivity|].
  split; [eexists; split; [reflexivity|]; cbn; auto|]. vm_compute. reflexivity.
Qed.
Print Assumptions C36_block_splat_refuted.
(* Lambdas go through the same code as blocks (executor/method.rs invoke_proc
   pushes a block frame), so ->(a) {} may be called with two arguments, where a
   method or a Ruby lambda raises ArgumentError. *)
Theorem C36_lambda_arity_refuted : exists s args,
  NoDup (names s) /\ keyless s /\ spec_call s args None None = None /\ exists st', call_b s [] args None = Ok st'.
Proof.
  exists {| s_req := [1]; s_opt := []; s_rest := None; s_post := []; s_key := []; s_kwrest := None; s_block := None |}, (map num [1; 2]).
  split; [repeat constructor; cbn; intuition lia|]. split; [split; reflexivity|]. split; [reflexivity|].
  eexists. vm_compute. reflexivity.
Qed.
Print Assumptions C36_lambda_arity_refuted.
