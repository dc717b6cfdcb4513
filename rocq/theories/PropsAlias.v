(** C117: which methods of arrays change an array and which make a new one. *)
From Coq Require Import ZArith List Bool Arith Lia Relations.
From Verif Require Import Base ModelArray ProofsArray2 ProofsArray3 ModelAlias SpecAlias SpecClass ProofsAlias.
Import ListNotations.
Local Open Scope nat_scope.

(** Methods without "!" give a new array and change no array. *)
Theorem C117_new h s l : holds h s l ->
  gives_new h (a_reverse [] s h) (rev l)
  /\ gives_new h (a_compact [] s h) (without_nil l)
  /\ gives_new h (a_dup [] s h) l
  /\ (forall o k, holds h o k -> gives_new h (a_add [AArr o] s h) (l ++ k))
  /\ a_first [] s h = Ok (match l with [] => ANil | x :: _ => x end, h)
  /\ a_last [] s h = Ok (last l ANil, h).
Proof.
  intros H. apply holds_contents in H. unfold a_reverse, a_compact, a_dup, a_add, a_first, a_last, no_args. rewrite H.
  split; [apply new_gives|]. split; [rewrite without_filter; apply new_gives|]. split; [apply new_gives|].
  split; [intros o k Ho; rewrite (holds_contents _ _ _ Ho); apply new_gives|]. split; [reflexivity|].
  do 2 f_equal. destruct l as [|x l] using rev_ind; [reflexivity|]. rewrite rev_app_distr, last_last. reflexivity.
Qed.
Print Assumptions C117_new.

(** Methods that change the receiver give the receiver and change no other array,
    also when the receiver is among the arguments or its own elements. *)
Theorem C117_in_place h s l : holds h s l ->
  changes h s (a_reverse_bang [] s h) (AArr s) (rev l)
  /\ (forall v, changes h s (a_fill [v] s h) (AArr s) (repeat v (length l)))
  /\ changes h s (a_clear [] s h) (AArr s) []
  /\ (forall args, changes h s (a_push args s h) (AArr s) (l ++ args))
  /\ (forall args, changes h s (a_unshift args s h) (AArr s) (args ++ l))
  /\ (forall n, exists k, changes h s (a_rotate_bang n s h) (AArr s) k /\ length k = length l
        /\ forall j d, (0 <= j < Z.of_nat (length l))%Z ->
             nth (Z.to_nat j) k d = nth (Z.to_nat ((j + n) mod Z.of_nat (length l))) l d)
  /\ (forall o k, holds h o k -> o <> s -> changes h s (a_concat [AArr o] s h) (AArr s) (l ++ k))
  /\ (In ANil l -> changes h s (a_compact_bang [] s h) (AArr s) (without_nil l))
  /\ (~ In ANil l -> changes h s (a_compact_bang [] s h) ANil l).
Proof.
  intros H. pose proof (holds_lt _ _ _ H) as L. pose proof (holds_contents _ _ _ H) as E.
  unfold a_reverse_bang, a_fill, a_clear, a_push, a_rotate_bang, no_args. rewrite E.
  split; [now apply set_changes|]. split.
  { intros v. replace (repeat v (length l)) with (map (fun _ : aval => v) l); [now apply set_changes|].
    clear. induction l; cbn; congruence. }
  split; [now apply set_changes|]. split; [intros args; now apply set_changes|]. split.
  { intros args. destruct H as (c & Hc & El). unfold a_unshift. rewrite Hc. destruct args as [|a args].
    - exists h. split; [reflexivity|]. split; [exists c; auto|]. tauto.
    - rewrite El. exact (put_changes h s _ (new_info _) L). }
  split.
  { intros n. exists (array_rotate l n). split; [now apply set_changes|].
    destruct l as [|x0 l0]; [cbn; split; [reflexivity|lia]|].
    split; [apply (rotate_spec ANil); discriminate|]. intros j d Hj. apply rotate_spec; [discriminate|exact Hj]. }
  split.
  { intros o k Ho N. destruct H as (c & Hc & El). unfold a_concat. rewrite Hc. rewrite (proj2 (Nat.eqb_neq _ _) N). cbn [andb].
    rewrite (holds_contents _ _ _ Ho), El. now apply set_changes. }
  unfold a_compact_bang, no_args. rewrite E, compact_ok. cbn [rbind]. split; intros I.
  - rewrite (proj2 (nil_in l) I), without_filter. now apply set_changes.
  - destruct (existsb is_nil l) eqn:Ex; [apply nil_in in Ex; contradiction|].
    rewrite <- without_filter. replace (without_nil l) with l; [now apply set_changes|].
    clear - I. induction l as [|x l IH]; [reflexivity|]. destruct x; cbn; [exfalso; apply I; now left|f_equal; apply IH; intros J; apply I; now right..].
Qed.
Print Assumptions C117_in_place.

(** uniq and uniq! keep of every class of equal elements the first, in order.
    [same] is equality of keys (C32). *)
Theorem C117_uniq same h s l :
  (forall x, same h x x = true) ->
  (forall x y z, same h x y = true -> same h y z = true -> same h x z = true) -> holds h s l ->
  exists k, firsts (duplicate (same h) s) [] l k /\ gives_new h (a_uniq same [] s h) k
    /\ changes h s (a_uniq_bang same [] s h) (if Nat.eqb (length k) (length l) then ANil else AArr s) k.
Proof.
  intros Rf Tr H. pose proof (holds_lt _ _ _ H) as L. pose proof (holds_contents _ _ _ H) as E.
  destruct (uniq_loop_ok same h s Rf Tr l [] false [] [] (stands_nil same h s)) as (k & Ek & F).
  exists k. split; [exact F|]. unfold a_uniq, a_uniq_bang, no_args. rewrite E, Ek. cbn [app]. split; [apply new_gives|].
  destruct (uniq_answers same h s Rf Tr l [] false [] (stands_nil same h s)) as (st & bs & k' & A & P & F' & Z).
  pose proof (firsts_fun same h s _ _ _ _ F F') as X. rewrite <- X in P, Z. clear X. pose proof (retain_ok _ _ _ _ _ _ A) as R. cbn in R. rewrite R, P. cbn [rbind].
  rewrite Z. unfold zlen in *. pose proof (firsts_len same h s Rf Tr [] l k F) as [Fl _].
  destruct (Nat.eqb_spec (length k) (length l)) as [El|Nl].
  - rewrite El, Z.sub_diag. now apply set_changes.
  - replace (Z.of_nat (length l) - Z.of_nat (length k) =? 0)%Z with false by (symmetry; apply Z.eqb_neq; lia). now apply set_changes.
Qed.
Print Assumptions C117_uniq.

(** flatten and flatten!: what they give, and when.  With a depth they always end. *)
Theorem C117_flatten h s l arg : closed h -> holds h s l ->
  (forall k, flat h (depth arg) l k ->
     eventually (fun fuel => exists r, a_flatten fuel arg s h = Some r /\ gives_new h r k)
     /\ eventually (fun fuel => exists r v, a_flatten_bang fuel arg s h = Some r /\ changes h s r v k
          /\ (v = AArr s <-> depth arg <> Some 0 /\ exists i, In (AArr i) l) /\ (v = AArr s \/ v = ANil)))
  /\ (forall fuel r, a_flatten fuel arg s h = Some r ->
        (exists k, flat h (depth arg) l k /\ gives_new h r k) \/ (r = Err ArgErr /\ depth arg = None /\ within h s s))
  /\ (forall fuel r, a_flatten_bang fuel arg s h = Some r ->
        (exists k v, flat h (depth arg) l k /\ changes h s r v k) \/ (r = Err ArgErr /\ depth arg = None /\ within h s s))
  /\ (depth arg <> None \/ grounded h s -> exists k, flat h (depth arg) l k)
  /\ (forall k k', flat h (depth arg) l k -> flat h (depth arg) l k' -> k = k').
Proof.
  intros C H. pose proof (holds_lt _ _ _ H) as L. pose proof (holds_contents _ _ _ H) as E.
  split; [|split; [|split; [|split]]].
  - intros k F. destruct (flat_runs h s _ _ _ F) as (N & R).
    { intros En i I. rewrite En in F. assert (G : grounded h s).
      { constructor. intros j (b & Hb & Ij). assert (b = l) by (apply holds_contents in Hb; congruence). subst b.
        eapply flat_grounded; eauto. }
      pose proof (grounded_no_cycle _ _ G) as NC. assert (W : within h s i) by (apply t_step; exists l; auto).
      split; [intros ->; auto|]. intros W'. apply NC. eapply t_trans; eauto. }
    split; exists N; intros fuel Hf.
    + unfold a_flatten. rewrite level_depth, E, (R fuel [] false Hf). eexists. split; [reflexivity|]. apply new_gives.
    + unfold a_flatten_bang. rewrite level_depth, E, (R fuel [] false Hf). destruct H as (c & Hc & _). rewrite Hc.
      eexists _, _. split; [reflexivity|]. cbn [app orb]. split; [exact (put_changes h s _ (new_info k) L)|].
      rewrite <- opens_true. destruct (opens (depth arg) l); split; auto; split; intros X; try reflexivity; discriminate.
  - intros fuel r Hr. unfold a_flatten in Hr. rewrite level_depth, E in Hr.
    destruct (flat_all (ary_flat fuel h s (depth arg)) l [] false) as [r0|] eqn:Ef; [|discriminate].
    destruct (flat_says h s C _ _ _ _ _ _ (fun j I => C _ _ _ H I) Ef) as [(k & F & Er)|(Er & En & i & I & W)].
    { left. exists k. rewrite Er in Hr. split; [exact F|]. injection Hr as <-. apply new_gives. }
    right. rewrite Er in Hr. split; [congruence|]. split; [exact En|].
    assert (Hi : within h s i) by (apply t_step; exists l; auto). destruct W as [->|W]; [exact Hi|eapply t_trans; eauto].
  - intros fuel r Hr. unfold a_flatten_bang in Hr. rewrite level_depth, E in Hr.
    destruct (flat_all (ary_flat fuel h s (depth arg)) l [] false) as [r0|] eqn:Ef; [|discriminate].
    destruct (flat_says h s C _ _ _ _ _ _ (fun j I => C _ _ _ H I) Ef) as [(k & F & Er)|(Er & En & i & I & W)].
    { left. exists k. rewrite Er in Hr. eexists. split; [exact F|]. destruct H as (c & Hc & _). rewrite Hc in Hr. injection Hr as <-.
      exact (put_changes h s _ (new_info k) L). }
    right. rewrite Er in Hr. split; [congruence|]. split; [exact En|].
    assert (Hi : within h s i) by (apply t_step; exists l; auto). destruct W as [->|W]; [exact Hi|eapply t_trans; eauto].
  - intros [D|G].
    + destruct (depth arg) as [m|]; [|congruence]. apply flat_exists_level; [exact C|]. intros j I. exact (C _ _ _ H I).
    + destruct (depth arg) as [m|]; [apply flat_exists_level; [exact C|]; intros j I; exact (C _ _ _ H I)|].
      rewrite <- E. now apply flat_exists_grounded.
  - intros k k' F F'. eapply flat_fun; eauto.
Qed.
Print Assumptions C117_flatten.

(** [b = [2, nil]; a = [1, b, 1]; a << a] *)
Definition ex_heap : aheap := [new_info [AObj 1; AArr 1; AObj 1; AArr 0]; new_info [AObj 2; ANil]].
Definition ex_same (h : aheap) (x y : aval) : bool :=
  match x, y with ANil, ANil => true | AObj a, AObj b => Z.eqb a b | AArr i, AArr j => Nat.eqb i j | _, _ => false end.
Example C117_ex :
  holds ex_heap 0 [AObj 1; AArr 1; AObj 1; AArr 0] /\ closed ex_heap /\ within ex_heap 0 0 /\ grounded ex_heap 1
  /\ flat ex_heap (depth (Some 1%Z)) [AObj 1; AArr 1] [AObj 1; AObj 2; ANil]
  /\ a_flatten 5 None 0 ex_heap = Some (Err ArgErr)
  /\ a_uniq_bang ex_same [] 0 ex_heap = Ok (AArr 0, [mkcell [AObj 1; AArr 1; AArr 0] 4; new_info [AObj 2; ANil]])
  /\ (forall x, ex_same ex_heap x x = true)
  /\ (forall x y z, ex_same ex_heap x y = true -> ex_same ex_heap y z = true -> ex_same ex_heap x z = true).
Proof.
  split; [eexists; split; reflexivity|]. split.
  { intros [|[|i]] l j (c & Hc & <-) I; cbn in Hc; [injection Hc as <-|injection Hc as <-|destruct i; discriminate];
      cbn in I; intuition (try discriminate); match goal with H : AArr _ = AArr _ |- _ => injection H as <- end; cbn; lia. }
  split; [apply t_step; eexists; split; [eexists; split; reflexivity|cbn; auto]|]. split.
  { constructor. intros j (l & (c & Hc & <-) & I). cbn in Hc. injection Hc as <-. cbn in I. intuition discriminate. }
  split; [|split; [reflexivity|split; [reflexivity|split]]].
  2: { intros [|z|i]; cbn; [reflexivity|apply Z.eqb_refl|apply Nat.eqb_refl]. }
  2: { intros [|a|i] [|b|j] [|c|k]; cbn; try discriminate; try reflexivity; [rewrite !Z.eqb_eq|rewrite !Nat.eqb_eq]; congruence. }
  constructor; [right; discriminate|].
  change [AObj 2; ANil] with ([AObj 2; ANil] ++ []) at 1.
  eapply L_arr; [discriminate|eexists; split; reflexivity| |constructor]. repeat constructor; right; discriminate.
Qed.

(** An array whose element contains itself: only the receiver is looked for, so
    flatten recurses without end. *)
Theorem C117_flatten_cycle_refuted : exists h s l, closed h /\ holds h s l /\ ~ within h s s /\
  forall fuel, a_flatten fuel None s h = None /\ a_flatten_bang fuel None s h = None.
Proof.
  exists [new_info [AArr 0]; new_info [AArr 0]], 1, [AArr 0]. split; [|split; [eexists; split; reflexivity|split]].
  - intros [|[|i]] l j (c & Hc & <-) I; cbn in Hc; [injection Hc as <-|injection Hc as <-|destruct i; discriminate];
      cbn in I; intuition (try discriminate); match goal with H : AArr _ = AArr _ |- _ => injection H as <- end; cbn; lia.
  - assert (X : forall i j, within [new_info [AArr 0]; new_info [AArr 0]] i j -> j = 0).
    { intros i j W. induction W as [i j (l & (c & Hc & <-) & I)|]; [|assumption].
      destruct i as [|[|i]]; cbn in Hc; [injection Hc as <-|injection Hc as <-|destruct i; discriminate]; cbn in I;
        destruct I as [I|[]]; now injection I as <-. }
    intros W. apply X in W. discriminate.
  - intros fuel. unfold a_flatten, a_flatten_bang. cbn [level_of contents nth_error elems new_info].
    assert (X : flat_all (ary_flat fuel [new_info [AArr 0]; new_info [AArr 0]] 1 None) [AArr 0] [] false = None); [|now rewrite X].
    cbn [flat_all]. assert (Y : forall fuel acc, ary_flat fuel [new_info [AArr 0]; new_info [AArr 0]] 1 None (AArr 0) acc = None).
    { clear. induction fuel as [|fuel IH]; intros acc; [reflexivity|]. cbn [ary_flat Nat.eqb contents nth_error elems new_info flat_all].
      now rewrite IH. }
    now rewrite Y.
Qed.
Print Assumptions C117_flatten_cycle_refuted.

(** An array that is appended to itself and has no room: what is appended is read
    from memory that has been given back. *)
Theorem C117_concat_self_refuted : exists l,
  let h := [new_info l] in holds h 0 l /\ a_concat [AArr 0] 0 h = Panic.
Proof. exists [AObj 1; AObj 2; AObj 3]. split; [eexists; split; reflexivity|reflexivity]. Qed.
Print Assumptions C117_concat_self_refuted.
