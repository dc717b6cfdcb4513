(** The keyword arguments and ** arguments of a call become one set of keywords (C94). *)
From Coq Require Import ZArith List Bool Lia.
From Verif Require Import Base ModelValue ModelArgs SpecArgs PropsArgs.
Import ListNotations.
Open Scope Z_scope.

(** The value given last for a key *)
Inductive given_last (k : Z) (v : cell) : list (Z * cell) -> Prop :=
| gl_here : forall l, ~ In k (map fst l) -> given_last k v ((k, v) :: l)
| gl_later : forall p l, given_last k v l -> given_last k v (p :: l).

Lemma insert_keys : forall h k v x, In x (map fst (kw_insert h k v)) <-> x = k \/ In x (map fst h).
Proof.
  induction h as [|[k' v'] h IH]; cbn; intros k v x; [intuition congruence|].
  destruct (Z.eqb_spec k k') as [->|N]; cbn; [intuition congruence|]. rewrite IH. intuition congruence.
Qed.
Lemma insert_nodup : forall h k v, NoDup (map fst h) -> NoDup (map fst (kw_insert h k v)).
Proof.
  induction h as [|[k' v'] h IH]; cbn; intros k v N; [repeat constructor; intros []|].
  apply NoDup_cons_iff in N. destruct N as [N1 N2].
  destruct (Z.eqb_spec k k') as [->|D]; cbn; constructor; auto.
  rewrite insert_keys. intros [E|E]; [congruence|auto].
Qed.
Lemma insert_in : forall h k v x w, NoDup (map fst h) ->
  (In (x, w) (kw_insert h k v) <-> (x = k /\ w = v) \/ (x <> k /\ In (x, w) h)).
Proof.
  induction h as [|[k' v'] h IH]; cbn; intros k v x w N.
  - split; [intros [E|[]]; injection E; auto|]. intros [[-> ->]|[_ []]]. auto.
  - apply NoDup_cons_iff in N. destruct N as [N1 N2].
    destruct (Z.eqb_spec k k') as [->|D]; cbn.
    + split.
      * intros [E|I]; [injection E; auto|]. right. split; [|auto]. intros ->. apply N1.
        apply in_map_iff. exists (k', w). auto.
      * intros [[-> ->]|[D [E|I]]]; auto. injection E as <- _. congruence.
    + rewrite (IH _ _ _ _ N2). split.
      * intros [E|[[-> ->]|[D' I]]]; auto. injection E as <- <-. auto.
      * intros [[-> ->]|[D' [E|I]]]; auto.
Qed.
Lemma given_app : forall k v l m, given_last k v (l ++ m) <->
  given_last k v m \/ (~ In k (map fst m) /\ given_last k v l).
Proof.
  induction l as [|p l IH]; cbn; intros m.
  - split; [auto|]. intros [H|[_ H]]; [auto|inversion H].
  - split.
    + intros H. inversion H; subst.
      * rewrite map_app, in_app_iff in H1. right. split; [tauto|]. apply gl_here. tauto.
      * apply IH in H1. destruct H1 as [H1|[H1 H2]]; [auto|]. right. split; [auto|]. apply gl_later. auto.
    + intros [H|[H1 H2]]; [apply gl_later, IH; auto|]. inversion H2; subst.
      * apply gl_here. rewrite map_app, in_app_iff. tauto.
      * apply gl_later, IH. auto.
Qed.
Lemma given_one : forall k v p, given_last k v [p] <-> p = (k, v).
Proof.
  intros k v p. split.
  - intros H. inversion H; subst; [reflexivity|]. inversion H1.
  - intros ->. apply gl_here. intros [].
Qed.
Lemma given_nodup : forall l k v, NoDup (map fst l) -> (given_last k v l <-> In (k, v) l).
Proof.
  induction l as [|[x w] l IH]; cbn; intros k v N; [split; [intros H; inversion H|intros []]|].
  apply NoDup_cons_iff in N. destruct N as [N1 N2]. split.
  - intros H. inversion H; subst; [auto|]. right. apply IH; auto.
  - intros [E|I]; [injection E as -> ->; apply gl_here; auto|]. apply gl_later, IH; auto.
Qed.

(** What the table [h] holds is what was given last in [l]. *)
Definition holds_last (h l : list (Z * cell)) : Prop :=
  NoDup (map fst h) /\ forall k v, In (k, v) h <-> given_last k v l.
Lemma insert_last : forall h l k v, holds_last h l -> holds_last (kw_insert h k v) (l ++ [(k, v)]).
Proof.
  intros h l k v [N H]. split; [apply insert_nodup; auto|]. intros x w.
  rewrite insert_in by auto. rewrite given_app, given_one, H. cbn.
  split; [intros [[-> ->]|[D I]]; [auto|right; split; [|auto]; intros [E|[]]; congruence]|].
  intros [E|[D I]]; [injection E; auto|]. right. split; [|auto]. intros ->. apply D. auto.
Qed.
Lemma fold_last : forall m h l, holds_last h l ->
  holds_last (fold_left (fun h p => kw_insert h (fst p) (snd p)) m h) (l ++ m).
Proof.
  induction m as [|[k v] m IH]; cbn; intros h l H; [rewrite app_nil_r; auto|].
  replace (l ++ (k, v) :: m) with ((l ++ [(k, v)]) ++ m) by (rewrite <- app_assoc; reflexivity).
  apply IH, insert_last, H.
Qed.

(** Whatever hashes are given with [**] after the keyword arguments, the callee sees each key
    once, with the value given last; a call without both has no keywords; something that is no
    hash is a TypeError. *)
Theorem C94_keywords_partial : forall kw splats,
  (forall h, kw = Some h -> NoDup (map fst h)) ->
  match handle_hash_args kw splats with
  | Ok None => kw = None /\ splats = None
  | Ok (Some h) =>
      exists ms, match splats with Some l => l | None => [] end = map Some ms /\
        NoDup (map fst h) /\
        forall k v, In (k, v) h <->
          given_last k v (match kw with Some h => h | None => [] end ++ concat ms)
  | Err e => e = TypeErr /\ exists l, splats = Some l /\ In None l
  | Panic => False
  end.
Proof.
  intros kw splats N.
  assert (M : forall l h g, holds_last h g ->
    match merge_splats h l with
    | Ok h => exists ms, l = map Some ms /\ holds_last h (g ++ concat ms)
    | Err e => e = TypeErr /\ In None l
    | Panic => False
    end).
  { induction l as [|[m|] l IH]; cbn; intros h g H.
    - exists []. rewrite app_nil_r. auto.
    - specialize (IH _ _ (fold_last m h g H)). destruct (merge_splats _ l); auto.
      + destruct IH as (ms & -> & R). exists (m :: ms). cbn. rewrite app_assoc. auto.
      + destruct IH. auto.
    - auto. }
  assert (I : forall h, NoDup (map fst h) -> holds_last h h).
  { intros h D. split; [auto|]. intros k v. rewrite given_nodup; tauto. }
  assert (I0 : holds_last [] []) by (apply I; constructor).
  destruct kw as [h|], splats as [l|]; cbn.
  - specialize (M l h h (I h (N h eq_refl))). destruct (merge_splats h l); cbn; auto.
    destruct M. eauto.
  - exists []. cbn. rewrite app_nil_r. destruct (I h (N h eq_refl)) as [D R]. auto.
  - specialize (M l [] [] I0). destruct (merge_splats [] l); cbn; auto.
    destruct M. eauto.
  - auto.
Qed.
Print Assumptions C94_keywords_partial.
(* m(a: 1, b: 2, **{b: 3, c: 4}, **{a: 5}) *)
Example C94_keywords_ex :
  handle_hash_args (Some [(1, num 1); (2, num 2)]) (Some [Some [(2, num 3); (3, num 4)]; Some [(1, num 5)]])
    = Ok (Some [(1, num 5); (2, num 3); (3, num 4)]) /\
  handle_hash_args None (Some [Some [(2, num 3)]; None]) = Err TypeErr /\
  handle_hash_args None None = Ok None.
Proof. repeat split. Qed.

(** [def f(a = d); end]: [f( **{})] binds a to the empty hash, where no argument is given. *)
Theorem C94_empty_refuted : exists s x kw,
  NoDup (names s) /\ handle_hash_args None (Some [Some []]) = Ok kw /\
  spec_call s [] None None = Some [(x, cuninit)] /\ var_m s [] [] kw None x = Some (CHash []).
Proof.
  exists {| s_req := []; s_opt := [1]; s_rest := None; s_post := []; s_key := []; s_kwrest := None; s_block := None |}, 1.
  eexists. split; [repeat constructor; cbn; intuition lia|].
  split; [reflexivity|]. split; vm_compute; reflexivity.
Qed.
Print Assumptions C94_empty_refuted.
