(** Local variables resolve lexically (C35). *)
From Coq Require Import ZArith List Bool Lia.
From Verif Require Import Base ModelCodegen ModelScope SpecScope SpecCore ProofsScope.
Import ListNotations.
Open Scope Z_scope.

(** The generator context of code in the innermost of the parse contexts [stk],
    inside the frames [ext] *)
Definition gcx (stk : list pctx) (ext : list (list Z)) (k : ctxkind) (setter : Z -> Z) (std : Z) : sctx :=
  mksctx (cctx stk) ext k setter std.

(** The parser takes a name for a variable exactly when it denotes one. *)
Theorem C35_parser_scope : forall stk ext x,
  is_local_var x stk ext = true <-> exists d k, denotes (visible stk ext) x d k.
Proof.
  intros stk ext x. rewrite (is_local_look _ _ _ 0). split.
  - destruct (look x 0 (visible stk ext)) as [[d k]|] eqn:E; [|discriminate]. intros _.
    exists (Z.to_nat d), (Z.to_nat k). apply denotes_look. rewrite E.
    apply look_shift in E as (A & B & _). f_equal. f_equal; lia.
  - intros (d & k & H). apply denotes_look in H. rewrite H. reflexivity.
Qed.
Print Assumptions C35_parser_scope.

(** The code generator then finds the very variable it denotes. *)
Theorem C35_lexical : forall stk ext ck setter std x d k,
  denotes (visible stk ext) x d k ->
  get_local_var (gcx stk ext ck setter std) x = Some (Z.of_nat d, Z.of_nat k).
Proof.
  intros stk ext ck setter std x d k H. apply denotes_look in H.
  apply (ctx_look x ext stk 0 0). exact H.
Qed.
Print Assumptions C35_lexical.

(** Outside class bodies it finds nothing else. *)
Theorem C35_no_other : forall stk ext ck setter std x o i,
  (forall c, In c stk -> pc_kind c <> KClass) ->
  get_local_var (gcx stk ext ck setter std) x = Some (o, i) ->
  0 <= o /\ 0 <= i /\ denotes (visible stk ext) x (Z.to_nat o) (Z.to_nat i).
Proof.
  intros stk ext ck setter std x o i NC H.
  destruct (look x 0 (visible stk ext)) as [[d k]|] eqn:E.
  - pose proof (ctx_look _ _ _ 0 0 _ E) as H'.
    unfold get_local_var, gcx in H. cbn [sc_ctx sc_ext] in H. rewrite H' in H.
    injection H as <- <-. apply look_shift in E as (A & B & C). rewrite Z.sub_0_r in C. auto.
  - pose proof (ctx_none _ _ _ 0 0 NC E) as H'.
    unfold get_local_var, gcx in H. cbn [sc_ctx sc_ext] in H. congruence.
Qed.
Print Assumptions C35_no_other.

(** Different variables never share storage, and every slot can be encoded. *)
Theorem C35_separate_slots : forall stk ext ck setter std,
  Z.of_nat (length stk + length ext) <= 2 ^ 32 ->
  (forall t, In t (map pc_table stk ++ ext) -> Z.of_nat (length t) <= 2 ^ 32) ->
  slots_ok (gcx stk ext ck setter std).
Proof.
  intros stk ext ck setter std N T. unfold slots_ok, get_local_var, gcx. cbn [sc_ctx sc_ext].
  split.
  - intros x y o i. rewrite !ctx_cvis. apply look_inj.
  - intros x o i. rewrite ctx_cvis. intros H. apply look_bounds in H as (A & B & t & I & L).
    destruct (cvis_bounds ext stk) as [C D]. specialize (T t (D t I)). lia.
Qed.
Print Assumptions C35_separate_slots.

(** Declaring a variable changes the meaning of no name that has one, neither
    here nor in the inner contexts parsed before (their code is generated from
    the tables as they are in the end). *)
Theorem C35_declare_keeps : forall inner stk ext x y d k,
  denotes (visible (inner ++ stk) ext) x d k ->
  denotes (visible (inner ++ add_local_var_if_new y stk ext) ext) x d k.
Proof.
  intros inner stk ext x y d k. rewrite !denotes_look. apply declare_keeps_inner.
Qed.
Print Assumptions C35_declare_keeps.

(** A declared name is a variable. *)
Theorem C35_declared : forall stk ext x, (exists c, In c stk /\ pc_kind c <> KFor) ->
  exists d k, denotes (visible (add_local_var_if_new x stk ext) ext) x d k.
Proof.
  intros stk ext x H. apply C35_parser_scope. unfold add_local_var_if_new.
  destruct (is_local_var x stk ext) eqn:E; [exact E|].
  rewrite (is_local_look _ _ _ 0). destruct (add_to_found x ext stk 0 H) as [r ->]. reflexivity.
Qed.
Print Assumptions C35_declared.

(** A parameter is a new variable of the innermost context; a name cannot be
    used for two parameters. *)
Theorem C35_parameter : forall t x t', insert_new x t = Some t' ->
  ~ In x t /\ forall r ext k, denotes (visible (mkpctx t' k :: r) ext) x 0 (length t).
Proof.
  intros t x t' H. unfold insert_new in H. destruct (get_lvarid x t) eqn:E; [discriminate|].
  injection H as <-. pose proof (get_lvarid_spec x t) as S. rewrite E in S. split; [exact S|].
  intros r ext k. exists (t ++ [x]). split; [reflexivity|]. split; [split|].
  - rewrite nth_error_app2, Nat.sub_diag by lia. reflexivity.
  - intros j Hj. rewrite nth_error_app1 by lia. intros N. apply S. eapply nth_error_In, N.
  - intros e u He. lia.
Qed.
Print Assumptions C35_parameter.

(** A block (table [7]) inside a [for] (empty table) inside a block (table [5; 6])
    inside a method (table [5]), inside the frame of another method: 5 is the
    variable of the outer block, 9 is unknown; declaring 9 in the [for] body puts
    it in the outer block. *)
Example C35_example :
  let stk := [mkpctx [7] KBlk; mkpctx [] KFor; mkpctx [5; 6] KBlk; mkpctx [5] KMethodDef] in
  denotes (visible stk [[9]]) 5 2 0 /\
  get_local_var (gcx stk [[9]] KBlock (fun x => x) 0) 5 = Some (2, 0) /\
  is_local_var 9 stk [[9]] = false /\
  add_local_var_if_new 9 (tl stk) [[9]]
  = [mkpctx [] KFor; mkpctx [5; 6; 9] KBlk; mkpctx [5] KMethodDef] /\
  insert_new 6 [5] = Some [5; 6] /\
  Z.of_nat (length stk + length [[9]]) <= 2 ^ 32.
Proof.
  cbn zeta. split; [apply denotes_look; reflexivity|].
  repeat split; try reflexivity. vm_compute. discriminate.
Qed.
