(* Interning. *)
From Verif Require Import Base ProofsBase ModelArray ProofsArray ModelIdent.
From Coq Require Import String List.

Lemma zlen_snoc {A} (l : list A) x : zlen (l ++ [x]) = zlen l + 1.
Proof. unfold zlen. rewrite app_length. cbn [length]. lia. Qed.
Definition idt_inv (t : idtab) : Prop :=
  40 <= zlen (table t) /\
  forall n i, rt_get (rev_table t) n = Some i -> 0 < i < zlen (table t) /\ ident_name t i = Ok n.
Lemma idt_new_inv : idt_inv idtab_new.
Proof.
  split; [vm_compute; discriminate|]. intros n i H.
  assert (HA : forall (l : list (string * Z)) n i, rt_get l n = Some i -> In (n, i) l).
  { clear. induction l as [|[m j] l IH]; intros n i H; [discriminate|]. cbn in H. destruct (String.eqb_spec m n).
    - injection H as ->. left. congruence.
    - right. auto. }
  apply HA in H. vm_compute in H.
  repeat (destruct H as [H|H]; [injection H as <- <-; split; [vm_compute; split; reflexivity|reflexivity]|]). destruct H.
Qed.
Lemma get_ident_inv n t id t' : idt_inv t -> zlen (table t) < 2 ^ 32 -> get_ident_id n t = Ok (id, t') ->
  idt_inv t' /\ rt_get (rev_table t') n = Some id /\
  (forall m i, rt_get (rev_table t) m = Some i -> rt_get (rev_table t') m = Some i) /\
  zlen (table t) <= zlen (table t') <= zlen (table t) + 1 /\
  (forall i, i < zlen (table t) -> ident_name t' i = ident_name t i).
Proof.
  intros [Hl Hi] HB H. unfold get_ident_id in H. destruct (rt_get (rev_table t) n) as [j|] eqn:E.
  - injection H as <- <-. repeat split; auto; try lia; apply Hi; assumption.
  - rewrite Z.mod_small in H by lia. destruct (Z.eqb_spec (zlen (table t)) 0); [lia|]. injection H as <- <-.
    assert (Hn : forall i, i < zlen (table t) -> ident_name {| rev_table := (n, zlen (table t)) :: rev_table t; table := table t ++ [n] |} i = ident_name t i).
    { intros i Hlt. unfold ident_name, v_get. cbn [table]. destruct (Z.leb_spec 0 i); [|reflexivity]. cbn [andb].
      rewrite zlen_snoc. destruct (Z.ltb_spec i (zlen (table t) + 1)); [|lia]. destruct (Z.ltb_spec i (zlen (table t))); [|lia].
      rewrite nth_error_app1; [reflexivity|]. unfold zlen in Hlt. lia. }
    cbn [table rev_table] in *. split.
    + split; [cbn [table]; rewrite zlen_snoc; lia|]. intros m i Hm. cbn [rev_table table rt_get] in *.
      rewrite zlen_snoc. destruct (String.eqb_spec n m) as [<-|Hne].
      * injection Hm as <-. split; [lia|]. unfold ident_name, v_get. cbn [table].
        rewrite zlen_snoc. destruct (Z.leb_spec 0 (zlen (table t))); [|lia]. destruct (Z.ltb_spec (zlen (table t)) (zlen (table t) + 1)); [|lia]. cbn [andb].
        unfold zlen. rewrite Nat2Z.id, nth_error_app2 by lia. rewrite Nat.sub_diag. reflexivity.
      * destruct (Hi m i Hm) as [B1 B2]. split; [lia|]. rewrite Hn by lia. exact B2.
    + cbn [rt_get]. rewrite String.eqb_refl. split; [reflexivity|]. split; [|split; [rewrite zlen_snoc; lia|exact Hn]].
      intros m i Hm. destruct (String.eqb_spec n m) as [<-|]; [congruence|exact Hm].
Qed.
Lemma get_ident_total n t : idt_inv t -> zlen (table t) < 2 ^ 32 -> exists id t', get_ident_id n t = Ok (id, t').
Proof.
  intros [Hl _] HB. unfold get_ident_id. destruct (rt_get _ n); [eauto|]. rewrite Z.mod_small by lia.
  destruct (Z.eqb_spec (zlen (table t)) 0); [lia|eauto].
Qed.
Lemma intern_all_ok ns : forall t, idt_inv t -> zlen (table t) + zlen ns < 2 ^ 32 ->
  exists ids t', intern_all ns t = Ok (ids, t') /\ idt_inv t' /\
    Forall2 (fun n i => rt_get (rev_table t') n = Some i) ns ids /\
    (forall m i, rt_get (rev_table t) m = Some i -> rt_get (rev_table t') m = Some i) /\
    zlen (table t) <= zlen (table t') <= zlen (table t) + zlen ns.
Proof.
  induction ns as [|n ns IH]; intros t I HB.
  - exists [], t. rewrite zlen_nil. split; [reflexivity|]. split; [exact I|]. split; [constructor|]. split; [auto|lia].
  - rewrite zlen_cons in HB. pose proof (zlen_nonneg ns). destruct (get_ident_total n t I ltac:(lia)) as (id & t1 & E).
    destruct (get_ident_inv n t id t1 I ltac:(lia) E) as (I1 & G1 & M1 & L1 & _).
    destruct (IH t1 I1 ltac:(lia)) as (ids & t' & E' & I' & F & M & L).
    exists (id :: ids), t'. cbn [intern_all]. rewrite E. cbn [rbind fst snd]. rewrite E'. cbn [rbind fst snd]. rewrite zlen_cons.
    split; [reflexivity|]. split; [exact I'|]. split; [constructor; auto|]. split; [auto|lia].
Qed.
Lemma F2_length {A B} (R : A -> B -> Prop) l r : Forall2 R l r -> length l = length r.
Proof. induction 1; cbn; congruence. Qed.
Lemma Forall2_nth {A B} (R : A -> B -> Prop) l r i a b : Forall2 R l r -> nth_error l i = Some a -> nth_error r i = Some b -> R a b.
Proof.
  intros F. revert i. induction F as [|x y l r Hx F IH]; intros [|i] Ha Hb; try discriminate; cbn in *; [congruence|eauto].
Qed.
Lemma intern_spec ns : zlen ns + 40 < 2 ^ 32 -> exists ids t, intern_all ns idtab_new = Ok (ids, t) /\
  length ids = length ns /\
  (forall i j n m x y, nth_error ns i = Some n -> nth_error ns j = Some m -> nth_error ids i = Some x -> nth_error ids j = Some y ->
     (x = y <-> n = m)) /\
  (forall i n x, nth_error ns i = Some n -> nth_error ids i = Some x -> ident_name t x = Ok n) /\
  (forall i n c, nth_error ns i = Some n -> In (n, c) presets -> nth_error ids i = Some c).
Proof.
  intros HB. destruct (intern_all_ok ns idtab_new idt_new_inv) as (ids & t & E & [Hl I] & F & M & L).
  { change (zlen (table idtab_new)) with 40. lia. }
  exists ids, t. split; [exact E|]. split; [symmetry; exact (F2_length _ _ _ F)|]. split; [|split].
  - intros i j n m x y Hn Hm Hx Hy. pose proof (Forall2_nth _ _ _ _ _ _ F Hn Hx) as Gx. pose proof (Forall2_nth _ _ _ _ _ _ F Hm Hy) as Gy.
    split; [intros <-|intros <-; congruence]. apply I in Gx, Gy. destruct Gx as [_ Gx], Gy as [_ Gy]. congruence.
  - intros i n x Hn Hx. apply I. exact (Forall2_nth _ _ _ _ _ _ F Hn Hx).
  - intros i n c Hn Hin. destruct (nth_error ids i) as [x|] eqn:Hx.
    + pose proof (Forall2_nth _ _ _ _ _ _ F Hn Hx) as Gx. assert (G0 : rt_get (rev_table idtab_new) n = Some c).
      { repeat (destruct Hin as [Hin|Hin]; [injection Hin as <- <-; reflexivity|]). destruct Hin. }
      apply M in G0. congruence.
    + apply nth_error_None in Hx. assert (i < length ns)%nat by (apply nth_error_Some; congruence).
      rewrite <- (F2_length _ _ _ F) in Hx. lia.
Qed.
(* names do not change under later requests *)
Lemma name_stable ns : forall t t' ids x n, idt_inv t -> zlen (table t) + zlen ns < 2 ^ 32 -> intern_all ns t = Ok (ids, t') ->
  ident_name t x = Ok n -> ident_name t' x = Ok n.
Proof.
  induction ns as [|n0 ns IH]; intros t t' ids x n I HB E Hx; cbn [intern_all] in E; [congruence|].
  rewrite zlen_cons in HB. pose proof (zlen_nonneg ns).
  destruct (get_ident_total n0 t I ltac:(lia)) as (id & t1 & E1). rewrite E1 in E. cbn [rbind fst snd] in E.
  destruct (get_ident_inv n0 t id t1 I ltac:(lia) E1) as (I1 & _ & _ & L1 & N1).
  destruct (intern_all ns t1) as [[ids' t2]| |] eqn:E2; cbn [rbind fst snd] in E; try discriminate. injection E as <- <-.
  eapply (IH t1); [exact I1|lia|exact E2|]. rewrite N1; [exact Hx|].
  unfold ident_name, v_get in Hx. destruct (Z.leb_spec 0 x); [|discriminate]. destruct (Z.ltb_spec x (zlen (table t))); [lia|discriminate].
Qed.
