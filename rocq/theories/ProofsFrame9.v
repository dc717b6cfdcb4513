(* Frames: each operation. *)
From Verif Require Import Base ModelValue ModelArray ModelFrame SpecFrame ProofsFrame ProofsFrame2 ProofsFrame3 ProofsFrame4 ProofsFrame5 ProofsFrame6 ProofsFrame7 ProofsFrame8.

Lemma write_app l1 : forall m a l2, write m a (l1 ++ l2) = write (write m a l1) (a + Z.of_nat (length l1)) l2.
Proof.
  induction l1 as [|w l1 IH]; intros m a l2; cbn [app write length].
  - f_equal. lia.
  - rewrite IH. f_equal. lia.
Qed.
Lemma total_top l f f' fs x : nth_error l (f_act f) = Some x -> f_act f' = f_act f ->
  total l (f' :: fs) = total l (f :: fs) - nops f + nops f'.
Proof. intros Hx E. cbn. unfold frame_size. rewrite E, Hx. unfold nops. lia. Qed.

Section Ops.
Variables (s : vm) (l : list act) (f : frame) (fs : list frame) (A L : nat -> Z) (K : nat -> Prop) (hp0 : Z).
Hypothesis OK : vmok s l (f :: fs) A L K hp0.
Let ST := vo_static _ _ _ _ _ _ _ OK.
Lemma top_act : exists x, nth_error l (f_act f) = Some x /\ sp s = A (f_act f) + hd_len x + nops f /\
  stack_bottom s - 1 <= A (f_act f) - nv x - 2 /\ sp s - stack_bottom s = total l (f :: fs).
Proof.
  pose proof (st_lay _ _ _ _ _ _ _ _ _ ST) as La. pose proof (lay_total _ _ _ _ _ La) as T.
  destruct (lay_bounds _ _ _ _ _ O f La eq_refl) as (y & Hy & B1 & _).
  destruct La as (x & Hx & Ht & _). assert (y = x) by congruence. subst y. eauto.
Qed.
Lemma push_ok w : total l (top_ops f (w :: f_ops f) :: fs) <= 8192 ->
  exists s', push w s = Ok s' /\ vmok s' l (top_ops f (w :: f_ops f) :: fs) A L K hp0 /\
    stack_bottom s' = stack_bottom s /\ hp s' = hp s.
Proof.
  intros F. destruct top_act as (x & Hx & Es & Eb & Et).
  rewrite (total_top l f (top_ops f (w :: f_ops f)) fs x Hx eq_refl) in F. unfold nops at 2 in F. cbn [top_ops f_ops length] in F.
  unfold nops in F, Es. unfold push, VM_STACK_SIZE. destruct (Z.eqb_spec (sp s - stack_bottom s) 8192); [lia|].
  eexists. split; [reflexivity|]. split; [|split; reflexivity].
  pose proof (st_bot _ _ _ _ _ _ _ _ _ ST).
  eapply (vmok_top s _ l f); eauto; try reflexivity; cbn [set_sp set_mem stack_bottom hp cfp lfp iseq pc sp mem top_ops f_pc f_act f_ops].
  - intros R. eapply (vo_code _ _ _ _ _ _ _ OK f x); auto.
  - unfold nops. cbn [top_ops f_ops length]. lia.
  - lia.
  - apply (st_pc _ _ _ _ _ _ _ _ _ ST O f eq_refl).
  - intros p Hp. apply upd_other. unfold nops in *. lia.
  - intros j u Hj. destruct j as [|j]; cbn in Hj.
    + injection Hj as <-. replace (sp s + 1 - 1 - Z.of_nat 0) with (sp s) by lia. apply upd_same.
    + rewrite upd_other by lia. rewrite <- (look_op OK f x j u eq_refl Hx Hj). f_equal. lia.
Qed.
Lemma pop_ok w r : f_ops f = w :: r -> pop s = Ok (w, set_sp (sp s - 1) s) /\
  vmok (set_sp (sp s - 1) s) l (top_ops f r :: fs) A L K hp0.
Proof.
  intros E. destruct top_act as (x & Hx & Es & Eb & Et). pose proof (st_bot _ _ _ _ _ _ _ _ _ ST).
  assert (HL : 3 <= hd_len x) by (unfold hd_len; destruct (a_ruby x); lia). assert (0 <= nv x) by (unfold nv; lia).
  unfold nops in Es. rewrite E in Es. cbn [length] in Es.
  split.
  - unfold pop. destruct (Z.eqb_spec (sp s - stack_bottom s) 0); [lia|]. do 2 f_equal.
    pose proof (look_op OK f x O w eq_refl Hx ltac:(rewrite E; reflexivity)) as LO.
    replace (sp s - 1 - Z.of_nat 0) with (sp s - 1) in LO by lia. exact LO.
  - pose proof (st_fit _ _ _ _ _ _ _ _ _ ST).
    eapply (vmok_top s _ l f); eauto; try reflexivity; cbn [set_sp set_mem stack_bottom hp cfp lfp iseq pc sp mem top_ops f_pc f_act f_ops].
    + intros R. eapply (vo_code _ _ _ _ _ _ _ OK f x); auto.
    + unfold nops. cbn [top_ops f_ops]. lia.
    + lia.
    + apply (st_pc _ _ _ _ _ _ _ _ _ ST O f eq_refl).
    + intros j u Hj. rewrite <- (look_op OK f x (S j) u eq_refl Hx ltac:(rewrite E; exact Hj)). f_equal. lia.
Qed.
Lemma pc_ok n : is_code l (f_act f) -> 0 <= n < 2 ^ 62 ->
  vmok (set_code (iseq s) n s) l (mkframe (f_act f) (f_ops f) n :: fs) A L K hp0.
Proof.
  intros _ Hn. destruct top_act as (x & Hx & Es & Eb & Et). pose proof (st_fit _ _ _ _ _ _ _ _ _ ST).
  eapply (vmok_top s _ l f); eauto; try reflexivity; cbn [set_code stack_bottom hp cfp lfp iseq pc sp mem f_pc f_act f_ops]; auto.
  intros j u Hj. apply (look_op OK f x j u eq_refl Hx Hj).
Qed.
Lemma clear_ok : vmok (clear_stack s) l (top_ops f [] :: fs) A L K hp0.
Proof.
  destruct top_act as (x & Hx & Es & Eb & Et). pose proof (st_fit _ _ _ _ _ _ _ _ _ ST). unfold nops in Es.
  unfold clear_stack. rewrite (vo_cfp _ _ _ _ _ _ _ OK f eq_refl).
  rewrite (ruby_live (vo_mem _ _ _ _ _ _ _ OK) O f x eq_refl Hx).
  eapply (vmok_top s _ l f); eauto; try reflexivity; cbn [set_sp stack_bottom hp cfp lfp iseq pc sp mem top_ops f_pc f_act f_ops].
  - intros R. eapply (vo_code _ _ _ _ _ _ _ OK f x); auto.
  - unfold nops, hd_len, CONT_FRAME_LEN, RUBY_FRAME_LEN. cbn. destruct (a_ruby x); lia.
  - unfold hd_len, CONT_FRAME_LEN, RUBY_FRAME_LEN in *. destruct (a_ruby x); lia.
  - apply (st_pc _ _ _ _ _ _ _ _ _ ST O f eq_refl).
  - intros j u Hj. destruct j; discriminate.
Qed.
End Ops.

(* ---- entering ---- *)
Section Enter2.
Variables (s s1 s' : vm) (l : list act) (f : frame) (fs : list frame) (A L : nat -> Z) (K : nat -> Prop) (hp0 : Z).
Variables (xf x : act) (pre r ws : list Z).
Hypothesis OK : vmok s l (f :: fs) A L K hp0.
Hypothesis Hxf : nth_error l (f_act f) = Some xf.
Hypothesis Hops : f_ops f = pre ++ r.
Let base := A (f_act f) + hd_len xf + Z.of_nat (length r).
Let t := base + nv x + 1.
Let c := base + nv x + 2.
Hypothesis Hfit : c + hd_len x <= stack_bottom s + 8192.
Hypothesis Hcode : a_ruby x = true -> code_ok (a_iseq x).
Hypothesis Hpar : forall p, a_parent x = Some p -> is_code l p /\ a_ruby x = true /\ (K p \/ livef (f :: fs) p).
Hypothesis Hblk : forall t b, a_blk x = Some (t, b) -> 0 < t < 2 ^ 30 /\ is_code l b.
(* the arguments are in place *)
Hypothesis Hm1 : forall p, stack_bottom s - 1 <= p < base \/ hp0 <= p < hp s -> mem s1 p = mem s p.
Hypothesis Hself : mem s1 base = a_self x.
Hypothesis Hvars : forall i w, nth_error (a_vars x) i = Some w -> mem s1 (base + 1 + Z.of_nat i) = w.
Let mp := if a_ruby xf then upd (mem s1) (A (f_act f) + EV_PC) (fixword (f_pc f)) else mem s1.
Hypothesis Em : mem s' = write (upd mp t (a_self x)) c ws.
Hypothesis Eb : stack_bottom s' = stack_bottom s.
Hypothesis Eh : hp s' = hp s.
Hypothesis Es : sp s' = c + hd_len x.
Hypothesis Ec : cfp s' = c.
Hypothesis El : lfp s' = base + 1.
Hypothesis Ei : a_ruby x = true -> iseq s' = a_iseq x /\ pc s' = 0.
Hypothesis N0 : nth_error ws 0 = Some (enc (A (f_act f))).
Hypothesis N1 : nth_error ws 1 = Some (enc c).
Hypothesis N2 : nth_error ws 2 = Some (flag_of x).
Hypothesis N3 : a_ruby x = true -> a_parent x = None -> nth_error ws 3 = Some (enc c).
Hypothesis N3' : forall p rt, a_parent x = Some p -> method_of l p rt -> nth_error ws 3 = Some (enc (L rt)).
Hypothesis N4 : a_ruby x = true -> nth_error ws 4 = Some (enc_opt (option_map L (a_parent x))).
Hypothesis N6 : a_ruby x = true -> nth_error ws 6 = Some (iseq_word (a_iseq x)).
Hypothesis N7 : a_ruby x = true ->
  nth_error ws 7 = Some (blk_word (match a_blk x with Some (t, b) => Some (KBlock t (A b - stack_bottom s)) | None => None end)).
Hypothesis NL : Z.of_nat (length ws) = hd_len x.

Lemma enter_ok : vmok s' (l ++ [x]) (mkframe (length l) [] 0 :: top_ops f r :: fs)
  (ext_at A (length l) c) (ext_at L (length l) c) K hp0.
Proof.
  pose proof (facts s l f fs A L K hp0 xf x pre r OK Hxf Hops Hfit Hcode Hpar Hblk) as (F1 & F2 & F3 & F4 & F5 & F6 & F7).
  pose proof (st_bot _ _ _ _ _ _ _ _ _ (vo_static _ _ _ _ _ _ _ OK)) as SB.
  assert (HL : hd_len x <= 8) by (unfold hd_len; destruct (a_ruby x); lia).
  assert (W : forall i w, nth_error ws i = Some w -> mem s' (c + Z.of_nat i) = w).
  { intros i w H. rewrite Em. apply write_in. exact H. }
  assert (Q : forall p, p < t \/ c + hd_len x <= p -> mem s' p = mp p).
  { intros p Hp. rewrite Em. rewrite write_out by lia. apply upd_other. unfold c, t in *. lia. }
  assert (QP : forall p, (a_ruby xf = true -> p <> A (f_act f) + 5) -> mp p = mem s1 p).
  { intros p Hp. unfold mp. destruct (a_ruby xf); [|reflexivity]. apply upd_other. unfold EV_PC. auto. }
  assert (PB : a_ruby xf = true -> A (f_act f) + 5 < base) by (intros R; unfold base, hd_len; rewrite R; lia).
  apply (vmok_new s s' l f fs A L K hp0 xf x pre r); auto; fold base; fold c.
  - intros p Hp Np. rewrite Q by (unfold t, c in *; lia). rewrite QP by exact Np. auto.
  - intros R. unfold EV_PC. rewrite Q by (specialize (PB R); unfold t; lia). unfold mp. rewrite R. apply upd_same.
  - rewrite Q by (unfold t; lia). rewrite QP by (intros R; specialize (PB R); lia). exact Hself.
  - intros i w Hi. assert (i < length (a_vars x))%nat by (eapply nth_some_lt; eauto). unfold nv in *.
    rewrite Q by (unfold t, nv; lia). rewrite QP by (intros R; specialize (PB R); lia). auto.
  - rewrite Em, write_out by lia. replace (c - 1) with t by (unfold c, t; lia). apply upd_same.
  - unfold EV_PREV_CFP. apply (W O). exact N0.
  - unfold EV_EP. apply (W 1%nat). exact N1.
  - unfold EV_FLAG. apply (W 2%nat). exact N2.
  - intros R. apply (W 6%nat). auto.
  - intros R. apply (W 7%nat). auto.
  - intros R. apply (W 4%nat). auto.
  - intros R P0. apply (W 3%nat). auto.
  - intros p rt Hp M. apply (W 3%nat). eauto.
Qed.
End Enter2.

Lemma save_pc_mem s l f fs A L K hp0 xf : vmok s l (f :: fs) A L K hp0 -> nth_error l (f_act f) = Some xf ->
  forall s1, is_ruby (mem s1) (cfp s1) = a_ruby xf -> cfp s1 = cfp s -> pc s1 = pc s ->
  exists m, save_next_pc s1 = set_mem (fun _ => m) s1 /\
    m = (if a_ruby xf then upd (mem s1) (A (f_act f) + EV_PC) (fixword (f_pc f)) else mem s1).
Proof.
  intros OK Hxf s1 HR Ec Ep. unfold save_next_pc. rewrite HR.
  destruct (a_ruby xf) eqn:R.
  - eexists. split; [reflexivity|]. rewrite Ec, (vo_cfp _ _ _ _ _ _ _ OK f eq_refl), Ep.
    destruct (vo_code _ _ _ _ _ _ _ OK f xf eq_refl Hxf R) as (_ & ->). reflexivity.
  - eexists. split; [|reflexivity]. destruct s1. reflexivity.
Qed.
