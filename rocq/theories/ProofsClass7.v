(* More fuel changes nothing; running lists of operations. *)
From Verif Require Import Base ProofsBase ModelArray ProofsArray ModelGC ProofsGC ModelClass SpecClass ProofsClass ProofsClass2 ProofsClass3 ProofsClass4 ProofsClass5 ProofsClass6.

Ltac mono IH := match goal with
  | E : rbind _ _ = Ok _ |- _ => let x := fresh "x" in let E1 := fresh "E" in let E2 := fresh "E" in apply bind_ok in E; destruct E as (x & E1 & E2)
  | E : ?r = Ok ?x |- context [rbind ?r _] => rewrite E; cbn [rbind]
  | |- Ok _ = Ok _ => congruence
  | E : ?r = Ok _ |- ?r = Ok _ => exact E
  | E : match ?x with _ => _ end = Ok _ |- _ => destruct x eqn:?
  | E : Err _ = Ok _ |- _ => discriminate E
  | E : Panic = Ok _ |- _ => discriminate E
  end.
Lemma m_skip_prepend w : forall f g a x, (f <= g)%nat -> skip_prepend w f a = Ok x -> skip_prepend w g a = Ok x.
Proof. induction f as [|n IH]; intros [|g] a x Hg E; try discriminate; [lia|]. cbn [skip_prepend] in *. repeat mono IH. apply IH; [lia|assumption]. Qed.
Lemma m_upper_ w f g a x : (f <= g)%nat -> upper w f a = Ok x -> upper w g a = Ok x.
Proof. intros Hg E. unfold upper in *. repeat mono tt. eapply m_skip_prepend; eassumption. Qed.
Lemma m_skip_included w : forall f g a x, (f <= g)%nat -> skip_included w f a = Ok x -> skip_included w g a = Ok x.
Proof. induction f as [|n IH]; intros [|g] a x Hg E; try discriminate; [lia|]. cbn [skip_included] in *. repeat mono IH. apply IH; [lia|assumption]. Qed.
Lemma m_superclass w f g a x : (f <= g)%nat -> superclass w f a = Ok x -> superclass w g a = Ok x.
Proof. intros Hg E. unfold superclass in *. repeat mono tt. eapply m_skip_included; eassumption. Qed.
Lemma m_ancestors w : forall f g a x, (f <= g)%nat -> ancestors w f a = Ok x -> ancestors w g a = Ok x.
Proof.
  induction f as [|n IH]; intros [|g] a x Hg E; try discriminate; [lia|]. cbn [ancestors] in *. repeat mono IH; match goal with U : upper w (S n) a = Ok _ |- _ => rewrite (m_upper_ w (S n) (S g) a _ Hg U) end; cbn [rbind]; [|congruence].
  match goal with A : ancestors w n _ = Ok _ |- _ => rewrite (IH g _ _ ltac:(lia) A) end. cbn [rbind]. congruence.
Qed.
Lemma m_copy : forall f g w a b x, (f <= g)%nat -> copy_chain f w a b = Ok x -> copy_chain g w a b = Ok x.
Proof.
  induction f as [|n IH]; intros [|g] w a b x Hg E; try discriminate; [lia|]. cbn [copy_chain] in *. repeat mono IH; match goal with U : upper w (S n) a = Ok _ |- _ => rewrite (m_upper_ w (S n) (S g) a _ Hg U) end; cbn [rbind]; [|congruence].
  repeat mono IH. apply IH; [lia|assumption].
Qed.
Lemma m_search w name : forall f g a x, (f <= g)%nat -> search_chain w f name a = Ok x -> search_chain w g name a = Ok x.
Proof.
  induction f as [|n IH]; intros [|g] a x Hg E; try discriminate; [lia|]. cbn [search_chain] in *. apply bind_ok in E. destruct E as (m & Em & E). rewrite Em. cbn [rbind].
  destruct (assoc name (mtab (exts w (m_ext m)))); [exact E|]. apply bind_ok in E. destruct E as (u & Eu & E). rewrite (m_upper_ w (S n) (S g) a _ Hg Eu). cbn [rbind]. destruct u; [|exact E]. apply IH; [lia|exact E].
Qed.
Lemma m_search_method w name f g a x : (f <= g)%nat -> search_method w f name a = Ok x -> search_method w g name a = Ok x.
Proof.
  intros Hg E. unfold search_method in *. apply bind_ok in E. destruct E as (m & Em & E). rewrite Em. cbn [rbind]. apply bind_ok in E. destruct E as (r & Er & E). rewrite (m_search w name f g a _ Hg Er). cbn [rbind].
  destruct r; [exact E|]. destruct (is_singleton (exts w (m_ext m))); [|exact E]. eapply m_search; eassumption.
Qed.
Lemma m_find w f g c name x : (f <= g)%nat -> find_method w f c name = Ok x -> find_method w g c name = Ok x.
Proof. intros Hg E. unfold find_method in *. destruct (mc_get w c name); [exact E|]. apply bind_ok in E. destruct E as (r & Er & E). rewrite (m_search_method w name f g c _ Hg Er). exact E. Qed.
Lemma m_inline w f g s c name x : (f <= g)%nat -> find_method_inline w f s c name = Ok x -> find_method_inline w g s c name = Ok x.
Proof.
  intros Hg E. unfold find_method_inline in *. apply bind_ok in E. destruct E as (e & Ee & E). rewrite Ee. cbn [rbind]. destruct ((version w =? ie_version e) && (c =? ie_class e)); [exact E|].
  apply bind_ok in E. destruct E as (r & Er & E). rewrite (m_find w f g c name _ Hg Er). exact E.
Qed.
Lemma m_super w f g c name x : (f <= g)%nat -> super_method w f c name = Ok x -> super_method w g c name = Ok x.
Proof.
  intros Hg E. unfold super_method in *. apply bind_ok in E. destruct E as (r & Er & E). rewrite (m_superclass w f g c _ Hg Er). cbn [rbind]. destruct r; [|exact E]. eapply m_find; eassumption.
Qed.
Lemma m_super_const w id im ob : forall f g a x, (f <= g)%nat -> super_const w f a id im ob = Ok x -> super_const w g a id im ob = Ok x.
Proof.
  induction f as [|n IH]; intros [|g] a x Hg E; try discriminate; [lia|]. cbn [super_const] in *. apply bind_ok in E. destruct E as (c & Ec & E). rewrite Ec. cbn [rbind]. destruct c; [exact E|].
  apply bind_ok in E. destruct E as (u & Eu & E). rewrite (m_upper_ w (S n) (S g) a _ Hg Eu). cbn [rbind]. destruct u; [|exact E]. apply IH; [lia|exact E].
Qed.
Lemma m_find_const w f g sc cl id ob x : (f <= g)%nat -> find_const w f sc cl id ob = Ok x -> find_const w g sc cl id ob = Ok x.
Proof.
  intros Hg E. unfold find_const in *. apply bind_ok in E. destruct E as (l & El & E). rewrite El. cbn [rbind]. destruct l; [exact E|]. unfold get_super_const in *.
  apply bind_ok in E. destruct E as (m & Em & E). rewrite Em. cbn [rbind]. eapply m_super_const; eassumption.
Qed.
Lemma m_cached w f g s sc cl id ob x : (f <= g)%nat -> get_const_cached w f s sc cl id ob = Ok x -> get_const_cached w g s sc cl id ob = Ok x.
Proof.
  intros Hg E. unfold get_const_cached in *. apply bind_ok in E. destruct E as (e & Ee & E). rewrite Ee. cbn [rbind]. destruct (match ce_val e with Some v => _ | None => None end); [exact E|].
  apply bind_ok in E. destruct E as (v & Ev & E). rewrite (m_find_const w f g sc cl id ob _ Hg Ev). exact E.
Qed.
Lemma m_include w f g c m x : (f <= g)%nat -> append_include f w c m = Ok x -> append_include g w c m = Ok x.
Proof.
  intros Hg E. unfold append_include in *. apply bind_ok in E. destruct E as (mc & E1 & E). rewrite E1. cbn [rbind]. apply bind_ok in E. destruct E as (r & E2 & E). rewrite E2. cbn [rbind].
  apply bind_ok in E. destruct E as (w1 & E3 & E). rewrite E3. cbn [rbind]. apply bind_ok in E. destruct E as (l & E4 & E). rewrite (m_copy f g _ _ _ _ Hg E4). exact E.
Qed.
Lemma m_prepend w f g c m x : (f <= g)%nat -> append_prepend f w c m = Ok x -> append_prepend g w c m = Ok x.
Proof.
  intros Hg E. unfold append_prepend in *. apply bind_ok in E. destruct E as (mc & E1 & E). rewrite E1. cbn [rbind]. apply bind_ok in E. destruct E as (r & E2 & E). rewrite E2. cbn [rbind].
  apply bind_ok in E. destruct E as (w1 & E3 & E). rewrite E3. cbn [rbind]. apply bind_ok in E. destruct E as (l & E4 & E). rewrite (m_copy f g _ _ _ _ Hg E4). exact E.
Qed.
Lemma m_exec site csite f g o w x : (f <= g)%nat -> exec site csite f o w = Ok x -> exec site csite g o w = Ok x.
Proof.
  intros Hg E. destruct o; cbn [exec] in *; try exact E.
  - destruct (_ && _); [|discriminate]. eapply m_include; eassumption.
  - destruct (_ && _); [|discriminate]. eapply m_prepend; eassumption.
  - destruct (user_mod w c); [|discriminate]. apply bind_ok in E. destruct E as (r & E1 & E). rewrite (m_inline w f g _ _ _ _ Hg E1). exact E.
  - destruct (user_mod w c); [|discriminate]. apply bind_ok in E. destruct E as (r & E1 & E). rewrite (m_find w f g _ _ _ Hg E1). exact E.
  - destruct (user_mod w c); [|discriminate]. apply bind_ok in E. destruct E as (r & E1 & E). rewrite (m_super w f g _ _ _ Hg E1). exact E.
  - destruct (csite slot) as [[sc cl] [id ob]]. apply bind_ok in E. destruct E as (r & E1 & E). rewrite (m_cached w f g _ _ _ _ _ _ Hg E1). exact E.
Qed.
Lemma exec_runs site csite f o w x : exec site csite f o w = Ok x -> runs site csite o w x.
Proof. intros E. exists f. intros g Hg. eapply m_exec; eassumption. Qed.
Lemma anc_runs w f a l : ancestors w f a = Ok l -> has_ancestors w a l.
Proof. intros E. exists f. intros g Hg. eapply m_ancestors; eassumption. Qed.
Lemma look_runs w f name a r : search_method w f name a = Ok r -> look w name a r.
Proof. intros E. exists f. intros g Hg. eapply m_search_method; eassumption. Qed.

(* a list of operations, checked on the way *)
Definition op_okb (o : op) : bool := match o with Include c m | Prepend c m => negb (c =? m) | _ => true end.
Definition liveb (w : world) : bool := existsb (fun e => match ce_val e with Some _ => ce_version e =? cversion w | None => false end) (ccache w).
Definition quiet_opb (o : op) (w : world) : bool := match o with Include _ _ | Prepend _ _ => negb (liveb w) | _ => true end.
Fixpoint run_ops site csite (q : bool) (l : list op) (w : world) : res world :=
  match l with
  | [] => Ok w
  | o :: r =>
      w' <- exec site csite 20 o w ;;
      if op_okb o && (version w <=? version w') && (cversion w <=? cversion w') && (negb q || quiet_opb o w) then run_ops site csite q r w' else Panic
  end.
Lemma op_okb_ok o : op_okb o = true -> op_ok o.
Proof. destruct o; cbn; auto; intros H; apply Bool.negb_true_iff in H; apply Z.eqb_neq; exact H. Qed.
Lemma quiet_opb_ok o w : quiet_opb o w = true -> quiet_op o w.
Proof.
  destruct o; cbn; auto; intros H (e & H1 & H2 & H3); apply Bool.negb_true_iff in H; assert (liveb w = true); try congruence; apply existsb_exists; exists e; (split; [exact H1|]); destruct (ce_val e); try congruence; apply Z.eqb_eq; exact H3.
Qed.
Lemma run_calm site csite l : forall w w', calm site csite w -> run_ops site csite false l w = Ok w' -> calm site csite w'.
Proof.
  induction l as [|o l IH]; intros w w' C E; cbn [run_ops] in E; [congruence|]. apply bind_ok in E. destruct E as (w1 & E1 & E). destruct (op_okb o && _ && _ && _) eqn:B; [|discriminate].
  apply andb_prop in B. destruct B as [B _]. apply andb_prop in B. destruct B as [B B3]. apply andb_prop in B. destruct B as [B1 B2].
  apply (IH w1); [|exact E]. apply (cl_step site csite w o w1); [exact C|apply op_okb_ok; exact B1|apply (exec_runs site csite 20); exact E1|apply Z.leb_le; exact B2|apply Z.leb_le; exact B3].
Qed.
Lemma run_quiet site csite l : forall w w', quiet site csite w -> run_ops site csite true l w = Ok w' -> quiet site csite w'.
Proof.
  induction l as [|o l IH]; intros w w' C E; cbn [run_ops] in E; [congruence|]. apply bind_ok in E. destruct E as (w1 & E1 & E). destruct (op_okb o && _ && _ && _) eqn:B; [|discriminate].
  apply andb_prop in B. destruct B as [B B4]. apply andb_prop in B. destruct B as [B B3]. apply andb_prop in B. destruct B as [B1 B2].
  apply (IH w1); [|exact E]. apply (q_step site csite w o w1); [exact C|apply op_okb_ok; exact B1|apply quiet_opb_ok; exact B4|apply (exec_runs site csite 20); exact E1|apply Z.leb_le; exact B2|apply Z.leb_le; exact B3].
Qed.
