(* Control: the host stack and the frames stay matched. *)
From Verif Require Import Base ModelControl SpecControl.

Inductive matched : list cframe -> list hctx -> Prop :=
| M_host f : c_kind f = Nat -> c_tab f = [] -> matched [f] [HNat 0 true]
| M_nat f fr h hs u : c_kind f = Nat -> c_tab f = [] -> c_use f = u -> matched fr (h :: hs) ->
    matched (f :: fr) (HNat (length fr) u :: h :: hs)
| M_loop1 f fr d u hs : ruby f -> matched fr (HNat d u :: hs) -> matched (f :: fr) (HLoop 0 :: HNat d u :: hs)
| M_loop f fr ic hs : ruby f -> matched fr (HLoop ic :: hs) -> matched (f :: fr) (HLoop (S ic) :: hs).

Definition good (s : cst) : Prop :=
  matched (c_fr s) (c_hs s) /\ (c_pend s <> None -> exists f r, c_fr s = f :: r /\ c_kind f = Nat).

Lemma matched_ne fr hs : matched fr hs -> fr <> [] /\ hs <> [].
Proof. destruct 1; split; discriminate. Qed.
Lemma matched_ruby f fr hs : matched (f :: fr) hs -> ruby f ->
  (exists d u hs', hs = HLoop 0 :: HNat d u :: hs' /\ matched fr (HNat d u :: hs')) \/
  (exists ic hs', hs = HLoop (S ic) :: hs' /\ matched fr (HLoop ic :: hs')).
Proof. inversion 1; subst; intros R; try (exfalso; apply R; assumption); [left|right]; eauto 6. Qed.
Lemma matched_native f fr hs : matched (f :: fr) hs -> c_kind f = Nat ->
  (fr = [] /\ hs = [HNat 0 true]) \/ (exists h hs', hs = HNat (length fr) (c_use f) :: h :: hs' /\ matched fr (h :: hs')).
Proof. inversion 1; subst; intros R; try contradiction; [left; auto|right; eauto]. Qed.
Lemma matched_loop fr ic hs : matched fr (HLoop ic :: hs) -> exists f r, fr = f :: r /\ ruby f.
Proof. inversion 1; subst; eauto. Qed.
Lemma matched_hnat fr d u hs : matched fr (HNat d u :: hs) -> exists f r, fr = f :: r /\ c_kind f = Nat /\ c_tab f = [].
Proof. inversion 1; subst; eauto. Qed.
(* what a frame holds does not matter *)
Lemma matched_top f f' fr hs : matched (f :: fr) hs -> c_kind f' = c_kind f -> c_use f' = c_use f -> c_tab f' = c_tab f -> matched (f' :: fr) hs.
Proof.
  intros H K U T. unfold ruby in *. inversion H; subst; try (constructor; unfold ruby in *; congruence).
Qed.

Lemma include_spec pc e : include pc e = true <-> e_start e < pc <= e_end e.
Proof. unfold include. rewrite andb_true_iff, Z.ltb_lt, Z.leb_le. reflexivity. Qed.
Lemma find_first pc t e : find (include pc) t = Some e <-> first_entry pc t e.
Proof.
  split.
  - induction t as [|x t IH]; cbn; [discriminate|]. destruct (include pc x) eqn:E.
    + intros [= ->]. constructor. apply include_spec; exact E.
    + intros H. constructor 2; [|auto]. rewrite <- include_spec. congruence.
  - induction 1 as [e t H|e t e' H _ IH]; cbn.
    + apply include_spec in H. rewrite H. reflexivity.
    + destruct (include pc e) eqn:E; [|exact IH]. apply include_spec in E. contradiction.
Qed.
Lemma find_none pc t : find (include pc) t = None <-> (forall e, In e t -> ~ (e_start e < pc <= e_end e)).
Proof.
  induction t as [|x t IH]; cbn; [split; [intros _ e []|reflexivity]|].
  destruct (include pc x) eqn:E.
  - split; [discriminate|]. intros H. exfalso. apply (H x); [auto|]. apply include_spec; exact E.
  - rewrite IH. split.
    + intros H e [<-|Hi]; [rewrite <- include_spec; congruence|auto].
    + intros H e Hi. auto.
Qed.

(* ---- handling in a loop ---- *)
Lemma handle_exc_ok w : forall ic fr hs, matched fr (HLoop ic :: hs) ->
  (exists ic' fr', handle_exc ic w fr = Ok (Some ic', fr') /\ matched fr' (HLoop ic' :: hs)) \/
  (exists fr', handle_exc ic w fr = Ok (None, fr') /\ matched fr' hs /\ exists f r, fr' = f :: r /\ c_kind f = Nat).
Proof.
  induction ic as [|ic IH]; intros fr hs M; destruct (matched_loop _ _ _ M) as (f & r & -> & R); cbn [handle_exc].
  - destruct (find _ _) as [e|].
    + left. eexists _, _. split; [reflexivity|]. eapply matched_top; [exact M|reflexivity..].
    + right. destruct (matched_ruby _ _ _ M R) as [(d & u & hs' & [= ->] & M')|(ic' & hs' & [=] & _)].
      exists r. split; [reflexivity|]. split; [exact M'|]. destruct (matched_hnat _ _ _ _ M') as (g & r' & -> & K & _). eauto.
  - destruct (find _ _) as [e|].
    + left. eexists _, _. split; [reflexivity|]. eapply matched_top; [exact M|reflexivity..].
    + destruct (matched_ruby _ _ _ M R) as [(d & u & hs' & [=] & M')|(ic' & hs' & [= <- <-] & M')]. apply IH. exact M'.
Qed.
Lemma handle_mreturn_ok w : forall ic fr hs, matched fr (HLoop ic :: hs) ->
  (exists ic' fr', handle_mreturn ic w fr = Ok (Some ic', fr') /\ matched fr' (HLoop ic' :: hs)) \/
  (exists fr', handle_mreturn ic w fr = Ok (None, fr') /\ matched fr' hs /\ exists f r, fr' = f :: r /\ c_kind f = Nat).
Proof.
  induction ic as [|ic IH]; intros fr hs M; destruct (matched_loop _ _ _ M) as (f & r & -> & R); cbn [handle_mreturn].
  - right. destruct (matched_ruby _ _ _ M R) as [(d & u & hs' & [= ->] & M')|(ic' & hs' & [=] & _)].
    exists r. split; [reflexivity|]. split; [exact M'|]. destruct (matched_hnat _ _ _ _ M') as (g & r' & -> & K & _). eauto.
  - destruct (matched_ruby _ _ _ M R) as [(d & u & hs' & [=] & M')|(ic' & hs' & [= <- <-] & M')].
    destruct (matched_loop _ _ _ M') as (g & r' & -> & R'). destruct (is_meth g).
    + left. eexists _, _. split; [reflexivity|]. eapply matched_top; [exact M'|reflexivity..].
    + apply IH. exact M'.
Qed.
Lemma loop_err_ok e ic s hs : matched (c_fr s) (HLoop ic :: hs) -> e <> BlockReturn ->
  exists s', loop_err e ic s hs = Ok s' /\ good s'.
Proof.
  intros M NB. destruct e as [| |w]; [congruence| |]; cbn [loop_err].
  - destruct (handle_mreturn_ok (c_val s) _ _ _ M) as [(ic' & fr' & -> & M')|(fr' & -> & M' & H)]; cbn [rbind]; eexists; (split; [reflexivity|]).
    + split; [exact M'|]. cbn. congruence.
    + split; [exact M'|]. cbn. auto.
  - destruct (handle_exc_ok w _ _ _ M) as [(ic' & fr' & -> & M')|(fr' & -> & M' & H)]; cbn [rbind]; eexists; (split; [reflexivity|]).
    + split; [exact M'|]. cbn. congruence.
    + split; [exact M'|]. cbn. auto.
Qed.
Lemma dispatch_ok out u s : matched (c_fr s) (c_hs s) -> exists s', dispatch out u s = Ok s' /\ good s'.
Proof.
  intros M. unfold dispatch. destruct (c_hs s) as [|[ic|d v] hs] eqn:EH; [destruct (matched_ne _ _ M); congruence| |].
  - destruct (matched_loop _ _ _ M) as (f & r & EF & R).
    destruct out as [w|[| |w]].
    + destruct u; unfold push_top; rewrite ?EF; cbn [rbind]; eexists; (split; [reflexivity|]); (split; [|cbn; congruence]); cbn [c_fr c_hs].
      * rewrite EF in M. eapply matched_top; [exact M|reflexivity..].
      * rewrite <- EF. exact M.
    + eexists. split; [reflexivity|]. split; [exact M|cbn; congruence].
    + unfold pop_frame. rewrite EF. cbn [rbind]. destruct (is_meth f).
      * rewrite EF in M. destruct (matched_ruby _ _ _ M R) as [(d & u' & hs' & [= -> ->] & M')|(ic' & hs' & [= -> <-] & M')].
        -- eexists. split; [reflexivity|]. split; [exact M'|cbn; congruence].
        -- destruct (matched_loop _ _ _ M') as (g & r' & -> & R'). cbn [push_top rbind]. eexists. split; [reflexivity|].
           split; [|cbn; congruence]. eapply matched_top; [exact M'|reflexivity..].
      * apply loop_err_ok; [exact M|discriminate].
    + apply loop_err_ok; [exact M|discriminate].
  - destruct (matched_hnat _ _ _ _ M) as (f & r & EF & K & _).
    destruct out as [w|e]; eexists; (split; [reflexivity|]); (split; [exact M|]); cbn; [congruence|eauto].
Qed.
Lemma native_end_ok out s : matched (c_fr s) (c_hs s) -> (2 <= length (c_fr s))%nat -> (exists f r, c_fr s = f :: r /\ c_kind f = Nat) ->
  exists s', native_end out s = Ok s' /\ good s'.
Proof.
  intros M L (f & r & EF & K). rewrite EF in M, L. unfold native_end, pop_frame. rewrite EF.
  destruct (matched_native _ _ _ M K) as [[-> _]|(h & hs & -> & M')]; [cbn in L; lia|]. cbn [rbind snd]. rewrite Nat.eqb_refl. cbn [negb].
  destruct out as [w|[| |w]]; apply dispatch_ok; exact M'.
Qed.

Lemma step_ok s o : good s -> can o s -> exists s', cstep o s = Ok s' /\ good s'.
Proof.
  intros [M P] C.
  assert (RUN : running s -> exists ic hs f r, c_hs s = HLoop ic :: hs /\ c_fr s = f :: r /\ c_pend s = None /\ ruby f /\
            in_loop s = Ok (ic, hs, f, r) /\ matched (f :: r) (HLoop ic :: hs)).
  { intros [HP HF]. destruct (c_fr s) as [|f r] eqn:EF; [contradiction|]. unfold in_loop. rewrite HP, EF.
    destruct (matched_ruby _ _ _ M HF) as [(d & u & hs & E & _)|(ic & hs & E & _)]; rewrite E in M |- *; eexists _, _, f, r; eauto 8. }
  assert (INS : inside s -> exists f r d u hs, c_fr s = f :: r /\ c_kind f = Nat /\ c_hs s = HNat d u :: hs /\ in_native s = Ok tt /\ c_pend s = None).
  { intros [HP HF]. destruct (c_fr s) as [|f r] eqn:EF; [contradiction|]. unfold in_native. rewrite HP.
    destruct (matched_native _ _ _ M HF) as [[-> ->]|(h & hs & -> & _)]; eexists f, _, _, _, _; eauto 8. }
  assert (POP : forall f r, c_fr s = f :: r -> (1 <= operands s)%nat -> exists w ops, c_ops f = w :: ops /\ pop_op f = Ok (w, with_ops f ops)).
  { intros f r EF HO. unfold operands in HO. rewrite EF in HO. unfold pop_op. destruct (c_ops f) as [|w ops]; [cbn in HO; lia|]. eauto. }
  destruct o; cbn [can] in C; cbn [cstep].
  - destruct (RUN C) as (ic & hs & f & r & EH & EF & EP & R & -> & M'). cbn [rbind]. eexists. split; [reflexivity|]. rewrite EH.
    split; [eapply matched_top; [exact M'|reflexivity..]|cbn; congruence].
  - destruct C as [C HO]. destruct (RUN C) as (ic & hs & f & r & EH & EF & EP & R & -> & M'). cbn [rbind].
    destruct (POP _ _ EF HO) as (w & ops & EO & ->). cbn [rbind snd]. eexists. split; [reflexivity|]. rewrite EH.
    split; [eapply matched_top; [exact M'|reflexivity..]|cbn; congruence].
  - destruct (RUN C) as (ic & hs & f & r & EH & EF & EP & R & -> & M'). cbn [rbind]. eexists. split; [reflexivity|]. rewrite EH.
    split; [eapply matched_top; [exact M'|reflexivity..]|cbn; congruence].
  - destruct C as (C & HO & HK). destruct (RUN C) as (ic & hs & f & r & EH & EF & EP & R & -> & M'). cbn [rbind].
    unfold operands in HO. rewrite EF in HO. rewrite (proj2 (Nat.ltb_ge _ _)) by exact HO. eexists. split; [reflexivity|].
    split; [|cbn; congruence]. cbn [c_fr c_hs]. apply M_loop; [exact HK|]. eapply matched_top; [exact M'|reflexivity..].
  - destruct C as (C & HO). destruct (RUN C) as (ic & hs & f & r & EH & EF & EP & R & -> & M'). cbn [rbind].
    unfold operands in HO. rewrite EF in HO. rewrite (proj2 (Nat.ltb_ge _ _)) by exact HO. eexists. split; [reflexivity|].
    split; [|cbn; congruence]. cbn [c_fr c_hs]. rewrite EH.
    apply (M_nat _ (with_ops f (skipn n (c_ops f)) :: r)); try reflexivity. eapply matched_top; [exact M'|reflexivity..].
  - destruct C as [C HO]. destruct (RUN C) as (ic & hs & f & r & EH & EF & EP & R & -> & M'). cbn [rbind].
    destruct (POP _ _ EF HO) as (w & ops & EO & ->). cbn [rbind fst].
    destruct (matched_ruby _ _ _ M' R) as [(d & u & hs' & [= -> ->] & M2)|(ic' & hs' & [= -> <-] & M2)].
    + eexists. split; [reflexivity|]. split; [exact M2|cbn; congruence].
    + destruct (matched_loop _ _ _ M2) as (g & r' & -> & R'). destruct (c_use f); cbn [push_top rbind]; eexists; (split; [reflexivity|]);
        (split; [|cbn; congruence]); [eapply matched_top; [exact M2|reflexivity..]|exact M2].
  - destruct C as (C & HO & HB). destruct (RUN C) as (ic & hs & f & r & EH & EF & EP & R & -> & M'). cbn [rbind].
    destruct (POP _ _ EF HO) as (w & ops & EO & ->). cbn [rbind fst].
    destruct (matched_ruby _ _ _ M' R) as [(d & u & hs' & [= -> ->] & M2)|(ic' & hs' & [= -> <-] & M2)].
    + eexists. split; [reflexivity|]. split; [exact M2|]. intros _. cbn [c_fr].
      destruct (matched_hnat _ _ _ _ M2) as (g & r' & -> & K & _). eauto.
    + eexists. split; [reflexivity|]. split; [exact M2|cbn; congruence].
  - destruct C as (C & HO & HB). destruct (RUN C) as (ic & hs & f & r & EH & EF & EP & R & -> & M'). cbn [rbind].
    destruct (POP _ _ EF HO) as (w & ops & EO & ->). cbn [rbind fst snd]. apply loop_err_ok; [|discriminate].
    eapply matched_top; [exact M'|reflexivity..].
  - destruct C as (C & HO). destruct (RUN C) as (ic & hs & f & r & EH & EF & EP & R & -> & M'). cbn [rbind].
    destruct (POP _ _ EF HO) as (w & ops & EO & ->). cbn [rbind fst snd]. apply loop_err_ok; [|discriminate].
    eapply matched_top; [exact M'|reflexivity..].
  - destruct (RUN C) as (ic & hs & f & r & EH & EF & EP & R & -> & M'). cbn [rbind]. apply loop_err_ok; [|discriminate].
    rewrite EF. exact M'.
  - destruct C as [C HK]. destruct (INS C) as (f & r & d & u & hs & EF & K & EH & -> & EP). cbn [rbind]. eexists. split; [reflexivity|].
    split; [|cbn; congruence]. cbn [c_fr c_hs]. rewrite EH in M |- *. apply M_loop1; [exact HK|exact M].
  - destruct (INS C) as (f & r & d & u & hs & EF & K & EH & -> & EP). cbn [rbind]. eexists. split; [reflexivity|].
    split; [|cbn; congruence]. cbn [c_fr c_hs]. rewrite EH in M |- *. apply M_nat; try reflexivity. exact M.
  - destruct C as [C HL]. destruct (INS C) as (f & r & d & u & hs & EF & K & EH & -> & EP). cbn [rbind]. apply native_end_ok; eauto.
  - destruct C as [C HL]. destruct (INS C) as (f & r & d & u & hs & EF & K & EH & -> & EP). cbn [rbind]. apply native_end_ok; eauto.
  - destruct C as [HP HL]. destruct (P HP) as (f & r & EF & K). destruct (c_pend s) as [e|]; [|congruence].
    assert (EH : exists d u hs, c_hs s = HNat d u :: hs).
    { rewrite EF in M. destruct (matched_native _ _ _ M K) as [[-> ->]|(h & hs & -> & _)]; eauto. }
    destruct EH as (d & u & hs & EH). rewrite EH. apply native_end_ok; cbn [c_fr c_hs]; [rewrite <- EH; exact M|exact HL|eauto].
  - destruct (P C) as (f & r & EF & K). destruct (c_pend s) as [e|]; [|congruence].
    assert (EH : exists d u hs, c_hs s = HNat d u :: hs).
    { rewrite EF in M. destruct (matched_native _ _ _ M K) as [[-> ->]|(h & hs & -> & _)]; eauto. }
    destruct EH as (d & u & hs & EH). rewrite EH in M |- *. eexists. split; [reflexivity|]. split; [exact M|cbn; congruence].
Qed.
Lemma reach_good s : reach s -> good s.
Proof.
  induction 1 as [|s o s' H IH HC E].
  - split; [apply M_host; reflexivity|cbn; congruence].
  - destruct (step_ok _ _ IH HC) as (s1 & E1 & G). congruence.
Qed.

(* ---- exceptions ---- *)
Lemma covered_ruby f e fr hs : matched (f :: fr) hs -> first_entry (c_pc f) (c_tab f) e -> ruby f.
Proof. intros M FE. inversion M; subst; auto; match goal with T : c_tab f = [] |- _ => rewrite T in FE; inversion FE end. Qed.
Lemma kind_dec f : c_kind f = Nat \/ ruby f.
Proof. unfold ruby. destruct (c_kind f); [right|right|left]; congruence. Qed.
Lemma natives_ruby f r : ruby f -> natives (f :: r) = natives r.
Proof. unfold ruby. cbn. destruct (c_kind f); congruence. Qed.
Lemma natives_nat f r : c_kind f = Nat -> natives (f :: r) = S (natives r).
Proof. cbn. intros ->. reflexivity. Qed.

(* one frame up *)
Lemma exc_ruby w u s g rest : matched (c_fr s) (c_hs s) -> c_fr s = g :: rest -> ruby g -> uncovered g ->
  exists hs', matched rest hs' /\ dispatch (inr (Exc w)) u s = dispatch (inr (Exc w)) u (mkcst rest hs' (c_val s) None).
Proof.
  intros M EF R U. rewrite EF in M. unfold dispatch at 1.
  destruct (matched_ruby _ _ _ M R) as [(d & u' & hs & -> & M')|(ic & hs & -> & M')]; (eexists; split; [exact M'|]); cbn [loop_err]; rewrite EF; cbn [handle_exc];
    rewrite (proj2 (find_none _ _) U); reflexivity.
Qed.
Lemma exc_nat w u s g h rest : matched (c_fr s) (c_hs s) -> c_fr s = g :: h :: rest -> c_kind g = Nat ->
  exists hs', matched (h :: rest) hs' /\ forall k, (s1 <- dispatch (inr (Exc w)) u s ;; csteps (repeat CPropagate (S k)) s1) =
    (s1 <- dispatch (inr (Exc w)) (c_use g) (mkcst (h :: rest) hs' (c_val s) None) ;; csteps (repeat CPropagate k) s1).
Proof.
  intros M EF K. rewrite EF in M. unfold dispatch at 1.
  destruct (matched_native _ _ _ M K) as [[E _]|(h' & hs & -> & M')]; [discriminate|].
  exists (h' :: hs). split; [exact M'|]. intros k. cbn [rbind]. cbn [repeat csteps]. cbn [cstep c_hs c_pend c_fr c_val].
  rewrite EF. unfold native_end, pop_frame. cbn [c_hs c_fr c_val rbind snd]. rewrite Nat.eqb_refl. cbn [negb]. reflexivity.
Qed.
Lemma exc_up w : forall above u s f e below, matched (c_fr s) (c_hs s) -> c_fr s = above ++ f :: below -> Forall uncovered above ->
  first_entry (c_pc f) (c_tab f) e ->
  exists s', (s1 <- dispatch (inr (Exc w)) u s ;; csteps (repeat CPropagate (natives above)) s1) = Ok s' /\
    c_fr s' = rescued f e w :: below /\ c_pend s' = None /\ good s'.
Proof.
  induction above as [|g above IH]; intros u s f e below M EF FU FE.
  - cbn [app] in EF. rewrite EF in M. pose proof (covered_ruby _ _ _ _ M FE) as R.
    assert (EX : exists ic hs, c_hs s = HLoop ic :: hs).
    { destruct (matched_ruby _ _ _ M R) as [(d & u' & hs & -> & _)|(ic & hs & -> & _)]; eauto. }
    destruct EX as (ic & hs & EH). unfold dispatch. rewrite EH. cbn [loop_err natives repeat]. rewrite EF.
    assert (EQ : handle_exc ic w (f :: below) = Ok (Some ic, rescued f e w :: below)).
    { destruct ic; cbn [handle_exc]; rewrite (proj2 (find_first _ _ _) FE); reflexivity. }
    rewrite EQ. cbn [rbind csteps]. eexists. split; [reflexivity|]. split; [reflexivity|]. split; [reflexivity|].
    split; [|cbn; congruence]. cbn [c_fr c_hs]. rewrite EH in M. eapply matched_top; [exact M|reflexivity..].
  - cbn [app] in EF. inversion FU as [|? ? U1 U2]; subst. destruct (kind_dec g) as [K|R].
    + rewrite natives_nat by exact K.
      assert (NE : exists h rest, above ++ f :: below = h :: rest) by (destruct above; cbn; eauto). destruct NE as (h & rest & ER). rewrite ER in EF.
      destruct (exc_nat w u s g h rest M EF K) as (hs' & M' & EQ). rewrite EQ.
      apply IH with (e := e); cbn [c_fr c_hs]; auto.
    + rewrite natives_ruby by exact R. destruct (exc_ruby w u s g _ M EF R U1) as (hs' & M' & EQ). rewrite EQ.
      apply IH with (e := e); cbn [c_fr c_hs]; auto.
Qed.
Lemma exc_out w : forall above u s host, matched (c_fr s) (c_hs s) -> c_fr s = above ++ [host] -> Forall uncovered above -> c_kind host = Nat ->
  exists s', (s1 <- dispatch (inr (Exc w)) u s ;; csteps (repeat CPropagate (natives above)) s1) = Ok s' /\
    c_fr s' = [host] /\ c_pend s' = Some (Exc w).
Proof.
  induction above as [|g above IH]; intros u s host M EF FU KH.
  - cbn [app] in EF. rewrite EF in M. unfold dispatch.
    destruct (matched_native _ _ _ M KH) as [[_ ->]|(h & hs & -> & M')]; [|destruct (matched_ne _ _ M'); congruence].
    cbn. eauto.
  - cbn [app] in EF. inversion FU as [|? ? U1 U2]; subst. destruct (kind_dec g) as [K|R].
    + rewrite natives_nat by exact K.
      assert (NE : exists h rest, above ++ [host] = h :: rest) by (destruct above; cbn; eauto). destruct NE as (h & rest & ER). rewrite ER in EF.
      destruct (exc_nat w u s g h rest M EF K) as (hs' & M' & EQ). rewrite EQ. apply IH; cbn [c_fr c_hs]; auto.
    + rewrite natives_ruby by exact R. destruct (exc_ruby w u s g _ M EF R U1) as (hs' & M' & EQ). rewrite EQ. apply IH; cbn [c_fr c_hs]; auto.
Qed.
(* a failing instruction is like an error of a builtin function *)
Lemma raise_dispatch w s : good s -> running s -> cstep (CRaise w) s = dispatch (inr (Exc w)) true s.
Proof.
  intros [M _] [HP HF]. destruct (c_fr s) as [|f r] eqn:EF; [contradiction|]. cbn [cstep]. unfold in_loop, dispatch. rewrite HP, EF.
  destruct (matched_ruby _ _ _ M HF) as [(d & u & hs & -> & _)|(ic & hs & -> & _)]; reflexivity.
Qed.

(* ---- return from blocks ---- *)
Lemma mret_last s m caller below u : matched (m :: caller :: below) (c_hs s) -> c_fr s = m :: caller :: below ->
  c_kind m = Meth -> (ruby caller -> c_use m = true) ->
  exists s', dispatch (inr MethodReturn) u s = Ok s' /\ c_pend s' = None /\ c_fr s' = given m (c_val s) caller :: below.
Proof.
  intros M EF K HU. assert (R : ruby m) by (unfold ruby; congruence).
  unfold dispatch. destruct (matched_ruby _ _ _ M R) as [(d & u' & hs & -> & M')|(ic & hs & -> & M')];
    unfold pop_frame; rewrite EF; cbn [rbind]; unfold is_meth; rewrite K; cbn [rbind].
  - eexists. split; [reflexivity|]. split; [reflexivity|]. cbn [c_fr]. unfold given.
    destruct (matched_hnat _ _ _ _ M') as (g & r & [= <- <-] & Kg & _). rewrite Kg. reflexivity.
  - destruct (matched_loop _ _ _ M') as (g & r & [= <- <-] & Rg). cbn [push_top rbind]. eexists. split; [reflexivity|]. split; [reflexivity|].
    cbn [c_fr]. unfold given, with_ops. rewrite (HU Rg). unfold ruby in Rg. destruct (c_kind caller); [reflexivity|reflexivity|congruence].
Qed.
Lemma mret_step s b n g below : matched (b :: n :: g :: below) (c_hs s) -> c_fr s = b :: n :: g :: below -> c_kind b = Blk -> c_kind n = Nat ->
  exists hs, matched (g :: below) hs /\ forall u k, (s1 <- dispatch (inr MethodReturn) u s ;; csteps (repeat CPropagate (S k)) s1) =
    (s1 <- dispatch (inr MethodReturn) (c_use n) (mkcst (g :: below) hs (c_val s) None) ;; csteps (repeat CPropagate k) s1).
Proof.
  intros M EF Kb Kn. assert (R : ruby b) by (unfold ruby; congruence).
  destruct (matched_ruby _ _ _ M R) as [(d & u & hs & EH & M')|(ic & hs & _ & M')].
  2:{ destruct (matched_loop _ _ _ M') as (x & y & [= <- <-] & Rn). contradiction. }
  destruct (matched_native _ _ _ M' Kn) as [[E _]|(h & hs' & E & M2)]; [discriminate|]. injection E as -> -> ->.
  exists (h :: hs'). split; [exact M2|]. intros u k. unfold dispatch at 1. rewrite EH. unfold pop_frame. rewrite EF. cbn [rbind].
  unfold is_meth. rewrite Kb. cbn [loop_err]. rewrite EF. cbn [handle_mreturn rbind]. cbn [repeat csteps]. cbn [cstep c_hs c_pend c_fr c_val].
  unfold native_end, pop_frame. cbn [c_hs c_fr c_val rbind snd]. rewrite Nat.eqb_refl. cbn [negb]. reflexivity.
Qed.
Lemma mret_up fr m below0 : direct fr m below0 -> forall s u caller below, below0 = caller :: below ->
  matched fr (c_hs s) -> c_fr s = fr -> (ruby caller -> c_use m = true) ->
  exists k s', (s1 <- dispatch (inr MethodReturn) u s ;; csteps (repeat CPropagate k) s1) = Ok s' /\ c_pend s' = None /\
    c_fr s' = given m (c_val s) caller :: below.
Proof.
  induction 1 as [b n m below0 Kb Kn Hb Km|b n g below0 m below' Kb Kn Hb Kg D IH]; intros s u caller below EB M EF HU.
  - subst below0. destruct (mret_step s b n m (caller :: below) M EF Kb Kn) as (hs & M' & EQ). exists 1%nat. rewrite EQ.
    destruct (mret_last (mkcst (m :: caller :: below) hs (c_val s) None) m caller below (c_use n) M' eq_refl Km HU) as (s' & -> & P).
    cbn. exists s'. auto.
  - destruct (mret_step s b n g below0 M EF Kb Kn) as (hs & M' & EQ).
    destruct (IH (mkcst (g :: below0) hs (c_val s) None) (c_use n) caller below EB M' eq_refl HU) as (k & s' & E1 & P).
    exists (S k), s'. rewrite EQ. split; [exact E1|exact P].
Qed.
Lemma mreturn_dispatch s f r w ops : good s -> running s -> c_fr s = f :: r -> c_kind f = Blk -> c_ops f = w :: ops ->
  cstep CMReturn s = dispatch (inr MethodReturn) true (mkcst (with_ops f ops :: r) (c_hs s) w None).
Proof.
  intros [M _] [HP HF] EF K EO. rewrite EF in *. cbn [cstep]. unfold in_loop, dispatch. rewrite HP, EF. cbn [c_hs].
  destruct (matched_ruby _ _ _ M HF) as [(d & u & hs & -> & _)|(ic & hs & -> & _)]; cbn [rbind]; unfold pop_op; rewrite EO; cbn [rbind fst snd];
    unfold pop_frame, is_meth, with_ops; cbn [c_fr c_kind rbind]; rewrite K; reflexivity.
Qed.
