(* Frames: calls. *)
From Verif Require Import Base ModelValue ModelArray ModelFrame SpecFrame ProofsFrame ProofsFrame2 ProofsFrame3 ProofsFrame4 ProofsFrame5 ProofsFrame6 ProofsFrame7 ProofsFrame8 ProofsFrame9.

(* ---- what the three ways of pushing a frame write ---- *)
Lemma push_lt w s : sp s < stack_bottom s + 8192 ->
  push w s = Ok (set_sp (sp s + 1) (set_mem (fun m => upd m (sp s) w) s)).
Proof. intros H. unfold push, VM_STACK_SIZE. destruct (Z.eqb_spec (sp s - stack_bottom s) 8192); [lia|reflexivity]. Qed.
Lemma extend_lt ws s : sp s + Z.of_nat (length ws) <= stack_bottom s + 8192 ->
  extend_from_slice ws s = Ok (set_sp (sp s + zlen ws) (set_mem (fun m => write m (sp s) ws) s)).
Proof. intros H. unfold extend_from_slice, VM_STACK_SIZE, zlen. destruct (Z.leb_spec (sp s + Z.of_nat (length ws)) (stack_bottom s + 8192)); [reflexivity|lia]. Qed.

Ltac fields := cbn [mem stack_bottom hp sp cfp lfp iseq pc set_mem set_sp set_cfp set_lfp set_code set_hp].

Lemma exec_method uv i n blk s1 mp self : sp s1 + 9 <= stack_bottom s1 + 8192 ->
  mem s1 (sp s1 - n - 1) = self -> save_next_pc s1 = set_mem (fun _ => mp) s1 ->
  exists s', push_method_frame uv i n blk s1 = Ok s' /\
    mem s' = write (upd mp (sp s1) self) (sp s1 + 1)
      [enc (cfp s1); enc (sp s1 + 1); ruby_flag uv n; enc (sp s1 + 1); enc_opt None; fixword 0; iseq_word i; blk_word blk] /\
    stack_bottom s' = stack_bottom s1 /\ hp s' = hp s1 /\ sp s' = sp s1 + 9 /\ cfp s' = sp s1 + 1 /\
    lfp s' = sp s1 - n - 1 + 1 /\ iseq s' = i /\ pc s' = 0.
Proof.
  intros Hf Hself Hs. unfold push_method_frame. rewrite Hself, Hs. fields.
  rewrite push_lt by (fields; lia). cbn [rbind]. fields.
  rewrite extend_lt by (fields; cbn; lia). cbn [rbind]. fields.
  rewrite extend_lt by (fields; unfold zlen; cbn [length control_frame method_env_frame]; lia). cbn [rbind]. fields.
  eexists. split; [reflexivity|]. fields. unfold control_frame, method_env_frame, zlen. cbn [length].
  split.
  { match goal with |- _ = write _ _ (?a :: ?b :: ?c :: ?r) => change (a :: b :: c :: r) with ([a; b; c] ++ r) end.
    rewrite write_app. cbn [length]. reflexivity. }
  repeat split; lia.
Qed.
Lemma exec_block uv i n o mf s1 mp self : sp s1 + 9 <= stack_bottom s1 + 8192 ->
  mem s1 (sp s1 - n - 1) = self -> save_next_pc s1 = set_mem (fun _ => mp) s1 ->
  mfp (upd mp (sp s1) self) o = Ok mf ->
  exists s', push_block_frame (sp s1 - n - 1) uv (Some o) i n (sp s1 - n) s1 = Ok s' /\
    mem s' = write (upd mp (sp s1) self) (sp s1 + 1)
      [enc (cfp s1); enc (sp s1 + 1); ruby_flag uv n; enc mf; enc o; fixword 0; iseq_word i; fixword 0] /\
    stack_bottom s' = stack_bottom s1 /\ hp s' = hp s1 /\ sp s' = sp s1 + 9 /\ cfp s' = sp s1 + 1 /\
    lfp s' = sp s1 - n /\ iseq s' = i /\ pc s' = 0.
Proof.
  intros Hf Hself Hs Hmf. unfold push_block_frame. rewrite Hself, Hs. fields.
  rewrite push_lt by (fields; lia). cbn [rbind]. fields. rewrite Hmf. cbn [rbind].
  rewrite extend_lt by (fields; cbn; lia). cbn [rbind]. fields.
  rewrite extend_lt by (fields; unfold zlen; cbn [length control_frame block_env_frame]; lia). cbn [rbind]. fields.
  eexists. split; [reflexivity|]. fields. unfold control_frame, block_env_frame, zlen. cbn [length enc_opt].
  split.
  { match goal with |- _ = write _ _ (?a :: ?b :: ?c :: ?r) => change (a :: b :: c :: r) with ([a; b; c] ++ r) end.
    rewrite write_app. cbn [length]. reflexivity. }
  repeat split; lia.
Qed.
Lemma exec_native_push n s1 mp self : sp s1 + 4 <= stack_bottom s1 + 8192 ->
  mp (sp s1 - n - 1) = self -> save_next_pc s1 = set_mem (fun _ => mp) s1 ->
  exists s', push_native_frame n (save_next_pc s1) = Ok s' /\
    mem s' = write (upd mp (sp s1) self) (sp s1 + 1) [enc (cfp s1); enc (sp s1 + 1); native_flag n] /\
    stack_bottom s' = stack_bottom s1 /\ hp s' = hp s1 /\ sp s' = sp s1 + 4 /\ cfp s' = sp s1 + 1 /\
    lfp s' = sp s1 - n - 1 + 1.
Proof.
  intros Hf Hself Hs. rewrite Hs. unfold push_native_frame. fields. rewrite Hself.
  rewrite push_lt by (fields; lia). cbn [rbind]. fields.
  rewrite extend_lt by (fields; cbn; lia). eexists. split; [reflexivity|]. fields. unfold control_frame, zlen. cbn [length].
  repeat split; lia.
Qed.

(* the operands of a call *)
Lemma args_of {T} (vs : list T) i w post : nth_error vs i = Some w -> nth_error (rev vs ++ post) (length vs - 1 - i) = Some w.
Proof.
  intros H. pose proof (nth_some_lt _ _ _ H). rewrite nth_error_app1 by (rewrite rev_length; lia).
  rewrite <- (rev_involutive vs) in H. 
  assert (R : forall (l : list T) k, (k < length l)%nat -> nth_error (rev l) k = nth_error l (length l - 1 - k)).
  { clear. induction l as [|x l IH]; intros k Hk; [cbn in Hk; lia|]. cbn [rev length] in *.
    destruct (Nat.eq_dec k (length l)) as [->|N].
    - rewrite nth_error_app2 by (rewrite rev_length; lia). rewrite rev_length, Nat.sub_diag.
      replace (S (length l) - 1 - length l)%nat with O by lia. reflexivity.
    - rewrite nth_error_app1 by (rewrite rev_length; lia). rewrite IH by lia.
      replace (S (length l) - 1 - k)%nat with (S (length l - 1 - k)) by lia. reflexivity. }
  rewrite (R (rev vs)) in H by (rewrite rev_length; lia). rewrite rev_length in H. exact H.
Qed.

Section Calls.
Variables (s : vm) (l : list act) (f : frame) (fs : list frame) (A L : nat -> Z) (K : nat -> Prop) (hp0 : Z) (xf : act).
Hypothesis OK : vmok s l (f :: fs) A L K hp0.
Hypothesis Hxf : nth_error l (f_act f) = Some xf.
Let ST := vo_static _ _ _ _ _ _ _ OK.
Let MO := vo_mem _ _ _ _ _ _ _ OK.
Lemma cfp_top : cfp s = A (f_act f).
Proof. apply (vo_cfp _ _ _ _ _ _ _ OK f eq_refl). Qed.
Lemma total_new x r : total (l ++ [x]) (mkframe (length l) [] 0 :: top_ops f r :: fs) =
  nv x + 2 + hd_len x + (total l (f :: fs) - nops f + Z.of_nat (length r)).
Proof.
  assert (T : forall gs tp, lay l A (stack_bottom s) gs tp -> total (l ++ [x]) gs = total l gs).
  { induction gs as [|g gs IH]; intros tp H; cbn in *; [reflexivity|]. destruct H as (y & Hy & _ & H).
    rewrite (IH _ H). unfold frame_size. rewrite (nth_app_some _ _ _ _ Hy), Hy. reflexivity. }
  pose proof (st_lay _ _ _ _ _ _ _ _ _ ST) as La. destruct La as (y & Hy & _ & La). assert (y = xf) by congruence. subst y.
  cbn [total]. rewrite (T _ _ La). unfold frame_size. cbn [f_act f_ops top_ops length]. rewrite nth_app_new, (nth_app_some _ _ _ _ Hxf), Hxf.
  unfold nv, hd_len, nops. lia.
Qed.

Lemma call_ok uv i vs self r blk (x := mkact true uv self vs None i (match blk with Some m => Some (m, f_act f) | None => None end)) :
  code_ok i -> f_ops f = rev vs ++ self :: r ->
  match blk with Some m => 0 < m < 2 ^ 30 /\ is_code l (f_act f) | None => True end ->
  total (l ++ [x]) (mkframe (length l) [] 0 :: top_ops f r :: fs) <= 8192 ->
  exists s' c, push_method_frame uv i (Z.of_nat (length vs)) (match blk with Some m => Some (KBlock m (cur_frame s)) | None => None end) s = Ok s' /\
    vmok s' (l ++ [x]) (mkframe (length l) [] 0 :: top_ops f r :: fs) (ext_at A (length l) c) (ext_at L (length l) c) K hp0 /\
    stack_bottom s' = stack_bottom s /\ hp s' = hp s.
Proof.
  intros Hi Hops Hb HF. rewrite total_new in HF. change (nv x) with (Z.of_nat (length vs)) in HF. change (hd_len x) with 8 in HF.
  destruct (top_act s l f fs A L K hp0 OK) as (y & Hy & Es & Eb & Et). assert (y = xf) by congruence. subst y.
  assert (NO : nops f = Z.of_nat (length vs) + 1 + Z.of_nat (length r)).
  { unfold nops. rewrite Hops, app_length, rev_length. cbn [length]. lia. }
  set (base := A (f_act f) + hd_len xf + Z.of_nat (length r)).
  assert (Esp : sp s = base + Z.of_nat (length vs) + 1) by (unfold base; lia).
  assert (Hself : mem s base = self).
  { rewrite <- (look_op OK f xf (length vs) self eq_refl Hxf).
    - f_equal. lia.
    - rewrite Hops, nth_error_app2 by (rewrite rev_length; lia). rewrite rev_length, Nat.sub_diag. reflexivity. }
  assert (Hvars : forall j w, nth_error vs j = Some w -> mem s (base + 1 + Z.of_nat j) = w).
  { intros j w Hj. pose proof (nth_some_lt _ _ _ Hj). rewrite <- (look_op OK f xf (length vs - 1 - j) w eq_refl Hxf).
    - f_equal. lia.
    - rewrite Hops. apply args_of. exact Hj. }
  destruct (save_pc_mem s l f fs A L K hp0 xf OK Hxf s) as (mp & ES & Emp); auto.
  { rewrite cfp_top. apply (ruby_live MO O f xf eq_refl Hxf). }
  destruct (exec_method uv i (Z.of_nat (length vs)) (match blk with Some m => Some (KBlock m (cur_frame s)) | None => None end) s mp self)
    as (s' & E & Em & E1 & E2 & E3 & E4 & E5 & E6 & E7).
  { lia. }
  { rewrite <- Hself. f_equal. lia. }
  { exact ES. }
  exists s', (base + nv x + 2). split; [exact E|]. split; [|split; [exact E1|exact E2]].
  change (nv x) with (Z.of_nat (length vs)).
  replace (sp s) with (base + nv x + 1) in * by (change (nv x) with (Z.of_nat (length vs)); lia).
  change (nv x) with (Z.of_nat (length vs)) in *.
  replace (base + Z.of_nat (length vs) + 1 + 1) with (base + Z.of_nat (length vs) + 2) in * by lia.
  eapply (enter_ok s s s' l f fs A L K hp0 xf x (rev vs ++ [self]) r); eauto; fold base; change (nv x) with (Z.of_nat (length vs)); change (hd_len x) with 8.
  - rewrite Hops, <- app_assoc. reflexivity.
  - unfold base. lia.
  - intros p Hp. discriminate.
  - intros t b. cbn [a_blk x]. destruct blk as [m|]; [|discriminate]. intros [= <- <-]. exact Hb.
  - rewrite <- Emp. exact Em.
  - lia.
  - lia.
  - rewrite cfp_top. reflexivity.
  - reflexivity.
  - cbn. reflexivity.
  - cbn. reflexivity.
  - intros p rt H. discriminate.
  - cbn. reflexivity.
  - cbn. reflexivity.
  - intros _. cbn [nth_error a_blk x]. do 2 f_equal. destruct blk as [m|]; [|reflexivity].
    unfold cur_frame. rewrite cfp_top. do 2 f_equal. unfold u32. pose proof (st_A _ _ _ _ _ _ _ _ _ ST _ (nth_some_lt _ _ _ Hxf)).
    apply Z.mod_small. lia.
  - reflexivity.
Qed.

Lemma native_ok vs self r (x := mkact false true self vs None 0 None) :
  f_ops f = rev vs ++ self :: r ->
  total (l ++ [x]) (mkframe (length l) [] 0 :: top_ops f r :: fs) <= 8192 ->
  exists s' c, push_native_frame (Z.of_nat (length vs)) (save_next_pc s) = Ok s' /\
    vmok s' (l ++ [x]) (mkframe (length l) [] 0 :: top_ops f r :: fs) (ext_at A (length l) c) (ext_at L (length l) c) K hp0 /\
    stack_bottom s' = stack_bottom s /\ hp s' = hp s.
Proof.
  intros Hops HF. rewrite total_new in HF. change (nv x) with (Z.of_nat (length vs)) in HF. change (hd_len x) with 3 in HF.
  destruct (top_act s l f fs A L K hp0 OK) as (y & Hy & Es & Eb & Et). assert (y = xf) by congruence. subst y.
  assert (NO : nops f = Z.of_nat (length vs) + 1 + Z.of_nat (length r)).
  { unfold nops. rewrite Hops, app_length, rev_length. cbn [length]. lia. }
  set (base := A (f_act f) + hd_len xf + Z.of_nat (length r)).
  assert (Esp : sp s = base + Z.of_nat (length vs) + 1) by (unfold base; lia).
  assert (Hself : mem s base = self).
  { rewrite <- (look_op OK f xf (length vs) self eq_refl Hxf).
    - f_equal. lia.
    - rewrite Hops, nth_error_app2 by (rewrite rev_length; lia). rewrite rev_length, Nat.sub_diag. reflexivity. }
  assert (Hvars : forall j w, nth_error vs j = Some w -> mem s (base + 1 + Z.of_nat j) = w).
  { intros j w Hj. pose proof (nth_some_lt _ _ _ Hj). rewrite <- (look_op OK f xf (length vs - 1 - j) w eq_refl Hxf).
    - f_equal. lia.
    - rewrite Hops. apply args_of. exact Hj. }
  destruct (save_pc_mem s l f fs A L K hp0 xf OK Hxf s) as (mp & ES & Emp); auto.
  { rewrite cfp_top. apply (ruby_live MO O f xf eq_refl Hxf). }
  destruct (exec_native_push (Z.of_nat (length vs)) s mp self) as (s' & E & Em & E1 & E2 & E3 & E4 & E5).
  { lia. }
  { rewrite <- Hself. replace (sp s - Z.of_nat (length vs) - 1) with base by lia. rewrite Emp.
    destruct (a_ruby xf) eqn:R; [|reflexivity]. apply upd_other. unfold base, hd_len, EV_PC. rewrite R. lia. }
  { exact ES. }
  exists s', (base + nv x + 2). split; [exact E|]. split; [|split; [exact E1|exact E2]].
  change (nv x) with (Z.of_nat (length vs)).
  replace (sp s) with (base + nv x + 1) in * by (change (nv x) with (Z.of_nat (length vs)); lia).
  change (nv x) with (Z.of_nat (length vs)) in *.
  replace (base + Z.of_nat (length vs) + 1 + 1) with (base + Z.of_nat (length vs) + 2) in * by lia.
  eapply (enter_ok s s s' l f fs A L K hp0 xf x (rev vs ++ [self]) r); eauto; fold base; change (nv x) with (Z.of_nat (length vs)); change (hd_len x) with 3; try discriminate.
  - rewrite Hops, <- app_assoc. reflexivity.
  - unfold base. lia.
  - rewrite <- Emp. exact Em.
  - lia.
  - lia.
  - rewrite cfp_top. reflexivity.
  - reflexivity.
  - cbn. reflexivity.
  - cbn. reflexivity.
Qed.

(* a block is entered with its receiver put below the arguments *)
Lemma block_ok i vs self r b (x := mkact true true self vs (Some b) i None) :
  code_ok i -> f_ops f = rev vs ++ r -> is_code l b -> K b \/ livef (f :: fs) b ->
  total (l ++ [x]) (mkframe (length l) [] 0 :: top_ops f r :: fs) <= 8192 ->
  exists s1 s' c, insert (sp s - Z.of_nat (length vs)) self s = Ok s1 /\
    invoke_block true i (Z.of_nat (length vs)) (L b) s1 = Ok s' /\
    vmok s' (l ++ [x]) (mkframe (length l) [] 0 :: top_ops f r :: fs) (ext_at A (length l) c) (ext_at L (length l) c) K hp0 /\
    stack_bottom s' = stack_bottom s /\ hp s' = hp s.
Proof.
  intros Hi Hops Cb Pb HF. rewrite total_new in HF. change (nv x) with (Z.of_nat (length vs)) in HF. change (hd_len x) with 8 in HF.
  destruct (top_act s l f fs A L K hp0 OK) as (y & Hy & Es & Eb & Et). assert (y = xf) by congruence. subst y.
  assert (NO : nops f = Z.of_nat (length vs) + Z.of_nat (length r)).
  { unfold nops. rewrite Hops, app_length, rev_length. lia. }
  set (base := A (f_act f) + hd_len xf + Z.of_nat (length r)).
  assert (Esp : sp s = base + Z.of_nat (length vs)) by (unfold base; lia).
  assert (Pb' : present (f :: fs) K b) by (destruct Pb; [right|left]; assumption).
  pose proof (st_bot _ _ _ _ _ _ _ _ _ ST) as SB. pose proof (st_fit _ _ _ _ _ _ _ _ _ ST) as SF.
  assert (Hvars : forall j w, nth_error vs j = Some w -> mem s (base + Z.of_nat j) = w).
  { intros j w Hj. pose proof (nth_some_lt _ _ _ Hj). rewrite <- (look_op OK f xf (length vs - 1 - j) w eq_refl Hxf).
    - f_equal. lia.
    - rewrite Hops. apply args_of. exact Hj. }
  unfold insert, VM_STACK_SIZE. destruct (Z.leb_spec (sp s + 1) (stack_bottom s + 8192)); [|lia].
  replace (sp s - Z.of_nat (length vs)) with base by lia. replace (sp s - base) with (Z.of_nat (length vs)) by lia. rewrite Nat2Z.id.
  set (m1 := write (mem s) base (self :: read (mem s) base (length vs))).
  assert (M1o : forall p, p < base \/ base + Z.of_nat (length vs) + 1 <= p -> m1 p = mem s p).
  { intros p Hp. apply write_out. cbn [length]. rewrite read_length. lia. }
  assert (M1s : m1 base = self).
  { pose proof (write_in (self :: read (mem s) base (length vs)) (mem s) base O self eq_refl) as W.
    cbn [Z.of_nat] in W. rewrite Z.add_0_r in W. exact W. }
  assert (M1v : forall j w, nth_error vs j = Some w -> m1 (base + 1 + Z.of_nat j) = w).
  { intros j w Hj. pose proof (nth_some_lt _ _ _ Hj). replace (base + 1 + Z.of_nat j) with (base + Z.of_nat (S j)) by lia.
    apply write_in. cbn [nth_error]. rewrite read_nth by lia. f_equal. auto. }
  set (s1 := set_sp (sp s + 1) (set_mem (fun m => write m base (self :: read m base (length vs))) s)).
  assert (ms1 : mem s1 = m1) by reflexivity. 
  assert (HLf : 3 <= hd_len xf) by (unfold hd_len; destruct (a_ruby xf); lia).
  assert (Nvf : 0 <= nv xf) by (unfold nv; lia).
  (* the environment of the block is elsewhere *)
  destruct Cb as (z & Hz & Rz). assert (HDz : hd_len z = 8) by (unfold hd_len; rewrite Rz; reflexivity).
  assert (Nvz : 0 <= nv z) by (unfold nv; lia).
  assert (PLACE : forall p, L b <= p < L b + 8 -> p < base \/ hp0 <= p < hp s).
  { intros p Hp. destruct (env_place ST _ _ Pb' Hz) as [(Kb & X1 & X2)|(Kb & X0 & X1 & X2)]; [lia|].
    rewrite X0 in Hp. destruct Pb' as [(k & g & Hg & <-)|]; [|contradiction]. destruct k as [|k]; cbn in Hg.
    - injection Hg as <-. assert (z = xf) by congruence. subst z. unfold base. lia.
    - destruct (lay_order _ _ _ _ _ O (S k) f g xf (st_lay _ _ _ _ _ _ _ _ _ ST) ltac:(lia) eq_refl Hg Hxf) as (z' & Hz' & Hb).
      assert (z' = z) by congruence. subst z'. unfold nops, base in *. lia. }
  destruct (save_pc_mem s l f fs A L K hp0 xf OK Hxf s1) as (mp & ES & Emp); auto.
  { change (cfp s1) with (cfp s). rewrite cfp_top, ms1. rewrite <- (ruby_live MO O f xf eq_refl Hxf). unfold is_ruby, EV_FLAG.
    rewrite M1o; [reflexivity|]. left. unfold base. lia. }
  rewrite ms1 in Emp.
  destruct (root_exists ST _ Pb') as (rt & Mrt).
  assert (EMF : mfp (upd mp (sp s1) self) (L b) = Ok (L rt)).
  { rewrite <- (mfp_env ST MO b z rt Pb' (fun X => X) Hz Rz Mrt).
    assert (Q : forall j, 0 <= j < 8 -> j <> 5 -> upd mp (sp s1) self (L b + j) = mem s (L b + j)).
    { intros j Hj N5. change (sp s1) with (sp s + 1). pose proof (PLACE (L b + j) ltac:(lia)).
      rewrite upd_other by lia. rewrite Emp. destruct (a_ruby xf) eqn:Rf; [|apply M1o; lia].
      rewrite upd_other; [apply M1o; lia|]. unfold EV_PC. intros EQ.
      destruct (Nat.eq_dec b (f_act f)) as [->|NE].
      + destruct (env_place ST _ _ Pb' Hz) as [(Kb & X1 & X2)|(Kb & X0 & X1 & X2)]; [|lia].
        assert (z = xf) by congruence. subst z. lia.
      + destruct (env_frame_apart _ _ _ _ _ _ _ _ _ b O f z xf ST Pb' eq_refl Hz Hxf (L b + j)); try lia. }
    unfold mfp, is_ruby, EV_FLAG, EV_MFP. rewrite !Q by lia. reflexivity. }
  assert (EPb : ep (mem s1) (L b) = Ok (L b)).
  { rewrite ms1. rewrite <- (ep_env ST MO _ Pb'). unfold ep, EV_EP. rewrite M1o; [reflexivity|]. pose proof (PLACE (L b + 1) ltac:(lia)). lia. }
  assert (sp1 : sp s1 = base + Z.of_nat (length vs) + 1) by (change (sp s1) with (sp s + 1); lia).
  destruct (exec_block true i (Z.of_nat (length vs)) (L b) (L rt) s1 mp self) as (s' & E & Em & E1 & E2 & E3 & E4 & E5 & E6 & E7).
  { change (stack_bottom s1) with (stack_bottom s). lia. }
  { rewrite ms1, sp1. replace (base + Z.of_nat (length vs) + 1 - Z.of_nat (length vs) - 1) with base by lia. exact M1s. }
  { exact ES. }
  { exact EMF. }
  exists s1, s', (base + nv x + 2). split; [reflexivity|]. split.
  { unfold invoke_block. rewrite EPb. cbn [rbind]. exact E. }
  change (stack_bottom s1) with (stack_bottom s) in E1. change (hp s1) with (hp s) in E2.
  split; [|split; [exact E1|exact E2]].
  rewrite sp1 in *. change (nv x) with (Z.of_nat (length vs)).
  replace (base + Z.of_nat (length vs) + 1 + 1) with (base + Z.of_nat (length vs) + 2) in * by lia.
  eapply (enter_ok s s1 s' l f fs A L K hp0 xf x (rev vs) r); eauto; fold base; change (nv x) with (Z.of_nat (length vs)); change (hd_len x) with 8.
  - unfold base. lia.
  - intros p [= <-]. split; [exists z; auto|]. split; [reflexivity|exact Pb].
  - intros t b'. discriminate.
  - rewrite ms1. intros p Hp. apply M1o. lia.
  - rewrite ms1, <- Emp. exact Em.
  - lia.
  - lia.
  - cbn [nth_error]. change (cfp s1) with (cfp s). rewrite cfp_top. reflexivity.
  - reflexivity.
  - reflexivity.
  - discriminate.
  - intros p rt' [= <-] M'. cbn [nth_error]. do 2 f_equal. f_equal. eapply root_unique; eauto.
  - reflexivity.
  - reflexivity.
  - reflexivity.
  - reflexivity.
Qed.
End Calls.
