(** Lemmas about the bytecode encoding. *)
From Coq Require Import ZArith List Bool Lia.
From Verif Require Import Base ModelInst.
Import ListNotations.
Open Scope Z_scope.
Ltac Zify.zify_post_hook ::= Z.div_mod_to_equations.

Lemma le_length n v : length (le n v) = n.
Proof. revert v; induction n; intros v; cbn; auto. Qed.

Lemma le_bytes n v : Forall (fun b => 0 <= b < 256) (le n v).
Proof.
  revert v; induction n; intros v; cbn; constructor; auto.
  pose proof (Z.mod_pos_bound v 256); lia.
Qed.

Lemma read_le_ok n : forall v rest,
  read_le n (le n v ++ rest) = Some (v mod 256 ^ Z.of_nat n, rest).
Proof.
  induction n; intros v rest.
  - cbn. rewrite Z.mod_1_r; reflexivity.
  - cbn [le read_le app]. rewrite IHn. f_equal. f_equal.
    rewrite Nat2Z.inj_succ, Z.pow_succ_r by lia.
    rewrite Z.rem_mul_r by (try apply Z.pow_nonzero; lia). reflexivity.
Qed.

Lemma read_le_split n : forall l v r,
  Forall (fun b => 0 <= b < 256) l ->
  read_le n l = Some (v, r) ->
  l = le n v ++ r /\ 0 <= v < 256 ^ Z.of_nat n.
Proof.
  induction n; intros l v r F H.
  - cbn in H. injection H as <- <-. cbn. split; [reflexivity|lia].
  - cbn [read_le] in H. destruct l as [|b l]; [discriminate|].
    destruct (read_le n l) as [[v' r']|] eqn:E; [|discriminate].
    remember (b + 256 * v') as w eqn:Ew.
    injection H as <- <-. inversion F as [|? ? Fb Fl]; subst.
    destruct (IHn _ _ _ Fl E) as [-> B].
    rewrite Nat2Z.inj_succ, Z.pow_succ_r by lia.
    set (P := 256 ^ Z.of_nat n) in *.
    cbn [le]. 
    assert (Eb : (b + 256 * v') mod 256 = b).
    { clear -Fb. rewrite Z.mul_comm, Z_mod_plus_full. apply Z.mod_small; lia. }
    assert (Ev : (b + 256 * v') / 256 = v').
    { clear -Fb. rewrite Z.mul_comm, Z_div_plus_full by lia.
      rewrite Z.div_small by lia. lia. }
    rewrite Eb, Ev. split; [reflexivity|]. clearbody P; clear - Fb B. nia.
Qed.

Lemma push32_read v rest : 0 <= v < 2 ^ 32 ->
  read32 (push32 v ++ rest) = Some (v, rest).
Proof.
  intros H. unfold read32, push32. rewrite read_le_ok.
  rewrite Z.mod_small; [reflexivity|]. exact H.
Qed.

Lemma push16_read v rest : 0 <= v < 2 ^ 16 ->
  read16 (push16 v ++ rest) = Some (v, rest).
Proof.
  intros H. unfold read16, push16. rewrite read_le_ok.
  rewrite Z.mod_small; [reflexivity|]. exact H.
Qed.

Lemma push8_read v rest : 0 <= v < 2 ^ 8 ->
  read8 (push8 v ++ rest) = Some (v, rest).
Proof.
  intros H. unfold read8, push8. rewrite read_le_ok.
  rewrite Z.mod_small; [reflexivity|]. exact H.
Qed.

Lemma push64_read v rest : 0 <= v < 2 ^ 64 ->
  read64 (push64 v ++ rest) = Some (v, rest).
Proof.
  intros H. unfold read64, push64. rewrite read_le_ok.
  rewrite Z.mod_small; [reflexivity|]. exact H.
Qed.

Lemma to_i32_mod v : - 2 ^ 31 <= v < 2 ^ 31 -> to_i32 (v mod 2 ^ 32) = v.
Proof.
  intros H. unfold to_i32. destruct (Z.ltb_spec (v mod 2 ^ 32) (2 ^ 31)); lia.
Qed.

Lemma to_i32_range v : 0 <= v < 2 ^ 32 -> - 2 ^ 31 <= to_i32 v < 2 ^ 31.
Proof. intros H. unfold to_i32. destruct (Z.ltb_spec v (2 ^ 31)); lia. Qed.

Lemma push_i32_read v rest : - 2 ^ 31 <= v < 2 ^ 31 ->
  read_i32 (push32 v ++ rest) = Some (v, rest).
Proof.
  intros H. unfold read_i32, read32, push32. rewrite read_le_ok.
  change (256 ^ Z.of_nat 4) with (2 ^ 32). rewrite to_i32_mod by lia.
  reflexivity.
Qed.

Definition blk_ok (b : option Z) : Prop :=
  match b with None => True | Some f => 0 < f < 2 ^ 32 end.

Lemma push_method_read b rest : blk_ok b ->
  read_method (push_method b ++ rest) = Some (b, rest).
Proof.
  intros H. unfold read_method. destruct b as [f|]; cbn [blk_ok push_method] in *.
  - rewrite push32_read by lia. destruct (Z.eqb_spec f 0); [lia|reflexivity].
  - rewrite push32_read by lia. reflexivity.
Qed.

Definition u16_ok (v : Z) : Prop := 0 <= v < 2 ^ 16.
Definition u32_ok (v : Z) : Prop := 0 <= v < 2 ^ 32.
Definition u64_ok (v : Z) : Prop := 0 <= v < 2 ^ 64.
Definition i32_ok (v : Z) : Prop := - 2 ^ 31 <= v < 2 ^ 31.

(** Operands in the range of their type. *)
Definition fits (i : inst) : Prop :=
  match i with
  | I0 _ => True
  | I32 _ n => u32_ok n
  | II _ k => i32_ok k
  | IJ _ d => i32_ok d
  | IJI _ k d => i32_ok k /\ i32_ok d
  | IVal w => u64_ok w
  | I2 _ a b => u32_ok a /\ u32_ok b
  | ICase _ t d => u32_ok t /\ i32_ok d
  | ISuper n b _ => u16_ok n /\ blk_ok b
  | IClass _ id f => u32_ok id /\ u32_ok f
  | ISendO _ id n b ic => u32_ok id /\ u16_ok n /\ blk_ok b /\ u32_ok ic
  | ISend id n f b ic =>
      u32_ok id /\ u16_ok n /\ 0 <= f < 256 /\ blk_ok b /\ u32_ok ic
  end.

Ltac each_op :=
  repeat match goal with
         | x : op0 |- _ => destruct x | x : op32 |- _ => destruct x
         | x : opi |- _ => destruct x | x : opj |- _ => destruct x
         | x : cmpop |- _ => destruct x | x : op2 |- _ => destruct x
         | x : opc |- _ => destruct x
         | |- context [ISendO ?u _ _ _ _] => is_var u; destruct u
         end.

Lemma opcode_byte i : 0 <= opcode i < 256.
Proof. destruct i; each_op; vm_compute; intuition congruence. Qed.

Definition shape_of (i : inst) : shape :=
  match i with
  | I0 o => S0 o | I32 o _ => S32 o | II o _ => SI o | IJ o _ => SJ o
  | IJI c _ _ => SJI c | IVal _ => SVal | I2 o _ _ => S2 o
  | ICase o _ _ => SC o | ISuper _ _ _ => SSuper | IClass _ _ _ => SClass
  | ISendO u _ _ _ _ => SSendO u | ISend _ _ _ _ _ => SSend
  end.

Lemma shape_of_ok i : assocZ (opcode i) shapes = Some (shape_of i).
Proof. destruct i; each_op; reflexivity. Qed.

Lemma decode_encode i rest : fits i -> decode (encode i ++ rest) = Some (i, rest).
Proof.
  intros F. unfold decode, encode.
  rewrite <- app_comm_cons.
  assert (E : forall l, read8 (opcode i :: l) = Some (opcode i, l)).
  { intros l. unfold read8. cbn [read_le]. f_equal. f_equal. lia. }
  rewrite E. cbn [obind]. rewrite shape_of_ok. cbn [obind].
  destruct i as [o|o ?|o ?|o ?|o ? ?| |o ? ?|o ? ?|? ? f|m ? ?|u ? ? ? ?|];
    cbn [shape_of fits] in *; unfold u16_ok, u32_ok, u64_ok, i32_ok in F;
    repeat match type of F with
           | _ /\ _ => let G := fresh in destruct F as [G F] end;
    rewrite <- ?app_assoc, ?app_nil_l;
    repeat (first [ rewrite push32_read by (first [assumption|lia])
                  | rewrite push_i32_read by (first [assumption|lia])
                  | rewrite push16_read by assumption
                  | rewrite push64_read by (first [assumption|lia])
                  | rewrite push_method_read by assumption
                  | rewrite push8_read by (first [assumption | destruct f; lia | destruct m; lia]) ];
            cbn [obind]);
    try reflexivity.
  - destruct f; reflexivity.
  - destruct m; reflexivity.
Qed.

Lemma encode_length i : inst_size (opcode i) = Some (Z.of_nat (length (encode i))).
Proof. destruct i; each_op; try reflexivity; destruct blk; reflexivity. Qed.

Lemma encode_bytes i : Forall (fun b => 0 <= b < 256) (encode i).
Proof.
  unfold encode. constructor; [apply opcode_byte|].
  destruct i; unfold push8, push16, push32, push64, push_method;
    try apply Forall_nil; rewrite ?Forall_app; repeat split;
    try apply le_bytes; destruct blk; apply le_bytes.
Qed.

(** ** Sequences *)
Lemma encodes_cons i l : encodes (i :: l) = encode i ++ encodes l.
Proof. reflexivity. Qed.

Lemma encodes_app l1 l2 : encodes (l1 ++ l2) = encodes l1 ++ encodes l2.
Proof. unfold encodes. rewrite map_app, concat_app. reflexivity. Qed.

Lemma encode_nonempty i : encode i <> [].
Proof. unfold encode. discriminate. Qed.

(** ** Displacements *)
Lemma pos_diff_ok s d : i32_ok (d - s) -> pos_diff s d = d - s.
Proof. intros H. unfold pos_diff. apply to_i32_mod. exact H. Qed.

Lemma le_mod n : forall v, le n (v mod 256 ^ Z.of_nat n) = le n v.
Proof.
  induction n; intros v; [reflexivity|].
  rewrite Nat2Z.inj_succ, Z.pow_succ_r by lia.
  rewrite Z.rem_mul_r by (try apply Z.pow_nonzero; lia).
  cbn [le]. rewrite <- (IHn (v / 256)).
  pose proof (Z.mod_pos_bound v 256 ltac:(lia)) as B.
  remember ((v / 256) mod 256 ^ Z.of_nat n) as q eqn:Eq. clear Eq IHn.
  remember (v mod 256) as r eqn:Er. clear Er.
  rewrite Z.mul_comm, Z_mod_plus_full, Z_div_plus_full by lia.
  rewrite Z.mod_small, Z.div_small by lia. reflexivity.
Qed.

Lemma push32_mod v : push32 (v mod 2 ^ 32) = push32 v.
Proof. exact (le_mod 4 v). Qed.

Lemma push32_to_i32 v : 0 <= v < 2 ^ 32 -> push32 (to_i32 v) = push32 v.
Proof.
  intros H. unfold to_i32. destruct (Z.ltb_spec v (2 ^ 31)); [reflexivity|].
  rewrite <- (push32_mod (v - 2 ^ 32)). f_equal. lia.
Qed.

Lemma push32_pos_diff s d : push32 (pos_diff s d) = push32 (d - s).
Proof.
  unfold pos_diff. rewrite push32_to_i32 by lia. apply push32_mod.
Qed.

Lemma patch_mid pre old new post k :
  k = Z.of_nat (length pre) -> length old = length new ->
  patch k new (pre ++ old ++ post) = Some (pre ++ new ++ post).
Proof.
  intros -> E. unfold patch.
  replace ((0 <=? Z.of_nat (length pre)) &&
           (Z.of_nat (length pre) + Z.of_nat (length new)
            <=? Z.of_nat (length (pre ++ old ++ post)))) with true.
  2:{ symmetry. apply andb_true_intro. rewrite !app_length. split; lia. }
  rewrite Nat2Z.id, <- E.
  rewrite firstn_app, firstn_all, Nat.sub_diag. cbn [firstn]. rewrite app_nil_r.
  rewrite (app_assoc pre old post), <- app_length.
  rewrite skipn_app, skipn_all, Nat.sub_diag. reflexivity.
Qed.

Lemma push32_length v : length (push32 v) = 4%nat.
Proof. apply le_length. Qed.

Lemma write_disp_mid pre old post src dest :
  src = Z.of_nat (length pre) + 4 -> length old = 4%nat ->
  write_disp src dest (pre ++ old ++ post)
  = Some (pre ++ push32 (dest - src) ++ post).
Proof.
  intros -> E. unfold write_disp. rewrite push32_pos_diff.
  apply patch_mid; [lia|]. rewrite push32_length. exact E.
Qed.

Lemma read_disp_mid pre d post :
  i32_ok d -> read_disp (Z.of_nat (length pre)) (pre ++ push32 d ++ post) = Some d.
Proof.
  intros H. unfold read_disp.
  destruct (Z.ltb_spec (Z.of_nat (length pre)) 0); [lia|].
  rewrite Nat2Z.id, skipn_app, skipn_all, Nat.sub_diag. cbn [app skipn].
  rewrite push_i32_read by exact H. reflexivity.
Qed.
