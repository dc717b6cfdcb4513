(** C32: bytecode operands decode to what was encoded. *)
From Coq Require Import ZArith List Bool Lia.
From Verif Require Import Base ModelInst ProofsInst.
Import ListNotations.
Open Scope Z_scope.

(** ** Vocabulary *)

(** Operands in the range of their Rust type; a block or function number is
    never 0 (FnId is a NonZeroU32). *)
Definition operands_in_range (i : inst) : Prop :=
  match i with
  | I0 _ => True
  | I32 _ n => 0 <= n < 2 ^ 32
  | II _ k => - 2 ^ 31 <= k < 2 ^ 31
  | IJ _ d => - 2 ^ 31 <= d < 2 ^ 31
  | IJI _ k d => - 2 ^ 31 <= k < 2 ^ 31 /\ - 2 ^ 31 <= d < 2 ^ 31
  | IVal w => 0 <= w < 2 ^ 64
  | I2 _ a b => 0 <= a < 2 ^ 32 /\ 0 <= b < 2 ^ 32
  | ICase _ t d => 0 <= t < 2 ^ 32 /\ - 2 ^ 31 <= d < 2 ^ 31
  | ISuper n b _ => 0 <= n < 2 ^ 16 /\ (forall f, b = Some f -> 0 < f < 2 ^ 32)
  | IClass _ id f => 0 <= id < 2 ^ 32 /\ 0 <= f < 2 ^ 32
  | ISendO _ id n b ic =>
      0 <= id < 2 ^ 32 /\ 0 <= n < 2 ^ 16 /\
      (forall f, b = Some f -> 0 < f < 2 ^ 32) /\ 0 <= ic < 2 ^ 32
  | ISend id n fl b ic =>
      0 <= id < 2 ^ 32 /\ 0 <= n < 2 ^ 16 /\ 0 <= fl < 2 ^ 8 /\
      (forall f, b = Some f -> 0 < f < 2 ^ 32) /\ 0 <= ic < 2 ^ 32
  end.

(** Reading a sequence instruction by instruction until it is used up. *)
Inductive reads : list Z -> list inst -> Prop :=
| reads_nil : reads [] []
| reads_cons : forall code i rest l,
    decode code = Some (i, rest) -> reads rest l -> reads code (i :: l).

(** Walking with the size table from position [p]: the next position. *)
Definition next_position (code : list Z) (p : nat) : option nat :=
  match nth_error code p with
  | Some b => match inst_size b with
              | Some n => Some (p + Z.to_nat n)%nat
              | None => None
              end
  | None => None
  end.

Lemma range_fits i : operands_in_range i -> fits i.
Proof.
  destruct i; cbn; unfold u32_ok, i32_ok, u64_ok, u16_ok; try lia; try tauto;
    intros; repeat match goal with H : _ /\ _ |- _ => destruct H end;
    repeat split; try lia; destruct blk; cbn; auto.
Qed.

(** Every single instruction is read back with exactly the operands written,
    whatever follows it, and the reader ends where the next one starts. *)
Theorem C32_instruction : forall i rest,
  operands_in_range i -> decode (encode i ++ rest) = Some (i, rest).
Proof. intros. apply decode_encode, range_fits. assumption. Qed.
Print Assumptions C32_instruction.

Example C32_instruction_ex :
  operands_in_range (ISend 77 3 17 (Some 9) 400)
  /\ decode (encode (ISend 77 3 17 (Some 9) 400) ++ [104])
     = Some (ISend 77 3 17 (Some 9) 400, [104])
  /\ decode (encode (IJI cLE (-5) (-1000000))) = Some (IJI cLE (-5) (-1000000), [])
  /\ decode (encode (IVal (2 ^ 64 - 1))) = Some (IVal (2 ^ 64 - 1), []).
Proof.
  split; [|vm_compute; auto].
  cbn; repeat split; try lia; intros;
    match goal with H : Some _ = Some _ |- _ => injection H as <- end; lia.
Qed.

(** Whole sequences stay in step: the interpreter reads back the very list of
    instructions that was written, one after the other ... *)
Theorem C32_sequence : forall l,
  Forall operands_in_range l -> reads (encodes l) l.
Proof.
  induction 1 as [|i l H F IH].
  - constructor.
  - rewrite encodes_cons. econstructor; [|exact IH].
    apply C32_instruction. exact H.
Qed.
Print Assumptions C32_sequence.

(** ... nothing else can be read from it ... *)
Theorem C32_sequence_unique : forall l l',
  Forall operands_in_range l -> reads (encodes l) l' -> l' = l.
Proof.
  intros l l' F. revert l'.
  induction F as [|i l H F IH]; intros l' R.
  - inversion R as [|code j rest l2 D R2]; subst; [reflexivity|].
    cbn in D. discriminate.
  - rewrite encodes_cons in R.
    inversion R as [|code j rest l2 D R2]; subst.
    rewrite C32_instruction in D by exact H. injection D as <- <-.
    f_equal. apply IH. exact R2.
Qed.
Print Assumptions C32_sequence_unique.

(** ... and the size table used by the optimiser and the listings steps from
    the start of each instruction to the start of the next. *)
Theorem C32_sizes : forall l1 i l2,
  next_position (encodes (l1 ++ i :: l2)) (length (encodes l1))
  = Some (length (encodes (l1 ++ [i]))).
Proof.
  intros l1 i l2. unfold next_position.
  rewrite !encodes_app, encodes_cons, nth_error_app2, Nat.sub_diag by lia.
  change (encode i ++ encodes l2) with
    (opcode i :: (tl (encode i) ++ encodes l2)).
  cbn [nth_error]. rewrite encode_length, app_length.
  f_equal. change (encodes [i]) with (encode i ++ []).
  rewrite app_nil_r. lia.
Qed.
Print Assumptions C32_sizes.

Example C32_sequence_ex :
  let l := [I32 oGET_LOCAL 3; II oADDI (-1); IJ (oJMP_F_cmp cEQ) 7;
            ISuper 2 None true; I0 oRETURN] in
  Forall operands_in_range l
  /\ encodes l = [21; 3; 0; 0; 0; 150; 255; 255; 255; 255; 170; 7; 0; 0; 0;
                  112; 2; 0; 0; 0; 0; 0; 1; 104]
  /\ next_position (encodes l) 15 = Some 23%nat.
Proof.
  cbv zeta. split; [|vm_compute; auto].
  repeat constructor; cbn; try lia; intros; discriminate.
Qed.

Lemma skipn_add {A} a : forall b (l : list A),
  skipn b (skipn a l) = skipn (a + b) l.
Proof.
  induction a; intros b l; [reflexivity|].
  destruct l; [destruct b; reflexivity|]. cbn. apply IHa.
Qed.

(** A displacement patched in later is read back as the distance to the
    target, and no other byte of the sequence changes. *)
Theorem C32_displacement : forall code src dest,
  4 <= src <= Z.of_nat (length code) ->
  - 2 ^ 31 <= dest - src < 2 ^ 31 ->
  exists code',
    write_disp src dest code = Some code'
    /\ length code' = length code
    /\ read_disp (src - 4) code' = Some (dest - src)
    /\ (forall k, (Z.of_nat k < src - 4 \/ src <= Z.of_nat k) ->
          nth_error code' k = nth_error code k).
Proof.
  intros code src dest Hs Hd.
  set (n := Z.to_nat (src - 4)).
  assert (E : code = firstn n code ++ firstn 4 (skipn n code) ++ skipn (n + 4) code).
  { rewrite <- skipn_add, !firstn_skipn. reflexivity. }
  set (pre := firstn n code) in *. set (post := skipn (n + 4) code) in *.
  set (old := firstn 4 (skipn n code)) in *.
  assert (Lp : length pre = n) by (unfold pre; rewrite firstn_length; lia).
  assert (Lo : length old = 4%nat).
  { unfold old. rewrite firstn_length, skipn_length. lia. }
  exists (pre ++ push32 (dest - src) ++ post).
  rewrite E. split; [|split; [|split]].
  - apply write_disp_mid; lia.
  - rewrite !app_length, push32_length. lia.
  - replace (src - 4) with (Z.of_nat (length pre)) by lia.
    apply read_disp_mid. exact Hd.
  - intros k [Hk|Hk].
    + rewrite !nth_error_app1 by lia. reflexivity.
    + rewrite (nth_error_app2 pre), (nth_error_app2 (push32 _)),
              (nth_error_app2 pre), (nth_error_app2 old);
        rewrite ?push32_length; try lia.
      f_equal. lia.
Qed.
Print Assumptions C32_displacement.

Example C32_displacement_ex :
  write_disp 6 (-70) [104; 100; 0; 0; 0; 0; 5]
  = Some [104; 100; 180; 255; 255; 255; 5]
  /\ read_disp 2 [104; 100; 180; 255; 255; 255; 5] = Some (-76).
Proof. vm_compute; auto. Qed.

(** The five argument flags survive their packing in one byte. *)
Theorem C32_argument_flags : forall kw blk del hsp spl,
  let f := argflag kw blk del hsp spl in
  0 <= f < 2 ^ 8
  /\ has_hash_arg f = kw /\ has_block_arg f = blk /\ has_delegate f = del
  /\ has_hash_splat f = hsp /\ has_splat f = spl.
Proof. intros [] [] [] [] []; vm_compute; intuition congruence. Qed.
Print Assumptions C32_argument_flags.

Example C32_argument_flags_ex :
  has_splat (argflag true false false false true) = true
  /\ has_block_arg (argflag true false false false true) = false.
Proof. vm_compute; auto. Qed.

(** Finding: the number of arguments is a [usize] in the compiler but is cut
    to 16 bits when written, without a check: a call with 65536 arguments is
    executed as a call without arguments. *)
Theorem C32_argument_count_refuted :
  exists id nargs ic i rest,
    0 <= nargs
    /\ decode (emit_opt_send true id nargs None ic) = Some (i, rest)
    /\ i = ISendO true id 0 None ic /\ nargs <> 0.
Proof.
  exists 7, 65536, 1, (ISendO true 7 0 None 1), []. vm_compute.
  repeat split; congruence.
Qed.
Print Assumptions C32_argument_count_refuted.
