(** Block references (C43). *)
From Verif Require Import Base ModelValue ModelFrame ProofsFrame.

(** What a frame can be given: code ids and identifiers are non-zero 32-bit
    numbers, frames 32-bit numbers, procs addresses of heap objects. *)
Definition reference (b : option blkref) : Prop :=
  match b with
  | None => True
  | Some (KBlock m f) => 0 < m < 2 ^ 32 /\ 0 <= f < 2 ^ 32
  | Some (KProc a) => 0 < a < 2 ^ 61
  | Some (KSym id) => 0 < id < 2 ^ 32
  end.
(** the reference is not a code id whose two highest bits differ *)
Definition plain (b : option blkref) : Prop :=
  match b with Some (KBlock m _) => m < 2 ^ 30 \/ 3 * 2 ^ 30 <= m | _ => True end.

(** The references that survive are exactly these. *)
Theorem C43_survives : forall b, reference b -> (word_blk (blk_word b) = Ok b <-> plain b).
Proof.
  intros [[m f|a|id]|]; cbn [reference plain].
  - intros [H1 H2]. apply word_blk_block; assumption.
  - intros H. rewrite word_blk_proc by assumption. tauto.
  - intros H. rewrite word_blk_sym by assumption. tauto.
  - intros _. split; [auto|reflexivity].
Qed.
Print Assumptions C43_survives.
Example C43_survives_ex :
  reference (Some (KBlock 77 4095)) /\ plain (Some (KBlock 77 4095)) /\
  word_blk (blk_word (Some (KBlock 77 4095))) = Ok (Some (KBlock 77 4095)).
Proof. split; [|split]; [cbn; lia | cbn; lia | vm_compute; reflexivity]. Qed.

(** Two references are stored as the same word only if they are the same. *)
Theorem C43_distinct : forall b c, reference b -> reference c -> plain b -> plain c ->
  blk_word b = blk_word c -> b = c.
Proof.
  intros b c B C PB PC E. apply C43_survives in PB; [|exact B]. apply C43_survives in PC; [|exact C].
  rewrite E in PB. congruence.
Qed.
Print Assumptions C43_distinct.
Example C43_distinct_ex : reference (Some (KSym 5)) /\ reference None /\ blk_word (Some (KSym 5)) <> blk_word None.
Proof. split; [|split]; [cbn; lia | exact I | vm_compute; discriminate]. Qed.

(** From 2^30 functions on a block is lost, replaced or the machine panics. *)
Theorem C43_lost_refuted : exists b, reference b /\ word_blk (blk_word b) = Ok None /\ b <> None.
Proof. exists (Some (KBlock (2 ^ 31) 0)). split; [|split]; [cbn; lia | vm_compute; reflexivity | discriminate]. Qed.
Print Assumptions C43_lost_refuted.
Theorem C43_replaced_refuted : exists b c, reference b /\ word_blk (blk_word b) = Ok c /\ c <> None /\ b <> c.
Proof.
  exists (Some (KBlock (2 ^ 30) 9)), (Some (KBlock (2 ^ 30 + 2 ^ 31) 9)).
  split; [|split; [|split]]; [cbn; lia | vm_compute; reflexivity | discriminate | discriminate].
Qed.
Print Assumptions C43_replaced_refuted.
Theorem C43_panics_refuted : exists b, reference b /\ word_blk (blk_word b) = Panic.
Proof. exists (Some (KBlock (2 ^ 31) 9)). split; [cbn; lia | vm_compute; reflexivity]. Qed.
Print Assumptions C43_panics_refuted.
