(** The effect of the assembly functions, for the three targets. *)
From Coq Require Import ZArith List Bool Lia.
From Verif Require Import ModelSwitch SpecSwitch.
Import ListNotations.
Local Open Scope Z_scope.

(** where a call of one of the functions puts a register, above the stack pointer
    it saves, and where the return address is *)
Definition off (A : arch) (r : reg) : Z :=
  match A with
  | X64 => match r with RBP => 0 | RBX => 8 | R12 => 16 | R13 => 24 | R14 => 32 | _ => 40 end
  | Arm64 => match r with D n => (n - 8) * 8 | X n => (n - 19) * 8 + 64 | _ => 0 end
  | Win64 => match r with RBP => 0 | RBX => 8 | RDI => 16 | RSI => 24 | R12 => 32 | R13 => 40 | R14 => 48 | R15 => 56
             | XMM n h => 64 + (n - 6) * 16 + (if h then 8 else 0) | _ => 0 end
  end.
Definition pcoff (A : arch) : Z := match A with X64 => 48 | Arm64 => 152 | Win64 => 224 end.
Definition image (A : arch) (m : Z -> Z) (p : Z) (s : snap) : Prop :=
  m (p + pcoff A) = s_ra s /\ forall r, In r (callee_saved A) -> m (p + off A r) = s_regs s r.

Lemma setm_same a b v m : b = a -> setm a v m b = v.
Proof. intros ->. unfold setm. now rewrite Z.eqb_refl. Qed.
Lemma setm_other a b v m : b <> a -> setm a v m b = m b.
Proof. intros H. unfold setm. now apply Z.eqb_neq in H as ->. Qed.

Record moved (A : arch) (ra f o1 o2 : Z) (c c' : cpu) : Prop := {
  mv_out : forall a, ~ (regs c SP - room A <= a < regs c SP) -> a <> f + o1 -> mem c' a = mem c a;
  mv_sp : mem c' (f + o1) = regs c SP - room A;
  mv_img : image A (mem c') (regs c SP - room A) (snap_of ra c);
  mv_dst : regs c' SP = mem c (f + o2) + room A;
  mv_arg : regs c' (first_arg A) = f }.
Record resumed (A : arch) (p : Z) (c' : cpu) : Prop := {
  rs_pc : pc c' = mem c' (p + pcoff A);
  rs_regs : forall r, In r (callee_saved A) -> regs c' r = mem c' (p + off A r) }.

Ltac step_all :=
  cbv [call exec fold_left step1 putr putm jump setr regs mem pc reg_eqb Z.eqb Pos.eqb Bool.eqb andb app
       invoke_context switch_context yield_context x64_save x64_load arm_save arm_load win_save win_load
       arg_reg first_arg skip].
Ltac mm := repeat first [rewrite setm_same by lia | rewrite setm_other by lia].


Ltac each_reg r H := cbn [callee_saved flat_map app In] in H; repeat (destruct H as [<-|H]); [..|destruct H].
Lemma setm_at b a v m : b <> a -> setm a v m b = m b.
Proof. apply setm_other. Qed.
Ltac at_ b := repeat (rewrite (setm_at b) by lia).
Ltac brute b :=
  split; split; cbn [regs mem pc room pcoff snap_of s_ra s_regs] in *;
  [ intros a Ha Hb; step_all; mm; reflexivity
  | step_all; mm; lia
  | split; [cbn [pcoff s_ra]; step_all; mm; reflexivity
           | let r := fresh "r" in let H := fresh "H" in
             intros r H; each_reg r H; cbv [off s_regs]; step_all; mm; reflexivity ]
  | step_all; at_ b; lia
  | step_all; reflexivity
  | cbn [pcoff]; step_all; at_ b; f_equal; lia
  | let r := fresh "r" in let H := fresh "H" in
    intros r H; each_reg r H; cbv [off]; step_all; at_ b; f_equal; lia ].

Lemma go_switch A ra f c :
  (f + 8 + 8 <= regs c SP - room A \/ regs c SP <= f) ->
  moved A ra f 8 0 c (call A (switch_context A) ra f c)
  /\ resumed A (mem c (f + 0)) (call A (switch_context A) ra f c).
Proof.
  intros F. destruct c as [g m p]. destruct A.
  - brute (f + 0).
  - brute (f + 0).
  - brute (f + 0).
Qed.
Lemma go_yield A ra f c :
  (f + 8 + 8 <= regs c SP - room A \/ regs c SP <= f) ->
  moved A ra f 0 8 c (call A (yield_context A) ra f c)
  /\ resumed A (mem c (f + 8)) (call A (yield_context A) ra f c).
Proof.
  intros F. destruct c as [g m p]. destruct A; brute (f + 8).
Qed.
Lemma go_invoke A ra f c :
  (f + 8 + 8 <= regs c SP - room A \/ regs c SP <= f) ->
  let c' := call A (invoke_context A) ra f c in
  moved A ra f 8 0 c c' /\ pc c' = mem c' (mem c (f + 0) + OFFSET A)
  /\ return_address A c' = mem c' (mem c (f + 0) + OFFSET A + 8).
Proof.
  intros F. destruct A.
  - change (invoke_context X64) with (switch_context X64). intros c'.
    destruct (go_switch X64 ra f c F) as [M R]. fold c' in M, R. split; [exact M|]. split; [exact (rs_pc _ _ _ R)|].
    cbn [return_address]. rewrite (mv_dst _ _ _ _ _ _ _ M). cbn. f_equal. lia.
  - intros c'. split; [|split].
    + unfold c'. clear c'. destruct c as [g m p]. split; cbn [regs mem pc room pcoff snap_of s_ra s_regs] in *.
      * intros a Ha Hb; step_all; mm; reflexivity.
      * step_all; mm; lia.
      * split; [cbn [pcoff s_ra]; step_all; mm; reflexivity|].
        intros r H; each_reg r H; cbv [off s_regs]; step_all; mm; reflexivity.
      * step_all; at_ (f + 0); lia.
      * step_all; reflexivity.
    + unfold c'. clear c'. destruct c as [g m p]. cbn [regs mem pc room] in *. cbn [OFFSET]. step_all. at_ (f + 0). f_equal; lia.
    + unfold c'. clear c'. destruct c as [g m p]. cbn [regs mem pc room] in *. cbn [OFFSET return_address]. step_all. at_ (f + 0). f_equal; lia.
  - change (invoke_context Win64) with (switch_context Win64). intros c'.
    destruct (go_switch Win64 ra f c F) as [M R]. fold c' in M, R. split; [exact M|]. split; [exact (rs_pc _ _ _ R)|].
    cbn [return_address]. rewrite (mv_dst _ _ _ _ _ _ _ M). cbn. f_equal. lia.
Qed.
