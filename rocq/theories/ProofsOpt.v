(** The peephole pass keeps the behaviour of code whose jumps lead to instructions. *)
From Coq Require Import ZArith List Bool Lia.
From Verif Require Import Base ModelValue ModelInst ProofsInst ModelCodegen ModelVM SpecCore
  SpecOpt ProofsCore1 ProofsCore2 ProofsCore8 ProofsShape.
Import ListNotations.
Ltac Zify.zify_post_hook ::= Z.div_mod_to_equations.
Open Scope Z_scope.

(** ** Instructions as they are read back *)
Definition i32 (d : Z) : Z := to_i32 (d mod 2 ^ 32).
Definition nblk (b : option Z) : option Z :=
  match b with
  | Some f => if f mod 2 ^ 32 =? 0 then None else Some (f mod 2 ^ 32)
  | None => None
  end.
Definition norm (i : inst) : inst :=
  match i with
  | I0 o => I0 o
  | I32 o n => I32 o (n mod 2 ^ 32)
  | II o k => II o (i32 k)
  | IJ o d => IJ o (i32 d)
  | IJI c k d => IJI c (i32 k) (i32 d)
  | IVal w => IVal (w mod 2 ^ 64)
  | I2 o a b => I2 o (a mod 2 ^ 32) (b mod 2 ^ 32)
  | ICase o t d => ICase o (t mod 2 ^ 32) (i32 d)
  | ISuper n b f => ISuper (n mod 2 ^ 16) (nblk b) f
  | IClass m id f => IClass m (id mod 2 ^ 32) (f mod 2 ^ 32)
  | ISendO u id n b ic => ISendO u (id mod 2 ^ 32) (n mod 2 ^ 16) (nblk b) (ic mod 2 ^ 32)
  | ISend id n f b ic =>
      ISend (id mod 2 ^ 32) (n mod 2 ^ 16) (f mod 2 ^ 8) (nblk b) (ic mod 2 ^ 32)
  end.

Lemma i32_range d : - 2 ^ 31 <= i32 d < 2 ^ 31.
Proof. apply to_i32_range. lia. Qed.
Lemma i32_id d : - 2 ^ 31 <= d < 2 ^ 31 -> i32 d = d.
Proof. apply to_i32_mod. Qed.
Lemma push32_i32 d : push32 (i32 d) = push32 d.
Proof. unfold i32. rewrite push32_to_i32 by lia. apply push32_mod. Qed.
Lemma push_nblk b : push_method (nblk b) = push_method b.
Proof.
  destruct b as [f|]; [|reflexivity]. cbn [nblk push_method].
  destruct (Z.eqb_spec (f mod 2 ^ 32) 0) as [E|E]; cbn [push_method].
  - rewrite <- (push32_mod f), E. reflexivity.
  - apply push32_mod.
Qed.
Lemma push16_mod v : push16 (v mod 2 ^ 16) = push16 v.
Proof. exact (le_mod 2 v). Qed.
Lemma push8_mod v : push8 (v mod 2 ^ 8) = push8 v.
Proof. exact (le_mod 1 v). Qed.
Lemma push64_mod v : push64 (v mod 2 ^ 64) = push64 v.
Proof. exact (le_mod 8 v). Qed.

Lemma norm_opcode i : opcode (norm i) = opcode i.
Proof. destruct i; try reflexivity. Qed.
Lemma norm_encode i : encode (norm i) = encode i.
Proof.
  unfold encode. rewrite norm_opcode. f_equal.
  destruct i; cbn [norm];
    rewrite ?push32_i32, ?push32_mod, ?push_nblk, ?push16_mod, ?push8_mod, ?push64_mod; reflexivity.
Qed.
Lemma nblk_ok b : blk_ok (nblk b).
Proof.
  destruct b as [f|]; [|exact I]. cbn [nblk].
  destruct (Z.eqb_spec (f mod 2 ^ 32) 0); cbn [blk_ok]; [exact I|lia].
Qed.
Lemma norm_fits i : fits (norm i).
Proof.
  destruct i; cbn [norm fits]; unfold u16_ok, u32_ok, u64_ok, i32_ok;
    repeat split; try apply nblk_ok; try apply i32_range; lia.
Qed.
Lemma decode_norm i rest : decode (encode i ++ rest) = Some (norm i, rest).
Proof. rewrite <- norm_encode. apply decode_encode, norm_fits. Qed.

(** ** Code with rewritten jumps *)
Inductive cell : Set := CI (i : inst) | CR (o : op0).
Definition cb (c : cell) : list Z :=
  match c with CI i => encode i | CR o => repeat (op0_byte o) 5 end.
Definition cbs (cs : list cell) : list Z := concat (map cb cs).
Definition cin (c : cell) : inst := match c with CI i => norm i | CR o => I0 o end.
Definition cjmp (c : cell) : bool := match c with CI i => is_jmp i | CR _ => false end.

Lemma cbs_app a b : cbs (a ++ b) = cbs a ++ cbs b.
Proof. unfold cbs. rewrite map_app, concat_app. reflexivity. Qed.
Lemma cbs_ci l : cbs (map CI l) = encodes l.
Proof. unfold cbs, encodes. rewrite map_map. reflexivity. Qed.

Lemma decode_cell c r : exists r', decode (cb c ++ r) = Some (cin c, r').
Proof.
  destruct c as [i|o].
  - exists r. apply decode_norm.
  - exists (repeat (op0_byte o) 4 ++ r). unfold cb. cbn [repeat app].
    change (op0_byte o :: ?x) with (encode (I0 o) ++ x).
    exact (decode_encode (I0 o) _ Logic.I).
Qed.

(** same instructions, jumps possibly rewritten *)
Definition sizes (l : list inst) (cs : list cell) : Prop :=
  map (fun c => length (cb c)) cs = map (fun i => length (encode i)) l.

Lemma cbs_len l : forall cs k, sizes l cs -> zlength (cbs (firstn k cs)) = pos l k.
Proof.
  unfold sizes. induction l as [|i l IH]; intros [|c cs] k H; try discriminate H.
  - destruct k; reflexivity.
  - destruct k as [|k]; [reflexivity|]. cbn [firstn map] in *.
    injection H as H1 H2. unfold pos. cbn [firstn]. rewrite lsz_cons.
    change (lsz (firstn k l)) with (pos l k). rewrite <- (IH _ k H2).
    change (cbs (c :: firstn k cs)) with (cb c ++ cbs (firstn k cs)). rewrite zlength_app.
    unfold isz, zlength. rewrite H1. reflexivity.
Qed.
Lemma sizes_length l cs : sizes l cs -> length cs = length l.
Proof. intros H. apply (f_equal (@length _)) in H. rewrite !map_length in H. exact H. Qed.

Lemma nth_split3 {A} (cs : list A) k c : nth_error cs k = Some c ->
  cs = firstn k cs ++ c :: skipn (S k) cs.
Proof.
  revert cs. induction k as [|k IH]; intros [|x cs] H; try discriminate.
  - injection H as ->. reflexivity.
  - cbn [firstn skipn app]. f_equal. apply IH, H.
Qed.
Lemma cbs_at l cs k c : sizes l cs -> nth_error cs k = Some c ->
  exists a b, cbs cs = a ++ cb c ++ b /\ zlength a = pos l k /\
  (forall c', length (cb c') = length (cb c) -> cbs (upd_nth k c' cs) = a ++ cb c' ++ b).
Proof.
  intros S N. exists (cbs (firstn k cs)), (cbs (skipn (Datatypes.S k) cs)). split; [|split].
  - rewrite (nth_split3 _ _ _ N) at 1. rewrite cbs_app. reflexivity.
  - apply cbs_len, S.
  - intros c' _. destruct (upd_nth_split c' _ _ _ N) as (a & b & E & U & L).
    rewrite U, cbs_app. subst k. rewrite E. rewrite firstn_app, firstn_all, Nat.sub_diag.
    cbn [firstn]. rewrite app_nil_r. f_equal.
    replace (skipn (Datatypes.S (length a)) (a ++ c :: b)) with b; [reflexivity|].
    clear. induction a; [reflexivity|assumption].
Qed.

Lemma cb_head c : exists t, cb c = opcode (cin c) :: t.
Proof.
  destruct c as [i|o]; cbn [cb cin].
  - unfold encode. rewrite norm_opcode. eauto.
  - cbn. eauto.
Qed.

Lemma byte_at_pos l cs k c : sizes l cs -> nth_error cs k = Some c ->
  byte_at (cbs cs) (pos l k) = Some (opcode (cin c)).
Proof.
  intros S N. destruct (cbs_at _ _ _ _ S N) as (a & b & -> & E & _).
  destruct (cb_head c) as [t ->]. unfold byte_at.
  pose proof (zlength_nonneg a). destruct (Z.ltb_spec (pos l k) 0); [lia|].
  rewrite <- E. unfold zlength. rewrite Nat2Z.id, nth_error_app2, Nat.sub_diag by lia. reflexivity.
Qed.

Lemma read_disp_pos l cs k o d : sizes l cs -> nth_error cs k = Some (CI (IJ o d)) ->
  read_disp (pos l k + 1) (cbs cs) = Some (i32 d).
Proof.
  intros S N. destruct (cbs_at _ _ _ _ S N) as (a & b & -> & E & _).
  cbn [cb]. unfold encode.
  replace (a ++ (opcode (IJ o d) :: push32 d) ++ b)
    with ((a ++ [opcode (IJ o d)]) ++ push32 (i32 d) ++ b)
    by (rewrite push32_i32, <- !app_assoc; reflexivity).
  rewrite <- E. replace (zlength a + 1) with (Z.of_nat (length (a ++ [opcode (IJ o d)])))
    by (rewrite app_length; unfold zlength; cbn [length]; lia).
  apply read_disp_mid. apply i32_range.
Qed.

Lemma write_disp_pos l cs k o d t : sizes l cs -> nth_error cs k = Some (CI (IJ o d)) ->
  write_disp (pos l k + 5) t (cbs cs)
  = Some (cbs (upd_nth k (CI (IJ o (t - (pos l k + 5)))) cs)).
Proof.
  intros S N. destruct (cbs_at _ _ _ _ S N) as (a & b & -> & E & U).
  rewrite U by reflexivity. cbn [cb]. unfold encode.
  replace (a ++ (opcode (IJ o d) :: push32 d) ++ b)
    with ((a ++ [opcode (IJ o d)]) ++ push32 d ++ b) by (rewrite <- !app_assoc; reflexivity).
  rewrite (write_disp_mid _ (push32 d) b (pos l k + 5) t).
  - rewrite <- !app_assoc. reflexivity.
  - rewrite app_length, <- E. unfold zlength. cbn [length]. lia.
  - apply push32_length.
Qed.

Lemma patch_pos l cs k o d p : sizes l cs -> nth_error cs k = Some (CI (IJ o d)) ->
  let t := op0_byte p in
  patch (pos l k) [t; t; t; t; t] (cbs cs) = Some (cbs (upd_nth k (CR p) cs)).
Proof.
  intros S N t. destruct (cbs_at _ _ _ _ S N) as (a & b & -> & E & U).
  rewrite U by reflexivity. cbn [cb].
  rewrite (patch_mid a (encode (IJ o d)) [t; t; t; t; t] b (pos l k)); [reflexivity| |reflexivity].
  rewrite <- E. reflexivity.
Qed.

Lemma sizes_upd l cs k c c' : sizes l cs -> nth_error cs k = Some c ->
  length (cb c') = length (cb c) -> sizes l (upd_nth k c' cs).
Proof.
  intros S N E. unfold sizes in *. rewrite <- S.
  apply (map_upd (fun c => length (cb c)) c' k cs c N E).
Qed.

(** ** Chains of jumps *)
Definition goes (l : list inst) (e d : Z) (t : nat) : Prop :=
  (t < length l)%nat /\ e + i32 d = pos l t.
Definition wf (l : list inst) : Prop :=
  forall k i d, nth_error l k = Some i -> disp i = Some d -> exists t, goes l (pos l (S k)) d t.

Lemma goes_inj l e d t t' : goes l e d t -> goes l e d t' -> t = t'.
Proof. intros [A B] [C D]. apply (pos_inj l); lia. Qed.

Inductive jreach (l : list inst) : nat -> nat -> Prop :=
| jr_refl k : jreach l k k
| jr_step k i d t j : nth_error l k = Some i -> is_jmp i = true -> disp i = Some d ->
    goes l (pos l (S k)) d t -> jreach l t j -> jreach l k j.

Lemma jreach_trans l a b c : jreach l a b -> jreach l b c -> jreach l a c.
Proof. induction 1; intros Hc; [exact Hc|]. econstructor; eauto. Qed.

Definition retlike (o : op0) : bool :=
  match o with oRETURN | oBREAK | oMRETURN => true | _ => false end.

(** what has become of the instruction [i] at [k] *)
Inductive rel1 (l : list inst) (cs : list cell) (k : nat) : inst -> cell -> Prop :=
| R_same i : rel1 l cs k i (CI i)
| R_jump o d d' t j : goes l (pos l (S k)) d t -> goes l (pos l (S k)) d' j ->
    jreach l t j -> (forall c, nth_error cs j = Some c -> cjmp c = false) ->
    rel1 l cs k (IJ o d) (CI (IJ o d'))
| R_ret o d t f p : is_jmp (IJ o d) = true -> goes l (pos l (S k)) d t ->
    jreach l t f -> nth_error l f = Some (I0 p) -> retlike p = true ->
    rel1 l cs k (IJ o d) (CR p).

Definition rel (l : list inst) (cs : list cell) : Prop :=
  length cs = length l /\
  forall k i c, nth_error l k = Some i -> nth_error cs k = Some c -> rel1 l cs k i c.

Lemma rel_init l : rel l (map CI l).
Proof.
  split; [apply map_length|]. intros k i c N M. apply (map_nth_error CI) in N.
  rewrite N in M. injection M as <-. constructor.
Qed.
Lemma rel1_size l cs k i c : rel1 l cs k i c -> length (cb c) = length (encode i).
Proof. destruct 1; reflexivity. Qed.
Lemma rel_sizes l cs : rel l cs -> sizes l cs.
Proof.
  intros [L R]. unfold sizes.
  assert (X : forall k i c, nth_error l k = Some i -> nth_error cs k = Some c ->
                            length (cb c) = length (encode i)).
  { intros k i c N M. eapply rel1_size, R; eassumption. }
  clear R. revert cs L X. induction l as [|i l IH]; intros [|c cs] L X; try discriminate L; [reflexivity|].
  cbn [map]. f_equal; [apply (X O); reflexivity|]. apply IH.
  - cbn in L. congruence.
  - intros k. apply (X (S k)).
Qed.
Lemma rel_nth l cs k c : rel l cs -> nth_error cs k = Some c ->
  exists i, nth_error l k = Some i /\ rel1 l cs k i c.
Proof.
  intros [L R] N. destruct (nth_error l k) as [i|] eqn:E.
  - exists i. split; [reflexivity|]. apply R; assumption.
  - apply nth_error_None in E. assert (nth_error cs k <> None) as X by congruence.
    apply nth_error_Some in X. lia.
Qed.
Lemma rel_nth' l cs k i : rel l cs -> nth_error l k = Some i ->
  exists c, nth_error cs k = Some c /\ rel1 l cs k i c.
Proof.
  intros [L R] N. destruct (nth_error cs k) as [c|] eqn:E.
  - exists c. split; [reflexivity|]. apply R; assumption.
  - apply nth_error_None in E. assert (nth_error l k <> None) as X by congruence.
    apply nth_error_Some in X. lia.
Qed.

(** ** The opcodes the pass looks at *)
Lemma opcode_jmp i : is_jmp i = true <-> (opcode i =? 100) || (opcode i =? 101) = true.
Proof. destruct i; each_op; try destruct use; vm_compute; intuition congruence. Qed.
Lemma is_jmp_norm i : is_jmp (norm i) = is_jmp i.
Proof. destruct i; reflexivity. Qed.
Lemma cjmp_byte c : (opcode (cin c) =? 100) || (opcode (cin c) =? 101) = cjmp c.
Proof.
  apply eq_true_iff_eq. rewrite <- opcode_jmp. destruct c as [i|o]; cbn [cin cjmp].
  - rewrite is_jmp_norm. reflexivity.
  - destruct o; cbn; intuition congruence.
Qed.
Lemma is_jmp_form i : is_jmp i = true -> exists o d, i = IJ o d.
Proof. destruct i; try discriminate. eauto. Qed.
Lemma ret_byte c : (opcode (cin c) =? 104) || (opcode (cin c) =? 105) || (opcode (cin c) =? 107) = true ->
  exists p, cin c = I0 p /\ retlike p = true.
Proof.
  assert (X : forall i, (opcode i =? 104) || (opcode i =? 105) || (opcode i =? 107) = true ->
    exists p, i = I0 p /\ retlike p = true).
  { destruct i; each_op; try destruct use; vm_compute; try discriminate; intros _;
      eexists; split; reflexivity. }
  apply X.
Qed.
Lemma cond_byte i : is_jmp i = false ->
  mem (opcode i) [103; 102; 170; 171; 172; 173; 174; 175] = true -> exists o d, i = IJ o d.
Proof. destruct i; each_op; try destruct use; vm_compute; try discriminate; eauto. Qed.
Lemma cond_byte' o d : is_jmp (IJ o d) = false ->
  mem (opcode (IJ o d)) [103; 102; 170; 171; 172; 173; 174; 175] = true.
Proof. destruct o as [| | | |[]]; vm_compute; congruence. Qed.
Lemma cin_ret c p : cin c = I0 p -> c = CI (I0 p) \/ c = CR p.
Proof. destruct c as [i|o]; cbn [cin]; [|intros H; injection H as ->; auto]. destruct i; try discriminate. intros H. injection H as ->. auto. Qed.

(** a chain in the rewritten code *)
Inductive creach (l : list inst) (cs : list cell) : nat -> nat -> nat -> Prop :=
| cr_refl k : creach l cs O k k
| cr_step n k i d t j : nth_error cs k = Some (CI i) -> is_jmp i = true -> disp i = Some d ->
    goes l (pos l (S k)) d t -> creach l cs n t j -> creach l cs (S n) k j.

Lemma creach_old l cs n a b c : rel l cs -> creach l cs n a b -> nth_error cs b = Some c ->
  cjmp c = false -> jreach l a b.
Proof.
  intros R H N J. induction H as [|n k i d t j M JI D GO H IH]; [constructor|].
  specialize (IH N). destruct (rel_nth _ _ _ _ R M) as (i0 & N0 & R1).
  inversion R1; subst.
  - econstructor; eauto.
  - cbn in D. injection D as ->.
    pose proof (goes_inj _ _ _ _ _ GO H2) as ->.
    assert (j0 = j) as ->.
    { inversion H as [|? ? i1 ? ? ? M1 J1]; subst; [reflexivity|].
      specialize (H5 _ M1). cbn in H5. congruence. }
    eapply jr_step with (d := d0); [exact N0| |reflexivity|exact H1|exact H3]. exact JI.
Qed.

Lemma pos_jump l k i : nth_error l k = Some i -> (exists o d, i = IJ o d) -> pos l (S k) = pos l k + 5.
Proof. intros N (o & d & ->). rewrite (pos_S _ _ _ N). reflexivity. Qed.

(** every jump of the rewritten code still leads to an instruction *)
Lemma rel_goes l cs k o d : wf l -> rel l cs -> nth_error cs k = Some (CI (IJ o d)) ->
  (exists t, goes l (pos l (S k)) d t) /\ pos l (S k) = pos l k + 5.
Proof.
  intros WF R M. destruct (rel_nth _ _ _ _ R M) as (i0 & N0 & R1). inversion R1; subst.
  - split; [exact (WF _ _ _ N0 eq_refl)|]. apply (pos_jump _ _ _ N0). eauto.
  - split; [eauto|]. apply (pos_jump _ _ _ N0). eauto.
Qed.

Lemma chase_ok l cs : wf l -> rel l cs -> forall fuel t nc r, (t < length l)%nat ->
  chase fuel (cbs cs) (pos l t) nc = Ok r ->
  exists n j c, (n < fuel)%nat /\ creach l cs n t j /\ nth_error cs j = Some c /\ cjmp c = false /\
    (r = DDest (pos l j) /\ (nc = true -> forall p, cin c = I0 p -> retlike p = false) \/
     nc = true /\ exists p, cin c = I0 p /\ retlike p = true /\ r = DInst (op0_byte p)).
Proof.
  intros WF R. pose proof (rel_sizes _ _ R) as SZ. pose proof (sizes_length _ _ SZ) as LL.
  induction fuel as [|fuel IH]; intros t nc r T H; [discriminate|]. cbn [chase] in H.
  destruct (nth_error cs t) as [c|] eqn:E; [|apply nth_error_None in E; lia].
  rewrite (byte_at_pos _ _ _ _ SZ E), cjmp_byte in H.
  destruct (cjmp c) eqn:J.
  - destruct c as [i|o]; [|discriminate]. cbn [cjmp] in J.
    destruct (is_jmp_form _ J) as (o & d & ->).
    rewrite (read_disp_pos _ _ _ _ _ SZ E) in H.
    destruct (rel_goes _ _ _ _ _ WF R E) as [(t1 & T1) P5].
    replace (pos l t + 5 + i32 d) with (pos l t1) in H by (destruct T1; lia).
    destruct (IH _ _ _ (proj1 T1) H) as (n & j & c & LT & CR' & N & CJ & RR).
    exists (S n), j, c. split; [lia|]. split; [|auto].
    exact (cr_step _ _ _ _ _ _ _ _ E J eq_refl T1 CR').
  - exists O, t, c. split; [lia|]. split; [constructor|]. split; [exact E|]. split; [exact J|].
    destruct ((opcode (cin c) =? 104) || (opcode (cin c) =? 105) || (opcode (cin c) =? 107)) eqn:RB.
    + destruct (ret_byte _ RB) as (p & P1 & P2). destruct nc; apply ok_inj in H; subst r;
        [|left; split; [reflexivity|discriminate]].
      right. split; [reflexivity|]. exists p. rewrite P1. auto.
    + apply ok_inj in H. subst r. left. split; [reflexivity|]. intros _ p P1.
      rewrite P1 in RB. destruct p; reflexivity || discriminate RB.
Qed.

(** a long enough chase succeeds *)
Lemma chase_enough l cs : wf l -> rel l cs -> forall n t j c, creach l cs n t j ->
  nth_error cs j = Some c -> cjmp c = false -> (t < length l)%nat -> forall fuel nc, (n < fuel)%nat ->
  exists r, chase fuel (cbs cs) (pos l t) nc = Ok r.
Proof.
  intros WF R n t j c H N J. pose proof (rel_sizes _ _ R) as SZ.
  induction H as [k|n k i d t j M JI D GO H IH]; intros T fuel nc LT;
    (destruct fuel as [|fuel]; [lia|]); cbn [chase].
  - rewrite (byte_at_pos _ _ _ _ SZ N), cjmp_byte, J.
    destruct (_ || _ || _); [destruct nc|]; eauto.
  - rewrite (byte_at_pos _ _ _ _ SZ M), cjmp_byte. cbn [cjmp]. rewrite JI.
    destruct (is_jmp_form _ JI) as (o & d0 & ->). cbn in D. injection D as ->.
    rewrite (read_disp_pos _ _ _ _ _ SZ M).
    destruct (rel_goes _ _ _ _ _ WF R M) as [_ P5].
    replace (pos l k + 5 + i32 d) with (pos l t) by (destruct GO; lia).
    apply IH; [exact N|exact (proj1 GO)|lia].
Qed.

(** ** One round *)
Lemma rel1_mono l cs cs' k i c :
  (forall j x y, nth_error cs j = Some x -> nth_error cs' j = Some y -> cjmp x = false -> cjmp y = false) ->
  length cs' = length cs -> rel1 l cs k i c -> rel1 l cs' k i c.
Proof.
  intros M LL [].
  - constructor.
  - econstructor; eauto. intros cc N. destruct (nth_error cs j) as [x|] eqn:E.
    + eapply M; eauto.
    + apply nth_error_None in E. assert (nth_error cs' j <> None) as X by congruence.
      apply nth_error_Some in X. lia.
  - econstructor; eauto.
Qed.

Lemma upd_length {A} (x : A) : forall k l, length (upd_nth k x l) = length l.
Proof. induction k; intros [|y l]; cbn; auto. Qed.

Lemma rel_upd l cs k i c c' : rel l cs -> nth_error l k = Some i -> nth_error cs k = Some c ->
  (cjmp c = false -> cjmp c' = false) ->
  rel1 l (upd_nth k c' cs) k i c' -> rel l (upd_nth k c' cs).
Proof.
  intros [L R] N M J R1. split; [rewrite upd_length; exact L|].
  intros k2 i2 c2 N2 M2. apply nth_upd in M2 as [[-> ->]|[NE M2]].
  - rewrite N in N2. injection N2 as <-. exact R1.
  - eapply rel1_mono; [|apply upd_length|apply R; eassumption].
    intros j x y X Y CX. apply nth_upd in Y as [[-> ->]|[_ Y]]; [|congruence].
    apply J. congruence.
Qed.

Definition rewritable (i : inst) : bool := match i with IJ _ _ => true | _ => false end.

(** the [k]-th cell is still the original instruction *)
Lemma optimize_at_ok l cs k i fuel code' : wf l -> lsz l < 2 ^ 31 -> rel l cs ->
  nth_error l k = Some i -> nth_error cs k = Some (CI i) ->
  optimize_at fuel (cbs cs) (pos l k) = Ok code' ->
  exists c', code' = cbs (upd_nth k c' cs) /\ rel l (upd_nth k c' cs) /\
    (rewritable i = false -> c' = CI i) /\
    (forall o d, i = IJ o d -> exists t n j c, (n < fuel)%nat /\ goes l (pos l (S k)) d t /\
       creach l cs n t j /\ nth_error cs j = Some c /\ cjmp c = false /\
       (c' = CI (IJ o (pos l j - (pos l k + 5))) /\
        goes l (pos l (S k)) (pos l j - (pos l k + 5)) j /\
        (is_jmp i = true -> forall p, cin c = I0 p -> retlike p = false) \/
        is_jmp i = true /\ exists p, cin c = I0 p /\ retlike p = true /\ c' = CR p)).
Proof.
  intros WF LT R N M H. pose proof (rel_sizes _ _ R) as SZ.
  unfold optimize_at in H. rewrite (byte_at_pos _ _ _ _ SZ M) in H.
  pose proof (cjmp_byte (CI i)) as CB. rewrite CB in H. cbn [cjmp cin] in H, CB.
  assert (SAME : upd_nth k (CI i) cs = cs).
  { clear - M. revert cs M. induction k as [|k IH]; intros [|x cs] M; try discriminate; cbn.
    - injection M as ->. reflexivity.
    - f_equal. auto. }
  assert (NEW : forall o d t n j c, i = IJ o d -> goes l (pos l (S k)) d t -> creach l cs n t j ->
    nth_error cs j = Some c -> cjmp c = false ->
    goes l (pos l (S k)) (pos l j - (pos l k + 5)) j /\
    rel l (upd_nth k (CI (IJ o (pos l j - (pos l k + 5)))) cs)).
  { intros o d t n j c -> GO CH NJ CJ.
    pose proof (pos_jump _ _ _ N (ex_intro _ o (ex_intro _ d eq_refl))) as P5.
    assert (JL : (j < length l)%nat).
    { rewrite <- (proj1 R). apply nth_error_Some. congruence. }
    assert (GJ : goes l (pos l (S k)) (pos l j - (pos l k + 5)) j).
    { split; [exact JL|]. rewrite i32_id; [lia|].
      pose proof (pos_le_lsz l j). pose proof (pos_le_lsz l (S k)).
      pose proof (zlength_nonneg (encodes (firstn j l))). pose proof (zlength_nonneg (encodes (firstn k l))).
      unfold pos, lsz in *. lia. }
    split; [exact GJ|].
    eapply rel_upd; [exact R|exact N|exact M|intros X; exact X|].
    eapply R_jump; [exact GO|exact GJ|eapply creach_old; eassumption|].
    intros c2 N2. apply nth_upd in N2 as [[-> ->]|[_ N2]]; [|congruence].
    rewrite M in NJ. injection NJ as <-. exact CJ. }
  assert (FIND : forall o d, i = IJ o d -> forall nc r, chase fuel (cbs cs) (pos l k + 5 + i32 d) nc = Ok r ->
    exists t n j c, (n < fuel)%nat /\ goes l (pos l (S k)) d t /\
       creach l cs n t j /\ nth_error cs j = Some c /\ cjmp c = false /\
    (r = DDest (pos l j) /\ (nc = true -> forall p, cin c = I0 p -> retlike p = false) \/
     nc = true /\ exists p, cin c = I0 p /\ retlike p = true /\ r = DInst (op0_byte p))).
  { intros o d -> nc r C. destruct (WF _ _ _ N eq_refl) as [t GO].
    pose proof (pos_jump _ _ _ N (ex_intro _ o (ex_intro _ d eq_refl))) as P5.
    replace (pos l k + 5 + i32 d) with (pos l t) in C by (destruct GO; lia).
    destruct (chase_ok _ _ WF R _ _ _ _ (proj1 GO) C) as (n & j & c & A & B & C' & D & E).
    exists t, n, j, c. auto 10. }
  destruct (is_jmp i) eqn:J.
  - destruct (is_jmp_form _ J) as (o & d & ->).
    replace (pos l k + 5 - 4) with (pos l k + 1) in H by lia.
    rewrite (read_disp_pos _ _ _ _ _ SZ M) in H.
    destruct (chase fuel (cbs cs) (pos l k + 5 + i32 d) true) as [r| |] eqn:C; try discriminate.
    cbn [rbind] in H.
    destruct (FIND _ _ eq_refl _ _ C) as (t & n & j & c & LN & GO & CH & NJ & CJ & [(-> & NR)|(_ & p & P1 & P2 & ->)]).
    + rewrite (write_disp_pos _ _ _ _ _ _ SZ M) in H. apply ok_inj in H. subst code'.
      destruct (NEW _ _ _ _ _ _ eq_refl GO CH NJ CJ) as [GJ RN].
      eexists. split; [reflexivity|]. split; [exact RN|]. split; [discriminate|].
      intros o' d' E. injection E as <- <-. exists t, n, j, c. 
      do 5 (split; [assumption|]). left. split; [reflexivity|]. split; [exact GJ|].
      first [intros _; exact (NR eq_refl)|intros X; congruence].
    + rewrite (patch_pos _ _ _ _ _ _ SZ M) in H. apply ok_inj in H. subst code'.
      exists (CR p). split; [reflexivity|]. split; [|split; [discriminate|]].
      * eapply rel_upd; [exact R|exact N|exact M|reflexivity|].
        pose proof (creach_old _ _ _ _ _ _ R CH NJ CJ) as JR.
        destruct (rel_nth _ _ _ _ R NJ) as (i1 & N1 & R1).
        destruct (cin_ret _ _ P1) as [-> | ->].
        -- inversion R1; subst. eapply R_ret; eauto.
        -- inversion R1; subst. eapply R_ret; [exact J|exact GO| |eassumption|exact P2].
           eapply jreach_trans; [exact JR|].
           eapply jr_step; [exact N1|eassumption|reflexivity|eassumption|eassumption].
      * intros o' d' E. injection E as <- <-. exists t, n, j, c. eauto 12.
  - destruct (mem _ _) eqn:MB in H.
    + rewrite norm_opcode in MB. destruct (cond_byte _ J MB) as (o & d & ->).
      replace (pos l k + 5 - 4) with (pos l k + 1) in H by lia.
      rewrite (read_disp_pos _ _ _ _ _ SZ M) in H.
      destruct (chase fuel (cbs cs) (pos l k + 5 + i32 d) false) as [r| |] eqn:C; try discriminate.
      cbn [rbind] in H.
      destruct (FIND _ _ eq_refl _ _ C) as (t & n & j & c & LN & GO & CH & NJ & CJ & [(-> & NR)|(X & _)]); [|discriminate].
      rewrite (write_disp_pos _ _ _ _ _ _ SZ M) in H. apply ok_inj in H. subst code'.
      destruct (NEW _ _ _ _ _ _ eq_refl GO CH NJ CJ) as [GJ RN].
      eexists. split; [reflexivity|]. split; [exact RN|]. split; [discriminate|].
      intros o' d' E. injection E as <- <-. exists t, n, j, c. 
      do 5 (split; [assumption|]). left. split; [reflexivity|]. split; [exact GJ|].
      first [intros _; exact (NR eq_refl)|intros X; congruence].
    + apply ok_inj in H. subst code'. exists (CI i). rewrite SAME. split; [reflexivity|].
      split; [exact R|]. split; [reflexivity|].
      intros o d ->. rewrite norm_opcode, (cond_byte' _ _ J) in MB. discriminate.
Qed.

(** the round succeeds if the chain of the jump ends early enough *)
Lemma optimize_at_enough l cs k i fuel : wf l -> rel l cs ->
  nth_error l k = Some i -> nth_error cs k = Some (CI i) ->
  (forall o d t, i = IJ o d -> goes l (pos l (S k)) d t ->
     exists n j c, (n < fuel)%nat /\ creach l cs n t j /\ nth_error cs j = Some c /\ cjmp c = false) ->
  exists code', optimize_at fuel (cbs cs) (pos l k) = Ok code'.
Proof.
  intros WF R N M HC. pose proof (rel_sizes _ _ R) as SZ.
  unfold optimize_at. rewrite (byte_at_pos _ _ _ _ SZ M), cjmp_byte. cbn [cjmp cin].
  assert (CHS : forall o d nc, i = IJ o d ->
    exists r, chase fuel (cbs cs) (pos l k + 5 + i32 d) nc = Ok r /\
      (nc = false -> exists p, r = DDest p) /\ (forall b, r = DInst b -> exists p, b = op0_byte p)).
  { intros o d nc ->. destruct (WF _ _ _ N eq_refl) as [t GO].
    pose proof (pos_jump _ _ _ N (ex_intro _ o (ex_intro _ d eq_refl))) as P5.
    replace (pos l k + 5 + i32 d) with (pos l t) by (destruct GO; lia).
    destruct (HC _ _ _ eq_refl GO) as (n & j & c & LN & CH & NJ & CJ).
    destruct (chase_enough _ _ WF R _ _ _ _ CH NJ CJ (proj1 GO) fuel nc LN) as [r E].
    exists r. split; [exact E|].
    destruct (chase_ok _ _ WF R _ _ _ _ (proj1 GO) E) as (n' & j' & c' & _ & _ & _ & _ & [[-> _]|(-> & p & _ & _ & ->)]).
    - split; [eauto|discriminate].
    - split; [discriminate|]. intros b X. injection X as <-. eauto. }
  destruct (is_jmp i) eqn:J.
  - destruct (is_jmp_form _ J) as (o & d & ->).
    replace (pos l k + 5 - 4) with (pos l k + 1) by lia. rewrite (read_disp_pos _ _ _ _ _ SZ M).
    destruct (CHS _ _ true eq_refl) as (r & -> & _ & B). cbn [rbind]. destruct r as [p|b].
    + rewrite (write_disp_pos _ _ _ _ _ _ SZ M). eauto.
    + destruct (B _ eq_refl) as [p ->]. rewrite (patch_pos _ _ _ _ _ _ SZ M). eauto.
  - destruct (mem _ _) eqn:MB; [|eauto].
    rewrite norm_opcode in MB. destruct (cond_byte _ J MB) as (o & d & ->).
    replace (pos l k + 5 - 4) with (pos l k + 1) by lia. rewrite (read_disp_pos _ _ _ _ _ SZ M).
    destruct (CHS _ _ false eq_refl) as (r & -> & A & _). cbn [rbind].
    destruct (A eq_refl) as [p ->]. rewrite (write_disp_pos _ _ _ _ _ _ SZ M). eauto.
Qed.

(** ** The whole pass *)
Definition untouched (l : list inst) (cs : list cell) (n : nat) : Prop :=
  forall k i, (n <= k)%nat -> nth_error l k = Some i -> nth_error cs k = Some (CI i).
Definition proc (l : list inst) (cs : list cell) (n : nat) : Prop :=
  forall k o d c, (k < n)%nat -> nth_error l k = Some (IJ o d) -> nth_error cs k = Some c ->
  (exists d' t j, c = CI (IJ o d') /\ goes l (pos l (S k)) d t /\ goes l (pos l (S k)) d' j /\
     jreach l t j /\ forall x, nth_error cs j = Some x ->
       cjmp x = false /\ (is_jmp (IJ o d) = true -> forall p, cin x = I0 p -> retlike p = false))
  \/ exists p, c = CR p.

Lemma proc_upd l cs k i c' : rel l cs -> untouched l cs k -> proc l cs k -> nth_error l k = Some i ->
  (is_jmp i = false -> exists i', c' = CI i' /\ rewritable i' = rewritable i /\
     (rewritable i = false -> i' = i)) ->
  (forall o d, i = IJ o d ->
     (exists d' t j, c' = CI (IJ o d') /\ goes l (pos l (S k)) d t /\ goes l (pos l (S k)) d' j /\
       jreach l t j /\ forall x, nth_error (upd_nth k c' cs) j = Some x ->
         cjmp x = false /\ (is_jmp (IJ o d) = true -> forall p, cin x = I0 p -> retlike p = false))
     \/ exists p, c' = CR p) ->
  proc l (upd_nth k c' cs) (S k).
Proof.
  intros R U PR N SM NEW k2 o d c LT N2 M2. apply nth_upd in M2 as [[-> ->]|[NE M2]].
  - apply NEW. congruence.
  - destruct (PR k2 o d c ltac:(lia) N2 M2) as [(d' & t & j & A & B & C & D & E)|X]; [left|right; exact X].
    exists d', t, j. split; [exact A|]. split; [exact B|]. split; [exact C|]. split; [exact D|].
    intros x X. apply nth_upd in X as [[-> ->]|[_ X]]; [|apply E, X].
    specialize (E _ (U k i (le_n _) N)). cbn [cjmp] in E. destruct E as [E1 E2].
    destruct (SM E1) as (i' & -> & RW & SI). cbn [cjmp cin].
    destruct (rewritable i) eqn:RI.
    + destruct i' as [| | |o' d''| | | | | | | |]; try discriminate RW.
      destruct i as [| | |o1 d1| | | | | | | |]; try discriminate RI.
      destruct (NEW _ _ eq_refl) as [(d2 & t2 & j2 & Q1 & _)|[p Q1]]; [|discriminate].
      injection Q1 as -> ->. split; [exact E1|]. intros _ p X. discriminate.
    + specialize (SI eq_refl) as ->. split; [exact E1|]. intros J p X. eapply E2; eauto.
Qed.

Lemma optimize_from_ok l : wf l -> lsz l < 2 ^ 31 -> forall steps fuel k cs code',
  rel l cs -> untouched l cs k -> proc l cs k -> (k <= length l)%nat ->
  (length l - k <= steps)%nat ->
  optimize_from steps fuel (cbs cs) (pos l k) = Ok code' ->
  exists cs', code' = cbs cs' /\ rel l cs' /\ proc l cs' (length l).
Proof.
  intros WF LT. induction steps as [|steps IH]; intros fuel k cs code' R U PR KL ST H;
    cbn [optimize_from] in H.
  - apply ok_inj in H. subst. exists cs. split; [reflexivity|]. split; [exact R|].
    replace (length l) with k by lia. exact PR.
  - pose proof (rel_sizes _ _ R) as SZ.
    assert (CL : Z.of_nat (length (cbs cs)) = lsz l).
    { change (zlength (cbs cs) = lsz l). rewrite <- (firstn_all cs), (cbs_len _ _ _ SZ).
      apply pos_all. rewrite (proj1 R). lia. }
    rewrite CL in H. rewrite Z.geb_leb in H.
    destruct (Z.leb_spec (lsz l) (pos l k)) as [GE|GE].
    { apply ok_inj in H. subst. exists cs. split; [reflexivity|]. split; [exact R|].
      assert (k = length l) as ->; [|exact PR].
      apply (pos_inj l); [lia|lia|]. rewrite (pos_all l (length l)) by lia.
      pose proof (pos_le_lsz l k). lia. }
    destruct (nth_error l k) as [i|] eqn:N.
    2:{ apply nth_error_None in N. rewrite pos_all in GE by lia. lia. }
    pose proof (U k i (le_n _) N) as M. rewrite (byte_at_pos _ _ _ _ SZ M) in H. cbn [cin] in H.
    destruct (optimize_at fuel (cbs cs) (pos l k)) as [c1| |] eqn:O; try discriminate.
    cbn [rbind] in H. rewrite norm_opcode, encode_length in H.
    destruct (optimize_at_ok _ _ _ _ _ _ WF LT R N M O) as (c' & -> & R' & SM & JM).
    change (Z.of_nat (length (encode i))) with (isz i) in H. rewrite <- (pos_S _ _ _ N) in H.
    assert (KL' : (S k <= length l)%nat).
    { assert (k < length l)%nat by (apply nth_error_Some; congruence). lia. }
    eapply IH in H; [exact H|exact R'| | |exact KL'|lia].
    + intros k2 i2 L2 N2. rewrite nth_upd_other by lia. apply U; [lia|exact N2].
    + eapply proc_upd; [exact R|exact U|exact PR|exact N| |].
      * intros J. destruct (rewritable i) eqn:RI; [|rewrite (SM eq_refl); eauto].
        destruct i; try discriminate RI.
        destruct (JM _ _ eq_refl) as (t & n & j & c & _ & _ & _ & _ & _ & [(-> & _)|(X & _)]);
          [|congruence]. eexists. split; [reflexivity|]. split; [reflexivity|discriminate].
      * intros o d ->.
        destruct (JM _ _ eq_refl) as (t & n & j & c & _ & GO & CH & NJ & CJ & [(-> & GJ & NR)|(X & p & _ & _ & ->)]);
          [left|right; eauto].
        pose proof (creach_old _ _ _ _ _ _ R CH NJ CJ) as JR.
        eexists _, t, j. split; [reflexivity|]. split; [exact GO|]. split; [exact GJ|].
        split; [exact JR|]. intros x X. apply nth_upd in X as [[-> ->]|[_ X]].
        -- rewrite M in NJ. injection NJ as <-. cbn [cjmp cin] in *. split; [exact CJ|].
           intros _ p Y. discriminate.
        -- rewrite X in NJ. injection NJ as ->. auto.
Qed.

Lemma optimize_ok l fuel code' : wf l -> lsz l < 2 ^ 31 ->
  optimize fuel (encodes l) = Ok code' ->
  exists cs, code' = cbs cs /\ rel l cs /\ proc l cs (length l).
Proof.
  intros WF LT H. unfold optimize in H. rewrite <- cbs_ci in H.
  apply (optimize_from_ok l WF LT _ fuel O (map CI l)) in H; auto.
  - apply rel_init.
  - intros k i _ N. apply map_nth_error, N.
  - intros k o d c L. lia.
  - lia.
  - rewrite cbs_ci. clear. induction l as [|i l IH]; [cbn; lia|].
    rewrite encodes_cons, app_length. pose proof (isz_pos i). unfold isz, zlength in H.
    cbn [length]. lia.
Qed.

(** ** Termination *)
Definition chains_end (l : list inst) : Prop :=
  forall k o d t, nth_error l k = Some (IJ o d) -> goes l (pos l (S k)) d t ->
  exists f i, jreach l t f /\ nth_error l f = Some i /\ is_jmp i = false.

Lemma nth_lt {A} (l : list A) k : (k < length l)%nat -> exists x, nth_error l k = Some x.
Proof.
  intros H. destruct (nth_error l k) eqn:E; [eauto|]. apply nth_error_None in E. lia.
Qed.

Lemma jreach_end l cs j x : rel l cs -> nth_error cs j = Some x -> cjmp x = false ->
  exists f i, jreach l j f /\ nth_error l f = Some i /\ is_jmp i = false.
Proof.
  intros R N J. destruct (rel_nth _ _ _ _ R N) as (i & M & R1). inversion R1; subst.
  - exists j, i. split; [constructor|]. auto.
  - exists j, (IJ o d). split; [constructor|]. auto.
  - exists f, (I0 p). split; [|split; [assumption|reflexivity]].
    eapply jr_step; [exact M|eassumption|reflexivity|eassumption|eassumption].
Qed.

Lemma proc_chains l cs : rel l cs -> proc l cs (length l) -> chains_end l.
Proof.
  intros R PR k o d t N GO.
  assert (KL : (k < length l)%nat) by (apply nth_error_Some; congruence).
  destruct (rel_nth' _ _ _ _ R N) as (c & M & R1).
  destruct (PR k o d c KL N M) as [(d' & t' & j & -> & GO' & GJ & JR & NJ)|[p ->]].
  - rewrite (goes_inj _ _ _ _ _ GO GO').
    destruct (nth_lt cs j) as [x X]. { rewrite (proj1 R). exact (proj1 GJ). }
    destruct (jreach_end _ _ _ _ R X (proj1 (NJ _ X))) as (f & i & A & B & C).
    exists f, i. split; [eapply jreach_trans; eassumption|]. auto.
  - inversion R1; subst. rewrite (goes_inj _ _ _ _ _ GO H3). exists f, (I0 p).
    split; [assumption|]. split; [assumption|reflexivity].
Qed.

Lemma jreach_count l t f : jreach l t f -> exists n, creach l (map CI l) n t f.
Proof.
  induction 1 as [k|k i d t j N J D GO _ [n IH]]; [exists O; constructor|].
  exists (S n). eapply cr_step; [apply map_nth_error, N|exact J|exact D|exact GO|exact IH].
Qed.

Lemma creach_new l cs n t f i : rel l cs -> creach l (map CI l) n t f -> nth_error l f = Some i ->
  is_jmp i = false ->
  exists n' j c, (n' <= n)%nat /\ creach l cs n' t j /\ nth_error cs j = Some c /\ cjmp c = false.
Proof.
  intros R H N J. induction H as [k|n k i0 d t j M JI D GO H IH].
  - destruct (rel_nth' _ _ _ _ R N) as (c & M & R1).
    exists O, k, c. split; [lia|]. split; [constructor|]. split; [exact M|].
    inversion R1; subst; cbn [cjmp] in *; auto.
  - specialize (IH N). assert (M0 : nth_error l k = Some i0).
    { destruct (nth_error l k) as [y|] eqn:E.
      - apply (map_nth_error CI) in E. congruence.
      - apply nth_error_None in E. assert (nth_error (map CI l) k <> None) as X by congruence.
        apply nth_error_Some in X. rewrite map_length in X. lia. }
    destruct (rel_nth' _ _ _ _ R M0) as (c & MC & R1). inversion R1; subst.
    + destruct IH as (n' & j' & c' & A & B & C & E). exists (S n'), j', c'. split; [lia|].
      split; [eapply cr_step; eassumption|]. auto.
    + destruct (nth_lt cs j0) as [x X]. { rewrite (proj1 R). exact (proj1 H1). }
      exists 1%nat, j0, x. split; [lia|].
      split; [eapply cr_step; [exact MC|exact JI|reflexivity|exact H1|constructor]|].
      split; [exact X|]. apply H3, X.
    + exists O, k, (CR p). split; [lia|]. split; [constructor|]. auto.
Qed.

Lemma chains_bound l : chains_end l -> forall m, exists N, forall k o d t, (k < m)%nat ->
  nth_error l k = Some (IJ o d) -> goes l (pos l (S k)) d t ->
  exists n f i, (n < N)%nat /\ creach l (map CI l) n t f /\ nth_error l f = Some i /\ is_jmp i = false.
Proof.
  intros CE. induction m as [|m [N IH]].
  - exists O. intros. lia.
  - assert (X : exists N', forall o d t, nth_error l m = Some (IJ o d) -> goes l (pos l (S m)) d t ->
      exists n f i, (n < N')%nat /\ creach l (map CI l) n t f /\ nth_error l f = Some i /\ is_jmp i = false).
    { assert (DEC : (exists o d t, nth_error l m = Some (IJ o d) /\ goes l (pos l (S m)) d t) \/
                    ~ (exists o d t, nth_error l m = Some (IJ o d) /\ goes l (pos l (S m)) d t)).
      { destruct (nth_error l m) as [i|]; [|right; intros (? & ? & ? & X & _); discriminate].
        destruct i; try (right; intros (? & ? & ? & X & _); discriminate).
        assert (Y : forall q, (exists t, (t < q)%nat /\ goes l (pos l (S m)) d t) \/
                              ~ (exists t, (t < q)%nat /\ goes l (pos l (S m)) d t)).
        { induction q as [|q [(t & A & B)|Q]].
          - right. intros (t & A & _). lia.
          - left. exists t. split; [lia|exact B].
          - destruct (Nat.lt_ge_cases q (length l)) as [L|L].
            + destruct (Z.eq_dec (pos l (S m) + i32 d) (pos l q)) as [E|E].
              * left. exists q. split; [lia|]. split; assumption.
              * right. intros (t & A & B). destruct (Nat.eq_dec t q) as [->|NE].
                -- apply E, B.
                -- apply Q. exists t. split; [lia|exact B].
            + right. intros (t & A & B). destruct (Nat.eq_dec t q) as [->|NE].
              * destruct B. lia.
              * apply Q. exists t. split; [lia|exact B]. }
        destruct (Y (length l)) as [(t & _ & B)|Q].
        - left. exists o, d, t. auto.
        - right. intros (o' & d' & t & E & B). injection E as <- <-. apply Q. exists t.
          split; [exact (proj1 B)|exact B]. }
      destruct DEC as [(o & d & t & N0 & GO)|NO].
      - destruct (CE _ _ _ _ N0 GO) as (f & i & JR & NF & J).
        destruct (jreach_count _ _ _ JR) as [n C]. exists (S n). intros o' d' t' N1 GO'.
        rewrite N0 in N1. injection N1 as <- <-. rewrite <- (goes_inj _ _ _ _ _ GO GO').
        exists n, f, i. auto.
      - exists O. intros o d t N0 GO. exfalso. apply NO. exists o, d, t. auto. }
    destruct X as [N' X]. exists (Nat.max N N'). intros k o d t L NK GO.
    destruct (Nat.eq_dec k m) as [->|NE].
    + destruct (X _ _ _ NK GO) as (n & f & i & A & B). exists n, f, i. split; [lia|exact B].
    + destruct (IH k o d t ltac:(lia) NK GO) as (n & f & i & A & B). exists n, f, i. split; [lia|exact B].
Qed.

Lemma optimize_from_enough l : wf l -> lsz l < 2 ^ 31 -> forall fuel,
  (forall k o d t, nth_error l k = Some (IJ o d) -> goes l (pos l (S k)) d t ->
    exists n f i, (n < fuel)%nat /\ creach l (map CI l) n t f /\ nth_error l f = Some i /\ is_jmp i = false) ->
  forall steps k cs, rel l cs -> untouched l cs k -> (k <= length l)%nat ->
  exists code', optimize_from steps fuel (cbs cs) (pos l k) = Ok code'.
Proof.
  intros WF LT fuel HF. induction steps as [|steps IH]; intros k cs R U KL; cbn [optimize_from]; [eauto|].
  pose proof (rel_sizes _ _ R) as SZ.
  assert (CL : Z.of_nat (length (cbs cs)) = lsz l).
  { change (zlength (cbs cs) = lsz l). rewrite <- (firstn_all cs), (cbs_len _ _ _ SZ).
    apply pos_all. rewrite (proj1 R). lia. }
  rewrite CL, Z.geb_leb. destruct (Z.leb_spec (lsz l) (pos l k)) as [GE|GE]; [eauto|].
  destruct (nth_error l k) as [i|] eqn:N.
  2:{ apply nth_error_None in N. rewrite pos_all in GE by lia. lia. }
  pose proof (U k i (le_n _) N) as M. rewrite (byte_at_pos _ _ _ _ SZ M). cbn [cin].
  destruct (optimize_at_enough l cs k i fuel WF R N M) as [c1 O].
  { intros o d t -> GO. destruct (HF _ _ _ _ N GO) as (n & f & i & A & B & C & D).
    destruct (creach_new _ _ _ _ _ _ R B C D) as (n' & j & c & A' & B' & C' & D').
    exists n', j, c. split; [lia|]. auto. }
  rewrite O. cbn [rbind]. rewrite norm_opcode, encode_length.
  destruct (optimize_at_ok _ _ _ _ _ _ WF LT R N M O) as (c' & -> & R' & _ & _).
  change (Z.of_nat (length (encode i))) with (isz i). rewrite <- (pos_S _ _ _ N).
  apply IH; [exact R'| |].
  - intros k2 i2 L2 N2. rewrite nth_upd_other by lia. apply U; [lia|exact N2].
  - assert (k < length l)%nat by (apply nth_error_Some; congruence). lia.
Qed.

Lemma optimize_terminates l : wf l -> lsz l < 2 ^ 31 -> chains_end l ->
  exists fuel code', optimize fuel (encodes l) = Ok code'.
Proof.
  intros WF LT CE. destruct (chains_bound l CE (length l)) as [N HN]. exists N.
  unfold optimize. rewrite <- cbs_ci. apply (optimize_from_enough l WF LT N) with (k := O).
  - intros k o d t NK GO. apply (HN k o d t); auto. apply nth_error_Some. congruence.
  - apply rel_init.
  - intros k i _ X. apply map_nth_error, X.
  - lia.
Qed.
