(* Frames: how the activations lie in memory. *)
From Verif Require Import Base ModelValue ModelArray ModelFrame SpecFrame ProofsFrame.

Definition nv (x : act) : Z := Z.of_nat (length (a_vars x)).
Definition hd_len (x : act) : Z := if a_ruby x then 8 else 3.
Definition flag_of (x : act) : Z := if a_ruby x then ruby_flag (a_use x) (nv x) else native_flag (nv x).
Definition nops (f : frame) : Z := Z.of_nat (length (f_ops f)).
Definition livef (fs : list frame) (a : nat) : Prop := exists k f, nth_error fs k = Some f /\ f_act f = a.

(* ---- reading the flag word ---- *)
Lemma flag_of_eq x : flag_of x = nv x * 2 ^ 32 + flag_low (a_ruby x) (if a_ruby x then a_use x else true).
Proof. unfold flag_of. destruct (a_ruby x); [apply ruby_flag_eq | apply native_flag_eq]. Qed.
Lemma flag_len_of m a x : m (a + EV_FLAG) = flag_of x -> flag_len m a = nv x.
Proof. intros H. unfold flag_len. rewrite H, flag_of_eq. apply flag_shift. Qed.
Lemma is_ruby_of m a x : m (a + EV_FLAG) = flag_of x -> is_ruby m a = a_ruby x.
Proof.
  intros H. unfold is_ruby. rewrite H, flag_of_eq, flag_land by (unfold FLG_IS_RUBY, FLG_DISCARD; lia).
  destruct (a_ruby x), (a_use x); reflexivity.
Qed.
Lemma discard_of x : a_ruby x = true -> (Z.land (flag_of x) FLG_DISCARD =? 0) = a_use x.
Proof.
  intros R. rewrite flag_of_eq, flag_land by (unfold FLG_IS_RUBY, FLG_DISCARD; lia). rewrite R. destruct (a_use x); reflexivity.
Qed.
Lemma frame_iseq_of m e x i : m (e + EV_FLAG) = flag_of x -> a_ruby x = true -> 0 < i < 2 ^ 60 ->
  m (e + EV_ISEQ) = iseq_word i -> frame_iseq m e = Ok i.
Proof.
  intros F R Hi W. unfold frame_iseq. rewrite (is_ruby_of _ _ _ F), R, W, iseq_word_eq, fix_roundtrip by lia.
  destruct (Z.eqb_spec i 0); [lia|]. rewrite Z.shiftl_mul_pow2 by lia. unfold u64. change (2 ^ 3) with 8.
  rewrite Z.mod_small by lia. rewrite Z.div_mul by lia. reflexivity.
Qed.

(* ---- writing words ---- *)
Lemma upd_same m a w : upd m a w a = w.
Proof. unfold upd. rewrite Z.eqb_refl. reflexivity. Qed.
Lemma upd_other m a w b : b <> a -> upd m a w b = m b.
Proof. intros H. unfold upd. destruct (Z.eqb_spec b a); [contradiction|reflexivity]. Qed.
Lemma write_out l : forall m a b, b < a \/ a + Z.of_nat (length l) <= b -> write m a l b = m b.
Proof.
  induction l as [|w l IH]; intros m a b H; [reflexivity|]. cbn [write length] in *.
  rewrite IH by lia. apply upd_other. lia.
Qed.
Lemma write_in l : forall m a i w, nth_error l i = Some w -> write m a l (a + Z.of_nat i) = w.
Proof.
  induction l as [|w l IH]; intros m a i u H; [destruct i; discriminate|]. cbn [write].
  destruct i as [|i]; cbn [nth_error] in H.
  - injection H as <-. rewrite write_out by lia. replace (a + Z.of_nat 0) with a by lia. apply upd_same.
  - replace (a + Z.of_nat (S i)) with (a + 1 + Z.of_nat i) by lia. apply IH. exact H.
Qed.
Lemma read_nth n : forall m a i, (i < n)%nat -> nth_error (read m a n) i = Some (m (a + Z.of_nat i)).
Proof.
  induction n as [|n IH]; intros m a i H; [lia|]. destruct i; cbn [read nth_error].
  - f_equal. f_equal. lia.
  - rewrite IH by lia. f_equal. f_equal. lia.
Qed.
Lemma read_length n : forall m a, length (read m a n) = n.
Proof. induction n; intros; cbn; congruence. Qed.

(* ---- up, within, method_of ---- *)
Lemma up_S l d a p : up l (S d) a = Some p <-> exists q, up l d a = Some q /\ exists x, nth_error l q = Some x /\ a_parent x = Some p.
Proof.
  revert a. induction d as [|d IH]; intros a; split.
  - cbn. destruct (nth_error l a) as [x|] eqn:E; [|discriminate]. destruct (a_parent x) eqn:E2; [|discriminate].
    intros [= ->]. exists a. split; [reflexivity|]. exists x. auto.
  - cbn. intros (q & [= <-] & x & -> & ->). reflexivity.
  - intros H. cbn [up] in H. destruct (nth_error l a) as [x|] eqn:E; [|discriminate].
    destruct (a_parent x) as [b|] eqn:E2; [|discriminate]. apply IH in H as (q & H1 & H2).
    exists q. split; [|exact H2]. cbn [up]. rewrite E, E2. exact H1.
  - intros (q & H1 & H2). cbn [up] in H1. change (up l (S (S d)) a) with
      (match nth_error l a with Some x => match a_parent x with Some p => up l (S d) p | None => None end | None => None end).
    destruct (nth_error l a) as [x|] eqn:E; [|discriminate].
    destruct (a_parent x) as [b|] eqn:E2; [|discriminate]. apply IH. exists q. split; assumption.
Qed.
Lemma within_refl l a : within l a a.
Proof. exists O. reflexivity. Qed.
Lemma within_step l a x p b : nth_error l a = Some x -> a_parent x = Some p -> within l p b -> within l a b.
Proof. intros H1 H2 (d & H). exists (S d). cbn. rewrite H1, H2. exact H. Qed.
Lemma within_inv l a b : within l a b -> a = b \/ exists x p, nth_error l a = Some x /\ a_parent x = Some p /\ within l p b.
Proof.
  intros (d & H). destruct d as [|d]; cbn in H; [left; congruence|right].
  destruct (nth_error l a) as [x|] eqn:E; [|discriminate]. destruct (a_parent x) as [p|] eqn:E2; [|discriminate].
  exists x, p. repeat split; auto. exists d. exact H.
Qed.
Lemma within_trans l a b c : within l a b -> within l b c -> within l a c.
Proof.
  intros (d & H). revert a H. induction d as [|d IH]; intros a H W; cbn in H.
  - injection H as <-. exact W.
  - destruct (nth_error l a) as [x|] eqn:E; [|discriminate]. destruct (a_parent x) as [p|] eqn:E2; [|discriminate].
    apply (within_step _ _ _ _ _ E E2). apply IH; assumption.
Qed.

(* ---- layout ---- *)
Section Layout.
Variables (l : list act) (A : nat -> Z) (B : Z).
Fixpoint lay (fs : list frame) (tp : Z) : Prop :=
  match fs with
  | [] => tp = B - 1
  | f :: r => exists x, nth_error l (f_act f) = Some x /\ tp = A (f_act f) + hd_len x + nops f /\
                lay r (A (f_act f) - nv x - 2)
  end.
Lemma lay_bounds fs : forall tp k f, lay fs tp -> nth_error fs k = Some f ->
  exists x, nth_error l (f_act f) = Some x /\ B - 1 <= A (f_act f) - nv x - 2 /\ A (f_act f) + hd_len x + nops f <= tp.
Proof.
  induction fs as [|g fs IH]; intros tp k f H E; [destruct k; discriminate|].
  destruct H as (y & Hy & Htp & H). assert (T : forall fs tp, lay fs tp -> B - 1 <= tp).
  { clear. induction fs as [|g fs IH]; intros tp H; cbn in H; [lia|]. destruct H as (y & Hy & -> & H).
    apply IH in H. unfold nv, hd_len, nops in *. destruct (a_ruby y); lia. }
  destruct k as [|k]; cbn in E.
  - injection E as <-. exists y. repeat split; auto; [|lia]. apply (T _ _ H).
  - destruct (IH _ _ _ H E) as (x & H1 & H2 & H3). exists x. repeat split; auto.
    unfold nv, hd_len, nops in *. destruct (a_ruby y); lia.
Qed.
Lemma lay_order fs : forall tp j k f g x, lay fs tp -> (j < k)%nat -> nth_error fs j = Some f -> nth_error fs k = Some g ->
  nth_error l (f_act f) = Some x ->
  exists y, nth_error l (f_act g) = Some y /\ A (f_act g) + hd_len y + nops g <= A (f_act f) - nv x - 2.
Proof.
  induction fs as [|h fs IH]; intros tp j k f g x H J E1 E2 Hx; [destruct j; discriminate|].
  destruct H as (y & Hy & Htp & H). destruct k as [|k]; [lia|]. cbn in E2. destruct j as [|j]; cbn in E1.
  - injection E1 as <-. rewrite Hx in Hy. injection Hy as <-.
    destruct (lay_bounds _ _ _ _ H E2) as (z & Hz & _ & Hb). exists z. split; assumption.
  - apply (IH _ j k f g x H); auto. lia.
Qed.
Lemma lay_total fs : forall tp, lay fs tp -> tp - B = total l fs.
Proof.
  induction fs as [|f fs IH]; intros tp H; cbn in *; [lia|]. destruct H as (x & Hx & -> & H). apply IH in H.
  unfold frame_size. rewrite Hx. unfold hd_len, nops, nv in *. lia.
Qed.
End Layout.

(* ---- the invariant ---- *)
Record static (l : list act) (fs : list frame) (A L : nat -> Z) (K : nat -> Prop) (B hp0 h tp : Z) : Prop := mkstatic {
  st_lay : lay l A B fs tp;
  st_fit : tp <= B + 8192;
  st_bot : 0 < B /\ B + 8192 <= hp0 /\ hp0 <= h /\ h < 2 ^ 60;
  st_nodup : NoDup (map f_act fs);
  st_par : forall k f x p, nth_error fs k = Some f -> nth_error l (f_act f) = Some x -> a_parent x = Some p ->
    K p \/ exists j g, (k < j)%nat /\ nth_error fs j = Some g /\ f_act g = p;
  st_Kpar : forall a x p, K a -> nth_error l a = Some x -> a_parent x = Some p -> K p;
  st_Kcode : forall a, K a -> is_code l a;
  st_Kdec : forall a, K a \/ ~ K a;
  st_len : forall a x, nth_error l a = Some x -> nv x <= 8192;
  st_code : forall a x, nth_error l a = Some x -> a_ruby x = true -> code_ok (a_iseq x);
  st_parent : forall a x p, nth_error l a = Some x -> a_parent x = Some p -> (p < a)%nat /\ is_code l p /\ a_ruby x = true;
  st_blk : forall a x t b, nth_error l a = Some x -> a_blk x = Some (t, b) -> 0 < t < 2 ^ 30 /\ is_code l b;
  st_A : forall a, (a < length l)%nat -> B < A a < B + 8192;
  st_loc : forall a, livef fs a -> ~ K a -> L a = A a;
  st_heap : forall a x, K a -> nth_error l a = Some x -> hp0 <= L a - nv x - 2 /\ L a + 8 <= h;
  st_sep : forall a b x y, K a -> K b -> a <> b -> nth_error l a = Some x -> nth_error l b = Some y ->
    L a + 8 <= L b - nv y - 2 \/ L b + 8 <= L a - nv x - 2;
  st_pc : forall k f, nth_error fs k = Some f -> 0 <= f_pc f < 2 ^ 62;
  st_last : exists f0, nth_error fs (length fs - 1) = Some f0 /\ f_act f0 = O;
  st_zero : exists x0, nth_error l 0 = Some x0 /\ a_ruby x0 = false
}.

Record fr_ok (m : Z -> Z) (A L : nat -> Z) (k : nat) (below : option frame) (f : frame) (x : act) : Prop := mkfr {
  fr_prev : m (A (f_act f) + EV_PREV_CFP) = enc (match below with Some g => A (f_act g) | None => 0 end);
  fr_ep : m (A (f_act f) + EV_EP) = enc (L (f_act f));
  fr_flag : m (A (f_act f) + EV_FLAG) = flag_of x;
  fr_pc : a_ruby x = true -> k <> O -> m (A (f_act f) + EV_PC) = fixword (f_pc f);
  fr_ops : forall j w, nth_error (f_ops f) j = Some w ->
    m (A (f_act f) + hd_len x + nops f - 1 - Z.of_nat j) = w;
  fr_self : m (A (f_act f) - 1) = a_self x
}.
Record env_ok (m : Z -> Z) (A L : nat -> Z) (B : Z) (a : nat) (x : act) : Prop := mkenv {
  en_ep : m (L a + EV_EP) = enc (L a);
  en_flag : m (L a + EV_FLAG) = flag_of x;
  en_self1 : m (L a - 1) = a_self x;
  en_self2 : a <> O -> m (L a - nv x - 2) = a_self x;
  en_vars : forall i w, nth_error (a_vars x) i = Some w -> m (L a - nv x - 1 + Z.of_nat i) = w;
  en_iseq : a_ruby x = true -> m (L a + EV_ISEQ) = iseq_word (a_iseq x);
  en_blk : a_ruby x = true ->
    m (L a + EV_BLK) = blk_word (match a_blk x with Some (t, b) => Some (KBlock t (A b - B)) | None => None end)
}.
Record link_ok (m : Z -> Z) (L : nat -> Z) (l : list act) (a : nat) (x : act) : Prop := mklink {
  ln_outer : m (L a + EV_OUTER) = enc_opt (option_map L (a_parent x));
  ln_mfp : forall r, method_of l a r -> m (L a + EV_MFP) = enc (L r)
}.
Definition present (fs : list frame) (K : nat -> Prop) (a : nat) : Prop := livef fs a \/ K a.
Record memok (m : Z -> Z) (l : list act) (fs : list frame) (A L : nat -> Z) (K P : nat -> Prop) (B : Z) : Prop := mkmem {
  mo_fr : forall k f x, nth_error fs k = Some f -> nth_error l (f_act f) = Some x ->
    fr_ok m A L k (nth_error fs (S k)) f x;
  mo_env : forall a x, present fs K a -> nth_error l a = Some x -> env_ok m A L B a x;
  mo_link : forall a x, present fs K a -> ~ P a -> nth_error l a = Some x -> a_ruby x = true -> link_ok m L l a x
}.
