(** The jumps of generated code lead to instructions. *)
From Coq Require Import ZArith List Bool Lia.
From Verif Require Import Base ModelValue ModelInst ProofsInst ModelCodegen SpecOpt
  ProofsCore1 ProofsDefined ProofsCore8.
Import ListNotations.
Ltac Zify.zify_post_hook ::= Z.div_mod_to_equations.
Open Scope Z_scope.

Definition skel (i : inst) : inst :=
  match i with
  | IJ o _ => IJ o 0 | IJI c k _ => IJI c k 0 | ICase o t _ => ICase o t 0 | i => i
  end.
Definition disp (i : inst) : option Z :=
  match i with IJ _ d | IJI _ _ d | ICase _ _ d => Some d | _ => None end.
Definition set_disp (d : Z) (i : inst) : inst :=
  match i with
  | IJ o _ => IJ o d | IJI c k _ => IJI c k d | ICase o t _ => ICase o t d | i => i
  end.
Definition is_jmp (i : inst) : bool :=
  match i with IJ oJMP _ | IJ oJMP_BACK _ => true | _ => false end.
Definition is_case (i : inst) : bool := match i with ICase _ _ _ => true | _ => false end.

Definition isz (i : inst) : Z := zlength (encode i).
Definition lsz (l : list inst) : Z := zlength (encodes l).
Definition pos (l : list inst) (k : nat) : Z := lsz (firstn k l).

Lemma isz_skel i : isz (skel i) = isz i.
Proof. destruct i; reflexivity. Qed.
Lemma skel_set d i : skel (set_disp d i) = skel i.
Proof. destruct i; reflexivity. Qed.
Lemma disp_set d i : disp i <> None -> disp (set_disp d i) = Some d.
Proof. destruct i; cbn; congruence. Qed.
Lemma skel_jmp i j : skel i = skel j -> is_jmp i = is_jmp j.
Proof. destruct i, j; cbn; try congruence. intros H. injection H as ->. reflexivity. Qed.
Lemma skel_disp i j : skel i = skel j -> disp i <> None -> disp j <> None.
Proof. destruct i, j; cbn; try congruence. Qed.
Lemma isz_eq i j : skel i = skel j -> isz i = isz j.
Proof. intros H. rewrite <- isz_skel, H. apply isz_skel. Qed.

Lemma lsz_cons i l : lsz (i :: l) = isz i + lsz l.
Proof. unfold lsz, isz. rewrite encodes_cons. apply zlength_app. Qed.
Lemma lsz_app a b : lsz (a ++ b) = lsz a + lsz b.
Proof. unfold lsz. rewrite encodes_app. apply zlength_app. Qed.
Lemma lsz_eq : forall a b, map skel a = map skel b -> lsz a = lsz b.
Proof.
  induction a as [|i a IH]; intros [|j b]; cbn [map]; try discriminate; [reflexivity|].
  intros H. injection H as H1 H2. rewrite !lsz_cons, (IH _ H2), (isz_eq _ _ H1). reflexivity.
Qed.
Lemma isz_pos i : 0 < isz i.
Proof. apply encode_pos. Qed.

Lemma pos_O l : pos l 0 = 0.
Proof. reflexivity. Qed.
Lemma pos_all l k : (length l <= k)%nat -> pos l k = lsz l.
Proof. intros H. unfold pos. rewrite firstn_all2 by exact H. reflexivity. Qed.
Lemma pos_S l : forall k i, nth_error l k = Some i -> pos l (S k) = pos l k + isz i.
Proof.
  unfold pos. induction l as [|j l IH]; intros [|k] i; try discriminate.
  - cbn. intros H. injection H as ->. unfold lsz. cbn. rewrite app_nil_r. reflexivity.
  - intros H. cbn [firstn]. rewrite !lsz_cons. specialize (IH _ _ H).
    cbn [firstn] in IH. rewrite IH. lia.
Qed.
Lemma pos_mono l j k : (j <= k)%nat -> pos l j <= pos l k.
Proof.
  intros H. unfold pos. replace k with (j + (k - j))%nat by lia.
  generalize (k - j)%nat. clear. intros n.
  rewrite <- (firstn_skipn j (firstn (j + n) l)), lsz_app, firstn_firstn.
  rewrite Nat.min_l by lia. pose proof (zlength_nonneg (encodes (skipn j (firstn (j + n) l)))).
  unfold lsz. lia.
Qed.
Lemma pos_inj l j k : (j <= length l)%nat -> (k <= length l)%nat -> pos l j = pos l k -> j = k.
Proof.
  assert (R : forall j k, (k <= length l)%nat -> (j < k)%nat -> pos l j < pos l k).
  { clear. intros j k L H. destruct (nth_error l j) as [i|] eqn:E.
    - pose proof (pos_S _ _ _ E). pose proof (isz_pos i). pose proof (pos_mono l (S j) k H). lia.
    - apply nth_error_None in E. lia. }
  intros A B E. destruct (Nat.lt_trichotomy j k) as [H|[H|H]]; [|exact H|].
  - specialize (R _ _ B H). lia.
  - specialize (R _ _ A H). lia.
Qed.
Lemma pos_app_l a b k : (k <= length a)%nat -> pos (a ++ b) k = pos a k.
Proof.
  intros H. unfold pos. rewrite firstn_app. replace (k - length a)%nat with O by lia.
  cbn. rewrite app_nil_r. reflexivity.
Qed.

(** ** One list of instructions grows out of another *)
Definition grows (l l' : list inst) : Prop := exists m, map skel l' = map skel l ++ m.

Lemma grows_refl l : grows l l.
Proof. exists []. rewrite app_nil_r. reflexivity. Qed.
Lemma grows_trans a b c : grows a b -> grows b c -> grows a c.
Proof. intros [x X] [y Y]. exists (x ++ y). rewrite Y, X, app_assoc. reflexivity. Qed.
Lemma grows_app l m : grows l (l ++ m).
Proof. exists (map skel m). apply map_app. Qed.
Lemma grows_length l l' : grows l l' -> (length l <= length l')%nat.
Proof.
  intros [m H]. apply (f_equal (@length _)) in H. rewrite app_length, !map_length in H. lia.
Qed.
Lemma grows_nth l l' k i : grows l l' -> nth_error l k = Some i ->
  exists j, nth_error l' k = Some j /\ skel j = skel i.
Proof.
  intros [m H] E.
  assert (X : nth_error (map skel l') k = Some (skel i)).
  { rewrite H, nth_error_app1.
    - apply map_nth_error. exact E.
    - rewrite map_length. apply nth_error_Some. congruence. }
  destruct (nth_error l' k) as [j|] eqn:F.
  - exists j. split; [reflexivity|]. apply (map_nth_error skel) in F. congruence.
  - apply nth_error_None in F. assert (Y : nth_error (map skel l') k <> None) by congruence.
    apply nth_error_Some in Y. rewrite map_length in Y. lia.
Qed.
Lemma grows_pos l l' k : grows l l' -> (k <= length l)%nat -> pos l' k = pos l k.
Proof.
  intros [m H] L. unfold pos. apply lsz_eq. rewrite <- !firstn_map, H, firstn_app.
  rewrite map_length. replace (k - length l)%nat with O by lia. cbn.
  rewrite app_nil_r. reflexivity.
Qed.
Lemma grows_eq l l' : map skel l' = map skel l -> grows l l'.
Proof. intros H. exists []. rewrite app_nil_r. exact H. Qed.

(** ** Instruction boundaries, ends of jumps *)
Definition bnd (l : list inst) (p : Z) : Prop :=
  exists k, (k <= length l)%nat /\ p = pos l k.
Definition jend (l : list inst) (p : Z) : Prop :=
  exists k i, nth_error l k = Some i /\ disp i <> None /\ p = pos l (S k).
(** an instruction that is no JMP starts at [p] *)
Definition lands (l : list inst) (p : Z) : Prop :=
  exists k i, nth_error l k = Some i /\ is_jmp i = false /\ p = pos l k.

Lemma bnd_grows l l' p : grows l l' -> bnd l p -> bnd l' p.
Proof.
  intros G (k & L & ->). exists k. pose proof (grows_length _ _ G).
  split; [lia|]. symmetry. apply grows_pos; assumption.
Qed.
Lemma jend_grows l l' p : grows l l' -> jend l p -> jend l' p.
Proof.
  intros G (k & i & E & D & ->). destruct (grows_nth _ _ _ _ G E) as (j & F & K).
  exists k, j. split; [exact F|]. split; [eapply skel_disp; [symmetry; exact K|exact D]|].
  symmetry. apply grows_pos; [exact G|]. apply nth_error_Some. congruence.
Qed.
Lemma lands_grows l l' p : grows l l' -> lands l p -> lands l' p.
Proof.
  intros G (k & i & E & D & ->). destruct (grows_nth _ _ _ _ G E) as (j & F & K).
  exists k, j. split; [exact F|]. split; [rewrite (skel_jmp _ _ K); exact D|].
  symmetry. apply grows_pos; [exact G|].
  assert (k < length l)%nat by (apply nth_error_Some; congruence). lia.
Qed.
Lemma bnd_end l : bnd l (lsz l).
Proof. exists (length l). split; [lia|]. symmetry. apply pos_all. lia. Qed.
Lemma jend_bnd l p : jend l p -> bnd l p.
Proof.
  intros (k & i & E & _ & ->). exists (S k). split; [|reflexivity].
  assert (k < length l)%nat by (apply nth_error_Some; congruence). lia.
Qed.
Lemma jend_last l i : disp i <> None -> jend (l ++ [i]) (lsz (l ++ [i])).
Proof.
  intros D. exists (length l), i. split; [rewrite nth_error_app2, Nat.sub_diag by lia; reflexivity|].
  split; [exact D|]. symmetry. apply pos_all. rewrite app_length. cbn. lia.
Qed.

Lemma nth_upd_same {A} (x : A) : forall k l, (k < length l)%nat -> nth_error (upd_nth k x l) k = Some x.
Proof.
  induction k as [|k IH]; intros [|y l] H; cbn in *; try lia; [reflexivity|]. apply IH. lia.
Qed.
Lemma nth_upd_other {A} (x : A) : forall k l j, j <> k -> nth_error (upd_nth k x l) j = nth_error l j.
Proof.
  induction k as [|k IH]; intros [|y l] [|j] H; cbn in *; try lia; try reflexivity. apply IH. lia.
Qed.

Section Shape.
Variable strict : bool.

(** The displacement [d] of a jump that ends at [e] leads to a boundary; if
    [strict], when this is backwards, to an instruction that is no JMP. *)
Definition hits (l : list inst) (e d : Z) : Prop :=
  exists q, bnd l q /\ (d - (q - e)) mod 2 ^ 32 = 0 /\
            (strict = true -> e <= q \/ lands l q).
Definition thits (l : list inst) (e x : Z) : Prop := exists q, bnd l q /\ x = pos_diff e q.

Definition table_ok (st : cg) (l : list inst) (o : opc) (t e : Z) : Prop :=
  0 <= t /\
  match o with
  | oOPT_CASE => exists m, nth_error (g_map st) (Z.to_nat t) = Some m /\
      forall x, In x (map snd m) -> thits l e x
  | oOPT_CASE2 => exists lo hi m def, nth_error (g_map2 st) (Z.to_nat t) = Some (lo, hi, m, def) /\
      forall x, x = def \/ In x (map snd m) -> thits l e x
  end.

Record inv (st : cg) (l : list inst) : Prop := {
  i_code : code st = encodes l;
  i_tgt : forall k i d, nth_error l k = Some i -> disp i = Some d -> hits l (pos l (S k)) d;
  i_tab : forall k o t d, nth_error l k = Some (ICase o t d) ->
    table_ok st l o t (pos l (S k));
  i_uniq : forall k k' o t d d', nth_error l k = Some (ICase o t d) ->
    nth_error l k' = Some (ICase o t d') -> k = k';
  i_esc : Forall (fun x => Forall (jend l) (map fst (lp_esc x))) (loops st);
  i_ret : Forall (fun x => Forall (jend l) (jd_ret x ++ jd_mret x)) (jds st);
  i_ex : Forall (fun e => bnd l (ex_dest e)) (extab st)
}.

Lemma inv_cur st l : inv st l -> cur st = lsz l.
Proof. intros I. unfold cur. rewrite (i_code _ _ I). reflexivity. Qed.

Lemma hits_grows l l' e d : grows l l' -> hits l e d -> hits l' e d.
Proof.
  intros G (q & A & B & C). exists q. split; [eapply bnd_grows; eassumption|].
  split; [exact B|]. intros S. destruct (C S); [auto|right; eapply lands_grows; eassumption].
Qed.
Lemma thits_grows l l' e d : grows l l' -> thits l e d -> thits l' e d.
Proof. intros G (q & A & B). exists q. split; [eapply bnd_grows; eassumption|exact B]. Qed.
Lemma table_grows st l l' o t e : grows l l' -> table_ok st l o t e -> table_ok st l' o t e.
Proof.
  intros G [Z T]. split; [exact Z|]. destruct o.
  - destruct T as (m & A & B). exists m. split; [exact A|]. intros x X.
    eapply thits_grows; [exact G|apply B, X].
  - destruct T as (lo & hi & m & def & A & B). exists lo, hi, m, def. split; [exact A|].
    intros x X. eapply thits_grows; [exact G|apply B, X].
Qed.
Lemma Forall_jend l l' L : grows l l' -> Forall (jend l) L -> Forall (jend l') L.
Proof. intros G. apply Forall_impl. intros p. apply jend_grows, G. Qed.
Lemma Forall_thits l l' e L : grows l l' -> Forall (thits l e) L -> Forall (thits l' e) L.
Proof. intros G. apply Forall_impl. intros p. apply thits_grows, G. Qed.

(** ** Steps of the generator *)
Lemma nth_snoc {A} (l : list A) x k y : nth_error (l ++ [x]) k = Some y ->
  (k < length l)%nat /\ nth_error l k = Some y \/ k = length l /\ y = x.
Proof.
  intros H. destruct (Nat.lt_ge_cases k (length l)) as [L|L].
  - rewrite nth_error_app1 in H by exact L. auto.
  - rewrite nth_error_app2 in H by exact L.
    destruct (k - length l)%nat as [|n] eqn:E; cbn in H.
    + right. split; [lia|congruence].
    + destruct n; discriminate.
Qed.

Lemma s_emit_gen i st st' l : inv st l ->
  code st' = code st ++ encode i -> loops st' = loops st -> jds st' = jds st ->
  extab st' = extab st ->
  (forall d, disp i = Some d -> hits (l ++ [i]) (lsz (l ++ [i])) d) ->
  (forall o t e, table_ok st l o t e -> table_ok st' l o t e) ->
  (forall o t d, i = ICase o t d -> table_ok st' (l ++ [i]) o t (lsz (l ++ [i])) /\
     forall k d', nth_error l k <> Some (ICase o t d')) ->
  inv st' (l ++ [i]) /\ grows l (l ++ [i]).
Proof.
  intros I EC EL EJ EX HD HT HC. pose proof (grows_app l [i]) as G. split; [|exact G].
  assert (PL : pos (l ++ [i]) (S (length l)) = lsz (l ++ [i])).
  { apply pos_all. rewrite app_length. cbn. lia. }
  constructor.
  - rewrite EC, (i_code _ _ I), encodes_app. unfold encodes. cbn. rewrite app_nil_r. reflexivity.
  - intros k j d N D. apply nth_snoc in N as [[L N]|[-> ->]].
    + rewrite pos_app_l by lia. eapply hits_grows; [exact G|]. eapply i_tgt; eassumption.
    + rewrite PL. apply HD, D.
  - intros k o t d N. apply nth_snoc in N as [[L N]|[-> N]].
    + rewrite pos_app_l by lia. eapply table_grows; [exact G|]. apply HT.
      eapply i_tab; eassumption.
    + rewrite PL. eapply HC. symmetry. exact N.
  - intros k k' o t d d' N N'. apply nth_snoc in N as [[L N]|[-> N]];
      apply nth_snoc in N' as [[L' N']|[-> N']].
    + eapply i_uniq; eassumption.
    + exfalso. eapply (proj2 (HC _ _ _ (eq_sym N'))). exact N.
    + exfalso. eapply (proj2 (HC _ _ _ (eq_sym N))). exact N'.
    + reflexivity.
  - rewrite EL. eapply Forall_impl; [|exact (i_esc _ _ I)]. intros x. apply Forall_jend, G.
  - rewrite EJ. eapply Forall_impl; [|exact (i_ret _ _ I)]. intros x. apply Forall_jend, G.
  - rewrite EX. eapply Forall_impl; [|exact (i_ex _ _ I)]. intros x. apply bnd_grows, G.
Qed.

Lemma s_emit i st l : inv st l -> disp i = None -> inv (emit i st) (l ++ [i]) /\ grows l (l ++ [i]).
Proof.
  intros I D. eapply s_emit_gen; eauto.
  - intros d E. congruence.
  - intros o t d E. rewrite E in D. discriminate.
Qed.

Lemma hits_0 l : hits l (lsz l) 0.
Proof. exists (lsz l). split; [apply bnd_end|]. split; [lia|]. intros _. left. lia. Qed.

Lemma s_jump i st l : inv st l -> disp i = Some 0 -> is_case i = false ->
  inv (emit i st) (l ++ [i]) /\ grows l (l ++ [i]) /\ jend (l ++ [i]) (cur (emit i st)).
Proof.
  intros I D C.
  assert (X : inv (emit i st) (l ++ [i]) /\ grows l (l ++ [i])).
  { eapply s_emit_gen; eauto.
    - intros d E. rewrite D in E. injection E as <-. apply hits_0.
    - intros o t d E. rewrite E in C. discriminate. }
  destruct X as [X Y]. split; [exact X|]. split; [exact Y|].
  rewrite (inv_cur _ _ X). apply jend_last. congruence.
Qed.

Lemma s_jmp_back p st l : inv st l -> bnd l p -> (strict = true -> lands l p) ->
  exists l', inv (gen_jmp_back p st) l' /\ grows l l'.
Proof.
  intros I B L. set (i := IJ oJMP_BACK (pos_diff (cur st) p - 5)).
  assert (G : grows l (l ++ [i])) by apply grows_app.
  exists (l ++ [i]). eapply s_emit_gen; eauto.
  - intros d E. injection E as <-. exists p. split; [eapply bnd_grows; eassumption|].
    split.
    + rewrite lsz_app, (inv_cur _ _ I). change (lsz [i]) with 5. unfold pos_diff, to_i32.
      destruct (Z.ltb_spec ((p - lsz l) mod 2 ^ 32) (2 ^ 31)); lia.
    + intros S. right. eapply lands_grows; [exact G|auto].
  - intros o t d E. discriminate.
Qed.

(** patching *)
Lemma upd_nth_split {A} (x : A) : forall k l y, nth_error l k = Some y ->
  exists a b, l = a ++ y :: b /\ upd_nth k x l = a ++ x :: b /\ length a = k.
Proof.
  induction k as [|k IH]; intros [|z l] y H; try discriminate.
  - injection H as ->. exists [], l. auto.
  - destruct (IH _ _ H) as (a & b & -> & E & L). exists (z :: a), b. cbn. rewrite E, L. auto.
Qed.
Lemma nth_upd {A} (x : A) : forall k l j y, nth_error (upd_nth k x l) j = Some y ->
  j = k /\ y = x \/ j <> k /\ nth_error l j = Some y.
Proof.
  induction k as [|k IH]; intros [|z l] [|j] y H; cbn in *; try discriminate; auto.
  - injection H as ->. auto.
  - apply IH in H as [[-> ->]|[N H]]; auto.
Qed.
Lemma map_upd {A B} (f : A -> B) x : forall k l y, nth_error l k = Some y -> f x = f y ->
  map f (upd_nth k x l) = map f l.
Proof.
  induction k as [|k IH]; intros [|z l] y H E; cbn in *; try discriminate.
  - injection H as ->. congruence.
  - f_equal. eauto.
Qed.

Lemma encode_disp i d : disp i = Some d ->
  exists pre, forall e, encode (set_disp e i) = pre ++ push32 e.
Proof.
  destruct i; try discriminate; intros _; unfold encode; cbn [set_disp].
  - exists [opcode (IJ o d0)]. reflexivity.
  - exists (opcode (IJI c i d0) :: push32 i). intros e. reflexivity.
  - exists (opcode (ICase o t d0) :: push32 t). intros e. reflexivity.
Qed.
Lemma set_disp_id i d : disp i = Some d -> set_disp d i = i.
Proof. destruct i; cbn; congruence. Qed.

Lemma wdisp_list src dest st st' l k i : code st = encodes l ->
  nth_error l k = Some i -> disp i <> None -> src = pos l (S k) ->
  wdisp src dest st = Ok st' ->
  st' = set_code (encodes (upd_nth k (set_disp (dest - src) i) l)) st.
Proof.
  intros EC N D -> H. unfold wdisp, lift_code in H.
  destruct (disp i) as [d|] eqn:DI; [|congruence].
  destruct (upd_nth_split (set_disp (dest - pos l (S k)) i) _ _ _ N) as (a & b & EL & EU & LA).
  destruct (encode_disp _ _ DI) as [pre EP].
  assert (X : encodes l = (encodes a ++ pre) ++ push32 d ++ encodes b).
  { rewrite EL, encodes_app, encodes_cons. rewrite <- (set_disp_id _ _ DI) at 1.
    rewrite EP, <- !app_assoc. reflexivity. }
  assert (PS : pos l (S k) = Z.of_nat (length (encodes a ++ pre)) + 4).
  { rewrite (pos_S _ _ _ N). rewrite app_length. unfold pos.
    rewrite EL, <- LA, firstn_app, firstn_all, Nat.sub_diag. cbn [firstn].
    rewrite app_nil_r. unfold isz, lsz, zlength. rewrite <- (set_disp_id _ _ DI), EP.
    rewrite app_length, push32_length. lia. }
  rewrite EC, X, (write_disp_mid _ (push32 d) _ _ dest PS (push32_length d)) in H.
  injection H as <-. f_equal. rewrite EU, encodes_app, encodes_cons, EP, <- !app_assoc.
  reflexivity.
Qed.

Lemma s_wdisp src dest st st' l : inv st l -> jend l src -> bnd l dest ->
  (strict = true -> src <= dest \/ lands l dest) ->
  wdisp src dest st = Ok st' -> exists l', inv st' l' /\ grows l l'.
Proof.
  intros I (k & i & N & D & E) B L H.
  pose proof (wdisp_list _ _ _ _ _ _ _ (i_code _ _ I) N D E H) as ->.
  set (j := set_disp (dest - src) i). set (l' := upd_nth k j l).
  assert (M : map skel l' = map skel l).
  { eapply map_upd; [exact N|]. apply skel_set. }
  pose proof (grows_eq _ _ M) as G. exists l'. split; [|exact G].
  assert (LN : length l' = length l).
  { rewrite <- (map_length skel l'), M. apply map_length. }
  assert (PS : forall n y, nth_error l' n = Some y -> pos l' (S n) = pos l (S n)).
  { intros n y Hn. apply grows_pos; [exact G|].
    assert (n < length l')%nat by (apply nth_error_Some; congruence). lia. }
  constructor.
  - reflexivity.
  - intros n y d Hn Hd. rewrite (PS _ _ Hn). apply nth_upd in Hn as [[-> ->]|[_ Hn]].
    + rewrite <- E. unfold j in Hd. rewrite disp_set in Hd by exact D. injection Hd as <-.
      exists dest. split; [eapply bnd_grows; eassumption|]. split; [lia|].
      intros S. destruct (L S); [auto|right; eapply lands_grows; eassumption].
    + eapply hits_grows; [exact G|]. eapply i_tgt; eassumption.
  - intros n o t d Hn. rewrite (PS _ _ Hn). apply nth_upd in Hn as [[-> Hn]|[_ Hn]].
    + unfold j in Hn. destruct i; try discriminate. injection Hn as -> -> ->.
      eapply table_grows; [exact G|]. apply (i_tab _ _ I _ _ _ _ N).
    + eapply table_grows; [exact G|]. apply (i_tab _ _ I _ _ _ _ Hn).
  - assert (U : forall n o t d, nth_error l' n = Some (ICase o t d) ->
                exists d', nth_error l n = Some (ICase o t d')).
    { intros n o t d Hn. apply nth_upd in Hn as [[-> Hn]|[_ Hn]]; [|eauto].
      unfold j in Hn. destruct i; try discriminate. injection Hn as -> -> ->. eauto. }
    intros n n' o t d d' Hn Hn'. destruct (U _ _ _ _ Hn), (U _ _ _ _ Hn').
    eapply i_uniq; eassumption.
  - eapply Forall_impl; [|exact (i_esc _ _ I)]. intros x. apply Forall_jend, G.
  - eapply Forall_impl; [|exact (i_ret _ _ I)]. intros x. apply Forall_jend, G.
  - eapply Forall_impl; [|exact (i_ex _ _ I)]. intros x. apply bnd_grows, G.
Qed.

Lemma pos_le_lsz l k : pos l k <= lsz l.
Proof. destruct (Nat.le_ge_cases k (length l)) as [H|H].
  - rewrite <- (pos_all l (length l)) by lia. apply pos_mono, H.
  - rewrite pos_all by exact H. lia.
Qed.

Lemma s_wcur src st st' l : inv st l -> jend l src -> wcur src st = Ok st' ->
  exists l', inv st' l' /\ grows l l'.
Proof.
  intros I J H. eapply (s_wdisp src (lsz l)); eauto.
  - apply bnd_end.
  - intros _. left. destruct J as (k & i & _ & _ & ->). apply pos_le_lsz.
  - unfold wcur, write_disp_from_cur, lift_code in H. unfold wdisp, lift_code.
    rewrite <- (inv_cur _ _ I). exact H.
Qed.

Lemma s_wcurs L : forall st st' l, inv st l -> Forall (jend l) L -> wcurs L st = Ok st' ->
  exists l', inv st' l' /\ grows l l'.
Proof.
  induction L as [|p L IH]; intros st st' l I J H; cbn [wcurs] in H.
  - injection H as <-. exists l. split; [exact I|apply grows_refl].
  - destruct (wcur p st) as [st1| |] eqn:E; try discriminate. cbn [rbind] in H.
    inversion J as [|? ? J1 J2]; subst.
    destruct (s_wcur _ _ _ _ I J1 E) as (l1 & I1 & G1).
    destruct (IH _ _ _ I1 (Forall_jend _ _ _ G1 J2) H) as (l2 & I2 & G2).
    exists l2. split; [exact I2|]. eapply grows_trans; eassumption.
Qed.

Lemma s_wcur_opt o st st' l : inv st l -> (forall p, o = Some p -> jend l p) ->
  wcur_opt o st = Ok st' -> exists l', inv st' l' /\ grows l l'.
Proof.
  intros I J H. destruct o as [p|]; cbn [wcur_opt] in H.
  - eapply s_wcur; eauto.
  - injection H as <-. exists l. split; [exact I|apply grows_refl].
Qed.

Lemma s_escapes L p : forall st st' l, inv st l -> Forall (jend l) (map fst L) -> bnd l p ->
  (strict = true -> lands l p) ->
  patch_escapes L p st = Ok st' -> exists l', inv st' l' /\ grows l l'.
Proof.
  induction L as [|[q k] L IH]; intros st st' l I J B LA H; cbn [patch_escapes] in H.
  - injection H as <-. exists l. split; [exact I|apply grows_refl].
  - cbn [map fst] in J. inversion J as [|? ? J1 J2]; subst.
    assert (X : exists st1, (wcur q st = Ok st1 \/ wdisp q p st = Ok st1) /\
                            patch_escapes L p st1 = Ok st').
    { destruct k.
      - destruct (wcur q st) as [st1| |] eqn:E; try discriminate. exists st1. auto.
      - destruct (wdisp q p st) as [st1| |] eqn:E; try discriminate. exists st1. auto. }
    destruct X as (st1 & E & H').
    assert (Y : exists l1, inv st1 l1 /\ grows l l1).
    { destruct E as [E|E]; [eapply s_wcur; eauto|].
      eapply (s_wdisp q p st st1 l); eauto. }
    destruct Y as (l1 & I1 & G1).
    destruct (IH st1 st' l1 I1) as (l2 & I2 & G2); auto.
    + eapply Forall_jend; eassumption.
    + eapply bnd_grows; eassumption.
    + intros S. eapply lands_grows; [exact G1|auto].
    + exists l2. split; [exact I2|]. eapply grows_trans; eassumption.
Qed.

(** changes of other components *)
Lemma s_caches c st l : inv st l -> inv (set_caches c st) l.
Proof. intros []. constructor; assumption. Qed.
Lemma s_consts c st l : inv st l -> inv (set_consts c st) l.
Proof. intros []. constructor; assumption. Qed.
Lemma s_loops r st l : inv st l ->
  Forall (fun x => Forall (jend l) (map fst (lp_esc x))) r -> inv (set_loops r st) l.
Proof. intros [] F. constructor; assumption. Qed.
Lemma s_jds r st l : inv st l ->
  Forall (fun x => Forall (jend l) (jd_ret x ++ jd_mret x)) r -> inv (set_jds r st) l.
Proof. intros [] F. constructor; assumption. Qed.
Lemma s_extab r st l : inv st l ->
  Forall (fun e => bnd l (ex_dest e)) r -> inv (set_extab r st) l.
Proof. intros [] F. constructor; assumption. Qed.

(** ** Functions that generate code *)
Definition first (l l' : list inst) : Prop :=
  exists i, nth_error l' (length l) = Some i /\ is_jmp i = false.
Lemma first_grows a b c : first a b -> grows b c -> first a c.
Proof.
  intros (i & N & J) G. destruct (grows_nth _ _ _ _ G N) as (j & M & K). exists j.
  split; [exact M|]. rewrite (skel_jmp _ _ K). exact J.
Qed.
Lemma first_lands l l' : first l l' -> grows l l' -> lands l' (lsz l).
Proof.
  intros (i & N & J) G. exists (length l), i. split; [exact N|]. split; [exact J|].
  rewrite (grows_pos l l') by (auto; lia). symmetry. apply pos_all. lia.
Qed.
Lemma first_emit l i : is_jmp i = false -> first l (l ++ [i]).
Proof.
  intros H. exists i. split; [|exact H]. rewrite nth_error_app2, Nat.sub_diag by lia. reflexivity.
Qed.

(** [f] keeps the invariant; if [h], it starts with no JMP *)
Definition sh (h : bool) (f : cg -> res cg) : Prop :=
  forall st st' l, inv st l -> f st = Ok st' ->
  exists l', inv st' l' /\ grows l l' /\ (h = true -> first l l').

Lemma sh_weak h f : sh h f -> sh false f.
Proof.
  intros H st st' l I E. destruct (H _ _ _ I E) as (l' & A & B & _). exists l'. split; [exact A|]. split; [exact B|discriminate].
Qed.
Lemma sh_step h f st st' l : sh h f -> inv st l -> f st = Ok st' ->
  exists l', inv st' l' /\ grows l l'.
Proof. intros H I E. destruct (H _ _ _ I E) as (l' & A & B & _). exists l'. auto. Qed.

Lemma s_opt (u : bool) i st l : inv st l -> disp i = None ->
  exists l', inv (if u then emit i st else st) l' /\ grows l l'.
Proof.
  intros I D. destruct u.
  - exists (l ++ [i]). apply s_emit; assumption.
  - exists l. split; [exact I|apply grows_refl].
Qed.
Lemma s_popped (u : bool) i st l : inv st l -> disp i = None ->
  exists l', inv (if u then st else emit i st) l' /\ grows l l'.
Proof.
  intros I D. destruct u.
  - exists l. split; [exact I|apply grows_refl].
  - exists (l ++ [i]). apply s_emit; assumption.
Qed.
Lemma s_osend u id n st l : inv st l ->
  exists l', inv (emit_osend u id n st) l' /\ grows l l' /\ first l l'.
Proof.
  intros I. exists (l ++ [ISendO u id n None (caches st)]).
  destruct (s_emit (ISendO u id n None (caches st)) st l I eq_refl) as [A B].
  split; [apply s_caches, A|]. split; [exact B|]. apply first_emit. reflexivity.
Qed.
Lemma s_one i : disp i = None -> is_jmp i = false -> forall st l, inv st l ->
  exists l', inv (emit i st) l' /\ grows l l' /\ first l l'.
Proof.
  intros D J st l I. exists (l ++ [i]). destruct (s_emit i st l I D) as [A B].
  split; [exact A|]. split; [exact B|]. apply first_emit, J.
Qed.
Lemma s_op k n st l : inv st l ->
  exists l', inv (emit_op k n st) l' /\ grows l l' /\ first l l'.
Proof.
  intros I. exists (l ++ [bop_inst k n (caches st)]).
  destruct (s_emit (bop_inst k n (caches st)) st l I ltac:(destruct k; reflexivity)) as [A B].
  split; [|split; [exact B|apply first_emit; destruct k; reflexivity]].
  unfold emit_op. destruct k; try exact A. apply s_caches, A.
Qed.
Lemma s_iter k i st l : inv st l -> disp i = None ->
  exists l', inv (Nat.iter k (emit i) st) l' /\ grows l l'.
Proof.
  intros I D. induction k as [|k (l' & A & B)].
  - exists l. split; [exact I|apply grows_refl].
  - exists (l' ++ [i]). destruct (s_emit i _ _ A D) as [C E]. split; [exact C|].
    eapply grows_trans; eassumption.
Qed.

Ltac bi H st := match type of H with
  | rbind ?x _ = Ok _ =>
      let E := fresh "E" in
      destruct x as [st| |] eqn:E; [cbn [rbind] in H|discriminate H|discriminate H]
  end.
Ltac gr := solve [repeat first [apply grows_refl | eassumption
                                | eapply grows_trans; [eassumption|]]].
Lemma ok_inj {A} (x y : A) : Ok x = Ok y -> x = y.
Proof. congruence. Qed.
Ltac okinv H := match type of H with Ok _ = Ok _ =>
  let X := fresh "X" in assert (X := H); apply ok_inj in X; clear H; subst end.

Ltac em I i l1 :=
  match type of I with inv ?st ?l =>
    let J := fresh "Q" in let G := fresh "G" in
    destruct (s_emit i st l I eq_refl) as [J G];
    set (l1 := l ++ [i]) in *; clearbody l1
  end.
Ltac emj I i l1 J :=
  match type of I with inv ?st ?l =>
    let K := fresh "Q" in let G := fresh "G" in
    destruct (s_jump i st l I eq_refl eq_refl) as (K & G & J);
    set (l1 := l ++ [i]) in *; clearbody l1
  end.

Lemma sh_lit v : sh true (gen_lit v).
Proof.
  intros st st' l I H. unfold gen_lit in H. destruct (packed v).
  - okinv H. eexists. destruct (s_emit (IVal z) _ _ I eq_refl) as [A B].
    split; [exact A|]. split; [exact B|]. intros _. apply first_emit. reflexivity.
  - unfold gen_const_val in H. destruct (_ >? _); [discriminate|]. okinv H.
    eexists. edestruct (s_emit (I32 oCONST_VAL (Z.of_nat (length (consts st))))
      (set_consts (consts st ++ [v]) st) l) as [A B]; [apply s_consts, I|reflexivity|].
    split; [exact A|]. split; [exact B|]. intros _. apply first_emit. reflexivity.
Qed.
Lemma sh_const v : sh true (gen_const_val v).
Proof.
  intros st st' l I H.
  unfold gen_const_val in H. destruct (_ >? _); [discriminate|]. okinv H.
  eexists. edestruct (s_emit (I32 oCONST_VAL (Z.of_nat (length (consts st))))
    (set_consts (consts st ++ [v]) st) l) as [A B]; [apply s_consts, I|reflexivity|].
  split; [exact A|]. split; [exact B|]. intros _. apply first_emit. reflexivity.
Qed.
Lemma sh_val v : sh true (gen_val v).
Proof.
  intros st st' l I H. unfold gen_val in H. destruct (packed v); [|discriminate].
  okinv H. eexists. destruct (s_emit (IVal z) _ _ I eq_refl) as [A B].
  split; [exact A|]. split; [exact B|]. intros _. apply first_emit. reflexivity.
Qed.
Lemma sh_ok : sh false (fun st => Ok st).
Proof.
  intros st st' l I H. okinv H. exists l. split; [exact I|]. split; [apply grows_refl|discriminate].
Qed.

Variable cx : sctx.

Lemma sh_set_local id : sh true (emit_set_local cx id).
Proof.
  intros st st' l I H. unfold emit_set_local in H.
  destruct (get_local_var cx id) as [[o k]|]; [|discriminate]. okinv H.
  eexists. edestruct (s_emit (if o =? 0 then I32 oSET_LOCAL k else I2 oSET_DYNLOCAL k o) _ _ I)
    as [A B]; [destruct (o =? 0); reflexivity|].
  split; [exact A|]. split; [exact B|]. intros _. apply first_emit.
  destruct (o =? 0); reflexivity.
Qed.
Lemma sh_get_local id : sh true (emit_get_local cx id).
Proof.
  intros st st' l I H. unfold emit_get_local in H.
  destruct (get_local_var cx id) as [[o k]|]; [|discriminate]. okinv H.
  eexists. edestruct (s_emit (if o =? 0 then I32 oGET_LOCAL k else I2 oGET_DYNLOCAL k o) _ _ I)
    as [A B]; [destruct (o =? 0); reflexivity|].
  split; [exact A|]. split; [exact B|]. intros _. apply first_emit.
  destruct (o =? 0); reflexivity.
Qed.

Lemma sh_binop h op (gl gr : bool -> cg -> res cg) imm u :
  sh h (gl true) -> (forall v, sh false (gr v)) -> sh h (gen_binop op gl gr imm u).
Proof.
  intros HL HR st st' l I H.
  assert (LOG : forall o, (st0 <- gl true st ;;
      (let st1 := if u then emit (I32 oDUP 1) st0 else st0 in
      let st2 := emit (IJ o 0) st1 in
      let src := cur st2 in
      let st3 := if u then emit (I0 oPOP) st2 else st2 in
      st4 <- gr u st3 ;; wcur src st4)) = Ok st' ->
      exists l', inv st' l' /\ grows l l' /\ (h = true -> first l l')).
  { clear H. intros o H. bi H st1. cbv zeta in H.
    destruct (HL _ _ _ I E) as (l1 & I1 & G1 & F1).
    destruct (s_opt u (I32 oDUP 1) _ _ I1 eq_refl) as (l2 & I2 & G2).
    emj I2 (IJ o 0) l3 J3.
    destruct (s_opt u (I0 oPOP) _ _ Q eq_refl) as (l4 & I4 & G4).
    bi H st5. destruct (sh_step _ _ _ _ _ (HR u) I4 E0) as (l5 & I5 & G5).
    edestruct s_wcur as (l6 & I6 & G6); [exact I5| |exact H|].
    { eapply jend_grows; [|exact J3]. gr. }
    exists l6. split; [exact I6|]. split; [gr|]. intros Hh.
    eapply first_grows; [apply F1, Hh|]. gr. }
  assert (ARI : (st0 <- match bini_inst op, imm with
            | Some oi, Some i => st <- gl true st ;; Ok (emit (II oi i) st)
            | _, _ => st <- gl true st ;;
                      st <- gr true st ;;
                      Ok (emit (I0 (bin_inst op)) st)
            end ;;
      Ok (if u then st0 else emit (I0 oPOP) st0)) = Ok st' ->
      exists l', inv st' l' /\ grows l l' /\ (h = true -> first l l')).
  { clear H LOG. intros H. bi H st0. okinv H.
    assert (X : exists l1, inv st0 l1 /\ grows l l1 /\ (h = true -> first l l1)).
    { assert (Y : (st <- gl true st ;; st <- gr true st ;; Ok (emit (I0 (bin_inst op)) st)) = Ok st0 ->
        exists l1, inv st0 l1 /\ grows l l1 /\ (h = true -> first l l1)).
      { clear E. intros H. bi H st1. bi H st2. okinv H.
        destruct (HL _ _ _ I E) as (l1 & I1 & G1 & F1).
        destruct (sh_step _ _ _ _ _ (HR true) I1 E0) as (l2 & I2 & G2).
        em I2 (I0 (bin_inst op)) l3. exists l3. split; [assumption|]. split; [gr|].
        intros Hh. eapply first_grows; [apply F1, Hh|gr]. }
      destruct (bini_inst op) as [oi|]; [|exact (Y E)]. destruct imm as [i|]; [|exact (Y E)].
      bi E st1. okinv E. destruct (HL _ _ _ I E0) as (l1 & I1 & G1 & F1).
      em I1 (II oi i) l3. exists l3. split; [assumption|]. split; [gr|].
      intros Hh. eapply first_grows; [apply F1, Hh|gr]. }
    destruct X as (l1 & I1 & G1 & F1).
    destruct (s_popped u (I0 oPOP) _ _ I1 eq_refl) as (l2 & I2 & G2).
    exists l2. split; [exact I2|]. split; [gr|]. intros Hh.
    eapply first_grows; [apply F1, Hh|gr]. }
  destruct op; first [exact (ARI H) | exact (LOG _ H)].
Qed.

(** a conditional jump with the value on the stack *)
Definition shj (h : bool) (f : cg -> res cg) : Prop :=
  forall st st' l, inv st l -> f st = Ok st' ->
  exists l', inv st' l' /\ grows l l' /\ (h = true -> first l l') /\ jend l' (cur st').

Lemma sh_cmp_jmp h c gl gr imm : sh h (gl true) -> sh false (gr true) ->
  shj h (gen_cmp_jmp c gl gr imm).
Proof.
  intros HL HR st st' l I H. unfold gen_cmp_jmp in H. bi H st1.
  destruct (HL _ _ _ I E) as (l1 & I1 & G1 & F1). destruct imm as [i|].
  - okinv H. emj I1 (IJI c i 0) l2 J. exists l2. split; [assumption|]. split; [gr|].
    split; [|exact J]. intros Hh. eapply first_grows; [apply F1, Hh|gr].
  - bi H st2. okinv H. destruct (sh_step _ _ _ _ _ HR I1 E0) as (l2 & I2 & G2).
    emj I2 (IJ (oJMP_F_cmp c) 0) l3 J. exists l3. split; [assumption|]. split; [gr|].
    split; [|exact J]. intros Hh. eapply first_grows; [apply F1, Hh|gr].
Qed.

Lemma sh_assign_val h g u : sh h (g true) -> sh h (gen_assign_val g u).
Proof.
  intros HG st st' l I H. unfold gen_assign_val in H. bi H st1. okinv H.
  destruct (HG _ _ _ I E) as (l1 & I1 & G1 & F1).
  destruct (s_opt u (I32 oDUP 1) _ _ I1 eq_refl) as (l2 & I2 & G2).
  exists l2. split; [exact I2|]. split; [gr|]. intros Hh.
  eapply first_grows; [apply F1, Hh|gr].
Qed.

Section Nodes.
Variable g : generator.
Variable K : nat.
Definition fine (n : node) : Prop :=
  (nsize n < K)%nat /\ (strict = true -> loops_ok n = true).
Hypothesis Hg : forall n u, fine n -> sh (u && head_ok n) (g n u).

Lemma Hg0 n u : fine n -> sh false (g n u).
Proof. intros F. eapply sh_weak, Hg, F. Qed.

Lemma sh_gens L : Forall fine L -> sh false (gens g L).
Proof.
  induction L as [|x L IH]; intros F st st' l I H; cbn [gens] in H.
  - okinv H. exists l. split; [exact I|]. split; [apply grows_refl|discriminate].
  - inversion F; subst. bi H st1. destruct (sh_step _ _ _ _ _ (Hg0 x true H2) I E) as (l1 & I1 & G1).
    destruct (IH H3 _ _ _ I1 H) as (l2 & I2 & G2 & _). exists l2. split; [exact I2|].
    split; [gr|discriminate].
Qed.
(** operands and the instruction that makes a value of them *)
Lemma sh_make L f (u : bool) : Forall fine L ->
  (forall st l, inv st l -> exists l', inv (f st) l' /\ grows l l' /\ first l l') ->
  sh (match L with [] => true | x :: _ => head_ok x end)
     (fun st => st <- gens g L st ;; Ok (if u then f st else emit (I0 oPOP) (f st))).
Proof.
  intros F D st st' l I H. bi H st1. okinv H.
  assert (X : exists l1, inv st1 l1 /\ grows l l1 /\
    match L with [] => l1 = l | x :: _ => head_ok x = true -> first l l1 end).
  { destruct L as [|x L].
    - cbn in E. okinv E. exists l. split; [exact I|]. split; [apply grows_refl|reflexivity].
    - inversion F; subst. cbn [gens] in E. bi E st2.
      destruct (Hg x true H1 _ _ _ I E0) as (l1 & I1 & G1 & F1).
      destruct (sh_step _ _ _ _ _ (sh_gens _ H2) I1 E) as (l2 & I2 & G2).
      exists l2. split; [exact I2|]. split; [gr|]. intros X.
      eapply first_grows; [apply F1, X|gr]. }
  destruct X as (l1 & I1 & G1 & F1).
  destruct (D _ _ I1) as (l0 & A & B & C).
  destruct (s_popped u (I0 oPOP) _ _ A eq_refl) as (l2 & I2 & G2).
  exists l2. split; [exact I2|]. split; [gr|]. intros X. destruct L as [|x L].
  - subst l1. eapply first_grows; [exact C|gr].
  - eapply first_grows; [apply F1, X|gr].
Qed.
Lemma sh_gens_first ll L : forall i, Forall fine L -> sh false (gens_first g ll i L).
Proof.
  induction L as [|x L IH]; intros i F st st' l I H; cbn [gens_first] in H.
  - okinv H. exists l. split; [exact I|]. split; [apply grows_refl|discriminate].
  - inversion F; subst. bi H st1. destruct (sh_step _ _ _ _ _ (Hg0 x _ H2) I E) as (l1 & I1 & G1).
    destruct (IH _ H3 _ _ _ I1 H) as (l2 & I2 & G2 & _). exists l2. split; [exact I2|].
    split; [gr|discriminate].
Qed.
Lemma sh_comp u L : Forall fine L -> sh (u && head_ok (NSeq L)) (comp_stmt g u L).
Proof.
  intros F. destruct L as [|x L]; [|destruct L as [|y L]].
  - intros st st' l I H. cbn [comp_stmt] in H. okinv H. destruct u.
    + eexists. destruct (s_emit (I0 oPUSH_NIL) _ _ I eq_refl) as [A B].
      split; [exact A|]. split; [exact B|]. intros _. apply first_emit. reflexivity.
    + exists l. split; [exact I|]. split; [apply grows_refl|discriminate].
  - inversion F; subst. cbn [comp_stmt head_ok]. apply Hg. assumption.
  - cbn [head_ok]. rewrite andb_false_r. revert x y F. induction L as [|z L IH]; intros x y F.
    + inversion F; subst. inversion H2; subst. intros st st' l I H. cbn [comp_stmt] in H.
      bi H st1. destruct (sh_step _ _ _ _ _ (Hg0 x _ H1) I E) as (l1 & I1 & G1).
      destruct (sh_step _ _ _ _ _ (Hg0 y _ H3) I1 H) as (l2 & I2 & G2).
      exists l2. split; [exact I2|]. split; [gr|discriminate].
    + inversion F; subst. intros st st' l I H.
      change (comp_stmt g u (x :: y :: z :: L) st)
        with (st <- g x false st ;; comp_stmt g u (y :: z :: L) st) in H.
      bi H st1. destruct (sh_step _ _ _ _ _ (Hg0 x _ H1) I E) as (l1 & I1 & G1).
      destruct (sh_step _ _ _ _ _ (IH _ _ H2) I1 H) as (l2 & I2 & G2).
      exists l2. split; [exact I2|]. split; [gr|discriminate].
Qed.

Lemma fine_bin op a b : fine (NBin op a b) -> fine a /\ fine b.
Proof.
  intros [A B]. cbn [nsize loops_ok] in *. split; (split; [lia|]); intros S; specialize (B S);
  apply andb_true_iff in B; tauto.
Qed.

Lemma sh_jmp_if_false c : fine c -> shj (head_ok c) (jmp_if_false g c).
Proof.
  intros F.
  assert (X : shj (head_ok c) (fun st => st <- g c true st ;; Ok (emit (IJ oJMP_F 0) st))).
  { intros st st' l I H. bi H st1. okinv H.
    destruct (Hg c true F _ _ _ I E) as (l1 & I1 & G1 & F1).
    emj I1 (IJ oJMP_F 0) l2 J. exists l2. split; [assumption|]. split; [gr|].
    split; [|exact J]. intros Hh. eapply first_grows; [apply F1; exact Hh|gr]. }
  destruct c; try exact X. intros st st' l I H. unfold jmp_if_false in H.
  destruct (cmp_of op) as [c|]; [|exact (X _ _ _ I H)].
  apply fine_bin in F as [FA FB].
  exact (sh_cmp_jmp _ _ (g c1) (g c2) _ (Hg c1 true FA) (Hg0 _ _ FB) _ _ _ I H).
Qed.

(** sub-nodes of a target *)
Definition fine_lhs (n : node) : Prop :=
  match n with NSend r _ _ _ => fine r | NIndex a b => fine a /\ fine b | NOp _ (p :: _) => fine p | _ => True end.

Lemma sh_assign lhs : fine_lhs lhs -> sh false (gen_assign cx g lhs).
Proof.
  intros F st st' l I H. destruct lhs; try discriminate H; cbn [gen_assign fine_lhs] in *.
  - destruct (sh_step _ _ _ _ _ (sh_set_local id) I H) as (l1 & I1 & G1).
    exists l1. split; [exact I1|]. split; [gr|discriminate].
  - okinv H. em I (I32 oSET_GVAR id) l1. exists l1. split; [assumption|]. split; [gr|discriminate].
  - okinv H. em I (I32 oSET_IVAR id) l1. exists l1. split; [assumption|]. split; [gr|discriminate].
  - destruct (sh_step _ _ _ _ _ (sh_set_local id) I H) as (l1 & I1 & G1).
    exists l1. split; [exact I1|]. split; [gr|discriminate].
  - bi H st1. okinv H. destruct (sh_step _ _ _ _ _ (Hg0 _ _ F) I E) as (l1 & I1 & G1).
    em I1 (I32 oSINKN 1) l2. edestruct s_osend as (l3 & I3 & G3 & _); [exact Q|].
    exists l3. split; [exact I3|]. split; [gr|discriminate].
  - destruct F as [FA FB]. bi H st1.
    destruct (sh_step _ _ _ _ _ (Hg0 _ _ FA) I E) as (l1 & I1 & G1).
    destruct (is_imm_u32 lhs2) as [k|].
    + okinv H. em I1 (I32 oTOPN 1) l2. em Q (I32 oSET_IDX_I k) l3.
      exists l3. split; [assumption|]. split; [gr|discriminate].
    + bi H st2. okinv H. destruct (sh_step _ _ _ _ _ (Hg0 _ _ FB) I1 E0) as (l2 & I2 & G2).
      em I2 (I32 oTOPN 2) l3. em Q (I0 oSET_INDEX) l4.
      exists l4. split; [assumption|]. split; [gr|discriminate].
  - destruct k; try discriminate H.
    + okinv H. em I (I0 oPUSH_NIL) l1. em Q (I32 oSET_CONST id) l2.
      exists l2. split; [assumption|]. split; [gr|discriminate].
    + okinv H. em I (I0 oPUSH_NIL) l1. em Q (I32 oSET_CONST id) l2.
      exists l2. split; [assumption|]. split; [gr|discriminate].
    + destruct l0 as [|p L]; [discriminate H|]. bi H st1. okinv H.
      destruct (sh_step _ _ _ _ _ (Hg0 _ _ F) I E) as (l1 & I1 & G1).
      em I1 (I32 oSET_CONST id) l2. exists l2. split; [assumption|]. split; [gr|discriminate].
    + okinv H. em I (I32 oSET_CVAR id) l1. exists l1. split; [assumption|]. split; [gr|discriminate].
    + unfold emit_set_special in H. destruct (_ || _) in H; [discriminate H|]. okinv H.
      em I (I32 oSET_SVAR id) l1. exists l1. split; [assumption|]. split; [gr|discriminate].
Qed.

Lemma sh_assigns L : Forall fine_lhs L -> sh false (gen_assigns cx g L).
Proof.
  induction L as [|x L IH]; intros F st st' l I H; cbn [gen_assigns] in H.
  - okinv H. exists l. split; [exact I|]. split; [apply grows_refl|discriminate].
  - inversion F; subst. bi H st1. destruct (sh_step _ _ _ _ _ (IH H3) I E) as (l1 & I1 & G1).
    destruct (sh_step _ _ _ _ _ (sh_assign x H2) I1 H) as (l2 & I2 & G2). exists l2.
    split; [exact I2|]. split; [gr|discriminate].
Qed.

Definition var_lhs (n : node) : bool :=
  match n with NLVar _ | NGVar _ | NIVar _ | NIdent _ => true | _ => false end.

Lemma sh_assign2 lhs h gr_ u : fine_lhs lhs -> (forall v, sh (v && h) (gr_ v)) ->
  sh (var_lhs lhs && h) (gen_assign2 cx g lhs gr_ u).
Proof.
  intros F HR st st' l I H.
  destruct lhs; try discriminate H; cbn [gen_assign2 fine_lhs var_lhs andb] in *.
  - bi H st1. destruct (sh_assign_val h gr_ u (HR true) _ _ _ I E) as (l1 & I1 & G1 & F1).
    destruct (sh_step _ _ _ _ _ (sh_set_local id) I1 H) as (l2 & I2 & G2).
    exists l2. split; [exact I2|]. split; [gr|]. intros Hh. eapply first_grows; [apply F1, Hh|gr].
  - bi H st1. destruct (sh_assign_val h gr_ u (HR true) _ _ _ I E) as (l1 & I1 & G1 & F1).
    okinv H. em I1 (I32 oSET_GVAR id) l2. exists l2. split; [assumption|]. split; [gr|].
    intros Hh. eapply first_grows; [apply F1, Hh|gr].
  - bi H st1. destruct (sh_assign_val h gr_ u (HR true) _ _ _ I E) as (l1 & I1 & G1 & F1).
    okinv H. em I1 (I32 oSET_IVAR id) l2. exists l2. split; [assumption|]. split; [gr|].
    intros Hh. eapply first_grows; [apply F1, Hh|gr].
  - bi H st1. destruct (sh_assign_val h gr_ u (HR true) _ _ _ I E) as (l1 & I1 & G1 & F1).
    destruct (sh_step _ _ _ _ _ (sh_set_local id) I1 H) as (l2 & I2 & G2).
    exists l2. split; [exact I2|]. split; [gr|]. intros Hh. eapply first_grows; [apply F1, Hh|gr].
  - bi H st1. bi H st2. okinv H.
    destruct (sh_step _ _ _ _ _ (Hg0 _ _ F) I E) as (l1 & I1 & G1).
    destruct (sh_step _ _ _ _ _ (HR true) I1 E0) as (l2 & I2 & G2).
    edestruct s_osend as (l3 & I3 & G3 & _); [exact I2|].
    exists l3. split; [exact I3|]. split; [gr|discriminate].
  - destruct F as [FA FB]. bi H st1.
    destruct (sh_step _ _ _ _ _ (Hg0 _ _ FA) I E) as (l1 & I1 & G1).
    destruct (is_imm_u32 lhs2) as [k|].
    + bi H st2. okinv H.
      destruct (sh_step _ _ _ _ _ (sh_assign_val _ _ u (HR true)) I1 E0) as (l2 & I2 & G2).
      destruct (s_opt u (I32 oSINKN 2) _ _ I2 eq_refl) as (l3 & I3 & G3).
      em I3 (I32 oSET_IDX_I k) l4.
      exists l4. split; [assumption|]. split; [gr|discriminate].
    + bi H st2. destruct (sh_step _ _ _ _ _ (Hg0 _ _ FB) I1 E0) as (l2 & I2 & G2).
      bi H st3. okinv H.
      destruct (sh_step _ _ _ _ _ (sh_assign_val _ _ u (HR true)) I2 E1) as (l3 & I3 & G3).
      destruct (s_opt u (I32 oSINKN 3) _ _ I3 eq_refl) as (l4 & I4 & G4).
      em I4 (I0 oSET_INDEX) l5.
      exists l5. split; [assumption|]. split; [gr|discriminate].
  - assert (V : forall st1, gen_assign_val gr_ u st = Ok st1 ->
      exists l', inv st1 l' /\ grows l l').
    { intros st1 E. exact (sh_step _ _ _ _ _ (sh_assign_val _ _ u (HR true)) I E). }
    destruct k; try discriminate H.
    + bi H st1. okinv H. destruct (V _ eq_refl) as (l1 & I1 & G1).
      em I1 (I0 oPUSH_NIL) l2. em Q (I32 oSET_CONST id) l3.
      exists l3. split; [assumption|]. split; [gr|discriminate].
    + bi H st1. okinv H. destruct (V _ eq_refl) as (l1 & I1 & G1).
      em I1 (I0 oPUSH_NIL) l2. em Q (I32 oSET_CONST id) l3.
      exists l3. split; [assumption|]. split; [gr|discriminate].
    + destruct l0 as [|p L]; [discriminate H|]. bi H st1. destruct (V _ eq_refl) as (l1 & I1 & G1).
      bi H st2. okinv H. destruct (sh_step _ _ _ _ _ (Hg0 _ _ F) I1 E0) as (l2 & I2 & G2).
      em I2 (I32 oSET_CONST id) l3. exists l3. split; [assumption|]. split; [gr|discriminate].
    + bi H st1. okinv H. destruct (V _ eq_refl) as (l1 & I1 & G1).
      em I1 (I32 oSET_CVAR id) l2. exists l2. split; [assumption|]. split; [gr|discriminate].
    + bi H st1. destruct (V _ eq_refl) as (l1 & I1 & G1).
      unfold emit_set_special in H. destruct (_ || _) in H; [discriminate H|]. okinv H.
      em I1 (I32 oSET_SVAR id) l2. exists l2. split; [assumption|]. split; [gr|discriminate].
Qed.

Lemma sh_massign lhs rhs u : Forall fine_lhs lhs -> Forall fine rhs ->
  sh false (gen_massign cx g lhs rhs u).
Proof.
  intros FL FR st st' l I H. unfold gen_massign in H.
  assert (GEN : forall u : bool, (if u then
        let len := Nat.max (length lhs) (length rhs) in
        st <- gens g rhs st ;;
        let st := Nat.iter (len - length rhs) (emit (I0 oPUSH_NIL)) st in
        let st := emit (I32 oDUP (Z.of_nat len)) st in
        let st := Nat.iter (len - length lhs) (emit (I0 oPOP)) st in
        st <- gen_assigns cx g lhs st ;;
        Ok (emit (I32 oCREATE_ARRAY (Z.of_nat len)) st)
      else
        st <- gens_first g (length lhs) O rhs st ;;
        gen_assigns cx g lhs (Nat.iter (length lhs - length rhs) (emit (I0 oPUSH_NIL)) st)) = Ok st' ->
      exists l', inv st' l' /\ grows l l' /\ (false = true -> first l l')).
  { clear H u. intros [|] H; cbv zeta in H.
    - bi H st1. destruct (sh_step _ _ _ _ _ (sh_gens _ FR) I E) as (l1 & I1 & G1).
      destruct (s_iter (Nat.max (length lhs) (length rhs) - length rhs) (I0 oPUSH_NIL) _ _ I1 eq_refl)
        as (l2 & I2 & G2).
      em I2 (I32 oDUP (Z.of_nat (Nat.max (length lhs) (length rhs)))) l3.
      destruct (s_iter (Nat.max (length lhs) (length rhs) - length lhs) (I0 oPOP) _ _ Q eq_refl)
        as (l4 & I4 & G4).
      bi H st5. okinv H. destruct (sh_step _ _ _ _ _ (sh_assigns _ FL) I4 E0) as (l5 & I5 & G5).
      em I5 (I32 oCREATE_ARRAY (Z.of_nat (Nat.max (length lhs) (length rhs)))) l6.
      exists l6. split; [assumption|]. split; [gr|discriminate].
    - bi H st1. destruct (sh_step _ _ _ _ _ (sh_gens_first _ _ _ FR) I E) as (l1 & I1 & G1).
      destruct (s_iter (length lhs - length rhs) (I0 oPUSH_NIL) _ _ I1 eq_refl) as (l2 & I2 & G2).
      destruct (sh_step _ _ _ _ _ (sh_assigns _ FL) I2 H) as (l5 & I5 & G5).
      exists l5. split; [assumption|]. split; [gr|discriminate]. }
  destruct rhs as [|r rhs]; [exact (GEN u H)|].
  destruct rhs as [|r' rhs]; [|exact (GEN u H)].
  clear GEN. inversion FR; subst. bi H st1. cbv zeta in H.
  destruct (sh_step _ _ _ _ _ (Hg0 _ _ H2) I E) as (l1 & I1 & G1).
  destruct (s_opt u (I32 oDUP 1) _ _ I1 eq_refl) as (l2 & I2 & G2).
  em I2 (I32 oTAKE (Z.of_nat (length lhs))) l4.
  destruct (sh_step _ _ _ _ _ (sh_assigns _ FL) Q H) as (l5 & I5 & G5).
  exists l5. split; [assumption|]. split; [gr|discriminate].
Qed.

Lemma sh_if c t e u : fine c -> fine t -> fine e -> sh false (gen_if g c t e u).
Proof.
  intros FC FT FE st st' l I H. unfold gen_if in H. bi H st1.
  destruct (sh_jmp_if_false c FC _ _ _ I E) as (l1 & I1 & G1 & _ & J1).
  cbv zeta in H. bi H st2. destruct (sh_step _ _ _ _ _ (Hg0 _ _ FT) I1 E0) as (l2 & I2 & G2).
  destruct (u || negb (is_empty e)).
  - emj I2 (IJ oJMP 0) l3 J3. bi H st3.
    edestruct s_wcur as (l4 & I4 & G4); [exact Q| |exact E1|].
    { eapply jend_grows; [|exact J1]. gr. }
    bi H st5. destruct (sh_step _ _ _ _ _ (Hg0 _ _ FE) I4 E2) as (l5 & I5 & G5).
    edestruct s_wcur as (l6 & I6 & G6); [exact I5| |exact H|].
    { eapply jend_grows; [|exact J3]. gr. }
    exists l6. split; [exact I6|]. split; [gr|discriminate].
  - edestruct s_wcur as (l4 & I4 & G4); [exact I2| |exact H|].
    { eapply jend_grows; [|exact J1]. gr. }
    exists l4. split; [exact I4|]. split; [gr|discriminate].
Qed.

Lemma sh_while c b o u : fine c -> fine b -> (strict = true -> head_ok c = true) ->
  sh false (gen_while g c b o u).
Proof.
  intros FC FB HC st st' l I H. unfold gen_while in H. cbv zeta in H.
  assert (I' : inv (set_loops (mkloop true [] :: loops st) st) l).
  { apply s_loops; [exact I|]. constructor; [constructor|exact (i_esc _ _ I)]. }
  bi H st1. change (cur (set_loops (mkloop true [] :: loops st) st)) with (cur st) in H.
  assert (X : shj (head_ok c) (fun st => if o then jmp_if_false g c st
         else st <- g c true st ;; Ok (emit (IJ oJMP_T 0) st))).
  { destruct o; [apply sh_jmp_if_false, FC|]. intros s s' m J Hs. bi Hs s1. okinv Hs.
    destruct (Hg c true FC _ _ _ J E0) as (l1 & I1 & G1 & F1).
    emj I1 (IJ oJMP_T 0) l2 J2. exists l2. split; [assumption|]. split; [gr|].
    split; [|exact J2]. intros Hh. eapply first_grows; [apply F1; exact Hh|gr]. }
  destruct (X _ _ _ I' E) as (l1 & I1 & G1 & F1 & J1). clear X.
  assert (CU : cur st = lsz l) by apply (inv_cur _ _ I).
  assert (LA : strict = true -> lands l1 (cur st)).
  { intros S. rewrite CU. apply first_lands; [apply F1, HC, S|exact G1]. }
  assert (BN : bnd l1 (cur st)).
  { rewrite CU. eapply bnd_grows; [exact G1|apply bnd_end]. }
  bi H st2. destruct (sh_step _ _ _ _ _ (Hg0 _ _ FB) I1 E0) as (l2 & I2 & G2).
  destruct (s_jmp_back (cur st) _ _ I2) as (l3 & I3 & G3).
  { eapply bnd_grows; [exact G2|exact BN]. }
  { intros S. eapply lands_grows; [exact G2|auto]. }
  bi H st4. edestruct s_wcur as (l4 & I4 & G4); [exact I3| |exact E1|].
  { eapply jend_grows; [|exact J1]. gr. }
  destruct (s_opt u (I0 oPUSH_NIL) _ _ I4 eq_refl) as (l5 & I5 & G5).
  emj I5 (IJ oJMP 0) l6 J6.
  match type of H with context [match loops ?s with _ => _ end] =>
    destruct (loops s) as [|x r] eqn:EL; [discriminate H|] end.
  pose proof (i_esc _ _ Q) as ES. rewrite EL in ES. inversion ES as [|? ? ES1 ES2]; subst.
  bi H st7. edestruct s_escapes as (l7 & I7 & G7); [| | | |exact E2|].
  { apply s_loops; [exact Q|exact ES2]. }
  { exact ES1. }
  { eapply bnd_grows; [|exact BN]. gr. }
  { intros S. eapply lands_grows; [|exact (LA S)]. gr. }
  destruct (s_popped u (I0 oPOP) _ _ I7 eq_refl) as (l8 & I8 & G8).
  edestruct s_wcur as (l9 & I9 & G9); [exact I8| |exact H|].
  { eapply jend_grows; [|exact J6]. gr. }
  exists l9. split; [exact I9|]. split; [gr|discriminate].
Qed.

(** ** Case *)
Lemma thits_self l e : bnd l e -> thits l e 0.
Proof.
  intros B. exists e. split; [exact B|]. unfold pos_diff. rewrite Z.sub_diag. reflexivity.
Qed.

(** a case instruction ends at [e] *)
Definition cend (l : list inst) (o : opc) (t e : Z) : Prop :=
  exists k d, nth_error l k = Some (ICase o t d) /\ e = pos l (S k).
Lemma cend_grows l l' o t e : grows l l' -> cend l o t e -> cend l' o t e.
Proof.
  intros G (k & d & N & ->). destruct (grows_nth _ _ _ _ G N) as (j & M & S).
  destruct j; try discriminate S. cbn in S. injection S as -> ->. exists k, d0.
  split; [exact M|]. symmetry. apply grows_pos; [exact G|]. apply nth_error_Some. congruence.
Qed.
Lemma cend_jend l o t e : cend l o t e -> jend l e.
Proof. intros (k & d & N & ->). exists k, (ICase o t d). split; [exact N|]. split; [discriminate|reflexivity]. Qed.
Lemma cend_last l o t d : cend (l ++ [ICase o t d]) o t (lsz (l ++ [ICase o t d])).
Proof.
  exists (length l), d. split; [rewrite nth_error_app2, Nat.sub_diag by lia; reflexivity|].
  symmetry. apply pos_all. rewrite app_length. cbn. lia.
Qed.

Lemma nth_error_last {A} (l : list A) x : nth_error (l ++ [x]) (length l) = Some x.
Proof. rewrite nth_error_app2, Nat.sub_diag by lia. reflexivity. Qed.

Lemma s_open2 st l t : inv st l -> t = Z.of_nat (length (g_map2 st)) ->
  let st' := emit (ICase oOPT_CASE2 t 0) (set_map2 (g_map2 st ++ [(0, 0, [], 0)]) st) in
  exists l', inv st' l' /\ grows l l' /\ cend l' oOPT_CASE2 t (cur st').
Proof.
  intros I -> st'. set (t := Z.of_nat (length (g_map2 st))) in *.
  set (i := ICase oOPT_CASE2 t 0).
  assert (X : inv st' (l ++ [i]) /\ grows l (l ++ [i])).
  { apply (s_emit_gen i st st' l I); try reflexivity.
    - intros d E. injection E as <-. apply hits_0.
    - intros o t' e [Z T]. split; [exact Z|]. destruct o; [exact T|].
      destruct T as (lo & hi & m & def & A & B). exists lo, hi, m, def. split; [|exact B].
      cbn. rewrite nth_error_app1; [exact A|]. apply nth_error_Some. congruence.
    - intros o t' d E. injection E as <- <- <-. split.
      + split; [lia|]. exists 0, 0, [], 0. split.
        * unfold t. rewrite Nat2Z.id. apply nth_error_last.
        * intros x [->|[]]. apply thits_self, bnd_end.
      + intros k d' N. pose proof (i_tab _ _ I _ _ _ _ N) as [_ (lo & hi & m & def & A & _)].
        unfold t in A. rewrite Nat2Z.id in A.
        assert (nth_error (g_map2 st) (length (g_map2 st)) <> None) as Y by congruence.
        apply nth_error_Some in Y. lia. }
  destruct X as [X G]. exists (l ++ [i]). split; [exact X|]. split; [exact G|].
  rewrite (inv_cur _ _ X). apply cend_last.
Qed.

Lemma s_open1 st l t : inv st l -> t = Z.of_nat (length (g_map st)) ->
  let st' := emit (ICase oOPT_CASE t 0) (set_map (g_map st ++ [[]]) st) in
  exists l', inv st' l' /\ grows l l' /\ cend l' oOPT_CASE t (cur st').
Proof.
  intros I -> st'. set (t := Z.of_nat (length (g_map st))) in *.
  set (i := ICase oOPT_CASE t 0).
  assert (X : inv st' (l ++ [i]) /\ grows l (l ++ [i])).
  { apply (s_emit_gen i st st' l I); try reflexivity.
    - intros d E. injection E as <-. apply hits_0.
    - intros o t' e [Z T]. split; [exact Z|]. destruct o; [|exact T].
      destruct T as (m & A & B). exists m. split; [|exact B].
      cbn. rewrite nth_error_app1; [exact A|]. apply nth_error_Some. congruence.
    - intros o t' d E. injection E as <- <- <-. split.
      + split; [lia|]. exists []. split.
        * unfold t. rewrite Nat2Z.id. apply nth_error_last.
        * intros x [].
      + intros k d' N. pose proof (i_tab _ _ I _ _ _ _ N) as [_ (m & A & _)].
        unfold t in A. rewrite Nat2Z.id in A.
        assert (nth_error (g_map st) (length (g_map st)) <> None) as Y by congruence.
        apply nth_error_Some in Y. lia. }
  destruct X as [X G]. exists (l ++ [i]). split; [exact X|]. split; [exact G|].
  rewrite (inv_cur _ _ X). apply cend_last.
Qed.

Lemma s_close2 st l t e lo hi m def : inv st l -> cend l oOPT_CASE2 t e ->
  Forall (thits l e) (map snd m) -> thits l e def ->
  inv (set_map2 (upd_nth (Z.to_nat t) (lo, hi, m, def) (g_map2 st)) st) l.
Proof.
  intros I (k & d & N & ->) FM FD. destruct (i_tab _ _ I _ _ _ _ N) as [TZ (lo' & hi' & m' & def' & A & _)].
  assert (L : (Z.to_nat t < length (g_map2 st))%nat) by (apply nth_error_Some; congruence).
  constructor; try apply I.
  intros k' o t' d' N'. destruct (i_tab _ _ I _ _ _ _ N') as [TZ' T]. split; [exact TZ'|].
  destruct o; [exact T|]. cbn [set_map2 g_map2].
  destruct (Z.eq_dec t' t) as [->|NE].
  - rewrite (i_uniq _ _ I _ _ _ _ _ _ N' N). exists lo, hi, m, def.
    split; [apply nth_upd_same, L|]. rewrite Forall_forall in FM.
    intros x [->|X]; auto.
  - rewrite nth_upd_other by lia. exact T.
Qed.

Lemma s_close1 st l t e m : inv st l -> cend l oOPT_CASE t e ->
  Forall (thits l e) (map snd m) ->
  inv (set_map (upd_nth (Z.to_nat t) m (g_map st)) st) l.
Proof.
  intros I (k & d & N & ->) FM. destruct (i_tab _ _ I _ _ _ _ N) as [TZ (m' & A & _)].
  assert (L : (Z.to_nat t < length (g_map st))%nat) by (apply nth_error_Some; congruence).
  constructor; try apply I.
  intros k' o t' d' N'. destruct (i_tab _ _ I _ _ _ _ N') as [TZ' T]. split; [exact TZ'|].
  destruct o; [|exact T]. cbn [set_map g_map].
  destruct (Z.eq_dec t' t) as [->|NE].
  - rewrite (i_uniq _ _ I _ _ _ _ _ _ N' N). exists m.
    split; [apply nth_upd_same, L|]. rewrite Forall_forall in FM. exact FM.
  - rewrite nth_upd_other by lia. exact T.
Qed.

Lemma fold_snd {A K0} (lab : A -> option K0) (Q : Z -> Prop) (x : Z) : Q x -> forall labs m,
  Forall Q (map snd m) ->
  Forall Q (map snd (fold_left
    (fun m n => match lab n with Some k => (k, x) :: m | None => m end) labs m)).
Proof.
  intros HX labs. induction labs as [|n labs IH]; intros m F; [exact F|].
  cbn [fold_left]. apply IH. destruct (lab n); [constructor; assumption|exact F].
Qed.

Definition fine_when (b : list node * node) : Prop := Forall fine (fst b) /\ fine (snd b).

Lemma sh_table {K0} (lab : node -> option K0) u start whens : forall m ends st m' ends' st' l,
  Forall fine_when whens -> inv st l -> bnd l start ->
  Forall (thits l start) (map snd m) -> Forall (jend l) ends ->
  table_branches g lab u start whens m ends st = Ok (m', ends', st') ->
  exists l', inv st' l' /\ grows l l' /\ Forall (thits l' start) (map snd m') /\
             Forall (jend l') ends'.
Proof.
  induction whens as [|[labs body] whens IH]; intros m ends st m' ends' st' l FW I B FM FE H;
    cbn [table_branches] in H.
  - apply ok_inj in H. injection H as <- <- <-. exists l. split; [exact I|].
    split; [apply grows_refl|]. auto.
  - inversion FW as [|? ? F1 F2]; subst. destruct F1 as [FL FB]. cbn [fst snd] in FL, FB.
    cbv zeta in H. bi H st1. destruct (sh_step _ _ _ _ _ (Hg0 _ _ FB) I E) as (l1 & I1 & G1).
    emj I1 (IJ oJMP 0) l2 J2.
    edestruct IH as (l3 & I3 & G3 & A3 & B3); [exact F2|exact Q| | | |exact H|].
    { eapply bnd_grows; [|exact B]. gr. }
    { apply fold_snd.
      - exists (cur st). rewrite (inv_cur _ _ I). split; [|reflexivity].
        eapply bnd_grows; [|apply bnd_end]. gr.
      - eapply Forall_thits; [|exact FM]. gr. }
    { apply Forall_app. split; [eapply Forall_jend; [|exact FE]; gr|].
      constructor; [exact J2|constructor]. }
    exists l3. split; [exact I3|]. split; [gr|]. auto.
Qed.

Lemma sh_seq_labels L : forall ds st ds' st' l, Forall fine L -> inv st l -> Forall (jend l) ds ->
  seq_labels g L ds st = Ok (ds', st') ->
  exists l', inv st' l' /\ grows l l' /\ Forall (jend l') ds'.
Proof.
  induction L as [|x L IH]; intros ds st ds' st' l F I FD H; cbn [seq_labels] in H.
  - apply ok_inj in H. injection H as <- <-. exists l. split; [exact I|].
    split; [apply grows_refl|]. exact FD.
  - inversion F; subst. cbv zeta in H. em I (I32 oDUP 1) l1. bi H st1.
    destruct (sh_step _ _ _ _ _ (Hg0 _ _ H2) Q E) as (l2 & I2 & G2).
    em I2 (I32 oSINKN 1) l3. em Q0 (I0 oTEQ) l4. emj Q1 (IJ oJMP_T 0) l5 J5.
    edestruct IH as (l6 & I6 & G6 & A6); [exact H3|exact Q2| |exact H|].
    { apply Forall_app. split; [eapply Forall_jend; [|exact FD]; gr|].
      constructor; [exact J5|constructor]. }
    exists l6. split; [exact I6|]. split; [gr|]. exact A6.
Qed.

Lemma sh_bool_labels L : forall ds st ds' st' l, Forall fine L -> inv st l -> Forall (jend l) ds ->
  bool_labels g L ds st = Ok (ds', st') ->
  exists l', inv st' l' /\ grows l l' /\ Forall (jend l') ds'.
Proof.
  induction L as [|x L IH]; intros ds st ds' st' l F I FD H; cbn [bool_labels] in H.
  - apply ok_inj in H. injection H as <- <-. exists l. split; [exact I|].
    split; [apply grows_refl|]. exact FD.
  - inversion F; subst. cbv zeta in H. bi H st1.
    destruct (sh_step _ _ _ _ _ (Hg0 _ _ H2) I E) as (l2 & I2 & G2).
    emj I2 (IJ oJMP_F 0) l5 J5.
    edestruct IH as (l6 & I6 & G6 & A6); [exact H3|exact Q| |exact H|].
    { apply Forall_app. split; [eapply Forall_jend; [|exact FD]; gr|].
      constructor; [exact J5|constructor]. }
    exists l6. split; [exact I6|]. split; [gr|]. exact A6.
Qed.

Definition ojend (l : list inst) (o : option Z) : Prop := forall p, o = Some p -> jend l p.
Lemma ojend_grows l l' o : grows l l' -> ojend l o -> ojend l' o.
Proof. intros G H p E. eapply jend_grows; [exact G|apply H, E]. Qed.
Lemma ojend_some l p : jend l p -> ojend l (Some p).
Proof. intros J q E. injection E as <-. exact J. Qed.

Ltac bix H x y := match type of H with
  | rbind ?e _ = Ok _ =>
      let E := fresh "E" in
      destruct e as [[x y]| |] eqn:E; [cbn [rbind] in H|discriminate H|discriminate H]
  end.

Lemma sh_seq_branches u whens : forall nx ends st nx' ends' st' l,
  Forall fine_when whens -> inv st l -> ojend l nx -> Forall (jend l) ends ->
  seq_branches g u whens nx ends st = Ok (nx', ends', st') ->
  exists l', inv st' l' /\ grows l l' /\ ojend l' nx' /\ Forall (jend l') ends'.
Proof.
  induction whens as [|[labs body] whens IH]; intros nx ends st nx' ends' st' l FW I ON FE H;
    cbn [seq_branches] in H.
  - apply ok_inj in H. injection H as <- <- <-. exists l. split; [exact I|].
    split; [apply grows_refl|]. auto.
  - inversion FW as [|? ? F1 F2]; subst. destruct F1 as [FL FB]. cbn [fst snd] in FL, FB.
    bi H st1. destruct (s_wcur_opt _ _ _ _ I ON E) as (l1 & I1 & G1).
    bix H ds st2.
    destruct (sh_seq_labels _ _ _ _ _ _ FL I1 (Forall_nil _) E0) as (l2 & I2 & G2 & A2).
    cbv zeta in H. emj I2 (IJ oJMP 0) l3 J3. bi H st4.
    edestruct s_wcurs as (l4 & I4 & G4); [exact Q| |exact E1|].
    { eapply Forall_jend; [|exact A2]. gr. }
    em I4 (I0 oPOP) l5. bi H st6.
    destruct (sh_step _ _ _ _ _ (Hg0 _ _ FB) Q0 E2) as (l6 & I6 & G6).
    emj I6 (IJ oJMP 0) l7 J7.
    edestruct IH as (l8 & I8 & G8 & A8 & B8); [exact F2|exact Q1| | |exact H|].
    { apply ojend_some. eapply jend_grows; [|exact J3]. gr. }
    { apply Forall_app. split; [eapply Forall_jend; [|exact FE]; gr|].
      constructor; [exact J7|constructor]. }
    exists l8. split; [exact I8|]. split; [gr|]. auto.
Qed.

Lemma sh_bool_branches u whens : forall ends st ends' st' l,
  Forall fine_when whens -> inv st l -> Forall (jend l) ends ->
  bool_branches g u whens ends st = Ok (ends', st') ->
  exists l', inv st' l' /\ grows l l' /\ Forall (jend l') ends'.
Proof.
  induction whens as [|[labs body] whens IH]; intros ends st ends' st' l FW I FE H;
    cbn [bool_branches] in H.
  - apply ok_inj in H. injection H as <- <-. exists l. split; [exact I|].
    split; [apply grows_refl|]. auto.
  - inversion FW as [|? ? F1 F2]; subst. destruct F1 as [FL FB]. cbn [fst snd] in FL, FB.
    bix H ds st2.
    destruct (sh_bool_labels _ _ _ _ _ _ FL I (Forall_nil _) E) as (l2 & I2 & G2 & A2).
    cbv zeta in H. bi H st3. destruct (sh_step _ _ _ _ _ (Hg0 _ _ FB) I2 E0) as (l3 & I3 & G3).
    emj I3 (IJ oJMP 0) l4 J4. bi H st5.
    edestruct s_wcurs as (l5 & I5 & G5); [exact Q| |exact E1|].
    { eapply Forall_jend; [|exact A2]. gr. }
    edestruct IH as (l8 & I8 & G8 & B8); [exact F2|exact I5| |exact H|].
    { apply Forall_app. split; [eapply Forall_jend; [|exact FE]; gr|].
      constructor; [eapply jend_grows; [|exact J4]; gr|constructor]. }
    exists l8. split; [exact I8|]. split; [gr|]. auto.
Qed.

Lemma sh_case c whens els u : (forall n, c = Some n -> fine n) -> Forall fine_when whens ->
  fine els -> sh false (gen_case g c whens els u).
Proof.
  intros FC FW FE st st' l I H. unfold gen_case in H. destruct c as [c|].
  2: { bix H ends st1.
       destruct (sh_bool_branches _ _ _ _ _ _ _ FW I (Forall_nil _) E) as (l1 & I1 & G1 & A1).
       bi H st2. destruct (sh_step _ _ _ _ _ (Hg0 _ _ FE) I1 E0) as (l2 & I2 & G2).
       edestruct s_wcurs as (l3 & I3 & G3); [exact I2| |exact H|].
       { eapply Forall_jend; [|exact A1]. gr. }
       exists l3. split; [exact I3|]. split; [gr|discriminate]. }
  bi H st1. destruct (sh_step _ _ _ _ _ (Hg0 _ _ (FC _ eq_refl)) I E) as (l1 & I1 & G1).
  destruct (all_int whens) as [labels|]; [|destruct (all_lit whens)].
  - cbv zeta in H. destruct (s_open2 _ _ _ I1 eq_refl) as (l2 & I2 & G2 & C2). cbv zeta in I2, C2.
    match type of H with context [cur ?s] => set (st2 := s) in * end. clearbody st2.
    match type of H with rbind ?e _ = _ =>
      destruct e as [[[m ends] st3]| |] eqn:E0; [cbn [rbind] in H|discriminate H|discriminate H] end.
    edestruct (@sh_table Z) as (l3 & I3 & G3 & A3 & B3); [exact FW|exact I2| | | |exact E0|].
    { apply jend_bnd, (cend_jend _ _ _ _ C2). } { constructor. } { constructor. }
    destruct (table_size_ok _ _); [|discriminate].
    pose proof (cend_grows _ _ _ _ _ G3 C2) as C3.
    pose proof (fun lo hi def => s_close2 _ _ _ _ lo hi m def I3 C3 A3) as CL.
    bi H st4. edestruct s_wcur as (l4 & I4 & G4); [| |exact E1|].
    { apply CL. exists (cur st3). split; [|reflexivity]. rewrite (inv_cur _ _ I3). apply bnd_end. }
    { apply (cend_jend _ _ _ _ C3). }
    bi H st5. destruct (sh_step _ _ _ _ _ (Hg0 _ _ FE) I4 E2) as (l5 & I5 & G5).
    edestruct s_wcurs as (l6 & I6 & G6); [exact I5| |exact H|].
    { eapply Forall_jend; [|exact B3]. gr. }
    exists l6. split; [exact I6|]. split; [gr|discriminate].
  - cbv zeta in H. destruct (s_open1 _ _ _ I1 eq_refl) as (l2 & I2 & G2 & C2). cbv zeta in I2, C2.
    match type of H with context [cur ?s] => set (st2 := s) in * end. clearbody st2.
    match type of H with rbind ?e _ = _ =>
      destruct e as [[[m ends] st3]| |] eqn:E0; [cbn [rbind] in H|discriminate H|discriminate H] end.
    edestruct (@sh_table value) as (l3 & I3 & G3 & A3 & B3); [exact FW|exact I2| | | |exact E0|].
    { apply jend_bnd, (cend_jend _ _ _ _ C2). } { constructor. } { constructor. }
    pose proof (cend_grows _ _ _ _ _ G3 C2) as C3.
    pose proof (s_close1 _ _ _ _ m I3 C3 A3) as CL.
    bi H st4. edestruct s_wcur as (l4 & I4 & G4); [| |exact E1|].
    { apply CL. }
    { apply (cend_jend _ _ _ _ C3). }
    bi H st5. destruct (sh_step _ _ _ _ _ (Hg0 _ _ FE) I4 E2) as (l5 & I5 & G5).
    edestruct s_wcurs as (l6 & I6 & G6); [exact I5| |exact H|].
    { eapply Forall_jend; [|exact B3]. gr. }
    exists l6. split; [exact I6|]. split; [gr|discriminate].
  - match type of H with rbind ?e _ = _ =>
      destruct e as [[[nx ends] st3]| |] eqn:E0; [cbn [rbind] in H|discriminate H|discriminate H] end.
    edestruct sh_seq_branches as (l2 & I2 & G2 & A2 & B2); [exact FW|exact I1| | |exact E0|].
    { intros p Hp. discriminate. } { constructor. }
    bi H st4. destruct (s_wcur_opt _ _ _ _ I2 A2 E1) as (l3 & I3 & G3).
    cbv zeta in H. em I3 (I0 oPOP) l4. bi H st5.
    destruct (sh_step _ _ _ _ _ (Hg0 _ _ FE) Q E2) as (l5 & I5 & G5).
    edestruct s_wcurs as (l6 & I6 & G6); [exact I5| |exact H|].
    { eapply Forall_jend; [|exact B2]. gr. }
    exists l6. split; [exact I6|]. split; [gr|discriminate].
Qed.

(** ** begin *)
Definition fine_clause (b : list node * option node * node) : Prop :=
  Forall fine (fst (fst b)) /\ (forall a, snd (fst b) = Some a -> fine_lhs a) /\ fine (snd b).

Lemma sh_clauses u rs : forall pv ends st pv' ends' st' l,
  Forall fine_clause rs -> inv st l -> ojend l pv -> Forall (jend l) ends ->
  gen_clauses cx g u rs pv ends st = Ok (pv', ends', st') ->
  exists l', inv st' l' /\ grows l l' /\ ojend l' pv' /\ Forall (jend l') ends'.
Proof.
  induction rs as [|[[exs asg] body] rs IH]; intros pv ends st pv' ends' st' l FW I ON FE H;
    cbn [gen_clauses] in H.
  - apply ok_inj in H. injection H as <- <- <-. exists l. split; [exact I|].
    split; [apply grows_refl|]. auto.
  - inversion FW as [|? ? F1 F2]; subst. destruct F1 as (FX & FA & FB). cbn [fst snd] in FX, FA, FB.
    bi H st1. destruct (s_wcur_opt _ _ _ _ I ON E) as (l1 & I1 & G1).
    cbv zeta in H. em I1 (I32 oDUP 1) l2. bi H st3.
    assert (X : exists l3, inv st3 l3 /\ grows l2 l3).
    { destruct exs as [|x exs].
      - okinv E0. em Q (I32 oGET_CONST_TOP (sc_stderr cx)) l3. em Q0 (I32 oRESCUE 1) l4.
        exists l4. split; [assumption|gr].
      - bi E0 st4. okinv E0. destruct (sh_step _ _ _ _ _ (sh_gens _ FX) Q E1) as (l3 & I3 & G3).
        em I3 (I32 oRESCUE (Z.of_nat (length (x :: exs)))) l4.
        exists l4. split; [assumption|gr]. }
    destruct X as (l3 & I3 & G3). emj I3 (IJ oJMP_F 0) l4 J4. bi H st5.
    assert (X : exists l5, inv st5 l5 /\ grows l4 l5).
    { destruct asg as [a|].
      - exact (sh_step _ _ _ _ _ (sh_assign _ (FA _ eq_refl)) Q0 E1).
      - okinv E1. em Q0 (I0 oPOP) l5. exists l5. split; [assumption|gr]. }
    destruct X as (l5 & I5 & G5). bi H st6.
    destruct (sh_step _ _ _ _ _ (Hg0 _ _ FB) I5 E2) as (l6 & I6 & G6).
    emj I6 (IJ oJMP 0) l7 J7.
    edestruct IH as (l8 & I8 & G8 & A8 & B8); [exact F2|exact Q1| | |exact H|].
    { apply ojend_some. eapply jend_grows; [|exact J4]. gr. }
    { apply Forall_app. split; [eapply Forall_jend; [|exact FE]; gr|].
      constructor; [exact J7|constructor]. }
    exists l8. split; [exact I8|]. split; [gr|]. auto.
Qed.

Lemma sh_ensure ens : (forall e, ens = Some e -> fine e) -> sh false (gen_ensure g ens).
Proof.
  intros F. destruct ens as [e|].
  - exact (Hg0 _ _ (F _ eq_refl)).
  - exact sh_ok.
Qed.

Lemma sh_ret_dests ens jd : (forall e, ens = Some e -> fine e) -> forall st st' l,
  inv st l -> Forall (jend l) (jd_ret jd ++ jd_mret jd) -> gen_ret_dests g ens jd st = Ok st' ->
  exists l', inv st' l' /\ grows l l'.
Proof.
  intros F st st' l I FJ H. unfold gen_ret_dests in H. destruct (no_dests jd).
  - okinv H. exists l. split; [exact I|gr].
  - cbv zeta in H. apply Forall_app in FJ as [FR FM].
    emj I (IJ oJMP 0) l1 J1. bi H st2.
    edestruct s_wcurs as (l2 & I2 & G2); [exact Q| |exact E|].
    { eapply Forall_jend; [|exact FR]. gr. }
    bi H st3. assert (X : exists l3, inv st3 l3 /\ grows l2 l3).
    { destruct (jd_ret jd).
      - okinv E0. exists l2. split; [assumption|gr].
      - bi E0 st4. okinv E0. destruct (sh_step _ _ _ _ _ (sh_ensure _ F) I2 E1) as (l3 & I3 & G3).
        em I3 (I0 oRETURN) l4. exists l4. split; [assumption|gr]. }
    destruct X as (l3 & I3 & G3). bi H st4.
    edestruct s_wcurs as (l4 & I4 & G4); [exact I3| |exact E1|].
    { eapply Forall_jend; [|exact FM]. gr. }
    bi H st5. assert (X : exists l5, inv st5 l5 /\ grows l4 l5).
    { destruct (jd_mret jd).
      - okinv E2. exists l4. split; [assumption|gr].
      - bi E2 st6. okinv E2. destruct (sh_step _ _ _ _ _ (sh_ensure _ F) I4 E3) as (l5 & I5 & G5).
        em I5 (I0 oMRETURN) l6. exists l6. split; [assumption|gr]. }
    destruct X as (l5 & I5 & G5).
    edestruct s_wcur as (l6 & I6 & G6); [exact I5| |exact H|].
    { eapply jend_grows; [|exact J1]. gr. }
    exists l6. split; [assumption|gr].
Qed.

Lemma sh_begin body rs els ens u : fine body -> Forall fine_clause rs ->
  (forall e, els = Some e -> fine e) -> (forall e, ens = Some e -> fine e) ->
  sh false (gen_begin cx g body rs els ens u).
Proof.
  intros FB FR FL FN st st' l I H. unfold gen_begin in H. cbv zeta in H.
  set (b := match ens with Some _ => true | None => false end) in *. clearbody b.
  assert (I' : inv (push_jd b st) l).
  { apply s_jds; [exact I|]. constructor; [constructor|exact (i_ret _ _ I)]. }
  bi H st1. destruct (sh_step _ _ _ _ _ (Hg0 _ _ FB) I' E) as (l1 & I1 & G1).
  destruct (jds st1) as [|jd jr] eqn:EJ; [discriminate|].
  pose proof (i_ret _ _ I1) as RT. rewrite EJ in RT. inversion RT as [|? ? RT1 RT2]; subst.
  assert (I2 : inv (set_jds jr st1) l1) by (apply s_jds; assumption).
  match type of H with rbind ?e _ = _ =>
    destruct e as [[[dest ends] st3]| |] eqn:E0; [cbn [rbind] in H|discriminate H|discriminate H] end.
  assert (X : exists l3, inv st3 l3 /\ grows l1 l3 /\ Forall (jend l3) ends /\ ojend l3 dest).
  { destruct rs as [|r rs].
    - apply ok_inj in E0. injection E0 as <- <- <-. exists l1. split; [exact I2|].
      split; [gr|]. split; [constructor|]. intros p Hp. discriminate.
    - emj I2 (IJ oJMP 0) l3 J3.
      match type of E0 with rbind ?e _ = _ =>
        destruct e as [[[pv en] st4]| |] eqn:E1; [cbn [rbind] in E0|discriminate E0|discriminate E0] end.
      edestruct sh_clauses as (l4 & I4 & G4 & A4 & B4); [exact FR|exact Q| | |exact E1|].
      { intros p Hp. discriminate. } { constructor. }
      bi E0 st5. destruct (s_wcur_opt _ _ _ _ I4 A4 E2) as (l5 & I5 & G5).
      bi E0 st6. destruct (sh_step _ _ _ _ _ (sh_ensure _ FN) I5 E3) as (l6 & I6 & G6).
      em I6 (I0 oTHROW) l7. bi E0 st8.
      edestruct s_wcur as (l8 & I8 & G8); [exact Q0| |exact E4|].
      { eapply jend_grows; [|exact J3]. gr. }
      apply ok_inj in E0. injection E0 as <- <- <-. exists l8. split; [exact I8|].
      split; [gr|]. split; [eapply Forall_jend; [|exact B4]; gr|].
      apply ojend_some. eapply jend_grows; [|exact J3]. gr. }
  destruct X as (l3 & I3 & G3 & A3 & B3). bi H st4.
  assert (X : exists l4, inv st4 l4 /\ grows l3 l4).
  { destruct els as [e|].
    - destruct (s_opt u (I0 oPOP) _ _ I3 eq_refl) as (l5 & I5 & G5).
      destruct (sh_step _ _ _ _ _ (Hg0 _ _ (FL _ eq_refl)) I5 E1) as (l6 & I6 & G6).
      exists l6. split; [exact I6|gr].
    - okinv E1. exists l3. split; [exact I3|gr]. }
  destruct X as (l4 & I4 & G4). bi H st5.
  edestruct sh_ret_dests as (l5 & I5 & G5); [exact FN|exact I4| |exact E2|].
  { eapply Forall_jend; [|exact RT1]. gr. }
  bi H st6. edestruct s_wcurs as (l6 & I6 & G6); [exact I5| |exact E3|].
  { eapply Forall_jend; [|exact A3]. gr. }
  assert (X : inv (match dest with
                | Some d => set_extab (extab st6 ++ [mkex (cur st) (cur (set_jds jr st1)) d false]) st6
                | None => st6
                end) l6).
  { destruct dest as [d|]; [|exact I6]. apply s_extab; [exact I6|]. apply Forall_app.
    split; [exact (i_ex _ _ I6)|]. constructor; [|constructor]. cbn [ex_dest].
    apply jend_bnd. eapply jend_grows; [|apply B3; reflexivity]. gr. }
  destruct (sh_step _ _ _ _ _ (sh_ensure _ FN) X H) as (l7 & I7 & G7).
  exists l7. split; [exact I7|]. split; [gr|discriminate].
Qed.
(** [defined?] *)
Definition shd (r : cg -> res chk) : Prop :=
  forall st L e st' l, inv st l -> r st = Ok (L, e, st') ->
  exists l', inv st' l' /\ grows l l' /\ Forall (jend l') L.

Lemma shd_none : shd (fun st => Ok ([], [], st)).
Proof.
  intros st L e st' l I H. apply ok_inj in H. injection H as <- <- <-. exists l.
  split; [exact I|]. split; [gr|constructor].
Qed.
Lemma shd_then r k : shd r -> shd k -> shd (fun st => cthen (r st) k).
Proof.
  intros H1 H2 st L e st' l I H. unfold cthen in H.
  destruct (r st) as [[[L1 e1] st1]| |] eqn:B1; cbn [rbind] in H; try discriminate H.
  destruct (k st1) as [[[L2 e2] st2]| |] eqn:B2; cbn [rbind] in H; try discriminate H.
  apply ok_inj in H. injection H as <- <- <-.
  destruct (H1 _ _ _ _ _ I B1) as (l1 & I1 & G1 & F1).
  destruct (H2 _ _ _ _ _ I1 B2) as (l2 & I2 & G2 & F2).
  exists l2. split; [exact I2|]. split; [gr|]. apply Forall_app. split; [|exact F2].
  eapply Forall_jend; eassumption.
Qed.
Lemma shd_inst i : disp i = None -> shd (check_inst i).
Proof.
  intros D st L e st' l I H. unfold check_inst in H. cbv zeta in H.
  destruct (s_emit i _ _ I D) as [I1 G1].
  destruct (s_jump (IJ oJMP_T 0) _ _ I1 eq_refl eq_refl) as (I2 & G2 & J2).
  apply ok_inj in H. injection H as <- <- <-. eexists. split; [exact I2|]. split; [gr|].
  constructor; [|constructor]. exact J2.
Qed.
Lemma shd_after i r : disp i = None -> shd r -> shd (fun st => r (emit i st)).
Proof.
  intros D HR st L e st' l I H. destruct (s_emit i _ _ I D) as [I1 G1].
  destruct (HR _ _ _ _ _ I1 H) as (l2 & I2 & G2 & F). exists l2. split; [exact I2|]. split; [gr|exact F].
Qed.
Lemma shd_recv n caught : fine n -> shd (check_recv (g n) caught).
Proof.
  intros F st L e st' l I H. unfold check_recv in H. cbv zeta in H. bi H st1.
  apply ok_inj in H. injection H as <- <- <-.
  destruct (sh_step _ _ _ _ _ (Hg0 _ _ F) I E) as (l1 & I1 & G1). exists l1.
  split; [exact I1|]. split; [gr|constructor].
Qed.
Lemma shd_targets T : shd (fun st => st <- check_targets cx T st ;; Ok ([], [], st)).
Proof.
  intros st L e st' l I H. bi H st1. apply ok_inj in H. injection H as <- <- <-.
  assert (X : exists l', inv st1 l' /\ grows l l').
  { revert st l I E. induction T as [|x T IH]; intros st l I E; cbn [check_targets] in E.
    - okinv E. exists l. split; [exact I|gr].
    - destruct x; try (exact (IH _ _ I E)).
      all: bi E st2; em I (I0 oPUSH_NIL) l1;
        destruct (sh_step _ _ _ _ _ (sh_set_local _) Q E0) as (l2 & I2 & G2);
        destruct (IH _ _ I2 E) as (l3 & I3 & G3); exists l3; split; [exact I3|gr]. }
  destruct X as (l' & A & B). exists l'. split; [exact A|]. split; [exact B|constructor].
Qed.

Lemma shd_checks ck T : Forall (fun x => shd (ck x)) T -> forall m, shd (checks_of ck m T).
Proof.
  induction 1 as [|x T H F IH]; intros m; [destruct m; exact shd_none|].
  destruct m as [|m]; [exact shd_none|]. exact (shd_then _ _ H (IH m)).
Qed.

Lemma shd_check d : forall j n, (nsize n <= j)%nat -> fine n -> shd (check_defined cx g d n).
Proof.
  induction j as [|j IH]; intros n A F; [destruct n; cbn in A; lia|].
  assert (ONE : forall m, (nsize m <= j)%nat -> fine m -> shd (check_defined cx g d m)) by (intros; apply IH; assumption).
  assert (LST : forall T m, (sum (map nsize T) <= j)%nat -> Forall fine T ->
     shd (checks_of (check_defined cx g d) m T)).
  { intros T m B C. apply shd_checks. rewrite Forall_forall in *. intros x X. apply ONE; [|apply C, X].
    pose proof (sum_in nsize x T X). lia. }
  assert (HAS : forall m i caught, fine m -> disp i = None ->
     shd (fun st => cthen (check_recv (g m) caught st) (check_inst i))).
  { intros m i caught B C. apply shd_then; [apply shd_recv, B|apply shd_inst, C]. }
  assert (FF : forall m, (nsize m < nsize n)%nat -> (loops_ok n = true -> loops_ok m = true) -> fine m).
  { intros m B C. destruct F as [F1 F2]. split; [lia|]. intros S. auto. }
  assert (FL : forall T, (sum (map nsize T) < nsize n)%nat ->
            (loops_ok n = true -> forallb loops_ok T = true) -> Forall fine T).
  { intros T B C. apply Forall_forall. intros x X. apply FF; [pose proof (sum_in nsize x T X); lia|].
    intros S. specialize (C S). rewrite forallb_forall in C. apply C, X. }
  clear F. destruct n; try exact shd_none; cbn [nsize loops_ok] in *.
  - (* local *)
    intros st L e st' l I H. cbn [check_defined] in H. destruct (get_local_var cx id) as [[o i]|].
    + exact (shd_inst (I2 oCHECK_LOCAL i o) eq_refl _ _ _ _ _ I H).
    + destruct (s_jump (IJ oJMP 0) _ _ I eq_refl eq_refl) as (I2 & G2 & J2).
      apply ok_inj in H. injection H as <- <- <-. eexists. split; [exact I2|]. split; [gr|].
      constructor; [exact J2|constructor].
  - exact (shd_inst (I32 oCHECK_GVAR id) eq_refl).
  - exact (shd_inst (I32 oCHECK_IVAR id) eq_refl).
  - exact (shd_after (I0 oPUSH_SELF) _ eq_refl (shd_inst (I32 oCHECK_METHOD id) eq_refl)).
  - assert (F1 : fine n) by (apply FF; [lia|intros S; rewrite ?andb_true_iff in S; tauto]).
    assert (F2 : Forall fine args) by (apply FL; [lia|intros S; rewrite ?andb_true_iff in S; tauto]).
    exact (shd_then _ _ (ONE n ltac:(lia) F1) (shd_then _ _ (LST args (length args) ltac:(lia) F2)
             (HAS n (I32 oCHECK_METHOD id) true F1 eq_refl))).
  - assert (F1 : fine n1) by (apply FF; [lia|intros S; rewrite ?andb_true_iff in S; tauto]).
    assert (F2 : fine n2) by (apply FF; [lia|intros S; rewrite ?andb_true_iff in S; tauto]).
    exact (shd_then _ _ (ONE n1 ltac:(lia) F1) (shd_then _ _ (ONE n2 ltac:(lia) F2)
             (HAS n1 (I32 oCHECK_METHOD (dn_index d)) false F1 eq_refl))).
  - exact (LST l (length l) ltac:(lia) (FL l ltac:(lia) (fun S => S))).
  - assert (FA : Forall fine l) by (apply FL; [lia|auto]).
    destruct k; try exact shd_none.
    + exact (shd_inst (I32 oCHECK_CONST id) eq_refl).
    + exact (shd_after (I2 oGET_CONST (dn_object d) 0) _ eq_refl (shd_inst (I32 oCHECK_SCOPE id) eq_refl)).
    + destruct l as [|p l]; [exact shd_none|]. cbn [map sum fold_right] in A. inversion FA; subst.
      exact (shd_then _ _ (ONE p ltac:(lia) ltac:(assumption))
               (HAS p (I32 oCHECK_SCOPE id) false ltac:(assumption) eq_refl)).
    + destruct l as [|p l]; [exact shd_none|]. cbn [map sum fold_right] in A. fold (sum (map nsize l)) in A.
      inversion FA; subst.
      exact (shd_then _ _ (ONE p ltac:(lia) ltac:(assumption))
               (shd_then _ _ (LST l (Z.to_nat nargs) ltac:(lia) ltac:(assumption))
                 (HAS p (I32 oCHECK_METHOD id) true ltac:(assumption) eq_refl))).
  - assert (F1 : fine n1) by (apply FF; [lia|intros S; rewrite ?andb_true_iff in S; tauto]).
    assert (F2 : fine n2) by (apply FF; [lia|intros S; rewrite ?andb_true_iff in S; tauto]).
    exact (shd_then _ _ (ONE n1 ltac:(lia) F1) (shd_then _ _ (ONE n2 ltac:(lia) F2)
             (HAS n1 (I32 oCHECK_METHOD (dn_bin d op)) false F1 eq_refl))).
  - assert (F1 : fine n) by (apply FF; [lia|auto]).
    exact (shd_then _ _ (ONE n ltac:(lia) F1) (HAS n (I32 oCHECK_METHOD (dn_un d op)) false F1 eq_refl)).
  - exact (shd_targets [n1]).
  - exact (shd_targets [n1]).
  - exact (shd_targets lhs).
Qed.

Lemma sh_defined d e : fine e -> sh false (gen_defined cx g d e).
Proof.
  intros F st st' l I H. unfold gen_defined in H.
  destruct (check_defined cx g d e st) as [[[labels exs] st1]| |] eqn:B1; cbn [rbind] in H; try discriminate H.
  destruct (shd_check d _ e (le_n _) F _ _ _ _ _ I B1) as (l1 & I1 & G1 & F1).
  bi H st2. destruct (sh_step _ _ _ _ _ (sh_const _) I1 E) as (l2 & I2 & G2). cbv zeta in H.
  emj I2 (IJ oJMP 0) l3 J3.
  assert (X : inv (set_extab (extab (emit (IJ oJMP 0) st2)
                     ++ map (fun p => mkex (fst p) (snd p) (cur (emit (IJ oJMP 0) st2)) true) exs)
                   (emit (IJ oJMP 0) st2)) l3).
  { apply s_extab; [exact Q|]. apply Forall_app. split; [exact (i_ex _ _ Q)|].
    apply Forall_map. cbn [ex_dest]. apply Forall_forall. intros p _. apply jend_bnd. exact J3. }
  em X (I0 oPOP) l4. bi H st5.
  edestruct s_wcurs as (l5 & I5 & G5); [exact Q0| |exact E0|].
  { eapply Forall_jend; [|exact F1]. gr. }
  em I5 (I0 oPUSH_NIL) l6.
  edestruct s_wcur as (l7 & I7 & G7); [exact Q1| |exact H|].
  { eapply jend_grows; [|exact J3]. gr. }
  exists l7. split; [exact I7|]. split; [gr|discriminate].
Qed.
End Nodes.

Lemma s_escape k st st' l : inv st l -> jend l (cur st) -> add_escape k st = Ok st' ->
  inv st' l.
Proof.
  intros I J H. unfold add_escape in H. pose proof (i_esc _ _ I) as ES.
  destruct (loops st) as [|x r]; [discriminate|]. okinv H. inversion ES; subst.
  apply s_loops; [exact I|]. constructor; [|assumption]. cbn [lp_esc].
  rewrite map_app. apply Forall_app. split; [assumption|]. constructor; [exact J|constructor].
Qed.
Lemma s_ret b st st' l : inv st l -> jend l (cur st) -> add_ret b st = Ok st' -> inv st' l.
Proof.
  intros I J H. unfold add_ret in H. pose proof (i_ret _ _ I) as ES.
  destruct (jds st) as [|x r]; [discriminate|]. okinv H. inversion ES as [|? ? A B]; subst.
  apply s_jds; [exact I|]. constructor; [|assumption].
  apply Forall_app in A as [A1 A2].
  destruct b; cbn [jd_ret jd_mret]; rewrite !Forall_app; repeat split; auto.
Qed.

(** ** All trees *)
Lemma sh_gen K : forall n u, (nsize n < K)%nat -> (strict = true -> loops_ok n = true) ->
  sh (u && head_ok n) (gen cx n u).
Proof.
  induction K as [|K IH]; intros n u SZ LK; [lia|].
  assert (Hg : forall m v, fine K m -> sh (v && head_ok m) (gen cx m v)).
  { intros m v [A B]. apply IH; assumption. }
  assert (H0 : forall m v, fine K m -> sh false (gen cx m v)).
  { intros m v F. eapply sh_weak, Hg, F. }
  assert (FS : forall L : list node, (sum (map nsize L) < K)%nat ->
    (strict = true -> forallb loops_ok L = true) -> Forall (fine K) L).
  { intros L A B. apply Forall_forall. intros x X. pose proof (sum_in nsize x L X). split; [lia|].
    intros S. specialize (B S). rewrite forallb_forall in B. apply B, X. }
  Ltac sp LK := let S := fresh in let T := fresh in
    intros S; pose proof (LK S) as T; rewrite ?andb_true_iff in T; tauto.
  assert (FH : forall m, (nsize m <= K)%nat -> (strict = true -> loops_ok m = true) -> fine_lhs K m).
  { intros m A B. destruct m; try exact Logic.I; cbn [fine_lhs nsize loops_ok] in *.
    - split; [lia|sp B].
    - split; (split; [lia|sp B]).
    - destruct l as [|p l]; [exact Logic.I|]. unfold sum in A. cbn [map fold_right] in A.
      split; [lia|]. intros X. specialize (B X). cbn [forallb] in B. apply andb_prop in B. tauto. }
  intros st st' l I H. destruct n; cbn [nsize loops_ok] in SZ, LK; cbn [gen] in H.
  - (* nil *) okinv H. destruct u.
    + eexists. destruct (s_emit (I0 oPUSH_NIL) _ _ I eq_refl) as [A B].
      split; [exact A|]. split; [exact B|]. intros _. apply first_emit. reflexivity.
    + exists l. split; [exact I|]. split; [apply grows_refl|discriminate].
  - destruct u; [exact (sh_val _ _ _ _ I H)|exact (sh_ok _ _ _ I H)].
  - destruct u; [exact (sh_lit _ _ _ _ I H)|exact (sh_ok _ _ _ I H)].
  - destruct (sh_const _ _ _ _ I H) as (l' & A & B & C). exists l'.
    split; [exact A|]. split; [exact B|]. intros _. apply C. reflexivity.
  - destruct u; [exact (sh_lit _ _ _ _ I H)|exact (sh_ok _ _ _ I H)].
  - destruct u; [exact (sh_val _ _ _ _ I H)|exact (sh_ok _ _ _ I H)].
  - (* self *) okinv H. destruct u.
    + eexists. destruct (s_emit (I0 oPUSH_SELF) _ _ I eq_refl) as [A B].
      split; [exact A|]. split; [exact B|]. intros _. apply first_emit. reflexivity.
    + exists l. split; [exact I|]. split; [apply grows_refl|discriminate].
  - (* lvar *) bi H st1. okinv H. destruct (sh_get_local _ _ _ _ I E) as (l1 & I1 & G1 & F1).
    destruct (s_popped u (I0 oPOP) _ _ I1 eq_refl) as (l2 & I2 & G2).
    exists l2. split; [exact I2|]. split; [gr|]. intros _.
    eapply first_grows; [apply F1; reflexivity|gr].
  - (* gvar *) okinv H. destruct (s_emit (I32 oGET_GVAR id) _ _ I eq_refl) as [A B].
    destruct (s_popped u (I0 oPOP) _ _ A eq_refl) as (l2 & I2 & G2).
    exists l2. split; [exact I2|]. split; [gr|]. intros _.
    eapply first_grows; [apply (first_emit l (I32 oGET_GVAR id)); reflexivity|gr].
  - (* ivar *) okinv H. destruct (s_emit (I32 oGET_IVAR id) _ _ I eq_refl) as [A B].
    destruct (s_popped u (I0 oPOP) _ _ A eq_refl) as (l2 & I2 & G2).
    exists l2. split; [exact I2|]. split; [gr|]. intros _.
    eapply first_grows; [apply (first_emit l (I32 oGET_IVAR id)); reflexivity|gr].
  - (* ident *) okinv H. destruct (s_emit (I0 oPUSH_SELF) _ _ I eq_refl) as [A B].
    destruct (s_osend u id 0 _ _ A) as (l2 & I2 & G2 & _).
    exists l2. split; [exact I2|]. split; [gr|]. intros _.
    eapply first_grows; [apply (first_emit l (I0 oPUSH_SELF)); reflexivity|gr].
  - (* send *)
    assert (FR : fine K n) by (split; [lia|sp LK]).
    assert (FA : Forall (fine K) args) by (apply FS; [lia|sp LK]).
    bi H st1. destruct (Hg _ true FR _ _ _ I E) as (l1 & I1 & G1 & F1).
    bi H st2. destruct (sh_step _ _ _ _ _ (sh_gens _ _ Hg _ FA) I1 E0) as (l2 & I2 & G2).
    cbv zeta in H. cbn [andb] in F1. cbn [head_ok].
    assert (FI : u && head_ok n = true -> first l l1).
    { intros X. apply andb_true_iff in X. apply F1. tauto. }
    destruct safe_nav.
    + em I2 (I32 oDUP 1) l3. em Q (I0 oPUSH_NIL) l4. em Q0 (I0 oNE) l5.
      emj Q1 (IJ oJMP_F 0) l6 J6.
      destruct (s_osend u id (Z.of_nat (length args)) _ _ Q2) as (l7 & I7 & G7 & _).
      edestruct s_wcur as (l8 & I8 & G8); [exact I7| |exact H|].
      { eapply jend_grows; [|exact J6]. gr. }
      exists l8. split; [exact I8|]. split; [gr|]. intros X.
      eapply first_grows; [apply FI, X|gr].
    + okinv H. destruct (s_osend u id (Z.of_nat (length args)) _ _ I2) as (l7 & I7 & G7 & _).
      exists l7. split; [exact I7|]. split; [gr|]. intros X.
      eapply first_grows; [apply FI, X|gr].
  - (* index *)
    assert (FA : fine K n1) by (split; [lia|sp LK]).
    assert (FB : fine K n2) by (split; [lia|sp LK]).
    bi H st1. destruct (Hg _ true FA _ _ _ I E) as (l1 & I1 & G1 & F1).
    cbn [andb] in F1. cbn [head_ok].
    assert (FI : u && head_ok n1 = true -> first l l1).
    { intros X. apply andb_true_iff in X. apply F1. tauto. }
    destruct (is_imm_u32 n2) as [k|].
    + okinv H. em I1 (I32 oGET_IDX_I k) l2.
      destruct (s_popped u (I0 oPOP) _ _ Q eq_refl) as (l3 & I3 & G3).
      exists l3. split; [exact I3|]. split; [gr|]. intros X. eapply first_grows; [apply FI, X|gr].
    + bi H st2. okinv H. destruct (sh_step _ _ _ _ _ (H0 _ _ FB) I1 E0) as (l2 & I2 & G2).
      em I2 (I0 oGET_INDEX) l3.
      destruct (s_popped u (I0 oPOP) _ _ Q eq_refl) as (l4 & I4 & G4).
      exists l4. split; [exact I4|]. split; [gr|]. intros X. eapply first_grows; [apply FI, X|gr].
  - (* array *)
    assert (FA : Forall (fine K) l0) by (apply FS; [lia|exact LK]).
    destruct l0 as [|x l0].
    + okinv H. destruct u; [|exact (sh_ok _ _ _ I eq_refl)].
      eexists. destruct (s_emit (I32 oCREATE_ARRAY 0) _ _ I eq_refl) as [A B].
      split; [exact A|]. split; [exact B|]. intros _. apply first_emit. reflexivity.
    + destruct (sh_make _ _ Hg _ (emit (I32 oCREATE_ARRAY (Z.of_nat (length (x :: l0))))) u FA
        (s_one (I32 oCREATE_ARRAY (Z.of_nat (length (x :: l0)))) eq_refl eq_refl) _ _ _ I H) as (l1 & I1 & G1 & F1).
      exists l1. split; [exact I1|]. split; [exact G1|]. intros X.
      apply andb_true_iff in X. apply F1. exact (proj2 X).
  - (* op *)
    assert (FA : Forall (fine K) l0) by (apply FS; [lia|exact LK]).
    assert (Q : u = false /\ Ok st = Ok st' \/
      (st1 <- gens (gen cx) l0 st ;;
       Ok (if u then emit_op k (Z.of_nat (length l0)) st1
           else emit (I0 oPOP) (emit_op k (Z.of_nat (length l0)) st1))) = Ok st').
    { destruct k; try (right; exact H). destruct l0; [|right; exact H].
      destruct u; [right; exact H|left; auto]. }
    clear H. destruct Q as [[-> H]|H]; [exact (sh_ok _ _ _ I H)|].
    destruct (sh_make _ _ Hg _ (emit_op k (Z.of_nat (length l0))) u FA
        (s_op k (Z.of_nat (length l0))) _ _ _ I H) as (l1 & I1 & G1 & F1).
    exists l1. split; [exact I1|]. split; [exact G1|]. intros X.
    apply andb_true_iff in X. apply F1. destruct l0; [reflexivity|exact (proj2 X)].
  - (* lit *)
    destruct u; [exact (sh_const _ _ _ _ I H)|exact (sh_ok _ _ _ I H)].
  - (* range *)
    assert (FA : fine K n1) by (split; [lia|sp LK]).
    assert (FB : fine K n2) by (split; [lia|sp LK]).
    bi H st1. destruct (sh_val _ _ _ _ I E) as (l1 & I1 & G1 & F1).
    bi H st2. destruct (sh_step _ _ _ _ _ (Hg _ true FB) I1 E0) as (l2 & I2 & G2).
    bi H st3. destruct (sh_step _ _ _ _ _ (Hg _ true FA) I2 E1) as (l3 & I3 & G3).
    okinv H. em I3 (I0 oCREATE_RANGE) l4.
    destruct (s_popped u (I0 oPOP) _ _ Q eq_refl) as (l5 & I5 & G5).
    exists l5. split; [exact I5|]. split; [gr|]. intros _.
    eapply first_grows; [apply F1; reflexivity|gr].
  - (* bin *)
    assert (FA : fine K n1) by (split; [lia|sp LK]).
    assert (FB : fine K n2) by (split; [lia|sp LK]).
    assert (X : sh (head_ok n1) (gen_binop op (gen cx n1) (gen cx n2) (is_imm_i32 n2) u)).
    { apply sh_binop; [exact (Hg _ true FA)|]. intros v. apply H0, FB. }
    destruct (X _ _ _ I H) as (l1 & I1 & G1 & F1). exists l1. split; [exact I1|].
    split; [exact G1|]. cbn [head_ok]. intros Y. apply andb_true_iff in Y. apply F1. tauto.
  - (* un *)
    assert (FA : fine K n) by (split; [lia|sp LK]).
    bi H st1. okinv H. destruct (Hg _ true FA _ _ _ I E) as (l1 & I1 & G1 & F1).
    assert (X : exists l2, inv match op with
                 | UBitNot => emit (I0 oBNOT) st1
                 | UNot => emit (I0 oNOT) st1
                 | UNeg => emit (I0 oNEG) st1
                 | UPos => st1
                 end l2 /\ grows l1 l2).
    { destruct op.
      - em I1 (I0 oBNOT) l2. exists l2. split; [assumption|gr].
      - em I1 (I0 oNOT) l2. exists l2. split; [assumption|gr].
      - em I1 (I0 oNEG) l2. exists l2. split; [assumption|gr].
      - exists l1. split; [assumption|gr]. }
    destruct X as (l2 & I2 & G2).
    destruct (s_popped u (I0 oPOP) _ _ I2 eq_refl) as (l3 & I3 & G3).
    exists l3. split; [exact I3|]. split; [gr|]. cbn [head_ok]. intros Y.
    apply andb_true_iff in Y. eapply first_grows; [apply F1|gr]. cbn [andb]. tauto.
  - (* assign *)
    assert (FB : fine K n2) by (split; [lia|sp LK]).
    assert (FA : fine_lhs K n1) by (apply FH; [lia|sp LK]).
    destruct (sh_assign2 _ _ Hg n1 (head_ok n2) (gen cx n2) u FA (fun v => Hg n2 v FB) _ _ _ I H)
      as (l1 & I1 & G1 & F1).
    exists l1. split; [exact I1|]. split; [exact G1|]. intros Y. apply F1.
    apply andb_true_iff in Y as [_ Y]. cbn [head_ok] in Y.
    destruct n1; try discriminate Y; exact Y.
  - (* assign op *)
    assert (FA : fine K n1) by (split; [lia|sp LK]).
    assert (FB : fine K n2) by (split; [lia|sp LK]).
    assert (FL : fine_lhs K n1) by (apply FH; [lia|sp LK]).
    edestruct (sh_assign2 _ _ Hg n1 false
      (gen_binop op (gen cx n1) (gen cx n2) (is_imm_i32 n2)) u FL) as (l1 & I1 & G1 & F1);
      [|exact I|exact H|].
    { intros v. rewrite andb_false_r. apply sh_binop; [apply H0, FA|]. intros w. apply H0, FB. }
    exists l1. split; [exact I1|]. split; [exact G1|]. cbn [head_ok]. rewrite andb_false_r. discriminate.
  - (* massign *)
    assert (FR : Forall (fine K) rhs) by (apply FS; [lia|sp LK]).
    assert (FL : Forall (fine_lhs K) lhs).
    { apply Forall_forall. intros x X. pose proof (sum_in nsize x lhs X). apply FH; [lia|].
      intros S. specialize (LK S). apply andb_true_iff in LK as [A _].
      rewrite forallb_forall in A. apply A, X. }
    destruct (sh_step _ _ _ _ _ (sh_massign _ _ Hg _ _ u FL FR) I H) as (l1 & I1 & G1).
    exists l1. split; [exact I1|]. split; [exact G1|]. cbn [head_ok]. rewrite andb_false_r. discriminate.
  - (* seq *)
    assert (FA : Forall (fine K) l0) by (apply FS; [lia|exact LK]).
    exact (sh_comp _ _ Hg u _ FA _ _ _ I H).
  - (* if *)
    assert (F1 : fine K n1) by (split; [lia|sp LK]).
    assert (F2 : fine K n2) by (split; [lia|sp LK]).
    assert (F3 : fine K n3) by (split; [lia|sp LK]).
    destruct (sh_step _ _ _ _ _ (sh_if _ _ Hg _ _ _ u F1 F2 F3) I H) as (l1 & I1 & G1).
    exists l1. split; [exact I1|]. split; [exact G1|]. cbn [head_ok]. rewrite andb_false_r. discriminate.
  - (* while *)
    assert (F1 : fine K n1) by (split; [lia|sp LK]).
    assert (F2 : fine K n2) by (split; [lia|sp LK]).
    assert (HC : strict = true -> head_ok n1 = true) by (sp LK).
    destruct (sh_step _ _ _ _ _ (sh_while _ _ Hg _ _ cond_op u F1 F2 HC) I H) as (l1 & I1 & G1).
    exists l1. split; [exact I1|]. split; [exact G1|]. cbn [head_ok]. rewrite andb_false_r. discriminate.
  - (* break *)
    assert (FA : fine K n) by (split; [lia|sp LK]).
    cbn [head_ok]. rewrite andb_false_r. destruct (in_loop st).
    + bi H st1. destruct (sh_step _ _ _ _ _ (H0 _ _ FA) I E) as (l1 & I1 & G1).
      emj I1 (IJ oJMP 0) l2 J2. pose proof (s_escape _ _ _ _ Q J2 H) as I3.
      exists l2. split; [exact I3|]. split; [gr|discriminate].
    + destruct (sc_kind cx); try discriminate H.
      bi H st1. okinv H. destruct (sh_step _ _ _ _ _ (H0 _ _ FA) I E) as (l1 & I1 & G1).
      em I1 (I0 oBREAK) l2. exists l2. split; [assumption|]. split; [gr|discriminate].
  - (* next *)
    assert (FA : fine K n) by (split; [lia|sp LK]).
    cbn [head_ok]. rewrite andb_false_r. destruct (in_loop st).
    + bi H st1. destruct (sh_step _ _ _ _ _ (H0 _ _ FA) I E) as (l1 & I1 & G1).
      emj I1 (IJ oJMP 0) l2 J2. pose proof (s_escape _ _ _ _ Q J2 H) as I3.
      exists l2. split; [exact I3|]. split; [gr|discriminate].
    + destruct (sc_kind cx); try discriminate H.
      bi H st1. okinv H. destruct (sh_step _ _ _ _ _ (H0 _ _ FA) I E) as (l1 & I1 & G1).
      em I1 (I0 oRETURN) l2. exists l2. split; [assumption|]. split; [gr|discriminate].
  - (* return *)
    assert (FA : fine K n) by (split; [lia|sp LK]).
    cbn [head_ok]. rewrite andb_false_r. bi H st1.
    destruct (sh_step _ _ _ _ _ (H0 _ _ FA) I E) as (l1 & I1 & G1).
    assert (X : Ok (emit (I0 (if is_block cx then oMRETURN else oRETURN)) st1) = Ok st' ->
       exists l', inv st' l' /\ grows l l' /\ (false = true -> first l l')).
    { clear H. intros H. okinv H. em I1 (I0 (if is_block cx then oMRETURN else oRETURN)) l2.
      exists l2. split; [assumption|]. split; [gr|discriminate]. }
    destruct (jds st1) as [|x r]; [exact (X H)|]. destruct (jd_ens x); [|exact (X H)].
    clear X. emj I1 (IJ oJMP 0) l2 J2. pose proof (s_ret _ _ _ _ Q J2 H) as I3.
    exists l2. split; [exact I3|]. split; [gr|discriminate].
  - (* case *)
    assert (FC : forall m, c = Some m -> fine K m).
    { intros m ->. cbn [osize] in SZ. split; [lia|sp LK]. }
    assert (FE : fine K n) by (split; [lia|sp LK]).
    assert (FW : Forall (fine_when K) whens).
    { apply Forall_forall. intros [labs b] X.
      pose proof (sum_in (fun b => sum (map nsize (fst b)) + nsize (snd b))%nat _ _ X) as Y.
      cbn [fst snd] in Y.
      assert (Z : strict = true -> forallb loops_ok labs = true /\ loops_ok b = true).
      { intros S. specialize (LK S). rewrite !andb_true_iff in LK. destruct LK as [[_ LK] _].
        rewrite forallb_forall in LK. specialize (LK _ X). apply andb_true_iff in LK. exact LK. }
      split; cbn [fst snd]; [apply FS; [lia|apply Z]|split; [lia|apply Z]]. }
    destruct (sh_step _ _ _ _ _ (sh_case _ _ Hg _ _ _ u FC FW FE) I H) as (l1 & I1 & G1).
    exists l1. split; [exact I1|]. split; [exact G1|]. cbn [head_ok]. rewrite andb_false_r. discriminate.
  - (* begin *)
    assert (FB : fine K n) by (split; [lia|sp LK]).
    assert (FL : forall m, els = Some m -> fine K m).
    { intros m ->. cbn [osize] in SZ. split; [lia|sp LK]. }
    assert (FN : forall m, ens = Some m -> fine K m).
    { intros m ->. cbn [osize] in SZ. split; [lia|sp LK]. }
    assert (FW : Forall (fine_clause K) rescues).
    { apply Forall_forall. intros [[labs a] b] X.
      pose proof (sum_in (fun b => sum (map nsize (fst (fst b))) + osize nsize (snd (fst b))
                             + nsize (snd b))%nat _ _ X) as Y.
      cbn [fst snd] in Y.
      assert (Z : strict = true -> forallb loops_ok labs = true /\
        match a with Some a => loops_ok a | None => true end = true /\ loops_ok b = true).
      { intros S. specialize (LK S). rewrite !andb_true_iff in LK. destruct LK as [[[_ LK] _] _].
        rewrite forallb_forall in LK. specialize (LK _ X). cbn [fst snd] in LK.
        rewrite !andb_true_iff in LK. tauto. }
      split; cbn [fst snd]; [apply FS; [lia|apply Z]|]. split; [|split; [lia|apply Z]].
      intros m ->. cbn [osize] in Y. apply FH; [lia|]. apply Z. }
    destruct (sh_step _ _ _ _ _ (sh_begin _ _ Hg _ _ _ _ u FB FW FL FN) I H) as (l1 & I1 & G1).
    exists l1. split; [exact I1|]. split; [exact G1|]. cbn [head_ok]. rewrite andb_false_r. discriminate.
  - (* defined? *)
    assert (FB : fine K n) by (split; [lia|sp LK]).
    bi H st1. okinv H. destruct (sh_step _ _ _ _ _ (sh_defined _ _ Hg d n FB) I E) as (l1 & I1 & G1).
    destruct (s_popped u (I0 oPOP) _ _ I1 eq_refl) as (l2 & I2 & G2).
    exists l2. split; [exact I2|]. split; [gr|]. cbn [head_ok]. rewrite andb_false_r. discriminate.
Qed.

Lemma inv_empty k m m2 c : inv (empty_cg k m m2 c) [].
Proof.
  constructor; try (intros [|?] *; discriminate).
  - reflexivity.
  - constructor; [constructor|constructor].
  - constructor.
  - constructor.
Qed.

(** the code of a whole body: a list of instructions and RETURN *)
Theorem gen_body_shape body st' k m m2 c : (strict = true -> loops_ok body = true) ->
  gen_body cx body (empty_cg k m m2 c) = Ok st' ->
  exists st l, inv st l /\ st' = emit (I0 oRETURN) st.
Proof.
  intros LK H. unfold gen_body in H. bi H st1. okinv H.
  destruct (sh_gen (S (nsize body)) body true (Nat.lt_succ_diag_r _) LK _ _ _ (inv_empty k m m2 c) E)
    as (l & I & _). exists st1, l. split; [exact I|reflexivity].
Qed.
End Shape.
