(* Lemmas about bindings. *)
From Coq Require Import Lia.
From Verif Require Import Base ModelValue ModelArray ModelFrame ModelMark ModelCodegen ModelScope ModelBinding SpecBinding ProofsFrame.

Lemma upd_same m a w : upd m a w a = w.
Proof. unfold upd. now rewrite Z.eqb_refl. Qed.
Lemma upd_other m a w b : b <> a -> upd m a w b = m b.
Proof. intros H. unfold upd. destruct (Z.eqb_spec b a); congruence. Qed.

(* ---- set_iseq ---- *)
Lemma move_words_spec k : forall m old new, new <= old ->
  (forall x, new <= x < new + Z.of_nat k -> move_words k m old new x = m (x - new + old)) /\
  (forall x, x < new \/ new + Z.of_nat k <= x -> move_words k m old new x = m x).
Proof.
  induction k as [|k IH]; intros m old new Hle; cbn [move_words].
  - split; intros x Hx; [lia|reflexivity].
  - destruct (IH (upd m new (m old)) (old + 1) (new + 1) ltac:(lia)) as [I O]. split; intros x Hx.
    + destruct (Z.eq_dec x new) as [->|Hn].
      * rewrite O by lia. rewrite upd_same. f_equal. lia.
      * rewrite I by lia. rewrite upd_other by lia. f_equal. lia.
    + rewrite O by lia. apply upd_other. lia.
Qed.
Lemma fill_nil_spec k : forall m new,
  (forall x, x <> new -> fill_nil k m new x = m x) /\ (k <> O -> fill_nil k m new new = NIL_VALUE).
Proof.
  induction k as [|k IH]; intros m new; cbn [fill_nil]; [split; [reflexivity|congruence]|].
  destruct (IH (upd m new NIL_VALUE) new) as [O N]. split.
  - intros x Hx. rewrite O by assumption. now apply upd_other.
  - intros _. destruct k; [cbn; apply upd_same|now apply N].
Qed.
Lemma new_flag f n : 0 <= n -> Z.shiftr (Z.lor (Z.land f (2 ^ 32 - 1)) (Z.shiftl n 32)) 32 = n /\
  Z.land (Z.lor (Z.land f (2 ^ 32 - 1)) (Z.shiftl n 32)) FLG_IS_RUBY = Z.land f FLG_IS_RUBY.
Proof.
  intros Hn. change (2 ^ 32 - 1) with (Z.ones 32). split; apply Z.bits_inj'; intros i Hi.
  - rewrite Z.shiftr_spec, Z.lor_spec, Z.land_spec, Z.shiftl_spec, Z.ones_spec_high by lia.
    rewrite andb_false_r. cbn [orb]. f_equal. lia.
  - rewrite !Z.land_spec, Z.lor_spec, Z.land_spec. destruct (Z_lt_dec i 32) as [Hl|Hl].
    + rewrite Z.shiftl_spec_low, Z.ones_spec_low, andb_true_r, orb_false_r by lia. reflexivity.
    + replace (Z.testbit FLG_IS_RUBY i) with false; [now rewrite !andb_false_r|].
      symmetry. apply Z.bits_above_log2; [unfold FLG_IS_RUBY; lia|]. change (Z.log2 FLG_IS_RUBY) with 7. lia.
Qed.

Lemma frame_agree m m' a c o lo :
  frame_holds m a c o -> lo <= a - Z.of_nat (length c) - 2 ->
  (forall x, lo <= x < a + 8 -> m' x = m x) -> frame_holds m' a c o.
Proof.
  intros (R & F & O & ND & V) Hlo A.
  unfold frame_holds, is_ruby, flag_len, outer, is_ruby, EV_FLAG, EV_OUTER in *.
  rewrite !A by lia. repeat split; trivial.
  intros k x w Hk. pose proof (nth_error_Some c k) as B.
  assert (k < length c)%nat by (apply B; congruence). rewrite A by lia. now apply (V k x w).
Qed.

Lemma set_iseq_spec m e c o i n :
  frame_holds m e c o ->
  (length c <= n)%nat -> (n <= S (length c))%nat -> (n <= 63)%nat ->
  forall add, n = length (c ++ add) -> Forall (fun p => snd p = nothing) add -> NoDup (map fst (c ++ add)) ->
  exists m', set_iseq m e i (Z.of_nat n) = Ok m' /\ frame_holds m' e (c ++ add) o /\
    (forall x, x < e - 65 \/ e + 8 <= x -> m' x = m x) /\ m' (e - 1) = m (e - 1).
Proof.
  intros (R & F & O & ND & V) H1 H2 H3 add Hadd Hnil HND.
  unfold set_iseq. rewrite F. destruct (Z.ltb_spec (Z.of_nat n) (Z.of_nat (length c))) as [X|_]; [lia|].
  eexists; split; [reflexivity|].
  set (L := Z.of_nat (length c)) in *. set (N := Z.of_nat n) in *.
  destruct (move_words_spec (Z.to_nat (L + 1)) m (e - L - 2) (e - N - 2) ltac:(lia)) as [MI MO].
  set (m1 := move_words (Z.to_nat (L + 1)) m (e - L - 2) (e - N - 2)) in *.
  destruct (fill_nil_spec (Z.to_nat (N - L)) m1 (e - N - 2 + (L + 1))) as [FO FN].
  set (m2 := fill_nil (Z.to_nat (N - L)) m1 (e - N - 2 + (L + 1))) in *.
  rewrite Z2Nat.id in MI, MO by lia.
  assert (E1 : forall x, e - 1 <= x -> m2 x = m x) .
  { intros x Hx. unfold m2. destruct (Z.eq_dec N L) as [Q|Q].
    - replace (Z.to_nat (N - L)) with 0%nat by lia. cbn [fill_nil]. apply MO. lia.
    - rewrite FO by lia. apply MO. lia. }
  assert (E2 : forall x, x < e - N - 2 -> m2 x = m x).
  { intros x Hx. rewrite FO by lia. apply MO. lia. }
  assert (Eset : forall x, x <> e + EV_FLAG -> x <> e + EV_ISEQ -> upd (set_local_len m2 e N) (e + EV_ISEQ) (iseq_word i) x = m2 x).
  { intros x Ha Hb. rewrite upd_other by assumption. unfold set_local_len. now apply upd_other. }
  assert (Efl : upd (set_local_len m2 e N) (e + EV_ISEQ) (iseq_word i) (e + EV_FLAG) =
                Z.lor (Z.land (m (e + EV_FLAG)) (2 ^ 32 - 1)) (Z.shiftl N 32)).
  { rewrite upd_other by (unfold EV_FLAG, EV_ISEQ; lia). unfold set_local_len. rewrite upd_same.
    rewrite E1 by (unfold EV_FLAG; lia). reflexivity. }
  destruct (new_flag (m (e + EV_FLAG)) N ltac:(lia)) as [Hfl Hru].
  unfold EV_FLAG, EV_ISEQ in *.
  split; [|split].
  - unfold frame_holds, is_ruby, flag_len, outer, is_ruby, EV_FLAG, EV_OUTER in *.
    rewrite Efl, Hfl, Hru. rewrite Eset, E1 by lia.
    split; [exact R|]. split; [unfold N; rewrite Hadd; reflexivity|]. split; [exact O|]. split; [exact HND|].
    intros k x w Hk. rewrite <- Hadd. fold N.
    assert (Hkn : (k < n)%nat) by (rewrite Hadd; apply nth_error_Some; congruence).
    rewrite Eset by lia.
    destruct (Nat.lt_ge_cases k (length c)) as [Hkc|Hkc].
    + rewrite nth_error_app1 in Hk by assumption. rewrite FO by lia. rewrite MI by lia.
      rewrite <- (V k x w Hk). f_equal. lia.
    + rewrite nth_error_app2 in Hk by assumption.
      assert (Hw : w = nothing).
      { apply nth_error_In in Hk. rewrite Forall_forall in Hnil. now apply (Hnil (x, w)). }
      subst w. replace (e - N - 1 + Z.of_nat k) with (e - N - 2 + (L + 1)) by lia. apply FN. lia.
  - intros x Hx. rewrite Eset by lia. destruct Hx; [apply E2; lia|apply E1; lia].
  - rewrite Eset by lia. apply E1. lia.
Qed.

(* ---- names ---- *)
Lemma lvarid_none x c : get_lvarid x (map fst c) = None <-> value_in x c = None.
Proof.
  induction c as [|(y, w) r IH]; cbn; [tauto|].
  destruct (Z.eqb_spec y x) as [E|E]; destruct (Z.eq_dec x y) as [E'|E']; try congruence; [split; congruence|].
  destruct (get_lvarid x (map fst r)); destruct (value_in x r); intuition congruence.
Qed.
Lemma lvarid_some x c k : get_lvarid x (map fst c) = Some k ->
  exists w, value_in x c = Some w /\ 0 <= k /\ nth_error c (Z.to_nat k) = Some (x, w).
Proof.
  revert k. induction c as [|(y, w) r IH]; intros k; cbn; [discriminate|].
  destruct (Z.eqb_spec y x) as [->|E].
  - intros [= <-]. destruct (Z.eq_dec x x); [|congruence]. exists w. repeat split; lia.
  - destruct (get_lvarid x (map fst r)) as [k'|]; [|discriminate]. intros [= <-].
    destruct (Z.eq_dec x y); [congruence|]. destruct (IH k' eq_refl) as (v & A & B & C).
    exists v. split; [assumption|]. split; [lia|].
    replace (Z.to_nat (k' + 1)) with (S (Z.to_nat k')) by lia. exact C.
Qed.
Lemma extern_value x cs : in_extern x (map (map fst) cs) = true <-> value_of x cs <> None.
Proof.
  induction cs as [|c r IH]; cbn; [split; congruence|].
  pose proof (lvarid_none x c) as N. destruct (get_lvarid x (map fst c)); destruct (value_in x c);
    try (intuition congruence).
Qed.
Lemma local_value x c cs :
  is_local_var x [mkpctx (map fst c) KBlk] (map (map fst) cs) = true <-> value_of x (c :: cs) <> None.
Proof.
  cbn. pose proof (lvarid_none x c) as N. pose proof (extern_value x cs) as X.
  destruct (get_lvarid x (map fst c)); destruct (value_in x c); intuition congruence.
Qed.
Lemma add_declare x c cs :
  exists c', declare x (c :: cs) = c' :: cs /\
    add_local_var_if_new x [mkpctx (map fst c) KBlk] (map (map fst) cs) = [mkpctx (map fst c') KBlk].
Proof.
  unfold declare, add_local_var_if_new. pose proof (local_value x c cs) as L.
  destruct (value_of x (c :: cs)) as [w|] eqn:E.
  - exists c. split; [reflexivity|]. rewrite (proj2 L); [reflexivity|]. discriminate.
  - exists (c ++ [(x, nothing)]). split; [reflexivity|].
    destruct (is_local_var _ _ _); [exfalso; now apply (proj1 L eq_refl)|].
    cbn [add_to pc_kind]. unfold ModelScope.insert. cbn [pc_table].
    assert (Z0 : value_in x c = None). { cbn in E. destruct (value_in x c); [discriminate|reflexivity]. }
    apply lvarid_none in Z0. rewrite Z0. now rewrite map_app.
Qed.
(* a declaration appends nils under new names *)
Definition extends (c c' : scope) : Prop :=
  exists add, c' = c ++ add /\ Forall (fun p => snd p = nothing) add.
Lemma value_in_app x c d : value_in x (c ++ d) = match value_in x c with Some w => Some w | None => value_in x d end.
Proof. induction c as [|(y, w) r IH]; cbn; [reflexivity|]. now destruct (Z.eq_dec x y). Qed.
Lemma value_in_In x c : value_in x c = None <-> ~ In x (map fst c).
Proof.
  induction c as [|(y, w) r IH]; cbn; [tauto|]. destruct (Z.eq_dec x y) as [E|E].
  - split; [congruence|]. intros H. exfalso. apply H. left. congruence.
  - rewrite IH. intuition congruence.
Qed.
Lemma declare_extends x c cs c' : declare x (c :: cs) = c' :: cs -> NoDup (map fst c) -> extends c c' /\ NoDup (map fst c').
Proof.
  unfold declare. destruct (value_of x (c :: cs)) eqn:E; intros [= <-] ND.
  - split; [exists []; now rewrite app_nil_r|assumption].
  - split; [exists [(x, nothing)]; repeat constructor|].
    rewrite map_app. cbn. apply NoDup_Add with (a := x) (l := map fst c).
    + pose proof (Add_app x (map fst c) []) as A. rewrite app_nil_r in A. exact A.
    + split; [assumption|]. apply value_in_In. cbn in E. now destruct (value_in x c).
Qed.

Lemma declared_cons x l cs : declared (Skip x :: l) cs = declared l (declare x cs).
Proof. reflexivity. Qed.
Lemma declared_cons' x w l cs : declared (Assign x w :: l) cs = declared l (declare x cs).
Proof. reflexivity. Qed.
Lemma extends_trans a b c : extends a b -> extends b c -> extends a c.
Proof.
  intros (x & -> & X) (y & -> & Y). exists (x ++ y). rewrite app_assoc. split; [reflexivity|]. now apply Forall_app.
Qed.
Lemma parse_ok l : forall c cs, NoDup (map fst c) ->
  exists c' p, declared l (c :: cs) = c' :: cs /\ extends c c' /\ NoDup (map fst c') /\
    parse_stmts l [mkpctx (map fst c) KBlk] (map (map fst) cs) = ([mkpctx (map fst c') KBlk], p).
Proof.
  induction l as [|s l IH]; intros c cs ND.
  - exists c, []. repeat split; trivial. exists []. now rewrite app_nil_r.
  - assert (Decl : forall x, exists c' p, declared l (declare x (c :: cs)) = c' :: cs /\ extends c c' /\ NoDup (map fst c') /\
      parse_stmts l (add_local_var_if_new x [mkpctx (map fst c) KBlk] (map (map fst) cs)) (map (map fst) cs) = ([mkpctx (map fst c') KBlk], p)).
    { intros x. destruct (add_declare x c cs) as (c1 & D & A). destruct (declare_extends x c cs c1 D ND) as [E N1].
      rewrite D, A. destruct (IH c1 cs N1) as (c' & p & D' & E' & N' & P). exists c', p.
      repeat split; trivial. now apply (extends_trans c c1 c'). }
    destruct s as [x w|x|x]; cbn [parse_stmts].
    + destruct (Decl x) as (c' & p & D & E & N & P). rewrite P. exists c', (PAssign x w :: p). now rewrite declared_cons'.
    + destruct (Decl x) as (c' & p & D & E & N & P). rewrite P. exists c', (PSkip x :: p). now rewrite declared_cons.
    + destruct (IH c cs ND) as (c' & p & D & E & N & P). rewrite P. exists c'. eexists. repeat split; trivial.
Qed.

(* tables, as the parser sees them *)
Definition sees (t : list Z) (ext : list (list Z)) (x : Z) : Prop := is_local_var x [mkpctx t KBlk] ext = true.
Lemma lvarid_in x t : get_lvarid x t <> None <-> In x t.
Proof.
  induction t as [|y r IH]; cbn; [split; [congruence|tauto]|].
  destruct (Z.eqb_spec y x) as [->|E]; [split; [auto|congruence]|].
  destruct (get_lvarid x r); split; intros H; try congruence.
  - right. apply IH. congruence.
  - destruct H as [H|H]; [congruence|]. now apply IH in H.
Qed.
Lemma sees_iff t ext x : sees t ext x <-> In x t \/ in_extern x ext = true.
Proof.
  unfold sees. cbn. pose proof (lvarid_in x t) as L.
  destruct (get_lvarid x t); split; intros H; auto.
  - left. apply L. congruence.
  - destruct H as [H|H]; [|assumption]. exfalso. now apply L in H.
Qed.
Lemma sees_add t ext x : exists t', add_local_var_if_new x [mkpctx t KBlk] ext = [mkpctx t' KBlk] /\
  forall y, sees t' ext y <-> (y = x \/ sees t ext y).
Proof.
  unfold add_local_var_if_new. destruct (is_local_var x [mkpctx t KBlk] ext) eqn:E.
  - exists t. split; [reflexivity|]. intros y. split; [auto|]. intros [-> |H]; [exact E|exact H].
  - exists (t ++ [x]). split.
    + cbn [add_to pc_kind]. unfold ModelScope.insert. cbn [pc_table].
      assert (~ In x t). { intros H. enough (sees t ext x) by (unfold sees in *; congruence). apply sees_iff. now left. }
      destruct (get_lvarid x t) eqn:G; [|reflexivity]. exfalso. apply H. apply lvarid_in. congruence.
    + intros y. rewrite !sees_iff, in_app_iff. cbn. intuition.
Qed.
Lemma parse_sees l : forall t ext T p, parse_stmts l [mkpctx t KBlk] ext = ([mkpctx T KBlk], p) ->
  forall y, sees t ext y -> sees T ext y.
Proof.
  induction l as [|s l IH]; intros t ext T p H y Hy.
  - injection H as <- <-. exact Hy.
  - destruct s as [x w|x|x]; cbn [parse_stmts] in H.
    + destruct (sees_add t ext x) as (t' & A & S'). rewrite A in H.
      destruct (parse_stmts l [mkpctx t' KBlk] ext) as [stk q] eqn:P. injection H as -> <-.
      apply (IH t' ext T q P). apply S'. now right.
    + destruct (sees_add t ext x) as (t' & A & S'). rewrite A in H.
      destruct (parse_stmts l [mkpctx t' KBlk] ext) as [stk q] eqn:P. injection H as -> <-.
      apply (IH t' ext T q P). apply S'. now right.
    + destruct (parse_stmts l [mkpctx t KBlk] ext) as [stk q] eqn:P. injection H as -> <-.
      now apply (IH t ext T q P).
Qed.
Lemma get_extern_some x ext : forall idx, in_extern x ext = true -> exists p, get_extern x idx ext = Some p.
Proof.
  induction ext as [|t r IH]; intros idx; cbn; [discriminate|]. destruct (get_lvarid x t); eauto.
Qed.
Lemma sees_ctx T ext x : sees T ext x -> exists p, get_ctx x 0 0 [(T, false); ([], false)] ext = Some p.
Proof.
  unfold sees. cbn. destruct (get_lvarid x T); [eauto|]. intros H. now apply get_extern_some.
Qed.
Lemma gen_ok l : forall t ext T p, parse_stmts l [mkpctx t KBlk] ext = ([mkpctx T KBlk], p) ->
  exists code, gen_stmts T ext p = Ok code.
Proof.
  induction l as [|s l IH]; intros t ext T p H.
  - injection H as <- <-. now exists [].
  - destruct s as [x w|x|x]; cbn [parse_stmts] in H.
    + destruct (sees_add t ext x) as (t' & A & S'). rewrite A in H.
      destruct (parse_stmts l [mkpctx t' KBlk] ext) as [stk q] eqn:P. injection H as -> <-.
      destruct (IH t' ext T q P) as (code & C).
      destruct (sees_ctx T ext x) as ((o & k) & G); [apply (parse_sees l t' ext T q P); apply S'; now left|].
      cbn [gen_stmts gen_stmt]. rewrite G. cbn [rbind]. rewrite C. cbn [rbind]. eauto.
    + destruct (sees_add t ext x) as (t' & A & S'). rewrite A in H.
      destruct (parse_stmts l [mkpctx t' KBlk] ext) as [stk q] eqn:P. injection H as -> <-.
      destruct (IH t' ext T q P) as (code & C).
      destruct (sees_ctx T ext x) as ((o & k) & G); [apply (parse_sees l t' ext T q P); apply S'; now left|].
      cbn [gen_stmts gen_stmt]. rewrite G. cbn [rbind]. rewrite C. cbn [rbind]. eauto.
    + destruct (parse_stmts l [mkpctx t KBlk] ext) as [stk q] eqn:P. injection H as -> <-.
      destruct (IH t ext T q P) as (code & C). destruct (is_local_var x [mkpctx t KBlk] ext) eqn:L.
      * destruct (sees_ctx T ext x) as ((o & k) & G); [now apply (parse_sees l t ext T q P)|].
        cbn in L. rewrite L. cbn [gen_stmts gen_stmt]. rewrite G. cbn [rbind]. rewrite C. cbn [rbind]. eauto.
      * cbn in L. rewrite L. cbn [gen_stmts gen_stmt rbind]. rewrite C. cbn [rbind]. eauto.
Qed.

(* ---- memory ---- *)
Definition held (m : Z -> Z) (F : list Z) (lo : Z -> Z) (sc : Z -> scope) (out : Z -> option Z) : Prop :=
  (forall a, In a F -> frame_holds m a (sc a) (out a) /\ lo a <= a - Z.of_nat (length (sc a)) - 2) /\
  (forall a b, In a F -> In b F -> a <> b -> a + 8 <= lo b \/ b + 8 <= lo a).
Definition put_at (a x v : Z) (sc : Z -> scope) : Z -> scope := fun b => if b =? a then put_in x v (sc b) else sc b.
Lemma put_in_len x v c : length (put_in x v c) = length c.
Proof. induction c as [|(y, w) r IH]; cbn; [reflexivity|]. destruct (Z.eq_dec x y); cbn; congruence. Qed.
Lemma put_in_names x v c : map fst (put_in x v c) = map fst c.
Proof. induction c as [|(y, w) r IH]; cbn; [reflexivity|]. destruct (Z.eq_dec x y); cbn; congruence. Qed.
Lemma put_at_names a x v sc b : map fst (put_at a x v sc b) = map fst (sc b).
Proof. unfold put_at. destruct (b =? a); [apply put_in_names|reflexivity]. Qed.
Lemma put_at_len a x v sc b : length (put_at a x v sc b) = length (sc b).
Proof. unfold put_at. destruct (b =? a); [apply put_in_len|reflexivity]. Qed.
Lemma put_in_nth x v c : NoDup (map fst c) -> forall k w, nth_error c k = Some (x, w) ->
  forall i y u, nth_error (put_in x v c) i = Some (y, u) ->
    (i = k /\ y = x /\ u = v) \/ (i <> k /\ nth_error c i = Some (y, u)).
Proof.
  induction c as [|(z, w0) r IH]; intros ND k w Hk i y u; [destruct k; discriminate|].
  inversion ND as [|? ? Hz ND']; subst. cbn [put_in]. destruct (Z.eq_dec x z) as [E|E].
  - subst z. destruct k as [|k]; [|exfalso; apply Hz; cbn in Hk; apply nth_error_In in Hk; apply (in_map fst) in Hk; exact Hk].
    destruct i; cbn; [intros [= <- <-]; auto|]. intros H. right. split; [discriminate|assumption].
  - destruct k as [|k]; [cbn in Hk; congruence|]. cbn in Hk. destruct i as [|i]; cbn.
    + intros [= <- <-]. right. split; [discriminate|reflexivity].
    + intros H. destruct (IH ND' k w Hk i y u H) as [(-> & -> & ->)|[N H']]; [left; auto|right; split; [congruence|assumption]].
Qed.
Lemma held_put m F lo sc out a k x w v :
  held m F lo sc out -> In a F -> nth_error (sc a) k = Some (x, w) ->
  let s := a - Z.of_nat (length (sc a)) - 1 + Z.of_nat k in
  held (upd m s v) F lo (put_at a x v sc) out /\
  (forall b y, In b F -> b - 1 <= y < b + 8 -> upd m s v y = m y) /\
  (forall y, (forall b, In b F -> y < lo b \/ b + 8 <= y) -> upd m s v y = m y).
Proof.
  intros [H D] Ha Hk s. assert (Kl : (k < length (sc a))%nat) by (apply nth_error_Some; congruence).
  destruct (H a Ha) as [(R & Fl & O & ND & V) Hlo].
  assert (Out : forall b y, In b F -> b - 1 <= y < b + 8 -> y <> s).
  { intros b y Hb Hy. destruct (Z.eq_dec b a) as [->|N]; [subst s; lia|].
    destruct (H b Hb) as [_ Lb]. destruct (D a b Ha Hb ltac:(congruence)); subst s; lia. }
  split; [|split].
  - split; [|exact D]. intros b Hb. rewrite put_at_len. split; [|now apply H]. unfold put_at.
    destruct (Z.eqb_spec b a) as [->|N].
    + unfold frame_holds, is_ruby, flag_len, outer, is_ruby, EV_FLAG, EV_OUTER in *.
      rewrite put_in_len, put_in_names. rewrite !upd_other by (apply (Out a); [assumption|lia]).
      repeat split; trivial. intros i y u Hi.
      destruct (put_in_nth x v (sc a) ND k w Hk i y u Hi) as [(-> & _ & ->)|[N Hi']].
      * apply upd_same.
      * rewrite upd_other by (subst s; lia). now apply (V i y u).
    + destruct (H b Hb) as [Fb Lb]. apply (frame_agree m _ b (sc b) (out b) (lo b) Fb Lb).
      intros y Hy. apply upd_other. destruct (D a b Ha Hb ltac:(congruence)); subst s; lia.
  - intros b y Hb Hy. apply upd_other. now apply (Out b).
  - intros y Hy. apply upd_other. specialize (Hy a Ha). subst s. lia.
Qed.

Lemma linked_outer m F lo sc out : held m F lo sc out -> forall fs e, In e F -> (forall f, In f fs -> In f F) ->
  out e = next fs -> linked out fs -> forall d a, nth_error fs d = Some a -> outer_frame m (S d) e = Ok a.
Proof.
  intros [H _]. induction fs as [|f r IH]; intros e He Hin Ho Hl d a Hd; [destruct d; discriminate|].
  destruct (H e He) as [(_ & _ & O & _) _]. cbn [outer_frame]. rewrite O, Ho. cbn [rbind next unwrap].
  destruct d as [|d]; cbn in Hd; [injection Hd as ->; reflexivity|].
  destruct Hl as [Hf Hl]. apply (IH f); auto with datatypes.
Qed.
Lemma extern_slot x sc v : forall fs idx w, NoDup fs -> value_of x (map sc fs) = Some w ->
  exists d k a, get_extern x idx (map (map fst) (map sc fs)) = Some (idx + Z.of_nat d, Z.of_nat k) /\
    nth_error fs d = Some a /\ nth_error (sc a) k = Some (x, w) /\
    put x v (map sc fs) = map (put_at a x v sc) fs.
Proof.
  induction fs as [|f r IH]; intros idx w ND; cbn [map value_of get_extern put]; [discriminate|].
  inversion ND as [|? ? Hf ND']; subst.
  destruct (get_lvarid x (map fst (sc f))) as [k|] eqn:G.
  - destruct (lvarid_some x (sc f) k G) as (w' & A & B & C). rewrite A. intros [= <-].
    exists 0%nat, (Z.to_nat k), f. rewrite Z2Nat.id by lia. rewrite Z.add_0_r. repeat split; trivial.
    f_equal; [unfold put_at; now rewrite Z.eqb_refl|]. apply map_ext_in. intros b Hb. unfold put_at.
    destruct (Z.eqb_spec b f); [congruence|reflexivity].
  - apply lvarid_none in G. rewrite G. intros H. destruct (IH (idx + 1) w ND' H) as (d & k & a & A & B & C & D).
    exists (S d), k, a. rewrite A. repeat split; trivial; [do 2 f_equal; lia|].
    rewrite D. f_equal. unfold put_at. destruct (Z.eqb_spec f a) as [->|]; [|reflexivity].
    exfalso. apply Hf. eapply nth_error_In; eassumption.
Qed.
