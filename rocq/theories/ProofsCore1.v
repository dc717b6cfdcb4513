(** Structure of generated code: what a run of the generator adds to its
    state, with the jumps that are still to be patched as holes, and how runs
    are put together. *)
From Coq Require Import ZArith List Bool Lia Permutation.
From Verif Require Import Base ModelValue ModelInst ProofsInst ModelCodegen ModelVM.
Import ListNotations.
Open Scope Z_scope.

(** Jump instructions without their displacement *)
Inductive jump : Set := JJ (o : opj) | JJI (c : cmpop) (k : Z) | JC (o : opc) (t : Z).
Definition jinst (j : jump) (d : Z) : inst :=
  match j with JJ o => IJ o d | JJI c k => IJI c k d | JC o t => ICase o t d end.

(** Holes: break / next of the innermost loop, return into the innermost ensure
    clause, a jump inside the construct being compiled. *)
Inductive hole : Set := EscB | EscN | EscR | Loc (j : jump).
Inductive item : Set := It (i : inst) | Ho (k : hole).

Definition ienc (x : item) : list Z :=
  match x with
  | It i => encode i
  | Ho (Loc j) => encode (jinst j 0)
  | Ho _ => encode (IJ oJMP 0)
  end.
Definition ibytes (l : list item) : list Z := concat (map ienc l).
Definition zlength {A} (l : list A) : Z := Z.of_nat (length l).
Definition isize (l : list item) : Z := zlength (ibytes l).

Lemma zlength_app {A} (a b : list A) : zlength (a ++ b) = zlength a + zlength b.
Proof. unfold zlength. rewrite app_length. lia. Qed.
Lemma zlength_nonneg {A} (a : list A) : 0 <= zlength a.
Proof. unfold zlength. lia. Qed.

Lemma ibytes_app a b : ibytes (a ++ b) = ibytes a ++ ibytes b.
Proof. unfold ibytes. rewrite map_app, concat_app. reflexivity. Qed.
Lemma ibytes_cons x a : ibytes (x :: a) = ienc x ++ ibytes a.
Proof. reflexivity. Qed.
Lemma isize_app a b : isize (a ++ b) = isize a + isize b.
Proof. unfold isize. rewrite ibytes_app. apply zlength_app. Qed.
Lemma isize_cons x a : isize (x :: a) = zlength (ienc x) + isize a.
Proof. unfold isize. rewrite ibytes_cons. apply zlength_app. Qed.
Lemma isize_nil : isize [] = 0.
Proof. reflexivity. Qed.
Lemma isize_nonneg a : 0 <= isize a.
Proof. apply zlength_nonneg. Qed.
Lemma encode_pos i : 0 < zlength (encode i).
Proof.
  unfold zlength. destruct (encode i) eqn:E; [destruct (encode_nonempty _ E)|cbn; lia].
Qed.
Lemma ienc_pos x : 0 < zlength (ienc x).
Proof. destruct x as [i|[]]; cbn [ienc]; try apply encode_pos. Qed.

(** Positions of the holes, as the generator records them: the position after
    the jump. *)
Fixpoint escs (pos : Z) (l : list item) : list (Z * esckind) :=
  match l with
  | [] => []
  | x :: r =>
      let p := pos + zlength (ienc x) in
      match x with
      | Ho EscB => (p, EBreak) :: escs p r
      | Ho EscN => (p, ENext) :: escs p r
      | _ => escs p r
      end
  end.

Fixpoint rets (pos : Z) (l : list item) : list Z :=
  match l with
  | [] => []
  | x :: r =>
      let p := pos + zlength (ienc x) in
      match x with Ho EscR => p :: rets p r | _ => rets p r end
  end.

Fixpoint locs (pos : Z) (l : list item) : list Z :=
  match l with
  | [] => []
  | x :: r =>
      let p := pos + zlength (ienc x) in
      match x with Ho (Loc _) => p :: locs p r | _ => locs p r end
  end.

Lemma escs_app a : forall pos b, escs pos (a ++ b) = escs pos a ++ escs (pos + isize a) b.
Proof.
  induction a as [|x a IH]; intros pos b.
  - cbn [app escs]. rewrite isize_nil, Z.add_0_r. reflexivity.
  - cbn [app escs]. rewrite isize_cons, Z.add_assoc.
    destruct x as [i|[]]; cbn [app]; rewrite IH; reflexivity.
Qed.
Lemma rets_app a : forall pos b, rets pos (a ++ b) = rets pos a ++ rets (pos + isize a) b.
Proof.
  induction a as [|x a IH]; intros pos b.
  - cbn [app rets]. rewrite isize_nil, Z.add_0_r. reflexivity.
  - cbn [app rets]. rewrite isize_cons, Z.add_assoc.
    destruct x as [i|[]]; cbn [app]; rewrite IH; reflexivity.
Qed.
Lemma locs_app a : forall pos b, locs pos (a ++ b) = locs pos a ++ locs (pos + isize a) b.
Proof.
  induction a as [|x a IH]; intros pos b.
  - cbn [app locs]. rewrite isize_nil, Z.add_0_r. reflexivity.
  - cbn [app locs]. rewrite isize_cons, Z.add_assoc.
    destruct x as [i|[]]; cbn [app]; rewrite IH; reflexivity.
Qed.

Lemma locs_bound a : forall pos p, In p (locs pos a) -> pos < p <= pos + isize a.
Proof.
  induction a as [|x a IH]; intros pos p; cbn [locs]; [intros []|].
  rewrite isize_cons. pose proof (ienc_pos x). pose proof (isize_nonneg a).
  destruct x as [i|[]]; cbn [In]; intros H1;
    try (apply IH in H1; lia).
  destruct H1 as [<-|H1]; [lia|]. apply IH in H1. lia.
Qed.

Lemma locs_split a : forall pos p, In p (locs pos a) ->
  exists x j y, a = x ++ Ho (Loc j) :: y /\ p = pos + isize x + zlength (encode (jinst j 0)).
Proof.
  induction a as [|x a IH]; intros pos p; cbn [locs]; [intros []|].
  assert (R : In p (locs (pos + zlength (ienc x)) a) ->
    exists u j y, x :: a = u ++ Ho (Loc j) :: y /\
      p = pos + isize u + zlength (encode (jinst j 0))).
  { intros H. destruct (IH _ _ H) as (u & j & y & -> & ->).
    exists (x :: u), j, y. split; [reflexivity|]. rewrite isize_cons. lia. }
  destruct x as [i|[]]; cbn [In]; auto.
  intros [<-|H]; auto. exists [], j, a. split; [reflexivity|]. cbn [ienc].
  rewrite isize_nil. lia.
Qed.

(** ** The code that results when all holes are filled *)
Section Fill.
Variables bt nt rt : Z.
Variable t : Z -> Z.

Fixpoint fill (pos : Z) (l : list item) : list inst :=
  match l with
  | [] => []
  | x :: r =>
      let p := pos + zlength (ienc x) in
      match x with
      | It i => i
      | Ho EscB => IJ oJMP (bt - p)
      | Ho EscN => IJ oJMP (nt - p)
      | Ho EscR => IJ oJMP (rt - p)
      | Ho (Loc j) => jinst j (t p - p)
      end :: fill p r
  end.

Lemma fill_app a : forall pos b, fill pos (a ++ b) = fill pos a ++ fill (pos + isize a) b.
Proof.
  induction a as [|x a IH]; intros pos b; cbn [fill app].
  - rewrite isize_nil, Z.add_0_r. reflexivity.
  - rewrite isize_cons, IH, Z.add_assoc. reflexivity.
Qed.

Lemma jinst_size j d e : zlength (encode (jinst j d)) = zlength (encode (jinst j e)).
Proof. destruct j; reflexivity. Qed.

Lemma encodes_fill a : forall pos, zlength (encodes (fill pos a)) = isize a.
Proof.
  induction a as [|x a IH]; intros pos; cbn [fill]; [reflexivity|].
  rewrite encodes_cons, zlength_app, IH, isize_cons. f_equal.
  destruct x as [i|[]]; try reflexivity. apply jinst_size.
Qed.
End Fill.

Lemma fill_ext bt nt rt t t' a : forall pos,
  (forall p, In p (locs pos a) -> t p = t' p) ->
  fill bt nt rt t pos a = fill bt nt rt t' pos a.
Proof.
  induction a as [|x a IH]; intros pos H; cbn [fill]; [reflexivity|].
  cbn [locs] in H.
  destruct x as [i|[| | |j]]; cbn [In] in H;
    rewrite (IH (pos + zlength (ienc _))) by auto; try reflexivity.
  rewrite (H _ (or_introl eq_refl)). reflexivity.
Qed.

(** ** What one run adds *)

Definition add_escs (e : list (Z * esckind)) (l : list loopinfo) : list loopinfo :=
  match l with
  | [] => []
  | x :: r => mkloop (lp_loop x) (lp_esc x ++ e) :: r
  end.

Definition add_rets (blk : bool) (e : list Z) (l : list jdest) : list jdest :=
  match l with
  | [] => []
  | x :: r => (if blk then mkjd (jd_ens x) (jd_ret x) (jd_mret x ++ e)
               else mkjd (jd_ens x) (jd_ret x ++ e) (jd_mret x)) :: r
  end.

Lemma add_escs_nil l : add_escs [] l = l.
Proof. destruct l as [|[? ?] ?]; cbn; rewrite ?app_nil_r; reflexivity. Qed.
Lemma add_escs_app a b l : add_escs b (add_escs a l) = add_escs (a ++ b) l.
Proof. destruct l as [|[? ?] ?]; cbn; rewrite ?app_assoc; reflexivity. Qed.
Lemma add_rets_nil k l : add_rets k [] l = l.
Proof. destruct l as [|[? ? ?] ?], k; cbn; rewrite ?app_nil_r; reflexivity. Qed.
Lemma add_rets_app k a b l : add_rets k b (add_rets k a l) = add_rets k (a ++ b) l.
Proof. destruct l as [|[? ? ?] ?], k; cbn; rewrite ?app_assoc; reflexivity. Qed.

Definition prefix {A} (a b : list A) : Prop := exists c, b = a ++ c.
Lemma prefix_refl {A} (a : list A) : prefix a a.
Proof. exists []. rewrite app_nil_r. reflexivity. Qed.
Lemma prefix_trans {A} (a b c : list A) : prefix a b -> prefix b c -> prefix a c.
Proof. intros [x ->] [y ->]. exists (x ++ y). rewrite app_assoc. reflexivity. Qed.
Lemma prefix_app {A} (a b : list A) : prefix a (a ++ b).
Proof. exists b. reflexivity. Qed.
Lemma prefix_length {A} (a b : list A) : prefix a b -> (length a <= length b)%nat.
Proof. intros [c ->]. rewrite app_length. lia. Qed.
Lemma prefix_nth {A} (a b : list A) k : prefix a b -> (k < length a)%nat ->
  nth_error b k = nth_error a k.
Proof. intros [c ->] H. apply nth_error_app1. exact H. Qed.
#[global] Hint Resolve prefix_refl prefix_app : core.

Definition in_range (lo hi : Z) (e : exentry) : Prop :=
  lo <= ex_start e /\ ex_end e < hi.

(** the entries of a table that were added between two states are in the
    table of the program *)
Definition slice_in {A} (a b g : list A) : Prop :=
  forall k, (length a <= k < length b)%nat -> nth_error g k = nth_error b k.

Lemma slice_split {A} (a b c g : list A) : prefix a b -> prefix b c ->
  slice_in a c g -> slice_in a b g /\ slice_in b c g.
Proof.
  intros H1 H2 H. pose proof (prefix_length _ _ H1). pose proof (prefix_length _ _ H2).
  split; intros k Hk.
  - rewrite H by lia. apply prefix_nth; [exact H2|lia].
  - apply H. lia.
Qed.

Section Runs.
Variable blk : bool.

Definition ens_top (st : cg) : bool :=
  match jds st with x :: _ => jd_ens x | [] => false end.

Record ext (st st' : cg) (its : list item) (ex : list exentry) : Prop := {
  e_code : code st' = code st ++ ibytes its;
  e_loops : loops st' = add_escs (escs (cur st) its) (loops st);
  e_jds : jds st' = add_rets blk (rets (cur st) its) (jds st);
  e_ex : extab st' = extab st ++ ex;
  e_range : Forall (in_range (cur st) (cur st')) ex;
  e_consts : prefix (consts st) (consts st');
  e_map : prefix (g_map st) (g_map st');
  e_map2 : prefix (g_map2 st) (g_map2 st');
  e_caches : caches st <= caches st';
  e_noesc : in_loop st = false -> escs (cur st) its = [];
  e_noret : ens_top st = false -> rets (cur st) its = []
}.

Lemma cur_app st st' its : code st' = code st ++ ibytes its ->
  cur st' = cur st + isize its.
Proof. intros E. unfold cur. rewrite E. apply zlength_app. Qed.

Lemma ext_cur st st' its ex : ext st st' its ex -> cur st' = cur st + isize its.
Proof. intros E. apply cur_app, E. Qed.

Lemma ext_refl st : ext st st [] [].
Proof.
  constructor; cbn [escs rets ibytes map concat];
    rewrite ?app_nil_r, ?add_escs_nil, ?add_rets_nil; auto; lia.
Qed.

Lemma ext_trans a b c i j x y :
  ext a b i x -> ext b c j y -> ext a c (i ++ j) (x ++ y).
Proof.
  intros H K. pose proof (ext_cur _ _ _ _ H) as C. pose proof (ext_cur _ _ _ _ K) as D.
  destruct H, K. constructor.
  - rewrite e_code1, e_code0, ibytes_app, app_assoc. reflexivity.
  - rewrite e_loops1, e_loops0, add_escs_app, escs_app, C. reflexivity.
  - rewrite e_jds1, e_jds0, add_rets_app, rets_app, C. reflexivity.
  - rewrite e_ex1, e_ex0, app_assoc. reflexivity.
  - pose proof (isize_nonneg i); pose proof (isize_nonneg j).
    apply Forall_app; split; (eapply Forall_impl; [|eassumption]);
      unfold in_range; intros e ?; lia.
  - eapply prefix_trans; eassumption.
  - eapply prefix_trans; eassumption.
  - eapply prefix_trans; eassumption.
  - lia.
  - intros N. rewrite escs_app, (e_noesc0 N). rewrite <- C. apply e_noesc1.
    unfold in_loop in *. rewrite e_loops0. destruct (loops a); exact N.
  - intros N. rewrite rets_app, (e_noret0 N). rewrite <- C. apply e_noret1.
    unfold ens_top in *. rewrite e_jds0. destruct (jds a), blk; exact N.
Qed.

(** ** The program around a run *)

(** Where the jumps that leave a piece of code go, and which handler covers a
    position if none of the piece itself does. *)
Record renv : Type := mkrenv {
  r_brk : Z; r_nxt : Z; r_ret : option Z; rt_of : Z; r_hf : Z -> option (Z * bool) }.

Definition at_code (G : prog) (pos : Z) (l : list inst) : Prop :=
  exists pre post, pr_code G = pre ++ encodes l ++ post /\ zlength pre = pos.
Definition at_inst (G : prog) (pos : Z) (i : inst) : Prop :=
  exists pre post, pr_code G = pre ++ encode i ++ post /\ zlength pre = pos.

Lemma at_code_app G pos a b : at_code G pos (a ++ b) ->
  at_code G pos a /\ at_code G (pos + zlength (encodes a)) b.
Proof.
  intros (pre & post & E & L). rewrite encodes_app, <- app_assoc in E. split.
  - exists pre, (encodes b ++ post). auto.
  - exists (pre ++ encodes a), post. rewrite <- app_assoc. split; [exact E|].
    rewrite zlength_app. lia.
Qed.

Lemma at_code_inst G pos i : at_code G pos [i] -> at_inst G pos i.
Proof. intros (pre & post & E & L). cbn in E. rewrite app_nil_r in E. exists pre, post. auto. Qed.

Record layout (G : prog) (E : renv) (t : Z -> Z) (st st' : cg) (its : list item)
  (ex : list exentry) : Prop := {
  l_code : at_code G (cur st) (fill (r_brk E) (r_nxt E) (rt_of E) t (cur st) its);
  l_ex : forall pc, cur st < pc <= cur st' ->
    find_ex (pr_ex G) pc = match find_ex ex pc with Some d => Some d | None => r_hf E pc end;
  l_consts : slice_in (consts st) (consts st') (pr_consts G);
  l_map : slice_in (g_map st) (g_map st') (pr_map G);
  l_map2 : slice_in (g_map2 st) (g_map2 st') (pr_map2 G);
  l_caches : 0 <= caches st /\ caches st' <= 2 ^ 32
}.

Lemma find_ex_app a b pc :
  find_ex (a ++ b) pc = match find_ex a pc with Some d => Some d | None => find_ex b pc end.
Proof.
  unfold find_ex. induction a as [|e a IH]; cbn [app find]; [reflexivity|].
  destruct ((ex_start e <? pc) && (pc <=? ex_end e)); [reflexivity|exact IH].
Qed.

Lemma find_ex_out lo hi l pc : Forall (in_range lo hi) l -> ~ (lo < pc <= hi) ->
  find_ex l pc = None.
Proof.
  unfold find_ex. induction 1 as [|e l [A B] F IH]; intros N; cbn [find]; [reflexivity|].
  replace ((ex_start e <? pc) && (pc <=? ex_end e)) with false by lia. auto.
Qed.

Lemma layout_split G E t a b c i j x y :
  ext a b i x -> ext b c j y -> layout G E t a c (i ++ j) (x ++ y) ->
  layout G E t a b i x /\ layout G E t b c j y.
Proof.
  intros H K L. pose proof (ext_cur _ _ _ _ H) as C. pose proof (ext_cur _ _ _ _ K) as D.
  pose proof (isize_nonneg i); pose proof (isize_nonneg j).
  destruct H, K, L. rewrite fill_app in l_code0. apply at_code_app in l_code0.
  rewrite encodes_fill, <- C in l_code0. destruct l_code0.
  destruct (slice_split _ _ _ _ e_consts0 e_consts1 l_consts0).
  destruct (slice_split _ _ _ _ e_map0 e_map1 l_map0).
  destruct (slice_split _ _ _ _ e_map3 e_map4 l_map3).
  split; constructor; auto.
  - intros pc Hp. rewrite l_ex0 by lia. rewrite find_ex_app.
    destruct (find_ex x pc); [reflexivity|].
    rewrite (find_ex_out _ _ y) with (1 := e_range1) by lia. reflexivity.
  - lia.
  - intros pc Hp. rewrite l_ex0 by lia. rewrite find_ex_app.
    rewrite (find_ex_out _ _ x) with (1 := e_range0) by lia. reflexivity.
  - lia.
Qed.

(** the instruction [i] at [pos], ending before [nxt], with no handler of its
    own *)
Record inst_at (G : prog) (E : renv) (pos : Z) (i : inst) (nxt : Z) : Prop := {
  ia_at : at_inst G pos i;
  ia_nxt : nxt = pos + zlength (encode i);
  ia_ex : forall pc, pos < pc <= nxt -> find_ex (pr_ex G) pc = r_hf E pc;
  ia_lo : 0 <= pos;
  ia_hi : nxt <= zlength (pr_code G)
}.

Lemma layout_inst G E t st st' x i :
  layout G E t st st' [x] [] ->
  fill (r_brk E) (r_nxt E) (rt_of E) t (cur st) [x] = [i] ->
  cur st' = cur st + zlength (encode i) ->
  inst_at G E (cur st) i (cur st').
Proof.
  intros [LC LE _ _ _ _] F C. rewrite F in LC. apply at_code_inst in LC.
  constructor; auto.
  - apply zlength_nonneg.
  - destruct LC as (pre & post & -> & L). rewrite !zlength_app, C, L.
    pose proof (zlength_nonneg post). lia.
Qed.

(** ** Runs *)

(** [run H a b M]: from [a] to [b] code is added whose pending jumps are [H],
    and every program that contains it, with the jumps filled in, satisfies
    [M]. *)
Definition run (H : list Z) (a b : cg) (M : prog -> renv -> (Z -> Z) -> Prop) : Prop :=
  exists its ex, ext a b its ex /\ Permutation (locs (cur a) its) H /\
    forall G E t, layout G E t a b its ex -> M G E t.

Lemma run_weaken H H' a b M (M' : prog -> renv -> (Z -> Z) -> Prop) : run H a b M -> Permutation H H' ->
  (forall G E t, M G E t -> M' G E t) -> run H' a b M'.
Proof.
  intros (its & ex & X & P & L) Q W. exists its, ex. split; [exact X|split].
  - etransitivity; eassumption.
  - auto.
Qed.

Lemma run_refl a : run [] a a (fun _ _ _ => True).
Proof. exists [], []. split; [apply ext_refl|]. split; [reflexivity|auto]. Qed.

Lemma run_trans H1 H2 a b c M1 M2 : run H1 a b M1 -> run H2 b c M2 ->
  run (H1 ++ H2) a c (fun G E t => M1 G E t /\ M2 G E t).
Proof.
  intros (i & x & X & P & L) (j & y & Y & Q & R).
  exists (i ++ j), (x ++ y). split; [eapply ext_trans; eassumption|split].
  - rewrite locs_app, <- (ext_cur _ _ _ _ X). apply Permutation_app; assumption.
  - intros G E t K. destruct (layout_split _ _ _ _ _ _ _ _ _ _ X Y K). auto.
Qed.

Lemma run_cur H a b M : run H a b M -> cur a <= cur b.
Proof.
  intros (i & x & X & _). rewrite (ext_cur _ _ _ _ X). pose proof (isize_nonneg i). lia.
Qed.

Lemma cur_nonneg a : 0 <= cur a.
Proof. apply zlength_nonneg. Qed.

Lemma run_hole H p a b M : run (p :: H) a b M -> cur a < p <= cur b.
Proof.
  intros (its & ex & X & P & _).
  assert (I : In p (locs (cur a) its)) by (rewrite P; left; reflexivity).
  destruct (locs_split _ _ _ I) as (x & j & y & -> & ->).
  rewrite (ext_cur _ _ _ _ X), isize_app, isize_cons. cbn [ienc].
  pose proof (isize_nonneg x). pose proof (isize_nonneg y).
  pose proof (encode_pos (jinst j 0)). lia.
Qed.

Lemma run_len H a b M : run H a b M ->
  run H a b (fun G E t => cur b <= zlength (pr_code G) /\ M G E t).
Proof.
  intros (i & x & X & P & L). exists i, x. split; [exact X|split; [exact P|]].
  intros G E t K. split; [|auto]. destruct K as [(pre & post & EC & LP)].
  rewrite EC, !zlength_app, encodes_fill, LP, (ext_cur _ _ _ _ X).
  pose proof (zlength_nonneg post). lia.
Qed.

Lemma run_top H a b M : run H a b M -> in_loop b = in_loop a /\ ens_top b = ens_top a.
Proof.
  intros (i & x & X & _). unfold in_loop, ens_top. rewrite (e_loops _ _ _ _ X), (e_jds _ _ _ _ X).
  split; [destruct (loops a) | destruct (jds a), blk]; reflexivity.
Qed.

Lemma run_caches H a b M : run H a b M -> caches a <= caches b.
Proof. intros (i & x & X & _). apply X. Qed.

Lemma cur_emit i st : cur (emit i st) = cur st + zlength (encode i).
Proof. unfold cur. cbn [emit set_code code]. apply zlength_app. Qed.

Lemma ext_emit st i x : ienc x = encode i -> escs (cur st) [x] = [] -> rets (cur st) [x] = [] ->
  ext st (emit i st) [x] [].
Proof.
  intros E1 E2 E3.
  constructor; cbn [emit set_code code loops jds extab consts g_map g_map2 caches];
    rewrite ?E2, ?E3, ?app_nil_r, ?add_escs_nil, ?add_rets_nil; auto.
  - rewrite ibytes_cons, E1. cbn. rewrite app_nil_r. reflexivity.
  - lia.
Qed.

Lemma run_emit i st : run [] st (emit i st)
  (fun G E t => inst_at G E (cur st) i (cur (emit i st))).
Proof.
  exists [It i], []. split; [apply ext_emit; reflexivity|split; [reflexivity|]].
  intros G E t L. eapply layout_inst; [exact L|reflexivity|apply cur_emit].
Qed.

(** a jump to be patched *)
Lemma run_jump j st : let p := cur (emit (jinst j 0) st) in
  run [p] st (emit (jinst j 0) st)
    (fun G E t => inst_at G E (cur st) (jinst j (t p - p)) p).
Proof.
  intros p. exists [Ho (Loc j)], []. split; [apply ext_emit; reflexivity|split].
  - unfold p. rewrite cur_emit. reflexivity.
  - intros G E t L. eapply layout_inst; [exact L| |].
    + cbn [fill ienc]. unfold p. rewrite cur_emit. reflexivity.
    + rewrite cur_emit. f_equal. apply jinst_size.
Qed.

Lemma run_osend use id n st : run [] st (emit_osend use id n st)
  (fun G E t => inst_at G E (cur st) (ISendO use id n None (caches st))
                  (cur (emit_osend use id n st))
                /\ 0 <= caches st < 2 ^ 32).
Proof.
  unfold emit_osend. set (i := ISendO use id n None (caches st)).
  exists [It i], []. split; [|split; [reflexivity|]].
  - pose proof (ext_emit st i (It i) eq_refl eq_refl eq_refl) as [].
    constructor; auto. cbn. lia.
  - intros G E t L. split; [|destruct L; cbn in *; lia].
    eapply layout_inst; [exact L|reflexivity|apply cur_emit].
Qed.

Lemma run_const v st st' : gen_const_val v st = Ok st' ->
  run [] st st' (fun G E t =>
    inst_at G E (cur st) (I32 oCONST_VAL (zlength (consts st))) (cur st') /\
    nth_error (pr_consts G) (length (consts st)) = Some v)
  /\ zlength (consts st) < 2 ^ 32.
Proof.
  unfold gen_const_val. fold (zlength (consts st)).
  rewrite Z.gtb_ltb. destruct (Z.ltb_spec (2 ^ 32 - 1) (zlength (consts st))); [discriminate|].
  set (i := I32 oCONST_VAL (zlength (consts st))).
  intros E. assert (E' : st' = emit i (set_consts (consts st ++ [v]) st)) by congruence.
  subst st'. split; [|lia].
  exists [It i], []. split; [|split; [reflexivity|]].
  - pose proof (ext_emit st i (It i) eq_refl eq_refl eq_refl) as [].
    constructor; auto. cbn. auto.
  - intros G F t L. split.
    + eapply layout_inst; [exact L|reflexivity|].
      rewrite cur_emit. reflexivity.
    + destruct L. rewrite l_consts0; cbn.
      * rewrite nth_error_app2 by lia. rewrite Nat.sub_diag. reflexivity.
      * rewrite app_length. cbn. lia.
Qed.

(** no handler of its own covers the end of a run *)
Lemma run_end H a b M : run H a b M ->
  run H a b (fun G E t => (cur a < cur b -> find_ex (pr_ex G) (cur b) = r_hf E (cur b))
                          /\ M G E t).
Proof.
  intros (i & x & X & P & L). exists i, x. split; [exact X|split; [exact P|]].
  intros G E t K. split; [|auto]. intros LT. rewrite (l_ex _ _ _ _ _ _ _ K) by lia.
  assert (N : find_ex x (cur b) = None).
  { pose proof (e_range _ _ _ _ X) as F. clear - F. unfold find_ex.
    induction F as [|e l [A B] F IH]; cbn [find]; [reflexivity|].
    replace ((ex_start e <? cur b) && (cur b <=? ex_end e)) with false by lia. exact IH. }
  rewrite N. reflexivity.
Qed.

(** ** Patching *)
Definition upd (t : Z -> Z) (p d : Z) : Z -> Z := fun q => if q =? p then d else t q.
Fixpoint upds (t : Z -> Z) (l : list Z) (d : Z) : Z -> Z :=
  match l with [] => t | p :: r => upds (upd t p d) r d end.

Lemma upd_same t p d : upd t p d p = d.
Proof. unfold upd. rewrite Z.eqb_refl. reflexivity. Qed.
Lemma upd_other t p d q : q <> p -> upd t p d q = t q.
Proof. intros H. unfold upd. destruct (Z.eqb_spec q p); [contradiction|reflexivity]. Qed.
Lemma upds_in l : forall t d p, In p l -> upds t l d p = d.
Proof.
  assert (K : forall l t d p, t p = d -> upds t l d p = d).
  { induction l0 as [|x l0 IH]; intros t d p H; cbn; [exact H|].
    apply IH. unfold upd. destruct (p =? x); auto. }
  induction l as [|x l IH]; intros t d p; [intros []|]. intros [->|H]; cbn.
  - apply K, upd_same.
  - auto.
Qed.
Lemma upds_notin l : forall t d p, ~ In p l -> upds t l d p = t p.
Proof.
  induction l as [|x l IH]; intros t d p H; cbn; [reflexivity|].
  cbn in H. rewrite IH by tauto. apply upd_other. intros ->. tauto.
Qed.

Lemma encode_jinst j d : exists h, encode (jinst j d) = h ++ push32 d
  /\ encode (jinst j 0) = h ++ push32 0.
Proof.
  destruct j as [o|c k|o t]; cbn.
  - exists [opj_byte o]. split; reflexivity.
  - exists (opji_byte c :: push32 k). split; reflexivity.
  - exists (opc_byte o :: push32 t). split; reflexivity.
Qed.

Lemma write_hole j pre post src dest :
  src = zlength pre + zlength (encode (jinst j 0)) ->
  write_disp src dest (pre ++ encode (jinst j 0) ++ post)
  = Some (pre ++ encode (jinst j (dest - src)) ++ post).
Proof.
  destruct (encode_jinst j (dest - src)) as (h & -> & ->). intros Es.
  rewrite <- !app_assoc, (app_assoc pre), write_disp_mid;
    [rewrite <- app_assoc; reflexivity | | apply push32_length].
  revert Es. unfold zlength. rewrite !app_length, push32_length. lia.
Qed.

Lemma run_patch H p dest a b c M :
  run (p :: H) a b M -> wdisp p dest b = Ok c ->
  run H a c (fun G E t => M G E (upd t p dest)) /\ cur c = cur b /\ c = set_code (code c) b.
Proof.
  intros (its & ex & X & P & L) W.
  assert (I : In p (locs (cur a) its)) by (rewrite P; left; reflexivity).
  destruct (locs_split _ _ _ I) as (x & j & y & -> & Ep).
  unfold wdisp, lift_code in W.
  assert (EC : code b = (code a ++ ibytes x) ++ encode (jinst j 0) ++ ibytes y).
  { rewrite (e_code _ _ _ _ X), ibytes_app, ibytes_cons, <- app_assoc. reflexivity. }
  rewrite EC, write_hole in W.
  2: { rewrite zlength_app. exact Ep. }
  set (k := (code a ++ ibytes x) ++ encode (jinst j (dest - p)) ++ ibytes y) in *.
  assert (Ec : c = set_code k b) by congruence. subst c. clear W.
  set (its' := x ++ It (jinst j (dest - p)) :: y).
  assert (Ek : k = code a ++ ibytes its').
  { unfold k, its'. rewrite ibytes_app, ibytes_cons, <- app_assoc. reflexivity. }
  assert (SZ : isize its' = isize (x ++ Ho (Loc j) :: y)).
  { unfold its'. rewrite !isize_app, !isize_cons. cbn [ienc]. rewrite (jinst_size j (dest - p) 0). lia. }
  assert (CU : cur (set_code k b) = cur b).
  { rewrite (cur_app a (set_code k b) _ Ek), SZ. symmetry. eapply ext_cur; eassumption. }
  assert (HL : Permutation (locs (cur a) its') H).
  { apply Permutation_cons_inv with p. rewrite <- P. unfold its'. rewrite !locs_app.
    cbn [locs ienc]. rewrite (jinst_size j (dest - p) 0).
    replace (cur a + isize x + zlength (encode (jinst j 0))) with p by lia.
    apply Permutation_middle. }
  split; [|split; [exact CU|reflexivity]].
  exists its', ex. split; [|split; [exact HL|]].
  - destruct X. constructor; cbn [set_code code loops jds extab consts g_map g_map2 caches];
      auto.
    + rewrite e_loops0. f_equal. unfold its'. rewrite !escs_app. cbn [escs ienc].
      rewrite (jinst_size j (dest - p) 0). reflexivity.
    + rewrite e_jds0. f_equal. unfold its'. rewrite !rets_app. cbn [rets ienc].
      rewrite (jinst_size j (dest - p) 0). reflexivity.
    + change (Forall (in_range (cur a) (cur (set_code k b))) ex). rewrite CU. exact e_range0.
    + intros N. rewrite <- (e_noesc0 N). unfold its'. rewrite !escs_app. cbn [escs ienc].
      rewrite (jinst_size j (dest - p) 0). reflexivity.
    + intros N. rewrite <- (e_noret0 N). unfold its'. rewrite !rets_app. cbn [rets ienc].
      rewrite (jinst_size j (dest - p) 0). reflexivity.
  - intros G E t [LC LE]. apply L. rewrite CU in LE. constructor; auto.
    revert LC. unfold its'. rewrite !fill_app. cbn [fill ienc].
    rewrite (jinst_size j (dest - p) 0).
    replace (cur a + isize x + zlength (encode (jinst j 0))) with p by lia.
    rewrite upd_same.
    rewrite (fill_ext _ _ _ (upd t p dest) t x), (fill_ext _ _ _ (upd t p dest) t y); auto.
    + intros q Hq. apply locs_bound in Hq. apply upd_other. lia.
    + intros q Hq. apply locs_bound in Hq. pose proof (encode_pos (jinst j 0)).
      apply upd_other. lia.
Qed.

Lemma run_patches l : forall H a b c M,
  run (l ++ H) a b M -> wcurs l b = Ok c ->
  run H a c (fun G E t => M G E (upds t (rev l) (cur b))) /\ cur c = cur b
  /\ c = set_code (code c) b.
Proof.
  induction l as [|p l IH]; intros H a b c M R W.
  - cbn in W. injection W as <-. split; [exact R|]. destruct b; auto.
  - cbn [wcurs] in W. destruct (wcur p b) as [b1| |] eqn:E1; cbn [rbind] in W; try discriminate.
    destruct (run_patch (l ++ H) p (cur b) a b b1 M) as (R1 & C1 & S1); [exact R|exact E1|].
    destruct (IH _ _ _ _ _ R1 W) as (R2 & C2 & S2). rewrite C1 in *.
    split; [|split; [exact C2|]].
    + eapply run_weaken; [exact R2|reflexivity|]. intros G E t.
      cbn [rev]. clear. revert t. intros t K.
      assert (U : forall l t d, upds t (l ++ [p]) d = upd (upds t l d) p d).
      { clear. induction l as [|x l IH]; intros t d; cbn; auto. }
      rewrite U. exact K.
    + rewrite S2, S1. destruct b; reflexivity.
Qed.

(** Breaks and nexts of a loop *)
Fixpoint fill_esc (bt nt : Z) (pos : Z) (l : list item) : list item :=
  match l with
  | [] => []
  | x :: r =>
      let p := pos + zlength (ienc x) in
      match x with
      | Ho EscB => It (IJ oJMP (bt - p))
      | Ho EscN => It (IJ oJMP (nt - p))
      | x => x
      end :: fill_esc bt nt p r
  end.

Lemma ienc_fill_esc bt nt x p :
  zlength (ienc (match x with
      | Ho EscB => It (IJ oJMP (bt - p))
      | Ho EscN => It (IJ oJMP (nt - p)) | x => x end)) = zlength (ienc x).
Proof. destruct x as [i|[]]; reflexivity. Qed.

Lemma fill_esc_facts bt nt a : forall pos,
  isize (fill_esc bt nt pos a) = isize a /\
  escs pos (fill_esc bt nt pos a) = [] /\
  rets pos (fill_esc bt nt pos a) = rets pos a /\
  locs pos (fill_esc bt nt pos a) = locs pos a /\
  forall b n rt t, fill b n rt t pos (fill_esc bt nt pos a) = fill bt nt rt t pos a.
Proof.
  induction a as [|x a IH]; intros pos; cbn [fill_esc]; [auto|].
  destruct (IH (pos + zlength (ienc x))) as (I1 & I2 & I3 & I4 & I5).
  cbn [escs rets locs fill]. rewrite !isize_cons, ienc_fill_esc.
  set (p := pos + zlength (ienc x)) in *.
  split; [lia|].
  destruct x as [i|[]]; rewrite ?I2, ?I3, ?I4; repeat split; intros; rewrite ?I5; reflexivity.
Qed.

Lemma patch_escapes_ok nt l : forall pre post st st',
  code st = pre ++ ibytes l ++ post ->
  patch_escapes (escs (zlength pre) l) nt st = Ok st' ->
  st' = set_code (pre ++ ibytes (fill_esc (cur st) nt (zlength pre) l) ++ post) st.
Proof.
  induction l as [|x l IH]; intros pre post st st' EC E.
  - cbn in E. injection E as <-. cbn in *. destruct st; cbn in *; subst; reflexivity.
  - cbn [escs fill_esc] in *. rewrite ibytes_cons in EC |- *.
    assert (Q : zlength pre + zlength (ienc x) = zlength (pre ++ ienc x))
      by (rewrite zlength_app; reflexivity).
    assert (PLAIN : patch_escapes (escs (zlength (pre ++ ienc x)) l) nt st = Ok st' ->
      st' = set_code (pre ++ (ienc x ++ ibytes (fill_esc (cur st) nt (zlength (pre ++ ienc x)) l))
                      ++ post) st).
    { intros E'. apply (IH (pre ++ ienc x) post st st') in E';
        [|rewrite EC, <- !app_assoc; reflexivity].
      rewrite E', <- !app_assoc. reflexivity. }
    assert (PATCH : forall k dest, x = Ho k -> k = EscB \/ k = EscN ->
      (st1 <- wdisp (zlength (pre ++ ienc x)) dest st ;;
       patch_escapes (escs (zlength (pre ++ ienc x)) l) nt st1) = Ok st' ->
      st' = set_code (pre ++ (ienc (It (IJ oJMP (dest - zlength (pre ++ ienc x)))) ++
              ibytes (fill_esc (cur st) nt (zlength (pre ++ ienc x)) l)) ++ post) st).
    { intros k dest Ek Kk. assert (X : ienc x = encode (jinst (JJ oJMP) 0)).
      { subst x. destruct Kk; subst k; reflexivity. }
      unfold wdisp, lift_code. rewrite EC, <- app_assoc.
      set (src := zlength (pre ++ ienc x)).
      rewrite X, write_hole by (unfold src; rewrite X, zlength_app; reflexivity).
      cbn [rbind jinst].
      set (c := pre ++ encode (IJ oJMP (dest - src)) ++ ibytes l ++ post).
      assert (CU : cur (set_code c st) = cur st).
      { unfold cur. cbn [set_code code]. rewrite EC. unfold c. rewrite X, !app_length. reflexivity. }
      assert (Q2 : src = zlength (pre ++ encode (IJ oJMP (dest - src)))).
      { unfold src at 1. rewrite X, !zlength_app. reflexivity. }
      rewrite Q2 at 1. intros E'.
      apply (IH _ post) in E'.
      2: { cbn [set_code code]. unfold c. rewrite <- app_assoc. reflexivity. }
      rewrite CU, <- Q2 in E'. rewrite E'. cbn [ienc set_code].
      unfold set_code. cbn. rewrite <- !app_assoc. reflexivity. }
    rewrite Q in *.
    destruct x as [i|[| | |j]]; cbn [patch_escapes] in E.
    + apply PLAIN. exact E.
    + apply (PATCH EscB); auto.
    + apply (PATCH EscN); auto.
    + apply PLAIN. exact E.
    + apply PLAIN. exact E.
Qed.

Definition set_tgts (E : renv) (b n : Z) : renv := mkrenv b n (r_ret E) (rt_of E) (r_hf E).

Lemma run_loop H a b c x r nt M :
  run H (set_loops (mkloop true [] :: loops a) a) b M ->
  loops b = x :: r -> patch_escapes (lp_esc x) nt (set_loops r b) = Ok c ->
  run H a c (fun G E t => M G (set_tgts E (cur b) nt) t)
  /\ cur c = cur b /\ c = set_code (code c) (set_loops (loops a) b).
Proof.
  intros (its & ex & X & P & L) EL W.
  assert (CA : cur (set_loops (mkloop true [] :: loops a) a) = cur a) by reflexivity.
  rewrite CA in *.
  pose proof (ext_cur _ _ _ _ X) as CB. rewrite CA in CB.
  pose proof (e_loops _ _ _ _ X) as E1. rewrite EL, CA in E1.
  cbn [set_loops loops add_escs lp_loop lp_esc app] in E1. injection E1 as -> ->.
  cbn [lp_esc] in W.
  assert (EC : code (set_loops (loops a) b) = code a ++ ibytes its ++ []).
  { cbn [set_loops code]. rewrite (e_code _ _ _ _ X), app_nil_r. reflexivity. }
  change (cur a) with (zlength (code a)) in W.
  apply (patch_escapes_ok nt its _ _ _ _ EC) in W. change (zlength (code a)) with (cur a) in W.
  change (cur (set_loops (loops a) b)) with (cur b) in W. rewrite app_nil_r in W.
  destruct (fill_esc_facts (cur b) nt its (cur a)) as (F1 & F2 & F3 & F4 & F5).
  assert (CU : cur c = cur b).
  { rewrite W. rewrite (cur_app a _ (fill_esc (cur b) nt (cur a) its)) by reflexivity.
    rewrite F1. lia. }
  split; [|split; [exact CU|rewrite W; reflexivity]].
  exists (fill_esc (cur b) nt (cur a) its), ex. split; [|split; [rewrite F4; exact P|]].
  - destruct X. rewrite W in *. constructor;
      cbn [set_code set_loops code loops jds extab consts g_map g_map2 caches] in *; auto.
    + rewrite F2, add_escs_nil. reflexivity.
    + rewrite F3. assumption.
    + rewrite CU. assumption.
    + intros N. rewrite F3. apply e_noret0. exact N.
  - intros G E t [LC LE]. apply L. rewrite W in *. rewrite CU in LE.
    constructor; auto. rewrite F5 in LC. exact LC.
Qed.

(** Returns into an ensure clause become pending jumps when the clause is
    reached. *)
Fixpoint loose (l : list item) : list item :=
  match l with
  | [] => []
  | x :: r => match x with Ho EscR => Ho (Loc (JJ oJMP)) | x => x end :: loose r
  end.

Lemma loose_facts a : forall pos,
  isize (loose a) = isize a /\ ibytes (loose a) = ibytes a /\
  escs pos (loose a) = escs pos a /\ rets pos (loose a) = [] /\
  Permutation (locs pos (loose a)) (rets pos a ++ locs pos a) /\
  forall b n r0 rt t, (forall p, In p (rets pos a) -> t p = rt) ->
    fill b n r0 t pos (loose a) = fill b n rt t pos a.
Proof.
  induction a as [|x a IH]; intros pos; cbn [loose]; [auto 10|].
  destruct (IH (pos + zlength (ienc x))) as (I1 & I2 & I3 & I4 & I5 & I6).
  assert (EX : ienc (match x with Ho EscR => Ho (Loc (JJ oJMP)) | x => x end) = ienc x)
    by (destruct x as [i|[]]; reflexivity).
  cbn [escs rets locs fill]. rewrite !isize_cons, !ibytes_cons, EX, I1, I2.
  set (p := pos + zlength (ienc x)) in *.
  split; [reflexivity|split; [reflexivity|]].
  destruct x as [i|[| | |j]]; rewrite ?I3, ?I4; cbn [In app];
    (split; [reflexivity|split; [reflexivity|split]]); auto;
    try (intros; rewrite I6 with (rt := rt); auto; fail).
  - intros b n r0 rt t HT. rewrite I6 with (rt := rt) by auto. cbn [jinst].
    rewrite HT by auto. reflexivity.
  - rewrite I5. apply Permutation_middle.
Qed.

Definition set_ret (E : renv) (r : option Z) (rt : Z) : renv :=
  mkrenv (r_brk E) (r_nxt E) r rt (r_hf E).
Definition set_hf (E : renv) (h : Z -> option (Z * bool)) : renv :=
  mkrenv (r_brk E) (r_nxt E) (r_ret E) (rt_of E) h.

Lemma run_pop ens H a b jd jr M :
  run H (push_jd ens a) b M -> jds b = jd :: jr ->
  exists R, jd = (if blk then mkjd ens [] R else mkjd ens R []) /\ jr = jds a /\
    run (R ++ H) a (set_jds (jds a) b)
      (fun G E t => forall rt r, (forall p, In p R -> t p = rt) -> M G (set_ret E r rt) t).
Proof.
  intros (its & ex & X & P & L) EJ.
  assert (CA : cur (push_jd ens a) = cur a) by reflexivity. rewrite CA in *.
  pose proof (e_jds _ _ _ _ X) as E1. rewrite EJ, CA in E1.
  cbn [push_jd set_jds jds add_rets jd_ens jd_ret jd_mret app] in E1. injection E1 as -> ->.
  exists (rets (cur a) its). split; [destruct blk; reflexivity|split; [reflexivity|]].
  destruct (loose_facts its (cur a)) as (F1 & F2 & F3 & F4 & F5 & F6).
  exists (loose its), ex. split; [|split].
  - destruct X. constructor;
      cbn [set_jds push_jd code loops jds extab consts g_map g_map2 caches] in *; auto.
    + rewrite F2. assumption.
    + rewrite F3. assumption.
    + rewrite F4, add_rets_nil. reflexivity.
    + intros N. rewrite F3. apply e_noesc0. exact N.
  - rewrite F5. apply Permutation_app_head. exact P.
  - intros G E t [LC LE] rt r HT. apply L. constructor; auto.
    cbn [set_ret r_brk r_nxt rt_of].
    rewrite (F6 _ _ _ rt) in LC by exact HT. exact LC.
Qed.

(** A new entry of the exception table *)
Lemma run_extab H a b lo hi d k M : run H a b M -> cur a <= lo -> hi < cur b ->
  run H a (set_extab (extab b ++ [mkex lo hi d k]) b)
    (fun G E t => M G (set_hf E (fun pc => if (lo <? pc) && (pc <=? hi) then Some (d, k)
                                           else r_hf E pc)) t).
Proof.
  intros (its & ex & X & P & L) H1 H2. exists its, (ex ++ [mkex lo hi d k]).
  split; [|split; [exact P|]].
  - destruct X. constructor; cbn [set_extab code loops jds extab consts g_map g_map2 caches]; auto.
    + rewrite e_ex0, app_assoc. reflexivity.
    + apply Forall_app. split; [exact e_range0|]. constructor; [|constructor]. split; assumption.
  - intros G E t [LC LE]. apply L. constructor; auto. intros pc Hpc.
    rewrite LE by exact Hpc. rewrite find_ex_app.
    destruct (find_ex ex pc); [reflexivity|]. unfold find_ex. cbn [find ex_start ex_end set_hf r_hf].
    destruct ((lo <? pc) && (pc <=? hi)); reflexivity.
Qed.

(** Case tables: reserved before the branches, filled in after them *)
Lemma upd_nth_len {A} k (x : A) l : length (upd_nth k x l) = length l.
Proof. revert k; induction l; intros [|k]; cbn; auto. Qed.
Lemma upd_nth_same {A} k (x : A) l : (k < length l)%nat -> nth_error (upd_nth k x l) k = Some x.
Proof. revert k; induction l; intros [|k] H; cbn in *; try lia; auto. apply IHl. lia. Qed.
Lemma upd_nth_other {A} k j (x : A) l : j <> k -> nth_error (upd_nth k x l) j = nth_error l j.
Proof. revert k j; induction l; intros [|k] [|j] H; cbn in *; auto; try congruence. Qed.
Lemma upd_nth_prefix {A} k (x : A) a l : prefix a l -> (length a <= k)%nat ->
  prefix a (upd_nth k x l).
Proof.
  intros [c ->] H. revert k H. induction a as [|y a IH]; intros k H; cbn.
  - exists (upd_nth k x c). reflexivity.
  - destruct k; cbn in *; [lia|]. destruct (IH k ltac:(lia)) as [d ->]. exists d. reflexivity.
Qed.

Lemma slice_upd {A} (a l g : list A) e x : prefix (a ++ [e]) l ->
  slice_in a (upd_nth (length a) x l) g ->
  nth_error g (length a) = Some x /\ slice_in (a ++ [e]) l g.
Proof.
  intros Pf S. pose proof (prefix_length _ _ Pf) as Ln. rewrite app_length in Ln. cbn in Ln.
  split.
  - rewrite S by (rewrite upd_nth_len; lia). apply upd_nth_same. lia.
  - intros k. rewrite app_length. cbn. intros Hk. rewrite S by (rewrite upd_nth_len; lia).
    apply upd_nth_other. lia.
Qed.

Lemma run_map H a b e x M : run H (set_map (g_map a ++ [e]) a) b M ->
  run H a (set_map (upd_nth (length (g_map a)) x (g_map b)) b)
    (fun G E t => nth_error (pr_map G) (length (g_map a)) = Some x /\ M G E t).
Proof.
  intros (its & ex & X & P & L). exists its, ex.
  pose proof (e_map _ _ _ _ X) as PF. cbn [set_map g_map] in PF.
  split; [|split; [exact P|]].
  - destruct X. constructor; cbn [set_map code loops jds extab consts g_map g_map2 caches] in *; auto.
    apply upd_nth_prefix; [|auto]. eapply prefix_trans; [|exact PF]. auto.
  - intros G E t [LC LE LK LM LM2 LCA].
    cbn [set_map code loops jds extab consts g_map g_map2 caches] in *.
    destruct (slice_upd _ _ _ _ _ PF LM) as [S1 S2]. split; [exact S1|].
    apply L. constructor; auto.
Qed.

Lemma run_map2 H a b e x M : run H (set_map2 (g_map2 a ++ [e]) a) b M ->
  run H a (set_map2 (upd_nth (length (g_map2 a)) x (g_map2 b)) b)
    (fun G E t => nth_error (pr_map2 G) (length (g_map2 a)) = Some x /\ M G E t).
Proof.
  intros (its & ex & X & P & L). exists its, ex.
  pose proof (e_map2 _ _ _ _ X) as PF. cbn [set_map2 g_map2] in PF.
  split; [|split; [exact P|]].
  - destruct X. constructor; cbn [set_map2 code loops jds extab consts g_map g_map2 caches] in *; auto.
    apply upd_nth_prefix; [|auto]. eapply prefix_trans; [|exact PF]. auto.
  - intros G E t [LC LE LK LM LM2 LCA].
    cbn [set_map2 code loops jds extab consts g_map g_map2 caches] in *.
    destruct (slice_upd _ _ _ _ _ PF LM2) as [S1 S2]. split; [exact S1|].
    apply L. constructor; auto.
Qed.

(** Break, next and return into an enclosing construct *)
Lemma run_escape k st st' : in_loop st = true -> add_escape k (emit (IJ oJMP 0) st) = Ok st' ->
  run [] st st' (fun G E t =>
    inst_at G E (cur st) (IJ oJMP ((match k with EBreak => r_brk E | ENext => r_nxt E end)
                                   - cur st')) (cur st')).
Proof.
  intros IL. unfold add_escape. intros W. destruct (loops (emit (IJ oJMP 0) st)) as [|x r] eqn:EL; [discriminate|].
  assert (E' : st' = set_loops (mkloop (lp_loop x) (lp_esc x ++ [(cur (emit (IJ oJMP 0) st), k)]) :: r)
            (emit (IJ oJMP 0) st)) by congruence.
  clear W. subst st'. cbn [emit set_code loops] in EL.
  assert (CU : cur (set_loops (mkloop (lp_loop x) (lp_esc x ++ [(cur (emit (IJ oJMP 0) st), k)]) :: r)
            (emit (IJ oJMP 0) st)) = cur st + 5) by (apply (cur_emit (IJ oJMP 0) st)).
  exists [Ho (match k with EBreak => EscB | ENext => EscN end)], [].
  split; [|split; [destruct k; reflexivity|]].
  - constructor;
      cbn [emit set_code set_loops code loops jds extab consts g_map g_map2 caches];
      rewrite ?app_nil_r; auto.
    + destruct k; reflexivity.
    + rewrite EL. rewrite (cur_emit (IJ oJMP 0) st). destruct k; reflexivity.
    + destruct k; cbn [rets]; rewrite add_rets_nil; reflexivity.
    + lia.
    + congruence.
    + destruct k; reflexivity.
  - intros G E t L. eapply layout_inst; [exact L| |exact CU].
    rewrite CU. destruct k; reflexivity.
Qed.

Lemma run_add_ret st st' : ens_top st = true -> add_ret blk (emit (IJ oJMP 0) st) = Ok st' ->
  run [] st st' (fun G E t =>
    inst_at G E (cur st) (IJ oJMP (rt_of E - cur st')) (cur st')).
Proof.
  intros IL. unfold add_ret. intros W. destruct (jds (emit (IJ oJMP 0) st)) as [|x r] eqn:EL; [discriminate|].
  match type of W with Ok ?s = _ => assert (E' : st' = s) by congruence end.
  clear W. subst st'. cbn [emit set_code jds] in EL.
  match goal with |- run _ _ ?s _ => assert (CU : cur s = cur st + 5)
    by (apply (cur_emit (IJ oJMP 0) st)) end.
  exists [Ho EscR], []. split; [|split; [reflexivity|]].
  - constructor;
      cbn [emit set_code set_jds code loops jds extab consts g_map g_map2 caches];
      rewrite ?app_nil_r; auto.
    + cbn [escs]. rewrite add_escs_nil. reflexivity.
    + rewrite EL. rewrite (cur_emit (IJ oJMP 0) st). destruct blk; reflexivity.
    + lia.
    + congruence.
  - intros G E t L. eapply layout_inst; [exact L| |exact CU].
    rewrite CU. reflexivity.
Qed.

(** States that differ in nothing a run depends on *)
Lemma run_to H a b b' M : run H a b M -> b' = b -> run H a b' M.
Proof. intros R ->. exact R. Qed.
End Runs.
