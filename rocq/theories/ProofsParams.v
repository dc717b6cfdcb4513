(** Lemmas about formal parameters: what the parser accepts. *)
From Coq Require Import ZArith List Bool Lia.
From Verif Require Import Base ModelParse SpecParse ModelParams SpecParams ProofsParse ProofsParse5 ProofsParams0.
Import ListNotations.
Open Scope Z_scope.

Definition ptree (p : param) : fparam :=
  match p with
  | FReq id => QReq id | FPost id => QPost id | FOpt id d => QOpt id (tree d) | FRest id => QRest id | FRestNone => QRestNone
  | FKey id d => QKey id (option_map tree d) | FKwRest id => QKwRest id | FBlock id => QBlock id | FDelegate => QDelegate
  end.

(** * The order as a walk *)
Definition next (st : kind) (p : fparam) : option (kind * bool) :=
  match p with
  | QReq _ => match st with kReq => Some (kReq, false) | _ => None end
  | QPost _ => match st with kOpt | kRest | kPost => Some (kPost, false) | _ => None end
  | QOpt _ _ => match st with kReq | kOpt => Some (kOpt, false) | _ => None end
  | QRest _ | QRestNone => match st with kReq | kOpt => Some (kRest, false) | _ => None end
  | QKey _ _ => match st with kKwRest => None | _ => Some (kKey, false) end
  | QKwRest _ => match st with kKwRest => None | _ => Some (kKwRest, false) end
  | QBlock _ => Some (st, true)
  | QDelegate => match st with kReq => Some (kReq, true) | _ => None end
  end.
Fixpoint walk (st : kind) (ps : list fparam) : Prop :=
  match ps with
  | [] => True
  | p :: r => match next st p with None => False | Some (st', true) => r = [] | Some (st', false) => walk st' r end
  end.

Lemma all_nil f : all f [].
Proof. intros p []. Qed.
Lemma all_cons f p l : f p = true -> all f l -> all f (p :: l).
Proof. intros A B q [<-|H]; auto. Qed.
Lemma all_inv f p l : all f (p :: l) -> f p = true /\ all f l.
Proof. intros H. split; [apply H; left; reflexivity|]. intros q Q. apply H. right. exact Q. Qed.
Local Hint Resolve all_nil all_cons : core.

(** what may stand behind the rest of the keywords, ... *)
Definition tail5 (ps : list fparam) : Prop := all is_block ps /\ (length ps <= 1)%nat.
Definition tail4 (ps : list fparam) : Prop := exists key kwrest bl, ps = key ++ kwrest ++ bl /\
  all is_key key /\ all is_kwrest kwrest /\ (length kwrest <= 1)%nat /\ tail5 bl.
Definition tail3 (ps : list fparam) : Prop := exists post r, ps = post ++ r /\ all is_post post /\ tail4 r.
Definition tail2 (ps : list fparam) : Prop := exists opt rest r, ps = opt ++ rest ++ r /\
  all is_opt opt /\ all is_rest rest /\ (length rest <= 1)%nat /\ tail3 r.

Lemma walk5 ps : walk kKwRest ps -> tail5 ps.
Proof.
  destruct ps as [|p r]; [split; [auto|cbn; lia]|]. cbn. destruct p; cbn; try contradiction. intros ->.
  split; [apply all_cons; [reflexivity|auto]|cbn; lia].
Qed.
Lemma tail5_4 ps : tail5 ps -> tail4 ps.
Proof. intros H. exists [], [], ps. repeat split; auto; apply H. Qed.
Lemma block_tail5 id : tail5 [QBlock id].
Proof. split; [apply all_cons; [reflexivity|auto]|cbn; lia]. Qed.
Lemma walk4 ps : walk kKey ps -> tail4 ps.
Proof.
  induction ps as [|p r IH]; [intros _; apply tail5_4; split; [auto|cbn; lia]|].
  cbn. destruct p; cbn; try contradiction.
  - intros H. destruct (IH H) as (key & kw & bl & -> & A & B & C & D). exists (QKey id e :: key), kw, bl. repeat split; auto; apply D.
  - intros H. apply walk5 in H. exists [], [QKwRest id], r. repeat split; auto; apply H.
  - intros ->. apply tail5_4, block_tail5.
Qed.
Lemma tail4_3 ps : tail4 ps -> tail3 ps.
Proof. intros H. exists [], ps. auto. Qed.
Lemma walk3 st ps : st = kPost \/ st = kRest -> walk st ps -> tail3 ps.
Proof.
  revert st. induction ps as [|p r IH]; intros st S; [intros _; apply tail4_3, tail5_4; split; [auto|cbn; lia]|].
  assert (Q : walk st (p :: r) -> walk kPost (p :: r)) by (destruct S as [-> | ->]; [auto|]; destruct p; cbn; auto).
  intros H. apply Q in H. clear S Q. cbn in H. destruct p; cbn in H; try contradiction.
  - destruct (IH kPost (or_introl eq_refl) H) as (post & q & -> & A & B). exists (QPost id :: post), q. auto.
  - apply tail4_3. apply (walk4 (QKey id e :: r)). exact H.
  - apply tail4_3. apply (walk4 (QKwRest id :: r)). exact H.
  - subst r. apply tail4_3, tail5_4, block_tail5.
Qed.
Lemma tail3_2 ps : tail3 ps -> tail2 ps.
Proof. intros H. exists [], [], ps. repeat split; auto. Qed.
Lemma walk2 ps : walk kOpt ps -> tail2 ps.
Proof.
  induction ps as [|p r IH]; [intros _; apply tail3_2, tail4_3, tail5_4; split; [auto|cbn; lia]|].
  cbn. destruct p; cbn; try contradiction.
  - intros H. apply tail3_2. apply (walk3 kPost (QPost id :: r)); [auto|]. exact H.
  - intros H. destruct (IH H) as (opt & rest & q & -> & A & B & C & D). exists (QOpt id e :: opt), rest, q. auto.
  - intros H. apply (walk3 kRest) in H; [|auto]. exists [], [QRest id], r. repeat split; auto.
  - intros H. apply (walk3 kRest) in H; [|auto]. exists [], [QRestNone], r. repeat split; auto.
  - intros H. apply tail3_2, tail4_3. apply (walk4 (QKey id e :: r)). exact H.
  - intros H. apply tail3_2, tail4_3. apply (walk4 (QKwRest id :: r)). exact H.
  - intros ->. apply tail3_2, tail4_3, tail5_4, block_tail5.
Qed.
Lemma ordered_up req opt rest r : all is_req req -> all is_opt opt -> all is_rest rest -> (length rest <= 1)%nat ->
  opt ++ rest <> [] -> tail3 r -> ordered (req ++ opt ++ rest ++ r).
Proof.
  intros A B C D N (post & q & -> & E0 & (key & kw & bl & -> & F & G & H & (I & J))). constructor; auto.
Qed.
Lemma ordered_req req r : all is_req req -> tail4 r -> ordered (req ++ r).
Proof.
  intros A (key & kw & bl & -> & F & G & H & (I & J)).
  apply (Ordered req [] [] [] key kw bl); auto; cbn; lia.
Qed.
Lemma walk1 req ps : all is_req req -> walk kReq ps -> ordered (req ++ ps).
Proof.
  revert req. induction ps as [|p r IH]; intros req A.
  - intros _. apply ordered_req; [exact A|]. apply tail5_4. split; [auto|cbn; lia].
  - cbn. destruct p; cbn; try contradiction; intros H.
    + replace (req ++ QReq id :: r) with ((req ++ [QReq id]) ++ r) by (rewrite <- app_assoc; reflexivity).
      apply IH; [|exact H]. intros p Q. apply in_app_or in Q. destruct Q as [Q|[<-|[]]]; auto.
    + apply walk2 in H. destruct H as (opt & rest & q & -> & B & C & D & E0).
      apply (ordered_up req (QOpt id e :: opt) rest q); auto. discriminate.
    + apply (walk3 kRest) in H; [|auto]. apply (ordered_up req [] [QRest id] r); auto. discriminate.
    + apply (walk3 kRest) in H; [|auto]. apply (ordered_up req [] [QRestNone] r); auto. discriminate.
    + apply ordered_req; [exact A|]. apply (walk4 (QKey id e :: r)). exact H.
    + apply ordered_req; [exact A|]. apply (walk4 (QKwRest id :: r)). exact H.
    + subst r. apply ordered_req; [exact A|]. apply tail5_4, block_tail5.
    + subst r. apply Ordered_dots. exact A.
Qed.
Lemma walk_ordered ps : walk kReq ps -> ordered ps.
Proof. apply (walk1 []). auto. Qed.

Lemma t5_walk st ps : tail5 ps -> walk st ps.
Proof.
  intros (A & B). destruct ps as [|p [|]]; [exact I| |cbn in B; lia]. apply all_inv in A. destruct A as [A _].
  destruct p; try discriminate. reflexivity.
Qed.
Lemma t4_walk st ps : st <> kKwRest -> tail4 ps -> walk st ps.
Proof.
  intros N (key & kw & bl & -> & A & B & C & D). revert st N. induction key as [|p key IH]; intros st N.
  - destruct kw as [|p [|]]; [apply t5_walk; exact D| |cbn in C; lia]. apply all_inv in B. destruct B as [B _].
    destruct p; try discriminate. cbn. destruct st; try contradiction; apply t5_walk; exact D.
  - apply all_inv in A. destruct A as [A1 A2]. destruct p; try discriminate. cbn [app walk next].
    destruct st; try contradiction; (apply IH; [exact A2|discriminate]).
Qed.
Lemma t3_walk st ps : st = kOpt \/ st = kRest \/ st = kPost -> tail3 ps -> walk st ps.
Proof.
  intros S (post & r & -> & A & B). revert st S. induction post as [|p post IH]; intros st S.
  - apply t4_walk; [|exact B]. intros ->. destruct S as [S|[S|S]]; discriminate.
  - apply all_inv in A. destruct A as [A1 A2]. destruct p; try discriminate. cbn [app walk next].
    destruct S as [->|[->| ->]]; (apply IH; [exact A2|auto]).
Qed.
Lemma t2_walk ps : tail2 ps -> walk kOpt ps.
Proof.
  intros (opt & rest & r & -> & A & B & C & D). induction opt as [|p opt IH].
  - destruct rest as [|p [|]]; [apply t3_walk; auto| |cbn in C; lia]. apply all_inv in B. destruct B as [B _].
    destruct p; try discriminate; (apply (t3_walk kRest); auto).
  - apply all_inv in A. destruct A as [A1 A2]. destruct p; try discriminate. cbn. apply IH. exact A2.
Qed.
Lemma ordered_walk ps : ordered ps -> walk kReq ps.
Proof.
  intros [req opt rest post key kw bl A B C D E0 F G H I J K|req A].
  - assert (T4 : tail4 (key ++ kw ++ bl)) by (exists key, kw, bl; repeat split; auto).
    assert (T3 : tail3 (post ++ key ++ kw ++ bl)) by (exists post, (key ++ kw ++ bl); auto).
    induction req as [|p req IH].
    + cbn [app]. destruct opt as [|p opt].
      * destruct rest as [|p [|]]; cbn [app].
        -- destruct post as [|p post]; [apply t4_walk; [discriminate|exact T4]|]. exfalso. apply F; [discriminate|reflexivity].
        -- apply all_inv in C. destruct C as [C _]. destruct p; try discriminate; (apply (t3_walk kRest); auto).
        -- cbn in D. lia.
      * apply all_inv in B. destruct B as [B1 B2]. destruct p; try discriminate. cbn. apply t2_walk.
        exists opt, rest, (post ++ key ++ kw ++ bl). auto.
    + apply all_inv in A. destruct A as [A1 A2]. destruct p; try discriminate. cbn. apply IH. exact A2.
  - induction req as [|p req IH]; [reflexivity|].
    apply all_inv in A. destruct A as [A1 A2]. destruct p; try discriminate. cbn. apply IH. exact A2.
Qed.

(** * What is accepted *)
Lemma pok_inv A B (r : pres A) (f : A -> pst -> pres B) b s' : pbind r f = POk b s' ->
  exists a s, r = POk a s /\ f a s = POk b s'.
Proof. destruct r; cbn; try discriminate. eauto. Qed.
Lemma get_lv s t s' : get s = POk t s' -> p_lv s' = p_lv s.
Proof.
  unfold get. destruct (skip_lt (p_in s)) as [|[x b] r]; [discriminate|]. destruct x; try discriminate; intros H; injection H as <- <-; reflexivity.
Qed.
Lemma ident_lv s id s' : expect_ident s = POk id s' -> p_lv s' = p_lv s.
Proof.
  unfold expect_ident. intros H. apply pok_inv in H. destruct H as (t & s1 & H1 & H2). apply get_lv in H1.
  destruct t; try discriminate. injection H2 as <- <-. exact H1.
Qed.
Lemma not_existsb id l : existsb (Z.eqb id) l = false -> ~ In id l.
Proof.
  intros H I. assert (existsb (Z.eqb id) l = true); [|congruence]. apply existsb_exists. exists id. split; [exact I|apply Z.eqb_refl].
Qed.
Lemma new_inv k id s u s' : new_param k id s = POk u s' -> ~ In id (skipn k (p_lv s)) /\ p_lv s' = p_lv s ++ [id].
Proof.
  unfold new_param. destruct (existsb _ _) eqn:Q; [discriminate|]. intros H. injection H as _ <-. split; [apply not_existsb; exact Q|reflexivity].
Qed.

Section Sound.
Variables (arg : pst -> pres node) (c : closing) (k : nat).
Hypothesis Harg : forall s n s', arg s = POk n s' -> exists x, p_lv s' = p_lv s ++ x.
(** [x]: the variables that the default assigns to *)
Definition grown (p : fparam) (s s' : pst) : Prop :=
  exists x, (x <> [] -> has_default p = true) /\
    match p with
    | QRestNone => p_lv s' = p_lv s
    | QDelegate => p_lv s' = p_lv s ++ [id_dots]
    | _ => exists id, named_by p = [id] /\ p_lv s' = p_lv s ++ x ++ [id] /\ ~ In id (skipn k (p_lv s ++ x))
    end.
Ltac peel H := apply pok_inv in H; let a := fresh "a" in let s1 := fresh "s" in let E := fresh "E" in destruct H as (a & s1 & E & H).
Lemma grown_new p id s s1 u s2 : named_by p = [id] -> p <> QDelegate -> p <> QRestNone -> p_lv s1 = p_lv s -> new_param k id s1 = POk u s2 -> grown p s s2.
Proof.
  intros N D1 D2 L H. apply new_inv in H. destruct H as [H1 H2]. rewrite L in *. exists []. split; [congruence|].
  destruct p; try discriminate; injection N as ->; exists id; rewrite app_nil_r; auto.
Qed.
Lemma grown_default p id s s1 x u s2 : named_by p = [id] -> has_default p = true ->
  p_lv s1 = p_lv s ++ x -> new_param k id s1 = POk u s2 -> grown p s s2.
Proof.
  intros N D L H. apply new_inv in H. destruct H as [H1 H2]. rewrite L in *. exists x. split; [auto|].
  destruct p; try discriminate; injection N as ->; exists id; rewrite app_assoc; auto.
Qed.
Lemma default_lv s d s' : key_default arg c s = POk d s' ->
  (d = None /\ p_lv s' = p_lv s) \/ (exists n x, d = Some n /\ p_lv s' = p_lv s ++ x).
Proof.
  unfold key_default. cbn zeta. intros H.
  assert (G : (if is_close c (peek_no_term (p_in s)) then POk None s else do n, s0 <- arg s;; POk (Some n) s0) = POk d s' ->
    (d = None /\ p_lv s' = p_lv s) \/ (exists n x, d = Some n /\ p_lv s' = p_lv s ++ x)).
  { destruct (is_close _ _).
    - intros Q. injection Q as <- <-. auto.
    - intros Q. peel Q. injection Q as <- <-. destruct (Harg _ _ _ E) as [x X]. right. eauto. }
  destruct (peek_no_term (p_in s)) as [| | | | | | | | | | |rr|pp]; try exact (G H); try (injection H as <- <-; auto; fail).
  destruct pp; try exact (G H). injection H as <- <-. auto.
Qed.
Lemma plain_sound id st s p st' stop s' : plain arg c k id st s = POk (p, st', stop) s' ->
  next st (ptree p) = Some (st', stop) /\ grown (ptree p) s s'.
Proof.
  unfold plain. intros H.
  assert (G : match st with
      | kReq => do u, s <- new_param k id s ;; POk (FReq id, kReq, false) s
      | kPost | kOpt | kRest => do u, s <- new_param k id s ;; POk (FPost id, kPost, false) s
      | _ => PErr
      end = POk (p, st', stop) s' -> next st (ptree p) = Some (st', stop) /\ grown (ptree p) s s').
  { destruct st; try discriminate; intros Q; peel Q; injection Q as <- <- <- <-; (split; [reflexivity|]);
    (eapply grown_new; [reflexivity|discriminate|discriminate|reflexivity|eassumption]). }
  destruct (peek_no_term (p_in s)) as [| | | | | | | | | | |rr|pp]; try exact (G H). destruct pp; try exact (G H). clear G.
  peel H. peel H. apply get_lv in E. apply default_lv in E0.
  assert (K : st <> kKwRest /\ (do u, s <- new_param k id s1 ;; POk (FKey id a0, kKey, false) s) = POk (p, st', stop) s')
    by (destruct st; try discriminate; (split; [discriminate|exact H])).
  destruct K as [K1 K2]. clear H. peel K2. injection K2 as <- <- <- <-.
  split; [destruct st; try reflexivity; congruence|]. destruct E0 as [[-> L]|(n & x & -> & L)].
  - eapply grown_new; [reflexivity|discriminate|discriminate| |eassumption]. congruence.
  - eapply grown_default; [reflexivity|reflexivity| |eassumption]. rewrite <- E. exact L.
Qed.
Lemma ident_sound st s p st' stop s' : ident_param arg c k st s = POk (p, st', stop) s' ->
  next st (ptree p) = Some (st', stop) /\ grown (ptree p) s s'.
Proof.
  unfold ident_param. intros H. peel H. apply ident_lv in E.
  assert (G : plain arg c k a st s0 = POk (p, st', stop) s' -> next st (ptree p) = Some (st', stop) /\ grown (ptree p) s s').
  { intros Q. apply plain_sound in Q. unfold grown in *. rewrite E in Q. exact Q. }
  destruct (peek (p_in s0)) as [| | | | | | | | | | |rr|pp]; try exact (G H). destruct pp; try exact (G H). clear G.
  peel H. peel H. apply get_lv in E0. destruct (Harg _ _ _ E1) as [x X]. rewrite E0, E in X.
  assert (K : (st = kReq \/ st = kOpt) /\ (do u, s <- new_param k a s2 ;; POk (FOpt a a1, kOpt, false) s) = POk (p, st', stop) s')
    by (destruct st; try discriminate; auto).
  destruct K as [K1 K2]. clear H. peel K2. injection K2 as <- <- <- <-.
  split; [destruct K1 as [-> | ->]; reflexivity|]. eapply grown_default; [reflexivity|reflexivity|exact X|eassumption].
Qed.
Lemma one_sound st s p st' stop s' : one_param arg c k st s = POk (p, st', stop) s' ->
  next st (ptree p) = Some (st', stop) /\ grown (ptree p) s s'.
Proof.
  unfold one_param. intros H.
  destruct (peek (p_in s)) as [| | | | | | | | | | |rr|pp]; try (apply ident_sound; exact H).
  destruct pp; try (apply ident_sound; exact H).
  - peel H. apply get_lv in E. destruct st; try discriminate. peel H. injection H as <- <- <- <-. split; [reflexivity|].
    apply new_inv in E0. destruct E0 as [_ E0]. exists []. split; [congruence|]. cbn. congruence.
  - peel H. apply get_lv in E. destruct (from_rest st) eqn:Q; [discriminate|].
    assert (G : POk (FRestNone, kRest, false) s0 = POk (p, st', stop) s' -> next st (ptree p) = Some (st', stop) /\ grown (ptree p) s s').
    { intros K. injection K as <- <- <- <-. split; [destruct st; try discriminate; reflexivity|]. exists []. split; [congruence|exact E]. }
    destruct (peek (p_in s0)); try exact (G H). clear G.
    peel H. peel H. apply ident_lv in E0. injection H as <- <- <- <-. split; [destruct st; try discriminate; reflexivity|].
    eapply grown_new; [reflexivity|discriminate|discriminate| |eassumption]; rewrite E0; exact E.
  - peel H. apply get_lv in E. peel H. apply ident_lv in E0.
    assert (K : st <> kKwRest /\ (do u, s <- new_param k a0 s1 ;; POk (FKwRest a0, kKwRest, false) s) = POk (p, st', stop) s')
      by (destruct st; try discriminate; (split; [discriminate|exact H])).
    destruct K as [K1 K2]. clear H. peel K2. injection K2 as <- <- <- <-.
    split; [destruct st; try reflexivity; congruence|].
    eapply grown_new; [reflexivity|discriminate|discriminate| |eassumption]; rewrite E0; exact E.
  - peel H. apply get_lv in E. peel H. apply ident_lv in E0. peel H. injection H as <- <- <- <-. split; [reflexivity|].
    eapply grown_new; [reflexivity|discriminate|discriminate| |eassumption]; rewrite E0; exact E.
Qed.

(** the variables declared for a list of parameters *)
Definition slot (p : fparam) : list Z := match p with QDelegate => [id_dots] | _ => named_by p end.
Inductive declares : list Z -> list fparam -> list Z -> Prop :=
| D_nil own : declares own [] own
| D_cons own p x ps own' : (x <> [] -> has_default p = true) ->
    (forall id, In id (named_by p) -> ~ In id (own ++ x)) ->
    declares (own ++ x ++ slot p) ps own' -> declares own (p :: ps) own'.
Lemma grown_own p s s' : (k <= length (p_lv s))%nat -> grown p s s' -> (k <= length (p_lv s'))%nat /\
  firstn k (p_lv s') = firstn k (p_lv s) /\
  exists x, (x <> [] -> has_default p = true) /\ (forall id, In id (named_by p) -> ~ In id (skipn k (p_lv s) ++ x)) /\
    skipn k (p_lv s') = skipn k (p_lv s) ++ x ++ slot p.
Proof.
  intros L (x & D & H).
  assert (Z1 : forall y, (k <= length (p_lv s ++ y))%nat) by (intros; rewrite app_length; lia).
  assert (Z2 : forall y, firstn k (p_lv s ++ y) = firstn k (p_lv s)).
  { intros y. rewrite firstn_app. replace (k - length (p_lv s))%nat with O by lia. cbn. apply app_nil_r. }
  assert (Z3 : forall y, skipn k (p_lv s ++ y) = skipn k (p_lv s) ++ y).
  { intros y. rewrite skipn_app. replace (k - length (p_lv s))%nat with O by lia. reflexivity. }
  assert (G : forall id, named_by p = [id] -> slot p = [id] -> p_lv s' = p_lv s ++ x ++ [id] -> ~ In id (skipn k (p_lv s ++ x)) ->
    (k <= length (p_lv s'))%nat /\ firstn k (p_lv s') = firstn k (p_lv s) /\
    exists x, (x <> [] -> has_default p = true) /\ (forall id, In id (named_by p) -> ~ In id (skipn k (p_lv s) ++ x)) /\
      skipn k (p_lv s') = skipn k (p_lv s) ++ x ++ slot p).
  { intros id N N2 H1 H2. rewrite H1, Z2. split; [apply Z1|]. split; [reflexivity|]. exists x. split; [exact D|].
    rewrite Z3 in *. rewrite N, N2. split; [|reflexivity]. intros i [<-|[]]. exact H2. }
  destruct p; cbn [slot named_by] in *; try (destruct H as (i & N & H1 & H2); apply (G i); auto; fail).
  - rewrite H. repeat split; auto. exists []. split; [congruence|]. split; [intros ? []|]. rewrite app_nil_r. reflexivity.
  - rewrite H, Z2. split; [apply Z1|]. split; [reflexivity|]. exists []. split; [congruence|]. split; [intros ? []|]. rewrite Z3. reflexivity.
Qed.
Lemma loop_sound n st acc s l s' : (k <= length (p_lv s))%nat -> params_loop arg c k n st acc s = POk l s' ->
  exists ps, l = acc ++ ps /\ ps <> [] /\ walk st (map ptree ps) /\ firstn k (p_lv s') = firstn k (p_lv s) /\
    declares (skipn k (p_lv s)) (map ptree ps) (skipn k (p_lv s')).
Proof.
  revert st acc s. induction n as [|n IH]; intros st acc s L H; [discriminate|]. cbn [params_loop] in H. peel H.
  destruct a as [[p st'] stop]. apply one_sound in E. destruct E as [E1 E2].
  destruct (grown_own _ _ _ L E2) as (L' & F & x & X1 & X2 & X3).
  assert (G : POk (acc ++ [p]) s0 = POk l s' -> exists ps, l = acc ++ ps /\ ps <> [] /\ walk st (map ptree ps) /\ firstn k (p_lv s') = firstn k (p_lv s) /\
    declares (skipn k (p_lv s)) (map ptree ps) (skipn k (p_lv s'))).
  { intros Q. injection Q as <- <-. exists [p]. split; [reflexivity|]. split; [discriminate|]. cbn [map walk]. rewrite E1. split; [destruct stop; [reflexivity|exact I]|].
    split; [exact F|]. econstructor; [exact X1|exact X2|]. rewrite X3. constructor. }
  destruct stop; [exact (G H)|].
  destruct (peek_no_term (p_in s0)) as [| | | | | | | | | | |rr|pp]; try exact (G H). destruct pp; try exact (G H). clear G.
  peel H. apply get_lv in E. apply IH in H; [|rewrite E; exact L']. destruct H as (ps & -> & _ & W & F2 & D). rewrite E in *.
  exists (p :: ps). rewrite <- app_assoc. split; [reflexivity|]. split; [discriminate|]. cbn [map walk]. rewrite E1. split; [exact W|].
  split; [congruence|]. econstructor; [exact X1|exact X2|]. rewrite <- X3. exact D.
Qed.
Lemma close_lv s u s' : expect_close c s = POk u s' -> p_lv s' = p_lv s.
Proof.
  unfold expect_close. intros H. destruct c; [..|injection H as _ <-; reflexivity]; peel H; apply get_lv in E;
  destruct (is_close _ _); try discriminate; injection H as _ <-; exact E.
Qed.
Lemma formal_sound n s l s' : (k <= length (p_lv s))%nat -> formal_params arg c k n s = POk l s' ->
  ordered (map ptree l) /\ firstn k (p_lv s') = firstn k (p_lv s) /\ declares (skipn k (p_lv s)) (map ptree l) (skipn k (p_lv s')).
Proof.
  intros L H. unfold formal_params in H. destruct (is_close _ _).
  - peel H. apply get_lv in E. injection H as <- <-. rewrite E. split; [apply walk_ordered; exact I|]. split; [reflexivity|constructor].
  - peel H. peel H. injection H as <- <-. apply close_lv in E0. apply loop_sound in E; [|exact L].
    destruct E as (ps & -> & _ & W & F & D). rewrite E0. split; [apply walk_ordered; exact W|]. auto.
Qed.
End Sound.

(** * Consequences *)
Lemma declares_names own ps own' : declares own ps own' ->
  (forall i, In i own -> In i own') /\ (forall i, In i (names ps) -> In i own' /\ ~ In i own) /\ NoDup (names ps).
Proof.
  induction 1 as [|own p x ps own' X1 X2 D (A & B & C)]; [split; [auto|]; split; [intros i []|constructor]|].
  assert (S : forall i, In i (named_by p) -> In i (own ++ x ++ slot p)).
  { intros i Q. apply in_or_app. right. apply in_or_app. right. destruct p; auto. destruct Q. }
  split; [intros i Q; apply A; apply in_or_app; auto|]. cbn [names flat_map]. split.
  - intros i Q. apply in_app_or in Q. destruct Q as [Q|Q].
    + split; [apply A, S, Q|]. intros O. apply (X2 i Q). apply in_or_app. auto.
    + destruct (B i Q) as [B1 B2]. split; [exact B1|]. intros O. apply B2. apply in_or_app. auto.
  - fold (names ps). assert (N : forall i, In i (named_by p) -> ~ In i (names ps)).
    { intros i Q Q2. destruct (B i Q2) as [_ B2]. apply B2, S, Q. }
    destruct p; cbn [named_by app] in *; try exact C; (constructor; [apply N; left; reflexivity|exact C]).
Qed.
Lemma declares_slots own ps own' : declares own ps own' -> Forall (fun p => has_default p = false) ps ->
  own' = own ++ flat_map slot ps.
Proof.
  induction 1 as [|own p x ps own' X1 X2 D IH]; intros F; [cbn; rewrite app_nil_r; reflexivity|].
  inversion F as [|? ? F1 F2]; subst. assert (x = []) as -> by (destruct x; [reflexivity|]; rewrite X1 in F1; discriminate).
  rewrite IH by exact F2. cbn. rewrite <- app_assoc. reflexivity.
Qed.
