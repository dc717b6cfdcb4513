From Verif Require Import Base ModelString ModelRegexp SpecRegexp ProofsRegexp.
From Coq Require Import Lia.
Open Scope nat_scope.

(** ** split *)
Lemma groups_ok s lim gs : (lim <= 0)%Z -> ~ In None gs ->
  (forall x y, In (Some (x, y)) gs -> x <= y /\ at_char s x /\ at_char s y) ->
  forall count acc, (0 <= count)%Z ->
  exists count', (0 <= count')%Z /\
  split_groups s lim count gs acc =
    Ok (acc ++ map (fun g => match group_text s g with Some t => t | None => [] end) gs, count', None).
Proof.
  intros LIM. induction gs as [|g gs IH]; intros N G count acc C; cbn [split_groups map].
  - exists count. rewrite app_nil_r. auto.
  - destruct g as [[x y]|]; [|destruct N; left; reflexivity].
    replace (count + 1 =? lim)%Z with false by (symmetry; apply Z.eqb_neq; lia).
    destruct (G x y (or_introl eq_refl)) as (L & A & B).
    unfold as_str. cbn [fst snd]. rewrite slice_ok by assumption. cbn [rbind].
    destruct (IH ltac:(intros I; apply N; right; assumption) ltac:(intros; apply G; right; assumption)
                 (count + 1)%Z (acc ++ [part s x y]) ltac:(lia)) as (c' & C' & ->).
    exists c'. split; [assumption|]. rewrite <- app_assoc. reflexivity.
Qed.
Lemma loop_ok s lim : (lim <= 0)%Z -> forall ms i, at_char s i -> follow s i ms -> Forall took_part ms ->
  forall count acc, (0 <= count)%Z ->
  exists acc' cur, at_char s cur /\ split_loop s lim count i ms acc = Ok (acc', cur) /\
    acc' ++ [part s cur (length s)] = acc ++ fields s i ms.
Proof.
  intros LIM. induction ms as [|c ms IH]; intros i A F T count acc C; cbn [split_loop fields].
  - exists acc, i. auto.
  - destruct F as (a & b & gs & -> & L & M & F). inversion T as [|? ? T1 T2]; subst.
    destruct M as (b' & gs' & E & L1 & A1 & B1 & G). injection E as <- <-.
    unfold whole, get; cbn [nth_error rbind fst snd].
    replace (count + 1 =? lim)%Z with false by (symmetry; apply Z.eqb_neq; lia).
    rewrite slice_ok by assumption. cbn [rbind tl].
    destruct (groups_ok s lim gs LIM ltac:(intros I; apply T1; right; assumption) G (count + 1)%Z (acc ++ [part s i a]) ltac:(lia)) as (c' & C' & ->).
    cbn [rbind].
    destruct (IH b B1 F T2 c' ((acc ++ [part s i a]) ++ map (fun g => match group_text s g with Some t => t | None => [] end) gs) C')
      as (acc' & cur & AC & -> & E).
    exists acc', cur. split; [assumption|]. split; [reflexivity|]. rewrite E. rewrite <- !app_assoc. reflexivity.
Qed.
Lemma loop_lim s lim : forall ms i, at_char s i -> follow s i ms -> Forall (fun c => length c = 1) ms ->
  forall count acc, (0 <= count < lim)%Z ->
  exists acc' cur, at_char s cur /\ split_loop s lim count i ms acc = Ok (acc', cur) /\
    acc' ++ [part s cur (length s)] = acc ++ fields s i (firstn (Z.to_nat (lim - 1 - count)) ms).
Proof.
  induction ms as [|c ms IH]; intros i A F T count acc C; cbn [split_loop].
  - exists acc, i. rewrite firstn_nil. auto.
  - destruct F as (a & b & gs & -> & L & M & F). inversion T as [|? ? T1 T2]; subst.
    destruct gs; [|discriminate T1].
    destruct M as (b' & gs' & E & L1 & A1 & B1 & G). injection E as <- <-.
    unfold whole, get; cbn [nth_error rbind fst snd].
    destruct (count + 1 =? lim)%Z eqn:CL.
    + apply Z.eqb_eq in CL. exists acc, i. split; [assumption|]. split; [reflexivity|].
      replace (lim - 1 - count)%Z with 0%Z by lia. reflexivity.
    + apply Z.eqb_neq in CL. rewrite slice_ok by assumption. cbn [rbind tl split_groups].
      destruct (IH b B1 F T2 (count + 1)%Z (acc ++ [part s i a]) ltac:(lia)) as (acc' & cur & AC & -> & E).
      exists acc', cur. split; [assumption|]. split; [reflexivity|]. rewrite E.
      replace (Z.to_nat (lim - 1 - count)) with (S (Z.to_nat (lim - 1 - (count + 1)))) by lia.
      cbn [firstn fields map app]. rewrite <- app_assoc. reflexivity.
Qed.
Lemma pop_ok l : exists k, l = repeat [] k ++ pop_empty l /\ match pop_empty l with [] => True | x :: _ => x <> [] end.
Proof.
  induction l as [|x l (k & E & H)]; cbn.
  - exists 0. split; [reflexivity|exact I].
  - destruct x as [|y x].
    + exists (S k). cbn. rewrite <- E. auto.
    + exists 0. split; [reflexivity|discriminate].
Qed.
Lemma rev_repeat {A} (x : A) k : rev (repeat x k) = repeat x k.
Proof.
  induction k as [|k IH]; [reflexivity|]. cbn. rewrite IH. clear IH.
  induction k as [|k IH]; [reflexivity|]. cbn. rewrite IH. reflexivity.
Qed.
Lemma trim_ok v : trimmed v (rev (pop_empty (rev v))).
Proof.
  destruct (pop_ok (rev v)) as (k & E & H). split.
  - exists k. apply (f_equal (@rev _)) in E. rewrite rev_involutive, rev_app_distr, rev_repeat in E. exact E.
  - destruct (pop_empty (rev v)) as [|x l]; [left; reflexivity|right]. cbn. rewrite last_last. assumption.
Qed.
Lemma split_tail s acc cur lim v : at_char s cur -> acc ++ [part s cur (length s)] = v ->
  (v <- (if cur <=? length s then y <- slice s cur (length s) ;; Ok (acc ++ [y]) else Ok acc) ;;
   Ok (if (lim =? 0)%Z then rev (pop_empty (rev v)) else v)) =
  Ok (if (lim =? 0)%Z then rev (pop_empty (rev v)) else v).
Proof.
  intros A E. destruct A as [L A].
  replace (cur <=? length s) with true by (symmetry; apply Nat.leb_le; assumption).
  rewrite slice_ok; [|assumption|split; assumption|apply at_end]. cbn [rbind]. rewrite E. reflexivity.
Qed.

(** ** positions counted in characters *)
Lemma chars_step s i b : nth_error s i = Some b ->
  chars_before s (S i) = chars_before s i + (if (128 <=? b)%Z && (b <? 192)%Z then 0 else 1).
Proof.
  intros E. unfold chars_before.
  assert (firstn (S i) s = firstn i s ++ [b]) as ->.
  { revert i E; induction s as [|c s IH]; intros [|i] E; try discriminate; cbn in *.
    - injection E as ->. reflexivity.
    - rewrite <- IH by assumption. reflexivity. }
  rewrite filter_app, app_length. cbn. destruct ((128 <=? b)%Z && (b <? 192)%Z); cbn; lia.
Qed.
Lemma skip_more (s : text) i b r : skipn i s = b :: r -> skipn (S i) s = r.
Proof.
  revert i; induction s as [|c s IH]; intros [|i] E; try discriminate.
  - injection E as _ <-. reflexivity.
  - cbn in E. cbn [skipn]. destruct s as [|d s]; [destruct i; discriminate|]. apply IH. exact E.
Qed.
Lemma nth_char_ok s : forall r i pos, skipn i s = r -> i <= length s ->
  match nth_char r i pos with
  | Some k => at_char s k /\ i <= k < length s /\ chars_before s k = chars_before s i + pos
  | None => chars_before s (length s) <= chars_before s i + pos
  end.
Proof.
  induction r as [|b r IH]; intros i pos E L; cbn [nth_char].
  - assert (i = length s) by (apply (f_equal (@length _)) in E; rewrite skipn_length in E; cbn in E; lia). subst. lia.
  - assert (N : nth_error s i = Some b).
    { rewrite <- (firstn_skipn i s). rewrite nth_error_app2 by (rewrite firstn_length; lia).
      rewrite firstn_length, Nat.min_l, Nat.sub_diag, E by lia. reflexivity. }
    assert (LT : i < length s) by (apply nth_error_Some; congruence).
    assert (E' : skipn (S i) s = r).
    { apply (skip_more s i b r E). }
    pose proof (chars_step s i b N) as CS.
    unfold cont. destruct ((128 <=? b)%Z && (b <? 192)%Z) eqn:CB.
    + replace ((0x80 <=? b)%Z && (b <? 0xc0)%Z) with true by (symmetry; exact CB).
      specialize (IH (S i) pos E' LT). destruct (nth_char r (S i) pos) as [k|].
      * destruct IH as (A & B & C). split; [assumption|]. split; lia.
      * lia.
    + replace ((0x80 <=? b)%Z && (b <? 0xc0)%Z) with false by (symmetry; exact CB).
      destruct pos as [|pos].
      * split; [|split; lia]. split; [lia|]. intros b' E1. rewrite N in E1. injection E1 as <-. lia.
      * specialize (IH (S i) pos E' LT). destruct (nth_char r (S i) pos) as [k|].
        -- destruct IH as (A & B & C). split; [assumption|]. split; lia.
        -- lia.
Qed.
Lemma ascii_before s a : a <= length s -> (forall j b, j < a -> nth_error s j = Some b -> (b < 128)%Z) -> chars_before s a = a.
Proof.
  induction a as [|a IH]; intros L H; [reflexivity|].
  destruct (nth_error s a) as [b|] eqn:N; [|apply nth_error_None in N; lia].
  rewrite (chars_step _ _ _ N), IH; [|lia|intros j b' J; apply H; lia].
  pose proof (H a b ltac:(lia) N). replace ((128 <=? b)%Z && (b <? 192)%Z) with false; lia.
Qed.
Lemma each_all s a c : match_at s a c -> took_part c ->
  exists l, each (fun m => match m with Some m => as_str s m | None => Panic end) c = Ok l /\
    map Some l = map (group_text s) c.
Proof.
  intros (b & gs & -> & L & A & B & G) T.
  assert (G' : forall x y, In (Some (x, y)) (Some (a, b) :: gs) -> x <= y /\ at_char s x /\ at_char s y).
  { intros x y [E|I]; [injection E as <- <-; auto|apply G; assumption]. }
  revert G' T. generalize (Some (a, b) :: gs). clear. intros l G T.
  induction l as [|g l IH]; [exists []; auto|].
  destruct IH as (r & E & M); [intros; apply G; right; assumption|intros I; apply T; right; assumption|].
  destruct g as [[x y]|]; [|destruct T; left; reflexivity].
  exists (part s x y :: r). destruct (G x y (or_introl eq_refl)) as (L & A & B).
  cbn [each]. unfold as_str at 1. cbn [fst snd]. rewrite slice_ok by assumption. cbn [rbind]. rewrite E. cbn. rewrite M. auto.
Qed.

(** an engine for any pattern *)
Fixpoint first_from (here : nat -> option caps) (i n : nat) : option caps :=
  match n with
  | O => None
  | S n => match here i with Some c => Some c | None => first_from here (S i) n end
  end.
Definition engine_of (here : nat -> option caps) : text -> nat -> res (option caps) :=
  fun s i => Ok (first_from here i (S (length s) - i)).
Lemma first_ok here : forall n i, (forall j, i + n <= j -> here j = None) -> found here i (first_from here i n).
Proof.
  induction n as [|n IH]; intros i H; cbn.
  - constructor. intros j J. apply H. lia.
  - destruct (here i) as [c|] eqn:E.
    + apply (found_some here i i); [lia|assumption|intros; lia].
    + specialize (IH (S i) ltac:(intros j J; apply H; lia)).
      destruct (first_from here (S i) n) as [c|]; inversion IH; subst.
      * apply (found_some here i a); [lia|assumption|]. intros j J. destruct (Nat.eq_dec j i) as [->|]; [assumption|].
        match goal with H : forall j, S i <= j < a -> _ |- _ => apply H end. lia.
      * constructor. intros j J. destruct (Nat.eq_dec j i) as [->|]; [assumption|].
        match goal with H : forall j, S i <= j -> _ |- _ => apply H end. lia.
Qed.
Lemma engine_of_ok s here : pattern s here -> engine s here (engine_of here).
Proof.
  intros P i [L _]. eexists. split; [reflexivity|]. apply first_ok. intros j J.
  destruct (here j) as [c|] eqn:E; [|reflexivity]. destruct (P _ _ E) as (b & gs & _ & _ & [A _] & _). lia.
Qed.
(** the pattern given by a finite list of matches *)
Definition listed (l : list caps) (a : nat) : option caps :=
  find (fun c => match c with Some (x, _) :: _ => x =? a | _ => false end) l.
Definition okc (s : text) (c : caps) : bool :=
  match c with
  | Some (a, b) :: gs =>
      (a <=? b) && is_boundary s a && is_boundary s b &&
      forallb (fun g => match g with Some (x, y) => (x <=? y) && is_boundary s x && is_boundary s y | None => true end) gs
  | _ => false
  end.
Lemma listed_pattern s l : forallb (okc s) l = true -> pattern s (listed l).
Proof.
  intros F a c E. apply find_some in E. destruct E as (I & E).
  rewrite forallb_forall in F. specialize (F c I).
  destruct c as [|[[x b]|] gs]; try discriminate. apply Nat.eqb_eq in E. subst x.
  cbn [okc] in F. rewrite !andb_true_iff in F. destruct F as (((L & A) & B) & G).
  exists b, gs. split; [reflexivity|]. split; [apply Nat.leb_le; assumption|].
  split; [apply boundary_at; assumption|]. split; [apply boundary_at; assumption|].
  intros x y J. rewrite forallb_forall in G. specialize (G _ J). cbn in G. rewrite !andb_true_iff in G.
  destruct G as ((G1 & G2) & G3). split; [apply Nat.leb_le; assumption|]. split; apply boundary_at; assumption.
Qed.
