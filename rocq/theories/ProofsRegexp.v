From Verif Require Import Base ModelString ModelRegexp SpecRegexp.
From Coq Require Import Lia.
Open Scope nat_scope.

Lemma boundary_at s i : is_boundary s i = true <-> at_char s i.
Proof.
  unfold is_boundary, at_char, cont. destruct (nth_error s i) as [b|] eqn:N.
  - assert (i < length s) by (apply nth_error_Some; congruence).
    split; intros H1.
    + split; [lia|]. intros b' E. injection E as <-. rewrite negb_true_iff in H1. lia.
    + destruct H1 as [_ H1]. specialize (H1 b eq_refl). apply negb_true_iff. lia.
  - rewrite nth_error_None in N. rewrite Nat.eqb_eq. split; intros H1.
    + split; [lia|discriminate].
    + destruct H1. lia.
Qed.
Lemma slice_ok s a b : a <= b -> at_char s a -> at_char s b -> slice s a b = Ok (part s a b).
Proof.
  intros L A B. unfold slice. apply boundary_at in A as A'. apply boundary_at in B as B'.
  rewrite A', B'. destruct B as [B _].
  replace (a <=? b) with true by (symmetry; apply Nat.leb_le; lia).
  replace (b <=? length s) with true by (symmetry; apply Nat.leb_le; lia). reflexivity.
Qed.
Lemma range_ok s a b w : a <= b -> at_char s a -> at_char s b ->
  replace_range s a b w = Ok (firstn a s ++ w ++ skipn b s).
Proof.
  intros L A B. unfold replace_range. apply boundary_at in A as A'. apply boundary_at in B as B'.
  rewrite A', B'. destruct B as [B _].
  replace (a <=? b) with true by (symmetry; apply Nat.leb_le; lia).
  replace (b <=? length s) with true by (symmetry; apply Nat.leb_le; lia). reflexivity.
Qed.
Lemma at_end s : at_char s (length s).
Proof. split; [lia|]. intros b E. assert (nth_error s (length s) = None) by (apply nth_error_None; lia). congruence. Qed.
Lemma part_all s i : part s i (length s) = skipn i s.
Proof. unfold part. apply firstn_all2. rewrite skipn_length. lia. Qed.

(** the parts of a good match *)
Lemma match_whole s a c : match_at s a c -> exists b gs, c = Some (a, b) :: gs /\ whole c = Ok (a, b).
Proof. intros (b & gs & -> & _). exists b, gs. split; reflexivity. Qed.
Lemma each_groups s gs :
  (forall x y, In (Some (x, y)) gs -> x <= y /\ at_char s x /\ at_char s y) ->
  each (opt_str s) gs = Ok (map (group_text s) gs).
Proof.
  induction gs as [|g gs IH]; intros H; [reflexivity|].
  cbn [each map]. rewrite IH by (intros; apply H; right; assumption).
  destruct g as [[x y]|]; cbn; [|reflexivity].
  destruct (H x y (or_introl eq_refl)) as (L & A & B).
  unfold as_str. cbn. rewrite slice_ok by assumption. reflexivity.
Qed.
Lemma captures_ok s a c : match_at s a c -> get_captures c s = Ok (remembered s c).
Proof.
  intros (b & gs & -> & L & A & B & G). unfold get_captures. cbn [get nth_error].
  unfold get; cbn [nth_error].
  rewrite slice_ok by assumption. cbn [rbind].
  rewrite slice_ok by (try assumption; try apply at_end; destruct B; lia). cbn [rbind tl].
  rewrite each_groups by assumption. reflexivity.
Qed.
Lemma str_ok s a c : match_at s a c -> exists b gs, c = Some (a, b) :: gs /\ as_str s (a, b) = Ok (matched s c).
Proof.
  intros (b & gs & -> & L & A & B & G). exists b, gs. split; [reflexivity|].
  unfold as_str. cbn. apply slice_ok; assumption.
Qed.

(** the list of matches exists and is unique *)
Lemma found_det here i o1 o2 : found here i o1 -> found here i o2 -> o1 = o2.
Proof.
  intros [a c L H N|N] [a' c' L' H' N'|N'].
  - destruct (Nat.lt_trichotomy a a') as [E|[E|E]].
    + rewrite N' in H by lia. discriminate.
    + subst. congruence.
    + rewrite N in H' by lia. discriminate.
  - rewrite N' in H by lia. discriminate.
  - rewrite N in H' by lia. discriminate.
  - reflexivity.
Qed.
Lemma found_at s here i c : pattern s here -> found here i (Some c) ->
  exists a b gs, c = Some (a, b) :: gs /\ i <= a <= b /\ b <= length s /\ here a = Some c /\ match_at s a c.
Proof.
  intros P F. inversion F as [a c' L H N E|]; subst. pose proof (P _ _ H) as M.
  destruct M as (b & gs & -> & L1 & A & B & G). exists a, b, gs.
  split; [reflexivity|]. split; [lia|]. split; [destruct B; lia|]. split; [assumption|]. exact (P _ _ H).
Qed.
Lemma next_det s a b b' : next s a b -> next s a b' -> b = b'.
Proof.
  intros (L & A & N) (L' & A' & N'). destruct (Nat.lt_trichotomy b b') as [E|[E|E]]; [|assumption|].
  - destruct (N' b ltac:(lia) A).
  - destruct (N b' ltac:(lia) A').
Qed.
Lemma at_char_dec s i : {at_char s i} + {~ at_char s i}.
Proof.
  destruct (is_boundary s i) eqn:B; [left|right].
  - apply boundary_at. assumption.
  - intros H. apply boundary_at in H. congruence.
Qed.
Lemma next_exists s a : a < length s -> exists b, next s a b.
Proof.
  intros L.
  assert (G : forall k, (exists b, next s a b) \/ (forall j, a < j < a + 1 + k -> ~ at_char s j)).
  { induction k as [|k [IH|IH]]; [right; intros; lia|left; assumption|].
    destruct (at_char_dec s (a + 1 + k)) as [Y|Y].
    - left. exists (a + 1 + k). split; [lia|]. split; [assumption|]. exact IH.
    - right. intros j J. destruct (Nat.eq_dec j (a + 1 + k)) as [->|]; [assumption|]. apply IH. lia. }
  destruct (G (length s)) as [H|H]; [assumption|]. destruct (H (length s) ltac:(lia) (at_end s)).
Qed.
Lemma matches_det s here : pattern s here -> forall i ms, matches s here i ms -> forall ms', matches s here i ms' -> ms = ms'.
Proof.
  intros P i ms M. induction M as [i F|i a b gs ms F L M IH|i a b gs ms F N M IH|i gs F]; intros ms' M';
    inversion M' as [i' F'|i' a' b' gs' ms1 F' L' M1|i' a' b' gs' ms1 F' N' M1|i' gs' F']; subst;
    pose proof (found_det _ _ _ _ F F') as E; try discriminate E; try reflexivity;
    injection E; intros; subst; try lia.
  - f_equal. apply IH. assumption.
  - f_equal. apply IH. rewrite (next_det _ _ _ _ N N'). assumption.
  - destruct N as (? & [? _] & _). lia.
  - destruct N' as (? & [? _] & _). lia.
  - reflexivity.
Qed.
Lemma matches_exist s here cap : pattern s here -> engine s here cap ->
  forall i, at_char s i -> exists ms, matches s here i ms.
Proof.
  intros P EN i. remember (length s - i) as n. revert i Heqn.
  induction n as [n IH] using lt_wf_ind. intros i -> A.
  destruct (EN i A) as (o & _ & F). destruct o as [c|]; [|exists []; constructor; assumption].
  destruct (found_at _ _ _ _ P F) as (a & b & gs & -> & L & LB & H & M).
  destruct M as (b' & gs' & E & L' & A' & B' & G). injection E as <- <-.
  destruct (Nat.eq_dec a b) as [->|NE].
  - destruct (Nat.eq_dec b (length s)) as [->|NE].
    + eexists. apply ms_end. exact F.
    + destruct (next_exists s b ltac:(lia)) as (d & N). destruct N as (N1 & N2 & N3).
      destruct (IH (length s - d) ltac:(destruct N2; lia) d eq_refl N2) as (ms & MS).
      eexists. eapply ms_empty; [exact F| |exact MS]. split; [assumption|split; assumption].
  - destruct (IH (length s - b) ltac:(lia) b eq_refl B') as (ms & MS).
    eexists. eapply ms_some; [exact F|lia|exact MS].
Qed.

Lemma matches_follow s here : pattern s here -> forall i ms, matches s here i ms -> follow s i ms.
Proof.
  intros P i ms M. induction M as [i F|i a b gs ms F L M IH|i a b gs ms F N M IH|i gs F]; cbn; [trivial| | |];
    destruct (found_at _ _ _ _ P F) as (a' & b' & gs' & E & L' & LB & H & MA); injection E as <- <- <-.
  - exists a, b, gs. repeat split; try reflexivity; try lia; assumption.
  - exists a, a, gs. split; [reflexivity|]. split; [lia|]. split; [assumption|].
    destruct N as (N & _). destruct ms as [|c ms]; [exact I|].
    destruct IH as (a1 & b1 & gs1 & -> & L1 & M1 & F1). exists a1, b1, gs1. repeat split; try reflexivity; try lia; assumption.
  - exists (length s), (length s), gs. repeat split; try reflexivity; try lia; assumption.
Qed.

(** replacing from the last match back *)
Lemma back_app s l1 l2 : replace_back s (l1 ++ l2) = (t <- replace_back s l1 ;; replace_back t l2).
Proof.
  revert s; induction l1 as [|[[a b] w] l1 IH]; intros s; [reflexivity|].
  cbn. destruct (replace_range s a b w); cbn; auto.
Qed.
Fixpoint spans (ms : list caps) (ws : list text) : list (nat * nat * text) :=
  match ms, ws with
  | (Some m :: _) :: ms, w :: ws => (m, w) :: spans ms ws
  | _, _ => []
  end.
Lemma at_zero_app x y : at_char x 0 -> at_char y 0 -> at_char (x ++ y) 0.
Proof.
  intros [_ X] [_ Y]. split; [lia|]. intros b. destruct x as [|c x]; cbn.
  - apply Y.
  - apply X.
Qed.
Lemma at_part s a b : at_char s a -> at_char (part s a b) 0.
Proof.
  intros [L A]. split; [lia|]. intros c E. apply A. unfold part in E.
  destruct (b - a) as [|n]; [discriminate|].
  rewrite <- (firstn_skipn a s) at 1. rewrite nth_error_app2 by (rewrite firstn_length; lia).
  rewrite firstn_length, Nat.min_l, Nat.sub_diag by lia.
  destruct (skipn a s); [discriminate|exact E].
Qed.
Lemma at_pieces s : forall ms i ws, at_char s i -> follow s i ms -> Forall (fun w => at_char w 0) ws -> at_char (pieces s i ms ws) 0.
Proof.
  induction ms as [|c ms IH]; intros i ws A F W; cbn.
  - apply at_part. assumption.
  - destruct F as (a & b & gs & -> & L & M & F). destruct ws as [|w ws]; [apply at_part; assumption|].
    apply at_zero_app; [apply at_part; assumption|]. inversion W; subst.
    apply at_zero_app; [assumption|]. apply IH; try assumption.
    destruct M as (b' & gs' & E & M). injection E as <- <-. tauto.
Qed.
Lemma at_join s b p : at_char s b -> at_char p 0 -> forall i, i <= b -> at_char s i -> at_char (firstn b s ++ p) i.
Proof.
  intros [LB B] [_ P] i L [LI A]. split.
  - rewrite app_length, firstn_length. lia.
  - intros c E. destruct (Nat.eq_dec i b) as [->|NE].
    + rewrite nth_error_app2 in E by (rewrite firstn_length; lia).
      rewrite firstn_length, Nat.min_l, Nat.sub_diag in E by lia. apply P. assumption.
    + rewrite nth_error_app1 in E by (rewrite firstn_length; lia).
      apply A. rewrite <- (firstn_skipn b s). rewrite nth_error_app1 by (rewrite firstn_length; lia). assumption.
Qed.
Lemma firstn_part (s : text) i a : i <= a -> a <= length s -> firstn i s ++ part s i a = firstn a s.
Proof.
  intros L LA. unfold part. rewrite <- (firstn_skipn i s) at 3.
  rewrite firstn_app, firstn_firstn, firstn_length.
  rewrite (Nat.min_r a i), (Nat.min_l i (length s)) by lia. reflexivity.
Qed.
Lemma back_pieces s : forall ms i ws, at_char s i -> follow s i ms -> length ws = length ms ->
  Forall (fun w => at_char w 0) ws ->
  replace_back s (rev (spans ms ws)) = Ok (firstn i s ++ pieces s i ms ws).
Proof.
  induction ms as [|c ms IH]; intros i ws A F LW W; cbn.
  - rewrite part_all, firstn_skipn. reflexivity.
  - destruct F as (a & b & gs & -> & L & M & F). destruct ws as [|w ws]; [discriminate|]. cbn.
    inversion W; subst. injection LW as LW.
    destruct M as (b' & gs' & E & L' & A' & B & G). injection E as <- <-.
    rewrite back_app, (IH b ws) by assumption. cbn [rbind replace_back].
    assert (P : at_char (pieces s b ms ws) 0) by (apply at_pieces; assumption).
    rewrite range_ok; [|lia|apply at_join; assumption|apply at_join; try assumption; lia].
    cbn [rbind]. f_equal. destruct B as [B _]. destruct A' as [A' _].
    rewrite firstn_app, firstn_firstn, firstn_length.
    rewrite (Nat.min_l a b), (Nat.min_l b (length s)) by lia.
    replace (a - b) with 0 by lia. cbn [firstn]. rewrite app_nil_r.
    rewrite skipn_app, firstn_length, (Nat.min_l b (length s)), Nat.sub_diag by lia.
    rewrite (skipn_all2 (firstn b s)) by (rewrite firstn_length; lia). cbn [skipn app].
    rewrite <- (firstn_part s i a) by lia. rewrite <- app_assoc. reflexivity.
Qed.

(** ** the loops *)

Lemma each_whole ms s i : follow s i ms -> forall ws, length ws = length ms ->
  each whole ms = Ok (map fst (spans ms ws)) /\ length (spans ms ws) = length ms.
Proof.
  revert i; induction ms as [|c ms IH]; intros i F ws LW; cbn; [auto|].
  destruct F as (a & b & gs & -> & L & M & F). destruct ws as [|w ws]; [discriminate|]. injection LW as LW.
  destruct (IH b F ws LW) as (E & E2). cbn. rewrite E. cbn. auto.
Qed.
Lemma spans_const ms s i rep : follow s i ms ->
  map (fun m => (m, rep)) (map fst (spans ms (repeat rep (length ms)))) = spans ms (repeat rep (length ms)).
Proof.
  revert i; induction ms as [|c ms IH]; intros i F; cbn; [reflexivity|].
  destruct F as (a & b & gs & -> & L & M & F). cbn. rewrite (IH b F). reflexivity.
Qed.
Lemma last_set s i ms sp : follow s i ms -> set_last s ms sp = Ok (after_all s ms sp).
Proof.
  intros F. unfold set_last, after_all. destruct ms as [|c ms] using rev_ind; [reflexivity|]. clear IHms.
  rewrite rev_app_distr. cbn [rev app]. rewrite last_last.
  assert (exists a, match_at s a c) as (a & M).
  { clear sp. revert i F. induction ms as [|d ms IH]; intros i F; cbn in F.
    - destruct F as (a & b & gs & _ & _ & M & _). eauto.
    - destruct F as (a & b & gs & _ & _ & _ & F). eauto. }
  rewrite (captures_ok _ _ _ M). destruct ms; reflexivity.
Qed.

Section Loops.
Variable s : text.
Variable here : nat -> option caps.
Variable cap : text -> nat -> res (option caps).
Hypothesis P : pattern s here.
Hypothesis EN : engine s here cap.

Lemma asked i o : at_char s i -> found here i o -> cap s i = Ok o.
Proof. intros A F. destruct (EN i A) as (o' & E & F'). rewrite (found_det _ _ _ _ F F'). assumption. Qed.

Lemma repeat_ok : narrow s here -> forall i ms, matches s here i ms -> at_char s i ->
  forall fuel acc, length s - i < fuel -> repeat_loop cap fuel s i acc = Ok (acc ++ ms).
Proof.
  intros (NE & NA) i ms M.
  induction M as [i F|i a b gs ms F L M IH|i a b gs ms F N M IH|i gs F]; intros A fuel acc FU;
    (destruct fuel as [|fuel]; [lia|]); cbn [repeat_loop];
    destruct (length s <=? i) eqn:LE; try (apply Nat.leb_le in LE); try (apply Nat.leb_gt in LE).
  - rewrite app_nil_r. reflexivity.
  - rewrite (asked i None A F). cbn. rewrite app_nil_r. reflexivity.
  - destruct (found_at _ _ _ _ P F) as (a' & b' & gs' & E & L' & LB & H & MA). injection E as <- <- <-. lia.
  - destruct (found_at _ _ _ _ P F) as (a' & b' & gs' & E & L' & LB & H & MA). injection E as <- <- <-.
    rewrite (asked i _ A F). cbn [rbind whole get nth_error]. unfold whole, get; cbn [nth_error rbind fst snd].
    replace (b =? a) with false by (symmetry; apply Nat.eqb_neq; lia).
    rewrite IH; [rewrite <- app_assoc; reflexivity| |lia].
    destruct MA as (b' & gs' & E & MA). injection E as <- <-. tauto.
  - destruct (found_at _ _ _ _ P F) as (a' & b' & gs' & E & L' & LB & H & MA). injection E as <- <- <-.
    destruct N as (N & (N2 & _) & _). lia.
  - destruct (found_at _ _ _ _ P F) as (a' & b' & gs' & E & L' & LB & H & MA). injection E as <- <- <-.
    rewrite (asked i _ A F). unfold whole, get; cbn [nth_error rbind fst snd]. rewrite Nat.eqb_refl.
    pose proof (next_det _ _ _ _ N (NA a gs H)) as ->.
    rewrite IH; [rewrite <- app_assoc; reflexivity|destruct N as (_ & N & _); exact N|lia].
  - destruct (found_at _ _ _ _ P F) as (a' & b' & gs' & E & L' & LB & H & MA). injection E as <- <- <-. congruence.
  - destruct (found_at _ _ _ _ P F) as (a' & b' & gs' & E & L' & LB & H & MA). injection E as <- <- <-. congruence.
Qed.

Lemma replace_repeat_ok rep sp ms : at_char s 0 -> narrow s here -> at_char rep 0 -> matches s here 0 ms ->
  replace_repeat cap s rep sp =
    Ok (pieces s 0 ms (repeat rep (length ms)), negb (length ms =? 0), after_all s ms sp).
Proof.
  intros A N R M. pose proof (matches_follow _ _ P _ _ M) as F. unfold replace_repeat.
  rewrite (repeat_ok N 0 ms M A) by lia. cbn [rbind app].
  destruct (each_whole ms s 0 F (repeat rep (length ms)) (repeat_length _ _)) as (E & LE).
  rewrite E. cbn [rbind]. rewrite map_rev, (spans_const ms s 0) by assumption.
  rewrite (back_pieces s ms 0) ; [|assumption|assumption|apply repeat_length|].
  - cbn [rbind firstn app]. rewrite (last_set s 0) by assumption. cbn [rbind].
    rewrite map_length, LE. reflexivity.
  - apply Forall_forall. intros w I. apply repeat_spec in I. subst. assumption.
Qed.

Section Block.
Variable W : Type.
Variable block : specials * W -> text -> (specials * W) * res text.
Hypothesis BW : forall st x st' w, block st x = (st', Ok w) -> at_char w 0.

Lemma block_step i c st fuel acc : at_char s i -> found here i (Some c) ->
  exists a b gs, c = Some (a, b) :: gs /\
  block_loop cap W block (S fuel) s i acc st =
    (let (st1, w) := block (remembered s c, snd st) (matched s c) in
     match w with
     | Ok w => block_loop cap W block fuel s (b + (if a =? b then 1 else 0)) (acc ++ [((a, b), w)]) st1
     | Err k => (st1, Err k)
     | Panic => (st1, Panic)
     end).
Proof.
  intros A F. destruct (found_at _ _ _ _ P F) as (a & b & gs & E & L & LB & H & MA).
  exists a, b, gs. split; [assumption|]. cbn [block_loop]. rewrite (asked i _ A F).
  destruct (match_whole _ _ _ MA) as (b1 & gs1 & E1 & WH). rewrite WH.
  rewrite E in E1. injection E1 as <- <-. cbn [rbind].
  rewrite (captures_ok _ _ _ MA). cbn [rbind].
  destruct (str_ok _ _ _ MA) as (b2 & gs2 & E2 & ST). rewrite E in E2. injection E2 as <- <-.
  rewrite ST. cbn [rbind fst snd]. reflexivity.
Qed.

Lemma block_ok : narrow s here -> forall i ms, matches s here i ms -> at_char s i ->
  forall st st' r, runs W block s ms st st' r ->
  forall fuel acc, S (length s - i) < fuel ->
  block_loop cap W block fuel s i acc st =
    (st', match r with Ok ws => Ok (acc ++ spans ms ws) | Err k => Err k | Panic => Panic end).
Proof.
  intros (NE & NA) i ms M.
  induction M as [i F|i a b gs ms F L M IH|i a b gs ms F N M IH|i gs F]; intros A st st' r R fuel acc FU;
    (destruct fuel as [|fuel]; [lia|]).
  - inversion R; subst. cbn [block_loop]. rewrite (asked i None A F). cbn. rewrite app_nil_r. reflexivity.
  - destruct (block_step i _ st fuel acc A F) as (a' & b' & gs' & E & ->). injection E as <- <- <-.
    destruct (found_at _ _ _ _ P F) as (a' & b' & gs' & E & L' & LB & H & MA). injection E as <- <- <-.
    assert (B : at_char s b) by (destruct MA as (b' & gs' & E & MA); injection E as <- <-; tauto).
    replace (a =? b) with false by (symmetry; apply Nat.eqb_neq; lia). rewrite Nat.add_0_r.
    inversion R as [|c ms1 st0 st1 w st2 ws BL R1|c ms1 st0 st1 w st2 k BL R1|c ms1 st0 st1 k BL]; subst; rewrite BL.
    + rewrite (IH B _ _ _ R1) by lia. cbn. rewrite <- app_assoc. reflexivity.
    + rewrite (IH B _ _ _ R1) by lia. reflexivity.
    + reflexivity.
  - destruct (block_step i _ st fuel acc A F) as (a' & b' & gs' & E & ->). injection E as <- <- <-.
    destruct (found_at _ _ _ _ P F) as (a' & b' & gs' & E & L' & LB & H & MA). injection E as <- <- <-.
    pose proof (next_det _ _ _ _ N (NA a gs H)) as ->. rewrite Nat.eqb_refl.
    assert (B : at_char s (a + 1)) by (destruct N as (_ & N & _); exact N).
    assert (B' : a + 1 <= length s) by (destruct B; assumption).
    inversion R as [|c ms1 st0 st1 w st2 ws BL R1|c ms1 st0 st1 w st2 k BL R1|c ms1 st0 st1 k BL]; subst; rewrite BL.
    + rewrite (IH B _ _ _ R1) by lia. cbn. rewrite <- app_assoc. reflexivity.
    + rewrite (IH B _ _ _ R1) by lia. reflexivity.
    + reflexivity.
  - destruct (found_at _ _ _ _ P F) as (a' & b' & gs' & E & L' & LB & H & MA). injection E as <- <- <-. congruence.
Qed.
Lemma runs_words ms st st' ws : runs W block s ms st st' (Ok ws) ->
  length ws = length ms /\ Forall (fun w => at_char w 0) ws.
Proof.
  revert st ws; induction ms as [|c ms IH]; intros st ws R; inversion R; subst; cbn; [auto|].
  match goal with H : runs _ _ _ ms _ _ _ |- _ => destruct (IH _ _ H) end.
  split; [lia|]. constructor; eauto.
Qed.
Lemma replace_all_block_ok ms st st' r : at_char s 0 -> narrow s here -> matches s here 0 ms ->
  runs W block s ms st st' r ->
  replace_all_block cap W block s st =
    (st', match r with Ok ws => Ok (pieces s 0 ms ws, negb (length ms =? 0)) | Err k => Err k | Panic => Panic end).
Proof.
  intros A N M R. pose proof (matches_follow _ _ P _ _ M) as F. unfold replace_all_block.
  rewrite (block_ok N 0 ms M A _ _ _ R) by lia. destruct r as [ws|k|]; try reflexivity. cbn [rbind app].
  destruct (runs_words _ _ _ _ R) as (LW & FW).
  rewrite (back_pieces s ms 0) by assumption. cbn [rbind firstn app].
  destruct (each_whole ms s 0 F ws LW) as (_ & ->). reflexivity.
Qed.
Lemma replace_one_block_ok c st st1 r : at_char s 0 -> found here 0 (Some c) ->
  block (remembered s c, snd st) (matched s c) = (st1, r) ->
  replace_one_block cap W block s st =
    (st1, match r with Ok w => Ok (pieces s 0 [c] [w], true) | Err k => Err k | Panic => Panic end).
Proof.
  intros A F BL. unfold replace_one_block. rewrite (asked 0 _ A F).
  destruct (found_at _ _ _ _ P F) as (a & b & gs & E & L & LB & H & MA).
  destruct (match_whole _ _ _ MA) as (b1 & gs1 & E1 & WH). rewrite WH. cbn [rbind].
  rewrite (captures_ok _ _ _ MA). cbn [rbind].
  destruct (str_ok _ _ _ MA) as (b2 & gs2 & E2 & ST). rewrite E in E1, E2. injection E1 as <- <-. injection E2 as <- <-.
  rewrite ST. cbn [rbind fst snd]. rewrite BL. destruct r as [w|k|]; try reflexivity. cbn [rbind].
  destruct MA as (b' & gs' & E' & L1 & A1 & B1 & G). rewrite E in E'. injection E' as <- <-.
  rewrite range_ok by assumption. cbn [rbind]. subst c. cbn [pieces]. rewrite part_all.
  destruct A1 as [A1 _]. pose proof (firstn_part s 0 a ltac:(lia) A1) as X. cbn in X. rewrite X. reflexivity.
Qed.
End Block.

(** sub with a replacement text *)
Lemma expand_ok c t : match_at s 0 c \/ (exists a, match_at s a c) -> tidy t -> forall w, stands s c t w -> expand s c t false = Ok w.
Proof.
  intros M T. assert (exists a, match_at s a c) as (a & MA) by (destruct M; eauto). clear M.
  assert (G : forall n y, nth_error c n = Some (Some y) -> as_str s y = Ok (part s (fst y) (snd y))).
  { intros n [x y] E. destruct MA as (b & gs & -> & L & A & B & G). unfold as_str. cbn.
    destruct n as [|n]; cbn in E.
    - injection E as <- <-. apply slice_ok; assumption.
    - apply nth_error_In in E. destruct (G x y E) as (? & ? & ?). apply slice_ok; assumption. }
  induction T as [|x t NX T IH|x t D T IH]; intros w ST.
  - inversion ST; subst. reflexivity.
  - inversion ST; subst; try congruence. cbn [expand].
    replace (x =? 92)%Z with false by (symmetry; apply Z.eqb_neq; assumption). cbn.
    rewrite (IH _ ltac:(eassumption)). reflexivity.
  - inversion ST; subst; try congruence.
    + cbn [expand Z.eqb negb Pos.eqb]. match goal with H : digit x |- _ => destruct H end.
      replace ((48 <=? x)%Z && (x <=? 57)%Z) with true by (symmetry; apply andb_true_iff; lia).
      unfold get. match goal with H : nth_error c _ = _ |- _ => rewrite H; rewrite (G _ _ H) end. cbn [rbind].
      rewrite (IH _ ltac:(eassumption)). reflexivity.
    + cbn [expand Z.eqb negb Pos.eqb]. match goal with H : digit x |- _ => destruct H end.
      replace ((48 <=? x)%Z && (x <=? 57)%Z) with true by (symmetry; apply andb_true_iff; lia).
      unfold get. destruct (nth_error c (Z.to_nat (x - 48))) as [[y|]|] eqn:E;
        [match goal with H : forall y, Some (Some _) <> _ |- _ => destruct (H y eq_refl) | H : forall y, _ <> _ |- _ => destruct (H y E) end| |];
        cbn [rbind]; rewrite (IH _ ltac:(eassumption)); reflexivity.
    + cbn. rewrite (IH _ ltac:(eassumption)). reflexivity.
    + exfalso. destruct D as [D| ->]; [tauto|]. match goal with H : ~ In _ _ |- _ => apply H; left; reflexivity end.
Qed.
Lemma replace_once_ok t sp c w : at_char s 0 -> found here 0 (Some c) -> tidy t -> stands s c t w ->
  replace_once cap s t sp = Ok (pieces s 0 [c] [w], Some c, remembered s c).
Proof.
  intros A F T ST. unfold replace_once. rewrite (asked 0 _ A F). cbn [rbind].
  destruct (found_at _ _ _ _ P F) as (a & b & gs & E & L & LB & H & MA).
  destruct (match_whole _ _ _ MA) as (b1 & gs1 & E1 & WH). rewrite WH. cbn [rbind].
  rewrite (captures_ok _ _ _ MA). cbn [rbind].
  rewrite (expand_ok c t (or_intror (ex_intro _ a MA)) T w ST). cbn [rbind fst snd].
  destruct MA as (b' & gs' & E' & L1 & A1 & B1 & G). rewrite E in E', E1. injection E' as <- <-. injection E1 as <- <-.
  rewrite range_ok by assumption. cbn [rbind]. subst c. cbn [pieces]. rewrite part_all.
  destruct A1 as [A1 _]. pose proof (firstn_part s 0 a ltac:(lia) A1) as X. cbn in X. rewrite X. reflexivity.
Qed.

(** scan *)
Lemma item_ok a c : match_at s a c -> item_of s c = Ok (scanned s c).
Proof.
  intros MA. unfold item_of. destruct (match_whole _ _ _ MA) as (b & gs & E & ->). cbn [rbind].
  destruct (str_ok _ _ _ MA) as (b2 & gs2 & E2 & ST). rewrite E in E2. injection E2 as <- <-.
  destruct MA as (b' & gs' & E' & L1 & A1 & B1 & G). rewrite E in E'. injection E' as <- <-.
  subst c. unfold scanned. cbn [tl length]. destruct gs as [|g gs].
  - cbn [length Nat.eqb]. rewrite ST. reflexivity.
  - cbn [length Nat.eqb]. rewrite each_groups by assumption. reflexivity.
Qed.
Lemma find_ok : (forall a gs, here a <> Some (Some (a, a) :: gs)) -> forall i ms, matches s here i ms -> at_char s i ->
  forall fuel acc last0, length s - i < fuel ->
  find_loop cap fuel s i acc last0 =
    Some (Ok (acc ++ map (scanned s) ms, match ms with [] => last0 | _ => Some (last ms []) end)).
Proof.
  intros NE i ms M. induction M as [i F|i a b gs ms F L M IH|i a b gs ms F N M IH|i gs F]; intros A fuel acc last0 FU;
    (destruct fuel as [|fuel]; [lia|]); cbn [find_loop]; rewrite (asked i _ A F).
  - cbn. rewrite app_nil_r. reflexivity.
  - destruct (found_at _ _ _ _ P F) as (a' & b' & gs' & E & L' & LB & H & MA). injection E as <- <- <-.
    rewrite (item_ok _ _ MA). unfold whole, get; cbn [nth_error rbind fst snd].
    rewrite IH; [| |lia].
    + cbn [map]. rewrite <- app_assoc. destruct ms; reflexivity.
    + destruct MA as (b' & gs' & E & MA). injection E as <- <-. tauto.
  - destruct (found_at _ _ _ _ P F) as (a' & b' & gs' & E & L' & LB & H & MA). injection E as <- <- <-. destruct (NE _ _ H).
  - destruct (found_at _ _ _ _ P F) as (a' & b' & gs' & E & L' & LB & H & MA). injection E as <- <- <-. destruct (NE _ _ H).
Qed.
Lemma find_all_ok sp fuel ms : at_char s 0 -> (forall a gs, here a <> Some (Some (a, a) :: gs)) ->
  matches s here 0 ms -> length s < fuel ->
  find_all cap fuel s sp = Some (Ok (map (scanned s) ms, after_all s ms sp)).
Proof.
  intros A NE M FU. unfold find_all. rewrite (find_ok NE 0 ms M A) by lia. cbn [app rbind fst snd].
  pose proof (last_set s 0 ms sp (matches_follow _ _ P _ _ M)) as LS. unfold set_last in LS.
  destruct ms as [|c ms] using rev_ind; [reflexivity|]. clear IHms.
  rewrite rev_app_distr in LS. cbn [rev app] in LS. rewrite last_last.
  destruct (ms ++ [c]) eqn:E; [destruct ms; discriminate|]. rewrite LS. reflexivity.
Qed.
End Loops.
