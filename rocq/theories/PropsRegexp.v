(** C89-C92: substitution, scanning and splitting by a pattern, what a match tells, tr. *)
From Verif Require Import Base ModelString ModelRegexp SpecRegexp ProofsRegexp ProofsRegexp2 ProofsString2.
From Coq Require Import Lia.
Open Scope nat_scope.

Definition nothing : specials := mksp None None [].
Lemma stands_self s c rep : ~ In 92%Z rep -> stands s c rep rep.
Proof.
  induction rep as [|x rep IH]; intros NB; [constructor|]. constructor.
  - intros ->. apply NB. left. reflexivity.
  - apply IH. intros I. apply NB. right. assumption.
Qed.
Ltac at_ok := apply boundary_at; reflexivity.
Ltac cases H := apply find_some in H; destruct H as (H & ?); cbn in H; repeat (destruct H as [H|H]); try contradiction; try discriminate H.

(** * C89: sub and gsub *)
(** gsub with a text: the matches, which exist and are unique, are replaced, the rest is kept, and the
    variables tell about the last match.  Missing, as the code is wrong there: matches at
    the very end, empty matches before longer characters, backslashes in the text. *)
Theorem C89_gsub_partial : forall s here cap rep sp,
  at_char s 0 -> pattern s here -> engine s here cap -> narrow s here -> at_char rep 0 -> ~ In 92%Z rep ->
  exists ms ws, matches s here 0 ms /\ (forall ms', matches s here 0 ms' -> ms' = ms) /\
    Forall2 (fun c w => stands s c rep w) ms ws /\
    replace_repeat cap s rep sp = Ok (pieces s 0 ms ws, negb (length ms =? 0), after_all s ms sp).
Proof.
  intros s here cap rep sp A P EN N R NB. destruct (matches_exist _ _ _ P EN 0 A) as (ms & M).
  exists ms, (repeat rep (length ms)). split; [assumption|]. split; [intros ms' M'; apply (matches_det _ _ P _ _ M' _ M)|].
  split; [|apply (replace_repeat_ok s here); assumption].
  clear M. induction ms as [|c ms IH]; cbn; constructor; [apply stands_self; assumption|assumption].
Qed.
Print Assumptions C89_gsub_partial.

(** "aéa".gsub(/a()/, "xy"): the text, the two matches and what comes out *)
Definition aea : text := [97; 195; 169; 97]%Z.
Definition as_ : list caps := [[Some (0, 1); Some (1, 1)]; [Some (3, 4); Some (4, 4)]].
Lemma aea_narrow : narrow aea (listed as_).
Proof. split; [reflexivity|]. intros a gs H. cases H; injection H; intros; subst; discriminate. Qed.
Example C89_gsub_example :
  at_char aea 0 /\ pattern aea (listed as_) /\ engine aea (listed as_) (engine_of (listed as_)) /\ narrow aea (listed as_) /\
  replace_repeat (engine_of (listed as_)) aea [120; 121]%Z nothing =
    Ok ([120; 121; 195; 169; 120; 121]%Z, true, mksp (Some [97%Z]) (Some []) [Some []]).
Proof.
  split; [at_ok|]. split; [apply listed_pattern; reflexivity|].
  split; [apply engine_of_ok, listed_pattern; reflexivity|]. split; [apply aea_narrow|reflexivity].
Qed.

(** gsub with a block: it is called once for each match in turn, with the matched text and with the
    variables of that match; what it gives replaces the match, and an exception of it ends all *)
Theorem C89_gsub_block_partial : forall s here cap W block (st st' : specials * W) ms r,
  at_char s 0 -> pattern s here -> engine s here cap -> narrow s here ->
  (forall st x st' w, block st x = (st', Ok w) -> at_char w 0) ->
  matches s here 0 ms -> runs W block s ms st st' r ->
  replace_all_block cap W block s st =
    (st', match r with Ok ws => Ok (pieces s 0 ms ws, negb (length ms =? 0)) | Err k => Err k | Panic => Panic end).
Proof. intros. eapply replace_all_block_ok; eassumption. Qed.
Print Assumptions C89_gsub_block_partial.

(** the block counts its calls and answers "<" for the first and fails the third time *)
Definition counting (st : specials * nat) (x : text) : (specials * nat) * res text :=
  ((fst st, S (snd st)), if snd st <? 2 then Ok (60%Z :: x) else Err OtherErr).
Lemma counting_words st x st' w : counting st x = (st', Ok w) -> at_char w 0.
Proof.
  unfold counting. destruct (snd st <? 2); intros E; [|discriminate]. injection E as <- <-.
  apply boundary_at. reflexivity.
Qed.
Example C89_gsub_block_example :
  (exists ms st', matches aea (listed as_) 0 ms /\ runs nat counting aea ms (nothing, 0) st' (Ok [[60; 97]; [60; 97]]%Z) /\
     replace_all_block (engine_of (listed as_)) nat counting aea (nothing, 0) =
       (st', Ok ([60; 97; 195; 169; 60; 97]%Z, true)) /\ snd st' = 2) /\
  (exists ms st', matches aea (listed as_) 0 ms /\ runs nat counting aea ms (nothing, 1) st' (Err OtherErr) /\
     replace_all_block (engine_of (listed as_)) nat counting aea (nothing, 1) = (st', Err OtherErr)).
Proof.
  assert (M : matches aea (listed as_) 0 as_).
  { apply (ms_some _ _ 0 0 1 [Some (1, 1)]); [|lia|].
    - apply (first_ok (listed as_) 5 0). intros j J. do 5 (destruct j as [|j]; [lia|]). reflexivity.
    - apply (ms_some _ _ 1 3 4 [Some (4, 4)]); [|lia|].
      + apply (first_ok (listed as_) 4 1). intros j J. do 5 (destruct j as [|j]; [lia|]). reflexivity.
      + apply ms_none. intros. constructor. intros j J. do 4 (destruct j as [|j]; [lia|]). reflexivity. }
  split; exists as_; eexists; (split; [exact M|]).
  - split; [|split; [reflexivity|reflexivity]].
    eapply runs_ok; [reflexivity|]. eapply runs_ok; [reflexivity|]. apply runs_nil.
  - split; [|reflexivity]. eapply runs_later; [reflexivity|]. eapply runs_err. reflexivity.
Qed.

(** sub with a text: the leftmost match is replaced by what the text stands for.  Missing, as the code
    is wrong there: a backslash before anything but a digit or a backslash. *)
Theorem C89_sub_partial : forall s here cap t sp c w,
  at_char s 0 -> pattern s here -> engine s here cap -> found here 0 (Some c) -> tidy t -> stands s c t w ->
  replace_once cap s t sp = Ok (pieces s 0 [c] [w], Some c, remembered s c).
Proof. intros. eapply replace_once_ok; eassumption. Qed.
Print Assumptions C89_sub_partial.

(** "aéa".sub(/a()/, "\\0\\\\\\9-\\0"), where there is no group 9 *)
Example C89_sub_example :
  found (listed as_) 0 (Some [Some (0, 1); Some (1, 1)]) /\
  tidy [92; 48; 92; 92; 92; 57; 45]%Z /\ stands aea [Some (0, 1); Some (1, 1)] [92; 48; 92; 92; 92; 57; 45]%Z [97; 92; 45]%Z /\
  replace_once (engine_of (listed as_)) aea [92; 48; 92; 92; 92; 57; 45]%Z nothing =
    Ok ([97; 92; 45; 195; 169; 97]%Z, Some [Some (0, 1); Some (1, 1)], mksp (Some [97%Z]) (Some [195; 169; 97]%Z) [Some []]).
Proof.
  split; [apply (first_ok (listed as_) 5 0); intros j J; do 5 (destruct j as [|j]; [lia|]); reflexivity|].
  split; [repeat (first [apply tidy_esc; [unfold digit; lia|] | apply tidy_char; [lia|] | apply tidy_nil])|].
  split; [|reflexivity].
  apply (st_group aea _ 48%Z _ [92; 45]%Z (0, 1)); [unfold digit; lia|reflexivity|].
  apply st_back. apply st_nogroup; [unfold digit; lia|intros y E; discriminate E|].
  apply st_char; [lia|apply st_nil].
Qed.

(** sub with a block *)
Theorem C89_sub_block : forall s here cap W block (st st1 : specials * W) c r,
  at_char s 0 -> pattern s here -> engine s here cap -> found here 0 (Some c) ->
  block (remembered s c, snd st) (matched s c) = (st1, r) ->
  replace_one_block cap W block s st =
    (st1, match r with Ok w => Ok (pieces s 0 [c] [w], true) | Err k => Err k | Panic => Panic end).
Proof. intros. eapply replace_one_block_ok; eassumption. Qed.
Print Assumptions C89_sub_block.
Example C89_sub_block_example :
  found (listed as_) 0 (Some [Some (0, 1); Some (1, 1)]) /\
  replace_one_block (engine_of (listed as_)) nat counting aea (nothing, 0) =
    ((mksp (Some [97%Z]) (Some [195; 169; 97]%Z) [Some []], 1), Ok ([60; 97; 195; 169; 97]%Z, true)).
Proof. split; [apply (first_ok (listed as_) 5 0); intros j J; do 5 (destruct j as [|j]; [lia|]); reflexivity|reflexivity]. Qed.

(** without a match the text is as it was, nothing is called and the variables are kept *)
Theorem C89_no_match : forall s here cap rep sp W block (w : W),
  at_char s 0 -> engine s here cap -> (forall a, here a = None) ->
  replace_repeat cap s rep sp = Ok (s, false, sp) /\
  replace_once cap s rep sp = Ok (s, None, sp) /\
  replace_all_block cap W block s (sp, w) = ((sp, w), Ok (s, false)) /\
  replace_one_block cap W block s (sp, w) = ((sp, w), Ok (s, false)).
Proof.
  intros s here cap rep sp W block w A EN H.
  assert (C : cap s 0 = Ok None).
  { destruct (EN 0 A) as (o & E & F). inversion F; subst; [|assumption]. rewrite H in *. discriminate. }
  split.
  - unfold replace_repeat. cbn [repeat_loop]. rewrite C. destruct (length s <=? 0); reflexivity.
  - split; [unfold replace_once; rewrite C; reflexivity|].
    split; [unfold replace_all_block; cbn [block_loop]; rewrite C; reflexivity|].
    unfold replace_one_block. rewrite C. reflexivity.
Qed.
Print Assumptions C89_no_match.
Example C89_no_match_example :
  at_char aea 0 /\ engine aea (fun _ => None) (engine_of (fun _ => None)) /\
  replace_repeat (engine_of (fun _ => None)) aea [120%Z] nothing = Ok (aea, false, nothing).
Proof. split; [at_ok|]. split; [apply engine_of_ok; intros a c E; discriminate|reflexivity]. Qed.

(** "ab".gsub(//, "-"): the empty match at the end is not replaced ("-a-b", not "-a-b-") *)
Definition empties (n : nat) : list caps := map (fun a => [Some (a, a)]) (seq 0 n).
Lemma empties_matches s n : forall i, n = length s - i -> i <= length s ->
  (forall j, j <= length s -> at_char s j) ->
  forall here, (forall a, a <= length s -> here a = Some [Some (a, a)]) ->
  matches s here i (map (fun a => [Some (a, a)]) (seq i (S n))).
Proof.
  induction n as [|n IH]; intros i E L A here H.
  - assert (i = length s) by lia. subst i. cbn. apply ms_end. apply (found_some here _ (length s)); [lia|apply H; lia|intros; lia].
  - cbn [seq map]. apply (ms_empty s here i i (S i)).
    + apply (found_some here _ i); [lia|apply H; lia|intros; lia].
    + split; [lia|]. split; [apply A; lia|intros; lia].
    + apply (IH (S i)); try assumption; lia.
Qed.
Theorem C89_gsub_end_refuted : exists s here cap ms rep,
  pattern s here /\ engine s here cap /\ matches s here 0 ms /\ ~ In 92%Z rep /\
  exists t sp, replace_repeat cap s rep nothing = Ok (t, true, sp) /\ t <> pieces s 0 ms (repeat rep (length ms)).
Proof.
  exists [97; 98]%Z, (listed (empties 3)), (engine_of (listed (empties 3))), (empties 3), [45%Z].
  assert (P : pattern [97; 98]%Z (listed (empties 3))) by (apply listed_pattern; reflexivity).
  split; [assumption|]. split; [apply engine_of_ok; assumption|].
  split.
  - apply (empties_matches [97; 98]%Z 2 0); [reflexivity|cbn; lia| |].
    + intros j J. destruct j as [|[|[|j]]]; try at_ok. cbn in J. lia.
    + intros a L. destruct a as [|[|[|a]]]; try reflexivity. cbn in L. lia.
  - split; [intros [E|[]]; discriminate|]. eexists. eexists. split; [reflexivity|]. discriminate.
Qed.
Print Assumptions C89_gsub_end_refuted.

(** "é".gsub(//, "-"): the engine is asked in the middle of the character, and what is made depends
    on its answer there *)
Theorem C89_gsub_inside_refuted : exists s here cap1 cap2 rep,
  pattern s here /\ engine s here cap1 /\ engine s here cap2 /\ ~ In 92%Z rep /\
  replace_repeat cap1 s rep nothing <> replace_repeat cap2 s rep nothing.
Proof.
  set (l := [[Some (0, 0)]; [Some (2, 2)]] : list caps).
  assert (P : pattern [195; 169]%Z (listed l)) by (apply listed_pattern; reflexivity).
  exists [195; 169]%Z, (listed l), (engine_of (listed l)),
    (fun s i => if i =? 1 then Panic else engine_of (listed l) s i), [45%Z].
  split; [assumption|]. split; [apply engine_of_ok; assumption|]. split.
  - intros i A. destruct (Nat.eq_dec i 1) as [->|NE].
    + destruct A as [_ A]. destruct (A 169%Z eq_refl). lia.
    + replace (i =? 1) with false by (symmetry; apply Nat.eqb_neq; assumption). apply (engine_of_ok _ _ P i A).
  - split; [intros [E|[]]; discriminate|]. vm_compute. discriminate.
Qed.
Print Assumptions C89_gsub_inside_refuted.

(** "a".gsub(/a/, "\\0\\0") does not expand the groups, sub does *)
Theorem C89_gsub_template_refuted : exists s here cap ms rep w,
  pattern s here /\ engine s here cap /\ narrow s here /\ matches s here 0 ms /\ tidy rep /\
  Forall (fun c => stands s c rep w) ms /\
  (exists sp, replace_repeat cap s rep nothing = Ok (rep, true, sp)) /\
  rep <> pieces s 0 ms (repeat w (length ms)) /\
  (exists c sp, replace_once cap s rep nothing = Ok (pieces s 0 ms (repeat w (length ms)), c, sp)).
Proof.
  set (l := [[Some (0, 1)]] : list caps).
  assert (P : pattern [97%Z] (listed l)) by (apply listed_pattern; reflexivity).
  exists [97%Z], (listed l), (engine_of (listed l)), l, [92; 48; 92; 48]%Z, [97; 97]%Z.
  split; [assumption|]. split; [apply engine_of_ok; assumption|].
  split; [split; [reflexivity|]; intros a gs H; cases H; injection H; intros; subst; discriminate|].
  split.
  { apply (ms_some _ _ 0 0 1 []); [|lia|].
    - apply (first_ok (listed l) 2 0). intros j J. do 2 (destruct j as [|j]; [lia|]). reflexivity.
    - apply ms_none. constructor. intros j J. destruct j as [|j]; [lia|]. reflexivity. }
  split; [repeat (first [apply tidy_esc; [unfold digit; lia|] | apply tidy_nil])|].
  split.
  { constructor; [|constructor].
    apply (st_group [97%Z] _ 48%Z _ [97%Z] (0, 1)); [unfold digit; lia|reflexivity|].
    apply (st_group [97%Z] _ 48%Z _ [] (0, 1)); [unfold digit; lia|reflexivity|]. constructor. }
  split; [eexists; reflexivity|]. split; [discriminate|]. eexists. eexists. reflexivity.
Qed.
Print Assumptions C89_gsub_template_refuted.

(** "a".sub(/a/, "\\n") with the two characters \ and n gives "n", and a single backslash "" *)
Theorem C89_sub_escape_refuted : exists s here cap c t t' w w',
  pattern s here /\ engine s here cap /\ found here 0 (Some c) /\ stands s c t w /\ stands s c t' w' /\
  (exists r sp, replace_once cap s t nothing = Ok (r, Some c, sp) /\ r <> pieces s 0 [c] [w]) /\
  (exists r sp, replace_once cap s t' nothing = Ok (r, Some c, sp) /\ r <> pieces s 0 [c] [w']).
Proof.
  set (l := [[Some (0, 1)]] : list caps).
  assert (P : pattern [97%Z] (listed l)) by (apply listed_pattern; reflexivity).
  exists [97%Z], (listed l), (engine_of (listed l)), [Some (0, 1)], [92; 110]%Z, [92%Z], [92; 110]%Z, [92%Z].
  split; [assumption|]. split; [apply engine_of_ok; assumption|].
  split; [apply (first_ok (listed l) 2 0); intros j J; do 2 (destruct j as [|j]; [lia|]); reflexivity|].
  split; [apply st_other; [unfold digit; lia|cbn; lia|constructor]|]. split; [apply st_lone|].
  split; eexists; eexists; (split; [reflexivity|discriminate]).
Qed.
Print Assumptions C89_sub_escape_refuted.

(** * C90: scan and split *)
(** scan gives the matches in order.  Missing: patterns that match the empty text. *)
Theorem C90_scan_partial : forall s here cap sp fuel ms,
  at_char s 0 -> pattern s here -> engine s here cap -> (forall a gs, here a <> Some (Some (a, a) :: gs)) ->
  matches s here 0 ms -> length s < fuel ->
  find_all cap fuel s sp = Some (Ok (map (scanned s) ms, after_all s ms sp)).
Proof. intros. eapply find_all_ok; eassumption. Qed.
Print Assumptions C90_scan_partial.
Example C90_scan_example :
  (forall a gs, listed as_ a <> Some (Some (a, a) :: gs)) /\
  find_all (engine_of (listed as_)) 5 aea nothing =
    Some (Ok ([FGroups [Some []]; FGroups [Some []]], mksp (Some [97%Z]) (Some []) [Some []])).
Proof. split; [|reflexivity]. intros a gs H. cases H; injection H; intros; subst; discriminate. Qed.

(** "ab".scan(//) never ends *)
Theorem C90_scan_refuted : exists s here cap ms,
  pattern s here /\ engine s here cap /\ matches s here 0 ms /\
  forall fuel, find_all cap fuel s nothing = None.
Proof.
  exists [97; 98]%Z, (listed (empties 3)), (engine_of (listed (empties 3))), (empties 3).
  assert (P : pattern [97; 98]%Z (listed (empties 3))) by (apply listed_pattern; reflexivity).
  split; [assumption|]. split; [apply engine_of_ok; assumption|]. split.
  - apply (empties_matches [97; 98]%Z 2 0); [reflexivity|cbn; lia| |].
    + intros j J. destruct j as [|[|[|j]]]; try at_ok. cbn in J. lia.
    + intros a L. destruct a as [|[|[|a]]]; try reflexivity. cbn in L. lia.
  - intros fuel. unfold find_all.
    assert (G : forall acc last0, find_loop (engine_of (listed (empties 3))) fuel [97; 98]%Z 0 acc last0 = None).
    { induction fuel as [|fuel IH]; intros acc last0; [reflexivity|]. cbn -[find_loop]. cbn [find_loop].
      cbn -[find_loop]. apply IH. }
    rewrite G. reflexivity.
Qed.
Print Assumptions C90_scan_refuted.

(** split without a limit gives what is between the matches, with the groups; with limit 0 empty texts
    at the end are dropped.  Missing: groups that take no part, empty matches (see below). *)
Theorem C90_split_partial : forall s ms lim,
  at_char s 0 -> follow s 0 ms -> Forall took_part ms -> (lim <= 0)%Z ->
  exists v, split_regexp s ms lim = Ok v /\
    if (lim =? 0)%Z then trimmed (fields s 0 ms) v else v = fields s 0 ms.
Proof.
  intros s ms lim A F T L. unfold split_regexp.
  destruct (loop_ok s lim L ms 0 A F T 0%Z [] ltac:(lia)) as (acc & cur & AC & -> & E). cbn [rbind].
  rewrite (split_tail s acc cur lim _ AC E). eexists. split; [reflexivity|].
  destruct (lim =? 0)%Z; [apply trim_ok|reflexivity].
Qed.
Print Assumptions C90_split_partial.
(** "aéa".split(/a()/) *)
Example C90_split_example :
  follow aea 0 as_ /\ Forall took_part as_ /\
  split_regexp aea as_ 0 = Ok [[]; []; [195; 169]%Z] /\ split_regexp aea as_ (-1) = Ok [[]; []; [195; 169]%Z; []; []].
Proof.
  split.
  - assert (P : pattern aea (listed as_)) by (apply listed_pattern; reflexivity).
    exists 0, 1, [Some (1, 1)]. split; [reflexivity|]. split; [lia|]. split; [apply (P 0 _ eq_refl)|].
    exists 3, 4, [Some (4, 4)]. split; [reflexivity|]. split; [lia|]. split; [apply (P 3 _ eq_refl)|exact I].
  - split; [repeat constructor; intros [E|[E|[]]]; discriminate|]. split; reflexivity.
Qed.

(** with a limit, for a pattern without groups: as many fields at most, the last one is the rest *)
Theorem C90_split_limit_partial : forall s ms lim,
  at_char s 0 -> follow s 0 ms -> Forall (fun c => length c = 1) ms -> (0 < lim)%Z ->
  split_regexp s ms lim = Ok (fields s 0 (firstn (Z.to_nat (lim - 1)) ms)).
Proof.
  intros s ms lim A F T L. unfold split_regexp.
  destruct (loop_lim s lim ms 0 A F T 0%Z [] ltac:(lia)) as (acc & cur & AC & -> & E). cbn [rbind].
  rewrite (split_tail s acc cur lim _ AC E). rewrite Z.sub_0_r.
  replace (lim =? 0)%Z with false by (symmetry; apply Z.eqb_neq; lia). reflexivity.
Qed.
Print Assumptions C90_split_limit_partial.
Definition commas : list caps := [[Some (1, 2)]; [Some (3, 4)]].
Lemma commas_follow : follow [97; 44; 98; 44; 99]%Z 0 commas.
Proof.
  assert (P : pattern [97; 44; 98; 44; 99]%Z (listed commas)) by (apply listed_pattern; reflexivity).
  exists 1, 2, []. split; [reflexivity|]. split; [lia|]. split; [apply (P 1 _ eq_refl)|].
  exists 3, 4, []. split; [reflexivity|]. split; [lia|]. split; [apply (P 3 _ eq_refl)|exact I].
Qed.
Example C90_split_limit_example :
  follow [97; 44; 98; 44; 99]%Z 0 commas /\ Forall (fun c => length c = 1) commas /\
  split_regexp [97; 44; 98; 44; 99]%Z commas 2 = Ok [[97]; [98; 44; 99]]%Z.
Proof. split; [apply commas_follow|]. split; [repeat constructor|reflexivity]. Qed.

(** nothing is lost: the fields with the matched texts between them are the text *)
Lemma weave_ok s : forall ms i, at_char s i -> follow s i ms -> Forall (fun c => length c = 1) ms ->
  length (fields s i ms) = S (length ms) /\ weave (fields s i ms) (map (matched s) ms) = skipn i s.
Proof.
  induction ms as [|c ms IH]; intros i A F T; cbn.
  - rewrite part_all. auto.
  - destruct F as (a & b & gs & -> & L & M & F). inversion T as [|? ? T1 T2]; subst. destruct gs; [|discriminate T1].
    destruct M as (b' & gs' & E & L1 & A1 & B1 & G). injection E as <- <-.
    destruct (IH b B1 F T2) as (LE & WE). cbn. rewrite LE, WE. split; [reflexivity|].
    destruct A1 as [A1 _]. destruct B1 as [B1 _].
    apply (app_inv_head (firstn i s)). rewrite firstn_skipn, !app_assoc, firstn_part, firstn_part by lia.
    apply firstn_skipn.
Qed.
Theorem C90_split_text : forall s ms lim v,
  at_char s 0 -> follow s 0 ms -> Forall (fun c => length c = 1) ms -> (lim < 0)%Z ->
  split_regexp s ms lim = Ok v -> length v = S (length ms) /\ weave v (map (matched s) ms) = s.
Proof.
  intros s ms lim v A F T L E.
  assert (TP : Forall took_part ms).
  { enough (G : forall i, follow s i ms -> Forall took_part ms) by (apply (G 0); assumption).
    clear -T. induction ms as [|c ms IH]; intros i F; constructor.
    - destruct F as (a & b & gs & -> & _). inversion T as [|? ? T1 _]; subst. destruct gs; [|discriminate T1].
      intros [E|[]]; discriminate.
    - destruct F as (a & b & gs & -> & _ & _ & F). inversion T; subst. apply (IH ltac:(assumption) b); assumption. }
  destruct (C90_split_partial s ms lim A F TP ltac:(lia)) as (v' & E' & V). rewrite E in E'. injection E' as <-.
  replace (lim =? 0)%Z with false in V by (symmetry; apply Z.eqb_neq; lia). subst v. apply (weave_ok s ms 0 A F T).
Qed.
Print Assumptions C90_split_text.
Example C90_split_text_example :
  split_regexp [97; 44; 98; 44; 99]%Z commas (-1) = Ok [[97]; [98]; [99]]%Z /\
  weave [[97]; [98]; [99]]%Z (map (matched [97; 44; 98; 44; 99]%Z) commas) = [97; 44; 98; 44; 99]%Z.
Proof. split; reflexivity. Qed.

(** "b".split(/(a)|b/) panics; "a,b,c".split(/(,)/, 2) has three fields and starts the last one at the
    group; "ab".split(//) starts with an empty text *)
Theorem C90_split_refuted :
  (exists s ms, follow s 0 ms /\ Forall (fun c => exists a b gs, c = Some (a, b) :: gs /\ a < b) ms /\ split_regexp s ms 0 = Panic) /\
  (exists s ms lim v, follow s 0 ms /\ Forall took_part ms /\ (0 < lim)%Z /\ split_regexp s ms lim = Ok v /\
     v <> fields s 0 (firstn (Z.to_nat (lim - 1)) ms)) /\
  (exists s ms v, follow s 0 ms /\ split_regexp s ms 0 = Ok ([] :: v) /\ s <> [] /\ Forall (fun c => exists a, c = [Some (a, a)]) ms).
Proof.
  split; [|split].
  - assert (P : pattern [98%Z] (listed [[Some (0, 1); None]])) by (apply listed_pattern; reflexivity).
    exists [98%Z], [[Some (0, 1); None]]. split.
    + exists 0, 1, [None]. split; [reflexivity|]. split; [lia|]. split; [apply (P 0 _ eq_refl)|exact I].
    + split; [|reflexivity]. constructor; [|constructor]. exists 0, 1, [None]. split; [reflexivity|lia].
  - set (l := [[Some (1, 2); Some (1, 2)]; [Some (3, 4); Some (3, 4)]] : list caps).
    assert (P : pattern [97; 44; 98; 44; 99]%Z (listed l)) by (apply listed_pattern; reflexivity).
    exists [97; 44; 98; 44; 99]%Z, l, 2%Z. eexists. split.
    + exists 1, 2, [Some (1, 2)]. split; [reflexivity|]. split; [lia|]. split; [apply (P 1 _ eq_refl)|].
      exists 3, 4, [Some (3, 4)]. split; [reflexivity|]. split; [lia|]. split; [apply (P 3 _ eq_refl)|exact I].
    + split; [repeat constructor; intros [E|[E|[]]]; discriminate|]. split; [lia|]. split; [reflexivity|discriminate].
  - assert (P : pattern [97; 98]%Z (listed (empties 3))) by (apply listed_pattern; reflexivity).
    exists [97; 98]%Z, (empties 3). eexists. split.
    + exists 0, 0, []. split; [reflexivity|]. split; [lia|]. split; [apply (P 0 _ eq_refl)|].
      exists 1, 1, []. split; [reflexivity|]. split; [lia|]. split; [apply (P 1 _ eq_refl)|].
      exists 2, 2, []. split; [reflexivity|]. split; [lia|]. split; [apply (P 2 _ eq_refl)|exact I].
    + split; [reflexivity|]. split; [discriminate|]. repeat constructor; eexists; reflexivity.
Qed.
Print Assumptions C90_split_refuted.

(** * C91: what a match tells *)
(** =~ gives the position of the leftmost match, if only ASCII characters are before it, and sets the
    variables *)
Theorem C91_index_partial : forall s here cap sp a b gs,
  at_char s 0 -> pattern s here -> engine s here cap -> found here 0 (Some (Some (a, b) :: gs)) ->
  (forall j x, j < a -> nth_error s j = Some x -> (x < 128)%Z) ->
  match_op cap s sp = Ok (Some (chars_before s a), remembered s (Some (a, b) :: gs)).
Proof.
  intros s here cap sp a b gs A P EN F AS. unfold match_op, find_one.
  rewrite (asked s here cap EN 0 _ A F). cbn [rbind].
  destruct (found_at _ _ _ _ P F) as (a' & b' & gs' & E & L & LB & H & MA). injection E as <- <- <-.
  rewrite (captures_ok _ _ _ MA). cbn [rbind get nth_error fst]. unfold get; cbn [nth_error fst].
  rewrite ascii_before by (try assumption; lia). reflexivity.
Qed.
Print Assumptions C91_index_partial.
Example C91_index_example :
  found (listed commas) 0 (Some [Some (1, 2)]) /\
  match_op (engine_of (listed commas)) [97; 44; 98; 44; 99]%Z nothing = Ok (Some 1, mksp (Some [44%Z]) (Some [98; 44; 99]%Z) []).
Proof. split; [apply (first_ok (listed commas) 5 0); intros j J; do 5 (destruct j as [|j]; [lia|]); reflexivity|reflexivity]. Qed.

(** "éa" =~ /a/ is 2 *)
Theorem C91_index_refuted : exists s here cap sp a b gs r sp',
  at_char s 0 /\ pattern s here /\ engine s here cap /\ found here 0 (Some (Some (a, b) :: gs)) /\
  match_op cap s sp = Ok (Some r, sp') /\ r <> chars_before s a.
Proof.
  set (l := [[Some (2, 3)]] : list caps).
  assert (P : pattern [195; 169; 97]%Z (listed l)) by (apply listed_pattern; reflexivity).
  exists [195; 169; 97]%Z, (listed l), (engine_of (listed l)), nothing, 2, 3, []. eexists. eexists.
  split; [at_ok|]. split; [assumption|]. split; [apply engine_of_ok; assumption|].
  split; [apply (first_ok (listed l) 4 0); intros j J; do 4 (destruct j as [|j]; [lia|]); reflexivity|].
  split; [reflexivity|]. discriminate.
Qed.
Print Assumptions C91_index_refuted.

(** a match that fails leaves the variables of the one before *)
Theorem C91_failed_refuted : exists s here cap sp sp',
  at_char s 0 /\ pattern s here /\ engine s here cap /\ found here 0 None /\
  match_op cap s sp = Ok (None, sp') /\ sp_last sp' <> None.
Proof.
  exists [97%Z], (fun _ => None), (engine_of (fun _ => None)), (mksp (Some [98%Z]) (Some []) []). eexists.
  split; [at_ok|]. split; [intros a c E; discriminate|].
  split; [apply engine_of_ok; intros a c E; discriminate|]. split; [constructor; reflexivity|].
  split; [reflexivity|discriminate].
Qed.
Print Assumptions C91_failed_refuted.

(** s.match(re, pos) searches from character [pos] on and gives the texts of the match and of its groups.
    Missing: groups that take no part, [pos] at the end. *)
Theorem C91_match_partial : forall s here cap pos sp,
  pattern s here -> engine s here cap -> pos < chars_before s (length s) ->
  exists i, at_char s i /\ chars_before s i = pos /\
    (found here i None -> match_one cap s pos sp = Ok (None, sp)) /\
    (forall c, found here i (Some c) -> took_part c ->
       exists l, match_one cap s pos sp = Ok (Some l, remembered s c) /\ map Some l = map (group_text s) c).
Proof.
  intros s here cap pos sp P EN L. pose proof (nth_char_ok s s 0 pos eq_refl ltac:(lia)) as N.
  unfold match_one. destruct (nth_char s 0 pos) as [i|]; [|cbn in N; lia].
  destruct N as (A & LI & C). exists i. split; [assumption|]. split; [assumption|]. split.
  - intros F. rewrite (asked s here cap EN i _ A F). reflexivity.
  - intros c F T. rewrite (asked s here cap EN i _ A F). cbn [rbind].
    destruct (found_at _ _ _ _ P F) as (a & b & gs & E & _ & _ & _ & MA).
    rewrite (captures_ok _ _ _ MA). cbn [rbind]. destruct (each_all _ _ _ MA T) as (l & -> & M).
    exists l. split; [reflexivity|assumption].
Qed.
Print Assumptions C91_match_partial.
(** "aéa".match(/a()/, 1) finds the second *)
Example C91_match_example :
  1 < chars_before aea (length aea) /\ match_one (engine_of (listed as_)) aea 1 nothing = Ok (Some [[97%Z]; []], mksp (Some [97%Z]) (Some []) [Some []]).
Proof. split; [vm_compute; lia|reflexivity]. Qed.

(** "b".match(/(a)|b/) panics, "".match(//) is nil *)
Theorem C91_match_refuted :
  (exists s here cap c, at_char s 0 /\ pattern s here /\ engine s here cap /\ found here 0 (Some c) /\
     match_one cap s 0 nothing = Panic) /\
  (exists s here cap c, at_char s 0 /\ pattern s here /\ engine s here cap /\ found here 0 (Some c) /\ took_part c /\
     match_one cap s 0 nothing = Ok (None, nothing)).
Proof.
  split.
  - set (l := [[Some (0, 1); None]] : list caps).
    assert (P : pattern [98%Z] (listed l)) by (apply listed_pattern; reflexivity).
    exists [98%Z], (listed l), (engine_of (listed l)), [Some (0, 1); None].
    split; [at_ok|]. split; [assumption|]. split; [apply engine_of_ok; assumption|].
    split; [apply (first_ok (listed l) 2 0); intros j J; do 2 (destruct j as [|j]; [lia|]); reflexivity|reflexivity].
  - set (l := [[Some (0, 0)]] : list caps).
    assert (P : pattern [] (listed l)) by (apply listed_pattern; reflexivity).
    exists [], (listed l), (engine_of (listed l)), [Some (0, 0)].
    split; [at_ok|]. split; [assumption|]. split; [apply engine_of_ok; assumption|].
    split; [apply (first_ok (listed l) 1 0); intros j J; destruct j as [|j]; [lia|]; reflexivity|].
    split; [intros [E|[]]; discriminate|reflexivity].
Qed.
Print Assumptions C91_match_refuted.

(** s[re, n] is the text of group n of the leftmost match, or nil.  Missing: a group counted from the
    last one that takes no part. *)
Theorem C91_pick_partial : forall s here cap sp c n,
  at_char s 0 -> pattern s here -> engine s here cap -> found here 0 (Some c) ->
  (0 <= n)%Z \/ took_part c ->
  index_regexp cap s n sp = Ok (picked s c n, remembered s c).
Proof.
  intros s here cap sp c n A P EN F T. unfold index_regexp.
  rewrite (asked s here cap EN 0 _ A F). cbn [rbind].
  destruct (found_at _ _ _ _ P F) as (a & b & gs & EC & _ & _ & _ & MA).
  rewrite (captures_ok _ _ _ MA). cbn [rbind].
  assert (G : forall k m, nth_error c k = Some (Some m) -> as_str s m = Ok (part s (fst m) (snd m))).
  { intros k [x y] E. destruct MA as (b' & gs' & -> & L & A1 & B1 & G). unfold as_str. cbn. destruct k as [|k]; cbn in E.
    - injection E as <- <-. apply slice_ok; assumption.
    - apply nth_error_In in E. destruct (G x y E) as (? & ? & ?). apply slice_ok; assumption. }
  unfold picked. destruct (n =? 0)%Z eqn:N0.
  - apply Z.eqb_eq in N0. subst n. cbn [Z.leb Z.compare Z.to_nat]. subst c. unfold whole, get; cbn [nth_error rbind].
    rewrite (G 0 _ eq_refl). reflexivity.
  - apply Z.eqb_neq in N0. destruct (0 <? n)%Z eqn:NP.
    + apply Z.ltb_lt in NP. replace (0 <=? n)%Z with true by (symmetry; apply Z.leb_le; lia).
      unfold get. destruct (nth_error c (Z.to_nat n)) as [[[x y]|]|] eqn:E; try reflexivity.
      cbn [opt_str]. rewrite (G _ _ E). reflexivity.
    + apply Z.ltb_ge in NP. replace (0 <=? n)%Z with false by (symmetry; apply Z.leb_gt; lia).
      destruct (0 <? Z.of_nat (length c) + n)%Z eqn:NL.
      * apply Z.ltb_lt in NL. replace (Z.of_nat (length c) + n <=? 0)%Z with false by (symmetry; apply Z.leb_gt; lia).
        unfold get. destruct (nth_error c (Z.to_nat (Z.of_nat (length c) + n))) as [[[x y]|]|] eqn:E.
        -- rewrite (G _ _ E). reflexivity.
        -- apply nth_error_In in E. destruct T as [T|T]; [lia|contradiction].
        -- apply nth_error_None in E. lia.
      * apply Z.ltb_ge in NL. replace (Z.of_nat (length c) + n <=? 0)%Z with true by (symmetry; apply Z.leb_le; lia). reflexivity.
Qed.
Print Assumptions C91_pick_partial.
Example C91_pick_example :
  found (listed as_) 0 (Some [Some (0, 1); Some (1, 1)]) /\ took_part [Some (0, 1); Some (1, 1)] /\
  index_regexp (engine_of (listed as_)) aea (-1) nothing = Ok (Some [], remembered aea [Some (0, 1); Some (1, 1)]) /\
  index_regexp (engine_of (listed as_)) aea (-2) nothing = Ok (None, remembered aea [Some (0, 1); Some (1, 1)]).
Proof.
  split; [apply (first_ok (listed as_) 5 0); intros j J; do 5 (destruct j as [|j]; [lia|]); reflexivity|].
  split; [intros [E|[E|[]]]; discriminate|]. split; reflexivity.
Qed.
(** "b"[/b|(a)/, -1] panics *)
Theorem C91_pick_refuted : exists s here cap c n,
  at_char s 0 /\ pattern s here /\ engine s here cap /\ found here 0 (Some c) /\
  picked s c n = None /\ index_regexp cap s n nothing = Panic.
Proof.
  set (l := [[Some (0, 1); None]] : list caps).
  assert (P : pattern [98%Z] (listed l)) by (apply listed_pattern; reflexivity).
  exists [98%Z], (listed l), (engine_of (listed l)), [Some (0, 1); None], (-1)%Z.
  split; [at_ok|]. split; [assumption|]. split; [apply engine_of_ok; assumption|].
  split; [apply (first_ok (listed l) 2 0); intros j J; do 2 (destruct j as [|j]; [lia|]); reflexivity|].
  split; reflexivity.
Qed.
Print Assumptions C91_pick_refuted.

(** after a match Regexp.last_match(n) is the text of group n or nil; $n likewise *)
Theorem C91_last_match : forall s a c n, match_at s a c -> (0 <= n)%Z ->
  last_match (remembered s c) n = Ok (picked s c n).
Proof.
  intros s a c n (b & gs & -> & _) N. unfold last_match, picked.
  replace (0 <=? n)%Z with true by (symmetry; apply Z.leb_le; lia).
  destruct (n =? 0)%Z eqn:N0; [apply Z.eqb_eq in N0; subst n; reflexivity|].
  apply Z.eqb_neq in N0. replace (n <? 0)%Z with false by (symmetry; apply Z.ltb_ge; lia).
  unfold special_match. cbn [remembered sp_groups].
  replace (Z.to_nat n) with (S (Z.to_nat n - 1)) at 2 by lia. cbn [nth_error].
  rewrite nth_error_map. destruct (nth_error gs (Z.to_nat n - 1)) as [[[x y]|]|]; reflexivity.
Qed.
Print Assumptions C91_last_match.
Example C91_last_match_example :
  match_at aea 0 [Some (0, 1); Some (1, 3); None] /\
  last_match (remembered aea [Some (0, 1); Some (1, 3); None]) 1 = Ok (Some [195; 169]%Z) /\
  last_match (remembered aea [Some (0, 1); Some (1, 3); None]) 2 = Ok None.
Proof.
  split; [|split; reflexivity].
  assert (P : pattern aea (listed [[Some (0, 1); Some (1, 3); None]])) by (apply listed_pattern; reflexivity).
  apply (P 0 _ eq_refl).
Qed.

(** slice!(re) takes the leftmost match out and gives it *)
Theorem C91_slice : forall s here cap sp c,
  at_char s 0 -> pattern s here -> engine s here cap -> found here 0 (Some c) ->
  slice_regexp cap s sp = Ok (pieces s 0 [c] [[]], Some (matched s c), remembered s c).
Proof.
  intros s here cap sp c A P EN F. unfold slice_regexp.
  rewrite (replace_once_ok s here cap P EN [] sp c [] A F tidy_nil (st_nil s c)). cbn [rbind].
  destruct (found_at _ _ _ _ P F) as (a & b & gs & EC & _ & _ & _ & MA).
  destruct (match_whole _ _ _ MA) as (b1 & gs1 & E1 & ->). cbn [rbind].
  destruct (str_ok _ _ _ MA) as (b2 & gs2 & E2 & ST). rewrite E2 in E1. injection E1 as -> ->.
  rewrite ST. reflexivity.
Qed.
Print Assumptions C91_slice.
Example C91_slice_example :
  slice_regexp (engine_of (listed commas)) [97; 44; 98; 44; 99]%Z nothing =
    Ok ([97; 98; 44; 99]%Z, Some [44%Z], mksp (Some [44%Z]) (Some [98; 44; 99]%Z) []).
Proof. reflexivity. Qed.

(** * C92: tr *)
(** with one character on both sides every such character is replaced *)
Theorem C92_tr_partial : forall s c d, str_tr s [c] [d] = map (translated [c] [d]) s.
Proof.
  intros s c d. unfold str_tr. assert (L : length s < S (length s)) by lia. revert L. generalize (S (length s)) as n.
  intros n. revert n; induction s as [|x s IH]; intros [|n] L; cbn in L; try lia; [reflexivity|].
  change (map (translated [c] [d]) (x :: s)) with (translated [c] [d] x :: map (translated [c] [d]) s).
  rewrite <- (IH n) by lia. cbn [replace_all_str starts_with]. unfold translated. cbn [place].
  destruct (c =? x)%Z; destruct s; reflexivity.
Qed.
Print Assumptions C92_tr_partial.
Example C92_tr_example : str_tr [104; 101; 108; 108; 111]%Z [108]%Z [114]%Z = [104; 101; 114; 114; 111]%Z.
Proof. reflexivity. Qed.
(** "hello".tr("el", "ip") is "hiplo", not "hippo" *)
Theorem C92_tr_refuted : exists s from to, str_tr s from to <> map (translated from to) s.
Proof. exists [104; 101; 108; 108; 111]%Z, [101; 108]%Z, [105; 112]%Z. vm_compute. discriminate. Qed.
Print Assumptions C92_tr_refuted.
(** what tr does instead: every occurrence of the text from, met from left to right, is replaced by the text to *)
Inductive replaced (from to : text) : text -> text -> Prop :=
| rd_end : replaced from to [] []
| rd_found r r' : replaced from to r r' -> replaced from to (from ++ r) (to ++ r')
| rd_kept c r r' : (forall rest, c :: r <> from ++ rest) -> replaced from to r r' -> replaced from to (c :: r) (c :: r').
Theorem C92_tr_whole_text : forall s from to, from <> [] -> replaced from to s (str_tr s from to).
Proof.
  intros s from to NE. unfold str_tr. assert (L : length s < S (length s)) by lia. revert L. generalize (S (length s)) as n.
  intros n. revert s; induction n as [|n IH]; intros s L; [lia|].
  destruct from as [|f fr] eqn:EF; [congruence|]. rewrite <- EF in *.
  cbn [replace_all_str]. rewrite EF at 2. destruct s as [|c r].
  - destruct from; [congruence|constructor].
  - destruct (starts_with (c :: r) from) eqn:E.
    + apply starts_with_spec in E. destruct E as (q & E). rewrite E.
      rewrite skipn_app, skipn_all, Nat.sub_diag. cbn [app skipn].
      apply rd_found, IH. apply (f_equal (@length _)) in E. rewrite app_length, EF in E. cbn in E, L. lia.
    + apply rd_kept; [|apply IH; cbn in L; lia].
      intros q Q. assert (starts_with (c :: r) from = true) by (apply starts_with_spec; eauto). congruence.
Qed.
Print Assumptions C92_tr_whole_text.
Example C92_tr_whole_text_ex : [101; 108]%Z <> [] /\ str_tr [101; 108; 101; 108; 108]%Z [101; 108]%Z [105]%Z = [105; 105; 108]%Z.
Proof. split; [discriminate|reflexivity]. Qed.
