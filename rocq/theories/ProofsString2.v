(* Char-wise string methods. *)
From Verif Require Import Base ProofsBase ModelArray ProofsArray ModelString ProofsString.
Ltac Zify.zify_post_hook ::= Z.div_mod_to_equations.

(* [pos] of a possibly negative index *)
Definition npos (len i : Z) : Z := if i <? 0 then len + i else i.

Lemma take_from_split cs i n : 0 <= i <= zlen cs -> 0 <= n ->
  exists a b, cs = a ++ take_from cs i n ++ b /\ zlen a = i /\ zlen (take_from cs i n) = Z.min n (zlen cs - i).
Proof.
  intros Hi Hn. exists (zfirst i cs), (zskip n (zskip i cs)). unfold take_from.
  rewrite zfirst_zskip, zfirst_zskip. split; [reflexivity|].
  rewrite !zlen_zfirst, zlen_zskip. lia.
Qed.
Lemma conv_index_spec i len : 0 <= len ->
  conv_index i len = if (0 <=? npos len i) && (npos len i <? len) then Some (npos len i) else None.
Proof.
  intros H. unfold conv_index, npos.
  destruct (Z.leb_spec 0 i), (Z.ltb_spec i 0); try lia.
  - destruct (Z.ltb_spec i len); replace (0 <=? i) with true by lia; reflexivity.
  - destruct (Z.ltb_spec (len + i) 0).
    + replace (0 <=? len + i) with false by lia. reflexivity.
    + replace (0 <=? len + i) with true by lia. replace (len + i <? len) with true by lia. reflexivity.
Qed.
Lemma str_index_in cs i : 0 <= npos (zlen cs) i < zlen cs ->
  exists a c b, cs = a ++ c :: b /\ zlen a = npos (zlen cs) i /\ str_index cs i None = Some [c].
Proof.
  intros H. unfold str_index. rewrite conv_index_spec by apply zlen_nonneg.
  replace ((0 <=? _) && _) with true by lia.
  destruct (take_from_split cs (npos (zlen cs) i) 1) as (a & b & E & Ha & Hl); [lia|lia|].
  destruct (take_from cs (npos (zlen cs) i) 1) as [|c [|d t]].
  - rewrite zlen_nil in Hl. lia.
  - exists a, c, b. auto.
  - rewrite !zlen_cons in Hl. pose proof (zlen_nonneg t). lia.
Qed.
Lemma str_index_out cs i n : ~ (0 <= npos (zlen cs) i < zlen cs) -> str_index cs i n = None.
Proof.
  intros H. unfold str_index. rewrite conv_index_spec by apply zlen_nonneg.
  replace ((0 <=? _) && _) with false by lia. reflexivity.
Qed.
Lemma str_index_len cs i n : 0 <= npos (zlen cs) i < zlen cs -> 0 <= n ->
  exists a l b, cs = a ++ l ++ b /\ zlen a = npos (zlen cs) i /\ zlen l = Z.min n (zlen cs - npos (zlen cs) i) /\
    str_index cs i (Some n) = Some l.
Proof.
  intros H Hn. unfold str_index. rewrite conv_index_spec by apply zlen_nonneg.
  replace ((0 <=? _) && _) with true by lia.
  destruct (take_from_split cs (npos (zlen cs) i) n) as (a & b & E & Ha & Hl); [lia|lia|].
  exists a, (take_from cs (npos (zlen cs) i) n), b. split; [exact E|]. split; [exact Ha|]. split; [exact Hl|].
  destruct (Z.eqb_spec n 0) as [->|].
  - reflexivity.
  - destruct (Z.ltb_spec n 0); [lia|].
    destruct (take_from cs (npos (zlen cs) i) n); [|reflexivity].
    rewrite zlen_nil in Hl. lia.
Qed.
Lemma str_index_neglen cs i n : n < 0 -> str_index cs i (Some n) = None.
Proof.
  intros H. unfold str_index. destruct (conv_index _ _); [|reflexivity].
  destruct (Z.eqb_spec n 0); [lia|]. destruct (Z.ltb_spec n 0); [reflexivity|lia].
Qed.
Lemma str_range_in cs s e ex :
  0 <= npos (zlen cs) s < zlen cs -> 0 <= npos (zlen cs) e < zlen cs -> npos (zlen cs) s <= npos (zlen cs) e ->
  exists a l b, cs = a ++ l ++ b /\ zlen a = npos (zlen cs) s /\ zlen l = npos (zlen cs) e - npos (zlen cs) s + 1 /\
    str_index_range cs s e ex = Some l.
Proof.
  intros Hs He Hse. unfold str_index_range. rewrite !conv_index_spec by apply zlen_nonneg.
  replace ((0 <=? npos (zlen cs) s) && _) with true by lia.
  replace ((0 <=? npos (zlen cs) e) && _) with true by lia.
  destruct (Z.ltb_spec (npos (zlen cs) e) (npos (zlen cs) s)); [lia|].
  destruct (take_from_split cs (npos (zlen cs) s) (npos (zlen cs) e - npos (zlen cs) s + 1)) as (a & b & E & Ha & Hl); [lia|lia|].
  eexists a, _, b. split; [exact E|]. split; [exact Ha|]. split; [lia|reflexivity].
Qed.

(* ---- slice! ---- *)
(* the chars of a string that has any *)
Definition content (s : rstring) : option (list Z) := from_utf8 (as_bytes s).
Lemma content_from cs : chars cs -> content (rs_from cs) = Some cs.
Proof. intros H. unfold content. rewrite as_bytes_from. apply from_utf8_enc. exact H. Qed.
Lemma content_as_string s cs : wf s -> content s = Some cs ->
  exists s', rs_as_string s = (s', Ok cs) /\ (s' = Str cs \/ s' = SmallStr cs) /\ as_bytes s' = as_bytes s.
Proof.
  intros W E. destruct s as [x|x|x]; cbn [wf rs_as_string] in *; unfold content in E; cbn [as_bytes] in *.
  - rewrite from_utf8_enc in E by exact W. injection E as ->. eauto.
  - rewrite from_utf8_enc in E by exact W. injection E as ->. eauto.
  - rewrite E. eexists. split; [reflexivity|]. unfold rs_from. apply from_utf8_sound in E. destruct E as [-> _].
    destruct (_ <=? _); eauto.
Qed.
Lemma content_chars s cs : content s = Some cs -> chars cs.
Proof. intros H. apply from_utf8_sound in H. apply H. Qed.
Lemma chars_app a b : chars (a ++ b) <-> chars a /\ chars b.
Proof. apply Forall_app. Qed.
Lemma content_str cs : chars cs -> content (Str cs) = Some cs.
Proof. apply from_utf8_enc. Qed.
Lemma content_small cs : chars cs -> content (SmallStr cs) = Some cs.
Proof. apply from_utf8_enc. Qed.

Lemma slice1_in s cs i : wf s -> content s = Some cs -> 0 <= npos (zlen cs) i < zlen cs ->
  exists a c b s', cs = a ++ c :: b /\ zlen a = npos (zlen cs) i /\
    str_slice1 s i = (s', Ok (Some [c])) /\ content s' = Some (a ++ b).
Proof.
  intros W E Hi. destruct (content_as_string s cs W E) as (s1 & E1 & Hs1 & _).
  pose proof (content_chars _ _ E) as Hc.
  destruct (take_from_split cs (npos (zlen cs) i) 1) as (a & b & Es & Ha & Hl); [lia|lia|].
  assert (Ht : exists c, take_from cs (npos (zlen cs) i) 1 = [c]).
  { destruct (take_from cs (npos (zlen cs) i) 1) as [|c [|d t]].
    - rewrite zlen_nil in Hl. lia.
    - eauto.
    - rewrite !zlen_cons in Hl. pose proof (zlen_nonneg t). lia. }
  destruct Ht as (c & Ht). rewrite Ht in Es. cbn [app] in Es.
  assert (Hab : zfirst (npos (zlen cs) i) cs ++ zskip (npos (zlen cs) i + 1) cs = a ++ b).
  { set (p := npos (zlen cs) i) in *. clearbody p. rewrite Es.
    rewrite zfirst_app_r by lia. rewrite (zfirst_0 (p - zlen a)) by lia. rewrite app_nil_r.
    rewrite zskip_app_r by lia. change (c :: b) with ([c] ++ b). rewrite zskip_app_r by (rewrite zlen_cons, zlen_nil; lia).
    rewrite zskip_0; [reflexivity|]. rewrite zlen_cons, zlen_nil. lia. }
  assert (Hchr : chars (a ++ b)).
  { rewrite Es in Hc. apply chars_app in Hc. destruct Hc as [H1 H2]. inversion H2; subst. apply chars_app. auto. }
  exists a, c, b.
  assert (Hci : calc_idx cs i = Some (npos (zlen cs) i)).
  { unfold calc_idx, npos in *. destruct (Z.leb_spec 0 i), (Z.ltb_spec i 0); try lia; [reflexivity|].
    destruct (Z.ltb_spec (zlen cs + i) 0); [lia|reflexivity]. }
  unfold str_slice1. rewrite E1, Hci. destruct (Z.leb_spec (zlen cs) (npos (zlen cs) i)); [lia|].
  destruct Hs1 as [-> | ->]; cbn [rs_remove]; (destruct (Z.ltb_spec (npos (zlen cs) i) (zlen cs)); [|lia]);
    rewrite Ht, Hab; eexists; (split; [exact Es|]); (split; [exact Ha|]); (split; [reflexivity|]).
  - apply content_str. exact Hchr.
  - apply content_small. exact Hchr.
Qed.
Lemma calc_idx_out cs i : ~ (0 <= npos (zlen cs) i < zlen cs) ->
  calc_idx cs i = None \/ exists k, calc_idx cs i = Some k /\ zlen cs <= k.
Proof.
  intros H. unfold calc_idx, npos in *. destruct (Z.leb_spec 0 i), (Z.ltb_spec i 0); try lia.
  - right. exists i. split; [reflexivity|lia].
  - destruct (Z.ltb_spec (zlen cs + i) 0); [left; reflexivity|]. pose proof (zlen_nonneg cs). lia.
Qed.
Lemma slice1_out s cs i : wf s -> content s = Some cs -> ~ (0 <= npos (zlen cs) i < zlen cs) ->
  exists s', str_slice1 s i = (s', Ok None) /\ content s' = Some cs.
Proof.
  intros W E Hi. destruct (content_as_string s cs W E) as (s1 & E1 & _ & Hb).
  unfold str_slice1. rewrite E1. exists s1. split; [|unfold content in *; rewrite Hb; exact E].
  destruct (calc_idx_out cs i Hi) as [->|(k & -> & Hk)]; [reflexivity|].
  destruct (Z.leb_spec (zlen cs) k); [reflexivity|lia].
Qed.
Lemma slice2_in s cs i n : wf s -> content s = Some cs -> 0 <= npos (zlen cs) i < zlen cs -> 0 < n ->
  exists a l b s', cs = a ++ l ++ b /\ zlen a = npos (zlen cs) i /\ zlen l = Z.min n (zlen cs - npos (zlen cs) i) /\
    str_slice2 s i n = (s', Ok (Some l)) /\ content s' = Some (a ++ b).
Proof.
  intros W E Hi Hn. destruct (content_as_string s cs W E) as (s1 & E1 & Hs1 & _).
  pose proof (content_chars _ _ E) as Hc.
  destruct (take_from_split cs (npos (zlen cs) i) n) as (a & b & Es & Ha & Hl); [lia|lia|].
  set (l := take_from cs (npos (zlen cs) i) n) in *.
  assert (Hci : calc_idx cs i = Some (npos (zlen cs) i)).
  { unfold calc_idx, npos in *. destruct (Z.leb_spec 0 i), (Z.ltb_spec i 0); try lia; [reflexivity|].
    destruct (Z.ltb_spec (zlen cs + i) 0); [lia|reflexivity]. }
  set (p := npos (zlen cs) i) in *.
  assert (Hab : zfirst p cs ++ [] ++ zskip (Z.min (p + n) (zlen cs)) cs = a ++ b).
  { clearbody l p. assert (Hl2 : Z.min (p + n) (zlen cs) = p + zlen l) by lia. rewrite Hl2. cbn [app]. rewrite Es.
    rewrite zfirst_app_r by lia. rewrite (zfirst_0 (p - zlen a)) by lia. rewrite app_nil_r.
    rewrite app_assoc. rewrite zskip_app_r by (rewrite zlen_app; lia).
    rewrite zskip_0; [reflexivity|]. rewrite zlen_app. lia. }
  assert (Hchr : chars (a ++ b)).
  { rewrite Es in Hc. apply chars_app in Hc. destruct Hc as [H1 H2]. apply chars_app in H2. apply chars_app. tauto. }
  exists a, l, b.
  unfold str_slice2. destruct (Z.ltb_spec n 0); [lia|]. rewrite E1, Hci. fold l.
  destruct l as [|c t] eqn:El; [rewrite zlen_nil in Hl; lia|].
  destruct Hs1 as [-> | ->]; cbn [rs_replace_range]; rewrite Hab; eexists; (split; [exact Es|]); (split; [exact Ha|]);
    (split; [exact Hl|]); (split; [reflexivity|]).
  - apply content_str. exact Hchr.
  - apply content_from. exact Hchr.
Qed.

(* ---- []= ---- *)
Lemma index_assign_in s cs start n w : s = Str cs \/ s = SmallStr cs -> chars cs -> chars w ->
  0 <= start < zlen cs -> 0 < n -> zlen cs < 2 ^ 63 -> n < 2 ^ 63 ->
  exists a l b s', cs = a ++ l ++ b /\ zlen a = start /\ zlen l = Z.min n (zlen cs - start) /\
    str_index_assign s start (Some n) w = Ok s' /\ content s' = Some (a ++ w ++ b).
Proof.
  intros Hs Hc Hw Hst Hn HL Hn2.
  destruct (take_from_split cs start n) as (a & b & Es & Ha & Hl); [lia|lia|].
  set (l := take_from cs start n) in *. clearbody l.
  assert (Hab : zfirst start cs ++ w ++ zskip (Z.min (start + n) (zlen cs)) cs = a ++ w ++ b).
  { assert (Hl2 : Z.min (start + n) (zlen cs) = start + zlen l) by lia. rewrite Hl2. rewrite Es.
    rewrite zfirst_app_r by lia. rewrite (zfirst_0 (start - zlen a)) by lia. rewrite app_nil_r.
    rewrite (app_assoc a l b). rewrite zskip_app_r by (rewrite zlen_app; lia).
    rewrite zskip_0; [reflexivity|]. rewrite zlen_app. lia. }
  assert (Hchr : chars (a ++ w ++ b)).
  { rewrite Es in Hc. apply chars_app in Hc. destruct Hc as [H1 H2]. apply chars_app in H2.
    apply chars_app. split; [tauto|]. apply chars_app. tauto. }
  exists a, l, b.
  assert (U1 : u64 start = start) by (unfold u64; rewrite Z.mod_small; lia).
  assert (U2 : u64 n = n) by (unfold u64; rewrite Z.mod_small; lia).
  assert (Hr : str_index_assign s start (Some n) w = rs_replace_range s start (Z.min (start + n) (zlen cs)) w).
  { unfold str_index_assign. assert (rs_as_str s = Ok cs) as -> by (destruct Hs as [-> | ->]; reflexivity).
    cbn [rbind]. rewrite U1, U2. destruct (Z.eqb_spec n 0); [lia|]. cbn [rbind].
    destruct (Z.leb_spec (zlen cs) start); [lia|].
    destruct (Z.leb_spec (2 ^ 64) (start + (n - 1) + 1)); [lia|].
    replace (start + (n - 1) + 1) with (start + n) by lia. reflexivity. }
  rewrite Hr.
  destruct Hs as [-> | ->]; cbn [rs_replace_range]; rewrite Hab; eexists; (split; [exact Es|]); (split; [exact Ha|]);
    (split; [exact Hl|]); (split; [reflexivity|]).
  - apply content_str. exact Hchr.
  - apply content_from. exact Hchr.
Qed.
Lemma index_assign1_in s cs start w : s = Str cs \/ s = SmallStr cs -> chars cs -> chars w ->
  0 <= start < zlen cs -> zlen cs < 2 ^ 63 ->
  exists a c b s', cs = a ++ c :: b /\ zlen a = start /\
    str_index_assign s start None w = Ok s' /\ content s' = Some (a ++ w ++ b).
Proof.
  intros Hs Hc Hw Hst HL.
  destruct (index_assign_in s cs start 1 w) as (a & l & b & s' & E & Ha & Hl & R & C); try assumption; try lia.
  destruct l as [|c [|d t]].
  - rewrite zlen_nil in Hl. lia.
  - exists a, c, b, s'. split; [exact E|]. split; [exact Ha|]. split; [|exact C].
    rewrite <- R. unfold str_index_assign. reflexivity.
  - rewrite !zlen_cons in Hl. pose proof (zlen_nonneg t). lia.
Qed.

(* ---- padding ---- *)
Lemma zlen_concat_repeat {A} (p : list A) n : zlen (concat (repeat p n)) = Z.of_nat n * zlen p.
Proof. induction n as [|n IH]; [reflexivity|]. cbn [repeat concat]. rewrite zlen_app, IH. lia. Qed.
Lemma gen_pad_len p n : p <> [] -> 0 <= n -> zlen (gen_pad p n) = n.
Proof.
  intros Hp Hn. assert (0 < zlen p) by (destruct p; [contradiction|]; rewrite zlen_cons; pose proof (zlen_nonneg p); lia).
  unfold gen_pad. rewrite zlen_app, zlen_concat_repeat, zlen_zfirst.
  set (k := zlen p) in *. assert (Hd : n = k * (n / k) + n mod k) by (apply Z.div_mod; lia).
  pose proof (Z.mod_pos_bound n k). assert (0 <= n / k) by (apply Z.div_pos; lia).
  rewrite Z2Nat.id by lia. nia.
Qed.
Lemma nth_concat_repeat {A} (p : list A) (d : A) n j : (j < n * length p)%nat ->
  nth j (concat (repeat p n)) d = nth (j mod length p) p d.
Proof.
  revert j. induction n as [|n IH]; intros j Hj; [lia|]. cbn [repeat concat].
  destruct (Nat.lt_ge_cases j (length p)) as [H|H].
  - rewrite app_nth1 by exact H. rewrite Nat.mod_small by exact H. reflexivity.
  - rewrite app_nth2 by exact H. rewrite IH by (cbn in Hj; lia).
    f_equal. replace j with ((j - length p) + 1 * length p)%nat at 2 by lia.
    rewrite Nat.mod_add by lia. reflexivity.
Qed.
Lemma gen_pad_nth p n j : p <> [] -> 0 <= n -> (j < Z.to_nat n)%nat ->
  nth j (gen_pad p n) 0 = nth (j mod length p) p 0.
Proof.
  intros Hp Hn Hj. assert (Hl : (0 < length p)%nat) by (destruct p; [contradiction|cbn; lia]).
  unfold gen_pad, zlen. set (k := length p) in *.
  set (q := Z.to_nat (n / Z.of_nat k)).
  assert (Hd : n = Z.of_nat k * (n / Z.of_nat k) + n mod Z.of_nat k) by (apply Z.div_mod; lia).
  pose proof (Z.mod_pos_bound n (Z.of_nat k)). assert (0 <= n / Z.of_nat k) by (apply Z.div_pos; lia).
  assert (Hq : Z.of_nat q = n / Z.of_nat k) by lia.
  pose proof (zlen_concat_repeat p q) as Hlen. unfold zlen in Hlen. fold k in Hlen.
  destruct (Nat.lt_ge_cases j (q * k)) as [H1|H1].
  - rewrite app_nth1 by nia. apply nth_concat_repeat. exact H1.
  - assert (Hlen' : length (concat (repeat p q)) = (q * k)%nat) by nia.
    rewrite app_nth2 by lia. rewrite Hlen'.
    assert (Hr : (j - q * k < Z.to_nat (n mod Z.of_nat k))%nat) by nia.
    unfold zfirst.
    replace (j mod k)%nat with (j - q * k)%nat.
    + set (m := Z.to_nat (n mod Z.of_nat k)) in *. clearbody m. clear - Hr.
      revert Hr. generalize (j - q * k)%nat. revert m. induction p as [|x p IH]; intros m i Hr; [destruct m; reflexivity|].
      destruct m as [|m]; [lia|]. cbn [firstn]. destruct i as [|i]; [reflexivity|]. cbn [nth]. apply IH. lia.
    + apply (Nat.mod_unique j k q); [lia|nia].
Qed.

(* ---- strip ---- *)
Lemma trim_start_split set cs : exists l, cs = l ++ trim_start_set set cs /\ Forall (fun c => In c set) l /\
  match trim_start_set set cs with [] => True | c :: _ => ~ In c set end.
Proof.
  induction cs as [|c cs IH]; [exists []; cbn; auto|]. cbn [trim_start_set].
  destruct (existsb (Z.eqb c) set) eqn:E.
  - destruct IH as (l & El & Hl & Hh). exists (c :: l). cbn [app]. rewrite <- El. split; [reflexivity|].
    split; [|exact Hh]. constructor; [|exact Hl]. apply existsb_exists in E. destruct E as (x & Hx & Ex).
    apply Z.eqb_eq in Ex. congruence.
  - exists []. split; [reflexivity|]. split; [constructor|]. intros Hin.
    assert (existsb (Z.eqb c) set = true) by (apply existsb_exists; exists c; split; [exact Hin|apply Z.eqb_refl]). congruence.
Qed.
(* [r] ends in a char outside the set, or is empty *)
Definition ends_outside (set r : list Z) : Prop := r = [] \/ exists a c, r = a ++ [c] /\ ~ In c set.
Definition starts_outside (set r : list Z) : Prop := r = [] \/ exists c a, r = c :: a /\ ~ In c set.
Lemma trim_end_split set cs : exists l, cs = trim_end_set set cs ++ l /\ Forall (fun c => In c set) l /\
  ends_outside set (trim_end_set set cs).
Proof.
  unfold trim_end_set. destruct (trim_start_split set (rev cs)) as (l & E & Hl & Hh).
  exists (rev l). split; [|split].
  - rewrite <- rev_app_distr, <- E, rev_involutive. reflexivity.
  - apply Forall_rev. exact Hl.
  - destruct (trim_start_set set (rev cs)) as [|c t]; [left; reflexivity|].
    right. exists (rev t), c. split; [reflexivity|exact Hh].
Qed.
Lemma strip_spec cs : exists l r, cs = l ++ str_strip cs ++ r /\
  Forall (fun c => In c SP1) l /\ Forall (fun c => In c SP2) r /\
  starts_outside SP1 (str_strip cs) /\ ends_outside SP2 (str_strip cs).
Proof.
  unfold str_strip. destruct (trim_end_split SP2 cs) as (r & E & Hr & He).
  set (m := trim_end_set SP2 cs) in *. clearbody m.
  destruct (trim_start_split SP1 m) as (l & El & Hl & Hs).
  exists l, r. split; [rewrite app_assoc, <- El; exact E|]. split; [exact Hl|]. split; [exact Hr|].
  split.
  - destruct (trim_start_set SP1 m) as [|c t]; [left; reflexivity|right; eauto].
  - destruct (trim_start_set SP1 m) as [|c t] eqn:Et; [left; reflexivity|].
    destruct He as [->|(a & d & -> & Hd)]; [discriminate|].
    right. assert (Hnn : c :: t <> []) by discriminate. clear Et.
    destruct (@exists_last _ (c :: t) Hnn) as (u & x & Eu). rewrite Eu in *.
    exists u, x. split; [reflexivity|]. rewrite app_assoc in El. apply app_inj_tail in El. destruct El as [_ <-]. exact Hd.
Qed.
Lemma lstrip_spec cs : exists l, cs = l ++ str_lstrip cs /\ Forall (fun c => In c SP1) l /\ starts_outside SP1 (str_lstrip cs).
Proof.
  unfold str_lstrip. destruct (trim_start_split SP1 cs) as (l & E & Hl & Hs). exists l. split; [exact E|]. split; [exact Hl|].
  destruct (trim_start_set SP1 cs); [left; reflexivity|right; eauto].
Qed.
Lemma rstrip_spec cs : exists l, cs = str_rstrip cs ++ l /\ Forall (fun c => In c SP2) l /\ ends_outside SP2 (str_rstrip cs).
Proof. apply trim_end_split. Qed.

(* ---- prefixes, suffixes ---- *)
Lemma starts_with_spec p : forall cs, starts_with cs p = true <-> exists r, cs = p ++ r.
Proof.
  induction p as [|x p IH]; intros cs; cbn [starts_with].
  - split; [intros _; exists cs; reflexivity|destruct cs; reflexivity].
  - destruct cs as [|y cs].
    + split; [discriminate|]. intros (r & E). discriminate.
    + cbn [starts_with]. rewrite andb_true_iff, IH. split.
      * intros [Ex (r & ->)]. apply Z.eqb_eq in Ex. subst. exists r. reflexivity.
      * intros (r & E). injection E as -> ->. split; [apply Z.eqb_refl|eauto].
Qed.
Lemma ends_with_spec p cs : ends_with cs p = true <-> exists r, cs = r ++ p.
Proof.
  unfold ends_with. rewrite starts_with_spec. split; intros (r & E).
  - exists (rev r). rewrite <- (rev_involutive cs), E, rev_app_distr, rev_involutive. reflexivity.
  - exists (rev r). rewrite E, rev_app_distr. reflexivity.
Qed.
Lemma contains_spec p cs : contains cs p = true <-> exists a b, cs = a ++ p ++ b.
Proof.
  induction cs as [|c cs IH]; cbn [contains].
  - rewrite orb_false_r, starts_with_spec. split.
    + intros (r & E). exists [], r. exact E.
    + intros (a & b & E). destruct a; [exists b; exact E|discriminate].
  - rewrite orb_true_iff, starts_with_spec, IH. split.
    + intros [(r & E)|(a & b & ->)]; [exists [], r; exact E|exists (c :: a), b; reflexivity].
    + intros (a & b & E). destruct a as [|x a]; [left; exists b; exact E|].
      right. injection E as -> E. exists a, b. exact E.
Qed.
Lemma chomp_spec p fuel : p <> [] -> forall cs, (length cs <= fuel)%nat ->
  exists k, cs = trim_end_str fuel p cs ++ concat (repeat p k) /\ ~ exists r, trim_end_str fuel p cs = r ++ p.
Proof.
  intros Hp. assert (Hpl : (0 < length p)%nat) by (destruct p; [contradiction|cbn; lia]).
  induction fuel as [|f IH]; intros cs Hl.
  - destruct cs; [|cbn in Hl; lia]. exists O. cbn. split; [reflexivity|]. intros (r & E).
    symmetry in E. apply app_eq_nil in E. tauto.
  - cbn [trim_end_str]. destruct p as [|x p']; [contradiction|]. set (p := x :: p') in *.
    destruct (ends_with cs p) eqn:E.
    + apply ends_with_spec in E. destruct E as (r & ->).
      rewrite zlen_app. replace (zlen r + zlen p - zlen p) with (zlen r) by lia.
      rewrite zfirst_app_l by lia. rewrite zfirst_all by lia.
      rewrite app_length in Hl. destruct (IH r) as (k & Ek & Hk); [lia|].
      exists (S k). split; [|exact Hk].
      assert (Hc : concat (repeat p (S k)) = concat (repeat p k) ++ p).
      { clear. induction k as [|k IHk]; [cbn; rewrite app_nil_r; reflexivity|].
        cbn [repeat concat] in *. rewrite IHk at 1. rewrite <- app_assoc. f_equal. }
      rewrite Hc, app_assoc, <- Ek. reflexivity.
    + exists O. cbn. rewrite app_nil_r. split; [reflexivity|]. intros H. apply ends_with_spec in H. congruence.
Qed.

(* ---- split, lines ---- *)
Definition intercal (sep : list Z) : list (list Z) -> list Z :=
  fix go l := match l with [] => [] | [x] => x | x :: r => x ++ sep ++ go r end.
Lemma intercal_cons sep x y l : intercal sep (x :: y :: l) = x ++ sep ++ intercal sep (y :: l).
Proof. reflexivity. Qed.
Lemma split_scan_nonnil p : forall cs k acc, split_scan p k acc cs <> [].
Proof.
  induction cs as [|c cs IH]; intros k acc; cbn [split_scan]; [discriminate|].
  destruct k; [|apply IH]. destruct (starts_with (c :: cs) p); [discriminate|apply IH].
Qed.
Lemma split_scan_join p : p <> [] -> forall cs k acc, (k <= length cs)%nat ->
  intercal p (split_scan p k acc cs) = rev acc ++ skipn k cs.
Proof.
  intros Hp. induction cs as [|c cs IH]; intros k acc Hk.
  - cbn in Hk. assert (k = O) by lia. subst. cbn. rewrite app_nil_r. reflexivity.
  - cbn [split_scan]. destruct k as [|k]; [|cbn in Hk; rewrite IH by lia; reflexivity].
    destruct (starts_with (c :: cs) p) eqn:E.
    + apply starts_with_spec in E. destruct E as (r & E).
      assert (Hl : (length p - 1 <= length cs)%nat).
      { assert (length (c :: cs) = length (p ++ r)) by congruence. rewrite app_length in H. cbn in H. lia. }
      specialize (IH (length p - 1)%nat [] Hl).
      destruct (split_scan p (length p - 1) [] cs) as [|y l] eqn:Es; [exfalso; eapply split_scan_nonnil; eassumption|].
      rewrite intercal_cons, IH. cbn [rev app skipn]. f_equal.
      assert (Hs : skipn (length p - 1) cs = r).
      { destruct p as [|x p']; [contradiction|]. injection E as -> ->. cbn [length].
        replace (S (length p') - 1)%nat with (length p') by lia.
        rewrite skipn_app, skipn_all, Nat.sub_diag. reflexivity. }
      rewrite Hs. symmetry. exact E.
    + rewrite IH by lia. cbn [rev skipn]. rewrite <- app_assoc. reflexivity.
Qed.
Lemma std_split_join cs p : p <> [] -> intercal p (std_split cs p) = cs.
Proof.
  intros Hp. unfold std_split. destruct p as [|x p']; [contradiction|].
  rewrite split_scan_join by (try assumption; lia). reflexivity.
Qed.
(* no piece contains the separator *)
Lemma split_scan_free p : p <> [] -> forall cs k acc,
  (forall a b, rev acc ++ skipn k cs = a ++ p ++ b -> (length acc <= length a)%nat) ->
  (k <> O -> acc = []) ->
  Forall (fun x => ~ exists a b, x = a ++ p ++ b) (split_scan p k acc cs).
Proof.
  intros Hp. assert (Hpl : (0 < length p)%nat) by (destruct p; [contradiction|cbn; lia]).
  induction cs as [|c cs IH]; intros k acc Hacc Hk.
  - cbn [split_scan]. constructor; [|constructor]. intros (a & b & E).
    destruct k as [|k]; [|rewrite Hk in E by lia; cbn in E; destruct a; [|discriminate]; destruct p; [contradiction|discriminate]].
    cbn [skipn] in Hacc. specialize (Hacc a b). rewrite app_nil_r in Hacc. specialize (Hacc E).
    assert (length (rev acc) = length (a ++ p ++ b)) by congruence. rewrite rev_length, !app_length in H. lia.
  - cbn [split_scan]. destruct k as [|k].
    2:{ apply IH; [exact Hacc|]. intros _. apply Hk. lia. }
    cbn [skipn] in Hacc.
    destruct (starts_with (c :: cs) p) eqn:E.
    + constructor; [|apply IH].
      * intros (a & b & Ea). specialize (Hacc a (b ++ c :: cs)). rewrite Ea in Hacc.
        specialize (Hacc ltac:(rewrite <- !app_assoc; reflexivity)).
        assert (length (rev acc) = length (a ++ p ++ b)) by congruence. rewrite rev_length, !app_length in H. lia.
      * cbn. lia.
      * auto.
    + apply IH; [|intros; lia].
      intros a b Eab. cbn [rev skipn] in Eab. rewrite <- app_assoc in Eab. cbn [app] in Eab.
      pose proof (Hacc a b Eab) as H1. cbn [length].
      destruct (Nat.eq_dec (length acc) (length a)) as [Hl|]; [|lia]. exfalso.
      assert (Heq : c :: cs = p ++ b).
      { assert (Hsk : skipn (length acc) (rev acc ++ c :: cs) = skipn (length acc) (a ++ p ++ b)) by congruence.
        rewrite <- (rev_length acc) in Hsk at 1. rewrite skipn_app, skipn_all, Nat.sub_diag in Hsk.
        rewrite Hl, skipn_app, skipn_all, Nat.sub_diag in Hsk. exact Hsk. }
      assert (starts_with (c :: cs) p = true) by (apply starts_with_spec; eauto). congruence.
Qed.
Lemma std_split_free cs p : p <> [] -> Forall (fun x => ~ exists a b, x = a ++ p ++ b) (std_split cs p).
Proof.
  intros Hp. unfold std_split. destruct p as [|x p']; [contradiction|].
  apply split_scan_free; [assumption|cbn; lia|auto].
Qed.
(* dropping trailing empty pieces *)
Lemma drop_empty_spec l : exists k, l = repeat [] k ++ drop_empty l /\ match drop_empty l with x :: _ => x <> [] | [] => True end.
Proof.
  induction l as [|x l IH]; [exists O; cbn; auto|].
  destruct x as [|c x]; cbn [drop_empty].
  - destruct IH as (k & E & H). exists (S k). cbn. rewrite <- E. auto.
  - exists O. split; [reflexivity|discriminate].
Qed.
Lemma split_limit0 cs sep : sep <> [32] -> exists k,
  std_split cs sep = str_split cs sep false ++ repeat [] k /\
  (str_split cs sep false = [] \/ exists l x, str_split cs sep false = l ++ [x] /\ x <> []).
Proof.
  intros Hs. unfold str_split. assert (list_eqb sep [32] = false) as ->.
  { destruct (list_eqb sep [32]) eqn:E; [apply list_eqb_spec in E; contradiction|reflexivity]. }
  destruct (drop_empty_spec (rev (std_split cs sep))) as (k & E & H).
  set (d := drop_empty (rev (std_split cs sep))) in *. clearbody d.
  exists k. split.
  - rewrite <- (rev_involutive (std_split cs sep)), E, rev_app_distr. f_equal.
    clear. induction k as [|k IH]; [reflexivity|]. cbn [repeat rev]. rewrite IH. symmetry. apply (repeat_cons k).
  - destruct d as [|x d]; [left; reflexivity|]. right. exists (rev d), x. auto.
Qed.
Lemma split_neg cs sep : sep <> [32] -> str_split cs sep true = std_split cs sep.
Proof.
  intros Hs. unfold str_split. destruct (list_eqb sep [32]) eqn:E; [apply list_eqb_spec in E; contradiction|reflexivity].
Qed.
Lemma splitn_scan_nonnil p : forall cs n k acc, splitn_scan p n k acc cs <> [].
Proof.
  induction cs as [|c cs IH]; intros n k acc; cbn [splitn_scan]; [discriminate|].
  destruct k; [|apply IH]. destruct n as [|[|n]]; [discriminate|discriminate|].
  destruct (starts_with (c :: cs) p); [discriminate|apply IH].
Qed.
Lemma splitn_scan_join p : p <> [] -> forall cs n k acc, (k <= length cs)%nat ->
  intercal p (splitn_scan p n k acc cs) = rev acc ++ skipn k cs.
Proof.
  intros Hp. induction cs as [|c cs IH]; intros n k acc Hk.
  - cbn in Hk. assert (k = O) by lia. subst. cbn. rewrite app_nil_r. reflexivity.
  - cbn [splitn_scan]. destruct k as [|k]; [|cbn in Hk; rewrite IH by lia; reflexivity].
    destruct n as [|[|n]]; [reflexivity|reflexivity|].
    destruct (starts_with (c :: cs) p) eqn:E.
    + apply starts_with_spec in E. destruct E as (r & E).
      assert (Hl : (length p - 1 <= length cs)%nat).
      { assert (length (c :: cs) = length (p ++ r)) by congruence. rewrite app_length in H. cbn in H. lia. }
      specialize (IH (S n) (length p - 1)%nat [] Hl).
      destruct (splitn_scan p (S n) (length p - 1) [] cs) as [|y l] eqn:Es; [exfalso; eapply splitn_scan_nonnil; eassumption|].
      rewrite intercal_cons, IH. cbn [rev app skipn]. f_equal.
      assert (Hs : skipn (length p - 1) cs = r).
      { destruct p as [|x p']; [contradiction|]. injection E as -> ->. cbn [length].
        replace (S (length p') - 1)%nat with (length p') by lia.
        rewrite skipn_app, skipn_all, Nat.sub_diag. reflexivity. }
      rewrite Hs. symmetry. exact E.
    + rewrite IH by lia. cbn [rev skipn]. rewrite <- app_assoc. reflexivity.
Qed.
Lemma splitn_scan_len p : forall cs n k acc, (length (splitn_scan p n k acc cs) <= Nat.max 1 n)%nat.
Proof.
  induction cs as [|c cs IH]; intros n k acc; cbn [splitn_scan]; [apply Nat.le_max_l|].
  destruct k as [|k]; [|apply IH]. destruct n as [|[|n]]; [apply Nat.le_max_l|apply Nat.le_max_l|].
  destruct (starts_with (c :: cs) p); [|apply IH]. cbn [length]. specialize (IH (S n) (length p - 1)%nat []). lia.
Qed.
(* pieces before the last are the pieces of the unlimited split *)
Lemma splitn_scan_prefix p : forall cs n k acc,
  exists l x, splitn_scan p n k acc cs = l ++ [x] /\ exists r, split_scan p k acc cs = l ++ r /\ ((length l + 1 < n)%nat -> r = [x]).
Proof.
  induction cs as [|c cs IH]; intros n k acc; cbn [splitn_scan split_scan].
  - exists [], (rev acc). split; [reflexivity|]. eexists. split; [reflexivity|reflexivity].
  - destruct k as [|k]; [|apply IH]. destruct n as [|[|n]].
    + exists [], (rev acc ++ c :: cs). split; [reflexivity|]. eexists. split; [reflexivity|]. cbn. lia.
    + exists [], (rev acc ++ c :: cs). split; [reflexivity|]. eexists. split; [reflexivity|]. cbn. lia.
    + destruct (starts_with (c :: cs) p); [|apply IH].
      destruct (IH (S n) (length p - 1)%nat []) as (l & x & E1 & r & E2 & H).
      exists (rev acc :: l), x. rewrite E1. split; [reflexivity|]. exists r. rewrite E2. split; [reflexivity|].
      intros Hl. apply H. cbn in Hl. lia.
Qed.
(* lines *)
Lemma lines_concat : forall cs acc, concat (lines_scan acc cs) = rev acc ++ cs.
Proof.
  induction cs as [|c cs IH]; intros acc; cbn [lines_scan].
  - destruct acc; [reflexivity|]. cbn [concat]. rewrite !app_nil_r. reflexivity.
  - destruct (Z.eqb_spec c 10) as [->|].
    + cbn [concat]. rewrite IH. cbn [rev app]. rewrite <- app_assoc. reflexivity.
    + rewrite IH. cbn [rev]. rewrite <- app_assoc. reflexivity.
Qed.
(* each line is text without newline, followed by a newline except perhaps in the last *)
Lemma lines_shape : forall cs acc, ~ In 10 acc ->
  exists full last, lines_scan acc cs = map (fun t => t ++ [10]) full ++ last /\
    Forall (fun t => ~ In 10 t) full /\ (last = [] \/ exists t, last = [t] /\ t <> [] /\ ~ In 10 t).
Proof.
  induction cs as [|c cs IH]; intros acc Ha; cbn [lines_scan].
  - destruct acc as [|x acc'].
    + exists [], []. split; [reflexivity|]. split; [constructor|left; reflexivity].
    + exists [], [rev (x :: acc')]. split; [reflexivity|]. split; [constructor|]. right. eexists. split; [reflexivity|].
      split; [intros E; apply (f_equal (@rev Z)) in E; rewrite rev_involutive in E; discriminate|].
      rewrite <- in_rev. exact Ha.
  - destruct (Z.eqb_spec c 10) as [->|Hc].
    + destruct (IH [] (fun H => H)) as (full & last & E & Hf & Hl).
      exists (rev acc :: full), last. rewrite E. split; [reflexivity|]. split; [|exact Hl].
      constructor; [|exact Hf]. rewrite <- in_rev. exact Ha.
    + destruct (IH (c :: acc)) as (full & last & E & Hf & Hl); [intros [H|H]; [congruence|contradiction]|].
      exists full, last. auto.
Qed.

(* ---- count ---- *)
Lemma count_fold cs : forall arg n, fold_left (fun n ch => n + zlen (filter (Z.eqb ch) cs)) arg n =
  n + fold_right (fun ch m => zlen (filter (Z.eqb ch) cs) + m) 0 arg.
Proof. induction arg as [|c arg IH]; intros n; cbn; [lia|]. rewrite IH. lia. Qed.
Definition mem (l : list Z) (c : Z) : bool := existsb (Z.eqb c) l.
Lemma mem_In l c : mem l c = true <-> In c l.
Proof.
  unfold mem. rewrite existsb_exists. split.
  - intros (x & Hx & E). apply Z.eqb_eq in E. congruence.
  - intros H. exists c. split; [exact H|apply Z.eqb_refl].
Qed.
Lemma count_spec cs arg : NoDup arg -> str_count cs arg = zlen (filter (mem arg) cs).
Proof.
  intros H. unfold str_count. rewrite count_fold, Z.add_0_l. induction H as [|c arg Hn Hd IH].
  - cbn. induction cs; [reflexivity|assumption].
  - cbn [fold_right]. rewrite IH. clear IH. induction cs as [|x cs IH]; [reflexivity|].
    cbn [filter]. change (mem (c :: arg) x) with ((x =? c) || mem arg x).
    destruct (Z.eqb_spec c x) as [->|Hne].
    + rewrite Z.eqb_refl. assert (mem arg x = false) as ->.
      { destruct (mem arg x) eqn:E; [apply mem_In in E; contradiction|reflexivity]. }
      cbn [orb]. rewrite !zlen_cons. lia.
    + destruct (Z.eqb_spec x c); [congruence|]. cbn [orb].
      destruct (mem arg x); rewrite ?zlen_cons; lia.
Qed.
