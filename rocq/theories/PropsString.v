(* Property theorems about strings: C41, C44, C57-C63. *)
From Verif Require Import Base ModelArray ModelString ProofsString ProofsString2 ProofsString3.

(* ---- C41: strings as byte sequences ---- *)
Theorem C41_eq_is_byte_equality : forall a b : rstring, rs_eq a b = true <-> as_bytes a = as_bytes b.
Proof. exact (fun a b => list_eqb_spec (as_bytes a) (as_bytes b)). Qed.
Print Assumptions C41_eq_is_byte_equality.
(* lex_lt: the right one extends the left one, or the left one has the smaller byte at the first difference *)
Theorem C41_cmp_is_dictionary_order : forall a b : rstring,
  (rs_cmp a b = Lt <-> lex_lt (as_bytes a) (as_bytes b)) /\
  (rs_cmp a b = Eq <-> as_bytes a = as_bytes b) /\
  (rs_cmp a b = Gt <-> lex_lt (as_bytes b) (as_bytes a)).
Proof. exact (fun a b => string_cmp_spec (as_bytes a) (as_bytes b)). Qed.
Print Assumptions C41_cmp_is_dictionary_order.
Lemma cmp_text a b : chars a -> chars b -> rs_cmp (rs_from a) (rs_from b) = Lt <-> lex_lt a b.
Proof.
  intros Ha Hb. unfold rs_cmp. rewrite !as_bytes_from, string_cmp_lexc, lexc_enc by assumption.
  rewrite <- string_cmp_lexc. apply string_cmp_spec.
Qed.
(* for text the byte order is the order of the code points *)
Theorem C41_cmp_text : forall a b : list Z, chars a -> chars b ->
  rs_cmp (rs_from a) (rs_from b) = Lt <-> lex_lt a b.
Proof. exact cmp_text. Qed.
Print Assumptions C41_cmp_text.
Lemma append_history l : forall s, as_bytes (fold_left str_concat l s) = as_bytes s ++ concat (map as_bytes l).
Proof.
  induction l as [|x l IH]; intros s; cbn [fold_left map concat]; [rewrite app_nil_r; reflexivity|].
  rewrite IH. unfold str_concat. rewrite as_bytes_append, <- app_assoc. reflexivity.
Qed.
(* + and any history of << *)
Theorem C41_concatenation : forall (s : rstring) (l : list rstring),
  as_bytes (fold_left str_concat l s) = as_bytes s ++ concat (map as_bytes l) /\
  forall t, as_bytes (str_add s t) = as_bytes s ++ as_bytes t.
Proof. exact (fun s l => conj (append_history l s) (fun t => as_bytes_append s t)). Qed.
Print Assumptions C41_concatenation.
Lemma concat_int s i : 0 <= i < 256 -> as_bytes (str_concat_int s i) = as_bytes s ++ [i].
Proof. intros H. unfold str_concat_int. rewrite as_bytes_append. cbn [as_bytes]. rewrite Z.mod_small by lia. reflexivity. Qed.
Theorem C41_append_byte : forall (s : rstring) (i : Z), 0 <= i < 256 ->
  as_bytes (str_concat_int s i) = as_bytes s ++ [i].
Proof. exact concat_int. Qed.
Print Assumptions C41_append_byte.
Lemma enc_concat_repeat cs n : enc (concat (repeat cs n)) = concat (repeat (enc cs) n).
Proof. induction n as [|n IH]; [reflexivity|]. cbn [repeat concat]. rewrite enc_app, IH. reflexivity. Qed.
Lemma mul_bytes s n : 0 <= n -> exists s', str_mul s n = Ok s' /\ as_bytes s' = concat (repeat (as_bytes s) (Z.to_nat n)).
Proof.
  intros H. unfold str_mul. destruct (Z.ltb_spec n 0); [lia|]. eexists. split; [reflexivity|].
  destruct s; rewrite ?as_bytes_from, ?as_bytes_from_bytes; cbn [as_bytes]; rewrite ?enc_concat_repeat; reflexivity.
Qed.
Theorem C41_repetition : forall (s : rstring) (n : Z),
  (0 <= n -> exists s', str_mul s n = Ok s' /\ as_bytes s' = concat (repeat (as_bytes s) (Z.to_nat n))) /\
  (n < 0 -> str_mul s n = Err ArgErr).
Proof.
  exact (fun s n => conj (mul_bytes s n) (fun H => match Z.ltb_lt n 0 with conj _ g =>
    eq_trans (f_equal (fun b : bool => if b then Err ArgErr else _) (g H)) eq_refl end)).
Qed.
Print Assumptions C41_repetition.
(* Missing for the full statement about hash keys: strings whose representation
   is not the one chosen for their content; see the refutation. *)
Theorem C41_keys_partial : forall a b : rstring, canonical a -> canonical b ->
  (rs_eql a b = true <-> rs_eq a b = true) /\ (rs_eql a b = true -> rs_feed a = rs_feed b).
Proof.
  exact (fun a b Ha Hb => conj
    (iff_trans (canonical_eql a b Ha Hb) (iff_sym (list_eqb_spec (as_bytes a) (as_bytes b))))
    (fun E => f_equal rs_feed (proj1 (rs_eql_true a b) E))).
Qed.
Print Assumptions C41_keys_partial.
(* literals, byte strings and concatenations have the chosen representation,
   except when two invalid byte strings are joined *)
Theorem C41_canonical_strings : 
  (forall cs, chars cs -> canonical (rs_from cs)) /\ (forall bs, canonical (rs_from_bytes bs)) /\
  (forall a b, wf a -> wf b -> canonical a -> canonical b ->
     (match a, b with Bytes _, Bytes _ => False | _, _ => True end) -> canonical (rs_append a b)).
Proof. exact (conj canonical_from (conj canonical_from_bytes canonical_append)). Qed.
Print Assumptions C41_canonical_strings.
(* "" << 0xE3 << 0x81 << 0x82 equals the literal, but not as a key *)
Theorem C41_keys_refuted : exists (l : list Z) (t : rstring),
  Forall (fun i => 0 <= i < 256) l /\ t = rs_from [0x3042] /\
  rs_eq (fold_left str_concat_int l (rs_from [])) t = true /\
  rs_eql (fold_left str_concat_int l (rs_from [])) t = false /\
  rs_feed (fold_left str_concat_int l (rs_from [])) <> rs_feed t.
Proof.
  exists [0xe3; 0x81; 0x82], (rs_from [0x3042]).
  split; [repeat constructor; lia|]. split; [reflexivity|]. split; [reflexivity|]. split; [reflexivity|discriminate].
Qed.
Print Assumptions C41_keys_refuted.
(* a long literal cut down to a short one *)
Theorem C41_keys_refuted_slice : exists (cs : list Z) (n : Z) (s' t : rstring) (r : option (list Z)),
  str_slice2 (rs_from cs) 1 n = (s', Ok r) /\ rs_eq s' t = true /\ canonical t /\ rs_eql s' t = false.
Proof.
  exists (repeat 97 40), 100, (Str [97]), (SmallStr [97]), (Some (repeat 97 39)).
  repeat split; vm_compute; reflexivity.
Qed.
Print Assumptions C41_keys_refuted_slice.
Example C41_ex : rs_cmp (rs_from [97; 98]) (rs_from [97; 0x3042]) = Lt /\
  rs_append (rs_from (repeat 97 20)) (rs_from (repeat 98 12)) = Str (repeat 97 20 ++ repeat 98 12) /\
  canonical (rs_from (repeat 97 32)) /\ canonical (Bytes [0xff]) /\ chars [0x3042; 0x1f600].
Proof. repeat split; try (vm_compute; reflexivity). repeat constructor. Qed.

(* ---- C44: inspect ---- *)
(* Missing for the full statement: text in which # is followed by {, $ or @,
   and byte strings that are not UTF-8; see the refutation. *)
Theorem C44_inspect_reads_back_partial : forall (lossy : list Z -> list Z) (s : rstring) (cs rest : list Z),
  s = Str cs \/ s = SmallStr cs -> chars cs -> no_interp cs ->
  read_string_literal (str_inspect lossy s ++ rest) = SFinished cs rest.
Proof. exact (fun lossy s cs rest Hs Hc Hn => read_inspect lossy s cs rest Hs Hc Hn). Qed.
Print Assumptions C44_inspect_reads_back_partial.
Lemma inspect_inj lossy a b cs ds : (a = Str cs \/ a = SmallStr cs) -> (b = Str ds \/ b = SmallStr ds) ->
  chars cs -> chars ds -> str_inspect lossy a = str_inspect lossy b -> cs = ds.
Proof.
  intros Ha Hb Hc Hd E. apply esc_inj; try assumption.
  assert (Ea : str_inspect lossy a = DQ :: flat_map esc1 cs ++ [DQ]) by (destruct Ha as [-> | ->]; reflexivity).
  assert (Eb : str_inspect lossy b = DQ :: flat_map esc1 ds ++ [DQ]) by (destruct Hb as [-> | ->]; reflexivity).
  rewrite Ea, Eb in E. injection E as E. apply app_inj_tail in E. apply E.
Qed.
Theorem C44_inspect_injective : forall (lossy : list Z -> list Z) (a b : rstring) (cs ds : list Z),
  a = Str cs \/ a = SmallStr cs -> b = Str ds \/ b = SmallStr ds -> chars cs -> chars ds ->
  str_inspect lossy a = str_inspect lossy b -> cs = ds.
Proof. exact inspect_inj. Qed.
Print Assumptions C44_inspect_injective.
(* the four chars #{1} in single quotes: inspect does not escape the # *)
Theorem C44_inspect_refuted : exists cs : list Z, chars cs /\ forall lossy, exists s r,
  read_string_literal (str_inspect lossy (rs_from cs)) = SInterp s r.
Proof. exists [35; 123; 49; 125]. split; [repeat constructor|]. intros lossy. eexists. eexists. reflexivity. Qed.
Print Assumptions C44_inspect_refuted.
Example C44_ex : str_inspect (fun l => l) (rs_from [97; 34; 92; 10; 1; 35]) = [34; 97; 92; 34; 92; 92; 92; 110; 92; 120; 48; 49; 35; 34] /\
  chars [97; 34; 92; 10; 1; 35] /\ no_interp [97; 34; 92; 10; 1; 35].
Proof. split; [reflexivity|]. split; [repeat constructor|]. cbn. repeat split; lia. Qed.

(* ---- C57: character references ---- *)
(* npos len i is i, or len + i for a negative i *)
Theorem C57_char_at : forall (cs : list Z) (i : Z),
  (0 <= npos (zlen cs) i < zlen cs ->
     exists a c b, cs = a ++ c :: b /\ zlen a = npos (zlen cs) i /\ str_index cs i None = Some [c]) /\
  (~ (0 <= npos (zlen cs) i < zlen cs) -> str_index cs i None = None).
Proof. exact (fun cs i => conj (str_index_in cs i) (fun H => str_index_out cs i None H)). Qed.
Print Assumptions C57_char_at.
(* Missing for the full statement: a start equal to the length; see the refutation. *)
Theorem C57_substring_partial : forall (cs : list Z) (i n : Z),
  (0 <= npos (zlen cs) i < zlen cs -> 0 <= n ->
     exists a l b, cs = a ++ l ++ b /\ zlen a = npos (zlen cs) i /\
       zlen l = Z.min n (zlen cs - npos (zlen cs) i) /\ str_index cs i (Some n) = Some l) /\
  (npos (zlen cs) i < 0 \/ zlen cs < npos (zlen cs) i -> str_index cs i (Some n) = None) /\
  (n < 0 -> str_index cs i (Some n) = None).
Proof.
  exact (fun cs i n => conj (str_index_len cs i n) (conj
    (fun H => str_index_out cs i (Some n) (fun K => match H with
       | or_introl h => Z.lt_irrefl _ (Z.lt_le_trans _ _ _ h (proj1 K))
       | or_intror h => Z.lt_irrefl _ (Z.lt_trans _ _ _ h (proj2 K)) end))
    (str_index_neglen cs i n))).
Qed.
Print Assumptions C57_substring_partial.
(* "abc"[3, 1] is nil where the empty string is expected *)
Theorem C57_substring_refuted : exists (cs : list Z) (n : Z), 0 <= n /\ str_index cs (zlen cs) (Some n) <> Some [].
Proof. exists [97; 98; 99], 1. split; [lia|discriminate]. Qed.
Print Assumptions C57_substring_refuted.
(* Missing for the full statement: exclusive ranges and ranges ending past the
   end; see the refutations. *)
Theorem C57_range_partial : forall (cs : list Z) (s e : Z),
  0 <= npos (zlen cs) s < zlen cs -> 0 <= npos (zlen cs) e < zlen cs -> npos (zlen cs) s <= npos (zlen cs) e ->
  exists a l b, cs = a ++ l ++ b /\ zlen a = npos (zlen cs) s /\
    zlen l = npos (zlen cs) e - npos (zlen cs) s + 1 /\ str_index_range cs s e false = Some l.
Proof. exact (fun cs s e Hs He Hse => str_range_in cs s e false Hs He Hse). Qed.
Print Assumptions C57_range_partial.
(* "abc"[0...1] is "ab" *)
Theorem C57_exclusive_range_refuted : exists (cs : list Z) (s e : Z),
  0 <= s <= e /\ e < zlen cs /\ str_index_range cs s e true = Some (take_from cs s (e - s + 1)) /\
  take_from cs s (e - s + 1) <> take_from cs s (e - s).
Proof. exists [97; 98; 99], 0, 1. repeat split; try lia; try reflexivity. vm_compute. discriminate. Qed.
Print Assumptions C57_exclusive_range_refuted.
(* "abc"[0..10] is nil *)
Theorem C57_long_range_refuted : exists (cs : list Z) (e : Z), cs <> [] /\ 0 <= e /\ str_index_range cs 0 e false = None.
Proof. exists [97; 98; 99], 10. repeat split; try lia; try discriminate. Qed.
Print Assumptions C57_long_range_refuted.
Example C57_ex : str_index [97; 98; 99] (-1) None = Some [99] /\ str_index [97; 98; 99] 1 (Some 9) = Some [98; 99] /\
  npos (zlen [97; 98; 99]) (-1) = 2.
Proof. repeat split. Qed.

(* ---- C58: slice! and []= ---- *)
(* content s: the text of s *)
Theorem C58_slice_bang_char : forall (s : rstring) (cs : list Z) (i : Z), wf s -> content s = Some cs ->
  (0 <= npos (zlen cs) i < zlen cs -> exists a c b s', cs = a ++ c :: b /\ zlen a = npos (zlen cs) i /\
     str_slice1 s i = (s', Ok (Some [c])) /\ content s' = Some (a ++ b)) /\
  (~ (0 <= npos (zlen cs) i < zlen cs) -> exists s', str_slice1 s i = (s', Ok None) /\ content s' = Some cs).
Proof. exact (fun s cs i W E => conj (slice1_in s cs i W E) (slice1_out s cs i W E)). Qed.
Print Assumptions C58_slice_bang_char.
Theorem C58_slice_bang_substring : forall (s : rstring) (cs : list Z) (i n : Z), wf s -> content s = Some cs ->
  0 <= npos (zlen cs) i < zlen cs -> 0 < n ->
  exists a l b s', cs = a ++ l ++ b /\ zlen a = npos (zlen cs) i /\ zlen l = Z.min n (zlen cs - npos (zlen cs) i) /\
    str_slice2 s i n = (s', Ok (Some l)) /\ content s' = Some (a ++ b).
Proof. exact (fun s cs i n W E Hi Hn => slice2_in s cs i n W E Hi Hn). Qed.
Print Assumptions C58_slice_bang_substring.
(* Missing for the full statement: negative positions, length 0, and strings
   held as bytes; see the refutations. *)
Theorem C58_assign_partial : forall (s : rstring) (cs : list Z) (i n : Z) (w : list Z),
  s = Str cs \/ s = SmallStr cs -> chars cs -> chars w -> 0 <= i < zlen cs -> 0 < n -> zlen cs < 2 ^ 63 -> n < 2 ^ 63 ->
  (exists a l b s', cs = a ++ l ++ b /\ zlen a = i /\ zlen l = Z.min n (zlen cs - i) /\
     str_index_assign s i (Some n) w = Ok s' /\ content s' = Some (a ++ w ++ b)) /\
  (exists a c b s', cs = a ++ c :: b /\ zlen a = i /\
     str_index_assign s i None w = Ok s' /\ content s' = Some (a ++ w ++ b)).
Proof.
  exact (fun s cs i n w Hs Hc Hw Hi Hn H1 H2 =>
    conj (index_assign_in s cs i n w Hs Hc Hw Hi Hn H1 H2) (index_assign1_in s cs i w Hs Hc Hw Hi H1)).
Qed.
Print Assumptions C58_assign_partial.
(* s[1, 0] = "x" crashes the interpreter, s[-1] = "x" raises IndexError *)
Theorem C58_assign_refuted : exists s : rstring, content s = Some [97; 98; 99] /\
  str_index_assign s 1 (Some 0) [120] = Panic /\ str_index_assign s (-1) None [120] = Err IndexErr.
Proof. exists (rs_from [97; 98; 99]). repeat split; vm_compute; reflexivity. Qed.
Print Assumptions C58_assign_refuted.
Example C58_ex : wf (Bytes (enc [97; 0x3042; 98])) /\ content (Bytes (enc [97; 0x3042; 98])) = Some [97; 0x3042; 98] /\
  str_slice1 (Bytes (enc [97; 0x3042; 98])) (-2) = (SmallStr [97; 98], Ok (Some [0x3042])) /\
  str_index_assign (SmallStr [97; 98; 99]) 1 (Some 5) [120; 121] = Ok (SmallStr [97; 120; 121]).
Proof. split; [repeat constructor|]. repeat split; vm_compute; reflexivity. Qed.

(* ---- C59: ljust, rjust, center ---- *)
Lemma just_spec cs width p : p <> [] ->
  exists l r, str_ljust cs width p = Ok (cs ++ r) /\ str_rjust cs width p = Ok (r ++ cs) /\
    zlen r = Z.max 0 (width - zlen cs) /\ (forall j, (j < length r)%nat -> nth j r 0 = nth (j mod length p) p 0) /\
    exists q, str_center cs width p = Ok (l ++ cs ++ q) /\
    zlen l + zlen q = Z.max 0 (width - zlen cs) /\ zlen l <= zlen q <= zlen l + 1 /\
    (forall j, (j < length l)%nat -> nth j l 0 = nth (j mod length p) p 0) /\
    (forall j, (j < length q)%nat -> nth j q 0 = nth (j mod length p) p 0).
Proof.
  intros Hp. unfold str_ljust, str_rjust, str_center. destruct p as [|x p']; [contradiction|]. set (p := x :: p') in *.
  pose proof (ProofsArray.zlen_nonneg cs) as Hz.
  destruct ((width <=? 0) || (width <=? zlen cs)) eqn:E.
  - exists [], []. rewrite app_nil_r. split; [reflexivity|]. split; [reflexivity|]. split; [cbn; lia|].
    split; [cbn; lia|]. exists []. rewrite app_nil_r. split; [reflexivity|]. cbn. repeat split; try lia.
  - set (d := width - zlen cs). assert (Hd : 0 < d) by lia.
    exists (gen_pad p (d / 2)), (gen_pad p d).
    assert (H2 : 0 <= d / 2 <= d) by (split; [apply Z.div_pos; lia|apply Z.div_le_upper_bound; lia]).
    assert (Hm : d = 2 * (d / 2) + d mod 2) by (apply Z.div_mod; lia). pose proof (Z.mod_pos_bound d 2 ltac:(lia)).
    assert (G : forall n, 0 <= n -> forall j, (j < length (gen_pad p n))%nat -> nth j (gen_pad p n) 0 = nth (j mod length p) p 0).
    { intros n Hn j Hj. apply gen_pad_nth; try assumption. pose proof (gen_pad_len p n Hp Hn) as HL. unfold zlen in HL. lia. }
    split; [reflexivity|]. split; [reflexivity|]. split; [rewrite gen_pad_len by (try assumption; lia); lia|].
    split; [apply G; lia|]. exists (gen_pad p (d - d / 2)). split; [reflexivity|].
    rewrite !gen_pad_len by (try assumption; lia). split; [lia|]. split; [lia|]. split; apply G; lia.
Qed.
(* the padding is cut from the repeated pad string; center puts the odd char on the right *)
Theorem C59_padding : forall (cs : list Z) (width : Z) (p : list Z), p <> [] ->
  exists l r, str_ljust cs width p = Ok (cs ++ r) /\ str_rjust cs width p = Ok (r ++ cs) /\
    zlen r = Z.max 0 (width - zlen cs) /\ (forall j, (j < length r)%nat -> nth j r 0 = nth (j mod length p) p 0) /\
    exists q, str_center cs width p = Ok (l ++ cs ++ q) /\
    zlen l + zlen q = Z.max 0 (width - zlen cs) /\ zlen l <= zlen q <= zlen l + 1 /\
    (forall j, (j < length l)%nat -> nth j l 0 = nth (j mod length p) p 0) /\
    (forall j, (j < length q)%nat -> nth j q 0 = nth (j mod length p) p 0).
Proof. exact just_spec. Qed.
Print Assumptions C59_padding.
Theorem C59_empty_padding : forall (cs : list Z) (width : Z),
  str_ljust cs width [] = Err ArgErr /\ str_rjust cs width [] = Err ArgErr /\ str_center cs width [] = Err ArgErr.
Proof. exact (fun cs width => conj eq_refl (conj eq_refl eq_refl)). Qed.
Print Assumptions C59_empty_padding.
Example C59_ex : str_ljust [97] 6 [49; 50] = Ok [97; 49; 50; 49; 50; 49] /\ str_center [97] 4 [49; 50] = Ok [49; 97; 49; 50].
Proof. split; reflexivity. Qed.

(* ---- C60: strip, lstrip, rstrip, chomp, start_with?, end_with?, include? ---- *)
Theorem C60_strip : forall cs : list Z,
  (exists l r, cs = l ++ str_strip cs ++ r /\ Forall (fun c => In c [32; 10; 9; 13; 12; 11]) l /\
     Forall (fun c => In c [32; 10; 9; 13; 12; 11; 0]) r /\
     starts_outside [32; 10; 9; 13; 12; 11] (str_strip cs) /\ ends_outside [32; 10; 9; 13; 12; 11; 0] (str_strip cs)) /\
  (exists l, cs = l ++ str_lstrip cs /\ Forall (fun c => In c [32; 10; 9; 13; 12; 11]) l /\
     starts_outside [32; 10; 9; 13; 12; 11] (str_lstrip cs)) /\
  (exists r, cs = str_rstrip cs ++ r /\ Forall (fun c => In c [32; 10; 9; 13; 12; 11; 0]) r /\
     ends_outside [32; 10; 9; 13; 12; 11; 0] (str_rstrip cs)).
Proof. exact (fun cs => conj (strip_spec cs) (conj (lstrip_spec cs) (rstrip_spec cs))). Qed.
Print Assumptions C60_strip.
(* Missing for the full statement: at most one separator should go (k <= 1); see the refutation. *)
Theorem C60_chomp_partial : forall cs p : list Z, p <> [] ->
  exists k, cs = str_chomp cs p ++ concat (repeat p k) /\ ~ exists r, str_chomp cs p = r ++ p.
Proof. exact (fun cs p Hp => chomp_spec p (length cs) Hp cs (le_n _)). Qed.
Print Assumptions C60_chomp_partial.
(* "a\n\n".chomp is "a" *)
Theorem C60_chomp_refuted : exists cs r p : list Z, p <> [] /\ cs = r ++ p /\ str_chomp cs p <> r.
Proof. exists [97; 10; 10], [97; 10], [10]. repeat split; vm_compute; discriminate. Qed.
Print Assumptions C60_chomp_refuted.
Theorem C60_search : forall cs p : list Z,
  (starts_with cs p = true <-> exists r, cs = p ++ r) /\ (ends_with cs p = true <-> exists r, cs = r ++ p) /\
  (contains cs p = true <-> exists a b, cs = a ++ p ++ b).
Proof. exact (fun cs p => conj (starts_with_spec p cs) (conj (ends_with_spec p cs) (contains_spec p cs))). Qed.
Print Assumptions C60_search.
Example C60_ex : str_strip [32; 0; 97; 32; 98; 0; 10] = [0; 97; 32; 98] /\ str_chomp [97; 120] [10] = [97; 120] /\
  contains [97; 98; 99; 98] [98; 99] = true.
Proof. repeat split; reflexivity. Qed.

(* ---- C61: split and lines ---- *)
Lemma split_all cs sep : sep <> [] -> sep <> [32] ->
  intercal sep (str_split cs sep true) = cs /\ Forall (fun x => ~ exists a b, x = a ++ sep ++ b) (str_split cs sep true).
Proof. intros H1 H2. rewrite split_neg by exact H2. split; [apply std_split_join|apply std_split_free]; exact H1. Qed.
(* with a negative limit: joining gives the string back, no piece contains the separator *)
Theorem C61_split_all : forall cs sep : list Z, sep <> [] -> sep <> [32] ->
  intercal sep (str_split cs sep true) = cs /\ Forall (fun x => ~ exists a b, x = a ++ sep ++ b) (str_split cs sep true).
Proof. exact split_all. Qed.
Print Assumptions C61_split_all.
Lemma split_default cs sep : sep <> [32] -> exists k,
  str_split cs sep true = str_split cs sep false ++ repeat [] k /\
  (str_split cs sep false = [] \/ exists l x, str_split cs sep false = l ++ [x] /\ x <> []).
Proof. intros H. rewrite split_neg by exact H. apply split_limit0. exact H. Qed.
(* without a limit exactly the trailing empty pieces are dropped *)
Theorem C61_split_default : forall cs sep : list Z, sep <> [32] -> exists k,
  str_split cs sep true = str_split cs sep false ++ repeat [] k /\
  (str_split cs sep false = [] \/ exists l x, str_split cs sep false = l ++ [x] /\ x <> []).
Proof. exact split_default. Qed.
Print Assumptions C61_split_default.
Lemma split_limit cs sep n : sep <> [] -> sep <> [32] -> 0 < n ->
  intercal sep (str_splitn cs sep n) = cs /\ zlen (str_splitn cs sep n) <= n /\
  exists l x r, str_splitn cs sep n = l ++ [x] /\ str_split cs sep true = l ++ r /\ (zlen l + 1 < n -> r = [x]).
Proof.
  intros H1 H2 Hn. unfold str_splitn. split; [|split].
  - rewrite splitn_scan_join by (try assumption; lia). reflexivity.
  - pose proof (splitn_scan_len sep cs (Z.to_nat n) 0 []) as H. unfold zlen. lia.
  - destruct (splitn_scan_prefix sep cs (Z.to_nat n) 0 []) as (l & x & E & r & Er & Hr).
    exists l, x, r. split; [exact E|]. rewrite split_neg by exact H2. unfold std_split.
    destruct sep as [|s0 sep']; [contradiction|]. split; [exact Er|]. intros Hl. apply Hr. unfold zlen in Hl. lia.
Qed.
(* a positive limit gives at most that many pieces, the last one is the unsplit rest *)
Theorem C61_split_limit : forall (cs sep : list Z) (n : Z), sep <> [] -> sep <> [32] -> 0 < n ->
  intercal sep (str_splitn cs sep n) = cs /\ zlen (str_splitn cs sep n) <= n /\
  exists l x r, str_splitn cs sep n = l ++ [x] /\ str_split cs sep true = l ++ r /\ (zlen l + 1 < n -> r = [x]).
Proof. exact split_limit. Qed.
Print Assumptions C61_split_limit.
(* "a  b".split(" ") keeps an empty piece where runs of blanks should count once *)
Theorem C61_split_blank_refuted : exists cs : list Z, In [] (str_split cs [32] false).
Proof. exists [97; 32; 32; 98]. cbn. auto. Qed.
Print Assumptions C61_split_blank_refuted.
Lemma lines_spec cs : concat (str_lines cs) = cs /\ exists full last,
  str_lines cs = map (fun t => t ++ [10]) full ++ last /\ Forall (fun t => ~ In 10 t) full /\
  (last = [] \/ exists t, last = [t] /\ t <> [] /\ ~ In 10 t).
Proof. split; [apply (lines_concat cs [])|apply (lines_shape cs []); auto]. Qed.
Theorem C61_lines : forall cs : list Z, concat (str_lines cs) = cs /\ exists full last,
  str_lines cs = map (fun t => t ++ [10]) full ++ last /\ Forall (fun t => ~ In 10 t) full /\
  (last = [] \/ exists t, last = [t] /\ t <> [] /\ ~ In 10 t).
Proof. exact lines_spec. Qed.
Print Assumptions C61_lines.
Example C61_ex : str_split [97; 44; 44; 98; 44] [44] true = [[97]; []; [98]; []] /\
  str_split [97; 44; 44; 98; 44] [44] false = [[97]; []; [98]] /\
  str_splitn [97; 44; 44; 98; 44] [44] 2 = [[97]; [44; 98; 44]] /\ str_lines [97; 10; 10; 98] = [[97; 10]; [10]; [98]].
Proof. repeat split; reflexivity. Qed.

(* ---- C62: succ ---- *)
(* rv: the number a string denotes when its digits and letters count from the
   right (letters a=1..z=26), other chars standing for nothing. alnum is the
   Unicode table; the chars must be ASCII or full-width letters and digits
   (alphabet), or not alphanumeric. *)
Theorem C62_succ_counts : forall (alnum : Z -> bool) (cs : list Z),
  (forall c, In c cs -> (alphabet c = None <-> alnum c = false)) ->
  (exists c, In c cs /\ alphabet c <> None) ->
  exists cs', str_next alnum cs = Ok cs' /\ rv (rev cs') = rv (rev cs) + 1 /\
    (Forall2 same_shape cs cs' \/
     exists a b b' f c t, cs = a ++ b /\ cs' = a ++ f :: b' /\ b' = c :: t /\ Forall2 same_shape b b' /\
       Forall (fun c => alphabet c = None) a /\ alphabet f = alphabet c /\ alphabet c <> None).
Proof. exact succ_counts. Qed.
Print Assumptions C62_succ_counts.
(* the last char before the surrogates, and the last char, crash the interpreter *)
Theorem C62_succ_refuted : forall alnum : Z -> bool, exists c d : Z,
  is_char c = true /\ is_char d = true /\ alphabet c = None /\ alphabet d = None /\
  str_next alnum [c] = Panic /\ str_next alnum [d] = Panic.
Proof.
  intros alnum. exists 0xd7ff, 0x10ffff. repeat split.
  - destruct (alnum 0xd7ff) eqn:E; cbn; rewrite E; reflexivity.
  - destruct (alnum 0x10ffff) eqn:E; cbn; rewrite E; reflexivity.
Qed.
Print Assumptions C62_succ_refuted.
Definition ascii_alnum (c : Z) : bool := between 48 c 57 || between 97 c 122 || between 65 c 90.
Example C62_ex : str_next ascii_alnum [65; 122; 57] = Ok [66; 97; 48] /\ str_next ascii_alnum [90; 122] = Ok [65; 65; 97] /\
  str_next ascii_alnum [45; 57; 46; 57] = Ok [45; 49; 48; 46; 48] /\ rv (rev [49; 50; 57]) = 129 /\
  (forall c, In c [65; 122; 57] -> (alphabet c = None <-> ascii_alnum c = false)).
Proof. repeat split; intros; cbn in *; destruct H as [<-|[<-|[<-|[]]]]; discriminate. Qed.

(* ---- C63: count ---- *)
(* Missing for the full statement: repeated chars in the argument, ranges and
   negation in the argument; see the refutation. *)
Theorem C63_count_partial : forall cs arg : list Z, NoDup arg -> str_count cs arg = zlen (filter (mem arg) cs).
Proof. exact count_spec. Qed.
Print Assumptions C63_count_partial.
(* "a".count("aa") is 2 *)
Theorem C63_count_refuted : exists cs arg : list Z, zlen cs < str_count cs arg.
Proof. exists [97], [97; 97]. reflexivity. Qed.
Print Assumptions C63_count_refuted.
Example C63_ex : str_count [97; 98; 97; 99] [97; 99] = 3 /\ NoDup [97; 99].
Proof. split; [reflexivity|]. repeat constructor; cbn; intuition lia. Qed.
