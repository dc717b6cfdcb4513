(* C100: String#% *)
From Verif Require Import Base ModelArray ModelText ModelFormat SpecFormat.

Lemma zlen_app' {A} (a b : list A) : zlen (a ++ b) = zlen a + zlen b.
Proof. unfold zlen. rewrite app_length. lia. Qed.
Lemma zlen_repeat {A} (x : A) k : zlen (repeat x k) = Z.of_nat k.
Proof. unfold zlen. rewrite repeat_length. reflexivity. Qed.

(* ---- digits ---- *)
Definition upper (k : kind) : bool := match k with HexUp => true | _ => false end.
Lemma digit_stands k d : k <> Str -> 0 <= d < base k -> stands_for k (digit_char (upper k) d) d.
Proof.
  intros Hk H. unfold digit_char. destruct (d <? 10) eqn:E.
  - replace d with (48 + d - 48) at 2 by lia. apply S_digit. lia.
  - destruct k; cbn in H; try lia; try congruence; cbn.
    + replace d with (87 + d - 97 + 10) at 2 by lia. apply S_lower; [reflexivity|lia].
    + replace d with (55 + d - 65 + 10) at 2 by lia. apply S_upper; [reflexivity|lia].
Qed.
(* reading on from a prefix *)
Inductive goes_on (k : kind) : Z -> chars -> Z -> Prop :=
| O_none n : goes_on k n [] n
| O_more n c d ds m : stands_for k c d -> d < base k -> goes_on k (n * base k + d) ds m -> goes_on k n (c :: ds) m.
Lemma goes_positional k n ds m : goes_on k n ds m -> forall p, positional k p n -> positional k (p ++ ds) m.
Proof.
  induction 1 as [n|n c d ds m H1 H2 H IH]; intros p Hp.
  - rewrite app_nil_r. exact Hp.
  - replace (p ++ c :: ds) with ((p ++ [c]) ++ ds) by (rewrite <- app_assoc; reflexivity). apply IH. apply P_more; assumption.
Qed.
Lemma positional_goes k p n : positional k p n -> forall ds m, goes_on k n ds m -> goes_on k 0 (p ++ ds) m.
Proof.
  induction 1 as [|p n c d H IH H1 H2]; intros ds m G; [exact G|].
  rewrite <- app_assoc. cbn. apply IH. econstructor; eassumption.
Qed.
Lemma udigits_goes k (Hk : k <> Str) : forall fuel n acc m, 0 <= n < base k ^ Z.of_nat fuel -> (0 < fuel)%nat -> goes_on k n acc m ->
  goes_on k 0 (udigits fuel (base k) (upper k) n acc) m.
Proof.
  assert (Hb : 2 <= base k) by (destruct k; cbn; try lia; congruence).
  induction fuel as [|fuel IH]; intros n acc m Hn Hf G; [lia|]. cbn [udigits].
  pose proof (Z.mod_pos_bound n (base k)) as Hm. pose proof (Z.div_mod n (base k)) as Hd.
  assert (G' : goes_on k (n / base k) (digit_char (upper k) (n mod base k) :: acc) m).
  { econstructor; [apply digit_stands; [exact Hk|lia]|lia|]. replace (n / base k * base k + n mod base k) with n by lia. exact G. }
  destruct (n / base k =? 0) eqn:E.
  - replace (n / base k) with 0 in G' by lia. exact G'.
  - destruct fuel as [|fuel].
    + exfalso. change (Z.of_nat 1) with 1 in Hn. rewrite Z.pow_1_r in Hn. rewrite Z.div_small in E by lia. lia.
    + apply IH; [|lia|exact G']. split; [apply Z.div_pos; lia|]. apply Z.div_lt_upper_bound; [lia|].
      rewrite <- Z.pow_succ_r by lia. replace (Z.succ (Z.of_nat (S fuel))) with (Z.of_nat (S (S fuel))) by lia. lia.
Qed.
Lemma udigits_head k (Hk : k <> Str) : forall fuel n acc, 0 <= n < base k ^ Z.of_nat fuel -> (0 < fuel)%nat ->
  exists c r, udigits fuel (base k) (upper k) n acc = c :: r /\ (c = 48 -> n = 0 /\ r = acc).
Proof.
  assert (Hb : 2 <= base k) by (destruct k; cbn; try lia; congruence).
  induction fuel as [|fuel IH]; intros n acc Hn Hf; [lia|]. cbn [udigits].
  pose proof (Z.mod_pos_bound n (base k)) as Hm. pose proof (Z.div_mod n (base k)) as Hd.
  destruct (n / base k =? 0) eqn:E.
  - eexists _, _. split; [reflexivity|]. intros Hc. split; [|reflexivity].
    assert (n mod base k = 0). { unfold digit_char in Hc. destruct (n mod base k <? 10) eqn:E2; [lia|]. destruct (upper k); lia. } lia.
  - destruct fuel as [|fuel].
    + exfalso. change (Z.of_nat 1) with 1 in Hn. rewrite Z.pow_1_r in Hn. rewrite Z.div_small in E by lia. lia.
    + destruct (IH (n / base k) (digit_char (upper k) (n mod base k) :: acc)) as (c & r & Hr & Hc); [|lia|].
      { split; [apply Z.div_pos; lia|]. apply Z.div_lt_upper_bound; [lia|].
        rewrite <- Z.pow_succ_r by lia. replace (Z.succ (Z.of_nat (S fuel))) with (Z.of_nat (S (S fuel))) by lia. lia. }
      exists c, r. split; [exact Hr|]. intros Ec. destruct (Hc Ec) as (H0 & _). lia.
Qed.
Lemma udigits_of k n : k <> Str -> 0 <= n < 2 ^ 64 -> digits_of k n (udigits 64 (base k) (upper k) n []).
Proof.
  intros Hk Hn. assert (Hb : n < base k ^ Z.of_nat 64).
  { destruct k; try congruence; cbn [base]; eapply Z.lt_le_trans; try apply Hn; vm_compute; discriminate. }
  split; [|split].
  - exact (goes_positional k 0 _ n (udigits_goes k Hk 64 n [] n ltac:(lia) ltac:(lia) (O_none k n)) [] (P_none k)).
  - destruct (udigits_head k Hk 64 n [] ltac:(lia) ltac:(lia)) as (c & r & -> & _). discriminate.
  - destruct (udigits_head k Hk 64 n [] ltac:(lia) ltac:(lia)) as (c & r & -> & H). cbn. intros E. destruct (H E) as (_ & ->). congruence.
Qed.
Lemma pad_aligned (neg zero : bool) w ds : aligned zero w (if neg then [45] else []) ds (pad_num neg zero w ds).
Proof.
  assert (H : forall sign : chars, aligned zero w sign ds (let k := Z.to_nat (w - zlen sign - zlen ds) in if zero then sign ++ repeat 48 k ++ ds else repeat 32 k ++ sign ++ ds)).
  { intros sign. exists (Z.to_nat (w - zlen sign - zlen ds)). split; [reflexivity|]. rewrite zlen_app'.
    destruct (Z.leb_spec w (zlen sign + zlen ds)); [left; split; lia|]. right. cbv zeta. destruct zero; rewrite !zlen_app', zlen_repeat; lia. }
  destruct neg; apply H.
Qed.
(* ---- reading the format ---- *)
Lemma dec_digit c d : stands_for Dec c d -> 48 <= c <= 57 /\ d = c - 48.
Proof. intros H. inversion H; subst; try discriminate. auto. Qed.
Lemma goes_ge n ds m : goes_on Dec n ds m -> 0 <= n -> n <= m.
Proof. induction 1 as [n|n c d ds m H1 H2 H IH]; intros Hn; [lia|]. apply dec_digit in H1. cbn [base] in *. lia. Qed.
Lemma number_reads n ds m c r : goes_on Dec n ds m -> 0 <= n -> m < 2 ^ 63 -> ~ 48 <= c <= 57 -> number n (ds ++ c :: r) = Ok (m, c, r).
Proof.
  induction 1 as [n|n c1 d ds m H1 H2 H IH]; intros Hn Hm Hc.
  - cbn. replace ((48 <=? c) && (c <=? 57)) with false by lia. reflexivity.
  - apply dec_digit in H1. destruct H1 as (H1 & ->). cbn [app number]. replace ((48 <=? c1) && (c1 <=? 57)) with true by lia.
    cbn [base] in *. assert (Hg : n * 10 + (c1 - 48) <= m) by (eapply goes_ge; [exact H|lia]).
    unfold in_u64. replace ((0 <=? n * 10 + c1) && (n * 10 + c1 <? 2 ^ 64)) with true by (change (2 ^ 64) with (2 * 2 ^ 63); lia).
    replace (n * 10 + c1 - 48) with (n * 10 + (c1 - 48)) by lia. apply IH; [lia|exact Hm|exact Hc].
Qed.
Lemma letter_plain k : ~ 48 <= letter k <= 57 /\ letter k <> 46 /\ letter k <> 37.
Proof. destruct k; cbn; lia. Qed.

Section Format.
Variable F : Set.
Variable trunc : F -> Z.
Variable ftext : F -> Z -> bool * chars.
Variable of_int : Z -> F.
Notation fmt := (format_loop F trunc ftext of_int).

Lemma directive_reads (zero : bool) width w k r args : width_of width w -> w < 2 ^ 63 ->
  directive F trunc ftext of_int ((if zero then [48] else []) ++ width ++ letter k :: r) args =
  match args with [] => Err ArgErr | a :: args => t <- convert F trunc ftext of_int zero w 0 (letter k) a ;; Ok (t, r, args) end.
Proof.
  intros (Hw & Hz) Hm. pose proof (letter_plain k) as (L1 & L2 & L3). unfold directive.
  assert (G : goes_on Dec 0 width w) by (rewrite <- (app_nil_r width); eapply positional_goes; [exact Hw|constructor]).
  assert (E : zero_flag ((if zero then [48] else []) ++ width ++ letter k :: r) = (zero, width ++ letter k :: r)).
  { destruct zero; cbn [app]; [reflexivity|]. destruct width as [|c width]; cbn in *.
    - replace (letter k =? 48) with false by lia. reflexivity.
    - replace (c =? 48) with false by lia. reflexivity. }
  rewrite E. rewrite (number_reads 0 width w (letter k) r G) by (try lia; exact L1). cbn [rbind].
  replace (letter k =? 46) with false by lia. cbn [rbind]. reflexivity.
Qed.
Lemma convert_ok zero w k a : suits zero w k a -> exists t, convert F trunc ftext of_int zero w 0 (letter k) a = Ok t /\ converts zero w k a t.
Proof.
  intros H. inversion H as [z w' i Hi|z w' k' i Hk Hi|t]; subst.
  - eexists. split; [unfold convert; cbn [letter Z.eqb Pos.eqb coerce_to_fixnum rbind]; reflexivity|].
    eapply C_dec; [apply (udigits_of Dec); [discriminate|lia]|apply pad_aligned].
  - assert (Hu : u64 i = i) by (unfold u64; apply Z.mod_small; lia).
    destruct Hk as [->|[->| ->]]; (eexists; split; [unfold convert; cbn [letter Z.eqb Pos.eqb coerce_to_fixnum rbind]; rewrite Hu; reflexivity|]).
    + eapply C_num; [auto|lia|apply (udigits_of Bin); [discriminate|lia]|apply (pad_aligned false)].
    + eapply C_num; [auto|lia|apply (udigits_of Hex); [discriminate|lia]|apply (pad_aligned false)].
    + eapply C_num; [auto|lia|apply (udigits_of HexUp); [discriminate|lia]|apply (pad_aligned false)].
  - exists t. split; [reflexivity|constructor].
Qed.
Lemma write_char c ps : write (Char c :: ps) = c :: write ps.
Proof. reflexivity. Qed.
Lemma write_percent ps : write (Percent :: ps) = 37 :: 37 :: write ps.
Proof. reflexivity. Qed.
Lemma write_conv zero width k ps : write (Conv zero width k :: ps) = 37 :: (if zero then [48] else []) ++ width ++ letter k :: write ps.
Proof. unfold write. cbn. rewrite <- !app_assoc. reflexivity. Qed.
Lemma conv_rest zero width k rest : write [Conv zero width k] ++ rest = 37 :: (if zero then [48] else []) ++ width ++ letter k :: rest.
Proof. rewrite write_conv. cbn [app]. rewrite <- !app_assoc. reflexivity. Qed.
Lemma not_percent (zero : bool) width w k r c r2 : width_of width w -> (if zero then [48] else []) ++ width ++ letter k :: r = c :: r2 -> c <> 37.
Proof.
  intros (Hw & _) E. destruct zero; cbn in E; [injection E as <- _; discriminate|].
  assert (G : goes_on Dec 0 width w) by (rewrite <- (app_nil_r width); eapply positional_goes; [exact Hw|constructor]).
  destruct width as [|c' width]; cbn in E; injection E as <- _.
  - apply letter_plain.
  - inversion G; subst. apply dec_digit in H1. lia.
Qed.
Lemma fmt_conv fuel (zero : bool) width w k r args acc : width_of width w -> w < 2 ^ 63 ->
  fmt (S fuel) (37 :: (if zero then [48] else []) ++ width ++ letter k :: r) args acc =
  match args with
  | [] => Err ArgErr
  | a :: args => t <- convert F trunc ftext of_int zero w 0 (letter k) a ;; fmt fuel r args (acc ++ t)
  end.
Proof.
  intros Hw Hm. cbn [format_loop]. replace (37 =? 37) with true by reflexivity. cbn [negb].
  destruct ((if zero then [48] else []) ++ width ++ letter k :: r) as [|c2 r2] eqn:E.
  { destruct zero, width; discriminate. }
  pose proof (not_percent _ _ _ _ _ _ _ Hw E) as N. replace (c2 =? 37) with false by lia. rewrite <- E, (directive_reads zero width w k r args Hw Hm).
  destruct args as [|a args]; [reflexivity|]. destruct (convert F trunc ftext of_int zero w 0 (letter k) a); reflexivity.
Qed.
Lemma width_len (zero : bool) (width : chars) k r : (length r < length (37%Z :: (if zero then [48%Z] else []) ++ width ++ letter k :: r))%nat.
Proof. cbn. rewrite !app_length. cbn. lia. Qed.
Lemma format_good ps args : good ps args -> forall tail fuel acc, (length (write ps) + length tail < fuel)%nat ->
  exists out args' fuel', means ps args out /\ (length tail < fuel')%nat /\ fmt fuel (write ps ++ tail) args acc = fmt fuel' tail args' (acc ++ out).
Proof.
  induction 1 as [args|c ps args Hc H IH|ps args H IH|zero width w k a ps args Hw Hm Hs H IH]; intros tail fuel acc Hf.
  - exists [], args, fuel. split; [constructor|]. split; [cbn in Hf; lia|]. rewrite app_nil_r. reflexivity.
  - destruct fuel as [|fuel]; [lia|]. destruct (IH tail fuel (acc ++ [c])) as (out & args' & fuel' & H1 & H2 & H3); [rewrite write_char in Hf; cbn [length] in Hf; lia|].
    exists (c :: out), args', fuel'. split; [constructor; exact H1|]. split; [exact H2|].
    rewrite write_char. cbn [app format_loop]. replace (c =? 37) with false by lia. cbn [negb]. rewrite H3, <- app_assoc. reflexivity.
  - destruct fuel as [|fuel]; [lia|]. destruct (IH tail fuel (acc ++ [37])) as (out & args' & fuel' & H1 & H2 & H3); [rewrite write_percent in Hf; cbn [length] in Hf; lia|].
    exists (37 :: out), args', fuel'. split; [constructor; exact H1|]. split; [exact H2|].
    rewrite write_percent. cbn [app format_loop Z.eqb Pos.eqb negb]. rewrite H3, <- app_assoc. reflexivity.
  - destruct (convert_ok zero w k a Hs) as (t & Ht & Hc). destruct fuel as [|fuel]; [lia|].
    rewrite write_conv in Hf. pose proof (width_len zero width k (write ps)).
    destruct (IH tail fuel (acc ++ t)) as (out & args' & fuel' & H1 & H2 & H3); [lia|].
    exists (t ++ out), args', fuel'. split; [econstructor; eassumption|]. split; [exact H2|].
    rewrite write_conv. replace ((37 :: (if zero then [48] else []) ++ width ++ letter k :: write ps) ++ tail) with (37 :: (if zero then [48] else []) ++ width ++ letter k :: (write ps ++ tail)) by (cbn; rewrite <- !app_assoc; reflexivity).
    rewrite (fmt_conv fuel zero width w k (write ps ++ tail) (a :: args) acc Hw Hm), Ht. cbn [rbind]. rewrite H3, <- app_assoc. reflexivity.
Qed.
End Format.

(* *** C100: the text *)
(* Every format of characters, [%%], [%d], [%b], [%x], [%X] with an optional 0 and width,
   and [%s], with arguments that are fixnums (not negative for b, x, X) and strings:
   the result is the pieces' texts in order.  Missing, and refuted below: negative numbers in other bases,
   precisions, widths of [%s], [%f] and bignums. *)
Theorem C100_format_partial : forall F trunc ftext of_int ps (args : list (farg F)), good ps args ->
  exists out, str_format F trunc ftext of_int (write ps) args = Ok out /\ means ps args out.
Proof.
  intros F trunc ftext of_int ps args H. destruct (format_good F trunc ftext of_int ps args H [] (S (length (write ps))) []) as (out & args' & fuel' & H1 & H2 & H3); [cbn; lia|].
  rewrite app_nil_r in H3. exists out. split; [|exact H1]. unfold str_format. rewrite H3. destruct fuel'; [cbn in H2; lia|reflexivity].
Qed.
Print Assumptions C100_format_partial.
(* "a%5d|%04x%%%s" % [-42, 255, "z"] is "a  -42|00ff%z" *)
Definition fmt1 : list piece := [Char 97; Conv false [53] Dec; Char 124; Conv true [52] Hex; Percent; Conv false [] Str].
Example C100_format_example : @good unit fmt1 [AInt (-42); AInt 255; AStr [122]] /\
  write fmt1 = [97; 37; 53; 100; 124; 37; 48; 52; 120; 37; 37; 37; 115] /\
  str_format unit (fun _ => 0) (fun _ _ => (false, [])) (fun _ => tt) (write fmt1) [AInt (-42); AInt 255; AStr [122]] =
    Ok [97; 32; 32; 45; 52; 50; 124; 48; 48; 102; 102; 37; 122].
Proof.
  assert (W : forall c, 49 <= c <= 57 -> width_of [c] (c - 48)).
  { intros c Hc. split; [|cbn; lia]. replace (c - 48) with (0 * base Dec + (c - 48)) by (cbn; lia). apply (P_more Dec [] 0 c (c - 48)); [constructor|constructor; lia|cbn; lia]. }
  split; [|split; reflexivity].
  apply G_char; [discriminate|]. eapply G_conv; [apply W; lia|lia|constructor; lia|].
  apply G_char; [discriminate|]. eapply G_conv; [apply W; lia|lia|apply U_num; [auto|lia]|].
  apply G_percent. eapply (G_conv _ _ _ 0); [split; [constructor|discriminate]|lia|constructor|constructor].
Qed.

(* *** C100: errors *)
(* A conversion for which no argument is left, and a format that ends with a single percent
   sign, raise ArgumentError. *)
Theorem C100_errors : forall F trunc ftext of_int ps (args : list (farg F)), good ps args ->
  str_format F trunc ftext of_int (write ps ++ [37]) args = Err ArgErr /\
  forall zero width w k, width_of width w -> w < 2 ^ 63 -> length args = length (filter (fun p => match p with Conv _ _ _ => true | _ => false end) ps) ->
  forall rest, str_format F trunc ftext of_int (write ps ++ write [Conv zero width k] ++ rest) args = Err ArgErr.
Proof.
  intros F trunc ftext of_int ps args H. split.
  - destruct (format_good F trunc ftext of_int ps args H [37] (S (length (write ps ++ [37]))) []) as (out & args' & fuel' & H1 & H2 & H3); [rewrite app_length; cbn; lia|].
    unfold str_format. rewrite H3. destruct fuel'; [cbn in H2; lia|reflexivity].
  - intros zero width w k Hw Hm Hl rest. unfold str_format. set (f := S _). assert (Hf : (length (write ps) + length (write [Conv zero width k] ++ rest) < f)%nat) by (unfold f; rewrite (app_length (write ps)); lia).
    clearbody f. generalize (@nil Z) as acc. revert f Hf Hl. induction H as [args|c ps args Hc H IH|ps args H IH|z1 width1 w1 k1 a ps args Hw1 Hm1 Hs H IH]; intros f Hf Hl acc.
    + cbn in Hl. destruct args; [|discriminate]. change (write []) with (@nil Z) in *. rewrite app_nil_l. destruct f as [|f]; [lia|].
      rewrite conv_rest.
      rewrite (fmt_conv F trunc ftext of_int f zero width w k rest [] acc Hw Hm). reflexivity.
    + destruct f as [|f]; [lia|]. rewrite write_char in *. cbn [app format_loop]. replace (c =? 37) with false by lia. cbn [negb]. apply IH; [cbn [length] in Hf; lia|exact Hl].
    + destruct f as [|f]; [lia|]. rewrite write_percent in *. cbn [app format_loop Z.eqb Pos.eqb negb]. apply IH; [cbn [length] in Hf; lia|exact Hl].
    + destruct f as [|f]; [lia|]. rewrite write_conv in Hf. rewrite (write_conv z1). pose proof (width_len z1 width1 k1 (write ps)).
      destruct (convert_ok F trunc ftext of_int z1 w1 k1 a Hs) as (t & Ht & _).
      replace ((37 :: (if z1 then [48] else []) ++ width1 ++ letter k1 :: write ps) ++ write [Conv zero width k] ++ rest) with (37 :: (if z1 then [48] else []) ++ width1 ++ letter k1 :: (write ps ++ write [Conv zero width k] ++ rest)) by (cbn; rewrite <- !app_assoc; cbn; rewrite <- ?app_assoc; reflexivity).
      rewrite (fmt_conv F trunc ftext of_int f z1 width1 w1 k1 _ (a :: args) acc Hw1 Hm1), Ht. cbn [rbind]. apply IH; [lia|cbn in Hl; lia].
Qed.
Print Assumptions C100_errors.
Example C100_errors_example :
  str_format unit (fun _ => 0) (fun _ _ => (false, [])) (fun _ => tt) (write fmt1 ++ [37]) [AInt (-42); AInt 255; AStr [122]] = Err ArgErr /\
  str_format unit (fun _ => 0) (fun _ _ => (false, [])) (fun _ => tt) [37; 100; 32; 37; 100] [AInt 1] = Err ArgErr.
Proof. split; reflexivity. Qed.

(* *** C100: what differs *)
Definition fmt0 := str_format unit (fun _ => 0) (fun _ p => (false, 49 :: if p =? 0 then [] else 46 :: repeat 48 (Z.to_nat p))) (fun _ => tt).
(* "%x" % -1 is the text of 2^64 - 1 *)
Theorem C100_negative_refuted : exists i out, fmt0 [37; 120] [AInt i] = Ok out /\ i < 0 /\ positional Hex out (2 ^ 64 - 1) /\ hd 0 out <> 46.
Proof.
  exists (-1), (repeat 102 16). split; [reflexivity|]. split; [lia|]. split; [|discriminate].
  replace (repeat 102 16) with (udigits 64 16 false (2 ^ 64 - 1) []) by (vm_compute; reflexivity).
  apply (udigits_of Hex (2 ^ 64 - 1)); [discriminate|lia].
Qed.
Print Assumptions C100_negative_refuted.
(* "%.3d" % 5 is "5", "%5s" % "a" is "a" *)
Theorem C100_width_refuted : exists i s, fmt0 [37; 46; 51; 100] [AInt i] = Ok [53] /\ fmt0 [37; 53; 115] [AStr s] = Ok [97].
Proof. exists 5, [97]. split; reflexivity. Qed.
Print Assumptions C100_width_refuted.
(* "%f" shows no decimals instead of six: "1" for 1.0 *)
Theorem C100_float_refuted : exists f, fmt0 [37; 102] [AFloat f] = Ok [49] /\ fmt0 [37; 46; 54; 102] [AFloat f] = Ok [49; 46; 48; 48; 48; 48; 48; 48].
Proof. exists tt. split; reflexivity. Qed.
Print Assumptions C100_float_refuted.
(* "%d" % 2**64 raises TypeError; "%c" % (2**32 + 65) is "A" *)
Theorem C100_large_refuted : exists n m, fmt0 [37; 100] [ABig n] = Err TypeErr /\ m > 1114111 /\ fmt0 [37; 99] [AInt m] = Ok [65].
Proof. exists (2 ^ 64), (2 ^ 32 + 65). split; [reflexivity|]. split; [lia|reflexivity]. Qed.
Print Assumptions C100_large_refuted.
(* "%99999999999999999999d" % 1 panics *)
Theorem C100_panic_refuted : exists s, fmt0 s [AInt 1] = Panic.
Proof. exists ([37] ++ repeat 57 20 ++ [100]). reflexivity. Qed.
Print Assumptions C100_panic_refuted.
