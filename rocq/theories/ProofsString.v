(* UTF-8, string representation, comparison, concatenation, inspect. *)
From Verif Require Import Base ProofsBase ModelArray ProofsArray ModelString.
Ltac Zify.zify_post_hook ::= Z.div_mod_to_equations.

Lemma is_char_spec c : is_char c = true <-> 0 <= c <= 0x10ffff /\ ~ (0xd800 <= c <= 0xdfff).
Proof. unfold is_char. lia. Qed.

Ltac bcase :=
  repeat match goal with
  | |- context [ if ?b then _ else _ ] =>
      match type of b with bool => let E := fresh "E" in destruct b eqn:E end
  end.

Lemma dec1_enc1 c r : is_char c = true -> dec1 (enc1 c ++ r) = Some (c, r).
Proof.
  intros H. pose proof H as Hc. apply is_char_spec in Hc.
  unfold enc1.
  destruct (Z.ltb_spec c 0x80) as [H1|H1]; [|destruct (Z.ltb_spec c 0x800) as [H2|H2]; [|destruct (Z.ltb_spec c 0x10000) as [H3|H3]]];
    cbn [app]; unfold dec1, cont.
  - destruct (Z.ltb_spec c 0x80); [|lia]. destruct (Z.leb_spec 0 c); [reflexivity|lia].
  - destruct (Z.ltb_spec (0xc0 + c / 64) 0x80); [lia|]. destruct (Z.ltb_spec (0xc0 + c / 64) 0xc0); [lia|].
    replace (negb _) with false by lia. destruct (Z.ltb_spec (0xc0 + c / 64) 0xe0); [|lia].
    replace ((0xc0 + c / 64 - 0xc0) * 64 + (0x80 + c mod 64 - 0x80)) with c by lia.
    destruct (Z.leb_spec 0x80 c); [reflexivity|lia].
  - destruct (Z.ltb_spec (0xe0 + c / 4096) 0x80); [lia|]. destruct (Z.ltb_spec (0xe0 + c / 4096) 0xc0); [lia|].
    replace (negb _) with false by lia. destruct (Z.ltb_spec (0xe0 + c / 4096) 0xe0); [lia|].
    replace (negb _) with false by lia. destruct (Z.ltb_spec (0xe0 + c / 4096) 0xf0); [|lia].
    replace ((0xe0 + c / 4096 - 0xe0) * 4096 + (0x80 + (c / 64) mod 64 - 0x80) * 64 + (0x80 + c mod 64 - 0x80)) with c by lia.
    destruct (Z.leb_spec 0x800 c); [|lia]. rewrite H. reflexivity.
  - destruct (Z.ltb_spec (0xf0 + c / 262144) 0x80); [lia|]. destruct (Z.ltb_spec (0xf0 + c / 262144) 0xc0); [lia|].
    replace (negb _) with false by lia. destruct (Z.ltb_spec (0xf0 + c / 262144) 0xe0); [lia|].
    replace (negb _) with false by lia. destruct (Z.ltb_spec (0xf0 + c / 262144) 0xf0); [lia|].
    replace (negb _) with false by lia.
    replace ((0xf0 + c / 262144 - 0xf0) * 262144 + (0x80 + (c / 4096) mod 64 - 0x80) * 4096 + (0x80 + (c / 64) mod 64 - 0x80) * 64 + (0x80 + c mod 64 - 0x80)) with c by lia.
    destruct (Z.leb_spec 0x10000 c); [|lia]. rewrite H. reflexivity.
Qed.

Lemma dec1_sound bs c r : dec1 bs = Some (c, r) -> bs = enc1 c ++ r /\ is_char c = true.
Proof.
  unfold dec1, cont. destruct bs as [|b0 r0]; [discriminate|].
  destruct (Z.ltb_spec b0 0x80).
  { destruct (Z.leb_spec 0 b0); [|discriminate]. intros [= <- <-]. unfold enc1.
    destruct (Z.ltb_spec b0 0x80); [|lia]. split; [reflexivity|apply is_char_spec; lia]. }
  destruct (Z.ltb_spec b0 0xc0); [discriminate|].
  destruct r0 as [|b1 r1]; [discriminate|].
  destruct ((0x80 <=? b1) && (b1 <? 0xc0)) eqn:E1; [|discriminate]. cbn [negb].
  destruct (Z.ltb_spec b0 0xe0).
  { destruct (Z.leb_spec 0x80 ((b0 - 0xc0) * 64 + (b1 - 0x80))); [|discriminate].
    intros [= <- <-]. set (k := (b0 - 0xc0) * 64 + (b1 - 0x80)) in *.
    assert (Hc : 0x80 <= k < 0x800) by lia. split; [|apply is_char_spec; lia].
    unfold enc1. destruct (Z.ltb_spec k 0x80); [lia|]. destruct (Z.ltb_spec k 0x800); [|lia].
    cbn [app]. f_equal; [|f_equal]; lia. }
  destruct r1 as [|b2 r2]; [discriminate|].
  destruct ((0x80 <=? b2) && (b2 <? 0xc0)) eqn:E2; [|discriminate]. cbn [negb].
  destruct (Z.ltb_spec b0 0xf0).
  { set (k := (b0 - 0xe0) * 4096 + (b1 - 0x80) * 64 + (b2 - 0x80)) in *.
    destruct ((0x800 <=? k) && is_char k) eqn:E; [|discriminate].
    intros [= <- <-]. apply andb_true_iff in E. destruct E as [Ea Eb]. split; [|exact Eb].
    assert (Hc : 0x800 <= k < 0x10000) by lia.
    unfold enc1. destruct (Z.ltb_spec k 0x80); [lia|]. destruct (Z.ltb_spec k 0x800); [lia|].
    destruct (Z.ltb_spec k 0x10000); [|lia].
    cbn [app]. f_equal; [|f_equal; [|f_equal]]; lia. }
  destruct r2 as [|b3 r3]; [discriminate|].
  destruct ((0x80 <=? b3) && (b3 <? 0xc0)) eqn:E3; [|discriminate]. cbn [negb].
  set (k := (b0 - 0xf0) * 262144 + (b1 - 0x80) * 4096 + (b2 - 0x80) * 64 + (b3 - 0x80)) in *.
  destruct ((0x10000 <=? k) && is_char k) eqn:E; [|discriminate].
  intros [= <- <-]. apply andb_true_iff in E. destruct E as [Ea Eb]. split; [|exact Eb].
  unfold enc1. destruct (Z.ltb_spec k 0x80); [lia|]. destruct (Z.ltb_spec k 0x800); [lia|].
  destruct (Z.ltb_spec k 0x10000); [lia|].
  cbn [app]. f_equal; [|f_equal; [|f_equal; [|f_equal]]]; lia.
Qed.

Lemma enc1_len c : (1 <= length (enc1 c) <= 4)%nat.
Proof. unfold enc1. bcase; cbn; lia. Qed.
Lemma enc1_cons c : exists b t, enc1 c = b :: t.
Proof. unfold enc1. bcase; eauto. Qed.
Definition chars (cs : list Z) : Prop := Forall (fun c => is_char c = true) cs.
Lemma enc_app a b : enc (a ++ b) = enc a ++ enc b.
Proof. apply flat_map_app. Qed.
Lemma dec_fuel_enc cs : chars cs -> forall n, (length (enc cs) <= n)%nat -> dec_fuel n (enc cs) = Some cs.
Proof.
  induction 1 as [|c cs Hc _ IH]; intros n Hn; [destruct n; reflexivity|].
  change (enc (c :: cs)) with (enc1 c ++ enc cs) in *.
  pose proof (enc1_len c). rewrite app_length in Hn.
  destruct n as [|n]; [lia|].
  destruct (enc1_cons c) as (b & t & E).
  cbn [dec_fuel]. destruct (enc1 c ++ enc cs) eqn:E'; [rewrite E in E'; discriminate|].
  rewrite <- E', dec1_enc1 by exact Hc. rewrite IH by lia. reflexivity.
Qed.
Lemma from_utf8_enc cs : chars cs -> from_utf8 (enc cs) = Some cs.
Proof. intros H. apply dec_fuel_enc; [exact H|apply le_n]. Qed.
Lemma dec_fuel_sound n : forall bs cs, dec_fuel n bs = Some cs -> bs = enc cs /\ chars cs.
Proof.
  induction n as [|n IH]; intros bs cs H; destruct bs as [|b r]; cbn [dec_fuel] in H.
  - injection H as <-. split; [reflexivity|constructor].
  - discriminate.
  - injection H as <-. split; [reflexivity|constructor].
  - destruct (dec1 (b :: r)) as [[c r']|] eqn:E; [|discriminate].
    destruct (dec_fuel n r') as [cs'|] eqn:E2; [|discriminate]. injection H as <-.
    apply dec1_sound in E. destruct E as [E Hc]. apply IH in E2. destruct E2 as [-> Hcs].
    split; [exact E|constructor; assumption].
Qed.
Lemma from_utf8_sound bs cs : from_utf8 bs = Some cs -> bs = enc cs /\ chars cs.
Proof. apply dec_fuel_sound. Qed.
Lemma enc_inj a b : chars a -> chars b -> enc a = enc b -> a = b.
Proof. intros Ha Hb E. apply from_utf8_enc in Ha, Hb. congruence. Qed.

(* ---- representation ---- *)
Definition wf (s : rstring) : Prop :=
  match s with Str cs | SmallStr cs => chars cs | Bytes bs => Forall (fun b => is_byte b = true) bs end.
Lemma as_bytes_from cs : as_bytes (rs_from cs) = enc cs.
Proof. unfold rs_from. destruct (_ <=? _); reflexivity. Qed.
Lemma as_bytes_from_bytes bs : as_bytes (rs_from_bytes bs) = bs.
Proof.
  unfold rs_from_bytes. destruct (from_utf8 bs) as [cs|] eqn:E; [|reflexivity].
  rewrite as_bytes_from. apply from_utf8_sound in E. symmetry. apply E.
Qed.
Lemma as_bytes_append a b : as_bytes (rs_append a b) = as_bytes a ++ as_bytes b.
Proof.
  destruct a, b; cbn [rs_append as_bytes]; rewrite ?as_bytes_from, ?as_bytes_from_bytes, ?enc_app; reflexivity.
Qed.
Lemma wf_from cs : chars cs -> wf (rs_from cs).
Proof. unfold rs_from. destruct (_ <=? _); auto. Qed.
Lemma enc1_bytes c : is_char c = true -> Forall (fun b => is_byte b = true) (enc1 c).
Proof.
  intros H. apply is_char_spec in H. unfold enc1, is_byte. bcase; repeat constructor; lia.
Qed.
Lemma enc_bytes cs : chars cs -> Forall (fun b => is_byte b = true) (enc cs).
Proof.
  induction 1 as [|c cs Hc _ IH]; [constructor|].
  change (enc (c :: cs)) with (enc1 c ++ enc cs). apply Forall_app. split; [apply enc1_bytes; exact Hc|exact IH].
Qed.
Lemma wf_from_bytes bs : Forall (fun b => is_byte b = true) bs -> wf (rs_from_bytes bs).
Proof.
  intros H. unfold rs_from_bytes. destruct (from_utf8 bs) as [cs|] eqn:E; [|exact H].
  apply wf_from. apply from_utf8_sound in E. apply E.
Qed.
Lemma wf_append a b : wf a -> wf b -> wf (rs_append a b).
Proof.
  destruct a, b; cbn [wf rs_append]; intros Ha Hb;
    try (apply wf_from; apply Forall_app; auto; fail);
    try (apply wf_from_bytes; apply Forall_app; split; auto using enc_bytes; fail);
    apply Forall_app; auto.
Qed.
Lemma list_eqb_spec a b : list_eqb a b = true <-> a = b.
Proof. unfold list_eqb. destruct (list_eq_dec Z.eq_dec a b); split; congruence. Qed.

(* canonical: the representation is the one chosen for its bytes *)
Definition canonical (s : rstring) : Prop := s = rs_from_bytes (as_bytes s).
Lemma canonical_from cs : chars cs -> canonical (rs_from cs).
Proof. intros H. unfold canonical. rewrite as_bytes_from. unfold rs_from_bytes. rewrite from_utf8_enc by exact H. reflexivity. Qed.
Lemma canonical_from_bytes bs : canonical (rs_from_bytes bs).
Proof. unfold canonical. rewrite as_bytes_from_bytes. reflexivity. Qed.
Lemma rs_eql_true a b : rs_eql a b = true <-> a = b.
Proof.
  destruct a, b; cbn [rs_eql]; rewrite ?list_eqb_spec; split; intros; try congruence; try discriminate.
Qed.
Lemma canonical_eql a b : canonical a -> canonical b -> rs_eql a b = true <-> as_bytes a = as_bytes b.
Proof.
  intros Ha Hb. rewrite rs_eql_true. split; [congruence|].
  intros E. rewrite Ha, Hb, E. reflexivity.
Qed.
Lemma canonical_str_len cs : chars cs -> canonical (Str cs) <-> 31 < zlen (enc cs).
Proof.
  intros H. unfold canonical. cbn [as_bytes]. unfold rs_from_bytes. rewrite from_utf8_enc by exact H.
  unfold rs_from. destruct (Z.leb_spec (zlen (enc cs)) 31); split; intros; try lia; try discriminate; reflexivity.
Qed.
Lemma canonical_small_len cs : chars cs -> canonical (SmallStr cs) <-> zlen (enc cs) <= 31.
Proof.
  intros H. unfold canonical. cbn [as_bytes]. unfold rs_from_bytes. rewrite from_utf8_enc by exact H.
  unfold rs_from. destruct (Z.leb_spec (zlen (enc cs)) 31); split; intros; try lia; try discriminate; reflexivity.
Qed.
Lemma canonical_append a b : wf a -> wf b -> canonical a -> canonical b ->
  (match a, b with Bytes _, Bytes _ => False | _, _ => True end) -> canonical (rs_append a b).
Proof.
  destruct a as [x|x|x], b as [y|y|y]; cbn [wf rs_append]; intros Wa Wb Ca Cb HB;
    try apply canonical_from_bytes; try contradiction.
  - apply canonical_str_len in Ca; [|assumption]. apply canonical_str_len; [apply Forall_app; auto|].
    rewrite enc_app, zlen_app. pose proof (zlen_nonneg (enc y)). lia.
  - apply canonical_str_len in Ca; [|assumption]. apply canonical_str_len; [apply Forall_app; auto|].
    rewrite enc_app, zlen_app. pose proof (zlen_nonneg (enc y)). lia.
  - apply canonical_str_len in Cb; [|assumption]. apply canonical_str_len; [apply Forall_app; auto|].
    rewrite enc_app, zlen_app. pose proof (zlen_nonneg (enc x)). lia.
  - apply canonical_from. apply Forall_app; auto.
Qed.

(* ---- comparison ---- *)
(* dictionary order: r extends l, or at the first difference l is smaller *)
Definition lex_lt (l r : list Z) : Prop :=
  (exists y t, r = l ++ y :: t) \/
  (exists p x y l' r', l = p ++ x :: l' /\ r = p ++ y :: r' /\ x < y).
Lemma lex_lt_cons x l r : lex_lt l r <-> lex_lt (x :: l) (x :: r).
Proof.
  split; intros [(y & t & E)|(p & a & b & l' & r' & E1 & E2 & H)].
  - left. exists y, t. rewrite E. reflexivity.
  - right. exists (x :: p), a, b, l', r'. rewrite E1, E2. auto.
  - left. exists y, t. injection E as E. exact E.
  - right. destruct p as [|z p].
    + injection E1 as -> ->. injection E2 as -> ->. lia.
    + injection E1 as -> ->. injection E2 as ->. exists p, a, b, l', r'. auto.
Qed.
Fixpoint lexc (l r : list Z) : comparison :=
  match l, r with
  | [], [] => Eq
  | [], _ => Lt
  | _, [] => Gt
  | x :: l', y :: r' => match x ?= y with Eq => lexc l' r' | c => c end
  end.
Lemma string_cmp_lexc l : forall r, string_cmp l r = lexc l r.
Proof.
  induction l as [|x l IH]; intros [|y r]; try reflexivity.
  cbn [lexc]. rewrite <- IH. unfold string_cmp. rewrite !zlen_cons. cbn [cmp_prefix].
    destruct (Z.compare_spec x y) as [->|H|H].
  + destruct (Z.leb_spec (zlen r + 1) (zlen l + 1)), (Z.leb_spec (zlen r) (zlen l)); try lia; [|reflexivity].
      destruct (cmp_prefix l r); [reflexivity|].
      destruct (Z.eqb_spec (zlen l + 1) (zlen r + 1)), (Z.eqb_spec (zlen l) (zlen r)); try lia; reflexivity.
  + destruct (_ <=? _); reflexivity.
  + destruct (_ <=? _); reflexivity.
Qed.
Lemma lexc_spec l : forall r,
  match lexc l r with Eq => l = r | Lt => lex_lt l r | Gt => lex_lt r l end.
Proof.
  induction l as [|x l IH]; intros [|y r]; cbn [lexc].
  - reflexivity.
  - left. exists y, r. reflexivity.
  - left. exists x, l. reflexivity.
  - destruct (Z.compare_spec x y) as [->|H|H].
    + specialize (IH r). destruct (lexc l r); [congruence| |]; apply lex_lt_cons; exact IH.
    + right. exists [], x, y, l, r. auto.
    + right. exists [], y, x, r, l. auto.
Qed.
Lemma lexc_refl l : lexc l l = Eq.
Proof. induction l as [|x l IH]; [reflexivity|]. cbn [lexc]. rewrite Z.compare_refl. exact IH. Qed.
Lemma lexc_antisym l : forall r, lexc r l = CompOpp (lexc l r).
Proof.
  induction l as [|x l IH]; intros [|y r]; try reflexivity.
  cbn [lexc]. rewrite (Z.compare_antisym x y). destruct (x ?= y); cbn [CompOpp]; try reflexivity. apply IH.
Qed.
Lemma lex_lt_lexc l r : lex_lt l r -> lexc l r = Lt.
Proof.
  intros [(y & t & ->)|(p & x & y & l' & r' & -> & -> & H)].
  - induction l as [|x l IH]; [reflexivity|]. cbn [lexc app]. rewrite Z.compare_refl. exact IH.
  - induction p as [|z p IH]; cbn [lexc app].
    + apply Z.compare_lt_iff in H. rewrite H. reflexivity.
    + rewrite Z.compare_refl. exact IH.
Qed.
Lemma string_cmp_spec l r : (string_cmp l r = Lt <-> lex_lt l r) /\
  (string_cmp l r = Eq <-> l = r) /\ (string_cmp l r = Gt <-> lex_lt r l).
Proof.
  rewrite string_cmp_lexc. pose proof (lexc_spec l r) as H.
  split; [|split]; split; intros E.
  - rewrite E in H. exact H.
  - apply lex_lt_lexc. exact E.
  - rewrite E in H. exact H.
  - subst. apply lexc_refl.
  - rewrite E in H. exact H.
  - apply lex_lt_lexc in E. rewrite lexc_antisym, E. reflexivity.
Qed.
(* UTF-8 keeps the order of code points *)
Lemma lexc_enc1 x y r s : is_char x = true -> is_char y = true -> x < y ->
  lexc (enc1 x ++ r) (enc1 y ++ s) = Lt.
Proof.
  intros Hx Hy H. apply is_char_spec in Hx, Hy.
  assert (L : forall a b p q, a < b -> lexc (a :: p) (b :: q) = Lt).
  { intros a b p q Hab. cbn [lexc]. apply Z.compare_lt_iff in Hab. rewrite Hab. reflexivity. }
  assert (LE : forall a b p q, a <= b -> (a = b -> lexc p q = Lt) -> lexc (a :: p) (b :: q) = Lt).
  { intros a b p q Hab Heq. destruct (Z.eq_dec a b) as [->|N].
    - cbn [lexc]. rewrite Z.compare_refl. auto.
    - apply L. lia. }
  unfold enc1.
  destruct (Z.ltb_spec x 0x80) as [X1|X1]; [|destruct (Z.ltb_spec x 0x800) as [X2|X2]; [|destruct (Z.ltb_spec x 0x10000) as [X3|X3]]];
  (destruct (Z.ltb_spec y 0x80) as [Y1|Y1]; [|destruct (Z.ltb_spec y 0x800) as [Y2|Y2]; [|destruct (Z.ltb_spec y 0x10000) as [Y3|Y3]]]);
  cbn [app]; try lia; try (apply L; lia);
  repeat (apply LE; [lia|intros ?]); exfalso; lia.
Qed.
Lemma lexc_enc a : forall b, chars a -> chars b -> lexc (enc a) (enc b) = lexc a b.
Proof.
  induction a as [|x a IH]; intros [|y b] Ha Hb; try reflexivity.
  - change (enc (y :: b)) with (enc1 y ++ enc b). destruct (enc1_cons y) as (u & t & ->). reflexivity.
  - change (enc (x :: a)) with (enc1 x ++ enc a). destruct (enc1_cons x) as (u & t & ->). reflexivity.
  - inversion Ha as [|? ? Hx Ha']; inversion Hb as [|? ? Hy Hb']; subst.
    change (enc (x :: a)) with (enc1 x ++ enc a). change (enc (y :: b)) with (enc1 y ++ enc b).
    cbn [lexc]. destruct (Z.compare_spec x y) as [->|H|H].
    + rewrite <- IH by assumption. induction (enc1 y) as [|z l IHl]; [reflexivity|].
      cbn [app lexc]. rewrite Z.compare_refl. exact IHl.
    + apply lexc_enc1; assumption.
    + rewrite lexc_antisym. rewrite lexc_enc1 by assumption. reflexivity.
Qed.

(* ---- inspect and reading back ---- *)
(* positions where the reader would start an interpolation *)
Fixpoint no_interp (cs : list Z) : Prop :=
  match cs with
  | c :: r => (c = 35 -> match r with d :: _ => d <> 123 /\ d <> 36 /\ d <> 64 | [] => True end) /\ no_interp r
  | [] => True
  end.
Lemma esc1_shape c : is_char c = true ->
  (esc1 c = [c] /\ c <> BSL /\ c <> DQ) \/
  (exists x t, esc1 c = BSL :: x :: t /\ x <> 10 /\ forall rest, read_escaped_char (x :: t ++ rest) = Some (c, rest)).
Proof.
  intros H. apply is_char_spec in H. unfold esc1.
  destruct ((c =? SQ) || (c =? DQ) || (c =? BSL)) eqn:E1.
  { right. exists c, []. split; [reflexivity|].
    unfold SQ, DQ, BSL in *. split; [lia|]. intros rest. cbn [app]. unfold read_escaped_char, SQ, DQ, BSL in *.
    replace ((c =? 39) || (c =? 34) || (c =? 63) || (c =? 92)) with true by lia. reflexivity. }
  destruct ((0 <=? c) && (c <=? 6)) eqn:E2.
  { right. exists 120, [48; 48 + c]. split; [reflexivity|]. split; [discriminate|].
    intros rest. assert (c = 0 \/ c = 1 \/ c = 2 \/ c = 3 \/ c = 4 \/ c = 5 \/ c = 6) as C by lia.
    destruct C as [->|[->|[->|[->|[->|[->| ->]]]]]]; reflexivity. }
  destruct (Z.eqb_spec c 7) as [->|]; [right; exists 97, []; split; [reflexivity|split; [discriminate|reflexivity]]|].
  destruct (Z.eqb_spec c 8) as [->|]; [right; exists 98, []; split; [reflexivity|split; [discriminate|reflexivity]]|].
  destruct (Z.eqb_spec c 9) as [->|]; [right; exists 116, []; split; [reflexivity|split; [discriminate|reflexivity]]|].
  destruct (Z.eqb_spec c 10) as [->|]; [right; exists 110, []; split; [reflexivity|split; [discriminate|reflexivity]]|].
  destruct (Z.eqb_spec c 11) as [->|]; [right; exists 118, []; split; [reflexivity|split; [discriminate|reflexivity]]|].
  destruct (Z.eqb_spec c 12) as [->|]; [right; exists 102, []; split; [reflexivity|split; [discriminate|reflexivity]]|].
  destruct (Z.eqb_spec c 13) as [->|]; [right; exists 114, []; split; [reflexivity|split; [discriminate|reflexivity]]|].
  destruct (Z.eqb_spec c 27) as [->|]; [right; exists 101, []; split; [reflexivity|split; [discriminate|reflexivity]]|].
  left. split; [reflexivity|]. unfold SQ, DQ, BSL in *. lia.
Qed.
(* the first char of an escaped rest, as the reader peeks it *)
Definition hd_ok (l : list Z) : Prop := match l with d :: _ => d <> 123 /\ d <> 36 /\ d <> 64 | [] => True end.
Lemma esc_hd r rest : chars r -> match r with d :: _ => d <> 123 /\ d <> 36 /\ d <> 64 | [] => True end ->
  hd_ok (flat_map esc1 r ++ DQ :: rest).
Proof.
  intros Hr H. destruct r as [|d r]; [cbn; unfold DQ; lia|].
  inversion Hr; subst. cbn [flat_map].
  destruct (esc1_shape d) as [(-> & ? & ?)|(x & t & -> & ? & ?)]; [assumption| |].
  - cbn. exact H.
  - cbn. unfold BSL. lia.
Qed.
Lemma read_dquote_esc cs rest : chars cs -> no_interp cs ->
  forall fuel s, (length (flat_map esc1 cs ++ DQ :: rest) <= fuel)%nat ->
  read_dquote fuel s (flat_map esc1 cs ++ DQ :: rest) = SFinished (s ++ cs) rest.
Proof.
  induction 1 as [|c cs Hc Hcs IH]; intros NI fuel s Hf.
  - cbn [flat_map app] in *. destruct fuel as [|f]; [cbn in Hf; lia|].
    cbn. rewrite app_nil_r. reflexivity.
  - destruct NI as [N1 N2]. cbn [flat_map] in *. rewrite <- app_assoc in *.
    destruct (esc1_shape c Hc) as [(E & Nb & Nd)|(x & t & E & Nx & R)]; rewrite E in *.
    + cbn [app] in *. cbn [length] in Hf. destruct fuel as [|f]; [lia|].
      cbn [read_dquote]. destruct (Z.eqb_spec c DQ); [contradiction|]. destruct (Z.eqb_spec c BSL); [contradiction|].
      destruct (Z.eqb_spec c 35) as [->|].
      * pose proof (esc_hd cs rest Hcs (N1 eq_refl)) as Hh.
        destruct (flat_map esc1 cs ++ DQ :: rest) as [|d l] eqn:El; [destruct (flat_map esc1 cs); discriminate|].
        cbn in Hh. replace ((d =? 123) || (d =? 36) || (d =? 64)) with false by lia.
        rewrite IH by (try assumption; lia). rewrite <- app_assoc. reflexivity.
      * rewrite IH by (try assumption; lia). rewrite <- app_assoc. reflexivity.
    + cbn [app] in *. cbn [length] in Hf. destruct fuel as [|f]; [lia|].
      cbn [read_dquote]. replace (BSL =? DQ) with false by reflexivity.
      replace (BSL =? BSL) with true by reflexivity.
      assert (Hm : forall A (a b : A), match x :: t ++ flat_map esc1 cs ++ DQ :: rest with 10 :: _ => a | _ => b end = b).
      { intros A a b. destruct x as [|p|p]; try reflexivity.
        destruct p as [p|p|]; try reflexivity. destruct p as [p|p|]; try reflexivity.
        destruct p as [p|p|]; try reflexivity. destruct p; try reflexivity. contradiction. }
      rewrite R.
      match goal with |- match ?x with _ => _ end = _ => idtac end.
      transitivity (read_dquote f (s ++ [c]) (flat_map esc1 cs ++ DQ :: rest)).
      * destruct x as [|p|p]; try reflexivity.
        destruct p as [p|p|]; try reflexivity. destruct p as [p|p|]; try reflexivity.
        destruct p as [p|p|]; try reflexivity. destruct p; try reflexivity. contradiction.
      * rewrite IH; [rewrite <- app_assoc; reflexivity|assumption|].
        rewrite app_length in Hf. lia.
Qed.
Lemma read_inspect lossy s cs rest : s = Str cs \/ s = SmallStr cs -> chars cs -> no_interp cs ->
  read_string_literal (str_inspect lossy s ++ rest) = SFinished cs rest.
Proof.
  intros Hs Hc NI.
  assert (E : str_inspect lossy s = DQ :: flat_map esc1 cs ++ [DQ]) by (destruct Hs as [-> | ->]; reflexivity).
  rewrite E. unfold read_string_literal. cbn [app]. replace (DQ =? DQ) with true by reflexivity.
  rewrite <- app_assoc. cbn [app]. rewrite read_dquote_esc; [reflexivity|assumption|assumption|lia].
Qed.
(* inspect is injective whether or not it can be read back *)
Lemma esc_inj a : forall b, chars a -> chars b -> flat_map esc1 a = flat_map esc1 b -> a = b.
Proof.
  induction a as [|x a IH]; intros [|y b] Ha Hb E; [reflexivity| | |].
  - inversion Hb; subst. cbn [flat_map] in E. destruct (esc1_shape y) as [(E1 & _)|(? & ? & E1 & _)]; [assumption| |]; rewrite E1 in E; discriminate.
  - inversion Ha; subst. cbn [flat_map] in E. destruct (esc1_shape x) as [(E1 & _)|(? & ? & E1 & _)]; [assumption| |]; rewrite E1 in E; discriminate.
  - inversion Ha as [|? ? Hx Ha']; inversion Hb as [|? ? Hy Hb']; subst. cbn [flat_map] in E.
    destruct (esc1_shape x Hx) as [(Ex & Nx & _)|(u & t & Ex & _ & Rx)];
    destruct (esc1_shape y Hy) as [(Ey & Ny & _)|(v & w & Ey & _ & Ry)]; rewrite Ex, Ey in E.
    + injection E as -> E. f_equal. apply IH; assumption.
    + injection E as E _. contradiction.
    + injection E as E _. symmetry in E. contradiction.
    + cbn [app] in E. injection E as Euv E.
      specialize (Rx (flat_map esc1 a)). specialize (Ry (flat_map esc1 b)).
      rewrite Euv, E in Rx. rewrite Rx in Ry. injection Ry as -> Er. f_equal. apply IH; assumption.
Qed.
