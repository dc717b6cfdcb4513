(* String#succ as a mixed-radix counter. *)
From Verif Require Import Base ProofsBase ModelArray ProofsArray ModelString ProofsString ProofsString2.
Ltac Zify.zify_post_hook ::= Z.div_mod_to_equations.

(* The four counting alphabets: lowest char, highest char, and the char just
   below value 1 (digits count from 0, letters from 1 as in a, b, .., z, aa). *)
Definition alphabet (c : Z) : option (Z * Z * Z) :=
  if (48 <=? c) && (c <=? 57) then Some (48, 57, 48)
  else if (97 <=? c) && (c <=? 122) then Some (97, 122, 96)
  else if (65 <=? c) && (c <=? 90) then Some (65, 90, 64)
  else if (0xff10 <=? c) && (c <=? 0xff19) then Some (0xff10, 0xff19, 0xff10)
  else None.
(* value of the string read from its right end; other chars are skipped *)
Fixpoint rv (r : list Z) : Z :=
  match r with
  | [] => 0
  | c :: t => match alphabet c with
              | Some (lo, hi, z) => (c - z) + (hi - lo + 1) * rv t
              | None => rv t
              end
  end.
Fixpoint weight (r : list Z) : Z :=
  match r with
  | [] => 1
  | c :: t => match alphabet c with Some (lo, hi, _) => (hi - lo + 1) * weight t | None => weight t end
  end.
(* position by position: same alphabet, or an unchanged other char *)
Definition same_shape (c d : Z) : Prop := alphabet c = alphabet d /\ (alphabet c = None -> c = d).

Lemma alphabet_cases c lo hi z : alphabet c = Some (lo, hi, z) ->
  lo <= c <= hi /\ ((lo, hi, z) = (48, 57, 48) \/ (lo, hi, z) = (97, 122, 96) \/ (lo, hi, z) = (65, 90, 64) \/ (lo, hi, z) = (0xff10, 0xff19, 0xff10)).
Proof.
  unfold alphabet. intros H.
  destruct ((48 <=? c) && (c <=? 57)) eqn:E1; [injection H as <- <- <-; split; [lia|tauto]|].
  destruct ((97 <=? c) && (c <=? 122)) eqn:E2; [injection H as <- <- <-; split; [lia|tauto]|].
  destruct ((65 <=? c) && (c <=? 90)) eqn:E3; [injection H as <- <- <-; split; [lia|tauto]|].
  destruct ((0xff10 <=? c) && (c <=? 0xff19)) eqn:E4; [injection H as <- <- <-; split; [lia|tauto]|discriminate].
Qed.
Lemma alphabet_in c lo hi z x : alphabet c = Some (lo, hi, z) -> lo <= x <= hi -> alphabet x = Some (lo, hi, z).
Proof.
  intros H Hx. apply alphabet_cases in H. destruct H as [_ [E|[E|[E|E]]]]; injection E as -> -> ->; unfold alphabet.
  - replace ((48 <=? x) && (x <=? 57)) with true by lia. reflexivity.
  - replace ((48 <=? x) && (x <=? 57)) with false by lia. replace ((97 <=? x) && (x <=? 122)) with true by lia. reflexivity.
  - replace ((48 <=? x) && (x <=? 57)) with false by lia. replace ((97 <=? x) && (x <=? 122)) with false by lia.
    replace ((65 <=? x) && (x <=? 90)) with true by lia. reflexivity.
  - replace ((48 <=? x) && (x <=? 57)) with false by lia. replace ((97 <=? x) && (x <=? 122)) with false by lia.
    replace ((65 <=? x) && (x <=? 90)) with false by lia. replace ((0xff10 <=? x) && (x <=? 0xff19)) with true by lia. reflexivity.
Qed.
Lemma same_shape_refl c : same_shape c c.
Proof. split; auto. Qed.
Lemma shape_refl r : Forall2 same_shape r r.
Proof. induction r; constructor; auto using same_shape_refl. Qed.
Lemma weight_shape a b : Forall2 same_shape a b -> weight a = weight b.
Proof.
  induction 1 as [|c d a b [Hc _] _ IH]; [reflexivity|]. cbn [weight]. rewrite Hc, IH. reflexivity.
Qed.
Lemma rv_app a b : rv (a ++ b) = rv a + weight a * rv b.
Proof.
  induction a as [|c a IH]; cbn [app rv weight]; [lia|]. destruct (alphabet c) as [[[lo hi] z]|]; rewrite IH; lia.
Qed.
Lemma weight_app a b : weight (a ++ b) = weight a * weight b.
Proof.
  induction a as [|c a IH]; cbn [app weight]; [lia|]. destruct (alphabet c) as [[[lo hi] z]|]; rewrite IH; lia.
Qed.
Lemma rv_none y : Forall (fun c => alphabet c = None) y -> rv y = 0 /\ weight y = 1.
Proof. induction 1 as [|c y Hc _ [IH1 IH2]]; cbn [rv weight]; [auto|]. rewrite Hc. auto. Qed.

Lemma next_loop_false alnum r : forall buf last, next_loop alnum r buf false last = Ok (buf ++ r, false, last).
Proof.
  induction r as [|c r IH]; intros buf last; cbn [next_loop]; [rewrite app_nil_r; reflexivity|].
  rewrite IH, <- app_assoc. reflexivity.
Qed.
(* one char of an alphabet under a carry *)
Lemma next_step_low alnum c lo hi z t buf last : alphabet c = Some (lo, hi, z) -> c < hi ->
  next_loop alnum (c :: t) buf true last = Ok (buf ++ (c + 1) :: t, false, last).
Proof.
  intros H Hlt. apply alphabet_cases in H. destruct H as [Hc E].
  cbn [next_loop]. assert (B : between 48 c 56 || between 97 c 121 || between 65 c 89 || between 0xff10 c 0xff18 = true).
  { unfold between. destruct E as [E|[E|[E|E]]]; injection E as -> -> ->; lia. }
  rewrite B.
  assert (S1 : succ_char c = Ok (c + 1)).
  { unfold succ_char. destruct E as [E|[E|[E|E]]]; injection E as -> -> ->;
    (destruct (Z.eqb_spec c 0x7f); [lia|]); (destruct (Z.eqb_spec c 0xdfbf); [lia|]);
    (destruct (Z.eqb_spec c 0xefbfbf); [lia|]); (destruct (Z.eqb_spec c 0xf48fbfbf); [lia|]);
    (replace (is_char (c + 1)) with true by (symmetry; apply is_char_spec; lia)); reflexivity. }
  rewrite S1. cbn [rbind]. rewrite next_loop_false, <- app_assoc. reflexivity.
Qed.
Lemma next_step_high alnum lo hi z t buf last : alphabet hi = Some (lo, hi, z) ->
  next_loop alnum (hi :: t) buf true last = next_loop alnum t (buf ++ [lo]) true (zlen buf).
Proof.
  intros H. apply alphabet_cases in H. destruct H as [_ [E|[E|[E|E]]]]; injection E as -> -> ->; reflexivity.
Qed.
Lemma next_step_other alnum c t buf last : alphabet c = None -> alnum c = false ->
  next_loop alnum (c :: t) buf true last = next_loop alnum t (buf ++ [c]) true last.
Proof.
  intros H Ha. cbn [next_loop]. unfold alphabet in H.
  destruct ((48 <=? c) && (c <=? 57)) eqn:E1; [discriminate|].
  destruct ((97 <=? c) && (c <=? 122)) eqn:E2; [discriminate|].
  destruct ((65 <=? c) && (c <=? 90)) eqn:E3; [discriminate|].
  destruct ((0xff10 <=? c) && (c <=? 0xff19)) eqn:E4; [discriminate|].
  assert (B : between 48 c 56 || between 97 c 121 || between 65 c 89 || between 0xff10 c 0xff18 = false) by (unfold between; lia).
  rewrite B. destruct (Z.eqb_spec c 57); [lia|]. destruct (Z.eqb_spec c 0xff19); [lia|].
  destruct (Z.eqb_spec c 122); [lia|]. destruct (Z.eqb_spec c 90); [lia|]. rewrite Ha. reflexivity.
Qed.
(* where the last counted char is *)
Definition last_at (base : Z) (r : list Z) (last last' : Z) : Prop :=
  (Forall (fun c => alphabet c = None) r /\ last' = last) \/
  (exists x c y lo hi z, r = x ++ c :: y /\ alphabet c = Some (lo, hi, z) /\ c = lo /\
     Forall (fun c => alphabet c = None) y /\ last' = base + zlen x).
Lemma next_loop_counts alnum r : Forall (fun c => alphabet c = None -> alnum c = false) r ->
  forall buf last, exists r' carry last',
    next_loop alnum r buf true last = Ok (buf ++ r', carry, last') /\
    Forall2 same_shape r r' /\
    rv r' + (if carry : bool then weight r else 0) = rv r + 1 /\
    (carry = true -> last_at (zlen buf) r' last last').
Proof.
  induction 1 as [|c t Hc _ IH]; intros buf last.
  - exists [], true, last. cbn [next_loop rv weight]. rewrite app_nil_r. split; [reflexivity|]. split; [constructor|].
    split; [reflexivity|]. intros _. left. split; [constructor|reflexivity].
  - destruct (alphabet c) as [[[lo hi] z]|] eqn:Ec.
    + pose proof (alphabet_cases c lo hi z Ec) as [Hr Hcase].
      destruct (Z.eq_dec c hi) as [->|Hne].
      * rewrite (next_step_high alnum lo hi z) by exact Ec.
        destruct (IH (buf ++ [lo]) (zlen buf)) as (r' & carry & last' & E & Hs & Hv & Hl).
        pose proof (alphabet_in hi lo hi z lo Ec ltac:(lia)) as Elo.
        exists (lo :: r'), carry, last'. rewrite E, <- app_assoc. split; [reflexivity|]. split; [constructor; [|exact Hs]|].
        { split; [congruence|]. rewrite Ec. discriminate. }
        split.
        { cbn [rv weight]. rewrite Ec, Elo. destruct carry; nia. }
        intros Hcr. specialize (Hl Hcr). destruct Hl as [[Hn ->]|(x & d & y & lo' & hi' & z' & -> & Ed & Hd & Hy & ->)].
        { right. exists [], lo, r', lo, hi, z. split; [reflexivity|]. split; [exact Elo|]. split; [reflexivity|].
          split; [exact Hn|]. rewrite zlen_nil. lia. }
        { right. exists (lo :: x), d, y, lo', hi', z'. split; [reflexivity|]. split; [exact Ed|]. split; [exact Hd|].
          split; [exact Hy|]. rewrite zlen_app, !zlen_cons, zlen_nil. lia. }
      * rewrite (next_step_low alnum c lo hi z) by (try exact Ec; lia).
        pose proof (alphabet_in c lo hi z (c + 1) Ec ltac:(lia)) as Ec1.
        exists ((c + 1) :: t), false, last. split; [reflexivity|]. split; [constructor; [|apply shape_refl]|].
        { split; [congruence|]. rewrite Ec. discriminate. }
        split; [|discriminate]. cbn [rv]. rewrite Ec, Ec1. lia.
    + rewrite next_step_other by auto.
      destruct (IH (buf ++ [c]) last) as (r' & carry & last' & E & Hs & Hv & Hl).
      exists (c :: r'), carry, last'. rewrite E, <- app_assoc. split; [reflexivity|].
      split; [constructor; [apply same_shape_refl|exact Hs]|]. cbn [rv weight]. rewrite Ec. split; [exact Hv|].
      intros Hcr. specialize (Hl Hcr). destruct Hl as [[Hn ->]|(x & d & y & lo' & hi' & z' & -> & Ed & Hd & Hy & ->)].
      { left. split; [constructor; assumption|reflexivity]. }
      { right. exists (c :: x), d, y, lo', hi', z'. split; [reflexivity|]. split; [exact Ed|]. split; [exact Hd|].
        split; [exact Hy|]. rewrite zlen_app, !zlen_cons, zlen_nil. lia. }
Qed.
Lemma Forall2_rev {A} (R : A -> A -> Prop) a b : Forall2 R a b -> Forall2 R (rev a) (rev b).
Proof.
  induction 1 as [|x y a b H _ IH]; [constructor|]. cbn [rev]. apply Forall2_app; [exact IH|]. constructor; [exact H|constructor].
Qed.
(* succ counts up by one; a new leading char appears exactly on overflow, in
   front of the leftmost counted char and in its alphabet *)
Lemma succ_counts alnum cs :
  (forall c, In c cs -> (alphabet c = None <-> alnum c = false)) ->
  (exists c, In c cs /\ alphabet c <> None) ->
  exists cs', str_next alnum cs = Ok cs' /\ rv (rev cs') = rv (rev cs) + 1 /\
    (Forall2 same_shape cs cs' \/
     exists a b b' f c t, cs = a ++ b /\ cs' = a ++ f :: b' /\ b' = c :: t /\ Forall2 same_shape b b' /\
       Forall (fun c => alphabet c = None) a /\ alphabet f = alphabet c /\ alphabet c <> None).
Proof.
  intros Hcls (c0 & Hin & Hc0).
  unfold str_next. destruct cs as [|c1 cs1] eqn:Ecs; [contradiction|]. rewrite <- Ecs in *. clear c1 cs1 Ecs.
  assert (forallb (fun c => negb (alnum c)) cs = false) as ->.
  { destruct (forallb _ cs) eqn:E; [|reflexivity]. rewrite forallb_forall in E. specialize (E c0 Hin).
    assert (alphabet c0 = None); [|contradiction]. apply (Hcls c0 Hin). destruct (alnum c0); [discriminate|reflexivity]. }
  assert (Hr : Forall (fun c => alphabet c = None -> alnum c = false) (rev cs)).
  { apply Forall_forall. intros c Hc. apply in_rev in Hc. apply Hcls. exact Hc. }
  destruct (next_loop_counts alnum (rev cs) Hr [] 0) as (r' & carry & last' & E & Hs & Hv & Hl).
  rewrite E. cbn [rbind app]. destruct carry.
  - specialize (Hl eq_refl). destruct Hl as [[Hn _]|(x & d & y & lo & hi & z & -> & Ed & Hd & Hy & ->)].
    + exfalso. assert (Forall (fun c => alphabet c = None) (rev cs)).
      { clear - Hs Hn. induction Hs as [|c d a b [Hcd _] _ IH]; [constructor|]. inversion Hn; subst. constructor; [congruence|auto]. }
      rewrite Forall_forall in H. apply Hc0, H. apply in_rev. rewrite rev_involutive. exact Hin.
    + rewrite zlen_nil, Z.add_0_l.
      assert (Hg : v_get (x ++ d :: y) (zlen x) = Ok d).
      { unfold v_get. rewrite zlen_app, zlen_cons. pose proof (zlen_nonneg x). pose proof (zlen_nonneg y).
        replace ((0 <=? zlen x) && (zlen x <? zlen x + (zlen y + 1))) with true by lia.
        unfold zlen. rewrite Nat2Z.id, nth_error_app2, Nat.sub_diag by lia. reflexivity. }
      rewrite Hg. cbn [rbind].
      assert (Hins : forall f, insert_at (x ++ d :: y) (zlen x + 1) f = x ++ d :: f :: y).
      { intros f. unfold insert_at. change (x ++ d :: y) with (x ++ ([d] ++ y)). rewrite app_assoc.
        rewrite zfirst_app_l by (rewrite zlen_app, zlen_cons, zlen_nil; lia).
        rewrite zfirst_all by (rewrite zlen_app, zlen_cons, zlen_nil; lia).
        rewrite zskip_app_r by (rewrite zlen_app, zlen_cons, zlen_nil; lia).
        rewrite zskip_0 by (rewrite zlen_app, zlen_cons, zlen_nil; lia).
        rewrite <- app_assoc. reflexivity. }
      rewrite !Hins.
      assert (Hf : exists f, alphabet f = Some (lo, hi, z) /\ f - z = 1 /\
        (if d =? 48 then x ++ d :: 49 :: y else if d =? 0xff10 then x ++ d :: 0xff11 :: y
         else if d =? 97 then x ++ d :: 97 :: y else if d =? 65 then x ++ d :: 65 :: y else x ++ d :: y) = x ++ d :: f :: y).
      { pose proof Ed as Hdc. apply alphabet_cases in Hdc. rewrite Hd. destruct Hdc as [_ [Q|[Q|[Q|Q]]]]; injection Q as -> -> ->.
        - exists 49. auto. - exists 97. auto. - exists 65. auto. - exists 0xff11. auto. }
      destruct Hf as (f & Ef & Hfz & ->).
      eexists. split; [reflexivity|]. rewrite rev_involutive. split.
      { pose proof (weight_shape _ _ Hs) as Hw. destruct (rv_none y Hy) as [Hy1 Hy2].
        rewrite Hw in Hv. rewrite <- Hv. rewrite !rv_app, weight_app. cbn [rv weight]. rewrite Ed, Ef, Hy1, Hy2. nia. }
      { right. apply Forall2_rev in Hs. rewrite rev_involutive, rev_app_distr in Hs. cbn [rev] in Hs.
        rewrite <- app_assoc in Hs. cbn [app] in Hs.
        apply Forall2_app_inv_r in Hs. destruct Hs as (a & b & Ha & Hb & Hab).
        assert (Ha2 : a = rev y).
        { assert (Hyr : Forall (fun c => alphabet c = None) (rev y)) by (apply Forall_rev; exact Hy).
          clear - Ha Hyr. induction Ha as [|c e a b [H1 H2] _ IH]; [reflexivity|]. inversion Hyr; subst.
          rewrite IH by assumption. f_equal. apply H2. congruence. }
        exists a, b, (d :: rev x), f, d, (rev x). subst a. rewrite Hab. split; [reflexivity|]. split.
        { rewrite rev_app_distr. cbn [rev]. rewrite <- !app_assoc. reflexivity. }
        split; [reflexivity|]. split; [exact Hb|].
        split; [apply Forall_rev; exact Hy|]. split; [congruence|rewrite Ed; discriminate]. }
  - eexists. split; [reflexivity|]. rewrite rev_involutive. split; [lia|]. left.
    apply Forall2_rev in Hs. rewrite rev_involutive in Hs. exact Hs.
Qed.
