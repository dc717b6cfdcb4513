From Coq Require Import ZArith List Bool Arith Lia Relations.
From Verif Require Import Base ModelArray ProofsArray2 ModelAlias SpecAlias SpecClass.
Import ListNotations.
Local Open Scope nat_scope.

Lemma holds_contents h i l : holds h i l -> contents h i = l.
Proof. intros (c & E & <-). unfold contents. now rewrite E. Qed.
Lemma contents_holds h i : i < length h -> holds h i (contents h i).
Proof.
  intros L. unfold contents. destruct (nth_error h i) as [c|] eqn:E; [exists c; auto|]. apply nth_error_None in E. lia.
Qed.
Lemma holds_lt h i l : holds h i l -> i < length h.
Proof. intros (c & E & _). apply nth_error_Some. congruence. Qed.
Lemma put_at h s c : s < length h -> nth_error (put h s c) s = Some c.
Proof.
  intros L. unfold put. rewrite nth_error_app2; rewrite firstn_length; [|lia].
  replace (s - Nat.min s (length h)) with 0 by lia. reflexivity.
Qed.
Lemma put_other h s c i : s < length h -> i <> s -> nth_error (put h s c) i = nth_error h i.
Proof.
  intros L N. unfold put. destruct (Nat.lt_ge_cases i s) as [Hl|Hg].
  - rewrite nth_error_app1 by (rewrite firstn_length; lia). rewrite <- (firstn_skipn s h) at 2.
    rewrite nth_error_app1 by (rewrite firstn_length; lia). reflexivity.
  - rewrite nth_error_app2 by (rewrite firstn_length; lia). rewrite firstn_length.
    replace (i - Nat.min s (length h)) with (S (i - S s)) by lia. cbn [nth_error].
    rewrite <- (firstn_skipn (S s) h) at 2. rewrite nth_error_app2 by (rewrite firstn_length; lia).
    rewrite firstn_length. f_equal. lia.
Qed.
Lemma put_changes h s v c : s < length h -> changes h s (Ok (v, put h s c)) v (elems c).
Proof.
  intros L. eexists. split; [reflexivity|]. split; [exists c; split; [now apply put_at|reflexivity]|].
  intros i k N. unfold holds. rewrite put_other by assumption. tauto.
Qed.
Lemma set_changes h s v l : s < length h -> changes h s (Ok (v, set_elems h s l)) v l.
Proof.
  intros L. unfold set_elems. destruct (nth_error h s) as [c|] eqn:E; [|apply nth_error_None in E; lia].
  exact (put_changes h s v (mkcell l _) L).
Qed.
Lemma new_gives h l : gives_new h (Ok (array_from l h)) l.
Proof.
  exists (length h), (h ++ [new_info l]). split; [reflexivity|]. split; [now apply nth_error_None|]. split; [|split].
  - exists (new_info l). split; [|reflexivity]. rewrite nth_error_app2 by lia. now rewrite Nat.sub_diag.
  - intros i k (c & E & H). exists c. split; [|exact H]. rewrite nth_error_app1; [exact E|]. apply nth_error_Some. congruence.
  - intros i k (c & E & H) N. exists c. split; [|exact H]. destruct (Nat.lt_ge_cases i (length h)) as [Hl|Hg].
    + rewrite nth_error_app1 in E by exact Hl. exact E.
    + rewrite nth_error_app2 in E by exact Hg. destruct (i - length h) as [|m] eqn:Em; [lia|]. cbn in E. destruct m; discriminate.
Qed.
Lemma without_filter l : without_nil l = filter (fun x => negb (is_nil x)) l.
Proof. induction l as [|[] l IH]; cbn; congruence. Qed.
Lemma nil_in l : existsb is_nil l = true <-> In ANil l.
Proof.
  rewrite existsb_exists. split.
  - intros ([] & I & E); try discriminate. exact I.
  - intros I. exists ANil. auto.
Qed.

(** *** uniq *)
Section U.
Variable same : aheap -> aval -> aval -> bool.
Variables (h : aheap) (s : nat).
Hypothesis Rf : forall x, same h x x = true.
Hypothesis Tr : forall x y z, same h x y = true -> same h y z = true -> same h x z = true.
Notation D := (duplicate (same h) s).
Lemma is_self_true x : is_self s x = true <-> x = AArr s.
Proof. destruct x; cbn; try (split; discriminate). rewrite Nat.eqb_eq. split; congruence. Qed.
(** the set and the flag stand for the elements before *)
Definition stands (b : list aval) (r : bool) (seen : list aval) : Prop :=
  (r = true <-> In (AArr s) b)
  /\ (forall y, In y seen -> y <> AArr s /\ In y b)
  /\ (forall y, In y b -> y <> AArr s -> exists z, In z seen /\ same h y z = true).
Lemma stands_nil : stands [] false [].
Proof. split; [split; [discriminate|contradiction]|]. split; contradiction. Qed.
Lemma stands_skip b r seen x : stands b r seen ->
  (x = AArr s -> r = true) -> (x <> AArr s -> exists z, In z seen /\ same h x z = true) -> stands (b ++ [x]) r seen.
Proof.
  intros (H1 & H2 & H3) Hx Hy. split; [|split].
  - rewrite H1, in_app_iff. split; [auto|]. intros [I|[E|[]]]; [exact I|]. apply H1. auto.
  - intros y I. destruct (H2 y I). rewrite in_app_iff. auto.
  - intros y I N. apply in_app_iff in I as [I|[<-|[]]]; auto.
Qed.
Lemma stands_self b r seen : stands b r seen -> stands (b ++ [AArr s]) true seen.
Proof.
  intros (H1 & H2 & H3). split; [|split].
  - split; [intros _|reflexivity]. apply in_app_iff. right. now left.
  - intros y I. destruct (H2 y I). rewrite in_app_iff. auto.
  - intros y I N. apply in_app_iff in I as [I|[<-|[]]]; [auto|congruence].
Qed.
Lemma stands_new b r seen x : stands b r seen -> x <> AArr s -> stands (b ++ [x]) r (x :: seen).
Proof.
  intros (H1 & H2 & H3) N. split; [|split].
  - rewrite H1, in_app_iff. split; [auto|]. intros [I|[E|[]]]; [exact I|congruence].
  - intros y [<-|I]; [rewrite in_app_iff; cbn; auto|]. destruct (H2 y I). rewrite in_app_iff. auto.
  - intros y I Ny. apply in_app_iff in I as [I|[<-|[]]].
    + destruct (H3 y I Ny) as (z & Iz & E). exists z. cbn. auto.
    + exists x. cbn. auto.
Qed.
Lemma uniq_loop_ok l : forall b r seen v, stands b r seen ->
  exists k, a_uniq_loop same h s l seen r v = v ++ k /\ firsts D b l k.
Proof.
  induction l as [|x l IH]; intros b r seen v St; cbn [a_uniq_loop].
  - exists []. rewrite app_nil_r. split; [reflexivity|constructor].
  - pose proof St as (H1 & H2 & H3). destruct (is_self s x) eqn:Es.
    + apply is_self_true in Es. subst x. destruct r.
      * destruct (IH (b ++ [AArr s]) true seen v) as (k & E & F); [apply (stands_self _ _ _ St)|].
        exists k. split; [exact E|]. apply (F_drop _ _ _ _ _ (AArr s)); [now apply H1|left; auto|exact F].
      * destruct (IH (b ++ [AArr s]) true seen (v ++ [AArr s])) as (k & E & F); [apply (stands_self _ _ _ St)|].
        exists (AArr s :: k). rewrite E, <- app_assoc. split; [reflexivity|]. apply F_keep; [|exact F].
        intros y I [[_ ->]|[N _]]; [|congruence]. apply H1 in I. discriminate.
    + assert (N : x <> AArr s) by (intros E; apply is_self_true in E; congruence).
      destruct (existsb (same h x) seen) eqn:Ex.
      * apply existsb_exists in Ex as (z & Iz & Ez). destruct (H2 z Iz) as [Nz Bz].
        destruct (IH (b ++ [x]) r seen v) as (k & E & F).
        { apply stands_skip; [exact St|congruence|]. intros _. exists z. auto. }
        exists k. split; [exact E|]. apply (F_drop _ _ _ _ _ z); [exact Bz|right; auto|exact F].
      * destruct (IH (b ++ [x]) r (x :: seen) (v ++ [x])) as (k & E & F); [apply stands_new; auto|].
        exists (x :: k). rewrite E, <- app_assoc. split; [reflexivity|]. apply F_keep; [|exact F].
        intros y I [[E1 _]|(_ & Ny & Ey)]; [congruence|]. destruct (H3 y I Ny) as (z & Iz & Ez).
        assert (T : existsb (same h x) seen = true) by (apply existsb_exists; exists z; split; [exact Iz|eauto]). congruence.
Qed.
Lemma uniq_answers l : forall b r seen, stands b r seen ->
  exists st bs k, answers (a_uniq_test same h s) (r, seen) l = (st, bs, Ok tt) /\ picked true l bs = k /\ firsts D b l k
    /\ (zlen (picked false l bs) = zlen l - zlen k)%Z.
Proof.
  induction l as [|x l IH]; intros b r seen St; cbn [answers].
  - exists (r, seen), [], []. repeat split; constructor.
  - pose proof St as (H1 & H2 & H3). unfold a_uniq_test at 1. destruct (is_self s x) eqn:Es.
    + apply is_self_true in Es. subst x. destruct r.
      * destruct (IH (b ++ [AArr s]) true seen) as (st & bs & k & E & P & F & Z); [apply (stands_self _ _ _ St)|].
        rewrite E. exists st, (false :: bs), k. split; [reflexivity|]. split; [exact P|]. split.
        -- apply (F_drop _ _ _ _ _ (AArr s)); [now apply H1|left; auto|exact F].
        -- unfold picked in *. cbn [combine filter snd Bool.eqb map fst]. unfold zlen in *. cbn [length]. lia.
      * destruct (IH (b ++ [AArr s]) true seen) as (st & bs & k & E & P & F & Z); [apply (stands_self _ _ _ St)|].
        rewrite E. exists st, (true :: bs), (AArr s :: k). split; [reflexivity|]. split; [unfold picked in *; cbn; now rewrite P|]. split.
        -- apply F_keep; [|exact F]. intros y I [[_ ->]|[N _]]; [|congruence]. apply H1 in I. discriminate.
        -- unfold picked in *. cbn [combine filter snd Bool.eqb map fst]. unfold zlen in *. cbn [length]. lia.
    + assert (N : x <> AArr s) by (intros E; apply is_self_true in E; congruence).
      destruct (existsb (same h x) seen) eqn:Ex.
      * apply existsb_exists in Ex as (z & Iz & Ez). destruct (H2 z Iz) as [Nz Bz].
        destruct (IH (b ++ [x]) r seen) as (st & bs & k & E & P & F & Z).
        { apply stands_skip; [exact St|congruence|]. intros _. exists z. auto. }
        rewrite E. exists st, (false :: bs), k. split; [reflexivity|]. split; [exact P|]. split.
        -- apply (F_drop _ _ _ _ _ z); [exact Bz|right; auto|exact F].
        -- unfold picked in *. cbn [combine filter snd Bool.eqb map fst]. unfold zlen in *. cbn [length]. lia.
      * destruct (IH (b ++ [x]) r (x :: seen)) as (st & bs & k & E & P & F & Z); [apply stands_new; auto|].
        rewrite E. exists st, (true :: bs), (x :: k). split; [reflexivity|]. split; [unfold picked in *; cbn; now rewrite P|]. split.
        -- apply F_keep; [|exact F]. intros y I [[E1 _]|(_ & Ny & Ey)]; [congruence|]. destruct (H3 y I Ny) as (z & Iz & Ez').
           assert (T : existsb (same h x) seen = true) by (apply existsb_exists; exists z; split; [exact Iz|eauto]). congruence.
        -- unfold picked in *. cbn [combine filter snd Bool.eqb map fst]. unfold zlen in *. cbn [length]. lia.
Qed.
Lemma firsts_len b l k : firsts D b l k -> length k <= length l /\ (length k = length l -> k = l).
Proof.
  induction 1 as [|b x l k _ _ [IH1 IH2]|b x l k y _ _ _ [IH1 IH2]]; cbn; [auto| |].
  - split; [lia|]. intros E. f_equal. apply IH2. lia.
  - split; lia.
Qed.
Lemma firsts_fun b l k k' : firsts D b l k -> firsts D b l k' -> k = k'.
Proof.
  intros F. revert k'. induction F as [|b x l k N _ IH|b x l k y I Dy _ IH]; intros k' F'; inversion F'; subst.
  - reflexivity.
  - f_equal. auto.
  - exfalso. eapply N; eauto.
  - exfalso. match goal with H : forall y, In y b -> ~ _ |- _ => exact (H y I Dy) end.
  - auto.
Qed.
End U.

(** *** flatten *)
Definition opens (n : option nat) (l : list aval) : bool :=
  match n with Some 0 => false | _ => existsb (fun x => match x with AArr _ => true | _ => false end) l end.
Lemma opens_true n l : opens n l = true <-> n <> Some 0 /\ exists i, In (AArr i) l.
Proof.
  unfold opens. destruct n as [[|n]|].
  - split; [discriminate|]. intros [H _]. congruence.
  - rewrite existsb_exists. split.
    + intros ([|z|i] & I & E); try discriminate. split; [discriminate|eauto].
    + intros [_ (i & I)]. exists (AArr i). auto.
  - rewrite existsb_exists. split.
    + intros ([|z|i] & I & E); try discriminate. split; [discriminate|eauto].
    + intros [_ (i & I)]. exists (AArr i). auto.
Qed.
Lemma level_depth arg : level_of arg = depth arg.
Proof.
  destruct arg as [z|]; [|reflexivity]. unfold level_of, depth.
  destruct (Z.ltb_spec z 0), (Z.leb_spec 0 z); try reflexivity; lia.
Qed.
Lemma opens_leaf n x l : n = Some 0 \/ (forall i, x <> AArr i) -> opens n (x :: l) = opens n l.
Proof.
  intros [->|H]; [reflexivity|]. unfold opens. destruct n as [[|n]|]; try reflexivity; cbn; destruct x; try reflexivity; exfalso; eapply H; reflexivity.
Qed.
Lemma opens_arr n i l : n <> Some 0 -> opens n (AArr i :: l) = true.
Proof. intros N. apply opens_true. split; [exact N|]. exists i. now left. Qed.
Lemma ary_leaf fuel h s n x acc : n = Some 0 \/ (forall i, x <> AArr i) ->
  ary_flat (S fuel) h s n x acc = Some (Ok (acc ++ [x], false)).
Proof.
  intros [->|H]; cbn; [destruct x; reflexivity|]. destruct n as [[|n]|], x; try reflexivity; exfalso; eapply H; reflexivity.
Qed.
Lemma ary_arr fuel h s n i acc : n <> Some 0 ->
  ary_flat (S fuel) h s n (AArr i) acc =
  if (match n with None => Nat.eqb i s | _ => false end) then Some (Err ArgErr)
  else match flat_all (ary_flat fuel h s (less n)) (contents h i) acc true with
       | Some (Ok (acc', _)) => Some (Ok (acc', true))
       | r => r end.
Proof. intros N. destruct n as [[|n]|]; [congruence|reflexivity|reflexivity]. Qed.
Lemma less_none n : less n = None -> n = None.
Proof. destruct n as [[|n]|]; cbn; congruence. Qed.

Lemma flat_runs h s n l k : flat h n l k ->
  (n = None -> forall i, In (AArr i) l -> i <> s /\ ~ within h i s) ->
  exists N, forall fuel acc flag, N <= fuel ->
    flat_all (ary_flat fuel h s n) l acc flag = Some (Ok (acc ++ k, flag || opens n l)).
Proof.
  induction 1 as [n|n x l k L _ IH|n i a l k1 k2 N Ha F1 IH1 _ IH2]; intros Hn.
  - exists 0. intros fuel acc flag _. cbn [flat_all]. rewrite app_nil_r. replace (opens n []) with false; [now rewrite orb_false_r|].
    destruct n as [[|n]|]; reflexivity.
  - destruct IH as (M & IH); [intros E i I; apply Hn; [exact E|now right]|].
    exists (S M). intros fuel acc flag Hf. destruct fuel as [|fuel]; [lia|]. cbn [flat_all]. rewrite ary_leaf by exact L.
    rewrite IH by lia. rewrite opens_leaf by exact L. rewrite <- app_assoc, orb_false_r. reflexivity.
  - destruct IH1 as (M1 & IH1).
    { intros E j I. apply less_none in E. destruct (Hn E i (or_introl eq_refl)) as [D1 D2].
      assert (Hij : within h i j) by (apply t_step; exists a; auto). split.
      - intros ->. contradiction.
      - intros W. apply D2. eapply t_trans; eauto. }
    destruct IH2 as (M2 & IH2); [intros E j I; apply Hn; [exact E|now right]|].
    exists (S (M1 + M2)). intros fuel acc flag Hf. destruct fuel as [|fuel]; [lia|]. cbn [flat_all]. rewrite ary_arr by exact N.
    rewrite (holds_contents _ _ _ Ha).
    replace (match n with None => Nat.eqb i s | _ => false end) with false.
    2: { destruct n; [reflexivity|]. symmetry. apply Nat.eqb_neq. apply (Hn eq_refl i). now left. }
    rewrite IH1 by lia. rewrite IH2 by lia. rewrite (opens_arr n i l N). rewrite <- app_assoc.
    now rewrite !orb_true_r, orb_true_l.
Qed.
Lemma flat_grounded h l k n : flat h n l k -> n = None -> forall i, In (AArr i) l -> grounded h i.
Proof.
  induction 1 as [n|n x l k L _ IH|n i a l k1 k2 N Ha F1 IH1 _ IH2]; intros E j I.
  - contradiction.
  - destruct I as [->|I]; [|auto]. destruct L as [L|L]; [congruence|]. exfalso. eapply L. reflexivity.
  - destruct I as [I|I]; [|auto]. injection I as <-. constructor. intros m (b & Hb & Im).
    assert (b = a) by (apply holds_contents in Ha, Hb; congruence). subst b. apply IH1; [subst n; reflexivity|exact Im].
Qed.
Lemma grounded_no_cycle h i : grounded h i -> ~ within h i i.
Proof.
  intros G. assert (A : Acc (fun j i => within h i j) i).
  { induction G as [i _ IH]. constructor. intros j W. unfold within in W.
    apply clos_trans_t1n in W. destruct W as [y H|y z H W].
    - now apply IH.
    - assert (Ay := IH y H). destruct Ay as [Ay]. apply Ay. now apply clos_t1n_trans. }
  clear G. induction A as [i _ IH]. intros W. exact (IH i W W).
Qed.
Lemma flat_says h s (C : closed h) : forall fuel n l acc flag r, (forall j, In (AArr j) l -> j < length h) ->
  flat_all (ary_flat fuel h s n) l acc flag = Some r ->
  (exists k, flat h n l k /\ r = Ok (acc ++ k, flag || opens n l))
  \/ (r = Err ArgErr /\ n = None /\ exists i, In (AArr i) l /\ (i = s \/ within h i s)).
Proof.
  induction fuel as [|fuel IHf]; intros n l; induction l as [|x l IHl]; intros acc flag r Hl E; cbn [flat_all] in E.
  - left. exists []. injection E as <-. split; [constructor|]. rewrite app_nil_r. f_equal. f_equal.
    destruct n as [[|n]|]; cbn; now rewrite orb_false_r.
  - discriminate.
  - left. exists []. injection E as <-. split; [constructor|]. rewrite app_nil_r. f_equal. f_equal.
    destruct n as [[|n]|]; cbn; now rewrite orb_false_r.
  - assert (Hl' : forall j, In (AArr j) l -> j < length h) by (intros j I; apply Hl; now right).
    assert (L : (n = Some 0 \/ (forall i, x <> AArr i)) \/ (n <> Some 0 /\ exists i, x = AArr i)).
    { destruct n as [[|n]|]; [left; auto| |]; (destruct x as [| |i]; [left; right; discriminate|left; right; discriminate|right; split; [discriminate|eauto]]). }
    destruct L as [L|[N (i & ->)]].
    + rewrite ary_leaf in E by exact L. destruct (IHl _ _ _ Hl' E) as [(k & F & Er)|(Er & En & i & I & W)].
      * left. exists (x :: k). split; [now constructor|]. rewrite Er, opens_leaf by exact L. rewrite <- app_assoc, orb_false_r. reflexivity.
      * right. split; [exact Er|]. split; [exact En|]. exists i. split; [now right|exact W].
    + rewrite ary_arr in E by exact N.
      assert (Hi := contents_holds h i (Hl i (or_introl eq_refl))).
      destruct (match n with None => Nat.eqb i s | _ => false end) eqn:Es.
      { right. injection E as <-. destruct n; [discriminate|]. apply Nat.eqb_eq in Es. split; [reflexivity|]. split; [reflexivity|].
        exists i. split; [now left|now left]. }
      destruct (flat_all (ary_flat fuel h s (less n)) (contents h i) acc true) as [r1|] eqn:E1; [|discriminate].
      destruct (IHf _ _ _ _ _ (fun j I => C _ _ _ Hi I) E1) as [(k1 & F1 & Er1)|(Er1 & En & j & I & W)].
      * rewrite Er1 in E. destruct (IHl _ _ _ Hl' E) as [(k & F & Er)|(Er & En & j & I & W)].
        -- left. exists (k1 ++ k). split; [eapply L_arr; eauto|]. rewrite Er, <- app_assoc, (opens_arr n i l N). now rewrite !orb_true_r, orb_true_l.
        -- right. split; [exact Er|]. split; [exact En|]. exists j. split; [now right|exact W].
      * rewrite Er1 in E. injection E as <-. apply less_none in En. right. split; [reflexivity|]. split; [exact En|].
        exists i. split; [now left|]. right. assert (Hij : within h i j) by (apply t_step; exists (contents h i); auto).
        destruct W as [->|W]; [exact Hij|]. eapply t_trans; eauto.
Qed.
Lemma flat_exists_level h (C : closed h) : forall m l, (forall j, In (AArr j) l -> j < length h) -> exists k, flat h (Some m) l k.
Proof.
  induction m as [|m IH]; intros l; induction l as [|x l IHl]; intros Hl.
  - exists []. constructor.
  - destruct IHl as (k & F); [intros j I; apply Hl; now right|]. exists (x :: k). constructor; auto.
  - exists []. constructor.
  - destruct IHl as (k & F); [intros j I; apply Hl; now right|].
    destruct x as [|z|i]; [exists (ANil :: k)|exists (AObj z :: k)|]; [constructor; [right; discriminate|exact F]..|].
    assert (Hi := contents_holds h i (Hl i (or_introl eq_refl))).
    destruct (IH (contents h i)) as (k1 & F1); [intros j I; exact (C _ _ _ Hi I)|].
    exists (k1 ++ k). eapply L_arr; eauto. discriminate.
Qed.
Lemma flat_exists_list h l : (forall i, In (AArr i) l -> exists a k, holds h i a /\ flat h None a k) -> exists k, flat h None l k.
Proof.
  induction l as [|x l IHl]; intros Hl; [exists []; constructor|].
  destruct IHl as (k & F); [intros j I; apply Hl; now right|].
  destruct x as [|z|i]; [exists (ANil :: k)|exists (AObj z :: k)|]; [constructor; [right; discriminate|exact F]..|].
  destruct (Hl i (or_introl eq_refl)) as (a & k1 & Ha & F1). exists (k1 ++ k). eapply L_arr; eauto. discriminate.
Qed.
Lemma flat_exists_grounded h (C : closed h) i : grounded h i -> i < length h -> exists k, flat h None (contents h i) k.
Proof.
  induction 1 as [i _ IH]. intros L. assert (Hi := contents_holds h i L). apply flat_exists_list. intros j I.
  assert (Lj := C _ _ _ Hi I). destruct (IH j) as (k & F); [exists (contents h i); auto|exact Lj|].
  exists (contents h j), k. split; [now apply contents_holds|exact F].
Qed.
Lemma flat_fun h n l k : flat h n l k -> forall k', flat h n l k' -> k = k'.
Proof.
  induction 1 as [n|n x l k L _ IH|n i a l k1 k2 N Ha F1 IH1 _ IH2]; intros k' F'; inversion F'; subst.
  - reflexivity.
  - f_equal. auto.
  - exfalso. destruct L as [L|L]; [congruence|eapply L; reflexivity].
  - exfalso. match goal with H : _ \/ _ |- _ => destruct H as [H|H]; [congruence|eapply H; reflexivity] end.
  - match goal with H : holds h i ?b |- _ => assert (b = a) by (apply holds_contents in Ha, H; congruence); subst b end.
    f_equal; auto.
Qed.
