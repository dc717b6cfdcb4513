(** C99: iterating over an array with a block that may do anything *)
From Coq Require Import List Arith Bool Lia.
From Verif Require Import ModelIter SpecIter ProofsIter.
Import ListNotations.

Section General.
Variable V W X : Type.
Notation st := (ist V W).
Variable B : list V -> st -> bend V X -> st -> Prop.

Lemma calm_steady : calm B -> steady B.
Proof. intros C l s o s' H. rewrite (C _ _ _ _ H). auto. Qed.

Lemma leave_after : sound B -> forall l s r s1 i, fits s -> i < used (arr s) -> B l s (Gives r) s1 ->
  exists s2, leave s1 i r = Some s2 /\ fits s2 /\ forall s3, nothing_written i r s1 s3 <-> s3 = s2.
Proof. intros So l s r s1 i F _ H. exists s1. split; [reflexivity|]. split; [exact (So _ _ _ _ F H)|]. reflexivity. Qed.
Lemma replace_after : sound B -> growing B -> forall l s r s1 i, fits s -> i < used (arr s) -> B l s (Gives r) s1 ->
  exists s2, replace s1 i r = Some s2 /\ fits s2 /\ forall s3, written i r s1 s3 <-> s3 = s2.
Proof.
  intros So Gr l s r s1 i F L H. pose proof (So _ _ _ _ F H) as F1. pose proof (Gr _ _ _ _ H) as L1. unfold replace, vset.
  replace (i <? used (arr s1)) with true by (symmetry; apply Nat.ltb_lt; lia). eexists. split; [reflexivity|]. split.
  - unfold fits in *. cbn. rewrite put_length. exact F1.
  - intros [[p sl u] w]. unfold written. cbn. split.
    + intros (-> & -> & -> & E & N). f_equal. f_equal. apply nth_ext_error. intros j. rewrite N, put_nth. reflexivity.
    + intros E. injection E as -> -> -> ->. rewrite put_length. repeat split; auto. intros j. apply put_nth.
Qed.
Lemma while_does args after write (sargs : list (turn V W) -> V -> list V) (f : list V -> given V) (sf : list (turn V W) -> given V) :
  (forall h v, sargs h v = args (length h) v) -> (forall h, f (map value h) = sf h) -> sound B ->
  (forall l s r s1 i, fits s -> i < used (arr s) -> B l s (Gives r) s1 ->
    exists s2, after s1 i r = Some s2 /\ fits s2 /\ forall s3, write i r s1 s3 <-> s3 = s2) ->
  does B sargs write never (fun _ => sf) (fun s r s' => exists o, while_loop B args after 0 [] s o s' /\ r = ended f o).
Proof.
  intros Ha Hf So HA s r s' F. split.
  - intros (o & H & ->). destruct (while_to V W X B args sargs after write Ha HA _ _ _ _ _ H [] eq_refl eq_refl F) as (h & e & HV & ->).
    exists h, e. split; [exact HV|]. destruct e; cbn; rewrite ?Hf; reflexivity.
  - intros (h & e & HV & ->). exists (wend h e). split.
    + exact (while_from V W X B args sargs after write Ha HA _ _ _ _ _ HV F).
    + destruct e; cbn; rewrite ?Hf; reflexivity.
Qed.
Lemma over_turns A args again step (f : A -> given V) a0 (sargs : list (turn V W) -> V -> list V) stop (abs : list (turn V W) -> A -> Prop) fin (ok : V -> Prop) :
  (forall h a v s, abs h a -> ok v -> exists l, args a v s = Some l /\ forall o s', B l s o s' <-> B (sargs h v) s o s') ->
  (forall h a v r s1, abs h a -> stop r = false -> exists a', step a (length h) v r s1 = inl a' /\ abs (h ++ [(v, r, s1)]) a') ->
  (forall h a v r s1, abs h a -> stop r = true -> step a (length h) v r s1 = inr (fin (h ++ [(v, r, s1)]))) ->
  steady B -> (again = true -> calm B) -> (forall h a a', abs h a -> abs h a' -> f a = f a') ->
  (forall l s o s', oks V W ok s -> B l s o s' -> oks V W ok s') -> abs [] a0 ->
  forall s r s', fits s -> oks V W ok s ->
  (over B args again step f a0 s r s' <-> exists h e, visits B sargs nothing_written stop [] s h e s' /\
    match e with Done => exists a, abs h a /\ r = Normal (f a) | Stopped => r = Normal (fin h) | Left x => r = Out x end).
Proof.
  intros Hargs Hgo Hstop Hst Hcalm Hfun Hok H0 s r s' F K.
  assert (T : there V W (place (arr s)) (used (arr s)) ok s) by (repeat split; auto). split.
  - intros (o & H & ->).
    destruct (for_to V W X A B _ _ args again step sargs stop abs fin ok Hargs Hgo Hstop Hst Hcalm Hok _ _ _ _ _ H [] eq_refl H0 T) as (h & e & HV & Ho).
    exists h, e. split; [exact HV|]. destruct e; cbn in *; [destruct Ho as (a & Ha & ->); exists a; auto|subst o; reflexivity|subst o; reflexivity].
  - intros (h & e & HV & Hr).
    destruct (for_from V W X A B _ _ args again step sargs stop abs fin ok Hargs Hgo Hstop Hst Hcalm Hok _ _ _ _ _ HV a0 H0 T) as (o & HF & Ho).
    exists o. split; [exact HF|]. destruct e; cbn in *.
    + destruct Hr as (a & Ha & ->). destruct Ho as (a' & Ha' & ->). cbn. rewrite (Hfun _ _ _ Ha Ha'). reflexivity.
    + subst. reflexivity.
    + subst. reflexivity.
Qed.
Lemma over_does A args again step (f : A -> given V) a0 (sargs : list (turn V W) -> V -> list V) stop (abs : list (turn V W) -> A) (sf : bool -> list (turn V W) -> given V) :
  (forall h v (s : st), args (abs h) v s = Some (sargs h v)) ->
  (forall h v r (s1 : st), step (abs h) (length h) v r s1 = if (stop r : bool) then inr (sf true (h ++ [(v, r, s1)])) else inl (abs (h ++ [(v, r, s1)]))) ->
  (forall h, f (abs h) = sf false h) ->
  steady B -> (again = true -> calm B) -> (abs [] : A) = a0 ->
  does B sargs nothing_written stop sf (over B args again step f a0).
Proof.
  intros Ha Hs Hf St Ca H0 s r s' F.
  rewrite (over_turns A args again step f a0 sargs stop (fun h a => a = abs h) (sf true) (fun _ => True)); try assumption.
  - split; intros (h & e & HV & Hr); exists h, e; (split; [exact HV|]); destruct e; try exact Hr.
    + destruct Hr as (a & -> & ->). rewrite Hf. reflexivity.
    + exists (abs h). rewrite Hf. auto.
  - intros h a v s0 -> _. exists (sargs h v). split; [apply Ha|reflexivity].
  - intros h a v r0 s1 -> E. eexists. rewrite Hs, E. auto.
  - intros h a v r0 s1 -> E. rewrite Hs, E. reflexivity.
  - intros h a a' -> ->. reflexivity.
  - intros ? ? ? ? ? ? ? ?. exact I.
  - symmetry. exact H0.
  - intros ? ?. exact I.
Qed.
End General.

(** *** C99: each, each_index, each_with_index and map *)
(** For every block: the turns are those of the array as it is at each moment, in
    order, and the element is the one it has at its turn; elements the block
    adds get their turn, removed ones do not; the block's exceptions and jumps
    end it at once. *)
Theorem C99_each : forall V W X (int : nat -> V) (B : list V -> ist V W -> bend V X -> ist V W -> Prop), sound B ->
  does B only_element nothing_written never (fun _ _ => Self) (a_each B) /\
  does B (fun h _ => [int (length h)]) nothing_written never (fun _ _ => Self) (a_each_index int B) /\
  does B (fun h v => [v; int (length h)]) nothing_written never (fun _ _ => Self) (a_each_with_index int B) /\
  does B only_element nothing_written never (fun _ h => New (map value h)) (a_map B).
Proof.
  intros V W X int B So. split; [|split; [|split]];
    (apply while_does; [reflexivity|reflexivity|exact So|apply leave_after; exact So]).
Qed.
Print Assumptions C99_each.

(** *** C99: map! *)
(** The same, and each element is replaced by the value of its turn before the next
    one, for blocks that never shorten the array.  Missing, and refuted below: those that do. *)
Theorem C99_map_bang_partial : forall V W X (B : list V -> ist V W -> bend V X -> ist V W -> Prop), sound B -> growing B ->
  does B only_element written never (fun _ _ => Self) (a_map_ B).
Proof.
  intros V W X B So Gr. apply while_does; [reflexivity|reflexivity|exact So|apply replace_after; assumption].
Qed.
Print Assumptions C99_map_bang_partial.

(** *** C99: select, reject, partition, find *)
(** For blocks that leave the array alone.  Missing, and refuted below: others. *)
Lemma yes_snoc V W truthy (h : list (turn V W)) v r s : yes truthy (h ++ [(v, r, s)]) = if truthy r then yes truthy h ++ [v] else yes truthy h.
Proof. unfold yes. rewrite filter_app, map_app. cbn. destruct (truthy r); [reflexivity|apply app_nil_r]. Qed.
Lemma no_snoc V W truthy (h : list (turn V W)) v r s : no truthy (h ++ [(v, r, s)]) = if truthy r then no truthy h else no truthy h ++ [v].
Proof. unfold no. rewrite filter_app, map_app. cbn. destruct (truthy r); cbn; [apply app_nil_r|reflexivity]. Qed.
Theorem C99_select_partial : forall V W X truthy (B : list V -> ist V W -> bend V X -> ist V W -> Prop), calm B ->
  does B only_element nothing_written never (fun _ h => New (yes truthy h)) (a_select truthy B) /\
  does B only_element nothing_written never (fun _ h => New (no truthy h)) (a_reject truthy B) /\
  does B only_element nothing_written never (fun _ h => New2 (yes truthy h) (no truthy h)) (a_partition truthy B) /\
  does B only_element nothing_written truthy (fun stopped h => if stopped then last_element h else Nothing) (a_find truthy B).
Proof.
  intros V W X truthy B C. pose proof (calm_steady V W X B C) as St. split; [|split; [|split]].
  - apply over_does with (abs := yes truthy); auto. intros. cbn. rewrite yes_snoc. reflexivity.
  - apply over_does with (abs := no truthy); auto. intros. cbn. rewrite no_snoc. destruct (truthy r); reflexivity.
  - apply over_does with (abs := fun h => (yes truthy h, no truthy h)); auto. intros. cbn. rewrite yes_snoc, no_snoc. destruct (truthy r); reflexivity.
  - apply over_does with (abs := fun _ => tt); auto. intros. cbn. unfold last_element. rewrite rev_app_distr. reflexivity.
Qed.
Print Assumptions C99_select_partial.

(** *** C99: find_index, any?, all?, inject *)
(** For blocks that add and remove no elements. *)
Theorem C99_find_index_partial : forall V W X truthy (B : list V -> ist V W -> bend V X -> ist V W -> Prop), steady B ->
  does B only_element nothing_written truthy (fun stopped h => if stopped then Index (length h - 1) else Nothing) (a_find_index truthy B) /\
  does B only_element nothing_written truthy (fun stopped _ => Truth stopped) (a_any truthy B) /\
  does B only_element nothing_written (fun r => negb (truthy r)) (fun stopped _ => Truth (negb stopped)) (a_all truthy B) /\
  forall init, does B (fun h v => [last_value init h; v]) nothing_written never (fun _ h => One (last_value init h)) (a_inject B init).
Proof.
  intros V W X truthy B St. split; [|split; [|split; [|intros init]]].
  - apply over_does with (abs := fun _ => tt); auto; [|discriminate]. intros. cbn. rewrite snoc_length. cbn. rewrite Nat.sub_0_r. reflexivity.
  - apply over_does with (abs := fun _ => tt); auto; discriminate.
  - apply over_does with (abs := fun _ => tt); auto; discriminate.
  - apply over_does with (abs := last_value init); auto; [|discriminate]. intros. cbn. unfold last_value. rewrite map_app. cbn. rewrite last_last. reflexivity.
Qed.
Print Assumptions C99_find_index_partial.

(** *** C99: uniq with a block *)
Lemma kind_fun V W same (h : list (turn V W)) l : first_of_kind same h l -> forall l', first_of_kind same h l' -> l = l'.
Proof.
  induction 1 as [|h l t H IH N|h l t u H IH Hu E]; intros l' H'.
  - inversion H' as [Q|q0 q1 q2 q3 q4 Q|q0 q1 q2 q3 q4 q5 q6 Q]; [reflexivity| |]; destruct q0; discriminate.
  - inversion H' as [Q|h1 l1 t1 H1 N1 Q|h1 l1 t1 u1 H1 U1 E1 Q]; [destruct h; discriminate| |]; apply app_inj_tail in Q; destruct Q as (-> & ->).
    + rewrite (IH _ H1). reflexivity.
    + rewrite (N _ U1) in E1. discriminate.
  - inversion H' as [Q|h1 l1 t1 H1 N1 Q|h1 l1 t1 u1 H1 U1 E1 Q]; [destruct h; discriminate| |]; apply app_inj_tail in Q; destruct Q as (-> & ->).
    + rewrite (N1 _ Hu) in E. discriminate.
    + exact (IH _ H1).
Qed.
Theorem C99_uniq_partial : forall V W X same (B : list V -> ist V W -> bend V X -> ist V W -> Prop), calm B ->
  (forall a, same a a = true) -> (forall a b, same a b = same b a) -> (forall a b c, same a b = true -> same b c = true -> same a c = true) ->
  forall s r s', fits s -> (a_uniq same B s r s' <-> exists h e, visits B only_element nothing_written never [] s h e s' /\
    match e with Left x => r = Out x | _ => exists l, first_of_kind same h l /\ r = Normal (New l) end).
Proof.
  intros V W X same B C Rf Sy Tr s r s' F. pose proof (calm_steady V W X B C) as St.
  set (abs := fun (h : list (turn V W)) (a : list V * list V) => first_of_kind same h (snd a) /\
    (forall t, In t h -> exists k, In k (fst a) /\ same (value t) k = true) /\ (forall k, In k (fst a) -> exists t, In t h /\ value t = k)).
  unfold a_uniq. rewrite (over_turns V W X B) with (sargs := only_element) (stop := never) (abs := abs) (fin := fun _ => Nothing) (ok := fun _ => True); try assumption.
  - split; intros (h & e & HV & Hr); exists h, e; (split; [exact HV|]); destruct e; try exact Hr.
    + destruct Hr as ([k l] & (H & _) & ->). exists l. auto.
    + exfalso. clear -HV. remember Stopped as e. induction HV; try discriminate; auto.
    + destruct Hr as (l & H & ->).
      assert (Q : forall h l, first_of_kind same h l -> exists a, abs h a /\ snd a = l).
      { clear -Rf Sy. intros h l H. exists (map value h, l). split; [|reflexivity]. split; [exact H|]. split.
        - intros t Ht. exists (value t). split; [apply in_map; exact Ht|apply Rf].
        - intros k Hk. apply in_map_iff in Hk. destruct Hk as (t & E & Ht). exists t. auto. }
      destruct (Q _ _ H) as (a & Ha & <-). exists a. auto.
    + exfalso. clear -HV. remember Stopped as e. induction HV; try discriminate; auto.
  - intros h a v s0 _ _. exists [v]. split; reflexivity.
  - intros h [ks l] v r0 s1 (H1 & H2 & H3) _. cbn [fst snd] in *. cbn. eexists. split; [reflexivity|]. destruct (existsb (same r0) ks) eqn:E.
    + apply existsb_exists in E. destruct E as (k & Hk & Ek). destruct (H3 k Hk) as (t & Ht & Et). split; [|split]; cbn.
      * eapply K_old; [exact H1|exact Ht|]. cbn. rewrite Et. exact Ek.
      * intros u Hu. apply in_app_or in Hu. destruct Hu as [Hu|[<-|[]]]; [exact (H2 u Hu)|]. exists k. auto.
      * intros k' Hk'. destruct (H3 k' Hk') as (u & Hu & Eu). exists u. split; [apply in_or_app; auto|exact Eu].
    + split; [|split]; cbn.
      * apply (K_new V W same h l (v, r0, s1)); [exact H1|]. intros u Hu. cbn. destruct (same r0 (value u)) eqn:Es; [|reflexivity].
        destruct (H2 u Hu) as (k & Hk & Ek). pose proof (Tr _ _ _ Es Ek) as Q. rewrite <- E. symmetry. apply existsb_exists. exists k. auto.
      * intros u Hu. apply in_app_or in Hu. destruct Hu as [Hu|[<-|[]]].
        -- destruct (H2 u Hu) as (k & Hk & Ek). exists k. split; [right; exact Hk|exact Ek].
        -- exists r0. split; [left; reflexivity|apply Rf].
      * intros k [<-|Hk]; [exists (v, r0, s1); split; [apply in_or_app; right; left; reflexivity|reflexivity]|].
        destruct (H3 k Hk) as (u & Hu & Eu). exists u. split; [apply in_or_app; auto|exact Eu].
  - discriminate.
  - auto.
  - intros h [k1 l1] [k2 l2] (H1 & _) (H2 & _). cbn in *. f_equal. exact (kind_fun _ _ _ _ _ H1 _ H2).
  - intros ? ? ? ? ? ? ? ?. exact I.
  - split; [constructor|]. split; intros ? [].
  - intros ? ?. exact I.
Qed.
Print Assumptions C99_uniq_partial.

(** *** C99: flat_map *)
(** For blocks that leave the array alone, have [req] parameters and no others, and
    get an array's elements as parameters if [req] is more than one; arrays
    among the elements are to be long enough for that. *)
Definition takes {V W X} (as_array : ist V W -> V -> option (list V)) (req : nat) (B : list V -> ist V W -> bend V X -> ist V W -> Prop) : Prop :=
  forall s v o s', match req with
    | 0 => B [] s o s' <-> B [v] s o s'
    | 1 => True
    | _ => forall l, as_array s v = Some l -> B (firstn req l) s o s' <-> B [v] s o s'
    end.
Theorem C99_flat_map_partial : forall V W X as_array req (B : list V -> ist V W -> bend V X -> ist V W -> Prop), calm B -> takes as_array req B ->
  forall s r s', fits s -> (forall v s1 l, In v (content s) -> as_array s1 v = Some l -> req <= 1 \/ req <= length l) ->
  (a_flat_map as_array B req s r s' <-> exists h e, visits B only_element nothing_written never [] s h e s' /\
    r = match e with Left x => Out x | _ => Normal (New (flat as_array h)) end).
Proof.
  intros V W X as_array req B C Ta s r s' F K. pose proof (calm_steady V W X B C) as St. unfold a_flat_map.
  rewrite (over_turns V W X B) with (sargs := only_element) (stop := never) (abs := fun h a => a = flat as_array h) (fin := fun _ => Nothing)
    (ok := fun v => forall s1 l, as_array s1 v = Some l -> req <= 1 \/ req <= length l); try assumption.
  - split; intros (h & e & HV & Hr); exists h, e; (split; [exact HV|]); destruct e; try exact Hr.
    + destruct Hr as (a & -> & ->). reflexivity.
    + exfalso. clear -HV. remember Stopped as e. induction HV; try discriminate; auto.
    + eexists. split; [reflexivity|exact Hr].
    + exfalso. clear -HV. remember Stopped as e. induction HV; try discriminate; auto.
  - intros h a v s0 _ Kv. unfold flat_args, only_element. specialize (Ta s0 v). destruct req as [|[|req]].
    + exists []. split; [reflexivity|]. intros o s1. apply Ta.
    + exists [v]. split; reflexivity.
    + destruct (as_array s0 v) as [l|] eqn:E; [|exists [v]; split; reflexivity].
      replace (length l <? S (S req)) with false by (symmetry; apply Nat.ltb_ge; destruct (Kv _ _ E); lia).
      exists (firstn (S (S req)) l). split; [reflexivity|]. intros o s1. apply Ta. reflexivity.
  - intros h a v r0 s1 -> _. eexists. split; [reflexivity|]. unfold flat. rewrite map_app, concat_app. cbn. rewrite app_nil_r. reflexivity.
  - discriminate.
  - discriminate.
  - intros h a a' -> ->. reflexivity.
  - intros l s0 o s1 H HB v Hv. apply H. unfold content in *. rewrite (C _ _ _ _ HB) in Hv. exact Hv.
  - reflexivity.
  - intros v Hv s1 l E. exact (K v s1 l Hv E).
Qed.
Print Assumptions C99_flat_map_partial.

(** *** C99: examples *)
(** Values are numbers, 0 counts as false.  The state besides the array is a list, to which a
    block adds its first argument.  [acts] is what the block does to the array; it
    gives [val] of its arguments, and raises at 9. *)
Definition nst := ist nat (list nat).
Definition block (acts : nat -> vec nat -> vec nat) (val : list nat -> nat) (l : list nat) (s : nst) (o : bend nat nat) (s' : nst) : Prop :=
  s' = mkist (acts (hd 0 l) (arr s)) (others s ++ [hd 0 l]) /\ o = if hd 0 l =? 9 then Leaves 1 else Gives (val l).
Definition truth (n : nat) : bool := negb (n =? 0).
Definition double (l : list nat) : nat := 2 * hd 0 l.
Definition parity (l : list nat) : nat := hd 0 l mod 2.
Definition start (l : list nat) : nst := mkist (mkvec 0 l (length l)) [].
Definition grow (x : nat) (a : vec nat) : vec nat := if x <? 3 then vpush a (x + 10) else a.
Definition quiet (x : nat) (a : vec nat) : vec nat := a.
Lemma push_fits V (a : vec V) v : used a <= length (slots a) -> used (vpush a v) <= length (slots (vpush a v)).
Proof.
  intros H. unfold vpush. destruct (used a <? length (slots a)) eqn:E; cbn.
  - apply Nat.ltb_lt in E. rewrite put_length. lia.
  - rewrite app_length, firstn_length. cbn. rewrite repeat_length. lia.
Qed.
Lemma push_used V (a : vec V) v : used a <= used (vpush a v).
Proof. unfold vpush. destruct (used a <? length (slots a)); cbn; lia. Qed.
Lemma grow_sound val : sound (block grow val).
Proof. intros l s o s' F (-> & _). unfold fits, grow in *. cbn. destruct (_ <=? 2); [apply push_fits|]; exact F. Qed.
Lemma grow_growing val : growing (block grow val).
Proof. intros l s o s' (-> & _). cbn. unfold grow. destruct (_ <? 3); [apply push_used|lia]. Qed.
Lemma quiet_calm val : calm (block quiet val).
Proof. intros l s o s' (-> & _). reflexivity. Qed.
Lemma start_fits l : fits (start l).
Proof. unfold fits. cbn. lia. Qed.
Ltac turns := repeat first
  [ eapply V_done; cbn; lia
  | eapply V_left; [reflexivity|split; reflexivity]
  | eapply V_stop; [reflexivity|split; reflexivity|reflexivity|reflexivity]
  | eapply V_more; [reflexivity|split; reflexivity|reflexivity|reflexivity|] ].
Ltac goes_on := eapply V_more; [reflexivity|split; reflexivity|reflexivity|reflexivity|].
Ltac stops := eapply V_stop; [reflexivity|split; reflexivity|reflexivity|reflexivity].
Example C99_each_example :
  (exists a, a_each (block grow double) (start [1; 2]) (Normal Self) (mkist a [1; 2; 11; 12])) /\
  (exists a, a_map (block grow double) (start [2; 9; 1]) (Out 1) (mkist a [2; 9])) /\
  exists a, a_map (block grow double) (start [2; 1]) (Normal (New [4; 2; 24; 22])) (mkist a [2; 1; 12; 11]).
Proof.
  pose proof (C99_each nat (list nat) nat (fun n => n) _ (grow_sound double)) as (H1 & _ & _ & H4). split; [|split].
  - eexists. apply H1; [apply start_fits|]. eexists _, Done. split; [turns|reflexivity].
  - eexists. apply H4; [apply start_fits|]. eexists _, (Left 1). split; [turns|reflexivity].
  - eexists. apply H4; [apply start_fits|]. eexists _, Done. split; [turns|reflexivity].
Qed.
Example C99_map_bang_example : sound (block quiet double) /\ growing (block quiet double) /\
  a_map_ (block quiet double) (start [1; 2; 3]) (Normal Self) (mkist (mkvec 0 [2; 4; 6] 3) [1; 2; 3]).
Proof.
  assert (So : sound (block quiet double)) by (intros l s o s' F (-> & _); exact F).
  assert (Gr : growing (block quiet double)) by (intros l s o s' (-> & _); apply Nat.le_refl).
  split; [exact So|]. split; [exact Gr|]. apply (C99_map_bang_partial _ _ _ _ So Gr); [apply start_fits|]. eexists _, Done.
  assert (Wr : forall i r (s : nst) a, vset (arr s) i r = Some a -> written i r s (mkist a (others s))).
  { intros i r s a E. unfold vset in E. destruct (i <? used (arr s)); [|discriminate]. injection E as <-. unfold written. cbn. rewrite put_length. repeat split; auto. intros j. apply put_nth. }
  split; [|reflexivity].
  do 3 (eapply V_more; [reflexivity|split; reflexivity|apply Wr; reflexivity|reflexivity|]). apply V_done. cbn. lia.
Qed.
Example C99_select_example :
  a_select truth (block quiet parity) (start [1; 2; 3]) (Normal (New [1; 3])) (mkist (mkvec 0 [1; 2; 3] 3) [1; 2; 3]) /\
  a_partition truth (block quiet parity) (start [1; 2; 3]) (Normal (New2 [1; 3] [2])) (mkist (mkvec 0 [1; 2; 3] 3) [1; 2; 3]) /\
  a_find truth (block quiet parity) (start [2; 3; 4]) (Normal (One 3)) (mkist (mkvec 0 [2; 3; 4] 3) [2; 3]) /\
  a_find truth (block quiet parity) (start [2; 4]) (Normal Nothing) (mkist (mkvec 0 [2; 4] 2) [2; 4]).
Proof.
  pose proof (C99_select_partial nat (list nat) nat truth _ (quiet_calm parity)) as (H1 & _ & H3 & H4). split; [|split; [|split]].
  - apply H1; [apply start_fits|]. eexists _, Done. split; [turns|reflexivity].
  - apply H3; [apply start_fits|]. eexists _, Done. split; [turns|reflexivity].
  - apply H4; [apply start_fits|]. eexists _, Stopped. split; [do 1 goes_on; stops|reflexivity].
  - apply H4; [apply start_fits|]. eexists _, Done. split; [turns|reflexivity].
Qed.
(** the block sets the first element to 7: the third element is found all the same *)
Definition assign (x : nat) (a : vec nat) : vec nat := mkvec (place a) (put (slots a) 0 7) (used a).
Lemma assign_steady val : steady (block assign val).
Proof. intros l s o s' (-> & _). cbn. rewrite put_length. auto. Qed.
Example C99_find_index_example :
  a_find_index truth (block assign parity) (start [2; 4; 5; 6]) (Normal (Index 2)) (mkist (mkvec 0 [7; 4; 5; 6] 4) [2; 4; 5]) /\
  a_any truth (block assign parity) (start [2; 4]) (Normal (Truth false)) (mkist (mkvec 0 [7; 4] 2) [2; 4]) /\
  a_all truth (block assign parity) (start [1; 3]) (Normal (Truth true)) (mkist (mkvec 0 [7; 3] 2) [1; 3]) /\
  a_inject (block assign (fun l => hd 0 l + hd 0 (tl l))) 10 (start [1; 2; 3]) (Normal (One 16)) (mkist (mkvec 0 [7; 2; 3] 3) [10; 11; 13]).
Proof.
  pose proof (C99_find_index_partial nat (list nat) nat truth _ (assign_steady parity)) as (H1 & H2 & H3 & _).
  pose proof (C99_find_index_partial nat (list nat) nat truth _ (assign_steady (fun l => hd 0 l + hd 0 (tl l)))) as (_ & _ & _ & H4).
  split; [|split; [|split]].
  - apply H1; [apply start_fits|]. eexists _, Stopped. split; [do 2 goes_on; stops|reflexivity].
  - apply H2; [apply start_fits|]. eexists _, Done. split; [turns|reflexivity].
  - apply H3; [apply start_fits|]. eexists _, Done. split; [turns|reflexivity].
  - apply H4; [apply start_fits|]. eexists _, Done. split; [turns|reflexivity].
Qed.
Example C99_uniq_example :
  a_uniq Nat.eqb (block quiet parity) (start [3; 2; 5; 4]) (Normal (New [3; 2])) (mkist (mkvec 0 [3; 2; 5; 4] 4) [3; 2; 5; 4]).
Proof.
  apply (C99_uniq_partial nat (list nat) nat Nat.eqb _ (quiet_calm parity)).
  - intros. apply Nat.eqb_refl.
  - intros. apply Nat.eqb_sym.
  - intros a b c H1 H2. apply Nat.eqb_eq in H1, H2. subst. apply Nat.eqb_refl.
  - apply start_fits.
  - eexists _, Done. split; [turns|]. eexists. split; [|reflexivity].
    change [3; 2] with (([] ++ [3]) ++ [2]).
    eapply K_old with (u := (2, 0, _)); [eapply K_old with (u := (3, 1, _)); [|cbn; auto|reflexivity]|cbn; auto|reflexivity].
    apply (K_new _ _ _ _ _ (2, 0, _)); [|intros u [<-|[]]; reflexivity]. apply (K_new _ _ _ _ _ (3, 1, _)); [constructor|intros u []].
Qed.
(** 100 stands for the array [[1, 2]], 5 for itself *)
Definition arrays (_ : nst) (v : nat) : option (list nat) := if v =? 100 then Some [1; 2] else None.
Definition splat (l : list nat) (s : nst) (o : bend nat nat) (s' : nst) : Prop :=
  s' = s /\ o = Gives (match l with [v] => if v =? 100 then 3 else 100 | [a; b] => a + b | _ => 0 end).
Example C99_flat_map_example : takes arrays 2 splat /\
  a_flat_map arrays splat 2 (start [100; 5]) (Normal (New [3; 1; 2])) (start [100; 5]).
Proof.
  assert (T : takes arrays 2 splat).
  { intros s v o s' l E. unfold arrays in E. destruct (v =? 100) eqn:Ev; [|discriminate]. injection E as <-. unfold splat. cbn. rewrite Ev. reflexivity. }
  split; [exact T|]. apply C99_flat_map_partial; [intros l s o s' (-> & _); reflexivity|exact T|apply start_fits| |].
  - intros v s1 l _ E. unfold arrays in E. destruct (v =? 100); [|discriminate]. injection E as <-. right. cbn. lia.
  - eexists _, Done. split; [turns|reflexivity].
Qed.

(** *** C99: blocks that change the array *)
Lemma visits_det acts val sargs stop h (s : nst) h1 e1 s1 : visits (block acts val) sargs nothing_written stop h s h1 e1 s1 ->
  fits s -> sound (block acts val) -> forall h2 e2 s2, visits (block acts val) sargs nothing_written stop h s h2 e2 s2 -> h2 = h1 /\ e2 = e1 /\ s2 = s1.
Proof.
  assert (D : forall l s o1 s1 o2 s2, block acts val l s o1 s1 -> block acts val l s o2 s2 -> o1 = o2 /\ s1 = s2).
  { intros l s0 o1 s3 o2 s4 (-> & ->) (-> & ->). auto. }
  assert (N : forall (s : nst) i v, nth_error (content s) i = Some v -> ~ length (content s) <= i).
  { intros s0 i v E L. apply nth_error_None in L. congruence. }
  intros H F So. induction H as [h s H|h s v x s' E HB|h s v r s1 s' E HB HW HS|h s v r s1 s2 h' e s' E HB HW HS HV IH];
    intros h2 e2 s3 H2;
    inversion H2 as [ha sa Ha|ha sa va xa sb Ea Ba|ha sa va ra sb sc Ea Ba Wa Sa|ha sa va ra sb sc hb eb sd Ea Ba Wa Sa Va]; subst;
    unfold nothing_written in *; subst;
    try (exfalso; match goal with E : nth_error _ _ = Some _ |- _ => exact (N _ _ _ E ltac:(assumption)) end); auto;
    assert (va = v) by congruence; subst va; destruct (D _ _ _ _ _ _ HB Ba) as (Q1 & Q2); try discriminate; injection Q1 as ->; subst; auto; try congruence.
  apply IH; [exact (So _ _ _ _ F HB)|exact Va].
Qed.
(** [a = [1, 5, 6, 8]; a.select { |x| a << 11 if x == 1; true }]: adding an element moves the array
    and the loop goes on in the memory it left. *)
Theorem C99_select_grow_refuted : exists s s', fits s /\ sound (block grow double) /\
  a_select truth (block grow double) s Wild s' /\
  exists h s'', visits (block grow double) only_element nothing_written never [] s h Done s'' /\ yes truth h = [1; 5; 6; 8; 11].
Proof.
  eexists (start [1; 5; 6; 8]), _. split; [apply start_fits|]. split; [apply grow_sound|]. split.
  - exists Wild. split; [|reflexivity]. eapply F_lost; [cbn; lia|reflexivity|reflexivity|reflexivity|split; reflexivity|reflexivity|discriminate].
  - eexists _, _. split; [turns|reflexivity].
Qed.
Print Assumptions C99_select_grow_refuted.
(** [a = [1, 5, 6]; a.select { |x| a.pop; true }]: the block is still called for the element that was removed *)
Definition pop (x : nat) (a : vec nat) : vec nat := vpop a.
Lemma pop_sound val : sound (block pop val).
Proof. intros l s o s' F (-> & _). unfold fits in *. cbn. lia. Qed.
Theorem C99_select_pop_refuted : exists s r s', fits s /\ sound (block pop double) /\
  a_select truth (block pop double) s r s' /\ r = Normal (New [1; 5; 6]) /\ others s' = [1; 5; 6] /\
  forall h e s'', visits (block pop double) only_element nothing_written never [] s h e s'' -> yes truth h = [1; 5] /\ e = Done /\ others s'' = [1; 5].
Proof.
  eexists (start [1; 5; 6]), _, _. split; [apply start_fits|]. split; [apply pop_sound|]. split; [|split; [reflexivity|split]].
  - eexists. split; [|].
    do 3 (eapply F_more; [cbn; lia|reflexivity|reflexivity|reflexivity|split; reflexivity|split; reflexivity|reflexivity|]). apply F_end. cbn. lia.
    reflexivity.
  - reflexivity.
  - assert (H : exists h s'', visits (block pop double) only_element nothing_written never [] (start [1; 5; 6]) h Done s'' /\ yes truth h = [1; 5] /\ others s'' = [1; 5]).
    { eexists _, _. split; [turns|split; reflexivity]. }
    destruct H as (h0 & s0 & HV & E1 & E2). intros h e s'' H.
    destruct (visits_det _ _ _ _ _ _ _ _ _ HV (start_fits _) (pop_sound _) _ _ _ H) as (-> & -> & ->). auto.
Qed.
Print Assumptions C99_select_pop_refuted.
(** [a = [2, 4]; a.find { |x| a[0] = 7; true }]: the element that is found is 2, the value is 7 *)
Theorem C99_find_assign_refuted : exists s r s', fits s /\ sound (block assign double) /\
  a_find truth (block assign double) s r s' /\ r = Normal (One 7) /\
  forall h e s'', visits (block assign double) only_element nothing_written truth [] s h e s'' -> last_element h = One 2 /\ e = Stopped.
Proof.
  assert (So : sound (block assign double)) by (intros l s o s' F (-> & _); unfold fits in *; cbn; rewrite put_length; exact F).
  eexists (start [2; 4]), _, _. split; [apply start_fits|]. split; [exact So|]. split; [|split; [reflexivity|]].
  - eexists. split; [eapply F_stop; [cbn; lia|reflexivity|reflexivity|reflexivity|split; reflexivity|split; reflexivity|reflexivity]|reflexivity].
  - assert (H : exists h s'', visits (block assign double) only_element nothing_written truth [] (start [2; 4]) h Stopped s'' /\ last_element h = One 2).
    { eexists _, _. split; [stops|reflexivity]. }
    destruct H as (h0 & s0 & HV & E1). intros h e s'' H.
    destruct (visits_det _ _ _ _ _ _ _ _ _ HV (start_fits _) So _ _ _ H) as (-> & -> & ->). auto.
Qed.
Print Assumptions C99_find_assign_refuted.
(** [a = [1]; a.map! { |x| a.pop; x }]: there is no element left to assign to.  Ruby makes the array
    longer again. *)
Theorem C99_map_bang_refuted : exists s s', fits s /\ sound (block pop double) /\ a_map_ (block pop double) s Panics s'.
Proof.
  eexists (start [1]), _. split; [apply start_fits|]. split; [apply pop_sound|]. exists Panics. split; [|reflexivity].
  eapply W_store; [cbn; lia|reflexivity|split; reflexivity|reflexivity].
Qed.
Print Assumptions C99_map_bang_refuted.
(** [[[1, 2]].flat_map { |x, y, z| x }]: an array that is shorter than the parameters; Ruby fills up with nil *)
Theorem C99_flat_map_short_refuted : exists s s', fits s /\ calm splat /\ takes arrays 3 splat /\ a_flat_map arrays splat 3 s Panics s'.
Proof.
  exists (start [100]), (start [100]). split; [apply start_fits|]. split; [intros l s o s' (-> & _); reflexivity|]. split.
  - intros s v o s' l E. unfold arrays in E. destruct (v =? 100) eqn:Ev; [|discriminate]. injection E as <-. unfold splat. cbn. rewrite Ev. reflexivity.
  - exists Panics. split; [|reflexivity]. eapply F_args; [cbn; lia|reflexivity|reflexivity|reflexivity].
Qed.
Print Assumptions C99_flat_map_short_refuted.
(** [[5].flat_map { |x = 7| x }]: no required parameter, so the block gets nothing and [x] is 7 *)
Definition optional (l : list nat) (s : nst) (o : bend nat nat) (s' : nst) : Prop := s' = s /\ o = Gives (hd 7 l).
Theorem C99_flat_map_optional_refuted : exists s r s', fits s /\ calm optional /\ a_flat_map arrays optional 0 s r s' /\ r = Normal (New [7]) /\
  exists h, visits optional only_element nothing_written never [] s h Done s' /\ flat arrays h = [5].
Proof.
  eexists (start [5]), _, _. split; [apply start_fits|]. split; [intros l s o s' (-> & _); reflexivity|]. split; [|split; [reflexivity|]].
  - eexists. split; [eapply F_more; [cbn; lia|reflexivity|reflexivity|reflexivity|split; reflexivity|reflexivity|reflexivity|apply F_end; cbn; lia]|reflexivity].
  - eexists. split; [turns|reflexivity].
Qed.
Print Assumptions C99_flat_map_optional_refuted.
