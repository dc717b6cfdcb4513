From Verif Require Import Base ProofsBase ModelArray ModelValue ModelInt ModelText ModelString ProofsString ModelConvert ModelFormat SpecFormat ModelClass SpecClass PropsConvert ModelInspect SpecInspect.

Section Ind.
Variable P : data -> Prop.
Hypothesis Hnil : P DNil.
Hypothesis Htrue : P DTrue.
Hypothesis Hfalse : P DFalse.
Hypothesis Hint : forall n, P (DInt n).
Hypothesis Hsym : forall s, P (DSym s).
Hypothesis Hstr : forall s, P (DStr s).
Hypothesis Harr : forall l, Forall P l -> P (DArr l).
Hypothesis Hhash : forall l, Forall (fun d => P (fst d) /\ P (snd d)) l -> P (DHash l).
Hypothesis Hrange : forall a b x, P a -> P b -> P (DRange a b x).
Fixpoint data_rec' (d : data) : P d :=
  match d with
  | DNil => Hnil | DTrue => Htrue | DFalse => Hfalse | DInt n => Hint n | DSym s => Hsym s | DStr s => Hstr s
  | DArr l => Harr l ((fix go l : Forall P l := match l with [] => Forall_nil P | d :: r => Forall_cons d (data_rec' d) (go r) end) l)
  | DHash l => Hhash l ((fix go l : Forall (fun d => P (fst d) /\ P (snd d)) l := match l with [] => Forall_nil _ | d :: r => Forall_cons d (conj (data_rec' (fst d)) (data_rec' (snd d))) (go r) end) l)
  | DRange a b x => Hrange a b x (data_rec' a) (data_rec' b)
  end.
End Ind.

(* ---- what a value holds is determined ---- *)
Ltac same_obj := match goal with A : ?h ?a = Some _, B : ?h ?a = Some _ |- _ => rewrite A in B; injection B; clear B; intros; subst end.
Lemma holds_det h : forall d v, holds h v d -> forall d', holds h v d' -> d = d'.
Proof.
  induction d using data_rec'; intros v Hv d' Hd'; inversion Hv; subst; inversion Hd'; subst; try congruence; same_obj.
  - f_equal. repeat match goal with A : _ \/ _ |- _ => destruct A end; congruence.
  - f_equal. match goal with A : Forall2 _ ?l _, B : Forall2 _ ?l _, C : Forall _ _ |- _ => revert A B C; clear end.
    revert l ds. induction l1 as [|v l1 IH]; intros l ds F F' C; inversion F; subst; inversion F'; subst; [reflexivity|]. inversion C; subst. f_equal; eauto.
  - f_equal. match goal with A : Forall2 _ ?l _, B : Forall2 _ ?l _, C : Forall _ _ |- _ => revert A B C; clear end.
    revert l ds. induction l1 as [|v l1 IH]; intros l ds F F' C; inversion F; subst; inversion F'; subst; [reflexivity|]. inversion C; subst.
    repeat match goal with A : _ /\ _ |- _ => destruct A end. f_equal; [|eauto]. destruct y, y0; cbn in *; f_equal; eauto.
  - f_equal; eauto.
Qed.
Fixpoint size (d : data) : nat :=
  match d with DArr l => S (list_sum (map size l)) | DHash l => S (list_sum (map (fun d => size (fst d) + size (snd d))%nat l)) | DRange a b _ => S (size a + size b) | _ => 1%nat end.
Lemma size_in d l : In d l -> (size d <= list_sum (map size l))%nat.
Proof. induction l as [|x l IH]; [intros []|]. change (list_sum (map size (x :: l))) with (size x + list_sum (map size l))%nat. intros [->|Hi]; [lia|specialize (IH Hi); lia]. Qed.
Lemma no_self h a l ds : h a = Some (OArr l) -> Forall2 (holds h) l ds -> forall e, In e l -> same_id e (RPtr a) = false.
Proof.
  intros Ha F e He. destruct e; try reflexivity. cbn. apply Z.eqb_neq. intros ->. assert (X : holds h (RPtr a) (DArr ds)) by (econstructor; eassumption).
  assert (Y : exists d, In d ds /\ holds h (RPtr a) d).
  { clear X Ha. induction F as [|v d l1 l2 Hvd F IH]; [destruct He|]. destruct He as [->|He]; [exists d; split; [left; reflexivity|exact Hvd]|]. destruct (IH He) as (d' & Hi & Hd). exists d'. split; [right; exact Hi|exact Hd]. }
  destruct Y as (d & Hi & Hd). rewrite (holds_det h _ _ Hd _ X) in Hi. apply size_in in Hi. change (size (DArr ds)) with (S (list_sum (map size ds))) in Hi. lia.
Qed.

(* ---- inspect writes the notation ---- *)
Lemma escape_esc1 c : is_char c = true -> escape c = esc1 c.
Proof.
  intros H. unfold escape, esc1, SQ, DQ, BSL. destruct c as [|q|q]; [reflexivity| |unfold is_char in H; cbn in H; discriminate].
  do 8 (try (destruct q as [q|q|]; try reflexivity)). 
Qed.
Lemma flat_escape s : Forall (fun c => is_char c = true) s -> flat_map escape s = flat_map esc1 s.
Proof. intros H. induction H as [|c s Hc F IH]; [reflexivity|]. cbn [flat_map]. rewrite IH, escape_esc1 by exact Hc. reflexivity. Qed.
Ltac heap_at := match goal with A : ?h ?a = Some _ |- context[?h ?a] => rewrite A end.
Lemma int_shown n : exists t, integer_to_s (bignum n) = Ok t /\ decimal n t.
Proof. destruct (C104_to_s n) as (ds & E & D & _). eexists. split; [exact E|]. exists ds. split; [reflexivity|exact D]. Qed.

Lemma commas_app t u l : commas (t :: u :: l) = t ++ [44; 32] ++ commas (u :: l).
Proof. reflexivity. Qed.
Lemma array_rest_ok f : forall l ts acc, Forall2 (fun e t => f e = Ok t) l ts -> array_rest f acc l = Ok (commas (acc :: ts)).
Proof.
  induction l as [|e l IH]; intros ts acc F; inversion F as [|? t ? ts' E F']; subst; [reflexivity|]. cbn [array_rest]. rewrite E. cbn [rbind]. rewrite (IH _ _ F').
  destruct ts'; cbn [commas]; rewrite ?app_assoc; reflexivity.
Qed.
Lemma array_ok f self l ts : (forall e, In e l -> same_id e self = false) -> Forall2 (fun e t => f e = Ok t) l ts -> array_inspect f self l = Ok ([91] ++ commas ts ++ [93]).
Proof.
  intros N F. pose (ch := fun e => if same_id e self then Ok [91; 46; 46; 46; 93] else f e). change (array_inspect f self l) with (match l with [] => Ok [91; 93] | e :: r => t <- ch e ;; s <- array_rest ch t r ;; Ok ([91] ++ s ++ [93]) end). assert (F' : Forall2 (fun e t => ch e = Ok t) l ts).
  { clear - N F. induction F as [|e t l ts E F IH]; constructor; [unfold ch; rewrite (N e (or_introl eq_refl)); exact E|apply IH; intros; apply N; right; assumption]. }
  inversion F' as [|e t l' ts' E F2]; subst; [reflexivity|]. rewrite E. cbn [rbind]. rewrite (array_rest_ok ch _ _ t F2). reflexivity.
Qed.
Definition entry (f : ref -> res (list Z)) (kv : ref * ref) (t : list Z) : Prop := exists a b, f (fst kv) = Ok a /\ f (snd kv) = Ok b /\ t = a ++ [61; 62] ++ b.
Lemma hash_rest_ok f : forall l ts acc, Forall2 (entry f) l ts -> hash_rest f acc false l = Ok (commas (acc :: ts)).
Proof.
  induction l as [|[k v] l IH]; intros ts acc F; inversion F as [|? t ? ts' E F']; subst; [reflexivity|]. cbn [hash_rest]. destruct E as (a & b & Ea & Eb & ->). cbn in Ea, Eb. rewrite Ea, Eb. cbn [rbind]. rewrite (IH _ _ F').
  destruct ts'; cbn [commas app]; rewrite <- ?app_assoc; cbn [app]; rewrite <- ?app_assoc; reflexivity.
Qed.
Lemma hash_ok f l ts : Forall2 (entry f) l ts -> hash_to_s f l = Ok ([123] ++ commas ts ++ [125]).
Proof.
  intros F. inversion F as [|[k v] t l' ts' E F2]; subst; [reflexivity|]. unfold hash_to_s. cbn [hash_rest]. destruct E as (a & b & Ea & Eb & ->). cbn in Ea, Eb. rewrite Ea, Eb. cbn [rbind]. rewrite (hash_rest_ok f _ _ _ F2). reflexivity.
Qed.

Lemma f2_imp {A B : Type} (P Q : A -> B -> Prop) l m : (forall a b, P a b -> Q a b) -> Forall2 P l m -> Forall2 Q l m.
Proof. intros M F. induction F; constructor; auto. Qed.
Section Fuel.
Variable lossy : list Z -> list Z.
Variable h : heap.
Lemma array_rest_mono f g : (forall e x, f e = Ok x -> g e = Ok x) -> forall l acc x, array_rest f acc l = Ok x -> array_rest g acc l = Ok x.
Proof. intros M. induction l as [|e l IH]; intros acc x E; [exact E|]. cbn [array_rest] in *. destruct (f e) eqn:Ef; try discriminate. rewrite (M _ _ Ef). cbn [rbind] in *. auto. Qed.
Lemma array_mono f g self l x : (forall e x, f e = Ok x -> g e = Ok x) -> array_inspect f self l = Ok x -> array_inspect g self l = Ok x.
Proof.
  intros M. pose (cf := fun e => if same_id e self then Ok [91; 46; 46; 46; 93] else f e). pose (cg := fun e => if same_id e self then Ok [91; 46; 46; 46; 93] else g e).
  change (array_inspect f self l) with (match l with [] => Ok [91; 93] | e :: r => t <- cf e ;; s <- array_rest cf t r ;; Ok ([91] ++ s ++ [93]) end). change (array_inspect g self l) with (match l with [] => Ok [91; 93] | e :: r => t <- cg e ;; s <- array_rest cg t r ;; Ok ([91] ++ s ++ [93]) end). assert (M' : forall e x, cf e = Ok x -> cg e = Ok x) by (intros e y; unfold cf, cg; destruct (same_id e self); auto).
  destruct l as [|e l]; [auto|]. destruct (cf e) as [t| |] eqn:Ef; try discriminate. rewrite (M' _ _ Ef). cbn [rbind]. destruct (array_rest cf t l) eqn:Er; try discriminate. rewrite (array_rest_mono cf cg M' _ _ _ Er). auto.
Qed.
Lemma hash_rest_mono f g : (forall e x, f e = Ok x -> g e = Ok x) -> forall l acc b x, hash_rest f acc b l = Ok x -> hash_rest g acc b l = Ok x.
Proof.
  intros M. induction l as [|[k v] l IH]; intros acc b x E; [exact E|]. cbn [hash_rest] in *. destruct (f k) eqn:Ek; try discriminate. rewrite (M _ _ Ek). cbn [rbind] in *. destruct (f v) eqn:Ev; try discriminate. rewrite (M _ _ Ev). cbn [rbind] in *. auto.
Qed.
Lemma hash_mono f g l x : (forall e x, f e = Ok x -> g e = Ok x) -> hash_to_s f l = Ok x -> hash_to_s g l = Ok x.
Proof. intros M. unfold hash_to_s. destruct l; [auto|]. destruct (hash_rest f [] true _) eqn:E; try discriminate. rewrite (hash_rest_mono f g M _ _ _ _ E). auto. Qed.
Lemma range_mono f g a b y x : (forall e x, f e = Ok x -> g e = Ok x) -> range_text f a b y = Ok x -> range_text g a b y = Ok x.
Proof. intros M. unfold range_text. destruct (f a) eqn:Ea; try discriminate. rewrite (M _ _ Ea). cbn [rbind]. destruct (f b) eqn:Eb; try discriminate. rewrite (M _ _ Eb). auto. Qed.
Lemma inspect_mono : forall n m v t, (n <= m)%nat -> val_inspect lossy h n v = Ok t -> val_inspect lossy h m v = Ok t.
Proof.
  induction n as [|n IH]; intros [|m] v t L E; try discriminate; [lia|]. assert (M : forall e x, val_inspect lossy h n e = Ok x -> val_inspect lossy h m e = Ok x) by (intros; apply IH; [lia|assumption]).
  destruct v; try exact E. cbn [val_inspect] in *. destruct (h a) as [[]|]; try exact E; [eapply array_mono|eapply hash_mono|eapply range_mono]; eassumption.
Qed.
Lemma to_s_mono : forall n m v t, (n <= m)%nat -> val_to_s lossy h n v = Ok t -> val_to_s lossy h m v = Ok t.
Proof.
  induction n as [|n IH]; intros [|m] v t L E; try discriminate; [lia|]. assert (M : forall e x, val_inspect lossy h n e = Ok x -> val_inspect lossy h m e = Ok x) by (intros; eapply inspect_mono; [|eassumption]; lia).
  destruct v; try exact E. cbn [val_to_s] in *. destruct (h a) as [[]|]; try exact E; [eapply array_mono; eassumption|eapply hash_mono; eassumption|eapply range_mono; [|eassumption]]. intros; apply IH; [lia|assumption].
Qed.
(* every value that holds data is written as the data *)
Lemma inspect_ok : forall d v, holds h v d -> exists t, shown d t /\ exists n, val_inspect lossy h n v = Ok t.
Proof.
  induction d using data_rec'; intros v Hv; inversion Hv; subst; try (eexists; split; [constructor|exists 1%nat; reflexivity]).
  - destruct (int_shown n) as (t & E & D). exists t. split; [constructor; exact D|exists 1%nat; exact E].
  - eexists. split; [constructor|]. exists 1%nat. cbn [val_inspect]. heap_at. f_equal. unfold str_inspect.
    rewrite flat_escape by assumption. match goal with A : _ \/ _ |- _ => destruct A as [->| ->] end; reflexivity.
  - assert (X : exists ts, Forall2 shown l ts /\ exists n, Forall2 (fun v t => val_inspect lossy h n v = Ok t) l0 ts).
    { match goal with A : Forall2 (holds h) _ _ |- _ => revert A end. revert H. clear. intros C F. induction F as [|v d vs ds Hv F IH]; [exists []; split; [constructor|exists 0%nat; constructor]|]. inversion C as [|? ? Cd Cs]; subst.
      destruct (Cd _ Hv) as (t & St & n & En). destruct (IH Cs) as (ts & Sts & m & Em). exists (t :: ts). split; [constructor; assumption|]. exists (Nat.max n m). constructor; [eapply inspect_mono; [|exact En]; lia|]. eapply f2_imp; [|exact Em]. cbn beta. intros a b Hab. eapply inspect_mono; [|exact Hab]. lia. }
    destruct X as (ts & Sts & n & En). eexists. split; [constructor; exact Sts|]. exists (S n). cbn [val_inspect]. heap_at. apply array_ok; [|exact En]. eapply no_self; eassumption.
  - assert (X : exists ts, Forall2 (fun d t => exists a b, shown (fst d) a /\ shown (snd d) b /\ t = a ++ [61; 62] ++ b) l ts /\ exists n, Forall2 (entry (val_inspect lossy h n)) l0 ts).
    { match goal with A : Forall2 _ _ _ |- _ => revert A end. revert H. clear. intros C F. induction F as [|v d vs ds Hv F IH]; [exists []; split; [constructor|exists 0%nat; constructor]|]. inversion C as [|? ? [Ck Cv] Cs]; subst. destruct Hv as [Hk Hv].
      destruct (Ck _ Hk) as (t & St & n & En). destruct (Cv _ Hv) as (u & Su & k & Ek). destruct (IH Cs) as (ts & Sts & m & Em). exists ((t ++ [61; 62] ++ u) :: ts). split; [constructor; [exists t, u; auto|assumption]|]. exists (n + m + k)%nat.
      constructor; [exists t, u; repeat split; [eapply inspect_mono; [|exact En]; lia|eapply inspect_mono; [|exact Ek]; lia]|]. eapply f2_imp; [|exact Em]. intros kv x (a & b & Ea & Eb & ->). exists a, b. repeat split; [eapply inspect_mono; [|exact Ea]; lia|eapply inspect_mono; [|exact Eb]; lia]. }
    destruct X as (ts & Sts & n & En). eexists. split; [constructor; exact Sts|]. exists (S n). cbn [val_inspect]. heap_at. apply hash_ok. exact En.
  - destruct (IHd1 _ ltac:(eassumption)) as (t & St & n & En). destruct (IHd2 _ ltac:(eassumption)) as (u & Su & m & Em). eexists. split; [constructor; eassumption|]. exists (S (n + m)). cbn [val_inspect]. heap_at. unfold range_text.
    rewrite (inspect_mono n (n + m) _ _ ltac:(lia) En), (inspect_mono m (n + m) _ _ ltac:(lia) Em). reflexivity.
Qed.
Lemma to_s_ok : forall d v, holds h v d -> exists t, told d t /\ exists n, val_to_s lossy h n v = Ok t.
Proof.
  induction d using data_rec'; intros v Hv; pose proof Hv as Hv0; inversion Hv; subst; try (eexists; split; [constructor|exists 1%nat; reflexivity]).
  - destruct (int_shown n) as (t & E & D). exists t. split; [constructor; exact D|exists 1%nat; exact E].
  - eexists. split; [constructor|]. exists 1%nat. cbn [val_to_s]. heap_at. f_equal. match goal with A : _ \/ _ |- _ => destruct A as [->| ->] end; reflexivity.
  - destruct (inspect_ok _ _ Hv0) as (t & St & [|n] & En); [discriminate|]. exists t. split; [constructor; exact St|]. exists (S n). cbn [val_inspect] in En. cbn [val_to_s]. heap_at. match goal with A : h _ = Some _ |- _ => rewrite A in En end. exact En.
  - destruct (inspect_ok _ _ Hv0) as (t & St & [|n] & En); [discriminate|]. exists t. split; [constructor; exact St|]. exists (S n). cbn [val_inspect] in En. cbn [val_to_s]. heap_at. match goal with A : h _ = Some _ |- _ => rewrite A in En end. exact En.
  - destruct (IHd1 _ ltac:(eassumption)) as (t & St & n & En). destruct (IHd2 _ ltac:(eassumption)) as (u & Su & m & Em). eexists. split; [constructor; eassumption|]. exists (S (n + m)). cbn [val_to_s]. heap_at. unfold range_text.
    rewrite (to_s_mono n (n + m) _ _ ltac:(lia) En), (to_s_mono m (n + m) _ _ ltac:(lia) Em). reflexivity.
Qed.
End Fuel.

(* ---- the notation can be read in one way only ---- *)
Definition stops (dot : bool) (r : list Z) : Prop := match r with [] => True | c :: _ => In c [44; 93; 125; 61] \/ (dot = true /\ c = 46) end.
Lemma digit_range ds n : positional Dec ds n -> Forall (fun c => 48 <= c <= 57) ds.
Proof. intros H. induction H as [|ds n c d H IH Sc Hd]; [constructor|]. apply Forall_app. split; [exact IH|]. constructor; [|constructor]. inversion Sc; subst; [assumption|discriminate|discriminate]. Qed.
Lemma positional_det ds : forall n m, positional Dec ds n -> positional Dec ds m -> n = m.
Proof.
  induction ds as [|c ds IH] using rev_ind; intros n m Hn Hm.
  - inversion Hn; [|exfalso; eapply app_cons_not_nil; symmetry; eassumption]. inversion Hm; [|exfalso; eapply app_cons_not_nil; symmetry; eassumption]. congruence.
  - inversion Hn as [E|ds1 n1 c1 d1 P1 S1 L1 E1]; [exfalso; eapply app_cons_not_nil; exact E|]. inversion Hm as [E|ds2 n2 c2 d2 P2 S2 L2 E2]; [exfalso; eapply app_cons_not_nil; exact E|].
    apply app_inj_tail in E1 as [-> ->]. apply app_inj_tail in E2 as [-> ->]. rewrite (IH _ _ P1 P2). inversion S1; inversion S2; subst; try discriminate. reflexivity.
Qed.
Lemma span_eq (ok : Z -> Prop) : forall a b r s, Forall ok a -> Forall ok b -> (match r with [] => True | c :: _ => ~ ok c end) -> (match s with [] => True | c :: _ => ~ ok c end) -> a ++ r = b ++ s -> a = b /\ r = s.
Proof.
  induction a as [|x a IH]; intros [|y b] r s Fa Fb Nr Ns E; cbn in E.
  - auto.
  - subst r. inversion Fb; contradiction.
  - subst s. inversion Fa; contradiction.
  - injection E as -> E. inversion Fa; inversion Fb; subst. destruct (IH b r s) as [-> ->]; auto.
Qed.
Lemma decimal_prefix n m t u r s dot : decimal n t -> decimal m u -> stops dot r -> stops dot s -> t ++ r = u ++ s -> n = m /\ r = s.
Proof.
  intros (ds & -> & P & N & _) (es & -> & Q & M & _) Hr Hs E. pose proof (digit_range _ _ P) as FP. pose proof (digit_range _ _ Q) as FQ.
  assert (ST : forall r, stops dot r -> match r with [] => True | c :: _ => ~ (48 <= c <= 57) end) by (intros [|c x]; [auto|]; cbn; intros [H|[_ ->]] ?; [intuition lia|lia]).
  destruct ds as [|d ds]; [congruence|]. destruct es as [|e es]; [congruence|].
  assert (X : (n <? 0) = (m <? 0) /\ (d :: ds) ++ r = (e :: es) ++ s).
  { inversion FP; inversion FQ; subst. destruct (n <? 0), (m <? 0); cbn in E |- *; split; try reflexivity; try (injection E; intros; subst; try lia; congruence). }
  destruct X as [Sg E']. destruct (span_eq (fun c => 48 <= c <= 57) _ _ _ _ FP FQ (ST _ Hr) (ST _ Hs) E') as [Ed ->]. split; [|reflexivity]. rewrite Ed in P. pose proof (positional_det _ _ _ P Q). destruct (Z.ltb_spec n 0), (Z.ltb_spec m 0); try discriminate; lia.
Qed.
(* the escaped text of a string, up to the closing quote *)
Lemma esc_prefix : forall a b r s, Forall (fun c => is_char c = true) a -> Forall (fun c => is_char c = true) b -> flat_map esc1 a ++ 34 :: r = flat_map esc1 b ++ 34 :: s -> a = b /\ r = s.
Proof.
  induction a as [|x a IH]; intros [|y b] r s Fa Fb E.
  - injection E as ->. auto.
  - inversion Fb as [|? ? Hy Fb']; subst. cbn [flat_map] in E. destruct (esc1_shape y Hy) as [(E1 & _ & N)|(u & t & E1 & _)]; rewrite E1 in E; cbn [app] in E; injection E; intros; [|unfold BSL in *; discriminate]. exfalso. apply N. unfold DQ. congruence.
  - inversion Fa as [|? ? Hy Fb']; subst. cbn [flat_map] in E. destruct (esc1_shape x Hy) as [(E1 & _ & N)|(u & t & E1 & _)]; rewrite E1 in E; cbn [app] in E; injection E; intros; [|unfold BSL in *; discriminate]. exfalso. apply N. unfold DQ. congruence.
  - inversion Fa as [|? ? Hx Fa']; inversion Fb as [|? ? Hy Fb']; subst. cbn [flat_map] in E. rewrite <- !app_assoc in E.
    destruct (esc1_shape x Hx) as [(Ex & Nx & _)|(u & t & Ex & _ & Rx)]; destruct (esc1_shape y Hy) as [(Ey & Ny & _)|(v & w & Ey & _ & Ry)]; rewrite Ex, Ey in E; cbn [app] in E; injection E; clear E; intros E.
    + intros ->. destruct (IH b r s Fa' Fb' E) as [-> ->]. auto.
    + intros ->. contradiction.
    + intros E1. symmetry in E1. contradiction.
    + intros Euv. specialize (Rx (flat_map esc1 a ++ 34 :: r)). specialize (Ry (flat_map esc1 b ++ 34 :: s)). rewrite Euv, E in Rx. rewrite Rx in Ry. injection Ry as -> Er. destruct (IH b r s Fa' Fb' Er) as [-> ->]. auto.
Qed.
Lemma shown_head d t : shown d t -> exists c u, t = c :: u /\ ~ In c [44; 93; 125; 61; 46].
Proof.
  intros H. revert t H. induction d using data_rec'; intros t Ht; inversion Ht; subst; try (eexists; eexists; split; [reflexivity|]; cbn; lia).
  - match goal with A : decimal _ _ |- _ => destruct A as (ds & -> & P & N & _) end. destruct (n <? 0); [eexists; eexists; split; [reflexivity|]; cbn; lia|]. destruct ds as [|c ds]; [congruence|]. apply digit_range in P. inversion P; subst. eexists; eexists; split; [reflexivity|]. cbn. lia.
  - match goal with A : shown d1 ?t |- _ => destruct (IHd1 _ A) as (c & u' & -> & N) end. eexists; eexists; split; [reflexivity|exact N].
Qed.
Definition once (d : data) : Prop := forall t d' t' r r', plain d -> plain d' -> shown d t -> shown d' t' -> t ++ r = t' ++ r' ->
  (is_range d = false /\ is_range d' = false /\ stops true r /\ stops true r') \/ (stops false r /\ stops false r') -> d = d' /\ r = r'.
(* a list with commas up to the closing bracket *)
Lemma commas_once {A : Type} (S1 : A -> list Z -> Prop) (ok : A -> Prop) z : In z [93; 125] ->
  (forall a t, S1 a t -> exists c u, t = c :: u /\ ~ In c [44; 93; 125; 61; 46]) ->
  forall l, Forall (fun a => forall t b u r s, ok a -> ok b -> S1 a t -> S1 b u -> t ++ r = u ++ s -> stops false r -> stops false s -> a = b /\ r = s) l ->
  forall m ts us r s, Forall ok l -> Forall ok m -> Forall2 S1 l ts -> Forall2 S1 m us -> commas ts ++ z :: r = commas us ++ z :: s -> l = m /\ r = s.
Proof.
  intros Hz HH. assert (SZ : forall x, stops false (z :: x)) by (intros; cbn in *; left; intuition lia).
  assert (NZ : forall t x y, (exists c u, t = c :: u /\ ~ In c [44; 93; 125; 61; 46]) -> z :: x <> t ++ y).
  { intros t x y (c & u & -> & N) E. injection E as -> _. apply N. cbn in *. intuition lia. }
  induction l as [|a l IH]; intros C m ts us r s Ol Om F G E.
  - inversion F; subst. inversion G as [|b u m' us' Hb G']; subst; [injection E as ->; auto|]. exfalso. destruct us' as [|u2 us']; cbn [commas app] in E; [|rewrite <- app_assoc in E]; eapply NZ; [|exact E| |exact E]; eapply HH; eassumption.
  - inversion F as [|? t ? ts' Ha F']; subst. inversion C as [|? ? Ca Cl]; subst. inversion Ol as [|? ? Oa Ol']; subst. inversion G as [|b u m' us' Hb G']; subst.
    + exfalso. symmetry in E. destruct ts' as [|t2 ts']; cbn [commas app] in E; [|rewrite <- app_assoc in E]; eapply NZ; [|exact E| |exact E]; eapply HH; eassumption.
    + inversion Om as [|? ? Ob Om']; subst.
      destruct ts' as [|t2 ts'], us' as [|u2 us'].
      * cbn [commas] in E. inversion F'; subst. inversion G'; subst. destruct (Ca _ _ _ _ _ Oa Ob Ha Hb E (SZ _) (SZ _)) as [-> E2]. injection E2 as ->. auto.
      * exfalso. rewrite commas_app in E. cbn [commas] in E. rewrite <- app_assoc in E. destruct (Ca _ _ _ _ _ Oa Ob Ha Hb E (SZ _) ltac:(cbn; auto)) as [_ E2]. cbn in E2. injection E2 as E2 _. cbn in Hz. intuition lia.
      * exfalso. rewrite commas_app in E. cbn [commas] in E. rewrite <- app_assoc in E. destruct (Ca _ _ _ _ _ Oa Ob Ha Hb E ltac:(cbn; auto) (SZ _)) as [_ E2]. cbn in E2. injection E2 as E2 _. cbn in Hz. intuition lia.
      * rewrite !commas_app, <- !app_assoc in E. destruct (Ca _ _ _ _ _ Oa Ob Ha Hb E ltac:(cbn; auto) ltac:(cbn; auto)) as [-> E2]. cbn [app] in E2. injection E2 as E2. destruct (IH Cl _ _ _ _ _ Ol' Om' F' G' E2) as [-> ->]. auto.
Qed.
Lemma stops_weak r : stops false r -> stops true r.
Proof. destruct r; cbn; [auto|]. intuition congruence. Qed.
Lemma name_prefix a b r s : plain_name a -> plain_name b -> stops true r -> stops true s -> a ++ r = b ++ s -> a = b /\ r = s.
Proof.
  intros Ha Hb Hr Hs E. eapply (span_eq (fun c => ~ In c [44; 93; 125; 61; 46])); try eassumption.
  - destruct r; [auto|]. cbn in *. intros X. apply X. intuition lia.
  - destruct s; [auto|]. cbn in *. intros X. apply X. intuition lia.
Qed.
(* data that is no range begins with a character of its own *)
Lemma once_same d d' t t' r r' : is_range d = false -> is_range d' = false -> shown d t -> shown d' t' -> t ++ r = t' ++ r' ->
  match d with DNil => d' = DNil | DTrue => d' = DTrue | DFalse => d' = DFalse | DInt _ => exists n, d' = DInt n | DSym _ => exists n, d' = DSym n | DStr _ => exists n, d' = DStr n
  | DArr _ => exists n, d' = DArr n | DHash _ => exists n, d' = DHash n | DRange _ _ _ => False end.
Proof.
  intros R R' Hd Hd' E.
  assert (DH : forall n t, decimal n t -> exists c u, t = c :: u /\ (c = 45 \/ 48 <= c <= 57)).
  { intros n x (ds & -> & P & N & _). destruct (n <? 0); [eexists; eexists; split; [reflexivity|lia]|]. destruct ds as [|c ds]; [congruence|]. apply digit_range in P. inversion P; subst. eexists; eexists; split; [reflexivity|lia]. }
  destruct d; try discriminate; inversion Hd; subst; destruct d'; try discriminate; inversion Hd'; subst; try (eexists; reflexivity); try reflexivity; exfalso;
    repeat match goal with A : decimal _ _ |- _ => destruct (DH _ _ A) as (? & ? & -> & ?); clear A end; cbn [app] in E; injection E; intros; subst; lia.
Qed.
Lemma once_all : forall d, once d.
Proof.
  assert (NR : forall d, is_range d = false -> (forall t d' t' r r', plain d -> plain d' -> shown d t -> shown d' t' -> t ++ r = t' ++ r' -> is_range d' = false -> stops true r -> stops true r' -> d = d' /\ r = r') -> once d).
  { intros d R H t d' t' r r' Pd Pd' Sd Sd' E [(_ & R' & Sr & Sr')|[Sr Sr']]; [eapply H; eassumption|]. destruct (is_range d') eqn:R'; [|eapply H; try eassumption; apply stops_weak; assumption].
    exfalso. destruct d'; try discriminate. inversion Pd'; subst. inversion Sd'; subst. rewrite <- app_assoc in E.
    assert (X : d = d'1 /\ r = (dots exclude ++ u) ++ r').
    { eapply H; try eassumption; [apply stops_weak; exact Sr|]. destruct exclude; cbn; auto. }
    destruct X as [_ ->]. destruct exclude; cbn in Sr; destruct Sr as [X|[X _]]; try discriminate; lia. }
  induction d using data_rec'.
  1-8: apply NR; [reflexivity|]; intros t d' t' r r' Pd Pd' Sd Sd' E R' Sr Sr'; pose proof (fun R => once_same _ _ _ _ _ _ R R' Sd Sd' E) as K; specialize (K eq_refl); cbn in K.
  - subst d'. inversion Sd; inversion Sd'; subst. split; [reflexivity|]. injection E. auto.
  - subst d'. inversion Sd; inversion Sd'; subst. split; [reflexivity|]. injection E. auto.
  - subst d'. inversion Sd; inversion Sd'; subst. split; [reflexivity|]. injection E. auto.
  - destruct K as [m ->]. inversion Sd; inversion Sd'; subst. destruct (decimal_prefix n m t t' r r' true) as [-> ->]; auto.
  - destruct K as [m ->]. inversion Sd; inversion Sd'; subst. inversion Pd; inversion Pd'; subst. injection E as E. destruct (name_prefix s m r r') as [-> ->]; auto.
  - destruct K as [m ->]. inversion Sd; inversion Sd'; subst. inversion Pd; inversion Pd'; subst. rewrite !flat_escape in E by assumption. cbn [app] in E. injection E as E. rewrite <- !app_assoc in E. cbn [app] in E. destruct (esc_prefix s m r r') as [-> ->]; auto.
  - destruct K as [m ->]. inversion Sd as [| | | | | |? ts F| |]; inversion Sd' as [| | | | | |? us G| |]; subst. inversion Pd; inversion Pd'; subst. cbn [app] in E. injection E as E. rewrite <- !app_assoc in E. cbn [app] in E.
    destruct (commas_once shown plain 93 ltac:(cbn; auto) shown_head l) with (m := m) (ts := ts) (us := us) (r := r) (s := r') as [-> ->]; auto.
    eapply Forall_impl; [|exact H]. intros a Ha x b u r0 s Pa Pb Sa Sb E0 S0 S1. eapply Ha; try eassumption. right. auto.
  - destruct K as [m ->]. inversion Sd as [| | | | | | |? ts F|]; inversion Sd' as [| | | | | | |? us G|]; subst. inversion Pd; inversion Pd'; subst. cbn [app] in E. injection E as E. rewrite <- !app_assoc in E. cbn [app] in E.
    destruct (commas_once (fun d t => exists a b, shown (fst d) a /\ shown (snd d) b /\ t = a ++ [61; 62] ++ b) (fun d => plain (fst d) /\ plain (snd d)) 125) with (l := l) (m := m) (ts := ts) (us := us) (r := r) (s := r') as [-> ->]; auto; [cbn; auto| |].
    + intros [k v] x (a & b & Sa & _ & ->). destruct (shown_head _ _ Sa) as (c & u & -> & N). eexists; eexists; split; [reflexivity|exact N].
    + eapply Forall_impl; [|exact H]. intros [k v] [Hk Hv] x [k' v'] u r0 s [Pk Pv] [Pk' Pv'] (a & b & Sa & Sb & ->) (a' & b' & Sa' & Sb' & ->) E0 S0 S1. cbn [fst snd] in *. rewrite <- !app_assoc in E0.
      destruct (Hk _ _ _ _ _ Pk Pk' Sa Sa' E0) as [-> E1]; [right; cbn; auto 10|]. cbn [app] in E1. injection E1 as E1. destruct (Hv _ _ _ _ _ Pv Pv' Sb Sb' E1) as [-> ->]; auto.
  - intros t d' t' r r' Pd Pd' Sd Sd' E [(R & _)|[Sr Sr']]; [discriminate|]. inversion Sd as [| | | | | | | |? ? ? ta tb Sa Sb]; subst. inversion Pd as [| | | | | | | |? ? ? Pa Pb Ra Rb]; subst. rewrite <- !app_assoc in E.
    destruct (is_range d') eqn:R'.
    + destruct d' as [| | | | | | | |a' b' x']; try discriminate. inversion Sd' as [| | | | | | | |? ? ? ta' tb' Sa' Sb']; subst. inversion Pd' as [| | | | | | | |? ? ? Pa' Pb' Ra' Rb']; subst. rewrite <- !app_assoc in E.
      destruct (IHd1 _ _ _ _ _ Pa Pa' Sa Sa' E) as [-> E1]; [left; repeat split; try assumption; destruct x, x'; cbn; auto 10|].
      destruct (shown_head _ _ Sb) as (c & u & -> & N). destruct (shown_head _ _ Sb') as (c' & u' & -> & N').
      assert (x = x' /\ (c :: u) ++ r = (c' :: u') ++ r') as [-> E2].
      { destruct x, x'; cbn [dots app] in E1; injection E1; intros; subst; cbn [app]; try (split; congruence); exfalso; [apply N'|apply N]; cbn; auto 10. }
      destruct (IHd2 _ _ _ _ _ Pb Pb' Sb Sb' E2) as [-> ->]; [right; auto|]. auto.
    + exfalso. destruct (IHd1 _ _ _ _ _ Pa Pd' Sa Sd' E) as [_ E1]; [left; repeat split; try assumption; [destruct x; cbn; auto 10|apply stops_weak; exact Sr']|]. subst r'. destruct x; cbn in Sr'; destruct Sr' as [X|[X _]]; try discriminate; lia.
Qed.
Lemma shown_inj d d' t : plain d -> plain d' -> shown d t -> shown d' t -> d = d'.
Proof. intros P P' H H'. destruct (once_all d t d' t [] [] P P' H H' eq_refl) as [E _]; [right; cbn; auto|exact E]. Qed.
