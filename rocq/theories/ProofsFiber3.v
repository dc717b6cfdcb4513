(** Lemmas for C42: where every fiber is, and the values going in and out of one. *)
From Coq Require Import ZArith List Bool Arith Lia.
From Verif Require Import ModelFiber SpecFiber ProofsFiber ProofsFiber2.
Import ListNotations.

Section Places.
Variables K G : Type.
Variable next : K -> G -> G * op K.
Variable k0 : K.
Notation inv := (inv K G next k0).
Notation loc := (loc K G next k0).
Lemma chain_loc m tr : forall rest t p, chain K G next k0 m tr t rest -> loc tr t p -> forall u, In u (t :: rest) -> exists q, loc tr u q.
Proof.
  induction rest as [|t' r IH]; intros t p C L u [<-|Q]; try (eexists; exact L); [destruct Q|].
  destruct C as (f & x & s & n & kf & _ & _ & _ & _ & _ & L' & C). apply (IH t' _ C L' u Q).
Qed.
Lemma chain_main m tr : forall rest t, chain K G next k0 m tr t rest -> In None (t :: rest).
Proof.
  induction rest as [|t' r IH]; intros t C; [left; exact C|].
  destruct C as (f & x & s & n & kf & _ & _ & _ & _ & _ & _ & C). right. apply (IH t' C).
Qed.
Lemma inv_main m tr rest ph : inv m tr rest ph -> exists p, does next None k0 (events_of None tr) p.
Proof.
  intros I. apply (chain_loc m tr rest (m_vm m) _ (i_chain _ _ _ _ _ _ _ _ I) (i_loc _ _ _ _ _ _ _ _ I) None).
  apply (chain_main m tr). apply (i_chain _ _ _ _ _ _ _ _ I).
Qed.
Lemma inv_fiber m tr rest ph t f b : inv m tr rest ph -> In (ENew t f b) tr ->
  events_of (Some f) tr = [] \/
  exists vars l p, events_of (Some f) tr = EStart f vars :: l /\ does next (Some f) (body b vars) l p.
Proof.
  intros I HM. assert (MB : made K tr f b) by (exists t; exact HM).
  assert (L : (exists p, loc tr (Some f) p) -> exists vars l p, events_of (Some f) tr = EStart f vars :: l /\ does next (Some f) (body b vars) l p).
  { intros (p & b' & vars & l & A & B & C). exists vars, l, p. rewrite (i_once _ _ _ _ _ _ _ _ I f b b' MB A). auto. }
  pose proof (i_ph _ _ _ _ _ _ _ _ I f) as P. destruct (ph f) eqn:EP; cbn [phase_ok] in P.
  - destruct P as (_ & _ & P). destruct (P b MB).
  - left. destruct P as (x & _ & _ & _ & _ & _ & P). exact P.
  - right. apply L. apply (chain_loc m tr rest (m_vm m) _ (i_chain _ _ _ _ _ _ _ _ I) (i_loc _ _ _ _ _ _ _ _ I)).
    apply (i_act _ _ _ _ _ _ _ _ I). eauto.
  - right. apply L. destruct P as (x & s & n & k & _ & _ & _ & _ & _ & _ & _ & _ & P). eauto.
  - right. apply L. destruct P as (x & _ & _ & P). eauto.
  - destruct P as (_ & _ & [P|P]); [left; exact P|right; apply L; exact P].
Qed.
End Places.

Section Values.
Variable K : Type.
Notation ev := (event K).
Definition none (f : fid) (tr : list ev) : Prop :=
  results f tr = [] /\ yields f tr = [] /\ ended f tr = [] /\ sent f tr = [] /\ received f tr = [] /\ starts f tr = [].
Definition going (f : fid) (tr : list ev) (b : kind K) : Prop :=
  exists v0, results f tr = yields f tr /\ ended f tr = [] /\ sent f tr = v0 :: received f tr /\ starts f tr = [first_values b v0].
Definition over (f : fid) (tr : list ev) (b : kind K) : Prop :=
  exists v0 r late w, results f tr = yields f tr ++ last_result b r :: late /\ ended f tr = [r] /\
    Forall (fun r => r = Raise DeadFiber \/ r = Raise Stop) late /\
    sent f tr = v0 :: received f tr ++ w /\ length w = length late /\ starts f tr = [first_values b v0].
Definition made_b (f : fid) (tr : list ev) (b : kind K) : Prop := exists t, In (ENew t f b) tr.
Definition vals (f : fid) (tr : list ev) (p : phase K) : Prop :=
  match p with
  | Absent => none f tr
  | Fresh b => none f tr /\ made_b f tr b
  | Active b | Waiting b => going f tr b /\ made_b f tr b
  | Finished => exists b, over f tr b /\ made_b f tr b
  | Gone => none f tr \/ (exists b, going f tr b /\ made_b f tr b) \/ exists b, over f tr b /\ made_b f tr b
  end.
Definition silent (f : fid) (grp : list ev) : Prop := none f grp.
Lemma split_app (f : fid) (a b : list ev) : results f (a ++ b) = results f a ++ results f b /\ yields f (a ++ b) = yields f a ++ yields f b /\
  ended f (a ++ b) = ended f a ++ ended f b /\ sent f (a ++ b) = sent f a ++ sent f b /\ received f (a ++ b) = received f a ++ received f b /\
  starts f (a ++ b) = starts f a ++ starts f b.
Proof. unfold results, yields, ended, sent, received, starts. rewrite !flat_map_app. repeat split. Qed.
Lemma made_b_app f tr grp b : made_b f tr b -> made_b f (tr ++ grp) b.
Proof. intros (t & H). exists t. apply in_or_app. auto. Qed.
Lemma vals_silent f tr grp p : vals f tr p -> none f grp -> vals f (tr ++ grp) p.
Proof.
  intros H N. destruct (split_app f tr grp) as (S1 & S2 & S3 & S4 & S5 & S6). destruct N as (N1 & N2 & N3 & N4 & N5 & N6).
  rewrite N1 in S1. rewrite N2 in S2. rewrite N3 in S3. rewrite N4 in S4. rewrite N5 in S5. rewrite N6 in S6. rewrite app_nil_r in *.
  assert (A0 : none f tr -> none f (tr ++ grp)) by (unfold none; rewrite S1, S2, S3, S4, S5, S6; auto).
  assert (A1 : forall b, going f tr b -> going f (tr ++ grp) b) by (unfold going; rewrite S1, S2, S3, S4, S5, S6; auto).
  assert (A2 : forall b, over f tr b -> over f (tr ++ grp) b) by (unfold over; rewrite S1, S2, S3, S4, S5, S6; auto).
  destruct p as [|b|b|b| |]; cbn in *.
  - auto.
  - destruct H. auto using made_b_app.
  - destruct H. auto using made_b_app.
  - destruct H. auto using made_b_app.
  - destruct H as (b & A & B). exists b. auto using made_b_app.
  - destruct H as [H|[(b & A & B)|(b & A & B)]]; [auto|right; left|right; right]; exists b; auto using made_b_app.
Qed.
Ltac sil := unfold none, results, yields, ended, sent, received, starts; cbn;
  repeat match goal with |- context [Nat.eqb ?a ?b] => destruct (Nat.eqb_spec a b); [congruence|] end; repeat split.
Lemma obeys_vals tr st ph : obeys tr st ph -> forall f, vals f tr (ph f).
Proof.
  intros H. induction H as [|tr t st ph f b H IH Hp|tr t st ph f H IH Hp|tr t st ph f b n v H IH Hp|tr t st ph f b n v H IH Hp
    |tr t st ph f n v H IH Hp|tr f t st ph b v H IH Hp|tr f t st ph b r H IH Hp]; intros g.
  - cbn. repeat split.
  - destruct (Nat.eq_dec g f) as [->|Q].
    + rewrite upd_same. specialize (IH f). rewrite Hp in IH. split; [|exists t; apply in_or_app; right; left; reflexivity].
      apply (vals_silent f tr _ Absent IH). sil.
    + rewrite upd_other by exact Q. apply vals_silent; [apply IH|sil].
  - destruct (Nat.eq_dec g f) as [->|Q].
    + rewrite upd_same. specialize (IH f). apply vals_silent; [|sil]. destruct (ph f); try contradiction; cbn in *.
      * left. apply IH.
      * right. left. eauto.
      * right. right. exact IH.
    + rewrite upd_other by exact Q. apply vals_silent; [apply IH|sil].
  - destruct (Nat.eq_dec g f) as [->|Q].
    + rewrite upd_same. specialize (IH f). rewrite Hp in IH. destruct IH as ((N1 & N2 & N3 & N4 & N5 & N6) & M).
      split; [|apply made_b_app; exact M]. destruct (split_app f tr [EResume t f n v; EStart f (first_values b v)]) as (S1 & S2 & S3 & S4 & S5 & S6).
      exists v. rewrite S1, S2, S3, S4, S5, S6, N1, N2, N3, N4, N5, N6. cbn. rewrite Nat.eqb_refl. repeat split.
    + rewrite upd_other by exact Q. apply vals_silent; [apply IH|sil].
  - destruct (Nat.eq_dec g f) as [->|Q].
    + rewrite upd_same. specialize (IH f). rewrite Hp in IH. destruct IH as ((v0 & N1 & N2 & N3 & N4) & M).
      split; [|apply made_b_app; exact M]. destruct (split_app f tr [EResume t f n v; EBack f v]) as (S1 & S2 & S3 & S4 & S5 & S6).
      exists v0. rewrite S1, S2, S3, S4, S5, S6, N1, N2, N3, N4. cbn. rewrite Nat.eqb_refl. rewrite !app_nil_r. repeat split.
    + rewrite upd_other by exact Q. apply vals_silent; [apply IH|sil].
  - destruct (Nat.eq_dec g f) as [->|Q].
    + specialize (IH f). rewrite Hp in *. destruct IH as (b & (v0 & r & late & w & N1 & N2 & N3 & N4 & N5 & N6) & M).
      exists b. split; [|apply made_b_app; exact M].
      destruct (split_app f tr [EResume t f n v; EReturn t f (Raise (if n then Stop else DeadFiber))]) as (S1 & S2 & S3 & S4 & S5 & S6).
      exists v0, r, (late ++ [Raise (if n then Stop else DeadFiber)]), (w ++ [v]).
      rewrite S1, S2, S3, S4, S5, S6, N1, N2, N4, N6. cbn. rewrite Nat.eqb_refl. rewrite !app_nil_r, <- !app_assoc. repeat split.
      * apply Forall_app. split; [exact N3|]. constructor; [|constructor]. destruct n; auto.
      * rewrite !app_length, N5. reflexivity.
    + apply vals_silent; [apply IH|sil].
  - destruct (Nat.eq_dec g f) as [->|Q].
    + rewrite upd_same. specialize (IH f). rewrite Hp in IH. destruct IH as ((v0 & N1 & N2 & N3 & N4) & M).
      split; [|apply made_b_app; exact M]. destruct (split_app f tr [EYield f v; EReturn t f (Value v)]) as (S1 & S2 & S3 & S4 & S5 & S6).
      exists v0. rewrite S1, S2, S3, S4, S5, S6, N1, N2, N3, N4. cbn. rewrite Nat.eqb_refl. rewrite !app_nil_r. repeat split.
    + rewrite upd_other by exact Q. apply vals_silent; [apply IH|sil].
  - destruct (Nat.eq_dec g f) as [->|Q].
    + rewrite upd_same. specialize (IH f). rewrite Hp in IH. destruct IH as ((v0 & N1 & N2 & N3 & N4) & M).
      exists b. split; [|apply made_b_app; exact M]. destruct (split_app f tr [EEnd f r; EReturn t f (last_result b r)]) as (S1 & S2 & S3 & S4 & S5 & S6).
      exists v0, r, [], []. rewrite S1, S2, S3, S4, S5, S6, N1, N2, N3, N4. cbn. rewrite Nat.eqb_refl. rewrite !app_nil_r. repeat split. constructor.
    + rewrite upd_other by exact Q. apply vals_silent; [apply IH|sil].
Qed.
End Values.
