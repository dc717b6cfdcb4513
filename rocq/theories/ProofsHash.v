(* The entry vector of a hash as a finite map. *)
From Verif Require Import Base ProofsBase ModelArray ProofsArray ModelValue ModelFloat ModelString ModelHash.
From Coq Require Import Permutation.

Section IM.
  Context {K V : Type}.
  Variable hash : K -> Z.
  Variable eqb : K -> K -> bool.
  Variable probe : Z -> Z -> bool.
  Variable P : K -> Prop.
  (* key equality is an equivalence on the keys in use, equal keys have the
     same code, and a code reaches its own slot *)
  Definition good_keys : Prop :=
    (forall k, P k -> eqb k k = true) /\
    (forall a b, P a -> P b -> eqb a b = true -> eqb b a = true) /\
    (forall a b c, P a -> P b -> P c -> eqb a b = true -> eqb b c = true -> eqb a c = true) /\
    (forall a b, P a -> P b -> eqb a b = true -> hash a = hash b) /\
    (forall h, probe h h = true).
  Notation get := (im_get hash eqb probe).
  Notation ins := (im_insert (V := V) hash eqb probe).
  Notation del := (im_remove (V := V) hash eqb probe).
  (* keys in use, pairwise different *)
  Definition distinct (l : list (K * V)) : Prop :=
    Forall (fun e => P (fst e)) l /\ ForallOrdPairs (fun x y => eqb (fst x) (fst y) = false) l.

  Section Good.
  Hypothesis G : good_keys.
  Lemma hit_eqb a b : P a -> P b -> hit hash eqb probe a b = eqb a b.
  Proof using G.
    intros Ha Hb. destruct G as (_ & _ & _ & C & R). unfold hit.
    destruct (eqb a b) eqn:E; [|apply andb_false_r].
    rewrite (C a b Ha Hb E), R. reflexivity.
  Qed.
  Lemma eqb_sym a b : P a -> P b -> eqb a b = eqb b a.
  Proof using G.
    intros Ha Hb. destruct G as (_ & S & _). destruct (eqb a b) eqn:E1, (eqb b a) eqn:E2; try reflexivity.
    - rewrite (S a b Ha Hb E1) in E2. discriminate.
    - rewrite (S b a Hb Ha E2) in E1. discriminate.
  Qed.
  Lemma eqb_l a b c : P a -> P b -> P c -> eqb a b = true -> eqb a c = eqb b c.
  Proof using G.
    intros Ha Hb Hc E. pose proof G as (R & S & T & _). destruct (eqb b c) eqn:E2.
    - apply (T a b c); assumption.
    - destruct (eqb a c) eqn:E3; [|reflexivity]. rewrite (T b a c) in E2; auto.
  Qed.
  Lemma distinct_nil : distinct [].
  Proof using. split; constructor. Qed.
  Lemma distinct_cons k v l : distinct ((k, v) :: l) <->
    P k /\ Forall (fun e => eqb k (fst e) = false) l /\ distinct l.
  Proof using.
    unfold distinct. split.
    - intros [H1 H2]. inversion H1; subst. inversion H2; subst. auto.
    - intros (Hk & Hf & H1 & H2). split; constructor; auto.
  Qed.
  (* lookup, independent of position *)
  Lemma get_Some l k v : distinct l -> P k ->
    get l k = Some v <-> exists k', In (k', v) l /\ eqb k k' = true.
  Proof using G.
    intros D Hk. induction l as [|[k0 v0] l IH]; cbn [im_get].
    - split; [discriminate|]. intros (k' & [] & _).
    - apply distinct_cons in D. destruct D as (H0 & Hf & D). specialize (IH D).
      rewrite hit_eqb by assumption. destruct (eqb k k0) eqn:E.
      + split.
        * intros [= ->]. exists k0. split; [left; reflexivity|exact E].
        * intros (k' & [Ein|Hin] & E'); [congruence|]. exfalso.
          rewrite Forall_forall in Hf. specialize (Hf _ Hin). cbn in Hf.
          assert (P k') by (destruct D as [DP _]; rewrite Forall_forall in DP; apply (DP _ Hin)).
          rewrite (eqb_l k k0 k') in E' by assumption. congruence.
      + rewrite IH. split.
        * intros (k' & Hin & E'). exists k'. split; [right; exact Hin|exact E'].
        * intros (k' & [Ein|Hin] & E'); [congruence|]. exists k'. auto.
  Qed.
  Lemma get_None l k : distinct l -> P k -> get l k = None <-> Forall (fun e => eqb k (fst e) = false) l.
  Proof using G.
    intros D Hk. split.
    - intros H. apply Forall_forall. intros [k' v'] Hin. cbn. destruct (eqb k k') eqn:E; [|reflexivity].
      assert (get l k = Some v') by (apply get_Some; eauto). congruence.
    - intros H. destruct (get l k) as [v|] eqn:E; [|reflexivity]. apply get_Some in E; [|assumption|assumption].
      destruct E as (k' & Hin & E'). rewrite Forall_forall in H. specialize (H _ Hin). cbn in H. congruence.
  Qed.
  (* insert *)
  Lemma ins_absent l k v : distinct l -> P k -> get l k = None -> ins l k v = l ++ [(k, v)].
  Proof using G.
    intros D Hk H. induction l as [|[k0 v0] l IH]; [reflexivity|].
    apply distinct_cons in D. destruct D as (H0 & Hf & D). cbn [im_get im_insert] in *.
    rewrite hit_eqb in * by assumption. destruct (eqb k k0); [discriminate|]. cbn [app]. rewrite IH by assumption. reflexivity.
  Qed.
  Lemma ins_present l k v w : distinct l -> P k -> get l k = Some w ->
    exists a k' b, l = a ++ (k', w) :: b /\ eqb k k' = true /\ ins l k v = a ++ (k', v) :: b.
  Proof using G.
    intros D Hk H. induction l as [|[k0 v0] l IH]; [discriminate|].
    apply distinct_cons in D. destruct D as (H0 & Hf & D). cbn [im_get im_insert] in *.
    rewrite hit_eqb in * by assumption. destruct (eqb k k0) eqn:E.
    - injection H as ->. exists [], k0, l. auto.
    - destruct (IH D H) as (a & k' & b & -> & E' & ->). exists ((k0, v0) :: a), k', b. auto.
  Qed.
  Lemma distinct_app a b : distinct (a ++ b) <->
    distinct a /\ distinct b /\ forall x y, In x a -> In y b -> eqb (fst x) (fst y) = false.
  Proof using.
    induction a as [|[k v] a IH]; cbn [app].
    - split; [intros H; split; [apply distinct_nil|]; split; [exact H|intros x y []]|tauto].
    - rewrite !distinct_cons, IH. rewrite Forall_app. split.
      + intros (Hk & [F1 F2] & Da & Db & Hx). repeat split; auto; try apply Da; try apply Db.
        intros x y [<-|Hx'] Hy; [|auto]. cbn. rewrite Forall_forall in F2. apply F2. exact Hy.
      + intros ((Hk & Fa & Da) & Db & Hx). repeat split; auto; try apply Da; try apply Db.
        * apply Forall_forall. intros y Hy. apply (Hx (k, v) y); [left; reflexivity|exact Hy].
        * intros x y Hx' Hy. apply Hx; [right; exact Hx'|exact Hy].
  Qed.
  (* replacing the value of an entry, or reordering, keeps keys distinct *)
  Lemma distinct_value a k v w b : distinct (a ++ (k, v) :: b) -> distinct (a ++ (k, w) :: b).
  Proof using.
    rewrite !distinct_app, !distinct_cons. intros (Da & (Hk & Hf & Db) & Hx). repeat split; auto; try apply Da; try apply Db.
    intros x y Hxa [<-|Hy]; [apply (Hx x (k, v)); [exact Hxa|left; reflexivity]|apply Hx; [exact Hxa|right; exact Hy]].
  Qed.
  Lemma distinct_perm l l' : Permutation l l' -> distinct l -> distinct l'.
  Proof using G.
    intros HP. induction HP as [|[k v] l l' HP IH|[k v] [k' v'] l|l1 l2 l3 _ IH1 _ IH2]; auto.
    - rewrite !distinct_cons. intros (Hk & Hf & D). repeat split; auto; try apply IH; auto.
      eapply Permutation_Forall; eassumption.
    - rewrite !distinct_cons. intros (Hk' & Hf' & Hk & Hf & D). inversion Hf' as [|? ? E1 F1]; subst.
      repeat split; auto; try apply D. constructor; [|exact Hf]. cbn in *. rewrite eqb_sym by assumption. exact E1.
  Qed.
  Lemma ins_distinct l k v : distinct l -> P k -> distinct (ins l k v).
  Proof using G.
    intros D Hk. destruct (get l k) as [w|] eqn:E.
    - destruct (ins_present l k v w D Hk E) as (a & k' & b & -> & _ & ->). eapply distinct_value. exact D.
    - rewrite (ins_absent l k v D Hk E). apply distinct_app. split; [exact D|]. split.
      + apply distinct_cons. split; [exact Hk|]. split; [constructor|apply distinct_nil].
      + intros [x vx] y Hx [<-|[]]. cbn. apply (get_None l k D Hk) in E. rewrite Forall_forall in E.
        specialize (E _ Hx). cbn in E. rewrite eqb_sym; auto. destruct D as [DP _]. rewrite Forall_forall in DP. apply (DP _ Hx).
  Qed.
  Lemma get_ins l k v k' : distinct l -> P k -> P k' -> get (ins l k v) k' = if eqb k k' then Some v else get l k'.
  Proof using G.
    intros D Hk Hk'. pose proof (ins_distinct l k v D Hk) as D'.
    destruct (get l k) as [w|] eqn:E.
    - destruct (ins_present l k v w D Hk E) as (a & k0 & b & El & Ek & Ei). rewrite Ei in *. rewrite El in D.
      assert (P0 : P k0). { apply distinct_app in D. destruct D as (_ & D & _). apply distinct_cons in D. apply D. }
      destruct (eqb k k') eqn:Ekk.
      + apply get_Some; [exact D'|exact Hk'|]. exists k0. split; [apply in_elt|].
        rewrite (eqb_l k' k k0); auto. rewrite eqb_sym; auto.
      + destruct (get l k') as [u|] eqn:Eu.
        * rewrite El in Eu. apply get_Some in Eu; [|exact D|exact Hk']. destruct Eu as (k1 & Hin & E1).
          apply get_Some; [exact D'|exact Hk'|]. exists k1. split; [|exact E1].
          apply in_app_or in Hin. apply in_or_app. destruct Hin as [Hin|[Hin|Hin]]; [left; exact Hin| |right; right; exact Hin].
          injection Hin as <- <-. exfalso. rewrite (eqb_l k k0 k') in Ekk by assumption.
          rewrite eqb_sym in Ekk by assumption. congruence.
        * rewrite El in Eu. apply get_None in Eu; [|exact D|exact Hk']. apply get_None; [exact D'|exact Hk'|].
          rewrite Forall_app in *. destruct Eu as [F1 F2]. split; [exact F1|]. inversion F2; subst. constructor; auto.
    - rewrite (ins_absent l k v D Hk E) in *. destruct (eqb k k') eqn:Ekk.
      + apply get_Some; [exact D'|exact Hk'|]. exists k. split; [apply in_or_app; right; left; reflexivity|].
        rewrite eqb_sym; auto.
      + destruct (get l k') as [u|] eqn:Eu.
        * apply get_Some in Eu; [|exact D|exact Hk']. destruct Eu as (k1 & Hin & E1).
          apply get_Some; [exact D'|exact Hk'|]. exists k1. split; [apply in_or_app; left; exact Hin|exact E1].
        * apply get_None in Eu; [|exact D|exact Hk']. apply get_None; [exact D'|exact Hk'|].
          rewrite Forall_app. split; [exact Eu|]. constructor; [|constructor]. cbn. rewrite eqb_sym; auto.
  Qed.
  (* remove *)
  Lemma fill_gap_perm (b : list (K * V)) : Permutation (fill_gap b) b.
  Proof using.
    unfold fill_gap. destruct (rev b) as [|x r] eqn:E.
    - apply (f_equal (@rev _)) in E. rewrite rev_involutive in E. subst. constructor.
    - apply (f_equal (@rev _)) in E. rewrite rev_involutive in E. subst. cbn [rev]. apply Permutation_cons_append.
  Qed.
  Lemma del_absent l k : distinct l -> P k -> get l k = None -> del l k = l.
  Proof using G.
    intros D Hk H. induction l as [|[k0 v0] l IH]; [reflexivity|].
    apply distinct_cons in D. destruct D as (H0 & Hf & D). cbn [im_get im_remove] in *.
    rewrite hit_eqb in * by assumption. destruct (eqb k k0); [discriminate|]. rewrite IH by assumption. reflexivity.
  Qed.
  Lemma del_present l k w : distinct l -> P k -> get l k = Some w ->
    exists a k' b, l = a ++ (k', w) :: b /\ eqb k k' = true /\ del l k = a ++ fill_gap b.
  Proof using G.
    intros D Hk H. induction l as [|[k0 v0] l IH]; [discriminate|].
    apply distinct_cons in D. destruct D as (H0 & Hf & D). cbn [im_get im_remove] in *.
    rewrite hit_eqb in * by assumption. destruct (eqb k k0) eqn:E.
    - injection H as ->. exists [], k0, l. auto.
    - destruct (IH D H) as (a & k' & b & -> & E' & ->). exists ((k0, v0) :: a), k', b. auto.
  Qed.
  Lemma get_perm l l' k : Permutation l l' -> distinct l -> P k -> get l k = get l' k.
  Proof using G.
    intros HP D Hk. pose proof (distinct_perm l l' HP D) as D'.
    destruct (get l k) as [v|] eqn:E.
    - symmetry. apply get_Some in E; [|assumption|assumption]. destruct E as (k' & Hin & E').
      apply get_Some; [assumption|assumption|]. exists k'. split; [|exact E']. eapply Permutation_in; eassumption.
    - symmetry. apply get_None in E; [|assumption|assumption]. apply get_None; [assumption|assumption|].
      eapply Permutation_Forall; eassumption.
  Qed.
  Lemma del_distinct l k : distinct l -> P k -> distinct (del l k).
  Proof using G.
    intros D Hk. destruct (get l k) as [w|] eqn:E; [|rewrite del_absent by assumption; exact D].
    destruct (del_present l k w D Hk E) as (a & k' & b & El & Ek & ->). rewrite El in D.
    apply (distinct_perm (a ++ b)); [apply Permutation_app_head; symmetry; apply fill_gap_perm|].
    apply distinct_app in D. destruct D as (Da & Db & Hx). apply distinct_cons in Db. apply distinct_app.
    split; [exact Da|]. split; [tauto|]. intros x y Hxa Hy. apply Hx; [exact Hxa|right; exact Hy].
  Qed.
  Lemma get_del l k k' : distinct l -> P k -> P k' -> get (del l k) k' = if eqb k k' then None else get l k'.
  Proof using G.
    intros D Hk Hk'. pose proof (del_distinct l k D Hk) as D'.
    destruct (get l k) as [w|] eqn:E.
    2:{ rewrite del_absent by assumption. destruct (eqb k k') eqn:Ekk; [|reflexivity].
        apply get_None in E; [|assumption|assumption]. apply get_None; [assumption|assumption|].
        destruct D as [DP _]. rewrite Forall_forall in *. intros e He. rewrite <- (eqb_l k k' (fst e)); auto. }
    destruct (del_present l k w D Hk E) as (a & k0 & b & El & Ek & Ed). rewrite Ed in *.
    assert (HPm : Permutation (a ++ fill_gap b) (a ++ b)) by (apply Permutation_app_head, fill_gap_perm).
    pose proof (distinct_perm _ _ HPm D') as Dab. rewrite (get_perm _ _ k' HPm D' Hk').
    subst l. pose proof D as D0. apply distinct_app in D. destruct D as (Da & Db & Hx). apply distinct_cons in Db. destruct Db as (P0 & Fb & Db).
    destruct (eqb k k') eqn:Ekk.
    - apply get_None; [exact Dab|exact Hk'|]. apply Forall_forall. intros e He. apply in_app_or in He.
      assert (Pe : P (fst e)) by (destruct Dab as [DP _]; rewrite Forall_forall in DP; apply DP; apply in_or_app; tauto).
      rewrite <- (eqb_l k k' (fst e)), (eqb_l k k0 (fst e)); auto.
      destruct He as [He|He].
      + rewrite eqb_sym; auto. apply (Hx e (k0, w)); [exact He|left; reflexivity].
      + rewrite Forall_forall in Fb. apply Fb. exact He.
    - destruct (get (a ++ (k0, w) :: b) k') as [u|] eqn:Eu.
      + apply get_Some in Eu; [|assumption|assumption]. destruct Eu as (k1 & Hin & E1).
        apply get_Some; [assumption|assumption|]. exists k1. split; [|exact E1]. apply in_app_or in Hin. apply in_or_app.
        destruct Hin as [Hin|[Hin|Hin]]; auto. injection Hin as <- <-. exfalso.
        rewrite (eqb_l k k0 k') in Ekk by assumption. rewrite eqb_sym in Ekk by assumption. congruence.
      + apply get_None in Eu; [|assumption|assumption]. apply get_None; [assumption|assumption|].
        rewrite Forall_app in *. destruct Eu as [F1 F2]. inversion F2; subst. auto.
  Qed.

  (* ---- histories ---- *)
  Inductive hop : Type := HSet (k : K) (v : V) | HDel (k : K) | HClear.
  Definition hop_ok (o : hop) : Prop := match o with HSet k _ => P k | HDel k => P k | HClear => True end.
  Definition hstep (l : list (K * V)) (o : hop) : list (K * V) :=
    match o with HSet k v => ins l k v | HDel k => del l k | HClear => [] end.
  Definition hrun (os : list hop) : list (K * V) := fold_left hstep os [].
  (* the last operation on the key decides *)
  Fixpoint hspec (rev_os : list hop) (k : K) : option V :=
    match rev_os with
    | [] => None
    | HSet k' v :: r => if eqb k' k then Some v else hspec r k
    | HDel k' :: r => if eqb k' k then None else hspec r k
    | HClear :: _ => None
    end.
  Lemma hrun_snoc os o : hrun (os ++ [o]) = hstep (hrun os) o.
  Proof using. unfold hrun. rewrite fold_left_app. reflexivity. Qed.
  Lemma hrun_distinct os : Forall hop_ok os -> distinct (hrun os).
  Proof using G.
    induction os as [|o os IH] using rev_ind; intros H; [apply distinct_nil|].
    apply Forall_app in H. destruct H as [H1 H2]. inversion H2; subst. rewrite hrun_snoc.
    specialize (IH H1). destruct o as [k v|k|]; cbn in *; auto using ins_distinct, del_distinct, distinct_nil.
  Qed.
  Lemma hrun_get os k : Forall hop_ok os -> P k -> get (hrun os) k = hspec (rev os) k.
  Proof using G.
    intros H Hk. induction os as [|o os IH] using rev_ind; [reflexivity|].
    apply Forall_app in H. destruct H as [H1 H2]. inversion H2; subst. specialize (IH H1).
    pose proof (hrun_distinct os H1) as D. rewrite hrun_snoc, rev_app_distr. cbn [rev app hspec].
    destruct o as [k0 v|k0|]; cbn [hstep hop_ok] in *.
    - rewrite get_ins by assumption. destruct (eqb k0 k); auto.
    - rewrite get_del by assumption. destruct (eqb k0 k); auto.
    - reflexivity.
  Qed.
  (* order of first insertion *)
  Fixpoint first_keys (seen : list K) (ks : list K) : list K :=
    match ks with
    | [] => []
    | k :: r => if existsb (fun x => eqb x k) seen then first_keys seen r else k :: first_keys (seen ++ [k]) r
    end.
  Lemma get_seen l k : distinct l -> P k -> (exists v, get l k = Some v) <-> existsb (fun x => eqb x k) (map fst l) = true.
  Proof using G.
    intros D Hk. rewrite existsb_exists. split.
    - intros (v & E). apply get_Some in E; [|assumption|assumption]. destruct E as (k' & Hin & E).
      exists k'. split; [apply in_map_iff; exists (k', v); auto|]. rewrite eqb_sym; auto.
      destruct D as [DP _]. rewrite Forall_forall in DP. apply (DP _ Hin).
    - intros (k' & Hin & E). apply in_map_iff in Hin. destruct Hin as ([k1 v] & E1 & Hin). cbn in E1. subst k1.
      exists v. apply get_Some; [assumption|assumption|]. exists k'. split; [exact Hin|]. rewrite eqb_sym; auto.
      destruct D as [DP _]. rewrite Forall_forall in DP. apply (DP _ Hin).
  Qed.
  Lemma fold_ins_keys kvs : forall l, distinct l -> Forall (fun e => P (fst e)) kvs ->
    map fst (fold_left (fun m e => ins m (fst e) (snd e)) kvs l) = map fst l ++ first_keys (map fst l) (map fst kvs).
  Proof using G.
    induction kvs as [|[k v] kvs IH]; intros l D H; cbn [fold_left map first_keys]; [rewrite app_nil_r; reflexivity|].
    inversion H as [|? ? Hk H']; subst. cbn in Hk. cbn [fst snd].
    rewrite IH by (try apply ins_distinct; assumption).
    destruct (existsb (fun x => eqb x k) (map fst l)) eqn:E.
    - apply (get_seen l k D Hk) in E. destruct E as (w & E). destruct (ins_present l k v w D Hk E) as (a & k' & b & -> & _ & ->).
      rewrite !map_app. cbn [map fst]. reflexivity.
    - assert (En : get l k = None).
      { destruct (get l k) as [w|] eqn:Ew; [|reflexivity]. assert (existsb (fun x => eqb x k) (map fst l) = true) by (apply (get_seen l k D Hk); eauto). congruence. }
      rewrite (ins_absent l k v D Hk En). rewrite !map_app. cbn [map fst]. rewrite <- app_assoc. reflexivity.
  Qed.
  Lemma fold_ins_distinct kvs : forall l, distinct l -> Forall (fun e => P (fst e)) kvs ->
    distinct (fold_left (fun m e => ins m (fst e) (snd e)) kvs l).
  Proof using G.
    induction kvs as [|[k v] kvs IH]; intros l D H; [exact D|]. inversion H; subst. cbn [fold_left fst snd].
    apply IH; [apply ins_distinct; assumption|assumption].
  Qed.
  (* lookup after inserting a list of entries: the last one for the key, else the old one *)
  Fixpoint last_value (rev_kvs : list (K * V)) (k : K) : option V :=
    match rev_kvs with [] => None | (k', v) :: r => if eqb k' k then Some v else last_value r k end.
  Lemma fold_ins_get kvs : forall l k, distinct l -> Forall (fun e => P (fst e)) kvs -> P k ->
    get (fold_left (fun m e => ins m (fst e) (snd e)) kvs l) k =
    match last_value (rev kvs) k with Some v => Some v | None => get l k end.
  Proof using G.
    induction kvs as [|[k0 v0] kvs IH] using rev_ind; intros l k D H Hk; [reflexivity|].
    apply Forall_app in H. destruct H as [H1 H2]. inversion H2; subst. cbn in *.
    rewrite fold_left_app, rev_app_distr. cbn [fold_left rev app last_value fst snd].
    rewrite get_ins by (try apply fold_ins_distinct; assumption). destruct (eqb k0 k); [reflexivity|]. apply IH; assumption.
  Qed.
  (* entries whose keys are already distinct are collected unchanged *)
  Lemma collect_distinct l : forall m, distinct (m ++ l) -> fold_left (fun m e => ins m (fst e) (snd e)) l m = m ++ l.
  Proof using G.
    induction l as [|[k v] l IH]; intros m D; [rewrite app_nil_r; reflexivity|].
    cbn [fold_left fst snd]. pose proof D as D'. apply distinct_app in D'. destruct D' as (Dm & Dl & Hx).
    apply distinct_cons in Dl. destruct Dl as (Hk & Hf & Dl).
    rewrite ins_absent; auto.
    - rewrite IH; rewrite <- app_assoc; [reflexivity|exact D].
    - apply get_None; [exact Dm|exact Hk|]. apply Forall_forall. intros e He.
      assert (P (fst e)) by (destruct Dm as [DP _]; rewrite Forall_forall in DP; apply DP; exact He).
      rewrite eqb_sym by assumption. apply (Hx e (k, v)); [exact He|left; reflexivity].
  Qed.
  Lemma distinct_filter f l : distinct l -> distinct (filter f l).
  Proof using.
    intros D. induction l as [|[k v] l IH]; [exact D|]. apply distinct_cons in D. destruct D as (Hk & Hf & D).
    cbn [filter]. specialize (IH D). destruct (f (k, v)); [|exact IH]. apply distinct_cons. split; [exact Hk|]. split; [|exact IH].
    rewrite Forall_forall in *. intros e He. apply filter_In in He. apply Hf. apply He.
  Qed.
  (* equality of maps *)
  Lemma im_eq_spec (veq : V -> V -> bool) l r : distinct l -> distinct r ->
    im_eq hash eqb probe veq l r = true <->
    (forall k, P k -> match get l k, get r k with
                      | Some v, Some w => veq v w = true
                      | None, None => True
                      | _, _ => False
                      end).
  Proof using G.
    intros Dl Dr. unfold im_eq. rewrite andb_true_iff, Z.eqb_eq, forallb_forall. split.
    - intros [Hlen Hall] k Hk. destruct (get l k) as [v|] eqn:E.
      + apply get_Some in E; [|assumption|assumption]. destruct E as (k' & Hin & E').
        specialize (Hall _ Hin). cbn in Hall.
        assert (Pk' : P k') by (destruct Dl as [DP _]; rewrite Forall_forall in DP; apply (DP _ Hin)).
        assert (Eg : get r k = get r k').
        { destruct (get r k') as [w|] eqn:Ew.
          - apply get_Some in Ew; [|assumption|assumption]. destruct Ew as (k1 & Hin1 & E1).
            apply get_Some; [assumption|assumption|]. exists k1. split; [exact Hin1|].
            assert (P k1) by (destruct Dr as [DP _]; rewrite Forall_forall in DP; apply (DP _ Hin1)).
            rewrite (eqb_l k k' k1); auto.
          - discriminate. }
        rewrite Eg. destruct (get r k'); [exact Hall|discriminate].
      + (* a key only in r: pigeonhole *)
        destruct (get r k) as [w|] eqn:Ew; [|exact I]. exfalso.
        apply get_Some in Ew; [|assumption|assumption]. destruct Ew as (k1 & Hin1 & E1).
        apply get_None in E; [|assumption|assumption].
        (* map each entry of l to the entry of r it hits; r without k1 is shorter *)
        apply in_split in Hin1. destruct Hin1 as (a & b & ->).
        assert (P1 : P k1). { apply distinct_app in Dr. destruct Dr as (_ & Dr & _). apply distinct_cons in Dr. apply Dr. }
        assert (Hinj : forall l r : list (K * V), distinct l -> distinct r ->
          (forall e, In e l -> exists e', In e' r /\ eqb (fst e) (fst e') = true) -> (length l <= length r)%nat).
        { clear - G. induction l as [|[k v] l IH]; intros r Dl Dr H; [cbn; lia|].
          apply distinct_cons in Dl. destruct Dl as (Hk & Hf & Dl).
          destruct (H (k, v) (or_introl eq_refl)) as ([k' v'] & Hin & E). cbn in E.
          apply in_split in Hin. destruct Hin as (a & b & ->). rewrite app_length. cbn [length].
          apply distinct_app in Dr. destruct Dr as (Da & Db & Hx). apply distinct_cons in Db. destruct Db as (Pk' & Fb & Db).
          assert (length l <= length (a ++ b))%nat; [|rewrite app_length in *; lia].
          apply IH; [exact Dl| |].
          { apply distinct_app. split; [exact Da|]. split; [exact Db|]. intros x y Hx' Hy. apply Hx; [exact Hx'|right; exact Hy]. }
          intros e He. destruct (H e (or_intror He)) as (e' & Hin' & E').
          exists e'. split; [|exact E']. apply in_app_or in Hin'. apply in_or_app. destruct Hin' as [Hin'|[Hin'|Hin']]; auto.
          subst e'. exfalso. rewrite Forall_forall in Hf. specialize (Hf e He).
          assert (Pe : P (fst e)) by (destruct Dl as [DP _]; rewrite Forall_forall in DP; apply DP; exact He).
          cbn in E'. rewrite (eqb_l k k' (fst e)) in Hf by assumption. rewrite eqb_sym in Hf by assumption. congruence. }
        assert (Dab : distinct (a ++ b)).
        { apply distinct_app in Dr. destruct Dr as (Da & Db & Hx). apply distinct_cons in Db. apply distinct_app. split; [exact Da|]. split; [tauto|].
          intros x y Hx' Hy. apply Hx; [exact Hx'|right; exact Hy]. }
        specialize (Hinj l (a ++ b) Dl Dab).
        assert (length l <= length (a ++ b))%nat; [apply Hinj|].
        * intros e He. specialize (Hall _ He).
          assert (Pe : P (fst e)) by (destruct Dl as [DP _]; rewrite Forall_forall in DP; apply DP; exact He).
          destruct (get (a ++ (k1, w) :: b) (fst e)) as [u|] eqn:Eu; [|discriminate].
          apply get_Some in Eu; [|assumption|assumption]. destruct Eu as (k2 & Hin2 & E2).
          exists (k2, u). split; [|exact E2]. apply in_app_or in Hin2. apply in_or_app. destruct Hin2 as [Hin2|[Hin2|Hin2]]; auto.
          injection Hin2 as <- <-. exfalso. rewrite Forall_forall in E. specialize (E e He).
          rewrite (eqb_l k k1 (fst e)) in E by assumption. rewrite eqb_sym in E by assumption. congruence.
        * unfold zlen in Hlen. rewrite app_length in *. cbn [length] in Hlen. lia.
    - intros H.
      assert (Hinj : forall l r : list (K * V), distinct l -> distinct r ->
          (forall e, In e l -> exists e', In e' r /\ eqb (fst e) (fst e') = true) -> (length l <= length r)%nat).
      { clear - G. induction l as [|[k v] l IH]; intros r Dl Dr H; [cbn; lia|].
        apply distinct_cons in Dl. destruct Dl as (Hk & Hf & Dl).
        destruct (H (k, v) (or_introl eq_refl)) as ([k' v'] & Hin & E). cbn in E.
        apply in_split in Hin. destruct Hin as (a & b & ->). rewrite app_length. cbn [length].
        apply distinct_app in Dr. destruct Dr as (Da & Db & Hx). apply distinct_cons in Db. destruct Db as (Pk' & Fb & Db).
        assert (length l <= length (a ++ b))%nat; [|rewrite app_length in *; lia].
        apply IH; [exact Dl| |].
        { apply distinct_app. split; [exact Da|]. split; [exact Db|]. intros x y Hx' Hy. apply Hx; [exact Hx'|right; exact Hy]. }
        intros e He. destruct (H e (or_intror He)) as (e' & Hin' & E').
        exists e'. split; [|exact E']. apply in_app_or in Hin'. apply in_or_app. destruct Hin' as [Hin'|[Hin'|Hin']]; auto.
        subst e'. exfalso. rewrite Forall_forall in Hf. specialize (Hf e He).
        assert (Pe : P (fst e)) by (destruct Dl as [DP _]; rewrite Forall_forall in DP; apply DP; exact He).
        cbn in E'. rewrite (eqb_l k k' (fst e)) in Hf by assumption. rewrite eqb_sym in Hf by assumption. congruence. }
      assert (HP : forall l e, distinct l -> In e l -> P (fst e)).
      { intros l0 e [DP _] He. rewrite Forall_forall in DP. apply DP. exact He. }
      assert (Hself : forall l e, distinct l -> In e l -> get l (fst e) = Some (snd e)).
      { intros l0 [k v] D He. apply get_Some; [exact D|apply (HP l0 (k, v) D He)|]. exists k. split; [exact He|]. destruct G as (R & _). apply R. apply (HP l0 (k, v) D He). }
      split.
      + assert (length l <= length r)%nat.
        { apply Hinj; [assumption|assumption|]. intros e He. specialize (H (fst e) (HP l e Dl He)).
          rewrite (Hself l e Dl He) in H. destruct (get r (fst e)) as [w|] eqn:E; [|contradiction].
          apply get_Some in E; [|assumption|apply (HP l e Dl He)]. destruct E as (k' & Hin & E). exists (k', w). auto. }
        assert (length r <= length l)%nat.
        { apply Hinj; [assumption|assumption|]. intros e He. specialize (H (fst e) (HP r e Dr He)).
          rewrite (Hself r e Dr He) in H. destruct (get l (fst e)) as [w|] eqn:E; [|contradiction].
          apply get_Some in E; [|assumption|apply (HP r e Dr He)]. destruct E as (k' & Hin & E). exists (k', w). auto. }
        unfold zlen. lia.
      + intros e He. specialize (H (fst e) (HP l e Dl He)). rewrite (Hself l e Dl He) in H.
        destruct (get r (fst e)); [exact H|contradiction].
  Qed.
  End Good.
End IM.
