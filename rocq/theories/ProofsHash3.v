(* Hashes as finite maps over any history. *)
From Verif Require Import Base ProofsBase ModelArray ProofsArray ModelValue ModelFloat ModelString ProofsString ModelHash ProofsHash ProofsHash2.
From Coq Require Import SpecFloat Permutation.
Ltac Zify.zify_post_hook ::= Z.div_mod_to_equations.

(* ---- specification: what a history of commands leaves under a key ---- *)
Section Spec.
  Context {K V : Type}.
  Variable R : K -> K -> Prop.
  Definition touches (k : K) (c : @hop K V) : Prop :=
    match c with HSet k' _ => R k' k | HDel k' => R k' k | HClear => True end.
  (* a []= under an equal key which no later command touches *)
  Definition live (cs : list (@hop K V)) (k : K) (v : V) : Prop :=
    exists a k' b, cs = a ++ HSet k' v :: b /\ R k' k /\ Forall (fun c => ~ touches k c) b.
  (* first occurrences, for any decision procedure *)
  Fixpoint firsts (dec : K -> K -> bool) (seen ks : list K) : list K :=
    match ks with
    | [] => []
    | k :: r => if existsb (fun x => dec x k) seen then firsts dec seen r else k :: firsts dec (seen ++ [k]) r
    end.
  (* the last entry of a list of pairs for a key *)
  Definition last_for (kvs : list (K * V)) (k : K) (v : V) : Prop :=
    exists a k' b, kvs = a ++ (k', v) :: b /\ R k' k /\ Forall (fun e => ~ R (fst e) k) b.
End Spec.

Section Refl.
  Context {K V : Type}.
  Variable eqb : K -> K -> bool.
  Variable P : K -> Prop.
  Variable R : K -> K -> Prop.
  Hypothesis ER : forall a b, P a -> P b -> eqb a b = true <-> R a b.
  Lemma hspec_live (cs : list (@hop K V)) k v : Forall (hop_ok P) cs -> P k ->
    hspec eqb (rev cs) k = Some v <-> live R cs k v.
  Proof using ER.
    intros H Hk. induction cs as [|c cs IH] using rev_ind.
    - split; [discriminate|]. intros (a & k' & b & E & _). destruct a; discriminate.
    - apply Forall_app in H. destruct H as [H1 H2]. inversion H2 as [|? ? Hc _]; subst. specialize (IH H1).
      rewrite rev_app_distr. cbn [rev app].
      assert (Hnt : ~ touches R k c -> live R (cs ++ [c]) k v <-> live R cs k v).
      { intros N. split; intros (a & k' & b & E & Rk & Fb).
        - destruct b as [|x b _] using rev_ind.
          + apply app_inj_tail in E. destruct E as [_ E]. subst c. cbn in N. contradiction.
          + rewrite app_comm_cons, app_assoc in E. apply app_inj_tail in E. destruct E as [-> _].
            exists a, k', b. split; [reflexivity|]. split; [exact Rk|]. apply Forall_app in Fb. tauto.
        - subst. exists a, k', (b ++ [c]). split; [rewrite <- app_assoc; reflexivity|]. split; [exact Rk|].
          apply Forall_app. auto. }
      assert (Ht : touches R k c -> (forall w, c <> HSet (match c with HSet k' _ => k' | _ => k end) w) -> ~ live R (cs ++ [c]) k v).
      { intros T NS (a & k' & b & E & Rk & Fb). destruct b as [|x b _] using rev_ind.
        - apply app_inj_tail in E. destruct E as [_ ->]. exact (NS v eq_refl).
        - rewrite app_comm_cons, app_assoc in E. apply app_inj_tail in E. destruct E as [_ ->].
          apply Forall_app in Fb. destruct Fb as [_ Fb]. inversion Fb; subst. contradiction. }
      destruct c as [k0 v0|k0|]; cbn [hspec touches hop_ok] in *.
      + destruct (eqb k0 k) eqn:E.
        * assert (Rk : R k0 k) by (apply ER; assumption). split.
          { intros [= <-]. exists cs, k0, []. auto. }
          { intros (a & k' & b & E' & Rk' & Fb). destruct b as [|x b _] using rev_ind.
            - apply app_inj_tail in E'. destruct E' as [_ E']. congruence.
            - rewrite app_comm_cons, app_assoc in E'. apply app_inj_tail in E'. destruct E' as [_ E']. subst x.
              apply Forall_app in Fb. destruct Fb as [_ Fb]. inversion Fb; subst. contradiction. }
        * rewrite IH. symmetry. apply Hnt. intros T. apply ER in T; auto. congruence.
      + destruct (eqb k0 k) eqn:E.
        * split; [discriminate|]. intros L. exfalso. apply Ht; try assumption; [apply ER; assumption|discriminate].
        * rewrite IH. symmetry. apply Hnt. intros T. apply ER in T; auto. congruence.
      + split; [discriminate|]. intros L. exfalso. apply Ht; auto. discriminate.
  Qed.
  Lemma last_value_for (kvs : list (K * V)) k v : Forall (fun e => P (fst e)) kvs -> P k ->
    last_value eqb (rev kvs) k = Some v <-> last_for R kvs k v.
  Proof using ER.
    intros H Hk. induction kvs as [|[k0 v0] kvs IH] using rev_ind.
    - split; [discriminate|]. intros (a & k' & b & E & _). destruct a; discriminate.
    - apply Forall_app in H. destruct H as [H1 H2]. inversion H2 as [|? ? Hc _]; subst. specialize (IH H1). cbn in Hc.
      rewrite rev_app_distr. cbn [rev app last_value]. destruct (eqb k0 k) eqn:E.
      + assert (Rk : R k0 k) by (apply ER; assumption). split.
        * intros [= <-]. exists kvs, k0, []. auto.
        * intros (a & k' & b & E' & Rk' & Fb). destruct b as [|x b _] using rev_ind.
          { apply app_inj_tail in E'. destruct E' as [_ E']. congruence. }
          { rewrite app_comm_cons, app_assoc in E'. apply app_inj_tail in E'. destruct E' as [_ E']. subst x.
            apply Forall_app in Fb. destruct Fb as [_ Fb]. inversion Fb; subst. contradiction. }
      + rewrite IH. assert (N : ~ R k0 k) by (intros T; apply ER in T; auto; congruence). split.
        * intros (a & k' & b & -> & Rk & Fb). exists a, k', (b ++ [(k0, v0)]). split; [rewrite <- app_assoc; reflexivity|].
          split; [exact Rk|]. apply Forall_app. auto.
        * intros (a & k' & b & E' & Rk & Fb). destruct b as [|x b _] using rev_ind.
          { apply app_inj_tail in E'. destruct E' as [_ E']. injection E' as -> ->. contradiction. }
          { rewrite app_comm_cons, app_assoc in E'. apply app_inj_tail in E'. destruct E' as [-> _].
            exists a, k', b. split; [reflexivity|]. split; [exact Rk|]. apply Forall_app in Fb. tauto. }
  Qed.
  Lemma first_keys_firsts dec ks : (forall a b, P a -> P b -> dec a b = true <-> R a b) ->
    forall seen, Forall P seen -> Forall P ks -> first_keys eqb seen ks = firsts dec seen ks.
  Proof using ER.
    intros HD. induction ks as [|k ks IH]; intros seen Hs Hk; [reflexivity|]. inversion Hk; subst. cbn [first_keys firsts].
    assert (existsb (fun x => eqb x k) seen = existsb (fun x => dec x k) seen) as ->.
    { clear IH. induction Hs as [|x seen Hx Hs IHs]; [reflexivity|]. cbn. rewrite IHs. f_equal.
      destruct (eqb x k) eqn:E1, (dec x k) eqn:E2; try reflexivity.
      - apply ER in E1; auto. apply HD in E1; auto. congruence.
      - apply HD in E2; auto. apply ER in E2; auto. congruence. }
    destruct (existsb _ seen); [apply IH; assumption|]. rewrite IH; auto. apply Forall_app. auto.
  Qed.
End Refl.

(* ---- the two kinds of hash ---- *)
Section Hashes.
  Variable hashf : list Z -> Z.
  Variable probe : Z -> Z -> bool.
  (* the table: a stored key is always probed under its own hash code *)
  Hypothesis PR : forall h, probe h h = true.
  Definition h_step (h : hinfo) (o : @hop kv kv) : hinfo :=
    match o with
    | HSet k v => h_insert hashf probe h k v
    | HDel k => h_remove hashf probe h k
    | HClear => h_clear h
    end.
  Definition h_run (h : hinfo) (os : list (@hop kv kv)) : hinfo := fold_left h_step os h.
  Lemma h_run_map os : forall l, h_run (HMap l) os = HMap (fold_left (hstep (khash hashf) (keq hashf probe true) probe) os l).
  Proof using. induction os as [|o os IH]; intros l; [reflexivity|]. unfold h_run in *. cbn [fold_left]. destruct o; apply IH. Qed.
  Lemma h_run_ident os : forall l, h_run (HIdent l) os = HIdent (fold_left (hstep (ihash hashf) ieqb probe) os l).
  Proof using. induction os as [|o os IH]; intros l; [reflexivity|]. unfold h_run in *. cbn [fold_left]. destruct o; apply IH. Qed.

  Definition same_id (a b : kv) : Prop := kid a = kid b.
  Lemma ieqb_R a b : ieqb a b = true <-> same_id a b.
  Proof using. apply Z.eqb_eq. Qed.

  (* keys that can be used together: plain, from one heap *)
  Definition usable (ks : kv -> Prop) : Prop := one_heap ks /\ forall a, ks a -> plain a = true.
  Definition cmds_in (ks : kv -> Prop) (os : list (@hop kv kv)) : Prop := Forall (hop_ok ks) os.
  Section Map.
  Variable ks : kv -> Prop.
  Hypothesis U : usable ks.
  Lemma U_good : good_keys (khash hashf) (keq hashf probe true) probe ks.
  Proof using U PR. destruct U. apply keys_good; assumption. Qed.
  Lemma U_R a b : ks a -> ks b -> keq hashf probe true a b = true <-> same a b.
  Proof using U. intros Ha Hb. destruct U as [OH HP]. apply (eql_same hashf probe ks OH a b a b); auto using sub_refl. Qed.
  Lemma map_lookup os k v : cmds_in ks os -> ks k ->
    h_get hashf probe (h_run (HMap []) os) k = Some v <-> live same os k v.
  Proof using U PR.
    intros H Hk. rewrite h_run_map. cbn [h_get].
    change (fold_left _ os []) with (hrun (khash hashf) (keq hashf probe true) probe os).
    rewrite (hrun_get _ _ _ ks U_good) by assumption. apply (hspec_live _ ks _ U_R); assumption.
  Qed.
  Definition key_list_ok (R : kv -> kv -> Prop) (h : hinfo) (os : list (@hop kv kv)) : Prop :=
    (forall k, ks k -> (exists v, live R os k v) <-> exists k', In k' (h_keys h) /\ R k' k) /\
    ForallOrdPairs (fun a b => ~ R a b) (h_keys h) /\
    h_len h = zlen (h_keys h) /\
    (forall k v, In (k, v) (entries h) -> ks k /\ live R os k v).
  Lemma fop_map (l : list (kv * kv)) (eqb : kv -> kv -> bool) (R : kv -> kv -> Prop) :
    (forall a b, ks a -> ks b -> eqb a b = true <-> R a b) -> distinct eqb ks l -> ForallOrdPairs (fun a b => ~ R a b) (map fst l).
  Proof using.
    intros ER [D1 D2]. induction D2 as [|[k v] l Hf _ IH]; cbn [map]; constructor.
    - apply Forall_map. inversion D1; subst. rewrite Forall_forall in *. intros e He T. apply ER in T; auto. specialize (Hf e He). cbn in *. congruence.
    - inversion D1; auto.
  Qed.
  Lemma map_keys os : cmds_in ks os -> key_list_ok same (h_run (HMap []) os) os.
  Proof using U PR.
    intros H. pose proof (fun k v => map_lookup os k v H) as L.
    rewrite h_run_map in *. cbn [h_get] in L. unfold key_list_ok, h_keys, h_len. cbn [entries].
    change (fold_left _ os []) with (hrun (khash hashf) (keq hashf probe true) probe os) in *.
    pose proof (hrun_distinct _ _ _ ks U_good os H) as D. set (l := hrun _ _ _ os) in *. clearbody l.
    assert (HP : forall e, In e l -> ks (fst e)) by (destruct D as [D _]; rewrite Forall_forall in D; exact D).
    split; [|split; [|split]].
    - intros k Hk. split.
      + intros (v & Hv). apply L in Hv; [|exact Hk]. apply (get_Some _ _ _ ks U_good) in Hv; auto. destruct Hv as (k' & Hin & E).
        exists k'. split; [apply in_map_iff; exists (k', v); auto|]. apply same_sym. apply U_R; auto. apply (HP _ Hin).
      + intros (k' & Hin & E). apply in_map_iff in Hin. destruct Hin as ([k1 v] & <- & Hin). cbn in E.
        exists v. apply L; [exact Hk|]. apply (get_Some _ _ _ ks U_good); auto. exists k1. split; [exact Hin|].
        apply U_R; [exact Hk|apply (HP _ Hin)|apply same_sym; exact E].
    - apply (fop_map l _ _ U_R D).
    - unfold zlen. rewrite map_length. reflexivity.
    - intros k v Hin. pose proof (HP _ Hin) as Hk. split; [exact Hk|]. apply L; [exact Hk|].
      apply (get_Some _ _ _ ks U_good); auto. exists k. split; [exact Hin|apply eql_refl].
  Qed.
  End Map.
  Lemma ident_lookup (ks : kv -> Prop) os k v : cmds_in ks os -> ks k ->
    h_get hashf probe (h_run (HIdent []) os) k = Some v <-> live same_id os k v.
  Proof using PR.
    intros H Hk. rewrite h_run_ident. cbn [h_get].
    change (fold_left _ os []) with (hrun (ihash hashf) ieqb probe os).
    rewrite (hrun_get _ _ _ ks (ident_good hashf probe ks PR)) by assumption.
    apply (hspec_live _ ks); try assumption. intros; apply ieqb_R.
  Qed.
  Lemma ident_keys ks os : cmds_in ks os -> key_list_ok ks same_id (h_run (HIdent []) os) os.
  Proof using PR.
    intros H. pose proof (fun k v => ident_lookup ks os k v H) as L. pose proof (ident_good hashf probe ks PR) as G.
    rewrite h_run_ident in *. cbn [h_get] in L. unfold key_list_ok, h_keys, h_len. cbn [entries].
    change (fold_left _ os []) with (hrun (ihash hashf) ieqb probe os) in *.
    pose proof (hrun_distinct _ _ _ ks G os H) as D. set (l := hrun _ _ _ os) in *. clearbody l.
    assert (HP : forall e, In e l -> ks (fst e)) by (destruct D as [D _]; rewrite Forall_forall in D; exact D).
    split; [|split; [|split]].
    - intros k Hk. split.
      + intros (v & Hv). apply L in Hv; [|exact Hk]. apply (get_Some _ _ _ ks G) in Hv; auto. destruct Hv as (k' & Hin & E).
        exists k'. split; [apply in_map_iff; exists (k', v); auto|]. apply ieqb_R in E. unfold same_id in *. congruence.
      + intros (k' & Hin & E). apply in_map_iff in Hin. destruct Hin as ([k1 v] & <- & Hin). cbn in E.
        exists v. apply L; [exact Hk|]. apply (get_Some _ _ _ ks G); auto. exists k1. split; [exact Hin|].
        apply ieqb_R. unfold same_id in *. congruence.
    - apply (fop_map ks l ieqb same_id); [intros; apply ieqb_R|exact D].
    - unfold zlen. rewrite map_length. reflexivity.
    - intros k v Hin. pose proof (HP _ Hin) as Hk. split; [exact Hk|]. apply L; [exact Hk|].
      apply (get_Some _ _ _ ks G); auto. exists k. split; [exact Hin|apply ieqb_R; reflexivity].
  Qed.

  (* order: without deletions, first insertion order *)
  Definition sets (kvs : list (kv * kv)) : list (@hop kv kv) := map (fun e => HSet (fst e) (snd e)) kvs.
  Lemma fold_sets hash (eqb : kv -> kv -> bool) kvs : forall l,
    fold_left (hstep hash eqb probe) (sets kvs) l = fold_left (fun m e => im_insert hash eqb probe m (fst e) (snd e)) kvs l.
  Proof using. induction kvs as [|[k v] kvs IH]; intros l; [reflexivity|]. cbn. apply IH. Qed.
  Lemma map_order ks dec kvs : usable ks -> (forall a b, ks a -> ks b -> dec a b = true <-> same a b) ->
    Forall (fun e => ks (fst e)) kvs ->
    h_keys (h_run (HMap []) (sets kvs)) = firsts dec [] (map fst kvs).
  Proof using PR.
    intros U HD H. rewrite h_run_map, fold_sets. unfold h_keys. cbn [entries].
    rewrite (fold_ins_keys _ _ _ ks (U_good ks U)); [|apply distinct_nil|exact H]. cbn [map app].
    apply (first_keys_firsts _ ks same (U_R ks U)); auto. apply Forall_map. exact H.
  Qed.
  Lemma ident_order dec kvs : (forall a b, dec a b = true <-> same_id a b) ->
    h_keys (h_run (HIdent []) (sets kvs)) = firsts dec [] (map fst kvs).
  Proof using PR.
    intros HD. assert (A : forall l : list (kv * kv), Forall (fun e => (fun _ : kv => True) (fst e)) l) by (intros l; apply Forall_forall; auto).
    rewrite h_run_ident, fold_sets. unfold h_keys. cbn [entries].
    rewrite (fold_ins_keys _ _ _ (fun _ => True) (ident_good hashf probe _ PR)); [|apply distinct_nil|apply A]. cbn [map app].
    apply (first_keys_firsts ieqb (fun _ => True) same_id); auto.
    - intros; apply ieqb_R.
    - apply Forall_forall. auto.
  Qed.
  (* delete: the last entry moves into the gap *)
  Lemma map_delete ks os k a k' v b : usable ks -> cmds_in ks os -> ks k ->
    entries (h_run (HMap []) os) = a ++ (k', v) :: b -> same k k' ->
    entries (h_run (HMap []) (os ++ [HDel k])) = a ++ match b with [] => [] | _ => last b (k', v) :: removelast b end.
  Proof using PR.
    intros U H Hk E S. unfold h_run. rewrite fold_left_app. cbn [fold_left].
    change (fold_left h_step os (HMap [])) with (h_run (HMap []) os). rewrite h_run_map in *. cbn [h_step h_remove entries] in *.
    change (fold_left _ os []) with (hrun (khash hashf) (keq hashf probe true) probe os) in *.
    pose proof (hrun_distinct _ _ _ ks (U_good ks U) os H) as D. rewrite E in *. clear E.
    assert (HP : forall e, In e (a ++ (k', v) :: b) -> ks (fst e)) by (destruct D as [D' _]; rewrite Forall_forall in D'; exact D').
    assert (Hk' : ks k') by (apply (HP (k', v)), in_or_app; right; left; reflexivity).
    assert (Ek : keq hashf probe true k k' = true) by (apply (U_R ks U); assumption).
    assert (Hget : im_get (khash hashf) (keq hashf probe true) probe (a ++ (k', v) :: b) k = Some v).
    { apply (get_Some _ _ _ ks (U_good ks U)); auto. exists k'. split; [apply in_or_app; right; left; reflexivity|exact Ek]. }
    destruct (del_present _ _ _ ks (U_good ks U) _ k v D Hk Hget) as (a2 & k2 & b2 & E2 & Ek2 & ->).
    assert (a2 = a /\ b2 = b) as [-> ->].
    { (* the matching entry is unique *)
      assert (Hk2 : ks k2) by (apply (HP (k2, v)); rewrite E2; apply in_or_app; right; left; reflexivity).
      assert (K2 : keq hashf probe true k' k2 = true) by (rewrite <- (eqb_l _ _ _ ks (U_good ks U) k k' k2); assumption).
      assert (K2' : keq hashf probe true k2 k' = true) by (rewrite (eqb_sym _ _ _ ks (U_good ks U)); assumption).
      clear - D E2 K2 K2'. revert a2 E2. induction a as [|[x w] a IH]; intros [|[y u] a2] E2; cbn [app] in *.
      - split; congruence.
      - injection E2 as <- <- ->. apply distinct_cons in D. destruct D as (_ & F & _). apply Forall_app in F. destruct F as [_ F]. inversion F as [|? ? F1 _]; subst. cbn in F1. congruence.
      - injection E2 as -> -> <-. apply distinct_cons in D. destruct D as (_ & F & _). apply Forall_app in F. destruct F as [_ F]. inversion F as [|? ? F1 _]; subst. cbn in F1. congruence.
      - injection E2 as -> -> E2. apply distinct_cons in D. destruct D as (_ & _ & D). destruct (IH D a2 E2) as [-> ->]. auto. }
    f_equal. unfold fill_gap. destruct b as [|x b _] using rev_ind; [reflexivity|].
    rewrite rev_app_distr. cbn [rev app]. rewrite rev_involutive, last_last, removelast_last.
    destruct (b ++ [x]) eqn:Eb; [destruct b; discriminate|reflexivity].
  Qed.
End Hashes.
