(* select, reject, compact, merge, invert, ==, compare_by_identity. *)
From Verif Require Import Base ProofsBase ModelArray ProofsArray ModelValue ModelFloat ModelString ProofsString ModelHash ProofsHash ProofsHash2 ProofsHash3.
From Coq Require Import SpecFloat Permutation.
Ltac Zify.zify_post_hook ::= Z.div_mod_to_equations.

Section Methods.
  Variable hashf : list Z -> Z.
  Variable probe : Z -> Z -> bool.
  Hypothesis PR : forall h, probe h h = true.
  (* hashes a program can build with []=, delete and clear *)
  Definition built (ks : kv -> Prop) (h : hinfo) : Prop :=
    exists os, cmds_in ks os /\ (h = h_run hashf probe (HMap []) os \/ h = h_run hashf probe (HIdent []) os).
  Definition built_map (ks : kv -> Prop) (h : hinfo) : Prop :=
    exists os, cmds_in ks os /\ h = h_run hashf probe (HMap []) os.
  Notation eql := (keq hashf probe true).
  Notation kget := (im_get (khash hashf) eql probe).
  Lemma built_map_distinct ks h : usable ks -> built_map ks h -> exists l, h = HMap l /\ distinct eql ks l.
  Proof using PR.
    intros U (os & H & ->). rewrite h_run_map. eexists. split; [reflexivity|].
    apply (hrun_distinct _ _ _ ks (U_good hashf probe PR ks U) os H).
  Qed.
  (* ---- select, reject ---- *)
  Lemma sel_loop_ok ks f want : usable ks -> forall l m, distinct eql ks (m ++ l) ->
    sel_loop hashf probe (fun k v => Ok (f k v)) want l m = Ok (m ++ filter (fun e => Bool.eqb (f (fst e) (snd e)) want) l).
  Proof using PR.
    intros U. induction l as [|[k v] l IH]; intros m D; cbn [sel_loop filter rbind fst snd]; [rewrite app_nil_r; reflexivity|].
    pose proof D as D'. apply distinct_app in D'. destruct D' as (Dm & Dl & Hx). apply distinct_cons in Dl. destruct Dl as (Hk & Hf & Dl).
    destruct (Bool.eqb (f k v) want).
    - rewrite (ins_absent _ _ _ ks (U_good hashf probe PR ks U)); auto.
      + rewrite IH; rewrite <- app_assoc; [reflexivity|exact D].
      + apply (get_None _ _ _ ks (U_good hashf probe PR ks U)); auto.
        apply Forall_forall. intros e He. rewrite (eqb_sym _ _ _ ks (U_good hashf probe PR ks U)); auto.
        * apply (Hx e (k, v)); [exact He|left; reflexivity].
        * destruct Dm as [DP _]. rewrite Forall_forall in DP. apply DP. exact He.
    - apply IH. apply distinct_app. split; [exact Dm|]. split; [exact Dl|]. intros x y Hxm Hy. apply Hx; [exact Hxm|right; exact Hy].
  Qed.
  Lemma select_ok ks f h : usable ks -> built_map ks h ->
    h_select hashf probe (fun k v => Ok (f k v)) h = Ok (HMap (filter (fun e => f (fst e) (snd e)) (entries h))) /\
    h_reject hashf probe (fun k v => Ok (f k v)) h = Ok (HMap (filter (fun e => negb (f (fst e) (snd e))) (entries h))).
  Proof using PR.
    intros U B. destruct (built_map_distinct ks h U B) as (l & -> & D). unfold h_select, h_reject. cbn [entries].
    rewrite !(sel_loop_ok ks f) by (assumption || exact D). cbn [rbind app]. split; do 2 f_equal; apply filter_ext; intros e; destruct (f _ _); reflexivity.
  Qed.
  (* a block that raises: the first exception comes out *)
  Lemma sel_loop_err want f : forall l m (pre post : list (kv * kv)) k v e,
    l = pre ++ (k, v) :: post -> (forall k' v', In (k', v') pre -> exists b, f k' v' = Ok b) -> f k v = Err e ->
    sel_loop hashf probe f want l m = Err e.
  Proof using.
    intros l m pre. revert l m. induction pre as [|[k' v'] pre IH]; intros l m post k v e -> Hp He; cbn [app sel_loop].
    - rewrite He. reflexivity.
    - destruct (Hp k' v' (or_introl eq_refl)) as (b & ->). cbn [rbind]. eapply IH; [reflexivity| |exact He].
      intros. apply Hp. right. assumption.
  Qed.
  Lemma select_err f h pre k v post e : entries h = pre ++ (k, v) :: post ->
    (forall k' v', In (k', v') pre -> exists b, f k' v' = Ok b) -> f k v = Err e ->
    h_select hashf probe f h = Err e /\ h_reject hashf probe f h = Err e.
  Proof using.
    intros E Hp He. unfold h_select, h_reject. rewrite !(sel_loop_err _ f _ _ pre post k v e E Hp He). auto.
  Qed.
  (* ---- compact ---- *)
  Lemma get_filter_entry ks (G : good_keys (khash hashf) eql probe ks) (g : kv * kv -> bool) l k v : distinct eql ks l -> ks k ->
    kget (filter g l) k = Some v <-> exists k', In (k', v) l /\ g (k', v) = true /\ eql k k' = true.
  Proof using.
    intros D Hk. rewrite (get_Some _ _ _ ks G); [|apply distinct_filter; exact D|exact Hk].
    split; intros (k' & H1 & H2); exists k'; rewrite filter_In in *; tauto.
  Qed.
  Lemma compact_ok ks is_nil h k v : usable ks -> built_map ks h -> ks k ->
    h_get hashf probe (h_compact is_nil h) k = Some v <-> h_get hashf probe h k = Some v /\ is_nil v = false.
  Proof using PR.
    intros U B Hk. destruct (built_map_distinct ks h U B) as (l & -> & D). cbn [h_compact h_get]. unfold im_retain.
    pose proof (U_good hashf probe PR ks U) as G.
    rewrite (get_filter_entry ks G) by assumption. rewrite (get_Some _ _ _ ks G) by assumption. cbn [fst snd]. rewrite <- negb_true_iff.
    split; [intros (k' & H1 & H2 & H3)|intros ((k' & H1 & H3) & H2)]; eauto.
  Qed.
  (* ---- merge ---- *)
  Lemma insert_all_map l es : fold_left (fun m e => h_insert hashf probe m (fst e) (snd e)) es (HMap l) =
    HMap (fold_left (fun m e => im_insert (khash hashf) eql probe m (fst e) (snd e)) es l).
  Proof using. revert l. induction es as [|[k v] es IH]; intros l; [reflexivity|]. cbn. apply IH. Qed.
  Lemma merge_fold l others :
    h_merge hashf probe (HMap l) others =
    HMap (fold_left (fun m e => im_insert (khash hashf) eql probe m (fst e) (snd e)) (concat (map entries others)) l).
  Proof using.
    unfold h_merge. revert l. induction others as [|o os IH]; intros l; [reflexivity|].
    cbn [fold_left map concat]. rewrite insert_all_map, IH, fold_left_app. reflexivity.
  Qed.
  Lemma collect_self ks (l : list (kv * kv)) : usable ks -> distinct eql ks l -> fold_left (fun m e => im_insert (khash hashf) eql probe m (fst e) (snd e)) l [] = l.
  Proof using PR. intros U D. apply (collect_distinct _ _ _ ks (U_good hashf probe PR ks U) l []). exact D. Qed.
  Lemma merge_all ks h others dec : usable ks -> built_map ks h -> Forall (fun o => Forall (fun e => ks (fst e)) (entries o)) others ->
    (forall a b, ks a -> ks b -> dec a b = true <-> same a b) ->
    (forall k v, ks k -> h_get hashf probe (h_merge hashf probe h others) k = Some v <->
      last_for same (entries h ++ concat (map entries others)) k v) /\
    h_keys (h_merge hashf probe h others) = firsts dec [] (h_keys h ++ concat (map h_keys others)).
  Proof using PR.
    intros U B F HD. destruct (built_map_distinct ks h U B) as (l & -> & D). pose proof (U_good hashf probe PR ks U) as G.
    cbn [entries]. rewrite merge_fold.
    assert (EM : fold_left (fun m e => im_insert (khash hashf) eql probe m (fst e) (snd e)) (concat (map entries others)) l =
      fold_left (fun m e => im_insert (khash hashf) eql probe m (fst e) (snd e)) (l ++ concat (map entries others)) [])
      by (rewrite fold_left_app, (collect_self ks l U D); reflexivity).
    rewrite EM.
    assert (Fa : Forall (fun e => ks (fst e)) (l ++ concat (map entries others))).
    { apply Forall_app. split; [apply D|]. apply Forall_concat. apply Forall_map. exact F. }
    split.
    - intros k v Hk. cbn [h_get]. rewrite (fold_ins_get _ _ _ ks G); [|apply distinct_nil|exact Fa|exact Hk].
      cbn [im_get]. rewrite <- (last_value_for eql ks same (U_R hashf probe ks U) _ k v Fa Hk).
      destruct (last_value eql _ k); reflexivity.
    - unfold h_keys at 1. cbn [entries]. rewrite (fold_ins_keys _ _ _ ks G); [|apply distinct_nil|exact Fa]. cbn [map app].
      rewrite map_app, concat_map, map_map.
      apply (first_keys_firsts eql ks same (U_R hashf probe ks U)); auto.
      assert (E : map fst l ++ concat (map (fun x => map fst (entries x)) others) = map fst (l ++ concat (map entries others))).
      { rewrite map_app, concat_map, map_map. reflexivity. }
      change (Forall ks (map fst l ++ concat (map (fun x => map fst (entries x)) others))). rewrite E. apply Forall_map. exact Fa.
  Qed.
  (* ---- invert ---- *)
  Lemma invert_all ks h dec : usable ks -> Forall (fun e => ks (snd e)) (entries h) ->
    (forall a b, ks a -> ks b -> dec a b = true <-> same a b) ->
    (forall x k, ks x -> h_get hashf probe (h_invert hashf probe h) x = Some k <->
      last_for same (map (fun e => (snd e, fst e)) (entries h)) x k) /\
    h_keys (h_invert hashf probe h) = firsts dec [] (h_values h).
  Proof using PR.
    intros U F HD. pose proof (U_good hashf probe PR ks U) as G. unfold h_invert, im_collect. set (l := map _ (entries h)).
    assert (Fl : Forall (fun e => ks (fst e)) l) by (apply Forall_map; exact F). split.
    - intros x k Hx. cbn [h_get]. rewrite (fold_ins_get _ _ _ ks G); [|apply distinct_nil|exact Fl|exact Hx].
      cbn [im_get]. rewrite <- (last_value_for eql ks same (U_R hashf probe ks U) _ x k Fl Hx).
      destruct (last_value eql _ x); reflexivity.
    - unfold h_keys. cbn [entries]. rewrite (fold_ins_keys _ _ _ ks G); [|apply distinct_nil|exact Fl]. cbn [map app].
      replace (map fst l) with (h_values h) by (unfold l, h_values; rewrite map_map; reflexivity).
      apply (first_keys_firsts eql ks same (U_R hashf probe ks U)); auto. unfold h_values. apply Forall_map. exact F.
  Qed.
  (* ---- == ---- *)
  Lemma h_eq_ok ks a b : usable ks -> built_map ks a -> built_map ks b ->
    h_eq hashf probe a b = true <->
    (forall k, ks k -> match h_get hashf probe a k, h_get hashf probe b k with
                       | Some v, Some w => keq hashf probe false v w = true
                       | None, None => True
                       | _, _ => False
                       end).
  Proof using PR.
    intros U Ba Bb. destruct (built_map_distinct ks a U Ba) as (l & -> & Dl). destruct (built_map_distinct ks b U Bb) as (r & -> & Dr).
    cbn [h_eq h_get]. apply (im_eq_spec _ _ _ ks (U_good hashf probe PR ks U)); assumption.
  Qed.
  Lemma eq_refl_id a b : kid a = kid b -> keq hashf probe false a b = true.
  Proof using. intros H. destruct a; cbn [keq]; rewrite H, Z.eqb_refl; reflexivity. Qed.
  (* the same content in any order of insertion *)
  Lemma h_eq_content ks a b : usable ks -> built_map ks a -> built_map ks b ->
    (forall k, ks k -> h_get hashf probe a k = h_get hashf probe b k) -> h_eq hashf probe a b = true.
  Proof using PR.
    intros U Ba Bb H. apply (h_eq_ok ks a b U Ba Bb). intros k Hk. rewrite (H k Hk). destruct (h_get _ _ b k); [|exact I]. apply eq_refl_id. reflexivity.
  Qed.
  Lemma h_eq_keys ks a b : usable ks -> built_map ks a -> built_map ks b -> h_eq hashf probe a b = true ->
    forall k, ks k -> (exists v, h_get hashf probe a k = Some v) <-> (exists v, h_get hashf probe b k = Some v).
  Proof using PR.
    intros U Ba Bb H k Hk. pose proof (proj1 (h_eq_ok ks a b U Ba Bb) H k Hk) as E.
    destruct (h_get _ _ a k), (h_get _ _ b k); try contradiction; split; intros (v & E'); eauto; discriminate.
  Qed.
  (* ---- compare_by_identity ---- *)
  Lemma by_identity_ok ks h : usable ks -> built_map ks h ->
    h_by_identity hashf probe h = HIdent (entries h) /\
    (forall k v, ks k -> h_get hashf probe (h_by_identity hashf probe h) k = Some v <->
       exists k', In (k', v) (entries h) /\ same_id k' k).
  Proof using PR.
    intros U B. destruct (built_map_distinct ks h U B) as (l & -> & D). cbn [entries h_by_identity].
    assert (G : good_keys (ihash hashf) ieqb probe ks) by (apply ident_good; exact PR).
    assert (D' : distinct ieqb ks l).
    { destruct D as [D1 D2]. split; [exact D1|]. rewrite Forall_forall in D1. clear B.
      induction D2 as [|e l Hf _ IH]; constructor.
      - rewrite Forall_forall in *. intros e' He'. specialize (Hf e' He'). unfold ieqb. destruct (Z.eqb_spec (kid (fst e)) (kid (fst e'))) as [E|]; [|reflexivity].
        destruct U as [OH _]. rewrite (OH (fst e) (fst e') (fst e) (fst e')) in Hf; auto using sub_refl, in_eq, in_cons. rewrite eql_refl in Hf. discriminate.
      - apply IH. intros x Hx. apply D1. right. exact Hx. }
    assert (E : im_collect (ihash hashf) ieqb probe l = l) by (apply (collect_distinct _ _ _ ks G l []); exact D').
    rewrite E. split; [reflexivity|]. intros k v Hk. cbn [h_get]. rewrite (get_Some _ _ _ ks G) by assumption.
    split; intros (k' & H1 & H2); exists k'; (split; [exact H1|]).
    - apply ieqb_R in H2. unfold same_id in *. congruence.
    - apply ieqb_R. unfold same_id in *. congruence.
  Qed.
End Methods.
