(* Properties of hashes and symbols: C19-C21, C64-C68. *)
From Verif Require Import Base ProofsBase ModelArray ProofsArray ModelValue ModelFloat ModelString ProofsString ModelHash ProofsHash
  ProofsHash2 ProofsHash3 ProofsHash4 ModelIdent ProofsIdent.
From Coq Require Import SpecFloat String List.

(* Throughout: hashf is the hasher, probe h h' says that looking for code h
   passes the slot of a key with code h'. Keys are compared by content (same:
   structural equality ignoring addresses, NaN only equal to itself); usable
   ks: the keys contain no hash and come from one heap. *)

(* ---- C19: a hash is a finite map ---- *)
(* live same os k v: some []= stored v under a key equal to k and no later
   command touched that key. *)
Theorem C19_lookup : forall (hashf : list Z -> Z) (probe : Z -> Z -> bool), (forall h, probe h h = true) ->
  forall (ks : kv -> Prop), usable ks -> forall (os : list hop) (k v : kv), cmds_in ks os -> ks k ->
  h_get hashf probe (h_run hashf probe (HMap []) os) k = Some v <-> live same os k v.
Proof. exact (fun hf p PR ks U os k v H Hk => map_lookup hf p PR ks U os k v H Hk). Qed.
Print Assumptions C19_lookup.
Theorem C19_keys : forall (hashf : list Z -> Z) (probe : Z -> Z -> bool), (forall h, probe h h = true) ->
  forall (ks : kv -> Prop), usable ks -> forall os : list hop, cmds_in ks os ->
  let h := h_run hashf probe (HMap []) os in
  (forall k, ks k -> (exists v, live same os k v) <-> exists k', In k' (h_keys h) /\ same k' k) /\
  ForallOrdPairs (fun a b => ~ same a b) (h_keys h) /\
  h_len h = zlen (h_keys h) /\
  (forall k v, In (k, v) (entries h) -> ks k /\ live same os k v).
Proof. exact (fun hf p PR ks U os H => map_keys hf p PR ks U os H). Qed.
Print Assumptions C19_keys.
(* Missing for the full statement: the order after a deletion, see below. *)
Theorem C19_order_partial : forall (hashf : list Z -> Z) (probe : Z -> Z -> bool), (forall h, probe h h = true) ->
  forall (ks : kv -> Prop) (dec : kv -> kv -> bool) (kvs : list (kv * kv)), usable ks ->
  (forall a b, ks a -> ks b -> dec a b = true <-> same a b) -> Forall (fun e => ks (fst e)) kvs ->
  h_keys (h_run hashf probe (HMap []) (sets kvs)) = firsts dec [] (map fst kvs).
Proof. exact (fun hf p PR ks dec kvs => map_order hf p PR ks dec kvs). Qed.
Print Assumptions C19_order_partial.
(* what delete does to the order: the last entry takes the place of the deleted one *)
Theorem C19_delete_order : forall (hashf : list Z -> Z) (probe : Z -> Z -> bool), (forall h, probe h h = true) ->
  forall (ks : kv -> Prop) (os : list hop) (k : kv) a k' v b, usable ks -> cmds_in ks os -> ks k ->
  entries (h_run hashf probe (HMap []) os) = a ++ (k', v) :: b -> same k k' ->
  entries (h_run hashf probe (HMap []) (os ++ [HDel k])) =
    a ++ match b with [] => [] | _ => last b (k', v) :: removelast b end.
Proof. exact (fun hf p PR ks os k a k' v b => map_delete hf p PR ks os k a k' v b). Qed.
Print Assumptions C19_delete_order.
(* h = {1=>1, 2=>1, 3=>1}; h.delete(1); h.keys is [3, 2] *)
Definition i3 (n : Z) : kv := KImm (n * 2 + 1).
Theorem C19_order_refuted : forall (hashf : list Z -> Z) (probe : Z -> Z -> bool), (forall h, probe h h = true) ->
  exists a b c v : kv, ~ same b c /\
  h_keys (h_run hashf probe (HMap []) [HSet a v; HSet b v; HSet c v]) = [a; b; c] /\
  h_keys (h_run hashf probe (HMap []) [HSet a v; HSet b v; HSet c v; HDel a]) = [c; b].
Proof.
  intros hf p PR. exists (i3 1), (i3 2), (i3 3), (i3 1). split; [discriminate|].
  unfold h_run, h_step, h_keys, h_insert, h_remove, im_insert, im_remove, hit, khash. cbn.
  rewrite ?PR, ?andb_false_r. cbn. rewrite ?PR, ?andb_false_r. cbn. rewrite ?PR, ?andb_false_r. cbn. auto.
Qed.
Print Assumptions C19_order_refuted.
(* after compare_by_identity: the same with object identity *)
Theorem C19_identity : forall (hashf : list Z -> Z) (probe : Z -> Z -> bool), (forall h, probe h h = true) ->
  forall (ks : kv -> Prop) (os : list hop), cmds_in ks os ->
  let h := h_run hashf probe (HIdent []) os in
  (forall k v, ks k -> h_get hashf probe h k = Some v <-> live same_id os k v) /\
  (forall k, ks k -> (exists v, live same_id os k v) <-> exists k', In k' (h_keys h) /\ same_id k' k) /\
  ForallOrdPairs (fun a b => ~ same_id a b) (h_keys h) /\
  h_len h = zlen (h_keys h) /\
  (forall k v, In (k, v) (entries h) -> ks k /\ live same_id os k v).
Proof. exact (fun hf p PR ks os H => conj (fun k v => ident_lookup hf p PR ks os k v H) (ident_keys hf p PR ks os H)). Qed.
Print Assumptions C19_identity.

(* Two string keys with the same content at different addresses, an integer and a bignum. *)
Definition s1 : kv := KStr 0x1000 (SmallStr [97; 98]).
Definition s2 : kv := KStr 0x2000 (SmallStr [97; 98]).
Definition b1 : kv := KBig 0x3000 (2 ^ 70).
Definition ary1 : kv := KArr 0x4000 [s1; i3 5].
Definition ary2 : kv := KArr 0x5000 [s2; i3 5].
Definition exks (a : kv) : Prop := In a [s1; s2; b1; ary1; ary2; i3 5].
Lemma exks_usable : usable exks.
Proof.
  split.
  - intros a b x y Hx Hy Sa Sb E.
    assert (HS : forall a x, exks x -> sub a x -> In a [s1; s2; b1; ary1; ary2; i3 5]).
    { clear. intros a x Hx S. cbn in Hx.
      assert (D : forall a x, sub a x -> a = x \/ (exists i l z, x = KArr i l /\ In z l /\ sub a z) \/ (exists i s e b, x = KRange i s e b) \/ exists i l, x = KHash i l).
      { clear. intros a x S. inversion S; subst; eauto 10. }
      assert (L : forall z a, In z [s1; s2; i3 5] -> sub a z -> a = z).
      { clear - D. intros z a Hz S. apply D in S. destruct S as [S|[(i & l & w & E & _)|[(i & s & e & b & E)|(i & l & E)]]]; [exact S| | |];
          cbn in Hz; destruct Hz as [<-|[<-|[<-|[]]]]; discriminate. }
      cbn. pose proof (D a x S) as [E|[(i & l & z & E & Hz & Sz)|[(i & s & e & b & E)|(i & l & E)]]].
      - subst. exact Hx.
      - destruct Hx as [<-|[<-|[<-|[<-|[<-|[<-|[]]]]]]]; try discriminate; injection E as <- <-; cbn in Hz;
          apply L in Sz; try (cbn; tauto); subst; destruct Hz as [<-|[<-|[]]]; tauto.
      - destruct Hx as [<-|[<-|[<-|[<-|[<-|[<-|[]]]]]]]; discriminate.
      - destruct Hx as [<-|[<-|[<-|[<-|[<-|[<-|[]]]]]]]; discriminate. }
    apply HS in Sa, Sb; try assumption. cbn in Sa, Sb.
    destruct Sa as [<-|[<-|[<-|[<-|[<-|[<-|[]]]]]]], Sb as [<-|[<-|[<-|[<-|[<-|[<-|[]]]]]]]; try reflexivity; discriminate.
  - intros a Ha. cbn in Ha. destruct Ha as [<-|[<-|[<-|[<-|[<-|[<-|[]]]]]]]; reflexivity.
Qed.
Definition fsum (l : list Z) : Z := fold_left Z.add l 0.
Example C19_ex : usable exks /\ cmds_in exks [HSet ary1 b1; HSet (i3 5) s1; HDel s1; HSet ary2 s2] /\
  h_get fsum Z.eqb (h_run fsum Z.eqb (HMap []) [HSet ary1 b1; HSet (i3 5) s1; HDel s1; HSet ary2 s2]) ary1 = Some s2 /\
  h_keys (h_run fsum Z.eqb (HMap []) [HSet ary1 b1; HSet (i3 5) s1; HDel s1; HSet ary2 s2]) = [ary1; i3 5] /\
  h_get fsum Z.eqb (h_run fsum Z.eqb (HIdent []) [HSet s1 b1; HSet s2 ary1]) s1 = Some b1.
Proof. split; [exact exks_usable|]. split; [repeat constructor; cbn; tauto|]. repeat split; reflexivity. Qed.

(* ---- C20: key equality and hash codes ---- *)
Lemma keys_equiv hashf probe (ks : kv -> Prop) : usable ks ->
  (forall a, keq hashf probe true a a = true) /\
  (forall a b, ks a -> ks b -> keq hashf probe true a b = keq hashf probe true b a) /\
  (forall a b c, ks a -> ks b -> ks c -> keq hashf probe true a b = true -> keq hashf probe true b c = true -> keq hashf probe true a c = true) /\
  (forall a b, ks a -> ks b -> keq hashf probe true a b = true -> khash hashf a = khash hashf b) /\
  (forall a b, ks a -> ks b -> keq hashf probe true a b = true <-> same a b).
Proof.
  intros U. pose proof (U_R hashf probe ks U) as UR. destruct U as [OH HP].
  split; [apply eql_refl|]. split; [|split; [|split; [|exact UR]]].
  - intros a b Ha Hb. destruct (keq hashf probe true a b) eqn:E1, (keq hashf probe true b a) eqn:E2; try reflexivity.
    + apply UR in E1; auto. apply same_sym in E1. apply UR in E1; auto. congruence.
    + apply UR in E2; auto. apply same_sym in E2. apply UR in E2; auto. congruence.
  - intros a b c Ha Hb Hc H1 H2. apply UR; auto. apply UR in H1, H2; auto. exact (same_trans a b c H1 H2).
  - intros a b Ha Hb H. apply UR in H; auto. unfold khash. rewrite (same_feed a b H). reflexivity.
Qed.
Theorem C20_key_equality : forall (hashf : list Z -> Z) (probe : Z -> Z -> bool) (ks : kv -> Prop), usable ks ->
  (forall a, keq hashf probe true a a = true) /\
  (forall a b, ks a -> ks b -> keq hashf probe true a b = keq hashf probe true b a) /\
  (forall a b c, ks a -> ks b -> ks c -> keq hashf probe true a b = true -> keq hashf probe true b c = true -> keq hashf probe true a c = true) /\
  (forall a b, ks a -> ks b -> keq hashf probe true a b = true -> khash hashf a = khash hashf b) /\
  (forall a b, ks a -> ks b -> keq hashf probe true a b = true <-> same a b).
Proof. exact keys_equiv. Qed.
Print Assumptions C20_key_equality.
(* Hashes as keys: {1=>1,2=>1} and {2=>1,1=>1} are eql? but feed the hasher
   differently, so an entry stored under one is not found under the other. *)
Definition hk1 : kv := KHash 0x6000 [(i3 1, i3 1); (i3 2, i3 1)].
Definition hk2 : kv := KHash 0x7000 [(i3 2, i3 1); (i3 1, i3 1)].
Lemma hash_key_lost_proof : exists a b : kv,
  (forall hashf probe, (forall h, probe h h = true) -> keq hashf probe true a b = true) /\
  (forall hashf : list Z -> Z, (forall l r, hashf l = hashf r -> l = r) ->
     h_get hashf Z.eqb (h_run hashf Z.eqb (HMap []) [HSet a (i3 1)]) b = None).
Proof.
  exists hk1, hk2. split.
  - intros hf p PR. cbn. rewrite ?PR, ?andb_false_r. cbn. rewrite ?PR, ?andb_false_r. cbn. reflexivity.
  - intros hf INJ. unfold h_run, h_step, h_get, h_insert, im_insert. cbn [fold_left im_get]. unfold hit at 1.
    destruct (Z.eqb_spec (khash hf hk2) (khash hf hk1)) as [E|]; [|reflexivity]. apply INJ in E. discriminate.
Qed.
Theorem C20_hash_key_refuted : exists a b : kv,
  (forall hashf probe, (forall h, probe h h = true) -> keq hashf probe true a b = true) /\
  (forall hashf : list Z -> Z, (forall l r, hashf l = hashf r -> l = r) ->
     h_get hashf Z.eqb (h_run hashf Z.eqb (HMap []) [HSet a (i3 1)]) b = None).
Proof. exact hash_key_lost_proof. Qed.
Print Assumptions C20_hash_key_refuted.
(* {1=>2**53+1}, {1=>2.0**53}, {1=>2**53}: eql? is not transitive on hashes *)
Definition fl53 : Z := match float 4845873199050653696 with Imm w => w | Heap _ => 0 end.
Lemma hash_trans_proof : exists a b c : kv, forall hashf probe, (forall h, probe h h = true) ->
  keq hashf probe true a b = true /\ keq hashf probe true b c = true /\ keq hashf probe true a c = false.
Proof.
  exists (KHash 0x6000 [(i3 1, i3 (2 ^ 53 + 1))]), (KHash 0x7000 [(i3 1, KImm fl53)]), (KHash 0x8000 [(i3 1, i3 (2 ^ 53))]).
  intros hf p PR.
  assert (E1 : keq hf p false (i3 (2 ^ 53 + 1)) (KImm fl53) = true) by (vm_compute; reflexivity).
  assert (E2 : keq hf p false (KImm fl53) (i3 (2 ^ 53)) = true) by (vm_compute; reflexivity).
  assert (E3 : keq hf p false (i3 (2 ^ 53 + 1)) (i3 (2 ^ 53)) = false) by (vm_compute; reflexivity).
  assert (HH : forall i j v w, i <> j -> keq hf p true (KHash i [(i3 1, v)]) (KHash j [(i3 1, w)]) = keq hf p false v w).
  { intros i j v w Hij. cbn [keq kid i3]. rewrite (proj2 (Z.eqb_neq _ _) Hij), PR, Z.eqb_refl. cbn [andb].
    change (zlen [_] =? zlen [_]) with true. cbn [andb]. rewrite andb_true_r. reflexivity. }
  rewrite !HH by discriminate. auto.
Qed.
Theorem C20_transitivity_refuted : exists a b c : kv, forall hashf probe, (forall h, probe h h = true) ->
  keq hashf probe true a b = true /\ keq hashf probe true b c = true /\ keq hashf probe true a c = false.
Proof. exact hash_trans_proof. Qed.
Print Assumptions C20_transitivity_refuted.
Example C20_ex : usable exks /\ exks ary1 /\ exks ary2 /\ keq fsum Z.eqb true ary1 ary2 = true /\ keq fsum Z.eqb true ary1 s1 = false.
Proof. split; [exact exks_usable|]. cbn. intuition. Qed.

(* ---- C21: symbols ---- *)
Theorem C21_interning : forall ns : list string, zlen ns + 40 < 2 ^ 32 ->
  exists ids t, intern_all ns idtab_new = Ok (ids, t) /\
  length ids = length ns /\
  (forall i j n m x y, nth_error ns i = Some n -> nth_error ns j = Some m -> nth_error ids i = Some x -> nth_error ids j = Some y ->
     (x = y <-> n = m)) /\
  (forall i n x, nth_error ns i = Some n -> nth_error ids i = Some x -> ident_name t x = Ok n) /\
  (forall i n c, nth_error ns i = Some n -> In (n, c) presets -> nth_error ids i = Some c).
Proof. exact intern_spec. Qed.
Print Assumptions C21_interning.
Lemma stable_proof : forall (before after : list string) ids1 t1 ids2 t2, zlen before + zlen after + 40 < 2 ^ 32 ->
  intern_all before idtab_new = Ok (ids1, t1) -> intern_all after t1 = Ok (ids2, t2) ->
  forall x n, ident_name t1 x = Ok n -> ident_name t2 x = Ok n.
Proof.
  intros before after ids1 t1 ids2 t2 HB H1 H2 x n. pose proof (zlen_nonneg before). pose proof (zlen_nonneg after).
  destruct (intern_all_ok before idtab_new idt_new_inv) as (ids & t & E & I & _ & _ & L).
  { change (zlen (table idtab_new)) with 40. lia. }
  rewrite H1 in E. injection E as <- <-. change (zlen (table idtab_new)) with 40 in L.
  apply (name_stable after t1 t2 ids2 x n I); [lia|exact H2].
Qed.
Theorem C21_names_stable : forall (before after : list string) ids1 t1 ids2 t2, zlen before + zlen after + 40 < 2 ^ 32 ->
  intern_all before idtab_new = Ok (ids1, t1) -> intern_all after t1 = Ok (ids2, t2) ->
  forall x n, ident_name t1 x = Ok n -> ident_name t2 x = Ok n.
Proof. exact stable_proof. Qed.
Print Assumptions C21_names_stable.
Example C21_ex : exists t, intern_all ["foo"; "each"; ""; "foo"; "<null>"]%string idtab_new = Ok ([40; 27; 41; 40; 42], t).
Proof. eexists. vm_compute. reflexivity. Qed.

(* ---- C64: select, reject, compact ---- *)
Theorem C64_select_reject : forall (hashf : list Z -> Z) (probe : Z -> Z -> bool), (forall h, probe h h = true) ->
  forall (ks : kv -> Prop) (f : kv -> kv -> bool) (h : hinfo), usable ks -> built_map hashf probe ks h ->
  h_select hashf probe (fun k v => Ok (f k v)) h = Ok (HMap (filter (fun e => f (fst e) (snd e)) (entries h))) /\
  h_reject hashf probe (fun k v => Ok (f k v)) h = Ok (HMap (filter (fun e => negb (f (fst e) (snd e))) (entries h))).
Proof. exact (fun hf p PR ks f h => select_ok hf p PR ks f h). Qed.
Print Assumptions C64_select_reject.
Theorem C64_block_raises : forall (hashf : list Z -> Z) (probe : Z -> Z -> bool) (f : kv -> kv -> res bool) (h : hinfo) pre k v post e,
  entries h = pre ++ (k, v) :: post -> (forall k' v', In (k', v') pre -> exists b, f k' v' = Ok b) -> f k v = Err e ->
  h_select hashf probe f h = Err e /\ h_reject hashf probe f h = Err e.
Proof. exact (fun hf p f h pre k v post e => select_err hf p f h pre k v post e). Qed.
Print Assumptions C64_block_raises.
Theorem C64_compact : forall (hashf : list Z -> Z) (probe : Z -> Z -> bool), (forall h, probe h h = true) ->
  forall (ks : kv -> Prop) (is_nil : kv -> bool) (h : hinfo) (k v : kv), usable ks -> built_map hashf probe ks h -> ks k ->
  h_get hashf probe (h_compact is_nil h) k = Some v <-> h_get hashf probe h k = Some v /\ is_nil v = false.
Proof. exact (fun hf p PR ks n h k v => compact_ok hf p PR ks n h k v). Qed.
Print Assumptions C64_compact.
(* on an identity hash, select { true } collapses keys that are eql *)
Theorem C64_identity_refuted : forall (hashf : list Z -> Z) (probe : Z -> Z -> bool), (forall h, probe h h = true) ->
  exists (a b v : kv) h', h_len (h_run hashf probe (HIdent []) [HSet a v; HSet b v]) = 2 /\
  h_select hashf probe (fun _ _ => Ok true) (h_run hashf probe (HIdent []) [HSet a v; HSet b v]) = Ok h' /\ h_len h' = 1.
Proof.
  intros hf p PR. exists s1, s2, (i3 1). unfold h_run, h_step, h_insert. cbn [fold_left im_insert]. unfold hit.
  change (ieqb s2 s1) with false. rewrite andb_false_r. unfold h_select. cbn [entries sel_loop rbind Bool.eqb im_insert]. unfold hit.
  change (khash hf s2) with (khash hf s1). rewrite PR. change (keq hf p true s2 s1) with true. cbn [andb].
  eexists. repeat split; reflexivity.
Qed.
Print Assumptions C64_identity_refuted.
Lemma ex_built : built_map fsum Z.eqb exks (h_run fsum Z.eqb (HMap []) [HSet ary1 b1; HSet (i3 5) s1]).
Proof. eexists. split; [|reflexivity]. repeat constructor; cbn; tauto. Qed.
Example C64_ex : built_map fsum Z.eqb exks (h_run fsum Z.eqb (HMap []) [HSet ary1 b1; HSet (i3 5) s1]) /\
  h_select fsum Z.eqb (fun k v => Ok (kid k <? 100)) (h_run fsum Z.eqb (HMap []) [HSet ary1 b1; HSet (i3 5) s1]) = Ok (HMap [(i3 5, s1)]).
Proof. split; [exact ex_built|reflexivity]. Qed.

(* ---- C65: merge ---- *)
(* last_for same l k v: the last pair of l whose key equals k carries v *)
Theorem C65_merge : forall (hashf : list Z -> Z) (probe : Z -> Z -> bool), (forall h, probe h h = true) ->
  forall (ks : kv -> Prop) (h : hinfo) (others : list hinfo) (dec : kv -> kv -> bool), usable ks -> built_map hashf probe ks h ->
  Forall (fun o => Forall (fun e => ks (fst e)) (entries o)) others ->
  (forall a b, ks a -> ks b -> dec a b = true <-> same a b) ->
  (forall k v, ks k -> h_get hashf probe (h_merge hashf probe h others) k = Some v <->
    last_for same (entries h ++ concat (map entries others)) k v) /\
  h_keys (h_merge hashf probe h others) = firsts dec [] (h_keys h ++ concat (map h_keys others)).
Proof. exact (fun hf p PR ks h o dec => merge_all hf p PR ks h o dec). Qed.
Print Assumptions C65_merge.
Example C65_ex :
  h_merge fsum Z.eqb (HMap [(ary1, b1); (i3 5, s1)]) [HMap [(s2, s2)]; HMap [(ary2, s2)]] = HMap [(ary1, s2); (i3 5, s1); (s2, s2)].
Proof. reflexivity. Qed.

(* ---- C66: invert ---- *)
Theorem C66_invert : forall (hashf : list Z -> Z) (probe : Z -> Z -> bool), (forall h, probe h h = true) ->
  forall (ks : kv -> Prop) (h : hinfo) (dec : kv -> kv -> bool), usable ks -> Forall (fun e => ks (snd e)) (entries h) ->
  (forall a b, ks a -> ks b -> dec a b = true <-> same a b) ->
  (forall x k, ks x -> h_get hashf probe (h_invert hashf probe h) x = Some k <->
    last_for same (map (fun e => (snd e, fst e)) (entries h)) x k) /\
  h_keys (h_invert hashf probe h) = firsts dec [] (h_values h).
Proof. exact (fun hf p PR ks h dec => invert_all hf p PR ks h dec). Qed.
Print Assumptions C66_invert.
Example C66_ex : h_invert fsum Z.eqb (HMap [(i3 1, s1); (i3 2, b1); (i3 3, s2)]) = HMap [(s1, i3 3); (b1, i3 2)].
Proof. reflexivity. Qed.

(* ---- C67: equality of hashes ---- *)
Theorem C67_equality : forall (hashf : list Z -> Z) (probe : Z -> Z -> bool), (forall h, probe h h = true) ->
  forall (ks : kv -> Prop) (a b : hinfo), usable ks -> built_map hashf probe ks a -> built_map hashf probe ks b ->
  (h_eq hashf probe a b = true <->
    (forall k, ks k -> match h_get hashf probe a k, h_get hashf probe b k with
                       | Some v, Some w => keq hashf probe false v w = true
                       | None, None => True
                       | _, _ => False
                       end)) /\
  ((forall k, ks k -> h_get hashf probe a k = h_get hashf probe b k) -> h_eq hashf probe a b = true) /\
  (h_eq hashf probe a b = true ->
    forall k, ks k -> (exists v, h_get hashf probe a k = Some v) <-> (exists v, h_get hashf probe b k = Some v)).
Proof. exact (fun hf p PR ks a b U Ba Bb => conj (h_eq_ok hf p PR ks a b U Ba Bb) (conj (h_eq_content hf p PR ks a b U Ba Bb) (h_eq_keys hf p PR ks a b U Ba Bb))). Qed.
Print Assumptions C67_equality.
Example C67_ex : h_eq fsum Z.eqb (HMap [(ary1, b1); (i3 5, s1)]) (HMap [(i3 5, s2); (ary2, b1)]) = true /\
  h_eq fsum Z.eqb (HMap [(ary1, b1); (i3 5, s1)]) (HMap [(i3 5, s2); (s1, b1)]) = false.
Proof. split; reflexivity. Qed.

(* ---- C68: compare_by_identity ---- *)
Theorem C68_compare_by_identity : forall (hashf : list Z -> Z) (probe : Z -> Z -> bool), (forall h, probe h h = true) ->
  forall (ks : kv -> Prop) (h : hinfo), usable ks -> built_map hashf probe ks h ->
  h_by_identity hashf probe h = HIdent (entries h) /\
  (forall k v, ks k -> h_get hashf probe (h_by_identity hashf probe h) k = Some v <->
     exists k', In (k', v) (entries h) /\ same_id k' k).
Proof. exact (fun hf p PR ks h => by_identity_ok hf p PR ks h). Qed.
Print Assumptions C68_compare_by_identity.
Example C68_ex : h_by_identity fsum Z.eqb (h_run fsum Z.eqb (HMap []) [HSet ary1 b1; HSet (i3 5) s1]) = HIdent [(ary1, b1); (i3 5, s1)].
Proof. reflexivity. Qed.
