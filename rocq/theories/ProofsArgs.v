(* Lemmas about parameter slots and argument binding. *)
From Verif Require Import Base ModelValue ModelArray ModelArgs SpecArgs ProofsBase ProofsArray.

(* ---- slots of names ---- *)
Fixpoint zseq (a : Z) (n : nat) : list Z := match n with O => [] | S n => a :: zseq (a + 1) n end.
Lemma zseq_length n : forall a, length (zseq a n) = n.
Proof. induction n; intros a; cbn; [reflexivity|]. rewrite IHn. reflexivity. Qed.
Lemma zseq_nth n : forall a i, (i < n)%nat -> nth_error (zseq a n) i = Some (a + Z.of_nat i).
Proof.
  induction n as [|n IH]; intros a i H; [lia|]. destruct i as [|i]; cbn [zseq nth_error].
  - f_equal. lia.
  - rewrite IH by lia. f_equal. lia.
Qed.

Lemma pos_from_none x : forall l i, ~ In x l -> pos_from i x l = None.
Proof.
  induction l as [|y l IH]; intros i H; [reflexivity|]. cbn [pos_from].
  destruct (Z.eqb_spec x y) as [->|E]; [exfalso; apply H; left; reflexivity|].
  apply IH. intros Hin. apply H. right. exact Hin.
Qed.
Lemma pos_from_in x : forall l i k, nth_error l k = Some x -> NoDup l -> pos_from i x l = Some (i + Z.of_nat k).
Proof.
  induction l as [|y l IH]; intros i k H Hn; [destruct k; discriminate|].
  inversion Hn as [|? ? Hy Hl]; subst. destruct k as [|k]; cbn [nth_error pos_from] in *.
  - injection H as ->. rewrite Z.eqb_refl. f_equal. lia.
  - destruct (Z.eqb_spec x y) as [->|E]; [exfalso; apply Hy; eapply nth_error_In; eassumption|].
    rewrite (IH (i + 1) k H Hl). f_equal. lia.
Qed.
Lemma lvarid_nth l k x : nth_error l k = Some x -> NoDup l -> get_lvarid l x = Some (Z.of_nat k).
Proof. intros H Hn. unfold get_lvarid. rewrite (pos_from_in x l 0 k H Hn). f_equal. Qed.

(* ---- parsing a parameter list ---- *)
Definition with_table (c : collector) (t : list Z) : collector :=
  {| lc_table := t; lc_kw := lc_kw c; lc_kwrest := lc_kwrest c; lc_block := lc_block c; lc_delegate := lc_delegate c |}.
Lemma insert_new_fresh c x : ~ In x (lc_table c) ->
  insert_new c x = Some (with_table c (lc_table c ++ [x]), zlen (lc_table c)).
Proof. intros H. unfold insert_new, get_lvarid. rewrite pos_from_none by exact H. reflexivity. Qed.
Lemma nodup_app_notin {A} (l l' : list A) x : NoDup (l ++ x :: l') -> ~ In x l.
Proof. intros H Hi. apply NoDup_remove_2 in H. apply H. apply in_or_app. left. exact Hi. Qed.
Lemma nodup_app_l {A} (l l' : list A) : NoDup (l ++ l') -> NoDup l.
Proof.
  induction l as [|x l IH]; intros H; [constructor|]. inversion H as [|? ? Hx Hl]; subst. constructor.
  - intros Hi. apply Hx. apply in_or_app. left. exact Hi.
  - apply IH. exact Hl.
Qed.
Lemma nodup_app_r {A} (l l' : list A) : NoDup (l ++ l') -> NoDup l'.
Proof. induction l as [|x l IH]; intros H; [exact H|]. inversion H; subst. auto. Qed.

Definition plain_kind (k : pkind) : Prop := k = PReq \/ k = POpt \/ k = PPost \/ k = PRest.
Lemma parse_plain k : plain_kind k -> forall xs c ps, NoDup (lc_table c ++ xs) ->
  parse_params c (map (Build_fparam k) xs ++ ps) = parse_params (with_table c (lc_table c ++ xs)) ps.
Proof.
  intros Hk. induction xs as [|x xs IH]; intros c ps Hn.
  - cbn [map app]. rewrite app_nil_r. destruct c; reflexivity.
  - cbn [map app parse_params].
    assert (E : parse_param c (Build_fparam k x) = Some (with_table c (lc_table c ++ [x]))).
    { assert (Ei := insert_new_fresh c x (nodup_app_notin _ _ _ Hn)).
      unfold parse_param; destruct Hk as [->|[->|[->| ->]]]; cbn [fp_kind fp_name]; rewrite Ei; reflexivity. }
    rewrite E. rewrite IH by (cbn; rewrite <- app_assoc; exact Hn).
    cbn [with_table lc_table]. f_equal. unfold with_table; cbn. rewrite <- app_assoc. reflexivity.
Qed.
Lemma parse_keys : forall ks c ps, NoDup (lc_table c ++ map fst ks) ->
  parse_params c (map (fun kd => Build_fparam (PKey (snd kd)) (fst kd)) ks ++ ps) =
  parse_params {| lc_table := lc_table c ++ map fst ks; lc_kw := lc_kw c ++ zseq (zlen (lc_table c)) (length ks);
                  lc_kwrest := lc_kwrest c; lc_block := lc_block c; lc_delegate := lc_delegate c |} ps.
Proof.
  induction ks as [|[x d] ks IH]; intros c ps Hn.
  - cbn. rewrite !app_nil_r. destruct c; reflexivity.
  - cbn [map app parse_params fst snd length zseq] in *. unfold parse_param at 1. cbn [fp_kind fp_name].
    rewrite (insert_new_fresh c x (nodup_app_notin _ _ _ Hn)). rewrite IH by (cbn; rewrite <- app_assoc; exact Hn).
    cbn [lc_table lc_kw lc_kwrest lc_block lc_delegate with_table]. f_equal. f_equal.
    + rewrite <- app_assoc. reflexivity.
    + rewrite <- app_assoc. cbn [app]. do 3 f_equal. rewrite zlen_app, zlen_cons. cbn. lia.
Qed.
Lemma parse_kwrest o c ps : NoDup (lc_table c ++ opt_list o) -> lc_kwrest c = None ->
  parse_params c (map (Build_fparam PKwrest) (opt_list o) ++ ps) =
  parse_params {| lc_table := lc_table c ++ opt_list o; lc_kw := lc_kw c;
                  lc_kwrest := match o with Some _ => Some (zlen (lc_table c)) | None => None end;
                  lc_block := lc_block c; lc_delegate := lc_delegate c |} ps.
Proof.
  intros Hn Hk. destruct o as [x|]; cbn [opt_list map app parse_params] in *.
  - unfold parse_param. cbn [fp_kind fp_name]. rewrite (insert_new_fresh c x (nodup_app_notin _ _ _ Hn)). reflexivity.
  - rewrite app_nil_r. destruct c; cbn in *. rewrite Hk. reflexivity.
Qed.
Lemma parse_block o c ps : NoDup (lc_table c ++ opt_list o) -> lc_block c = None ->
  parse_params c (map (Build_fparam PBlock) (opt_list o) ++ ps) =
  parse_params {| lc_table := lc_table c ++ opt_list o; lc_kw := lc_kw c; lc_kwrest := lc_kwrest c;
                  lc_block := match o with Some _ => Some (zlen (lc_table c)) | None => None end;
                  lc_delegate := lc_delegate c |} ps.
Proof.
  intros Hn Hk. destruct o as [x|]; cbn [opt_list map app parse_params] in *.
  - unfold parse_param. cbn [fp_kind fp_name]. rewrite (insert_new_fresh c x (nodup_app_notin _ _ _ Hn)). reflexivity.
  - rewrite app_nil_r. destruct c; cbn in *. rewrite Hk. reflexivity.
Qed.

(* numbers of slots *)
Definition npos (s : sig) : Z := zlen (s_req s) + zlen (s_opt s) + zlen (rest_name s) + zlen (s_post s).
Definition slots (s : sig) : collector :=
  {| lc_table := names s;
     lc_kw := zseq (npos s) (length (s_key s));
     lc_kwrest := match s_kwrest s with Some _ => Some (npos s + zlen (s_key s)) | None => None end;
     lc_block := match s_block s with
                 | Some _ => Some (npos s + zlen (s_key s) + zlen (opt_list (s_kwrest s))) | None => None end;
     lc_delegate := None |}.
Lemma zlen_map {A B} (f : A -> B) l : zlen (map f l) = zlen l.
Proof. unfold zlen. rewrite map_length. reflexivity. Qed.
Lemma parse_sig s : NoDup (names s) -> parse_params lc_empty (formals s) = Some (slots s).
Proof.
  intros Hn. unfold formals. unfold names in Hn. rewrite !app_assoc in Hn.
  assert (N6 := nodup_app_l _ _ Hn). assert (N5 := nodup_app_l _ _ N6). assert (N4 := nodup_app_l _ _ N5).
  assert (N3 := nodup_app_l _ _ N4). assert (N2 := nodup_app_l _ _ N3).
  rewrite parse_plain; [|left; reflexivity|cbn; exact (nodup_app_l _ _ N2)]. cbn [lc_table lc_empty app].
  rewrite parse_plain; [|right; left; reflexivity|cbn; exact N2]. cbn [lc_table with_table].
  assert (Er : forall c ps, lc_table c = s_req s ++ s_opt s ->
     parse_params c ((match s_rest s with None => [] | Some None => [Build_fparam PRestDiscard 0]
                      | Some (Some x) => [Build_fparam PRest x] end) ++ ps) =
     parse_params (with_table c (lc_table c ++ rest_name s)) ps).
  { intros c ps Ec. unfold rest_name in *. destruct (s_rest s) as [[x|]|].
    - change [Build_fparam PRest x] with (map (Build_fparam PRest) [x]).
      rewrite parse_plain; [reflexivity|right; right; right; reflexivity|rewrite Ec; exact N3].
    - cbn [app parse_params]. unfold parse_param. cbn [fp_kind]. rewrite app_nil_r. destruct c; reflexivity.
    - cbn [app]. rewrite app_nil_r. destruct c; reflexivity. }
  rewrite Er by reflexivity. cbn [lc_table with_table].
  rewrite parse_plain; [|right; right; left; reflexivity|cbn; rewrite <- !app_assoc in *; exact N4]. cbn [lc_table with_table].
  rewrite parse_keys by (cbn; rewrite <- !app_assoc in *; exact N5). cbn [lc_table lc_kw with_table lc_empty app lc_kwrest lc_block lc_delegate].
  rewrite parse_kwrest; [|cbn; rewrite <- !app_assoc in *; exact N6|reflexivity]. cbn [lc_table lc_kw lc_kwrest lc_block lc_delegate].
  rewrite <- (app_nil_r (map (Build_fparam PBlock) _)).
  rewrite parse_block; [|cbn; rewrite <- !app_assoc in *; exact Hn|reflexivity]. cbn [lc_table lc_kw lc_kwrest lc_block lc_delegate parse_params].
  unfold slots, names, npos. rewrite !zlen_app, !zlen_map, <- !app_assoc. f_equal.
Qed.
Lemma insert_body : forall body c, NoDup (lc_table c) -> exists ext,
  fold_left insert body c = with_table c (lc_table c ++ ext) /\ NoDup (lc_table c ++ ext).
Proof.
  induction body as [|x body IH]; intros c Hn.
  - exists []. cbn. rewrite app_nil_r. destruct c; auto.
  - cbn [fold_left]. destruct (in_dec Z.eq_dec x (lc_table c)) as [Hi|Hi].
    + assert (E : insert c x = c).
      { unfold insert, insert_new, get_lvarid. destruct (In_nth_error _ _ Hi) as [k Hk].
        rewrite (pos_from_in x _ 0 k Hk Hn). reflexivity. }
      rewrite E. apply IH. exact Hn.
    + assert (E : insert c x = with_table c (lc_table c ++ [x])).
      { unfold insert. rewrite (insert_new_fresh c x Hi). reflexivity. }
      rewrite E. destruct (IH (with_table c (lc_table c ++ [x]))) as (ext & E2 & N2).
      { cbn. apply (Permutation.Permutation_NoDup (l := x :: lc_table c)).
        - apply Permutation.Permutation_cons_append.
        - constructor; assumption. }
      cbn [with_table lc_table] in *. exists (x :: ext).
      rewrite <- app_assoc in E2, N2. split; [exact E2|exact N2].
Qed.

(* the instruction sequence's view *)
Lemma add_req : forall xs ip i ps,
  add_params ip i (map (Build_fparam PReq) xs ++ ps) =
  add_params (Build_iparams (ip_req ip + zlen xs) (ip_opt ip) (ip_rest ip) (ip_post ip) (ip_block ip) (ip_keyword ip)
               (ip_kwrest ip) (ip_delegate ip)) (i + zlen xs) ps.
Proof.
  induction xs as [|x xs IH]; intros ip i ps.
  - cbn. destruct ip as [r0 o0 re0 p0 b0 k0 kr0 d0]; cbn. rewrite !Z.add_0_r. reflexivity.
  - cbn [map app add_params fp_kind]. rewrite IH. destruct ip as [r0 o0 re0 p0 b0 k0 kr0 d0]; cbn [add_param fp_kind ip_req ip_opt ip_rest ip_post ip_block ip_keyword ip_kwrest ip_delegate].
    rewrite zlen_cons. f_equal; [f_equal|]; lia.
Qed.
Lemma add_opt : forall xs ip i ps,
  add_params ip i (map (Build_fparam POpt) xs ++ ps) =
  add_params (Build_iparams (ip_req ip) (ip_opt ip + zlen xs) (ip_rest ip) (ip_post ip) (ip_block ip) (ip_keyword ip)
               (ip_kwrest ip) (ip_delegate ip)) (i + zlen xs) ps.
Proof.
  induction xs as [|x xs IH]; intros ip i ps.
  - cbn. destruct ip as [r0 o0 re0 p0 b0 k0 kr0 d0]; cbn. rewrite !Z.add_0_r. reflexivity.
  - cbn [map app add_params fp_kind]. rewrite IH. destruct ip as [r0 o0 re0 p0 b0 k0 kr0 d0]; cbn [add_param fp_kind ip_req ip_opt ip_rest ip_post ip_block ip_keyword ip_kwrest ip_delegate].
    rewrite zlen_cons. f_equal; [f_equal|]; lia.
Qed.
Lemma add_post : forall xs ip i ps,
  add_params ip i (map (Build_fparam PPost) xs ++ ps) =
  add_params (Build_iparams (ip_req ip) (ip_opt ip) (ip_rest ip) (ip_post ip + zlen xs) (ip_block ip) (ip_keyword ip)
               (ip_kwrest ip) (ip_delegate ip)) (i + zlen xs) ps.
Proof.
  induction xs as [|x xs IH]; intros ip i ps.
  - cbn. destruct ip as [r0 o0 re0 p0 b0 k0 kr0 d0]; cbn. rewrite !Z.add_0_r. reflexivity.
  - cbn [map app add_params fp_kind]. rewrite IH. destruct ip as [r0 o0 re0 p0 b0 k0 kr0 d0]; cbn [add_param fp_kind ip_req ip_opt ip_rest ip_post ip_block ip_keyword ip_kwrest ip_delegate].
    rewrite zlen_cons. f_equal; [f_equal|]; lia.
Qed.
Lemma add_keys : forall ks ip i ps,
  add_params ip i (map (fun kd => Build_fparam (PKey (snd kd)) (fst kd)) ks ++ ps) =
  add_params (Build_iparams (ip_req ip) (ip_opt ip) (ip_rest ip) (ip_post ip) (ip_block ip)
               (rev (combine (map fst ks) (zseq i (length ks))) ++ ip_keyword ip)
               (ip_kwrest ip) (ip_delegate ip)) (i + zlen ks) ps.
Proof.
  induction ks as [|[x d] ks IH]; intros ip i ps.
  - cbn. destruct ip as [r0 o0 re0 p0 b0 k0 kr0 d0]; cbn. rewrite !Z.add_0_r. reflexivity.
  - cbn [map app add_params fp_kind]. rewrite IH. destruct ip as [r0 o0 re0 p0 b0 k0 kr0 d0]; cbn [add_param fp_kind fp_name fst snd ip_req ip_opt ip_rest ip_post ip_block ip_keyword ip_kwrest ip_delegate length zseq combine rev map].
    rewrite zlen_cons, <- app_assoc. cbn [app]. f_equal. lia.
Qed.
Definition rest_flag (s : sig) : option bool :=
  match s_rest s with None => None | Some None => Some false | Some (Some _) => Some true end.
Definition rest_slots (s : sig) : Z := match s_rest s with None => 0 | _ => 1 end.
Definition has {A} (o : option A) : bool := match o with Some _ => true | None => false end.
Definition sig_params (s : sig) : iparams :=
  Build_iparams (zlen (s_req s)) (zlen (s_opt s)) (rest_flag s) (zlen (s_post s)) (has (s_block s))
    (rev (combine (map fst (s_key s)) (zseq (zlen (s_req s) + zlen (s_opt s) + rest_slots s + zlen (s_post s)) (length (s_key s)))))
    (has (s_kwrest s)) None.
Lemma add_sig s : add_params ip_empty 0 (formals s) = sig_params s.
Proof.
  unfold formals. rewrite add_req. cbn [ip_empty ip_req ip_opt ip_rest ip_post ip_block ip_keyword ip_kwrest ip_delegate].
  rewrite add_opt. cbn [ip_req ip_opt ip_rest ip_post ip_block ip_keyword ip_kwrest ip_delegate].
  assert (Er : forall r o i ps,
     add_params (Build_iparams r o None 0 false [] false None) i
       ((match s_rest s with None => [] | Some None => [Build_fparam PRestDiscard 0]
         | Some (Some x) => [Build_fparam PRest x] end) ++ ps) =
     add_params (Build_iparams r o (rest_flag s) 0 false [] false None) (i + rest_slots s) ps).
  { intros r o i ps. unfold rest_flag, rest_slots. destruct (s_rest s) as [[x|]|]; cbn; f_equal; lia. }
  rewrite Er. rewrite add_post. cbn [ip_req ip_opt ip_rest ip_post ip_block ip_keyword ip_kwrest ip_delegate].
  rewrite add_keys. cbn [ip_req ip_opt ip_rest ip_post ip_block ip_keyword ip_kwrest ip_delegate]. rewrite app_nil_r.
  unfold sig_params. rewrite !Z.add_0_l.
  destruct (s_kwrest s), (s_block s); reflexivity.
Qed.
Lemma compile_sig s body : NoDup (names s) -> exists ext,
  NoDup (names s ++ ext) /\
  compile (formals s) body = Some {|
    iq_params := sig_params s; iq_lvar := with_table (slots s) (names s ++ ext);
    iq_lvars := zlen (names s ++ ext); iq_opt_flag := is_opt (sig_params s);
    iq_mularg_flag := 1 <? zlen (s_req s) + zlen (s_post s) |}.
Proof.
  intros Hn. unfold compile. rewrite (parse_sig s Hn), add_sig.
  destruct (insert_body body (slots s) Hn) as (ext & E & N). rewrite E. cbn [with_table lc_table slots] in *.
  exists ext. split; [exact N|]. reflexivity.
Qed.

(* ---- segments of the stack ---- *)
Lemma nth_error_ext {A} : forall (l l' : list A), (forall i, nth_error l i = nth_error l' i) -> l = l'.
Proof.
  induction l as [|x l IH]; intros [|y l'] H.
  - reflexivity.
  - discriminate (H O).
  - discriminate (H O).
  - assert (E := H O). injection E as ->. f_equal. apply IH. intros i. exact (H (S i)).
Qed.
Definition holds (m : Z -> cell) (b : Z) (l : list cell) : Prop :=
  forall i c, nth_error l i = Some c -> m (b + Z.of_nat i) = c.
Lemma holds_app m b l l' : holds m b (l ++ l') <-> holds m b l /\ holds m (b + zlen l) l'.
Proof.
  split.
  - intros H. split; intros i c Hi.
    + apply H. rewrite nth_error_app1; [exact Hi|]. apply nth_error_Some. congruence.
    + rewrite <- Z.add_assoc. replace (zlen l + Z.of_nat i) with (Z.of_nat (length l + i)) by (unfold zlen; lia).
      apply H. rewrite nth_error_app2 by lia. rewrite <- Hi. f_equal. lia.
  - intros [H1 H2] i c Hi. destruct (Nat.lt_ge_cases i (length l)) as [Hl|Hl].
    + rewrite nth_error_app1 in Hi by exact Hl. apply H1. exact Hi.
    + rewrite nth_error_app2 in Hi by exact Hl. apply H2 in Hi. rewrite <- Hi. f_equal. unfold zlen. lia.
Qed.
Lemma holds_nil m b : holds m b []. Proof. intros i c H. destruct i; discriminate. Qed.
Lemma holds_one m b c : holds m b [c] <-> m b = c.
Proof.
  split; intros H.
  - rewrite <- (Z.add_0_r b). apply (H O). reflexivity.
  - intros [|i] c' Hi; [|destruct i; discriminate]. injection Hi as <-. rewrite Z.add_0_r. exact H.
Qed.
Lemma holds_ext m m' b l : (forall j, b <= j < b + zlen l -> m' j = m j) -> holds m b l -> holds m' b l.
Proof.
  intros E H i c Hi. rewrite E; [apply H; exact Hi|].
  assert (i < length l)%nat by (apply nth_error_Some; congruence). unfold zlen. lia.
Qed.
Lemma holds_mset m b l i c : ~ (b <= i < b + zlen l) -> holds m b l -> holds (mset m i c) b l.
Proof. intros H. apply holds_ext. intros j Hj. unfold mset. destruct (Z.eqb_spec j i); [lia|reflexivity]. Qed.
Lemma holds_mfill m b l x y c : y <= b \/ b + zlen l <= x -> holds m b l -> holds (mfill m x y c) b l.
Proof. intros H. apply holds_ext. intros j Hj. unfold mfill. destruct ((x <=? j) && (j <? y)) eqn:E; [lia|reflexivity]. Qed.
Lemma holds_mcopy m b l s n d : d + n <= b \/ b + zlen l <= d -> holds m b l -> holds (mcopy m s n d) b l.
Proof. intros H. apply holds_ext. intros j Hj. unfold mcopy. destruct ((d <=? j) && (j <? d + n)) eqn:E; [lia|reflexivity]. Qed.
Lemma holds_copied m s d l : holds m s l -> holds (mcopy m s (zlen l) d) d l.
Proof.
  intros H i c Hi. unfold mcopy. assert (i < length l)%nat by (apply nth_error_Some; congruence).
  destruct ((d <=? d + Z.of_nat i) && (d + Z.of_nat i <? d + zlen l)) eqn:E; [|unfold zlen in E; lia].
  replace (d + Z.of_nat i - d + s) with (s + Z.of_nat i) by lia. apply H. exact Hi.
Qed.
Lemma holds_filled m b n c : holds (mfill m b (b + Z.of_nat n) c) b (repeat c n).
Proof.
  intros i c' Hi. assert (i < length (repeat c n))%nat by (apply nth_error_Some; congruence). rewrite repeat_length in H.
  rewrite (nth_error_repeat c H) in Hi. injection Hi as <-. unfold mfill.
  destruct ((b <=? b + Z.of_nat i) && (b + Z.of_nat i <? b + Z.of_nat n)) eqn:E; [reflexivity|lia].
Qed.
Lemma holds_filled' m b e n c : e = b + Z.of_nat n -> holds (mfill m b e c) b (repeat c n).
Proof. intros ->. apply holds_filled. Qed.
Lemma mslice_holds m a b l : holds m a l -> b = a + zlen l -> mslice m a b = l.
Proof.
  intros H ->. unfold mslice. replace (Z.to_nat (a + zlen l - a)) with (length l) by (unfold zlen; lia).
  apply nth_error_ext. intros i.
  rewrite nth_error_map. destruct (Nat.lt_ge_cases i (length l)) as [Hl|Hl].
  - rewrite (nth_error_nth' _ O) by (rewrite seq_length; exact Hl). rewrite seq_nth by exact Hl. cbn [option_map].
    destruct (nth_error l i) as [c|] eqn:E; [|apply nth_error_None in E; lia].
    f_equal. exact (H i c E).
  - rewrite (proj2 (nth_error_None _ _)) by (rewrite seq_length; exact Hl). symmetry. apply nth_error_None. exact Hl.
Qed.
Lemma holds_stored m b l : holds (mstore m b l) b l.
Proof.
  intros i c Hi. unfold mstore. assert (i < length l)%nat by (apply nth_error_Some; congruence).
  destruct ((b <=? b + Z.of_nat i) && (b + Z.of_nat i <? b + zlen l)) eqn:E; [|unfold zlen in E; lia].
  replace (Z.to_nat (b + Z.of_nat i - b)) with i by lia. apply nth_error_nth. exact Hi.
Qed.

(* ---- positional arguments ---- *)
Lemma skipn_skipn {A} : forall (l : list A) x y, skipn x (skipn y l) = skipn (x + y) l.
Proof.
  intros l x y. revert l. induction y as [|y IH]; intros l.
  - rewrite Nat.add_0_r. reflexivity.
  - destruct l as [|a l]; [rewrite !skipn_nil; reflexivity|].
    cbn [skipn]. rewrite IH. replace (x + S y)%nat with (S (x + y)) by lia. reflexivity.
Qed.
(* X: the arguments before the post-required ones, D: those for the post
   parameters *)
Definition pos_vals (s : sig) (X D : list cell) : list cell :=
  let r := length (s_req s) in let o := length (s_opt s) in
  firstn r X ++ repeat cnil (r - length X) ++ firstn o (skipn r X) ++ repeat cuninit (o - (length X - r)) ++
  (match s_rest s with Some (Some _) => [CArr (skipn o (skipn r X))] | _ => [] end) ++ D.
Lemma pos_vals_len s X D : zlen D = zlen (s_post s) -> zlen (pos_vals s X D) = npos s.
Proof.
  intros HD. unfold pos_vals, npos, rest_name, zlen in *. rewrite !app_length, !repeat_length, !firstn_length, !skipn_length.
  destruct (s_rest s) as [[z|]|]; cbn [length]; lia.
Qed.
Lemma set_all_other ids : forall m b j, (forall i, In i ids -> j <> b + i) ->
  fold_left (fun m id => mset m (b + id) cuninit) ids m j = m j.
Proof.
  induction ids as [|i ids IH]; intros m b j H; [reflexivity|]. cbn [fold_left].
  rewrite IH by (intros k Hk; apply H; right; exact Hk). unfold mset.
  destruct (Z.eqb_spec j (b + i)) as [E|E]; [|reflexivity]. exfalso. apply (H i); [left; reflexivity|exact E].
Qed.
Lemma set_all_same ids : forall m b i, In i ids ->
  fold_left (fun m id => mset m (b + id) cuninit) ids m (b + i) = cuninit.
Proof.
  induction ids as [|k ids IH]; intros m b i H; [contradiction|]. cbn [fold_left].
  destruct (in_dec Z.eq_dec i ids) as [Hi|Hi]; [apply IH; exact Hi|].
  destruct H as [->|H]; [|contradiction].
  rewrite set_all_other by (intros k Hk E; assert (k = i) by lia; subst; contradiction).
  unfold mset. rewrite Z.eqb_refl. reflexivity.
Qed.

Lemma in_zseq n : forall a x, In x (zseq a n) <-> a <= x < a + Z.of_nat n.
Proof.
  induction n as [|n IH]; intros a x; cbn [zseq In]; [lia|]. rewrite IH. lia.
Qed.
Section Fill.
Variables (s : sig) (iq : iseq) (ext : list Z).
Hypothesis Hp : iq_params iq = sig_params s.
Hypothesis Hv : iq_lvar iq = with_table (slots s) (names s ++ ext).
Hypothesis Hl : iq_lvars iq = zlen (names s ++ ext).
Lemma lvars_ge : npos s + zlen (s_key s) + zlen (opt_list (s_kwrest s)) + zlen (opt_list (s_block s)) <= iq_lvars iq.
Proof. rewrite Hl. unfold npos, names. rewrite !zlen_app, zlen_map. assert (H := zlen_nonneg ext). lia. Qed.

Lemma fill_positional_ok st base X D :
  sp st = base + zlen (X ++ D) -> zlen D = zlen (s_post s) -> holds (buf st) base (X ++ D) ->
  base + iq_lvars iq <= STACK_SIZE ->
  exists st', fill_positional st base iq = Ok st' /\ sp st' = base + iq_lvars iq /\
    (forall j, j < base -> buf st' j = buf st j) /\
    holds (buf st') base (pos_vals s X D) /\
    (forall i, 0 <= i < zlen (s_key s) -> buf st' (base + npos s + i) = cuninit) /\
    (forall j, npos s + zlen (s_key s) <= j < iq_lvars iq -> buf st' (base + j) = cnil).
Proof.
  intros Hsp HD Hh Hfit.
  assert (Hge := lvars_ge).
  assert (K0 := zlen_nonneg (s_key s)). assert (K1 := zlen_nonneg (opt_list (s_kwrest s))). assert (K2 := zlen_nonneg (opt_list (s_block s))).
  assert (Q : exists st', (forall j, j < base -> buf st' j = buf st j) /\ sp st' = base + iq_lvars iq /\
     holds (buf st') base (pos_vals s X D) /\
     (forall j, npos s <= j < iq_lvars iq -> buf st' (base + j) = cnil) /\
     fill_positional st base iq = Ok {| buf := fold_left (fun m id => mset m (base + id) cuninit) (lc_kw (iq_lvar iq)) (buf st'); sp := sp st' |}).
  { unfold fill_positional. rewrite Hp. cbn [sig_params ip_req ip_opt ip_rest ip_post ip_delegate].
    rewrite zlen_app in Hsp. apply holds_app in Hh. destruct Hh as [HX HDh].
    assert (X0 := zlen_nonneg X). assert (D0 := zlen_nonneg D).
    assert (R0 := zlen_nonneg (s_req s)). assert (O0 := zlen_nonneg (s_opt s)).
    set (r := zlen (s_req s)) in *. set (o := zlen (s_opt s)) in *. set (p := zlen (s_post s)) in *.
    replace (sp st - base) with (zlen X + zlen D) by lia.
    destruct (Z.ltb_spec (zlen X + zlen D) p); [lia|].
    replace (zlen X + zlen D - p) with (zlen X) by lia.
    set (rl := match rest_flag s with Some true => 1 | _ => 0 end).
    assert (Hrl : rl = zlen (rest_name s)) by (unfold rl, rest_flag, rest_name; destruct (s_rest s) as [[z|]|]; reflexivity).
    assert (Hnp : npos s = r + o + rl + p) by (unfold npos; rewrite Hrl; reflexivity).
    assert (Hrl01 : rl = 0 \/ rl = 1) by (unfold rl; destruct (rest_flag s) as [[|]|]; lia).
    replace (zlen X + zlen D - zlen X) with (zlen D) by lia.
    destruct (Z.ltb_spec (r + o) (zlen X)) as [Hc|Hc].
    - (* more than enough *)
      set (m2 := if rl =? 1 then _ else buf st).
      set (m3 := mcopy m2 (base + zlen X) (zlen D) (base + (r + o + rl))).
      unfold resize_to. destruct (Z.ltb_spec STACK_SIZE (base + iq_lvars iq)); [lia|]. cbn [rbind buf sp].
      eexists {| buf := _; sp := _ |}. cbn [buf sp].
      assert (E1 : firstn (length (s_req s)) X = firstn (length (s_req s)) X) by reflexivity.
      assert (Hm2 : holds m2 base (firstn (length (s_req s) + length (s_opt s)) X)).
      { assert (HXf : holds (buf st) base (firstn (length (s_req s) + length (s_opt s)) X)).
        { rewrite <- (firstn_skipn (length (s_req s) + length (s_opt s)) X) in HX. apply holds_app in HX. apply HX. }
        unfold m2. destruct (rl =? 1); [|exact HXf]. apply holds_mset; [|exact HXf].
        unfold zlen. rewrite firstn_length. unfold r, o, zlen in *. lia. }
      assert (Hm2D : holds m2 (base + zlen X) D).
      { unfold m2. destruct (rl =? 1); [|exact HDh]. apply holds_mset; [lia|exact HDh]. }
      split; [|split; [reflexivity|split; [|split; [|reflexivity]]]].
      + intros j Hj. unfold mfill. destruct ((base + (r + o) + rl + p + 0 <=? j) && (j <? base + iq_lvars iq)) eqn:E; [lia|].
        unfold m3, mcopy. destruct ((base + (r + o + rl) <=? j) && (j <? base + (r + o + rl) + zlen D)) eqn:E2; [lia|].
        unfold m2. destruct (rl =? 1); [|reflexivity]. unfold mset. destruct (Z.eqb_spec j (base + (r + o))); [lia|reflexivity].
      + apply holds_mfill; [right; rewrite pos_vals_len by lia; lia|].
        unfold pos_vals.
        replace (length (s_req s) - length X)%nat with O by (unfold r, o, zlen in *; lia).
        replace (length (s_opt s) - (length X - length (s_req s)))%nat with O by (unfold r, o, zlen in *; lia).
        cbn [repeat app].
        assert (Ef : firstn (length (s_req s)) X ++ firstn (length (s_opt s)) (skipn (length (s_req s)) X) =
                     firstn (length (s_req s) + length (s_opt s)) X).
        { rewrite <- (firstn_skipn (length (s_req s)) X) at 3. rewrite firstn_app.
          rewrite firstn_firstn, firstn_length. f_equal.
          - f_equal. lia.
          - f_equal. unfold r, o, zlen in *. lia. }
        rewrite app_assoc, Ef. apply holds_app. split.
        { apply holds_mcopy; [|exact Hm2]. right. unfold zlen. rewrite firstn_length. unfold r, o, zlen in *. lia. }
        assert (El : zlen (firstn (length (s_req s) + length (s_opt s)) X) = r + o).
        { unfold zlen. rewrite firstn_length. unfold r, o, zlen in *. lia. }
        rewrite El. apply holds_app. split.
        * unfold rl, rest_flag in *. destruct (s_rest s) as [[z|]|]; try apply holds_nil.
          apply holds_one. unfold m3, mcopy.
          destruct ((base + (r + o + 1) <=? base + (r + o)) && (base + (r + o) <? base + (r + o + 1) + zlen D)) eqn:E; [lia|].
          unfold m2, mset. change (1 =? 1) with true. cbv iota beta. rewrite Z.eqb_refl. f_equal.
          rewrite skipn_skipn. replace (length (s_opt s) + length (s_req s))%nat with (length (s_req s) + length (s_opt s))%nat by lia.
          apply mslice_holds; [|unfold zlen; rewrite skipn_length; unfold r, o, zlen in *; lia].
          rewrite <- (firstn_skipn (length (s_req s) + length (s_opt s)) X) in HX. apply holds_app in HX.
          rewrite El in HX. rewrite (Z.add_comm r o), (Z.add_comm o r). apply HX.
        * assert (Er : zlen (match s_rest s with Some (Some _) => [CArr (skipn (length (s_opt s)) (skipn (length (s_req s)) X))] | _ => [] end) = rl).
          { unfold rl, rest_flag. destruct (s_rest s) as [[z|]|]; reflexivity. }
          rewrite Er. unfold m3. replace (base + (r + o) + rl) with (base + (r + o + rl)) by lia.
          apply holds_copied. exact Hm2D.
      + intros j Hj. unfold mfill. destruct ((base + (r + o) + rl + p + 0 <=? base + j) && (base + j <? base + iq_lvars iq)) eqn:E; [reflexivity|lia].
    - (* optional or required parameters left over *)
      unfold resize_to at 1. destruct (Z.ltb_spec STACK_SIZE (base + iq_lvars iq)); [lia|]. cbn [rbind buf sp].
      set (m0 := mfill (buf st) (sp st) (base + iq_lvars iq) cnil).
      set (m1 := mcopy m0 (base + zlen X) (zlen D) (base + (r + o + rl))).
      set (m2 := if zlen X <? r then _ else _).
      eexists {| buf := _; sp := _ |}. cbn [buf sp].
      assert (H0X : holds m0 base X) by (apply holds_mfill; [right; lia|exact HX]).
      assert (H0D : holds m0 (base + zlen X) D) by (apply holds_mfill; [right; lia|exact HDh]).
      assert (H1X : holds m1 base X) by (apply holds_mcopy; [right; lia|exact H0X]).
      assert (H1D : holds m1 (base + (r + o + rl)) D) by (apply holds_copied; exact H0D).
      assert (Hlow : forall j, j < base -> m2 j = buf st j).
      { intros j Hj. assert (E1 : m1 j = buf st j).
        { unfold m1, mcopy. destruct ((base + (r + o + rl) <=? j) && (j <? base + (r + o + rl) + zlen D)) eqn:E; [lia|].
          unfold m0, mfill. destruct ((sp st <=? j) && (j <? base + iq_lvars iq)) eqn:E2; [lia|reflexivity]. }
        unfold m2, mfill. destruct (zlen X <? r);
          repeat match goal with |- context [if ?b then _ else _] => destruct b eqn:?; [lia|] end; exact E1. }
      assert (Hhigh : forall j, npos s <= j < iq_lvars iq -> m2 (base + j) = cnil).
      { intros j Hj. assert (E1 : m1 (base + j) = cnil).
        { unfold m1, mcopy. destruct ((base + (r + o + rl) <=? base + j) && (base + j <? base + (r + o + rl) + zlen D)) eqn:E; [lia|].
          unfold m0, mfill. destruct ((sp st <=? base + j) && (base + j <? base + iq_lvars iq)) eqn:E2; [reflexivity|lia]. }
        unfold m2, mfill. destruct (zlen X <? r);
          repeat match goal with |- context [if ?b then _ else _] => destruct b eqn:?; [lia|] end; exact E1. }
      split; [|split; [reflexivity|split; [|split; [|reflexivity]]]].
      + intros j Hj. destruct (rl =? 1); [|apply Hlow; exact Hj]. unfold mset.
        destruct (Z.eqb_spec j (base + (r + o))); [lia|apply Hlow; exact Hj].
      + assert (Hpre : holds m2 base (firstn (length (s_req s)) X ++ repeat cnil (length (s_req s) - length X) ++
                        firstn (length (s_opt s)) (skipn (length (s_req s)) X) ++ repeat cuninit (length (s_opt s) - (length X - length (s_req s))))).
        { unfold m2. destruct (Z.ltb_spec (zlen X) r) as [Hr|Hr].
          - rewrite firstn_all2 by (unfold r, zlen in *; lia).
            rewrite (skipn_all2 X) by (unfold r, zlen in *; lia). rewrite firstn_nil. cbn [app].
            apply holds_app. split; [apply holds_mfill; [right; lia|]; apply holds_mfill; [right; lia|exact H1X]|].
            apply holds_app. split.
            + apply holds_mfill; [right; rewrite zlen_repeat; unfold r, zlen in *; lia|]. apply holds_filled'. unfold r, zlen in *. lia.
            + rewrite zlen_repeat. replace (base + zlen X + Z.of_nat (length (s_req s) - length X)) with (base + r) by (unfold r, zlen in *; lia).
              apply holds_filled'. unfold r, o, zlen in *. lia.
          - replace (length (s_req s) - length X)%nat with O by (unfold r, zlen in *; lia). cbn [repeat app].
            rewrite (firstn_all2 (skipn (length (s_req s)) X)) by (rewrite skipn_length; unfold r, o, zlen in *; lia).
            rewrite app_assoc, firstn_skipn. apply holds_app. split; [apply holds_mfill; [right; lia|exact H1X]|].
            apply holds_filled'. unfold r, o, zlen in *. lia. }
        assert (Epre : zlen (firstn (length (s_req s)) X ++ repeat cnil (length (s_req s) - length X) ++
                        firstn (length (s_opt s)) (skipn (length (s_req s)) X) ++ repeat cuninit (length (s_opt s) - (length X - length (s_req s)))) = r + o).
        { rewrite !zlen_app, !zlen_repeat. unfold zlen. rewrite !firstn_length, skipn_length. unfold r, o, zlen in *. lia. }
        assert (H2D : holds m2 (base + (r + o + rl)) D).
        { unfold m2. destruct (zlen X <? r); repeat (apply holds_mfill; [left; lia|]); exact H1D. }
        unfold pos_vals. rewrite !app_assoc in *. rewrite <- !app_assoc in Hpre, Epre |- *.
        set (pre := firstn (length (s_req s)) X ++ _) in Hpre, Epre.
        match goal with |- holds ?m base ?l => assert (El : l = pre ++ (match s_rest s with Some (Some _) => [CArr (skipn (length (s_opt s)) (skipn (length (s_req s)) X))] | _ => [] end) ++ D) by (unfold pre; rewrite <- !app_assoc; reflexivity); rewrite El end.
        apply holds_app. rewrite Epre. split.
        { destruct (rl =? 1); [|exact Hpre]. apply holds_mset; [lia|exact Hpre]. }
        apply holds_app. unfold rl, rest_flag in *. destruct (s_rest s) as [[z|]|]; [change (1 =? 1) with true|change (0 =? 1) with false..]; cbv iota.
        * split.
          -- apply holds_one. unfold mset. rewrite Z.eqb_refl. rewrite skipn_skipn.
             rewrite skipn_all2 by (unfold r, o, zlen in *; lia). reflexivity.
          -- cbn. replace (base + (r + o) + 1) with (base + (r + o + 1)) by lia. apply holds_mset; [lia|exact H2D].
        * split; [apply holds_nil|]. rewrite Z.add_0_r in *. exact H2D.
        * split; [apply holds_nil|]. rewrite Z.add_0_r in *. exact H2D.
      + intros j Hj. destruct (rl =? 1) eqn:Erl; [|apply Hhigh; exact Hj]. unfold mset.
        destruct (Z.eqb_spec (base + j) (base + (r + o))); [|apply Hhigh; exact Hj].
        lia. }
  destruct Q as (st' & Hlo & Hs & Hh' & Hhi & E). eexists. split; [exact E|]. cbn [sp buf].
  rewrite Hv. cbn [with_table slots lc_kw].
  assert (P0 : 0 <= npos s) by (rewrite <- (pos_vals_len s X D HD); apply zlen_nonneg).
  split; [exact Hs|]. split; [|split; [|split]].
  - intros j Hj. rewrite set_all_other; [apply Hlo; exact Hj|]. intros i Hi. apply in_zseq in Hi. lia.
  - eapply holds_ext; [|exact Hh']. intros j Hj. rewrite pos_vals_len in Hj by exact HD.
    apply set_all_other. intros i Hi. apply in_zseq in Hi. lia.
  - intros i Hi. rewrite <- Z.add_assoc. apply set_all_same. apply in_zseq. unfold zlen in *. lia.
  - intros j Hj. rewrite set_all_other; [apply Hhi; lia|]. intros i Hi. apply in_zseq in Hi. unfold zlen in *. lia.
Qed.
End Fill.

(* ---- keyword arguments ---- *)
Lemma assoc_in : forall l k v, NoDup (map fst l) -> In (k, v) l -> assoc k l = Some v.
Proof.
  induction l as [|[k' v'] l IH]; intros k v Hn Hi; [contradiction|]. cbn [assoc]. inversion Hn as [|? ? Hk Hl]; subst.
  destruct Hi as [E|Hi].
  - injection E as -> ->. rewrite Z.eqb_refl. reflexivity.
  - destruct (Z.eqb_spec k k') as [->|_]; [|apply IH; assumption].
    exfalso. apply Hk. apply in_map_iff. exists (k', v). auto.
Qed.
Lemma assoc_notin : forall l k, ~ In k (map fst l) -> assoc k l = None.
Proof.
  induction l as [|[k' v'] l IH]; intros k H; [reflexivity|]. cbn [assoc].
  destruct (Z.eqb_spec k k') as [->|_]; [exfalso; apply H; left; reflexivity|].
  apply IH. intros Hi. apply H. right. exact Hi.
Qed.
Lemma map_fst_combine {A B} : forall (l : list A) (l' : list B), length l = length l' -> map fst (combine l l') = l.
Proof. induction l as [|x l IH]; intros [|y l'] H; cbn in *; try discriminate; [reflexivity|]. rewrite IH by lia. reflexivity. Qed.
Lemma nth_combine {A B} : forall (l : list A) (l' : list B) i a b,
  nth_error l i = Some a -> nth_error l' i = Some b -> nth_error (combine l l') i = Some (a, b).
Proof.
  induction l as [|x l IH]; intros [|y l'] i a b Ha Hb; destruct i; cbn in *; try discriminate; [congruence|].
  apply IH; assumption.
Qed.
Definition keymap (keys : list Z) (nb : Z) : list (Z * Z) := rev (combine keys (zseq nb (length keys))).
Lemma keymap_in keys nb i k : NoDup keys -> nth_error keys i = Some k -> assoc k (keymap keys nb) = Some (nb + Z.of_nat i).
Proof.
  intros Hn Hk. unfold keymap. apply assoc_in.
  - rewrite map_rev, map_fst_combine by (rewrite zseq_length; reflexivity). apply NoDup_rev. exact Hn.
  - apply -> in_rev. eapply nth_error_In. apply nth_combine; [exact Hk|].
    apply zseq_nth. apply nth_error_Some. congruence.
Qed.
Lemma keymap_notin keys nb k : ~ In k keys -> assoc k (keymap keys nb) = None.
Proof.
  intros H. unfold keymap. apply assoc_notin. rewrite map_rev, map_fst_combine by (rewrite zseq_length; reflexivity).
  intros Hi. apply H. apply in_rev. exact Hi.
Qed.
Definition inb (k : Z) (l : list Z) : bool := existsb (fun x => x =? k) l.
Lemma inb_in k l : inb k l = true <-> In k l.
Proof.
  unfold inb. rewrite existsb_exists. split.
  - intros (x & Hx & E). apply Z.eqb_eq in E. subst. exact Hx.
  - intros H. exists k. split; [exact H|apply Z.eqb_refl].
Qed.
Lemma given_notin k : forall kw, ~ In k (map fst kw) -> given k kw = None.
Proof.
  induction kw as [|[k' v'] kw IH]; intros H; [reflexivity|]. cbn [given].
  destruct (Z.eqb_spec k k') as [->|_]; [exfalso; apply H; left; reflexivity|]. apply IH. intros Hi. apply H. right. exact Hi.
Qed.
Lemma fill_keywords_ok keys nb ip base : ip_keyword ip = keymap keys nb -> NoDup keys ->
  forall kw m rest, NoDup (map fst kw) ->
  if negb (ip_kwrest ip) && negb (forallb (fun kv => inb (fst kv) keys) kw)
  then fill_keywords m base ip kw rest = Err ArgErr
  else exists m', fill_keywords m base ip kw rest =
         Ok (m', rest ++ filter (fun kv => negb (inb (fst kv) keys)) kw) /\
       (forall i k, nth_error keys i = Some k ->
          m' (base + nb + Z.of_nat i) = match given k kw with Some v => v | None => m (base + nb + Z.of_nat i) end) /\
       (forall j, ~ (base + nb <= j < base + nb + zlen keys) -> m' j = m j).
Proof.
  intros Hk Hnd. induction kw as [|[k v] kw IH]; intros m rest Hn.
  - cbn [forallb negb]. rewrite Bool.andb_false_r. exists m. cbn [fill_keywords filter]. rewrite app_nil_r. auto.
  - cbn [map fst] in Hn. inversion Hn as [|? ? Hkn Hn']; subst.
    cbn [forallb fst fill_keywords filter]. rewrite Hk.
    destruct (inb k keys) eqn:Ei; cbn [andb negb].
    + apply inb_in in Ei. destruct (In_nth_error _ _ Ei) as [i Hi]. rewrite (keymap_in keys nb i k Hnd Hi).
      specialize (IH (mset m (base + (nb + Z.of_nat i)) v) rest Hn').
      destruct (negb (ip_kwrest ip) && negb (forallb (fun kv => inb (fst kv) keys) kw)); [exact IH|].
      destruct IH as (m' & E & H1 & H2). exists m'. split; [exact E|].
      assert (Hlt : (i < length keys)%nat) by (apply nth_error_Some; congruence).
      split.
      * intros i' k' Hi'. rewrite (H1 i' k' Hi'). cbn [given]. unfold mset.
        destruct (Z.eqb_spec (base + nb + Z.of_nat i') (base + (nb + Z.of_nat i))) as [Ee|Ee].
        -- assert (i' = i) by lia. subst i'. rewrite Hi in Hi'. injection Hi' as <-. rewrite Z.eqb_refl.
           rewrite (given_notin k kw Hkn). reflexivity.
        -- destruct (Z.eqb_spec k' k) as [->|_]; [|reflexivity].
           exfalso. apply Ee. assert (i' = i).
           { apply (proj1 (NoDup_nth_error keys) Hnd); [apply nth_error_Some; congruence|congruence]. }
           subst. lia.
      * intros j Hj. rewrite H2 by exact Hj. unfold mset. destruct (Z.eqb_spec j (base + (nb + Z.of_nat i))); [|reflexivity].
        exfalso. apply Hj. unfold zlen. lia.
    + assert (Hnk : ~ In k keys) by (intros H; apply inb_in in H; congruence).
      rewrite (keymap_notin keys nb k Hnk). destruct (ip_kwrest ip) eqn:Ew; cbn [andb negb]; [|reflexivity].
      specialize (IH m (rest ++ [(k, v)]) Hn'). rewrite <- app_assoc in IH. cbn [app andb negb] in IH.
      destruct IH as (m' & E & H1 & H2). exists m'. split; [exact E|]. split; [|exact H2].
      intros i' k' Hi'. rewrite (H1 i' k' Hi'). cbn [given].
      destruct (Z.eqb_spec k' k) as [->|_]; [|reflexivity].
      exfalso. apply Hnk. eapply nth_error_In. exact Hi'.
Qed.

(* ---- whole calls ---- *)
Definition bcell (blk : option Z) : cell := match blk with Some b => CProc b | None => cnil end.
Lemma names_len s : zlen (names s) = npos s + zlen (s_key s) + zlen (opt_list (s_kwrest s)) + zlen (opt_list (s_block s)).
Proof. unfold npos, names. rewrite !zlen_app, zlen_map. lia. Qed.
Lemma nth_split_combine {A B} (l : list A) (l' : list B) x c : length l = length l' -> In (x, c) (combine l l') ->
  exists i, nth_error l i = Some x /\ nth_error l' i = Some c.
Proof.
  revert l'. induction l as [|a l IH]; intros [|b l'] H Hi; cbn in *; try discriminate; try contradiction.
  destruct Hi as [E|Hi].
  - injection E as -> ->. exists O. auto.
  - destruct (IH l') as (i & H1 & H2); [lia|exact Hi|]. exists (S i). auto.
Qed.
Lemma bound_of s iq ext st st' base vals :
  NoDup (names s ++ ext) -> iq_lvar iq = with_table (slots s) (names s ++ ext) -> iq_lvars iq = zlen (names s ++ ext) ->
  zlen vals = zlen (names s) -> sp st' = base + iq_lvars iq -> (forall j, j < base -> buf st' j = buf st j) ->
  holds (buf st') base vals ->
  (forall j, zlen (names s) <= j < iq_lvars iq -> buf st' (base + j) = cnil) ->
  bound iq st st' base (combine (names s) vals).
Proof.
  intros Hn Hv Hl Hz Hs Hlow Hh Hnil. unfold bound. rewrite Hv. cbn [with_table lc_table].
  split; [exact Hs|]. split; [exact Hlow|]. split.
  - intros x c Hi. apply nth_split_combine in Hi; [|unfold zlen in Hz; lia]. destruct Hi as (i & H1 & H2).
    assert (Hlt : (i < length (names s))%nat) by (apply nth_error_Some; congruence).
    exists (Z.of_nat i). split; [|split].
    + apply lvarid_nth; [|exact Hn]. rewrite nth_error_app1 by exact Hlt. exact H1.
    + rewrite Hl, zlen_app. assert (H := zlen_nonneg ext). unfold zlen in *. lia.
    + apply Hh. exact H2.
  - intros x Hi Hx. rewrite map_fst_combine in Hx by (unfold zlen in Hz; lia).
    destruct (In_nth_error _ _ Hi) as [i Hi'].
    assert (Hlt : (i < length (names s ++ ext))%nat) by (apply nth_error_Some; congruence).
    exists (Z.of_nat i). split; [apply lvarid_nth; assumption|].
    apply Hnil. rewrite Hl. split; [|unfold zlen; lia].
    destruct (Nat.lt_ge_cases i (length (names s))) as [H|H]; [|unfold zlen; lia].
    exfalso. apply Hx. rewrite nth_error_app1 in Hi' by exact H. eapply nth_error_In. exact Hi'.
Qed.

Lemma takes_sig s : takes_keywords (sig_params s) = takes_kw s.
Proof.
  unfold takes_keywords, takes_kw, sig_params. cbn [ip_keyword ip_kwrest].
  destruct (s_key s) as [|[k d] ks] eqn:E; cbn [map length zseq combine rev].
  - destruct (s_kwrest s); reflexivity.
  - destruct (rev (combine (map fst ks) _)) eqn:Er; cbn; reflexivity.
Qed.
Lemma is_key_inb s k : is_key s k = inb k (map fst (s_key s)).
Proof. unfold is_key, inb. induction (s_key s) as [|a l IH]; [reflexivity|]. cbn. rewrite IH. reflexivity. Qed.

(* keyword and block arguments, after the positional ones *)
Section Rest.
Variables (s : sig) (iq : iseq) (ext : list Z).
Hypothesis Hp : iq_params iq = sig_params s.
Hypothesis Hv : iq_lvar iq = with_table (slots s) (names s ++ ext).
Hypothesis Hl : iq_lvars iq = zlen (names s ++ ext).
Hypothesis Hn : NoDup (names s ++ ext).
Hypothesis Hdis : s_rest s = Some None -> s_key s = [].
Lemma keyword_of_sig : ip_keyword (sig_params s) = keymap (map fst (s_key s)) (npos s).
Proof.
  unfold sig_params, keymap, npos, rest_slots, rest_name. cbn [ip_keyword]. rewrite map_length.
  destruct (s_rest s) as [[z|]|]; try reflexivity. rewrite Hdis by reflexivity. reflexivity.
Qed.

Lemma rest_ok st st0 base pos a :
  zlen pos = npos s -> sp st = base + iq_lvars iq -> (forall j, j < base -> buf st j = buf st0 j) ->
  holds (buf st) base pos ->
  (forall i, 0 <= i < zlen (s_key s) -> buf st (base + npos s + i) = cuninit) ->
  (forall j, npos s + zlen (s_key s) <= j < iq_lvars iq -> buf st (base + j) = cnil) ->
  NoDup (map fst (kw_list (a_kw a))) ->
  (forall k, In (k, false) (s_key s) -> given k (kw_list (a_kw a)) <> None) ->
  match (if takes_kw s then spec_keys s (kw_list (a_kw a)) else Some []) with
  | None => keyword_step st base iq a = Err ArgErr
  | Some keys => exists st', keyword_step st base iq a = Ok st' /\
      bound iq st0 (fill_block_argument st' base iq (a_block a)) base
        (combine (names s) (pos ++ keys ++ match s_block s with Some _ => [bcell (a_block a)] | None => [] end))
  end.
Proof.
  intros Hpos Hsp Hlow Hh Hkw Hnil Hnd Hman.
  assert (Hkn : NoDup (map fst (s_key s))).
  { assert (H := nodup_app_l _ _ Hn). unfold names in H.
    apply nodup_app_r in H. apply nodup_app_r in H. apply nodup_app_r in H. apply nodup_app_r in H. apply nodup_app_l in H. exact H. }
  assert (P0 : 0 <= npos s) by (rewrite <- Hpos; apply zlen_nonneg).
  assert (Hnl := names_len s). assert (K0 := zlen_nonneg (s_key s)).
  assert (K1 := zlen_nonneg (opt_list (s_kwrest s))). assert (K2 := zlen_nonneg (opt_list (s_block s))).
  (* storing the block argument completes the frame *)
  assert (Fin : forall st1 keys, zlen keys = zlen (s_key s) + zlen (opt_list (s_kwrest s)) ->
     sp st1 = base + iq_lvars iq -> (forall j, j < base -> buf st1 j = buf st0 j) ->
     holds (buf st1) base (pos ++ keys) ->
     (forall j, npos s + zlen (s_key s) + zlen (opt_list (s_kwrest s)) <= j < iq_lvars iq -> buf st1 (base + j) = cnil) ->
     bound iq st0 (fill_block_argument st1 base iq (a_block a)) base
       (combine (names s) (pos ++ keys ++ match s_block s with Some _ => [bcell (a_block a)] | None => [] end))).
  { intros st1 keys Hk Hs1 Hl1 Hh1 Hn1. eapply bound_of; eauto.
    - rewrite !zlen_app, Hpos, Hk, Hnl. destruct (s_block s); cbn; lia.
    - unfold fill_block_argument. rewrite Hv. cbn [with_table slots lc_block]. destruct (s_block s); exact Hs1.
    - intros j Hj. unfold fill_block_argument. rewrite Hv. cbn [with_table slots lc_block].
      destruct (s_block s); [|apply Hl1; exact Hj]. cbn [buf]. unfold mset.
      destruct (Z.eqb_spec j (base + (npos s + zlen (s_key s) + zlen (opt_list (s_kwrest s))))); [lia|apply Hl1; exact Hj].
    - unfold fill_block_argument. rewrite Hv. cbn [with_table slots lc_block]. rewrite app_assoc.
      destruct (s_block s); [|rewrite app_nil_r; exact Hh1]. cbn [buf]. apply holds_app. split.
      + apply holds_mset; [rewrite zlen_app; lia|exact Hh1].
      + apply holds_one. unfold mset. rewrite zlen_app, Hpos, Hk.
        destruct (Z.eqb_spec (base + (npos s + (zlen (s_key s) + zlen (opt_list (s_kwrest s)))))
                             (base + (npos s + zlen (s_key s) + zlen (opt_list (s_kwrest s))))); [|lia].
        destruct (a_block a); reflexivity.
    - intros j Hj. rewrite Hnl in Hj. unfold fill_block_argument. rewrite Hv. cbn [with_table slots lc_block].
      destruct (s_block s); cbn [opt_list buf] in *; [|apply Hn1; change (zlen []) with 0 in Hj; lia].
      unfold mset. change (zlen [z]) with 1 in Hj.
      destruct (Z.eqb_spec (base + j) (base + (npos s + zlen (s_key s) + zlen (opt_list (s_kwrest s))))); [lia|].
      apply Hn1. lia. }
  unfold keyword_step. rewrite Hp, takes_sig. cbn [sig_params ip_kwrest].
  destruct (takes_kw s) eqn:Et.
  2: { assert (Ek : s_key s = [] /\ s_kwrest s = None).
       { unfold takes_kw in Et. destruct (s_key s); [destruct (s_kwrest s); [discriminate|auto]|discriminate]. }
       destruct Ek as [Ek Er]. rewrite Er. cbn [has orb andb]. exists st. split; [reflexivity|].
       apply (Fin st []); rewrite ?Ek, ?Er; auto.
       - rewrite app_nil_r. exact Hh.
       - rewrite Ek in Hnil. cbn in *. intros j Hj. apply Hnil. lia. }
  cbn [andb].
  assert (Hms : forall k i, nth_error (map fst (s_key s)) i = Some k -> buf st (base + npos s + Z.of_nat i) = cuninit).
  { intros k i Hi. apply Hkw. assert (i < length (map fst (s_key s)))%nat by (apply nth_error_Some; congruence).
    rewrite map_length in H. unfold zlen. lia. }
  assert (Efill := fill_keywords_ok (map fst (s_key s)) (npos s) (sig_params s) base keyword_of_sig Hkn (kw_list (a_kw a)) (buf st) [] Hnd).
  cbn [sig_params ip_kwrest app] in Efill.
  assert (Emand : forallb (fun kd : Z * bool => snd kd || match given (fst kd) (kw_list (a_kw a)) with Some _ => true | None => false end) (s_key s) = true).
  { apply forallb_forall. intros [k d] Hi. cbn [fst snd]. destruct d; [reflexivity|]. specialize (Hman k Hi).
    destruct (given k (kw_list (a_kw a))); [reflexivity|congruence]. }
  (* what fill_keyword_arguments gives *)
  assert (FK : match spec_keys s (kw_list (a_kw a)) with
     | None => fill_keyword_arguments st base iq (kw_list (a_kw a)) = Err ArgErr
     | Some keys => exists st1, fill_keyword_arguments st base iq (kw_list (a_kw a)) = Ok st1 /\
         zlen keys = zlen (s_key s) + zlen (opt_list (s_kwrest s)) /\
         sp st1 = base + iq_lvars iq /\ (forall j, j < base -> buf st1 j = buf st0 j) /\
         holds (buf st1) base (pos ++ keys) /\
         (forall j, npos s + zlen (s_key s) + zlen (opt_list (s_kwrest s)) <= j < iq_lvars iq -> buf st1 (base + j) = cnil)
     end).
  { unfold fill_keyword_arguments, spec_keys. rewrite Hp.
    assert (Eb : (match s_kwrest s with None => negb (forallb (fun kv => is_key s (fst kv)) (kw_list (a_kw a))) | Some _ => false end) =
                 negb (has (s_kwrest s)) && negb (forallb (fun kv => inb (fst kv) (map fst (s_key s))) (kw_list (a_kw a)))).
    { assert (Ef : forall l, forallb (fun kv : Z * cell => is_key s (fst kv)) l = forallb (fun kv => inb (fst kv) (map fst (s_key s))) l).
      { induction l as [|x l IH]; [reflexivity|]. cbn. rewrite IH, is_key_inb. reflexivity. }
      rewrite Ef. destruct (s_kwrest s); reflexivity. }
    rewrite Eb. fold (sig_params s). destruct (negb (has (s_kwrest s)) && _).
    - rewrite Efill. reflexivity.
    - rewrite Emand. cbn [negb]. destruct Efill as (m' & E & H1 & H2). rewrite E. cbn [rbind].
      eexists. split; [reflexivity|]. rewrite Hv. cbn [with_table slots lc_kwrest sp buf].
      assert (Hkl : zlen (map (fun kd => match given (fst kd) (kw_list (a_kw a)) with Some v => v | None => cuninit end) (s_key s)) = zlen (s_key s)) by apply zlen_map.
      split.
      { rewrite zlen_app, Hkl. destruct (s_kwrest s); reflexivity. }
      split; [exact Hsp|].
      assert (Hlow' : forall j, j < base -> m' j = buf st0 j).
      { intros j Hj. rewrite H2 by lia. apply Hlow. exact Hj. }
      assert (Hh' : holds m' base (pos ++ map (fun kd => match given (fst kd) (kw_list (a_kw a)) with Some v => v | None => cuninit end) (s_key s))).
      { apply holds_app. split.
        - eapply holds_ext; [|exact Hh]. intros j Hj. apply H2. lia.
        - rewrite Hpos. intros i c Hi. rewrite nth_error_map in Hi. destruct (nth_error (s_key s) i) as [[k d]|] eqn:Ei; [|discriminate].
          cbn in Hi. injection Hi as <-.
          assert (Ek : nth_error (map fst (s_key s)) i = Some k) by (rewrite nth_error_map, Ei; reflexivity).
          rewrite (H1 i k Ek). destruct (given k (kw_list (a_kw a))); [reflexivity|]. exact (Hms k i Ek). }
      destruct (s_kwrest s) as [kr|]; cbn [opt_list].
      + split; [|split].
        * intros j Hj. unfold mset. destruct (Z.eqb_spec j (base + (npos s + zlen (s_key s)))); [lia|apply Hlow'; exact Hj].
        * rewrite app_assoc. apply holds_app. split.
          -- apply holds_mset; [rewrite zlen_app, Hkl; lia|exact Hh'].
          -- apply holds_one. rewrite zlen_app, Hkl, Hpos. unfold mset. rewrite Z.eqb_refl.
             f_equal. apply filter_ext. intros [k v]. rewrite is_key_inb. reflexivity.
        * intros j Hj. change (zlen [kr]) with 1 in Hj. unfold mset.
          destruct (Z.eqb_spec (base + j) (base + (npos s + zlen (s_key s)))); [lia|].
          rewrite H2 by (rewrite zlen_map; lia). apply Hnil. lia.
      + rewrite app_nil_r. split; [exact Hlow'|]. split; [exact Hh'|].
        intros j Hj. change (zlen []) with 0 in Hj. rewrite H2 by (rewrite zlen_map; lia). apply Hnil. lia. }
  assert (Ego : (if has (s_kwrest s) || has_kw a
                 then fill_keyword_arguments st base iq (if has_kw a then match a_kw a with Some h => h | None => [] end else [])
                 else Ok st) =
                (if has (s_kwrest s) || has_kw a then fill_keyword_arguments st base iq (kw_list (a_kw a)) else Ok st)).
  { unfold has_kw, kw_list. destruct (a_kw a); reflexivity. }
  rewrite Ego. destruct (has (s_kwrest s) || has_kw a) eqn:Eg.
  - destruct (spec_keys s (kw_list (a_kw a))) as [keys|] eqn:Ek; [|exact FK].
    destruct FK as (st1 & E & Hk & Hs1 & Hl1 & Hh1 & Hn1). exists st1. split; [exact E|]. apply Fin; assumption.
  - (* no keyword given and no keyword rest: all are left uninitialized *)
    apply Bool.orb_false_iff in Eg. destruct Eg as [Eg1 Eg2].
    assert (Ea : a_kw a = None) by (unfold has_kw in Eg2; destruct (a_kw a); [discriminate|reflexivity]).
    assert (Er : s_kwrest s = None) by (destruct (s_kwrest s); [discriminate|reflexivity]).
    rewrite Ea in *. cbn [kw_list] in *.
    unfold spec_keys. rewrite Er. cbn [forallb negb]. rewrite Emand. cbn [negb given]. rewrite app_nil_r.
    exists st. split; [reflexivity|]. apply Fin; auto.
    + rewrite zlen_map, Er. cbn. lia.
    + apply holds_app. split; [exact Hh|]. rewrite Hpos. intros i c Hi. rewrite nth_error_map in Hi.
      destruct (nth_error (s_key s) i) as [[k d]|] eqn:Ei; [|discriminate]. cbn in Hi. injection Hi as <-.
      apply (Hms k i). rewrite nth_error_map, Ei. reflexivity.
    + rewrite Er. cbn. intros j Hj. apply Hnil. lia.
Qed.
End Rest.
