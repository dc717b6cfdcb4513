(* Evaluating texts with bindings refines the scopes of SpecBinding. *)
From Coq Require Import Lia.
From Verif Require Import Base ModelValue ModelArray ModelFrame ModelMark ModelCodegen ModelScope ModelBinding SpecBinding ProofsFrame ProofsBinding.

Lemma slot_ok m F lo sc out e fs x w v :
  held m F lo sc out -> In e F -> (forall f, In f fs -> In f F) -> NoDup (e :: fs) ->
  out e = next fs -> linked out fs ->
  value_of x (map sc (e :: fs)) = Some w ->
  exists o k a kk,
    get_ctx x 0 0 [(map fst (sc e), false); ([], false)] (map (map fst) (map sc fs)) = Some (o, k) /\
    In a (e :: fs) /\ nth_error (sc a) kk = Some (x, w) /\
    slot m e (e - Z.of_nat (length (sc e)) - 1) o k = Ok (a - Z.of_nat (length (sc a)) - 1 + Z.of_nat kk) /\
    put x v (map sc (e :: fs)) = map (put_at a x v sc) (e :: fs).
Proof.
  intros H He Hin ND Ho Hl. inversion ND as [|? ? Hne NDf]; subst.
  cbn [map value_of put get_ctx].
  destruct (get_lvarid x (map fst (sc e))) as [k|] eqn:G.
  - destruct (lvarid_some x (sc e) k G) as (w' & A & B & C). rewrite A. intros [= <-].
    exists 0, k, e, (Z.to_nat k). rewrite Z2Nat.id by lia.
    repeat split; auto with datatypes.
    f_equal; [unfold put_at; now rewrite Z.eqb_refl|]. apply map_ext_in. intros b Hb. unfold put_at.
    destruct (Z.eqb_spec b e); [congruence|reflexivity].
  - apply lvarid_none in G. rewrite G. intros Hv.
    destruct (extern_slot x sc v fs 1 w NDf Hv) as (d & k & a & A & B & C & D).
    exists (1 + Z.of_nat d), (Z.of_nat k), a, k. cbn [get_lvarid]. change (0 + 1) with 1. rewrite A.
    assert (Ia : In a fs) by (eapply nth_error_In; eassumption).
    split; [reflexivity|]. split; [now right|]. split; [assumption|]. split.
    + unfold slot. destruct (Z.eqb_spec (1 + Z.of_nat d) 0) as [Q|_]; [lia|].
      replace (Z.to_nat (1 + Z.of_nat d)) with (S d) by lia.
      rewrite (linked_outer m F lo sc out H fs e He Hin Ho Hl d a B). cbn [rbind].
      destruct H as [H _]. destruct (H a (Hin a Ia)) as [(_ & Fl & _) _]. unfold get_lfp. rewrite Fl. reflexivity.
    + rewrite D. f_equal. unfold put_at. destruct (Z.eqb_spec e a) as [->|]; [contradiction|reflexivity].
Qed.

Lemma exec_ok F lo out e fs T ext : In e F -> (forall f, In f fs -> In f F) -> NoDup (e :: fs) ->
  out e = next fs -> linked out fs ->
  forall l m sc t known p code cs' outs bad,
  held m F lo sc out -> T = map fst (sc e) -> ext = map (map fst) (map sc fs) ->
  parse_stmts l [mkpctx t KBlk] ext = ([mkpctx T KBlk], p) ->
  gen_stmts T ext p = Ok code ->
  (forall y, known y <-> sees t ext y) ->
  meaning l known (map sc (e :: fs)) cs' outs bad ->
  exists m' sc', exec_code code m e (e - Z.of_nat (length (sc e)) - 1) = Ok (m', outs, bad) /\
    held m' F lo sc' out /\ cs' = map sc' (e :: fs) /\
    (forall b, ~ In b (e :: fs) -> sc' b = sc b) /\ (forall b, map fst (sc' b) = map fst (sc b)) /\
    (forall b y, In b F -> b - 1 <= y < b + 8 -> m' y = m y).
Proof.
  intros He Hin ND Ho Hl. induction l as [|s l IH]; intros m sc t known p code cs' outs bad H HT Hext HP HG HK HM.
  - injection HP as <- <-. injection HG as <-. destruct HM as (-> & -> & ->).
    exists m, sc. split; [reflexivity|]. split; [exact H|]. repeat split; trivial.
  - assert (Val : forall x, sees T ext x -> exists w, value_of x (map sc (e :: fs)) = Some w).
    { intros x Hx. subst T ext. unfold sees in Hx. apply local_value in Hx. cbn [map].
      destruct (value_of x (sc e :: map sc fs)) as [w|]; [eauto|congruence]. }
    destruct s as [x w|x|x]; cbn [parse_stmts] in HP.
    + destruct (sees_add t ext x) as (t' & A & S'). rewrite A in HP.
      destruct (parse_stmts l [mkpctx t' KBlk] ext) as [stk q] eqn:P. injection HP as -> <-.
      assert (Hx : sees T ext x) by (apply (parse_sees l t' ext T q P); apply S'; now left).
      destruct (Val x Hx) as (w0 & Hw).
      destruct (slot_ok m F lo sc out e fs x w0 w H He Hin ND Ho Hl Hw) as (o & k & a & kk & G & Ia & Hn & Sl & Pu).
      cbn [gen_stmts gen_stmt] in HG. rewrite HT, Hext, G in HG. cbn [rbind] in HG. rewrite <- HT, <- Hext in HG.
      destruct (gen_stmts T ext q) as [c|?|] eqn:Gq; try discriminate. injection HG as <-.
      assert (IaF : In a F) by (destruct Ia as [<-|Ia]; auto).
      destruct (held_put m F lo sc out a kk x w0 w H IaF Hn) as (H1 & Eq1 & _).
      cbn [meaning] in HM. rewrite Pu in HM.
      assert (Ext1 : ext = map (map fst) (map (put_at a x w sc) fs)).
      { rewrite Hext, !map_map. apply map_ext. intros b. now rewrite put_at_names. }
      assert (T1 : T = map fst (put_at a x w sc e)) by now rewrite put_at_names.
      destruct (IH _ (put_at a x w sc) t' (fun y => y = x \/ known y) q c cs' outs bad H1 T1 Ext1 P Gq) as (m' & sc' & X & Y1 & Y2 & Y3 & Y4 & Y5).
      { intros y. rewrite S', HK. tauto. }
      { exact HM. }
      exists m', sc'. cbn [exec_code]. rewrite Sl. cbn [rbind]. rewrite put_at_len in X.
      split; [exact X|]. split; [exact Y1|]. split; [exact Y2|]. split; [|split].
      * intros b Hb. rewrite Y3 by assumption. unfold put_at. destruct (Z.eqb_spec b a); [subst; contradiction|reflexivity].
      * intros b. rewrite Y4. apply put_at_names.
      * intros b y Hb Hy. rewrite (Y5 b y Hb Hy). now apply (Eq1 b y).
    + destruct (sees_add t ext x) as (t' & A & S'). rewrite A in HP.
      destruct (parse_stmts l [mkpctx t' KBlk] ext) as [stk q] eqn:P. injection HP as -> <-.
      assert (Hx : sees T ext x) by (apply (parse_sees l t' ext T q P); apply S'; now left).
      destruct (sees_ctx T ext x Hx) as ((o & k) & G).
      cbn [gen_stmts gen_stmt] in HG. rewrite G in HG. cbn [rbind] in HG.
      destruct (gen_stmts T ext q) as [c|?|] eqn:Gq; try discriminate. injection HG as <-.
      destruct (IH m sc t' (fun y => y = x \/ known y) q c cs' outs bad H HT Hext P Gq) as (m' & sc' & X); [|exact HM|].
      { intros y. rewrite S', HK. tauto. }
      exists m', sc'. exact X.
    + destruct (parse_stmts l [mkpctx t KBlk] ext) as [stk q] eqn:P. injection HP as -> <-.
      change (match get_lvarid x t with Some _ => true | None => in_extern x ext end)
        with (is_local_var x [mkpctx t KBlk] ext) in HG.
      destruct (is_local_var x [mkpctx t KBlk] ext) eqn:L.
      * assert (Hk : known x) by (apply HK; exact L).
        destruct HM as [(_ & w & o' & Vx & -> & HM)|(N & _)]; [|contradiction].
        destruct (slot_ok m F lo sc out e fs x w 0 H He Hin ND Ho Hl Vx) as (o & k & a & kk & G & Ia & Hn & Sl & _).
        cbn [gen_stmts gen_stmt] in HG. rewrite HT, Hext, G in HG. cbn [rbind] in HG. rewrite <- HT, <- Hext in HG.
        destruct (gen_stmts T ext q) as [c|?|] eqn:Gq; try discriminate. injection HG as <-.
        destruct (IH m sc t known q c cs' o' bad H HT Hext P Gq HK HM) as (m' & sc' & X & Y).
        exists m', sc'. cbn [exec_code]. rewrite Sl. cbn [rbind]. rewrite X. cbn [rbind].
        split; [|exact Y]. do 3 f_equal.
        assert (IaF : In a F) by (destruct Ia as [<-|Ia]; auto).
        destruct H as [H _]. destruct (H a IaF) as [(_ & _ & _ & _ & V) _]. f_equal. now apply (V kk x w).
      * assert (Hk : ~ known x) by (rewrite HK; unfold sees; congruence).
        destruct HM as [(N & _)|(_ & -> & -> & ->)]; [contradiction|].
        cbn [gen_stmts gen_stmt rbind] in HG.
        destruct (gen_stmts T ext q) as [c|?|] eqn:Gq; try discriminate. injection HG as <-.
        exists m, sc. split; [reflexivity|]. split; [exact H|]. repeat split; trivial.
Qed.

Lemma set_nth_eps j e t t' : forall l, nth_error l j = Some (e, t) -> eps (set_nth j (e, t') l) = eps l.
Proof.
  induction j as [|j IH]; intros [|(a, u) l]; cbn; try discriminate.
  - intros [= -> ->]. reflexivity.
  - intros H. f_equal. now apply IH.
Qed.
Lemma set_nth_in {A} j (p q : A) : forall l, In q (set_nth j p l) -> q = p \/ exists k, k <> j /\ nth_error l k = Some q.
Proof.
  induction j as [|j IH]; intros [|a l]; cbn; try tauto.
  - intros [->|H]; [auto|]. right. destruct (In_nth_error _ _ H) as (k & Hk). exists (S k). split; [discriminate|exact Hk].
  - intros [->|H]; [right; exists O; split; [discriminate|reflexivity]|].
    destruct (IH l H) as [->|(k & N & Hk)]; [auto|]. right. exists (S k). split; [congruence|exact Hk].
Qed.
Lemma nth_error_eps l j e t : nth_error l j = Some (e, t) -> nth_error (eps l) j = Some e.
Proof. intros H. unfold eps. now rewrite (map_nth_error fst j l H). Qed.
Lemma own_split (sc sc' : Z -> scope) e : forall bs j, nth_error bs j = Some e -> NoDup bs ->
  (forall b, In b bs -> b <> e -> sc' b = sc b) ->
  firstn j (map sc bs) ++ sc' e :: skipn (S j) (map sc bs) = map sc' bs.
Proof.
  induction bs as [|b r IH]; intros j Hj ND H; [destruct j; discriminate|].
  inversion ND as [|? ? Hb ND']; subst. destruct j as [|j]; cbn in Hj |- *.
  - injection Hj as ->. f_equal. apply map_ext_in. intros a Ha. symmetry. apply H; [now right|congruence].
  - rewrite <- (IH j Hj ND'); [|intros; apply H; [now right|assumption]].
    f_equal. symmetry. apply H; [now left|]. intros ->. apply Hb. eapply nth_error_In; eassumption.
Qed.

Lemma nodup_left {A} (a b : list A) : NoDup (a ++ b) -> NoDup a.
Proof.
  induction a as [|x r IH]; intros ND; [constructor|]. cbn in ND. inversion ND; subst. constructor; [|now apply IH].
  intros X. apply H1. apply in_or_app. now left.
Qed.

Lemma eval_ok i j t s w c c' cs' outs bad :
  shows s w -> nth_error (own w) j = Some c -> modest t c (shared w) ->
  meaning t (fun y => value_of y (c :: shared w) <> None) (declared t (c :: shared w)) (c' :: cs') outs bad ->
  exists s', eval_binding i j t s = Ok (s', outs, bad) /\
    shows s' (mkw (firstn j (own w) ++ c' :: skipn (S j) (own w)) cs') /\
    (forall k, (k < length (bindings s))%nat -> receiver s' k = receiver s k).
Proof.
  intros (lo & sc & out & Hown & Hsh & Hfs & (ND & Hlo & Hreg & Hdis) & Hall & Hb & Hlink & Hmf) Hj Hmod HM.
  destruct s as [v bsl fsl]. cbn [vmof bindings frames] in *.
  set (bs := eps bsl) in *. set (fs := eps fsl) in *.
  rewrite Hown in Hj.
  assert (Hj' : exists e T0, nth_error bsl j = Some (e, T0) /\ c = sc e).
  { unfold bs, eps in Hj. rewrite map_map in Hj. destruct (nth_error bsl j) as [[e T0]|] eqn:E.
    - rewrite (map_nth_error _ j bsl E) in Hj. cbn in Hj. injection Hj as <-. eauto.
    - exfalso. apply nth_error_None in E. assert (nth_error (map (fun x => sc (fst x)) bsl) j <> None) by congruence.
      apply nth_error_Some in H. rewrite map_length in H. lia. }
  destruct Hj' as (e & T0 & Ej & ->).
  assert (Iet : In (e, T0) (bsl ++ fsl)) by (apply in_or_app; left; eapply nth_error_In; eassumption).
  destruct (Hall e T0 Iet) as [HT0 Hfe].
  assert (Ebs : nth_error bs j = Some e) by (now apply (nth_error_eps bsl j e T0)).
  assert (Ie : In e bs) by (eapply nth_error_In; eassumption).
  assert (IeF : In e (bs ++ fs)) by (apply in_or_app; now left).
  assert (Hheld : held (mem v) (bs ++ fs) lo sc out).
  { split; [|exact Hdis]. intros a Ha. split; [|apply (Hreg a Ha)].
    unfold bs, fs, eps in Ha. rewrite <- map_app in Ha. apply in_map_iff in Ha. destruct Ha as ((a' & u) & <- & Hau). now apply (Hall a' u). }
  assert (NDe : NoDup (map fst (sc e))) by (destruct Hfe as (_ & _ & _ & X & _); exact X).
  rewrite Hsh in *.
  destruct (parse_ok t (sc e) (map sc fs) NDe) as (cT & p & HD & (add & EcT & Hadd) & NDT & HP).
  rewrite HD in HM.
  destruct Hmod as (c1 & cs1 & HD' & Len1 & Len2). rewrite HD in HD'. injection HD' as <- <-.
  set (ext := map (map fst) (map sc fs)) in *.
  assert (Eext : map snd fsl = ext).
  { unfold ext, fs, eps. rewrite !map_map. apply map_ext_in. intros (a, u) Ha. cbn.
    apply (Hall a u). apply in_or_app. now right. }
  unfold eval_binding. cbn [bindings frames vmof]. rewrite Ej, Eext.
  unfold parse_program_binding. rewrite HT0, HP. cbn [pc_table].
  destruct (gen_ok t (map fst (sc e)) ext (map fst cT) p HP) as (code & HG). rewrite HG. cbn [rbind].
  assert (Ezl : zlen (map fst cT) = Z.of_nat (length cT)) by (unfold zlen; now rewrite map_length).
  rewrite Ezl.
  destruct (set_iseq_spec (mem v) e (sc e) (out e) i (length cT) Hfe) with (add := add) as (m1 & HS & Hf1 & Out1 & Self1);
    [rewrite EcT, app_length; lia|lia|lia|now rewrite EcT|assumption|now rewrite <- EcT|].
  rewrite HS. cbn [rbind]. rewrite <- EcT in Hf1.
  set (sc1 := fun b => if b =? e then cT else sc b).
  assert (Sc1e : sc1 e = cT) by (unfold sc1; now rewrite Z.eqb_refl).
  assert (Sc1o : forall b, b <> e -> sc1 b = sc b).
  { intros b Hbe. unfold sc1. destruct (Z.eqb_spec b e); [contradiction|reflexivity]. }
  assert (Ag1 : forall b y, In b (bs ++ fs) -> b <> e -> lo b <= y < b + 8 -> m1 y = mem v y).
  { intros b y Hbb Hne Hy. apply Out1. pose proof (Hlo e Ie) as L. destruct (Hdis e b IeF Hbb ltac:(congruence)); lia. }
  assert (Hheld1 : held m1 (bs ++ fs) lo sc1 out).
  { split; [|exact Hdis]. intros b Hbb. destruct (Z.eq_dec b e) as [->|Hne].
    - rewrite Sc1e. split; [exact Hf1|]. rewrite (Hlo e Ie). lia.
    - rewrite Sc1o by assumption. destruct Hheld as [Hh _]. destruct (Hh b Hbb) as [Fb Lb]. split; [|exact Lb].
      apply (frame_agree (mem v) m1 b (sc b) (out b) (lo b) Fb Lb). intros y Hy. now apply (Ag1 b). }
  assert (Efs : forall f, In f fs -> f <> e).
  { intros f Hf ->. revert ND Ie Hf. clear. induction bs as [|b r IH]; intros ND Hb Hf; [destruct Hb|].
    cbn in ND. inversion ND; subst. destruct Hb as [->|Hb]; [|now apply IH]. apply H1. apply in_or_app. now right. }
  assert (Msc1 : map sc1 fs = map sc fs) by (apply map_ext_in; intros f Hf; now apply Sc1o, Efs).
  assert (NDfs : NoDup (e :: fs)).
  { constructor; [intros Hf; now apply (Efs e Hf)|]. revert ND. clear. induction bs as [|b r IH]; [trivial|]. cbn. intros ND. inversion ND; subst. now apply IH. }
  destruct (Hb e Ie) as [Hoe Hselfe].
  assert (Hin : forall f, In f fs -> In f (bs ++ fs)) by (intros; apply in_or_app; now right).
  destruct (exec_ok (bs ++ fs) lo out e fs (map fst cT) ext IeF Hin NDfs Hoe Hlink t m1 sc1 (map fst (sc e))
             (fun y => value_of y (sc e :: map sc fs) <> None) p code (c' :: cs') outs bad Hheld1)
    as (m2 & sc2 & HE & Hheld2 & Hcs & Hkeep & Hnames & Hsame);
    [now rewrite Sc1e|unfold ext; now rewrite Msc1|exact HP|exact HG|intros y; symmetry; apply local_value|
     cbn [map]; rewrite Sc1e, Msc1; exact HM|].
  assert (Lfp : get_lfp m1 e = e - Z.of_nat (length (sc1 e)) - 1).
  { unfold get_lfp. destruct Hf1 as (_ & Fl & _). rewrite Fl, Sc1e. reflexivity. }
  rewrite Lfp, HE. cbn [rbind]. eexists; split; [reflexivity|].
  cbn [map] in Hcs. injection Hcs as Ec' Ecs'.
  assert (Selfs : forall b, In b (bs ++ fs) -> self_value m2 b = self_value (mem v) b).
  { intros b Hbb. unfold self_value. rewrite (Hsame b (b - 1) Hbb) by lia.
    destruct (Z.eq_dec b e) as [->|Hne]; [exact Self1|]. apply (Ag1 b); trivial. specialize (Hreg b Hbb). lia. }
  assert (Keepb : forall b, In b bs -> b <> e -> sc2 b = sc b).
  { intros b Hbb Hne. rewrite Hkeep; [now apply Sc1o|]. intros [X|X]; [congruence|].
    revert ND Hbb X. clear. induction bs as [|a r IH]; intros ND Ha X; [destruct Ha|].
    cbn in ND. inversion ND; subst. destruct Ha as [->|Ha]; [|now apply IH]. apply H1. apply in_or_app. now right. }
  assert (Names2 : forall b, b <> e -> map fst (sc2 b) = map fst (sc b)).
  { intros b Hne. rewrite Hnames. now rewrite Sc1o. }
  split.
  - exists lo, sc2, out. cbn [vmof bindings frames own shared hp set_mem mem].
    rewrite (set_nth_eps j e T0 (map fst cT) bsl Ej). fold bs fs.
    assert (Len2' : forall b, In b (bs ++ fs) -> lo b <= b - Z.of_nat (length (sc2 b)) - 2).
    { intros b Hbb. destruct Hheld2 as [Hh _]. now apply Hh. }
    split; [|split; [|split; [|split; [|split; [|split; [|split]]]]]].
    + rewrite Hown. rewrite Ec'. apply own_split; trivial. revert ND. clear. induction bs as [|b r IH]; intros ND; [constructor|].
      cbn in ND. inversion ND; subst. constructor; [|now apply IH]. intros X. apply H1. apply in_or_app. now left.
    + exact Ecs'.
    + exact Hfs.
    + split; [exact ND|]. split; [exact Hlo|]. split; [|exact Hdis].
      intros a Ha. destruct (Hreg a Ha) as (X1 & _ & X3). split; [exact X1|]. split; [now apply Len2'|exact X3].
    + intros a u Hau.
      assert (Haf : In a (bs ++ fs)).
      { rewrite <- (set_nth_eps j e T0 (map fst cT) bsl Ej) || idtac. unfold bs, fs, eps in *.
        apply in_app_or in Hau. apply in_or_app. destruct Hau as [Hau|Hau].
        - left. destruct (set_nth_in j _ _ _ Hau) as [[= -> ->]|(k & _ & Hk)]; [assumption|].
          apply nth_error_In in Hk. now apply (in_map fst) in Hk.
        - right. now apply (in_map fst) in Hau. }
      split; [|destruct Hheld2 as [Hh _]; now apply Hh].
      apply in_app_or in Hau. destruct Hau as [Hau|Hau].
      * destruct (set_nth_in j _ _ _ Hau) as [[= -> ->]|(k & Hkj & Hk)].
        -- rewrite Hnames, Sc1e. reflexivity.
        -- assert (a <> e).
           { intros ->. apply Hkj. apply nth_error_eps in Hk. fold bs in Hk.
             apply nodup_left in ND. rewrite NoDup_nth_error in ND. apply ND; [apply nth_error_Some; congruence|congruence]. }
           rewrite Names2 by assumption. apply (Hall a u). apply in_or_app. left. eapply nth_error_In; eassumption.
      * assert (a <> e) by (apply Efs; now apply (in_map fst) in Hau).
        rewrite Names2 by assumption. apply (Hall a u). apply in_or_app. now right.
    + intros b Hbb. destruct (Hb b Hbb) as [X Y]. split; [exact X|]. intros f Hf.
      rewrite (Selfs b) by (apply in_or_app; now left). rewrite (Selfs f); [now apply Y|].
      apply Hin. destruct fs; [discriminate|]. injection Hf as ->. now left.
    + exact Hlink.
    + intros f Hf. destruct (Hmf f Hf) as (X & mf & Y). split; [exact X|]. exists mf.
      assert (If : In f fs) by (destruct fs; [discriminate|]; injection Hf as ->; now left).
      unfold mfp, is_ruby, EV_FLAG, EV_MFP in *. rewrite !(Hsame f) by (auto; lia).
      rewrite !(Ag1 f); auto; specialize (Hreg f (Hin f If)); lia.
  - intros k Hk. unfold receiver. cbn [bindings vmof mem set_mem].
    assert (Hkb : nth_error (eps (set_nth j (e, map fst cT) bsl)) k = nth_error (eps bsl) k) by now rewrite (set_nth_eps j e T0).
    unfold eps in Hkb. rewrite !nth_error_map in Hkb.
    destruct (nth_error bsl k) as [[b u]|] eqn:Eb; cbn in Hkb;
      destruct (nth_error (set_nth j (e, map fst cT) bsl) k) as [[b' u']|]; cbn in Hkb; try discriminate; [|reflexivity].
    injection Hkb as ->. rewrite Selfs; [reflexivity|]. apply in_or_app. left. apply nth_error_eps in Eb. eapply nth_error_In; eassumption.
Qed.

Lemma write_out l : forall m a x, x < a \/ a + Z.of_nat (length l) <= x -> write m a l x = m x.
Proof.
  induction l as [|w r IH]; intros m a x H; cbn [write]; [reflexivity|]. cbn [length] in H.
  rewrite IH by lia. apply upd_other. lia.
Qed.
Lemma write_at l : forall m a k w, nth_error l k = Some w -> write m a l (a + Z.of_nat k) = w.
Proof.
  induction l as [|w r IH]; intros m a k w' H; [destruct k; discriminate|]. destruct k as [|k]; cbn [write].
  - cbn in H. injection H as ->. rewrite write_out by lia. rewrite Z.add_0_r. apply upd_same.
  - replace (a + Z.of_nat (S k)) with (a + 1 + Z.of_nat k) by lia. now apply IH.
Qed.
Lemma new_ok i s w : shows s w ->
  exists s', new_binding_of i s = Ok s' /\ shows s' (mkw (own w ++ [[]]) (shared w)) /\
    (forall k, (k < length (bindings s))%nat -> receiver s' k = receiver s k).
Proof.
  intros (lo & sc & out & Hown & Hsh & Hfs & (ND & Hlo & Hreg & Hdis) & Hall & Hb & Hlink & Hmf).
  destruct s as [v bsl fsl]. cbn [vmof bindings frames] in *.
  destruct fsl as [|[o u] fsl']; [now destruct Hfs|].
  set (fsl := (o, u) :: fsl') in *. set (bs := eps bsl) in *. set (fs := eps fsl) in *.
  assert (Ho : next fs = Some o) by reflexivity.
  assert (IoF : In o (bs ++ fs)) by (apply in_or_app; right; now left).
  destruct (Hmf o Ho) as (Ho60 & mf & Hmfo). destruct (Hreg o IoF) as (R1 & R2 & R3).
  unfold new_binding_of. cbn [frames vmof bindings]. unfold fsl at 1.
  unfold new_binding. change (negb (0 <? 64)) with false. cbn iota beta.
  set (e := hp v + 65). set (self := self_value (mem v) o).
  set (words := repeat NIL_VALUE (Z.to_nat (64 - 0 - 1)) ++ self :: repeat NIL_VALUE (Z.to_nat 0) ++ self ::
               [enc 0; enc 0; ruby_flag true 0] ++ heap_env_frame (Some o) i).
  assert (Lw : length words = 73%nat) by reflexivity.
  set (m0 := upd (write (mem v) (hp v) words) (e + EV_EP) (enc e)).
  assert (M0 : forall y, y < hp v \/ hp v + 73 <= y -> m0 y = mem v y).
  { intros y Hy. unfold m0. rewrite upd_other by (unfold e, EV_EP; lia). apply write_out. rewrite Lw. lia. }
  assert (Hmf0 : mfp m0 o = Ok mf).
  { unfold mfp, is_ruby, EV_FLAG, EV_MFP in *. rewrite !M0 by lia. exact Hmfo. }
  rewrite Hmf0. cbn [rbind]. eexists; split; [reflexivity|].
  set (m1 := upd m0 (e + EV_MFP) (enc mf)).
  assert (M1 : forall y, y < hp v \/ hp v + 73 <= y -> m1 y = mem v y).
  { intros y Hy. unfold m1. rewrite upd_other by (unfold e, EV_MFP; lia). now apply M0. }
  assert (At : forall k w, nth_error words k = Some w -> hp v + Z.of_nat k <> e + 1 -> hp v + Z.of_nat k <> e + 3 ->
               m1 (hp v + Z.of_nat k) = w).
  { intros k w0 Hk N1 N3. unfold m1, m0. rewrite !upd_other by (unfold EV_MFP, EV_EP; lia). now apply write_at. }
  assert (Fl : m1 (e + 2) = ruby_flag true 0).
  { replace (e + 2) with (hp v + Z.of_nat 67) by (unfold e; lia). apply At; [reflexivity|unfold e; lia|unfold e; lia]. }
  assert (Ou : m1 (e + 4) = enc o).
  { replace (e + 4) with (hp v + Z.of_nat 69) by (unfold e; lia). apply At; [reflexivity|unfold e; lia|unfold e; lia]. }
  assert (Se : m1 (e - 1) = self).
  { replace (e - 1) with (hp v + Z.of_nat 64) by (unfold e; lia). apply At; [reflexivity|unfold e; lia|unfold e; lia]. }
  assert (Below : forall a, In a (bs ++ fs) -> a + 8 <= hp v) by (intros a Ha; now apply Hreg).
  assert (Ne : forall a, In a (bs ++ fs) -> a <> e) by (intros a Ha ->; specialize (Below _ Ha); unfold e in Below; lia).
  assert (Sc : forall a, In a (bs ++ fs) -> (if a =? e then [] else sc a) = sc a).
  { intros a Ha. destruct (Z.eqb_spec a e); [exfalso; now apply (Ne a Ha)|reflexivity]. }
  assert (Holds : forall a, In a (bs ++ fs) -> frame_holds (mem v) a (sc a) (out a)).
  { intros a Ha. unfold bs, fs, eps in Ha. rewrite <- map_app in Ha. apply in_map_iff in Ha.
    destruct Ha as ((a' & t) & <- & Hat). now apply (Hall a' t). }
  assert (Selfs : forall a, In a (bs ++ fs) -> self_value m1 a = self_value (mem v) a).
  { intros a Ha. unfold self_value. apply M1. specialize (Below a Ha). lia. }
  assert (Hperm : forall a, In a ((bs ++ [e]) ++ fs) -> a = e \/ In a (bs ++ fs)).
  { intros a. rewrite !in_app_iff. cbn. intuition. }
  split.
  - exists (fun a => if a =? e then e - 65 else lo a), (fun a => if a =? e then [] else sc a), (fun a => if a =? e then Some o else out a).
    cbn [vmof bindings frames own shared hp set_mem set_hp mem].
    replace (eps (bsl ++ [(e, [])])) with (bs ++ [e]) by (unfold bs, eps; now rewrite map_app).
    fold fs m1. split; [|split; [|split; [|split; [|split; [|split; [|split]]]]]].
    + rewrite map_app, Hown. cbn [map]. rewrite Z.eqb_refl. f_equal. apply map_ext_in. intros a Ha. symmetry.
      apply Sc. apply in_or_app. now left.
    + rewrite Hsh. apply map_ext_in. intros a Ha. symmetry. apply Sc. apply in_or_app. now right.
    + exact Hfs.
    + split; [|split; [|split]].
      * rewrite <- app_assoc. cbn. apply NoDup_Add with (a := e) (l := bs ++ fs); [apply Add_app|].
        split; [exact ND|]. intros X. now apply (Ne e X).
      * intros a Ha. destruct (Z.eqb_spec a e) as [->|N]; [reflexivity|]. apply Hlo.
        apply in_app_or in Ha. destruct Ha as [Ha|[Ha|[]]]; congruence.
      * intros a Ha. change (zlen words) with 73. destruct (Hperm a Ha) as [->|Ha'].
        -- rewrite Z.eqb_refl. cbn [length]. unfold e. lia.
        -- destruct (Z.eqb_spec a e) as [E|_]; [exfalso; now apply (Ne a Ha')|]. destruct (Hreg a Ha') as (X & Y & Z). lia.
      * intros a b Ha Hbb Hab. change (hp v) with (e - 65 + 0) in Below || idtac.
        destruct (Hperm a Ha) as [->|Ha']; destruct (Hperm b Hbb) as [->|Hb']; try congruence.
        -- rewrite Z.eqb_refl. destruct (Z.eqb_spec b e) as [E|_]; [congruence|]. right. specialize (Below b Hb'). unfold e. lia.
        -- rewrite Z.eqb_refl. destruct (Z.eqb_spec a e) as [E|_]; [congruence|]. left. specialize (Below a Ha'). unfold e. lia.
        -- destruct (Z.eqb_spec b e) as [E|_]; [exfalso; now apply (Ne b Hb')|].
           destruct (Z.eqb_spec a e) as [E|_]; [exfalso; now apply (Ne a Ha')|]. now apply Hdis.
    + intros a t Hat. rewrite <- app_assoc in Hat. apply in_app_or in Hat.
      assert (Hor : (a, t) = (e, []) \/ In (a, t) (bsl ++ fsl)).
      { destruct Hat as [Hat|Hat]; [right; apply in_or_app; now left|]. cbn in Hat.
        destruct Hat as [Hat|Hat]; [left; congruence|right; apply in_or_app; now right]. }
      destruct Hor as [[= -> ->]|Hin].
      * rewrite Z.eqb_refl. split; [reflexivity|].
        unfold frame_holds, is_ruby, flag_len, outer, is_ruby, EV_FLAG, EV_OUTER. rewrite Fl, Ou.
        split; [reflexivity|]. split; [reflexivity|]. split; [|split; [constructor|intros [|k] ? ?; discriminate]].
        change (negb (Z.land (ruby_flag true 0) FLG_IS_RUBY =? 0)) with true. cbn iota.
        rewrite dec_enc by lia. reflexivity.
      * assert (Ia : In a (bs ++ fs)).
        { unfold bs, fs, eps. rewrite <- map_app. now apply (in_map fst) in Hin. }
        rewrite (Sc a Ia). destruct (Z.eqb_spec a e) as [E|_]; [exfalso; now apply (Ne a Ia)|].
        split; [now apply (Hall a t)|]. destruct (Hreg a Ia) as (X1 & X2 & X3).
        apply (frame_agree (mem v) m1 a (sc a) (out a) (lo a)); [now apply Holds|exact X2|].
        intros y Hy. apply M1. lia.
    + intros b Hbb. apply in_app_or in Hbb. destruct Hbb as [Hbb|[<-|[]]].
      * assert (Ib : In b (bs ++ fs)) by (apply in_or_app; now left).
        destruct (Z.eqb_spec b e) as [E|_]; [exfalso; now apply (Ne b Ib)|].
        destruct (Hb b Hbb) as [X Y]. split; [exact X|]. intros f Hf. rewrite (Selfs b Ib).
        injection Hf as <-. rewrite (Selfs o IoF). now apply Y.
      * rewrite Z.eqb_refl. split; [reflexivity|]. intros f Hf. injection Hf as <-. rewrite (Selfs o IoF). exact Se.
    + assert (G : forall l, (forall a, In a l -> In a fs) -> linked out l -> linked (fun a => if a =? e then Some o else out a) l).
      { induction l as [|a r IH]; intros Hin Hl; [exact I|]. destruct Hl as [X Y]. split; [|apply IH; auto with datatypes].
        destruct (Z.eqb_spec a e) as [E|_]; [|exact X]. exfalso. apply (Ne a); [|exact E]. apply in_or_app. right. apply Hin. now left. }
      now apply G.
    + intros f Hf. injection Hf as <-. split; [exact Ho60|]. exists mf.
      unfold mfp, is_ruby, EV_FLAG, EV_MFP in *. rewrite !M1 by lia. exact Hmfo.
  - intros k Hk. cbn [bindings] in Hk. unfold receiver. cbn [bindings vmof mem set_mem set_hp].
    rewrite nth_error_app1 by assumption. destruct (nth_error bsl k) as [[b t]|] eqn:E; [|reflexivity].
    fold m1. rewrite Selfs; [reflexivity|]. apply in_or_app. left. apply nth_error_eps in E. eapply nth_error_In; eassumption.
Qed.

Lemma history_ok l w w' outs : history l w w' outs -> forall s, shows s w ->
  exists s', run_ops l s = Ok (s', outs) /\ shows s' w' /\
    (length (bindings s) <= length (bindings s'))%nat /\
    forall k, (k < length (bindings s))%nat -> receiver s' k = receiver s k.
Proof.
  assert (Len : forall s w, shows s w -> length (bindings s) = length (own w)).
  { intros s w0 (lo & sc & out & H & _). rewrite H. unfold eps. now rewrite !map_length. }
  induction 1 as [w|i l w w' outs H IH|i j t l w w' c c' cs' out bad outs Hj Hm HM H IH]; intros s Hs.
  - exists s. repeat split; trivial.
  - destruct (new_ok i s w Hs) as (s1 & E1 & S1 & R1). destruct (IH s1 S1) as (s2 & E2 & S2 & L2 & R2).
    pose proof (Len s w Hs) as A. pose proof (Len s1 _ S1) as B. cbn [own] in B. rewrite app_length in B. cbn in B.
    exists s2. cbn [run_ops]. rewrite E1. cbn [rbind]. rewrite E2. repeat split; trivial; [lia|].
    intros k Hk. rewrite R2 by lia. now apply R1.
  - destruct (eval_ok i j t s w c c' cs' out bad Hs Hj Hm HM) as (s1 & E1 & S1 & R1).
    destruct (IH s1 S1) as (s2 & E2 & S2 & L2 & R2).
    pose proof (Len s w Hs) as A. pose proof (Len s1 _ S1) as B. cbn [own] in B.
    assert (J : (j < length (own w))%nat) by (apply nth_error_Some; congruence).
    rewrite app_length in B. cbn [length] in B. rewrite firstn_length, skipn_length in B.
    exists s2. cbn [run_ops]. rewrite E1. cbn [rbind]. rewrite E2. cbn [rbind]. repeat split; trivial; [lia|].
    intros k Hk. rewrite R2 by lia. now apply R1.
Qed.
