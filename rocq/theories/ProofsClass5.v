(* Histories: every reachable world is well formed; caches agree with lookup. *)
From Verif Require Import Base ProofsBase ModelArray ProofsArray ModelGC ProofsGC ModelClass SpecClass ProofsClass ProofsClass2 ProofsClass3 ProofsClass4.
Ltac Zify.zify_post_hook ::= Z.div_mod_to_equations.

Lemma wf_world0 : Wf world0.
Proof.
  constructor; cbn; try (intros; congruence).
  - intros a Ha. cbn in Ha. congruence.
  - split; [constructor|intros a []].
  - unfold NIL_ADDR. split; [lia|intros a []].
  - lia.
Qed.
Lemma ev_if {A} (b : bool) (F : nat -> res A) k x : eventually (fun f => (if b then F f else Err k) = Ok x) -> b = true /\ eventually (fun f => F f = Ok x).
Proof. destruct b; [auto|]. intros [N H]. specialize (H N ltac:(lia)). discriminate. Qed.
Lemma ev_here {A} (F : nat -> res A) x : eventually (fun f => F f = Ok x) -> exists N, F N = Ok x.
Proof. intros [N H]. exists N. apply H. lia. Qed.

(* everything one operation can do *)
Inductive effect (w w' : world) (o : op) : Prop :=
| e_plain : change w w' -> kchange w w' -> caches_same w w' -> (forall c m, o <> Include c m /\ o <> Prepend c m) -> effect w w' o
| e_mix : change w w' -> caches_same w w' -> (exists c m, o = Include c m \/ o = Prepend c m) -> effect w w' o
| e_const : agree w w' -> version w' = version w -> cversion w' = (cversion w + 1) mod 2 ^ 32 -> icache w' = icache w -> mcache w' = mcache w -> ccache w' = ccache w ->
    (exists c i v, o = SetConst c i v) -> effect w w' o
| e_cache : only_caches w w' -> (exists s c, o = Call s c) \/ (exists c n, o = Find c n) \/ (exists c n, o = Super c n) \/ (exists s, o = ReadConst s) \/ o = NewSite \/ o = NewConstSite -> effect w w' o.

Lemma step_ok site csite o w w' : Wf w -> op_ok o -> runs site csite o w w' -> Wf w' /\ effect w w' o.
Proof.
  intros W OK R. unfold runs in R. destruct o; cbn [exec op_ok] in *.
  - apply ev_if in R. destruct R as [C R]. apply ev_ok in R. injection R as E. destruct (new_class w false sup false cls) as [a w1] eqn:En. cbn in E. subst w1.
    destruct (new_class_step w false sup false cls a w' W) as (W' & C1 & C2 & C3); try discriminate; auto.
    { intros s ->. apply andb_prop in C. apply user_mod_ok. apply C. }
    split; [exact W'|]. apply e_plain; auto. split; discriminate.
  - apply ev_ok in R. injection R as E. destruct (new_class w true None false cls) as [a w1] eqn:En. cbn in E. subst w1.
    destruct (new_class_step w true None false cls a w' W) as (W' & C1 & C2 & C3); try discriminate; auto.
    split; [exact W'|]. apply e_plain; auto. split; discriminate.
  - apply ev_if in R. destruct R as [C R]. apply ev_ok in R. injection R as E. destruct (new_class w false (Some sup) true cls) as [a w1] eqn:En. cbn in E. subst w1.
    apply andb_prop in C. destruct C as [C Cc]. apply andb_prop in C. destruct C as [Cs _].
    destruct (new_class_step w false (Some sup) true cls a w' W) as (W' & C1 & C2 & C3); try discriminate; auto.
    { intros s [= ->]. apply user_mod_ok. exact Cs. } { intros _. apply user_mod_ok. exact Cc. }
    split; [exact W'|]. apply e_plain; auto. split; discriminate.
  - apply ev_if in R. destruct R as [C R]. apply andb_prop in C. destruct C as [C Cm]. apply andb_prop in C. destruct C as [C1 C2].
    destruct (include_step w c m w' W C1 C2 Cm OK R) as (W' & Ch & CS & _). split; [exact W'|]. apply e_mix; eauto.
  - apply ev_if in R. destruct R as [C R]. apply andb_prop in C. destruct C as [C Cm]. apply andb_prop in C. destruct C as [C1 C2].
    destruct (prepend_step w c m w' W C1 C2 Cm OK R) as (W' & Ch & CS & _). split; [exact W'|]. apply e_mix; eauto.
  - apply ev_if in R. destruct R as [C R]. apply ev_ok in R. destruct (add_method_step w c name fid w' W R) as (W' & C1 & C2 & C3). split; [exact W'|]. apply e_plain; auto. split; discriminate.
  - apply ev_if in R. destruct R as [C R]. apply ev_ok in R. destruct (set_const_step w c id v w' W R) as (W' & C1 & C2 & C3 & C4 & C5). split; [exact W'|].
    unfold set_const in R. apply bind_ok in R. destruct R as (m & Em & R). injection R as <-. apply e_const; auto; eauto.
    apply agree_refl; [reflexivity|]. intros e. cbn. unfold upd. destruct (Z.eqb_spec e (m_ext m)) as [->|]; auto.
  - apply ev_ok in R. injection R as <-. assert (O : only_caches w (snd (add_icache w))) by (repeat split). split; [eapply only_caches_wf; eassumption|]. apply e_cache; tauto.
  - apply ev_ok in R. injection R as <-. assert (O : only_caches w (snd (add_ccache w))) by (repeat split). split; [eapply only_caches_wf; eassumption|]. apply e_cache; tauto.
  - apply ev_if in R. destruct R as [C R]. apply ev_here in R. destruct R as [N R]. apply bind_ok in R. destruct R as (r & E & R). injection R as <-. destruct (find_inline_only _ _ _ _ _ _ E) as (O & _).
    split; [eapply only_caches_wf; eassumption|]. apply e_cache; eauto 9.
  - apply ev_if in R. destruct R as [C R]. apply ev_here in R. destruct R as [N R]. apply bind_ok in R. destruct R as (r & E & R). injection R as <-. destruct (find_method_only _ _ _ _ _ E) as (O & _).
    split; [eapply only_caches_wf; eassumption|]. apply e_cache; eauto 9.
  - apply ev_if in R. destruct R as [C R]. apply ev_here in R. destruct R as [N R]. apply bind_ok in R. destruct R as (r & E & R). injection R as <-. destruct (super_only _ _ _ _ _ E) as (O & _).
    split; [eapply only_caches_wf; eassumption|]. apply e_cache; eauto 9.
  - destruct (csite slot) as [[scope cls] [id object]] eqn:Es. apply ev_here in R. destruct R as [N R]. apply bind_ok in R. destruct R as (r & E & R). injection R as <-.
    destruct (read_const_only _ _ _ _ _ _ _ _ E) as (O & _). split; [eapply only_caches_wf; eassumption|]. apply e_cache; eauto 9.
Qed.

(* ---- method caches ---- *)
Ltac la := match goal with A : agree ?w ?w', L : look ?w ?n ?c ?r |- look ?w' _ _ _ => refine (look_agree w w' n c r _ A L); assumption end.
Definition me_ok (w : world) (e : mentry) : Prop := 0 <= me_version e <= version w /\
  (me_version e = version w -> exists o, look w (snd (me_key e)) (fst (me_key e)) (Some (me_fid e, o))).
Definition ie_ok (site : Z -> Z) (w : world) (i : Z) (e : ientry) : Prop := 0 <= ie_version e <= version w /\
  (ie_version e = version w -> ie_class e <> NIL_ADDR -> exists o, look w (site i) (ie_class e) (Some (ie_fid e, o))).
Record CInv (site : Z -> Z) (w : world) : Prop := {
  c_wf : Wf w;
  c_ver : 0 <= version w;
  c_m : forall e, In e (mcache w) -> me_ok w e;
  c_i : forall i e, v_get (icache w) i = Ok e -> ie_ok site w i e }.
Lemma cinv_change site w w' : CInv site w -> Wf w' -> change w w' -> version w <= version w' -> icache w' = icache w -> mcache w' = mcache w -> CInv site w'.
Proof.
  intros [W V CM CI] W' Ch Hv EI EM. constructor; auto; [lia| |].
  - intros e He. rewrite EM in He. destruct (CM e He) as [B L]. split; [lia|]. intros Ev. destruct Ch as [Ag Ev'|Ev'].
    + destruct (L ltac:(lia)) as [o Lo]. exists o. la.
    + exfalso. assert (version w' <> version w); [|lia]. rewrite Ev'. change (2 ^ 32) with 4294967296. lia.
  - intros i e He. rewrite EI in He. destruct (CI i e He) as [B L]. split; [lia|]. intros Ev Hn. destruct Ch as [Ag Ev'|Ev'].
    + destruct (L ltac:(lia) Hn) as [o Lo]. exists o. la.
    + exfalso. assert (version w' <> version w); [|lia]. rewrite Ev'. change (2 ^ 32) with 4294967296. lia.
Qed.
Lemma mc_find_in l key e : mc_find l key = Some e -> In e l /\ me_key e = key.
Proof.
  induction l as [|x l IH]; [discriminate|]. cbn. destruct ((fst (me_key x) =? fst key) && (snd (me_key x) =? snd key)) eqn:E.
  - intros [= <-]. split; [left; reflexivity|]. apply andb_prop in E. destruct E as [E1 E2]. apply Z.eqb_eq in E1, E2. destruct (me_key x), key. cbn in *. congruence.
  - intros H. destruct (IH H). split; [right|]; assumption.
Qed.
Lemma mc_get_ok site w c name fid : CInv site w -> mc_get w c name = Some fid -> exists o, look w name c (Some (fid, o)).
Proof.
  intros CI E. unfold mc_get in E. destruct (mc_find (mcache w) (c, name)) as [e|] eqn:F; [|discriminate]. destruct (Z.eqb_spec (version w) (me_version e)) as [Ev|]; [|discriminate].
  injection E as <-. apply mc_find_in in F. destruct F as [Hin Hk]. destruct (c_m site w CI e Hin) as [_ L]. rewrite Hk in L. apply L. lia.
Qed.
Lemma look_total w name c : Wf w -> mods w c <> None -> exists r, look w name c r.
Proof. intros W Hc. destruct (w_chain w W c Hc) as [l R]. destruct (wf_kl w c W Hc) as [lk RK]. eexists. eapply look_ok; eassumption. Qed.
(* find_method: same answer as the search, invariant kept *)
Lemma find_method_ok site w c name r : CInv site w -> look w name c r ->
  exists w', eventually (fun f => find_method w f c name = Ok (option_map fst r, w')) /\ only_caches w w' /\ icache w' = icache w /\ ccache w' = ccache w /\ CInv site w'.
Proof.
  intros CI L. destruct (mc_get w c name) as [fid|] eqn:Em.
  - destruct (mc_get_ok site w c name fid CI Em) as [o Lo]. assert (r = Some (fid, o)) by (eapply (ev_det (fun f => search_method w f name c)); eassumption). subst r.
    exists w. split; [exists O; intros f _; unfold find_method; rewrite Em; reflexivity|]. split; [repeat split|]. auto.
  - destruct r as [[fid o]|].
    + eexists. split; [destruct L as [N L]; exists N; intros f Hf; unfold find_method; rewrite Em, (L f Hf); reflexivity|].
      split; [repeat split|]. split; [reflexivity|]. split; [reflexivity|]. set (w' := mkW _ _ _ _ _ _ _ _ _ _).
      assert (O : only_caches w w') by (repeat split). destruct (only_caches_agree w w' O) as [Ag _]. destruct CI as [W V CM CI].
      constructor; [eapply only_caches_wf; eassumption|exact V| |].
      * intros e [<-|He].
        -- split; [cbn; lia|]. intros _. exists o. cbn. la.
        -- destruct (CM e He) as [B L']. split; [exact B|]. intros Ev. destruct (L' Ev) as [o' Lo]. exists o'. la.
      * intros i e He. destruct (CI i e He) as [B L']. split; [exact B|]. intros Ev Hn. destruct (L' Ev Hn) as [o' Lo]. exists o'. la.
    + exists w. split; [destruct L as [N L]; exists N; intros f Hf; unfold find_method; rewrite Em, (L f Hf); reflexivity|]. split; [repeat split|]. auto.
Qed.
Lemma v_get_range {A} (l : list A) i x : v_get l i = Ok x -> 0 <= i < zlen l.
Proof. unfold v_get. destruct (Z.leb_spec 0 i); [|discriminate]. destruct (Z.ltb_spec i (zlen l)); [|discriminate]. auto. Qed.
Lemma v_get_v_set {A} (l l' : list A) i j x y : v_set l i x = Ok l' -> v_get l' j = Ok y -> (j = i /\ y = x) \/ v_get l j = Ok y.
Proof.
  intros S G. pose proof (v_get_range _ _ _ G) as R. destruct (nth_v_set l i x l' x S) as (B & EL & Ei & Eo). rewrite (v_get_nth l' j x R) in G. injection G as <-.
  destruct (Z.eq_dec j i) as [->|Hne]; [left; auto|]. right. rewrite Eo by lia. apply v_get_nth. lia.
Qed.
Lemma v_set_total {A} (l : list A) i x : 0 <= i < zlen l -> exists l', v_set l i x = Ok l'.
Proof. intros H. unfold v_set. destruct (Z.leb_spec 0 i); [|lia]. destruct (Z.ltb_spec i (zlen l)); [|lia]. cbn. eauto. Qed.
Lemma find_inline_ok site w slot c r : CInv site w -> 0 <= slot < zlen (icache w) -> look w (site slot) c r ->
  exists w', eventually (fun f => find_method_inline w f slot c (site slot) = Ok (option_map fst r, w')) /\ only_caches w w' /\ ccache w' = ccache w /\ CInv site w'.
Proof.
  intros CI Hs L. pose proof (look_mods _ _ _ _ L) as Hc. pose proof (w_fresh w (c_wf site w CI) c Hc) as Hcn.
  assert (Hne : icache w <> []) by (intros E; rewrite E in Hs; change (zlen (@nil ientry)) with 0 in Hs; lia).
  destruct (icache w) as [|e0 t0] eqn:Ei; [congruence|]. rewrite <- Ei in *. set (e := nth (Z.to_nat slot) (icache w) e0).
  assert (Ee : v_get (icache w) slot = Ok e) by (apply v_get_nth; exact Hs).
  destruct (c_i site w CI slot e Ee) as [Bv Lv].
  destruct ((version w =? ie_version e) && (c =? ie_class e)) eqn:Hit.
  - apply andb_prop in Hit. destruct Hit as [H1 H2]. apply Z.eqb_eq in H1, H2. destruct (Lv ltac:(lia) ltac:(lia)) as [o Lo]. rewrite <- H2 in Lo.
    assert (r = Some (ie_fid e, o)) by (eapply (ev_det (fun f => search_method w f (site slot) c)); eassumption). subst r.
    exists w. split; [exists O; intros f _; unfold find_method_inline; rewrite Ee; cbn [rbind]; rewrite <- H1, <- H2, !Z.eqb_refl; reflexivity|]. split; [repeat split|]. auto.
  - destruct (find_method_ok site w c (site slot) r CI L) as (w1 & [N F] & O & EI & EC & CI1). destruct r as [[fid o]|]; cbn [option_map fst] in *.
    + destruct (v_set_total (icache w1) slot (mkIE (version w) c fid)) as [t Et]; [rewrite EI; exact Hs|].
      eexists. split; [exists N; intros f Hf; unfold find_method_inline; rewrite Ee; cbn [rbind]; rewrite Hit, (F f Hf); cbn [rbind fst snd]; rewrite Et; reflexivity|].
      set (w2 := mkW _ _ _ _ _ _ _ _ _ _).
      assert (O1 : only_caches w1 w2) by (repeat split). assert (O2 : only_caches w w2) by (destruct O as (O1' & O2 & O3 & O4 & O5 & O6 & O7); repeat split; assumption).
      split; [exact O2|]. split; [exact EC|]. destruct (only_caches_agree _ _ O1) as [Ag _]. destruct (only_caches_agree _ _ O2) as [Ag2 _]. pose proof (c_wf site w CI) as W. destruct CI1 as [W1 V1 M1 I1].
      constructor; [eapply only_caches_wf; eassumption|exact V1| |].
      * intros x Hx. destruct (M1 x Hx) as [B1 L1]. split; [exact B1|]. intros Ev. destruct (L1 Ev) as [o' Lo]. exists o'. la.
      * intros i x Hx. destruct (v_get_v_set _ _ _ _ _ _ Et Hx) as [[-> ->]|Hx'].
        -- destruct O as (_ & _ & _ & _ & _ & OV & _). assert (version w2 = version w) by exact OV. split; [cbn [ie_version]; pose proof (c_ver site w CI); lia|]. intros _ _. exists o. cbn. la.
        -- destruct (I1 i x Hx') as [B1 L1]. split; [exact B1|]. intros Ev Hn. destruct (L1 Ev Hn) as [o' Lo]. exists o'. la.
    + exists w1. split; [exists N; intros f Hf; unfold find_method_inline; rewrite Ee; cbn [rbind]; rewrite Hit, (F f Hf); reflexivity|]. auto.
Qed.

(* ---- histories ---- *)
Lemma hist_wf site csite w : hist site csite w -> Wf w.
Proof. induction 1; [apply wf_world0|]. eapply step_ok; eassumption. Qed.
Lemma calm_hist site csite w : calm site csite w -> hist site csite w.
Proof. induction 1; [constructor|econstructor; eassumption]. Qed.
Lemma v_get_snoc {A} (l : list A) i x y : v_get (l ++ [x]) i = Ok y -> v_get l i = Ok y \/ (i = zlen l /\ y = x).
Proof.
  intros H. pose proof (v_get_range _ _ _ H) as R. rewrite zlen_app in R. change (zlen [x]) with 1 in R. destruct (Z.eq_dec i (zlen l)) as [->|].
  - right. split; [reflexivity|]. rewrite (v_get_nth _ _ x) in H by (rewrite zlen_app; change (zlen [x]) with 1; lia). injection H as <-.
    rewrite app_nth2 by (unfold zlen; lia). unfold zlen. rewrite Nat2Z.id, Nat.sub_diag. reflexivity.
  - left. rewrite (v_get_nth _ _ x) in H by (rewrite zlen_app; change (zlen [x]) with 1; lia). injection H as <-.
    rewrite app_nth1 by (unfold zlen in *; lia). apply v_get_nth. lia.
Qed.
Lemma cinv_only site w w' : CInv site w -> only_caches w w' -> icache w' = icache w -> mcache w' = mcache w -> CInv site w'.
Proof.
  intros CI O EI EM. apply (cinv_change site w); auto.
  - eapply only_caches_wf; [exact O|apply CI].
  - apply ch_same; [apply only_caches_agree; exact O|apply O].
  - destruct O as (_ & _ & _ & _ & _ & V & _). lia.
Qed.
Lemma exec_det site csite o w w1 w2 : runs site csite o w w1 -> runs site csite o w w2 -> w1 = w2.
Proof. intros H1 H2. eapply (ev_det (fun f => exec site csite f o w)); eassumption. Qed.
Lemma skip_included_ok w fuel : forall b l, raw w b l -> (length l < fuel)%nat -> skip_included w fuel b = Ok (find (fun x => negb (inc w x)) (b :: l)).
Proof.
  induction fuel as [|n IH]; intros b l R HF; [lia|]. destruct R as [U R]. destruct (get_mod_up _ _ _ U) as (m & Em & Eu).
  cbn [skip_included find]. unfold get_mod. assert (Ei : inc w b = included m) by (unfold inc; rewrite Em; reflexivity). rewrite Ei, Em. cbn [rbind]. destruct (included m); cbn [negb]; [|reflexivity].
  rewrite Eu. destruct l as [|c l]; cbn [hd_or]; [reflexivity|]. apply IH; [exact R|cbn in HF; lia].
Qed.
Lemma superclass_ok w fuel c l : raw w c l -> (length l <= fuel)%nat -> superclass w fuel c = Ok (find (fun x => negb (inc w x)) l).
Proof.
  intros R HF. destruct R as [U R]. destruct (get_mod_up _ _ _ U) as (m & Em & Eu). unfold superclass, get_mod. rewrite Em. cbn [rbind]. rewrite Eu.
  destruct l as [|b l]; cbn [hd_or]; [reflexivity|]. apply skip_included_ok; [exact R|cbn in HF; lia].
Qed.
Lemma super_ok site w c name l s r : CInv site w -> raw w c l -> find (fun x => negb (inc w x)) l = Some s -> look w name s r ->
  exists w', eventually (fun f => super_method w f c name = Ok (option_map fst r, w')) /\ CInv site w'.
Proof.
  intros CI R F L. destruct (find_method_ok site w s name r CI L) as (w1 & [N G] & _ & _ & _ & CI1). exists w1. split; [|exact CI1].
  exists (N + length l)%nat. intros f Hf. unfold super_method. rewrite (superclass_ok w f c l R ltac:(lia)), F. cbn [rbind]. apply G. lia.
Qed.
Lemma step_cinv site csite o w w' : CInv site w -> op_ok o -> runs site csite o w w' -> version w <= version w' -> CInv site w'.
Proof.
  intros CI OK R Hv. pose proof (c_wf site w CI) as W. destruct (step_ok site csite o w w' W OK R) as [W' E]. destruct E as [Ch _ (E1 & E2 & _) _|Ch (E1 & E2 & _) _|Ag Ev _ E1 E2 _ _|O Ho].
  - apply (cinv_change site w); auto.
  - apply (cinv_change site w); auto.
  - apply (cinv_change site w); auto. apply ch_same; assumption.
  - destruct Ho as [(s & c & ->)|[(c & n & ->)|[(c & n & ->)|[(s & ->)|[-> | ->]]]]].
    + pose proof R as R0. unfold runs in R. cbn [exec] in R. apply ev_if in R. destruct R as [C R]. pose proof R as RR. apply ev_here in RR. destruct RR as [N RR]. apply bind_ok in RR. destruct RR as (r & E & _).
      unfold find_method_inline in E. apply bind_ok in E. destruct E as (e & Ee & _). apply v_get_range in Ee. clear r.
      apply user_mod_ok in C. destruct (look_total w (site s) c W (proj1 C)) as [r L]. destruct (find_inline_ok site w s c r CI Ee L) as (w1 & F & _ & _ & CI1).
      assert (w' = w1); [|subst; exact CI1]. eapply (ev_det (fun f => r <- find_method_inline w f s c (site s) ;; Ok (snd r))); [exact R|].
      eapply ev_mono; [exact F|]. intros f Ef. rewrite Ef. reflexivity.
    + unfold runs in R. cbn [exec] in R. apply ev_if in R. destruct R as [C R]. apply user_mod_ok in C. destruct (look_total w n c W (proj1 C)) as [r L].
      destruct (find_method_ok site w c n r CI L) as (w1 & F & _ & _ & _ & CI1). assert (w' = w1); [|subst; exact CI1].
      eapply (ev_det (fun f => r <- find_method w f c n ;; Ok (snd r))); [exact R|]. eapply ev_mono; [exact F|]. intros f Ef. rewrite Ef. reflexivity.
    + unfold runs in R. cbn [exec] in R. apply ev_if in R. destruct R as [C R]. apply user_mod_ok in C. destruct (w_chain w W c (proj1 C)) as [l Rc].
      destruct (find (fun x => negb (inc w x)) l) as [b|] eqn:Ef.
      * assert (Hb : mods w b <> None) by (apply find_some in Ef; eapply raw_mods; [exact Rc|right; apply Ef]).
        destruct (look_total w n b W Hb) as [r L]. destruct (super_ok site w c n l b r CI Rc Ef L) as (w1 & F & CI1). assert (w' = w1); [|subst; exact CI1].
        eapply (ev_det (fun f => r <- super_method w f c n ;; Ok (snd r))); [exact R|]. eapply ev_mono; [exact F|]. intros f E. rewrite E. reflexivity.
      * assert (w' = w); [|subst; exact CI]. eapply (ev_det (fun f => r <- super_method w f c n ;; Ok (snd r))); [exact R|].
        exists (length l). intros f Hf. unfold super_method. rewrite (superclass_ok w f c l Rc Hf), Ef. reflexivity.
    + unfold runs in R. cbn [exec] in R. destruct (csite s) as [[sc cl] [i ob]]. apply ev_here in R. destruct R as [N R]. apply bind_ok in R. destruct R as (r & E & R). injection R as <-.
      destruct (read_const_only _ _ _ _ _ _ _ _ E) as (_ & E1 & E2). apply (cinv_only site w); auto.
    + unfold runs in R. cbn [exec] in R. apply ev_ok in R. injection R as <-. assert (Ag : agree w (snd (add_icache w))) by (apply only_caches_agree; exact O). destruct CI as [_ V CM CI]. constructor; [exact W'|exact V| |].
      * intros e He. destruct (CM e He) as [B L]. split; [exact B|]. intros Ev. destruct (L Ev) as [o Lo]. exists o. la.
      * intros i e He. cbn [add_icache snd icache] in He. apply v_get_snoc in He. destruct He as [He|[-> ->]].
        -- destruct (CI i e He) as [B L]. split; [exact B|]. intros Ev Hn. destruct (L Ev Hn) as [o Lo]. exists o. la.
        -- split; [cbn; lia|]. cbn. congruence.
    + apply (cinv_only site w); auto; unfold runs in R; cbn [exec] in R; apply ev_ok in R; injection R as <-; reflexivity.
Qed.
