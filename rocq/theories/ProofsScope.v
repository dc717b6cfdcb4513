From Coq Require Import ZArith List Bool Lia.
From Verif Require Import Base ModelCodegen ModelScope SpecScope.
Import ListNotations.
Open Scope Z_scope.

Lemma get_lvarid_spec x t :
  match get_lvarid x t with
  | Some k => 0 <= k /\ first_at x t (Z.to_nat k)
  | None => ~ In x t
  end.
Proof.
  induction t as [|y t IH]; cbn [get_lvarid]; [intros []|].
  destruct (Z.eqb_spec y x) as [->|N].
  - split; [lia|]. split; [reflexivity|]. intros j Hj. cbn in Hj. lia.
  - destruct (get_lvarid x t) as [k|].
    + destruct IH as (P & A & B). split; [lia|]. rewrite Z2Nat.inj_add by lia.
      rewrite Nat.add_comm. cbn [Z.to_nat Pos.to_nat]. change (Pos.to_nat 1) with 1%nat.
      split; [exact A|]. intros [|j] Hj; cbn; [congruence|]. apply B. lia.
    + intros [H|H]; [congruence|contradiction].
Qed.

Lemma get_lvarid_in x t k : get_lvarid x t = Some k -> In x t.
Proof.
  intros E. pose proof (get_lvarid_spec x t) as S. rewrite E in S. destruct S as (_ & A & _).
  eapply nth_error_In, A.
Qed.

Lemma first_unique x t k k' : first_at x t k -> first_at x t k' -> k = k'.
Proof.
  intros [A B] [A' B']. destruct (lt_eq_lt_dec k k') as [[H| ->]|H]; [|reflexivity|].
  - elim (B' _ H A). - elim (B _ H A').
Qed.

Lemma get_lvarid_iff x t k : get_lvarid x t = Some k <-> 0 <= k /\ first_at x t (Z.to_nat k).
Proof.
  pose proof (get_lvarid_spec x t) as S. split.
  - intros E. rewrite E in S. exact S.
  - intros (P & F). destruct (get_lvarid x t) as [k'|].
    + destruct S as [P' F']. f_equal. pose proof (first_unique _ _ _ _ F F'). lia.
    + elim S. eapply nth_error_In, F.
Qed.

(** ** Resolution in a list of frames *)
Fixpoint look (x i : Z) (frames : list (list Z)) : option (Z * Z) :=
  match frames with
  | [] => None
  | t :: r => match get_lvarid x t with
              | Some k => Some (i, k)
              | None => look x (i + 1) r
              end
  end.

Lemma look_shift x : forall fr i d k, look x i fr = Some (d, k) <->
  i <= d /\ 0 <= k /\ denotes fr x (Z.to_nat (d - i)) (Z.to_nat k).
Proof.
  induction fr as [|t fr IH]; intros i d k; cbn [look].
  - split; [discriminate|]. intros (_ & _ & (t & A & _)). destruct (Z.to_nat (d - i)); discriminate.
  - pose proof (get_lvarid_spec x t) as S. destruct (get_lvarid x t) as [k'|].
    + destruct S as [P F]. split.
      * intros E. injection E as <- <-. rewrite Z.sub_diag. split; [lia|]. split; [exact P|].
        exists t. repeat split; auto; try apply F. intros e u He. lia.
      * intros (L & L' & D). destruct D as (u & A & F' & N).
        destruct (Z.to_nat (d - i)) as [|n] eqn:E.
        -- cbn in A. injection A as <-. pose proof (first_unique _ _ _ _ F F'). f_equal. f_equal; lia.
        -- elim (N O t); [lia|reflexivity|]. eapply nth_error_In, F.
    + rewrite IH. split.
      * intros (L & L' & (u & A & F & N)). split; [lia|]. split; [exact L'|].
        replace (Z.to_nat (d - i)) with (Datatypes.S (Z.to_nat (d - (i + 1)))) by lia.
        exists u. split; [exact A|]. split; [exact F|]. intros [|e] u' He Hu.
        -- cbn in Hu. injection Hu as <-. exact S.
        -- apply (N e); [lia|exact Hu].
      * intros (L & L' & (u & A & F & N)). destruct (Z.to_nat (d - i)) as [|n] eqn:E.
        -- cbn in A. injection A as <-. elim S. eapply nth_error_In, F.
        -- split; [lia|]. split; [exact L'|].
           replace (Z.to_nat (d - (i + 1))) with n by lia.
           exists u. split; [exact A|]. split; [exact F|]. intros e u' He Hu.
           apply (N (Datatypes.S e)); [lia|exact Hu].
Qed.

Lemma extern_look x ext : forall i, get_extern x i ext = look x i ext.
Proof. induction ext as [|t r IH]; intros i; cbn; [reflexivity|]. rewrite IH. reflexivity. Qed.

Lemma in_extern_look x ext i : in_extern x ext = match look x i ext with Some _ => true | None => false end.
Proof.
  revert i. induction ext as [|t r IH]; intros i; cbn; [reflexivity|].
  destruct (get_lvarid x t); [reflexivity|apply IH].
Qed.

Lemma is_local_look x ext : forall stk i, is_local_var x stk ext =
  match look x i (visible stk ext) with Some _ => true | None => false end.
Proof.
  induction stk as [|c stk IH]; intros i; cbn [is_local_var visible]; [apply in_extern_look|].
  cbn [look]. destruct (get_lvarid x (pc_table c)); [reflexivity|].
  destruct (pc_kind c); cbn [transparent sees_out]; try reflexivity; apply IH.
Qed.

(** the code generator looks at the same frames, and at those around a class
    body, where no name the parser calls a variable leads *)
Lemma ctx_look x ext : forall stk i j r, look x i (visible stk ext) = Some r ->
  get_ctx x i j (cctx stk) ext = Some r.
Proof.
  induction stk as [|c stk IH]; intros i j r; unfold cctx; cbn [map app visible get_ctx].
  - cbn [get_lvarid]. intros H. rewrite extern_look. exact H.
  - cbn [look]. destruct (get_lvarid x (pc_table c)); [auto|].
    destruct (pc_kind c); cbn [sees_out look]; try discriminate; intros H;
      apply IH; exact H.
Qed.

Lemma ctx_none x ext : forall stk i j, (forall c, In c stk -> pc_kind c <> KClass) ->
  look x i (visible stk ext) = None -> get_ctx x i j (cctx stk) ext = None.
Proof.
  induction stk as [|c stk IH]; intros i j NC; unfold cctx; cbn [map app visible get_ctx].
  - cbn [get_lvarid]. intros H. rewrite extern_look. exact H.
  - cbn [look]. destruct (get_lvarid x (pc_table c)); [discriminate|].
    assert (K : pc_kind c <> KClass) by (apply NC; left; reflexivity).
    destruct (pc_kind c); cbn [sees_out look]; try reflexivity; try congruence;
      intros H; (apply IH; [intros c' Hc; apply NC; right; exact Hc|exact H]).
Qed.

Lemma denotes_look fr x d k : denotes fr x d k <-> look x 0 fr = Some (Z.of_nat d, Z.of_nat k).
Proof.
  rewrite look_shift, Z.sub_0_r, !Nat2Z.id. split; [intros H; repeat split; auto; lia|].
  intros (_ & _ & H). exact H.
Qed.

(** ** Declaring a variable *)
Lemma nth_app_not {A} (x y : A) t k : x <> y -> nth_error (t ++ [y]) k = Some x -> nth_error t k = Some x.
Proof.
  intros N. destruct (Nat.lt_ge_cases k (length t)) as [L|L].
  - rewrite nth_error_app1 by exact L. auto.
  - rewrite nth_error_app2 by exact L. destruct (k - length t)%nat as [|n]; cbn; [congruence|].
    destruct n; discriminate.
Qed.

Lemma get_lvarid_app x y t : x <> y \/ In x t -> get_lvarid x (t ++ [y]) = get_lvarid x t.
Proof.
  induction t as [|z t IH]; intros H; cbn [app get_lvarid].
  - destruct H as [H|[]]. destruct (Z.eqb_spec y x); [congruence|reflexivity].
  - destruct (Z.eqb_spec z x) as [->|N]; [reflexivity|]. rewrite IH; [reflexivity|].
    destruct H as [H|[H|H]]; auto; congruence.
Qed.

Lemma get_lvarid_insert x y t : x <> y \/ In x t -> get_lvarid x (insert y t) = get_lvarid x t.
Proof. intros H. unfold insert. destruct (get_lvarid y t); [reflexivity|]. apply get_lvarid_app, H. Qed.

Lemma get_lvarid_insert_same x t : exists k, get_lvarid x (insert x t) = Some k.
Proof.
  unfold insert. destruct (get_lvarid x t) as [k|] eqn:E; [eauto|].
  clear E. induction t as [|y t [k IH]]; cbn.
  - rewrite Z.eqb_refl. eauto.
  - destruct (y =? x); [eauto|]. rewrite IH. eauto.
Qed.

Lemma add_to_keeps x y ext : forall stk i r, x <> y -> look x i (visible stk ext) = r ->
  look x i (visible (add_to y stk) ext) = r.
Proof.
  induction stk as [|c stk IH]; intros i r N; cbn [add_to visible]; [auto|].
  assert (E : forall k, look x i (visible (mkpctx (insert y (pc_table c)) k :: stk) ext)
     = look x i (pc_table c :: if sees_out k then visible stk ext else [])).
  { intros k. cbn [visible pc_table pc_kind look].
    rewrite get_lvarid_insert by (left; exact N). reflexivity. }
  destruct (pc_kind c) eqn:K; try (rewrite E; cbn [sees_out]; auto; fail).
  cbn [visible look]. rewrite K. cbn [sees_out].
  destruct (get_lvarid x (pc_table c)); auto.
Qed.

Lemma add_to_found x ext : forall stk i, (exists c, In c stk /\ pc_kind c <> KFor) ->
  exists r, look x i (visible (add_to x stk) ext) = Some r.
Proof.
  induction stk as [|c stk IH]; intros i (c0 & I & K0); [destruct I|]. cbn [add_to].
  assert (E : forall k, exists r, look x i (visible (mkpctx (insert x (pc_table c)) k :: stk) ext) = Some r).
  { intros k. cbn [visible pc_table look]. destruct (get_lvarid_insert_same x (pc_table c)) as [j ->]. eauto. }
  destruct (pc_kind c) eqn:K; try apply E.
  cbn [visible look]. rewrite K. cbn [sees_out].
  destruct (get_lvarid x (pc_table c)); [eauto|]. apply IH.
  exists c0. split; [|exact K0]. destruct I as [->|I]; [congruence|exact I].
Qed.

Lemma declare_keeps x y stk ext r : look x 0 (visible stk ext) = Some r ->
  look x 0 (visible (add_local_var_if_new y stk ext) ext) = Some r.
Proof.
  intros H. unfold add_local_var_if_new.
  destruct (is_local_var y stk ext) eqn:L; [exact H|].
  apply add_to_keeps; [|exact H]. intros ->. rewrite (is_local_look _ _ _ 0), H in L. discriminate.
Qed.

(** seen from contexts inside that have been left *)
Lemma look_app x a b : forall i, look x i (a ++ b) =
  match look x i a with Some r => Some r | None => look x (i + Z.of_nat (length a)) b end.
Proof.
  induction a as [|t a IH]; intros i; cbn [app look length]; [f_equal; lia|].
  destruct (get_lvarid x t); [reflexivity|]. rewrite IH.
  destruct (look x (i + 1) a); [reflexivity|]. f_equal. lia.
Qed.

Lemma visible_app ext inner stk : Forall (fun c => sees_out (pc_kind c) = true) inner ->
  visible (inner ++ stk) ext = map pc_table inner ++ visible stk ext.
Proof.
  induction 1 as [|c inner K F IH]; [reflexivity|]. cbn [app visible map]. rewrite K, IH. reflexivity.
Qed.

Lemma visible_cut ext inner c rest stk : sees_out (pc_kind c) = false ->
  visible (inner ++ c :: rest ++ stk) ext = visible (inner ++ [c]) [].
Proof.
  intros K. induction inner as [|d inner IH]; cbn [app visible].
  - rewrite K. reflexivity.
  - rewrite IH. reflexivity.
Qed.

Lemma cut_or_all inner : Forall (fun c => sees_out (pc_kind c) = true) inner \/
  exists a c b, inner = a ++ c :: b /\ sees_out (pc_kind c) = false.
Proof.
  induction inner as [|c inner IH]; [left; constructor|].
  destruct (sees_out (pc_kind c)) eqn:K.
  - destruct IH as [IH|(a & d & b & -> & K')]; [left; constructor; assumption|].
    right. exists (c :: a), d, b. auto.
  - right. exists [], c, inner. auto.
Qed.

Lemma look_shift_i x fr i j d k : look x i fr = Some (d, k) -> look x j fr = Some (d - i + j, k).
Proof.
  rewrite !look_shift. intros (A & B & C). repeat split; [lia|exact B|].
  replace (d - i + j - j) with (d - i) by lia. exact C.
Qed.

Lemma look_none_i x fr i j : look x i fr = None -> look x j fr = None.
Proof.
  intros H. destruct (look x j fr) as [[d k]|] eqn:E; [|reflexivity].
  apply (look_shift_i _ _ _ i) in E. congruence.
Qed.

Lemma declare_keeps_inner x y inner stk ext r :
  look x 0 (visible (inner ++ stk) ext) = Some r ->
  look x 0 (visible (inner ++ add_local_var_if_new y stk ext) ext) = Some r.
Proof.
  destruct (cut_or_all inner) as [F|(a & c & b & -> & K)].
  - rewrite !visible_app by exact F. rewrite !look_app.
    destruct (look x 0 (map pc_table inner)); [auto|]. destruct r as [d k]. intros H.
    pose proof (look_shift_i _ _ _ 0 _ _ H) as H0. apply (declare_keeps _ y) in H0.
    apply (look_shift_i _ _ _ (0 + Z.of_nat (length (map pc_table inner)))) in H0.
    rewrite H0. f_equal. f_equal. lia.
  - rewrite <- !app_assoc. cbn [app]. rewrite !visible_cut by exact K. auto.
Qed.

(** ** All names the code generator may ask for *)
Fixpoint cvis (stk : list pctx) (ext : list (list Z)) : list (list Z) :=
  match stk with
  | [] => ext
  | c :: r => pc_table c :: match pc_kind c with KEval | KMethodDef => [] | _ => cvis r ext end
  end.

Lemma ctx_cvis x ext : forall stk i j, get_ctx x i j (cctx stk) ext = look x i (cvis stk ext).
Proof.
  induction stk as [|c stk IH]; intros i j; unfold cctx; cbn [map app cvis get_ctx look].
  - cbn [get_lvarid]. apply extern_look.
  - destruct (get_lvarid x (pc_table c)); [reflexivity|].
    destruct (pc_kind c); try reflexivity; apply IH.
Qed.

Lemma look_inj x y fr d k : look x 0 fr = Some (d, k) -> look y 0 fr = Some (d, k) -> x = y.
Proof.
  rewrite !look_shift. intros (_ & _ & t & A & (B & _) & _) (_ & _ & u & A' & (B' & _) & _).
  rewrite A in A'. injection A' as <-. congruence.
Qed.

Lemma look_bounds x fr d k : look x 0 fr = Some (d, k) ->
  0 <= d < Z.of_nat (length fr) /\ 0 <= k /\
  exists t, In t fr /\ k < Z.of_nat (length t).
Proof.
  rewrite look_shift. intros (L & L' & t & A & (B & _) & _).
  assert (X : (Z.to_nat (d - 0) < length fr)%nat) by (apply nth_error_Some; congruence).
  assert (Y : (Z.to_nat k < length t)%nat) by (apply nth_error_Some; congruence).
  split; [lia|]. split; [lia|]. exists t. split; [eapply nth_error_In, A|lia].
Qed.

Lemma cvis_bounds ext stk : (length (cvis stk ext) <= length stk + length ext)%nat /\
  forall t, In t (cvis stk ext) -> In t (map pc_table stk ++ ext).
Proof.
  induction stk as [|c stk [L I]]; cbn [cvis map app length]; [split; auto|]. split.
  - destruct (pc_kind c); cbn [length]; lia.
  - intros t [H|H]; [left; exact H|]. right. destruct (pc_kind c); try destruct H; apply I, H.
Qed.
