(* C105: Dir.glob finds the files and directories that match the pattern *)
From Verif Require Import Base ModelText ModelGlob.

(* ---- the vocabulary ---- *)
(* a pattern: names with ? and *, separated by slashes, and **/ for any number of directories *)
Inductive atom : Set := Char (c : Z) | One | Many.
Inductive seg : Type := Name (a : list atom) | Deep.
Definition atom_text (a : atom) : Z := match a with Char c => c | One => 63 | Many => 42 end.
Fixpoint write (segs : list seg) : chars :=
  match segs with
  | [] => []
  | Deep :: r => [42; 42; 47] ++ write r
  | [Name a] => map atom_text a
  | Name a :: r => map atom_text a ++ [47] ++ write r
  end.
(* a name matches atoms; a name that begins with a dot only atoms that do *)
Inductive fits : list atom -> chars -> Prop :=
| F_end : fits [] []
| F_char c a s : fits a s -> fits (Char c :: a) (c :: s)
| F_one c a s : fits a s -> fits (One :: a) (c :: s)
| F_many s1 a s : fits a s -> fits (Many :: a) (s1 ++ s).
Definition hidden (name : chars) : Prop := exists r, name = 46 :: r.
Definition name_fits (a : list atom) (name : chars) : Prop := fits a name /\ (hidden name -> exists r, a = Char 46 :: r).
(* a path matches a pattern; **/ does not go into directories whose name begins with a dot *)
Inductive path_fits : list seg -> list chars -> Prop :=
| P_end : path_fits [] []
| P_name a r n p : name_fits a n -> path_fits r p -> path_fits (Name a :: r) (n :: p)
| P_none r p : path_fits r p -> path_fits (Deep :: r) p
| P_dir r n p : ~ hidden n -> path_fits (Deep :: r) p -> path_fits (Deep :: r) (n :: p).
(* there is a file or directory with this path *)
Inductive exists_in : node -> list chars -> Prop :=
| E_here n : exists_in n []
| E_entry b es name child p : In (name, child) es -> exists_in child p -> exists_in (Dir b es) (name :: p).
Definition path_text (absolute : bool) (p : list chars) : chars :=
  (if absolute then [47] else []) ++ match p with [] => [] | n :: r => n ++ flat_map (fun m => 47 :: m) r end.
(* what a file system has: names that are not empty and have no slash; newlines left out;
   all directories can be read *)
Inductive plain_tree : node -> Prop :=
| T_file : plain_tree File
| T_dir es : (forall name child, In (name, child) es -> name <> [] /\ ~ In 47 name /\ ~ In 10 name /\ plain_tree child) -> plain_tree (Dir true es).
Definition is_dir (n : node) : Prop := exists b es, n = Dir b es.
(* characters that mean nothing in patterns or regular expressions *)
Definition ordinary (c : Z) : Prop := ~ In c [36; 40; 41; 43; 91; 92; 93; 94; 123; 124; 125; 42; 63; 47].
(* no ? at the beginning; behind a * at the beginning a character that is no dot *)
Definition good_start (a : list atom) : Prop :=
  match a with
  | [] | One :: _ | Many :: One :: _ | Many :: Many :: _ => False
  | Char _ :: _ | [Many] => True
  | Many :: Char c :: _ => c <> 46
  end.
Definition good_name (a : list atom) : Prop := good_start a /\ forall c, In (Char c) a -> ordinary c.
(* **/ is not repeated, and something follows it *)
Inductive good_pattern : list seg -> Prop :=
| G_last a : good_name a -> good_pattern [Name a]
| G_name a r : good_name a -> good_pattern r -> good_pattern (Name a :: r)
| G_deep a r : good_name a -> good_pattern (Name a :: r) -> good_pattern (Deep :: Name a :: r).

(* ---- the pattern is read as it was written ---- *)
Definition item_of (a : atom) : item := match a with Char c => ILit c | One => IDot | Many => IDotStar end.
Definition items (a : list atom) : list item := match a with Many :: r => ILead :: map item_of r | _ => map item_of a end.
Definition lead (buf : list item) (a : list atom) : list item := match buf with [] => items a | _ => buf ++ map item_of a end.
Lemma ordinary_raw c : ordinary c -> is_raw c = false /\ (c =? 63) = false /\ (c =? 42) = false /\ (c =? 47) = false.
Proof.
  unfold ordinary. intros H. assert (K : forall x, In x [36; 40; 41; 43; 91; 92; 93; 94; 123; 124; 125; 42; 63; 47] -> (c =? x) = false).
  { intros x Hx. apply Z.eqb_neq. intros ->. auto. }
  split; [|split; [|split]]; try (apply K; cbn; tauto). unfold is_raw. cbn [existsb]. rewrite !K by (cbn; tauto). reflexivity.
Qed.
Lemma compile_rest : forall a buf rest, buf <> [] -> (forall c, In (Char c) a -> ordinary c) ->
  compile buf (map atom_text a ++ rest) = compile (buf ++ map item_of a) rest.
Proof.
  induction a as [|x a IH]; intros buf rest Hb Ho; [cbn; rewrite app_nil_r; reflexivity|].
  replace (buf ++ map item_of (x :: a)) with ((buf ++ [item_of x]) ++ map item_of a) by (rewrite <- app_assoc; reflexivity).
  rewrite <- IH; [|destruct buf; discriminate|intros c Hc; apply Ho; right; exact Hc]. cbn [map app compile].
  destruct x as [c| |]; cbn [atom_text item_of].
  - destruct (ordinary_raw c (Ho c (or_introl eq_refl))) as (R & Q & S & L). rewrite Q, S, L, R. destruct (Z.eqb_spec c 46) as [->|]; reflexivity.
  - reflexivity.
  - cbn. destruct buf; [congruence|reflexivity].
Qed.
Lemma compile_name a rest : good_name a -> (rest = [] \/ exists r, rest = 47 :: r) -> compile [] (map atom_text a ++ rest) = compile (items a) rest.
Proof.
  intros [G O] HR. destruct a as [|x a]; [destruct G|]. destruct x as [c| |]; [| destruct G |].
  - cbn [map app compile atom_text items]. destruct (ordinary_raw c (O c (or_introl eq_refl))) as (R & Q & S & L). rewrite Q, S, L, R.
    transitivity (compile ([ILit c] ++ map item_of a) rest); [|reflexivity]. rewrite <- compile_rest; [|discriminate|intros d Hd; apply O; right; exact Hd].
    destruct (Z.eqb_spec c 46) as [->|]; reflexivity.
  - transitivity (compile ([ILead] ++ map item_of a) rest); [|reflexivity]. rewrite <- compile_rest; [|discriminate|intros d Hd; apply O; right; exact Hd].
    cbn [map app compile atom_text]. cbn [Z.eqb]. destruct a as [|y a].
    + cbn [map app]. destruct HR as [->|[r ->]]; reflexivity.
    + cbn [map app good_start] in *. destruct y as [c| |]; [|destruct G|destruct G]. cbn [atom_text].
      destruct (ordinary_raw c (O c (or_intror (or_introl eq_refl)))) as (_ & _ & S & _). change (42 =? 63) with false. change (42 =? 42) with true. cbv iota. apply Z.eqb_neq in S. destruct c as [|q|q]; try reflexivity.
      repeat (destruct q; try reflexivity). exfalso. apply S. reflexivity.
Qed.
Definition compiled (s : seg) : option (list item) := match s with Name a => Some (items a) | Deep => None end.
Lemma compile_pattern segs : good_pattern segs -> compile [] (write segs) = map compiled segs.
Proof.
  induction 1 as [a G|a r G H IH|a r G H IH].
  - cbn [write map compiled]. rewrite <- (app_nil_r (map atom_text a)), compile_name by auto. reflexivity.
  - assert (W : write (Name a :: r) = map atom_text a ++ 47 :: write r) by (inversion H; subst; reflexivity). rewrite W, compile_name by eauto. cbn [compile map compiled]. cbn. f_equal. exact IH.
  - change (write (Deep :: Name a :: r)) with (42 :: 42 :: 47 :: write (Name a :: r)). cbn [compile]. cbn -[write]. f_equal. exact IH.
Qed.
Lemma regex_ok segs : good_pattern segs -> regex_all (map compiled segs) = Ok tt.
Proof.
  assert (R : forall a, (forall c, In (Char c) a -> ordinary c) -> flat_map (fun i => match i with IRaw c => [c] | _ => [] end) (map item_of a) = []).
  { induction a as [|x a IH]; intros O; [reflexivity|]. cbn [map flat_map]. rewrite IH by (intros c Hc; apply O; right; exact Hc). destruct x; reflexivity. }
  assert (N : forall a, good_name a -> regex_new (items a) = Ok tt).
  { intros a [G O]. unfold regex_new. destruct a as [|[c| |] a]; [destruct G| | |]; cbn [items map item_of flat_map]; rewrite R by (intros d Hd; apply O; right; exact Hd); reflexivity. }
  induction 1 as [a G|a r G H IH|a r G H IH]; cbn [map compiled regex_all].
  - rewrite N by exact G. reflexivity.
  - rewrite N by exact G. exact IH.
  - exact IH.
Qed.

(* ---- names ---- *)
Lemma star_ok k : forall s, ~ In 10 s -> (star k s = true <-> exists s1 s2, s = s1 ++ s2 /\ k s2 = true).
Proof.
  induction s as [|c s IH]; intros N; cbn [star].
  - rewrite orb_false_r. split; [intros H; exists [], []; auto|]. intros (s1 & s2 & E & H). symmetry in E. apply app_eq_nil in E. destruct E as [-> ->]. exact H.
  - rewrite orb_true_iff, andb_true_iff, IH by (intros X; apply N; right; exact X). split.
    + intros [H|[_ (s1 & s2 & -> & H)]]; [exists [], (c :: s); auto|exists (c :: s1), s2; auto].
    + intros (s1 & s2 & E & H). destruct s1 as [|d s1]; [left; cbn in E; subst s2; exact H|]. injection E as <- ->. right. split; [|eauto].
      apply negb_true_iff, Z.eqb_neq. intros ->. apply N. left. reflexivity.
Qed.
Lemma fits_items : forall a s, ~ In 10 s -> (re_find (map item_of a) s = true <-> fits a s).
Proof.
  induction a as [|x a IH]; intros s N.
  - cbn. destruct s; split; intros H; try constructor; try discriminate; inversion H.
  - destruct x as [c| |]; cbn [map item_of re_find].
    + destruct s as [|d s]; [split; intros H; [discriminate|inversion H]|]. rewrite andb_true_iff, IH, Z.eqb_eq by (intros X; apply N; right; exact X). split; [intros [-> H]; constructor; exact H|intros H; inversion H; auto].
    + destruct s as [|d s]; [split; intros H; [discriminate|inversion H]|]. rewrite andb_true_iff, IH by (intros X; apply N; right; exact X). split; [intros [_ H]; constructor; exact H|].
      intros H. inversion H; subst. split; [|assumption]. apply negb_true_iff, Z.eqb_neq. intros ->. apply N. left. reflexivity.
    + rewrite star_ok by exact N. split.
      * intros (s1 & s2 & -> & H). constructor. apply IH; [|exact H]. intros X. apply N. apply in_or_app. right. exact X.
      * intros H. inversion H; subst. exists s1, s0. split; [reflexivity|]. apply IH; [|assumption]. intros X. apply N. apply in_or_app. right. exact X.
Qed.
Lemma name_items a s : good_name a -> ~ In 10 s -> (re_find (items a) s = true <-> name_fits a s).
Proof.
  intros [G O] N. unfold name_fits. destruct a as [|x a]; [destruct G|]. destruct x as [c| |]; [|destruct G|].
  - cbn [items]. rewrite fits_items by exact N. split; [|intros [H _]; exact H]. intros H. split; [exact H|]. intros [r ->]. inversion H; subst. eauto.
  - cbn [items re_find]. rewrite orb_true_iff, fits_items by exact N. split.
    + intros [H|H].
      * split; [exact (F_many [] a s H)|]. intros [r ->]. exfalso. destruct a as [|[c| |] a]; cbn in G; try contradiction; inversion H; subst; congruence.
      * destruct s as [|d s]; [discriminate|]. apply andb_true_iff in H. destruct H as [D H]. assert (N' : ~ In 10 s) by (intros X; apply N; right; exact X).
        apply star_ok in H; [|exact N']. destruct H as (s1 & s2 & -> & H). apply fits_items in H; [|intros X; apply N'; apply in_or_app; right; exact X].
        split; [exact (F_many (d :: s1) a s2 H)|]. intros [r E]. injection E as E _. subst d. discriminate.
    + intros [H HH]. inversion H; subst. destruct s1 as [|d s1]; [left; assumption|]. right. cbn [app]. apply andb_true_iff. split.
      * apply negb_true_iff, Z.eqb_neq. intros ->. destruct HH as [r E]; [eexists; reflexivity|discriminate].
      * assert (N' : ~ In 10 (s1 ++ s0)) by (intros X; apply N; right; exact X). apply star_ok; [exact N'|]. exists s1, s0. split; [reflexivity|]. apply fits_items; [intros X; apply N'; apply in_or_app; right; exact X|assumption].
Qed.
Lemma hidden_ok n : is_hidden n = true <-> hidden n.
Proof.
  unfold hidden. destruct n as [|c r]; cbn; [split; [discriminate|intros [x E]; discriminate]|]. rewrite Z.eqb_eq. split; [intros ->; eauto|intros [x E]; injection E; auto].
Qed.

(* ---- the search ---- *)
Lemma node_induct (P : node -> Prop) : P File -> (forall b es, (forall name child, In (name, child) es -> P child) -> P (Dir b es)) -> forall n, P n.
Proof.
  intros HF HD. fix IH 1. intros [|b es]; [exact HF|]. apply HD. induction es as [|[n c] es IHes]; intros name child H; [destruct H|].
  destruct H as [E|H]; [injection E as <- <-; apply IH|exact (IHes name child H)].
Qed.
Lemma chars_eqb_eq : forall a b, chars_eqb a b = true <-> a = b.
Proof.
  induction a as [|x a IH]; intros [|y b]; cbn; try (split; [discriminate|discriminate]); [tauto|]. rewrite andb_true_iff, Z.eqb_eq, IH. split; [intros [-> ->]; reflexivity|intros E; injection E; auto].
Qed.
Lemma NoDup_app_one {A} (l : list A) x : NoDup l -> ~ In x l -> NoDup (l ++ [x]).
Proof.
  induction 1 as [|y l H N IH]; intros X; cbn; [constructor; [intros []|constructor]|]. constructor.
  - rewrite in_app_iff. intros [Y|[Y|[]]]; [exact (H Y)|]. subst. apply X. left. reflexivity.
  - apply IH. intros Y. apply X. right. exact Y.
Qed.
Lemma insert_spec s m : (forall x, In x (insert s m) <-> In x m \/ x = s) /\ (NoDup m -> NoDup (insert s m)).
Proof.
  unfold insert. destruct (existsb (chars_eqb s) m) eqn:E.
  - apply existsb_exists in E. destruct E as (y & Hy & E). apply chars_eqb_eq in E. subst y. split; [|auto]. intros x. split; [auto|]. intros [H| ->]; auto.
  - split.
    + intros x. rewrite in_app_iff. cbn. intuition.
    + intros ND. apply NoDup_app_one; [exact ND|]. intros H. assert (existsb (chars_eqb s) m = true) by (apply existsb_exists; exists s; split; [exact H|apply chars_eqb_eq; reflexivity]). congruence.
Qed.
Definition plain_name (n : chars) : Prop := n <> [] /\ ~ In 47 n.
Lemma last_plain n : plain_name n -> forall l, last (l ++ n) 0 <> 47.
Proof.
  intros [N S] l. destruct (exists_last N) as (r & c & ->). rewrite app_assoc, last_last. intros ->. apply S. apply in_or_app. right. left. reflexivity.
Qed.
Lemma push_path abs p n : (forall m, In m p -> plain_name m) -> plain_name n -> push (path_text abs p) n = path_text abs (p ++ [n]).
Proof.
  intros HP [N _]. unfold push. destruct p as [|m p].
  - destruct abs; cbn; rewrite ?app_nil_r; reflexivity.
  - assert (L : forall x, last (path_text abs (m :: p)) x <> 47 \/ True) by auto. clear L.
    assert (L : last (path_text abs (m :: p)) 0 <> 47 /\ path_text abs (m :: p) <> []).
    { split.
      - unfold path_text. destruct (@exists_last _ (m :: p) ltac:(discriminate)) as (q & k & E). destruct q as [|k0 q].
        + injection E as -> ->. cbn [flat_map]. rewrite app_nil_r. apply last_plain. apply HP. left. reflexivity.
        + injection E as -> ->. rewrite flat_map_app. cbn [flat_map]. rewrite app_nil_r.
          match goal with |- last ?x 0 <> 47 => replace x with (((if abs then [47] else []) ++ k0 ++ flat_map (fun m => 47 :: m) q ++ [47]) ++ k) by (set (X := if abs then [47] else []); rewrite <- !(app_assoc X), <- !(app_assoc k0), <- !app_assoc; reflexivity) end.
          apply (last_plain k). apply HP. right. apply in_or_app. right. left. reflexivity.
      - unfold path_text. destruct (HP m (or_introl eq_refl)) as [M _]. destruct abs; [discriminate|]. destruct m; [congruence|discriminate]. }
    destruct L as [L NE]. apply Z.eqb_neq in L. rewrite L. destruct (path_text abs (m :: p)) as [|c t] eqn:E; [congruence|]. rewrite <- E. unfold path_text. cbn [app]. rewrite flat_map_app. cbn [flat_map]. rewrite app_nil_r, <- !app_assoc. reflexivity.
Qed.
Definition fine (segs : list seg) : Prop := segs = [] \/ good_pattern segs.
Lemma fine_name a r : good_pattern (Name a :: r) -> good_name a /\ fine r.
Proof. intros H. inversion H; subst; split; auto; [left; reflexivity|right; assumption]. Qed.
Lemma fine_deep r : good_pattern (Deep :: r) -> exists a r', r = Name a :: r' /\ good_name a /\ fine r' /\ good_pattern r.
Proof. intros H. inversion H; subst. exists a, r0. split; [reflexivity|]. split; [assumption|]. split; [exact (proj2 (fine_name _ _ H2))|assumption]. Qed.

Lemma file_paths q : exists_in File q <-> q = [].
Proof. split; [intros H; inversion H; reflexivity|intros ->; constructor]. Qed.
Lemma no_empty segs : good_pattern segs -> ~ path_fits segs [].
Proof. induction 1 as [a G|a r G H IH|a r G H IH]; intros X; inversion X; subst. apply IH. assumption. Qed.
(* what a search adds *)
Definition adds (m m' : list chars) (P : chars -> Prop) : Prop := (forall s, In s m' <-> In s m \/ P s) /\ (NoDup m -> NoDup m').
Lemma adds_none m (P : chars -> Prop) : (forall s, ~ P s) -> adds m m P.
Proof. intros H. split; [|auto]. intros s. specialize (H s). tauto. Qed.
Lemma adds_two m m1 m2 (P Q R : chars -> Prop) : adds m m1 P -> adds m1 m2 Q -> (forall s, R s <-> P s \/ Q s) -> adds m m2 R.
Proof. intros [A1 A2] [B1 B2] H. split; [|auto]. intros s. rewrite B1, A1, H. tauto. Qed.
Lemma adds_eq m m1 (P Q : chars -> Prop) : adds m m1 P -> (forall s, P s <-> Q s) -> adds m m1 Q.
Proof. intros [A1 A2] H. split; [|exact A2]. intros s. rewrite A1, H. tauto. Qed.
Lemma adds_insert m s : adds m (insert s m) (fun x => x = s).
Proof. destruct (insert_spec s m) as [A B]. split; [exact A|exact B]. Qed.
Definition found (abs : bool) (n : node) (segs : list seg) (p : list chars) (s : chars) : Prop :=
  exists q, s = path_text abs (p ++ q) /\ exists_in n q /\ path_fits segs q.
Lemma traverse_ok abs : forall n, plain_tree n -> forall segs p m, fine segs -> (segs = [] \/ is_dir n) -> (forall x, In x p -> plain_name x) ->
  exists m', traverse n (path_text abs p) (map compiled segs) m = Ok m' /\ adds m m' (found abs n segs p).
Proof.
  induction n as [|b es IH] using node_induct; intros HT segs p m HF HD HP.
  { destruct HD as [->|(b & es & E)]; [|discriminate]. cbn [map traverse]. eexists. split; [reflexivity|]. eapply adds_eq; [apply adds_insert|]. intros s. split.
    - intros ->. exists []. rewrite app_nil_r. repeat split; constructor.
    - intros (q & -> & E & F). inversion F; subst. rewrite app_nil_r. reflexivity. }
  destruct segs as [|sg segs].
  { cbn [map traverse]. eexists. split; [reflexivity|]. eapply adds_eq; [apply adds_insert|]. intros s. split.
    - intros ->. exists []. rewrite app_nil_r. repeat split; constructor.
    - intros (q & -> & E & F). inversion F; subst. rewrite app_nil_r. reflexivity. }
  destruct HF as [HF|HG]; [discriminate|]. inversion HT as [|es0 HE]; subst.
  cbn [map traverse].
  match goal with |- exists m', ?f es m = Ok m' /\ _ => set (F := f) end.
  assert (F0 : forall m1, F [] m1 = Ok m1) by reflexivity.
  assert (F1 : forall name child es1 m1, F ((name, child) :: es1) m1 =
    match state_of (compiled sg :: map compiled segs) name with
    | None => F es1 m1
    | Some state =>
        match child with
        | Dir _ _ =>
            m2 <- match state with
                  | MMatch => traverse child (push (path_text abs p) name) (map compiled segs) m1
                  | NextMatch =>
                      m2 <- traverse child (push (path_text abs p) name) (skipn 1 (map compiled segs)) m1 ;;
                      if negb (is_hidden name) then traverse child (push (path_text abs p) name) (compiled sg :: map compiled segs) m2 else Ok m2
                  | WildMatch =>
                      if negb (is_hidden name) then
                        m2 <- traverse child (push (path_text abs p) name) (map compiled segs) m1 ;;
                        traverse child (push (path_text abs p) name) (compiled sg :: map compiled segs) m2
                      else Ok m1
                  end ;;
            F es1 m2
        | File =>
            if Nat.eqb (length (compiled sg :: map compiled segs)) 1 || (is_next state && Nat.eqb (length (compiled sg :: map compiled segs)) 2)
            then F es1 (insert (push (path_text abs p) name) m1)
            else F es1 m1
        end
    end) by (intros name child es1 m1; destruct child; reflexivity).
  clearbody F.
  assert (NEXT : forall name child, In (name, child) es -> forall es1 m1, exists m2, F ((name, child) :: es1) m1 = F es1 m2 /\ adds m1 m2 (fun s => exists q, s = path_text abs (p ++ name :: q) /\ exists_in child q /\ path_fits (sg :: segs) (name :: q))).
  { intros name child HI es1 m1. destruct (HE name child HI) as (N1 & N2 & N3 & HC).
    assert (HN : plain_name name) by (split; assumption). assert (HP' : forall x, In x (p ++ [name]) -> plain_name x) by (intros x Hx; apply in_app_or in Hx; destruct Hx as [Hx|[<-|[]]]; auto).
    specialize (IH name child HI HC).
    assert (PQ : forall q, p ++ name :: q = (p ++ [name]) ++ q) by (intros q; rewrite <- app_assoc; reflexivity).
    assert (SUB : forall r m0, fine r -> is_dir child -> exists m', traverse child (push (path_text abs p) name) (map compiled r) m0 = Ok m' /\ adds m0 m' (found abs child r (p ++ [name]))).
    { intros r m0 Hr Hd. rewrite push_path by assumption. apply IH; auto. }
    destruct sg as [a|].
    - destruct (fine_name a segs HG) as [Ga Fr]. pose proof (name_items a name Ga N3) as HM. rewrite F1. clear F1. cbn [map compiled state_of].
      destruct (re_find (items a) name) eqn:Em.
      + assert (NF : name_fits a name) by (apply HM; reflexivity). destruct child as [|cb ces].
        * cbn [length is_next andb]. rewrite orb_false_r. rewrite map_length. destruct segs as [|s1 segs].
          -- eexists. split; [reflexivity|]. rewrite push_path by assumption. eapply adds_eq; [apply adds_insert|]. intros s. split.
             ++ intros ->. exists []. split; [reflexivity|]. split; [constructor|]. constructor; [exact NF|constructor].
             ++ intros (q & -> & E & _). apply file_paths in E. subst q. reflexivity.
          -- exists m1. split; [reflexivity|]. apply adds_none. intros s (q & -> & E & X). apply file_paths in E. subst q. inversion X; subst. destruct Fr as [Fr|Fr]; [discriminate|]. match goal with Y : path_fits (s1 :: segs) [] |- _ => exact (no_empty _ Fr Y) end.
        * destruct (SUB segs m1 Fr ltac:(eexists; eauto)) as (m2 & E2 & A2). exists m2. cbn [skipn]. rewrite E2. split; [reflexivity|]. eapply adds_eq; [exact A2|]. intros s. split.
          -- intros (q & -> & E & X). exists q. rewrite (PQ q). split; [reflexivity|]. split; [exact E|]. constructor; assumption.
          -- intros (q & -> & E & X). exists q. rewrite (PQ q). split; [reflexivity|]. split; [exact E|]. inversion X; subst. assumption.
      + exists m1. split; [reflexivity|]. apply adds_none. intros s (q & _ & _ & X). inversion X; subst. match goal with Y : name_fits a name |- _ => apply HM in Y; discriminate Y end.
    - destruct (fine_deep segs HG) as (a & r & -> & Ga & Fr & HG'). pose proof (name_items a name Ga N3) as HM. pose proof (hidden_ok name) as HH. rewrite F1. clear F1. cbn [map compiled state_of].
      (* matching below ** *)
      assert (DEEP : forall q, path_fits (Deep :: Name a :: r) (name :: q) <-> (name_fits a name /\ path_fits r q) \/ (~ hidden name /\ path_fits (Deep :: Name a :: r) q)).
      { intros q. split.
        - intros X. inversion X; subst; [left; match goal with Y : path_fits (Name a :: r) _ |- _ => inversion Y; subst; auto end|right; auto].
        - intros [[X Y]|[X Y]]; [apply P_none; constructor; assumption|apply P_dir; assumption]. }
      destruct (re_find (items a) name) eqn:Em.
      + assert (NF : name_fits a name) by (apply HM; reflexivity). destruct child as [|cb ces].
        * cbn [length is_next andb]. rewrite map_length. destruct r as [|s1 r].
          -- eexists. split; [reflexivity|]. rewrite push_path by assumption. eapply adds_eq; [apply adds_insert|]. intros s. split.
             ++ intros ->. exists []. split; [reflexivity|]. split; [constructor|]. apply DEEP. left. split; [exact NF|constructor].
             ++ intros (q & -> & E & _). apply file_paths in E. subst q. reflexivity.
          -- exists m1. split; [reflexivity|]. apply adds_none. intros s (q & -> & E & X). apply file_paths in E. subst q. apply DEEP in X. destruct Fr as [Fr|Fr]; [discriminate|]. destruct X as [[_ X]|[_ X]]; [exact (no_empty _ Fr X)|exact (no_empty _ HG X)].
        * destruct (SUB r m1 Fr ltac:(eexists; eauto)) as (m2 & E2 & A2). cbn [skipn]. rewrite E2. cbn [rbind]. destruct (is_hidden name) eqn:Eh; cbn [negb].
          -- exists m2. split; [reflexivity|]. eapply adds_eq; [exact A2|]. intros s. split.
             ++ intros (q & -> & E & X). exists q. rewrite (PQ q). split; [reflexivity|]. split; [exact E|]. apply DEEP. auto.
             ++ intros (q & -> & E & X). exists q. rewrite (PQ q). split; [reflexivity|]. split; [exact E|]. apply DEEP in X. destruct X as [[_ X]|[X _]]; [exact X|]. destruct X. apply HH. reflexivity.
          -- assert (NH : ~ hidden name) by (rewrite <- HH; congruence). destruct (SUB (Deep :: Name a :: r) m2 (or_intror HG) ltac:(eexists; eauto)) as (m3 & E3 & A3). cbn [map compiled] in E3. rewrite E3. exists m3. split; [reflexivity|]. eapply adds_two; [exact A2|exact A3|]. intros s. split.
             ++ intros (q & -> & E & X). apply DEEP in X. destruct X as [[_ X]|[_ X]]; [left|right]; exists q; rewrite (PQ q); auto.
             ++ intros [(q & -> & E & X)|(q & -> & E & X)]; exists q; rewrite (PQ q); (split; [reflexivity|]; split; [exact E|]); apply DEEP; auto.
      + assert (NN : ~ name_fits a name) by (rewrite <- HM; discriminate). destruct child as [|cb ces].
        * cbn [length is_next andb]. rewrite orb_false_r. exists m1. split; [reflexivity|]. apply adds_none. intros s (q & -> & E & X). apply file_paths in E. subst q. apply DEEP in X. destruct X as [[X _]|[_ X]]; [exact (NN X)|exact (no_empty _ HG X)].
        * destruct (is_hidden name) eqn:Eh; cbn [negb].
          -- exists m1. split; [reflexivity|]. apply adds_none. intros s (q & _ & _ & X). apply DEEP in X. destruct X as [[X _]|[X _]]; [exact (NN X)|]. apply X. apply HH. reflexivity.
          -- assert (NH : ~ hidden name) by (rewrite <- HH; congruence). destruct (SUB (Name a :: r) m1 (or_intror HG') ltac:(eexists; eauto)) as (m2 & E2 & A2). cbn [skipn map compiled] in *. rewrite E2. cbn [rbind].
             destruct (SUB (Deep :: Name a :: r) m2 (or_intror HG) ltac:(eexists; eauto)) as (m3 & E3 & A3). cbn [map compiled] in E3. rewrite E3. exists m3. split; [reflexivity|]. eapply adds_two; [exact A2|exact A3|]. intros s. split.
             ++ intros (q & -> & E & X). apply DEEP in X. destruct X as [[X _]|[_ X]]; [destruct (NN X)|]. right. exists q. rewrite (PQ q). auto.
             ++ intros [(q & -> & E & X)|(q & -> & E & X)]; exists q; rewrite (PQ q); (split; [reflexivity|]; split; [exact E|]); apply DEEP; right; split; auto. apply P_none. exact X. }
  assert (ALL : forall es1 m1, incl es1 es -> exists m2, F es1 m1 = Ok m2 /\ adds m1 m2 (fun s => exists name child q, In (name, child) es1 /\ s = path_text abs (p ++ name :: q) /\ exists_in child q /\ path_fits (sg :: segs) (name :: q))).
  { induction es1 as [|[name child] es1 IH1]; intros m1 HI.
    - exists m1. split; [apply F0|]. apply adds_none. intros s (name & child & q & [] & _).
    - destruct (NEXT name child (HI _ (or_introl eq_refl)) es1 m1) as (m2 & E2 & A2). destruct (IH1 m2) as (m3 & E3 & A3); [intros x Hx; apply HI; right; exact Hx|].
      exists m3. split; [rewrite E2; exact E3|]. eapply adds_two; [exact A2|exact A3|]. intros s. split.
      + intros (n' & c' & q & [E|H] & R); [injection E as <- <-; left; exists q; exact R|right; exists n', c', q; auto].
      + intros [(q & R)|(n' & c' & q & H & R)]; [exists name, child, q; split; [left; reflexivity|exact R]|exists n', c', q; split; [right; exact H|exact R]]. }
  destruct (ALL es m (incl_refl _)) as (m' & E' & A'). exists m'. split; [exact E'|]. eapply adds_eq; [exact A'|]. intros s. split.
  - intros (name & child & q & H & -> & E & X). exists (name :: q). split; [reflexivity|]. split; [econstructor; eassumption|exact X].
  - intros (q & -> & E & X). inversion E; subst; [destruct (no_empty _ HG X)|]. eauto 8.
Qed.
(* Dir.glob gives exactly the paths of the files and directories that match, each once; with a slash
   before the pattern the search begins at the root.  The order is not determined.  Patterns and names
   left out: C105_hidden_refuted, C105_deep_refuted, C105_slash_refuted, C105_bracket_refuted;
   directories that cannot be read: C105_unreadable_refuted *)
Theorem C105_glob_partial : forall root cwd segs (absolute : bool), plain_tree root -> plain_tree cwd -> is_dir root -> is_dir cwd -> good_pattern segs ->
  exists found, glob root cwd ((if absolute then [47] else []) ++ write segs) = Ok found /\ NoDup found /\
    forall s, In s found <-> exists p, s = path_text absolute p /\ exists_in (if absolute then root else cwd) p /\ path_fits segs p.
Proof.
  intros root cwd segs absolute TR TC DR DC G.
  assert (W : exists c w, write segs = c :: w /\ c <> 47).
  { inversion G as [a [S O]|a r [S O] H|a r [S O] H]; subst.
    - destruct a as [|[c| |] a]; [destruct S| | |]; try (eexists; eexists; split; [reflexivity|discriminate]). exists c, (map atom_text a). split; [reflexivity|]. intros ->. apply (O 47 (or_introl eq_refl)). cbn. tauto.
    - destruct a as [|[c| |] a]; [destruct S| destruct r |destruct S|destruct r]; try (eexists; eexists; split; [reflexivity|discriminate]); (eexists; eexists; split; [reflexivity|]); cbn [atom_text]; intros ->; apply (O 47 (or_introl eq_refl)); cbn; tauto.
    - eexists; eexists; split; [reflexivity|discriminate]. }
  assert (S : glob root cwd ((if absolute then [47] else []) ++ write segs) = traverse (if absolute then root else cwd) (path_text absolute []) (map compiled segs) []).
  { unfold glob. destruct absolute.
    - cbn [app]. cbv iota zeta. rewrite compile_pattern, regex_ok by exact G. reflexivity.
    - cbn [app]. destruct W as (c & w & E & N). rewrite E.
      match goal with |- (let (_, _) := ?x in _) = _ => assert (M : x = ((cwd, [] : chars), c :: w)) end.
      { destruct c as [|q|q]; try reflexivity. repeat (destruct q; try reflexivity). congruence. }
      rewrite M, <- E. rewrite compile_pattern, regex_ok by exact G. reflexivity. }
  rewrite S. destruct (traverse_ok absolute (if absolute then root else cwd) ltac:(destruct absolute; assumption) segs [] [] (or_intror G) ltac:(right; destruct absolute; assumption) ltac:(intros x [])) as (m & E & A1 & A2).
  exists m. split; [exact E|]. split; [apply A2; constructor|]. intros s. rewrite A1. unfold found. cbn [app]. split; [intros [[]|H]; exact H|auto].
Qed.
Print Assumptions C105_glob_partial.

(* a.b, d/a.c, d/e/x, d/.h/a.q and .p *)
Definition gx_tree : node := Dir true [([97; 46; 98], File); ([100], Dir true [([97; 46; 99], File); ([101], Dir true [([120], File)]); ([46; 104], Dir true [([97; 46; 113], File)])]); ([46; 112], File)].
(* **/a.? *)
Definition gx_pattern : list seg := [Deep; Name [Char 97; Char 46; One]].
Example C105_example : plain_tree gx_tree /\ is_dir gx_tree /\ good_pattern gx_pattern /\ good_pattern [Name [Many]; Name [Many]] /\
  glob gx_tree gx_tree (write gx_pattern) = Ok [[97; 46; 98]; [100; 47; 97; 46; 99]] /\
  glob gx_tree gx_tree (47 :: write gx_pattern) = Ok [[47; 97; 46; 98]; [47; 100; 47; 97; 46; 99]] /\
  glob gx_tree gx_tree (write [Name [Many]; Name [Many]]) = Ok [[100; 47; 97; 46; 99]; [100; 47; 101]].
Proof.
  split; [|split; [eexists; eexists; reflexivity|]; split; [|split; [|vm_compute; auto]]].
  - unfold gx_tree. repeat (constructor; intros name child H; cbn in H; repeat (destruct H as [H|H]; [injection H as <- <-; split; [discriminate|]; split; [cbn; lia|]; split; [cbn; lia|]|]); try contradiction).
  - assert (G : good_name [Char 97; Char 46; One]). { split; [exact I|]. intros c [E|[E|[E|[]]]]; try discriminate; injection E as <-; unfold ordinary; cbn; lia. } apply G_deep; [exact G|]. apply G_last. exact G.
  - assert (G : good_name [Many]). { split; [exact I|]. intros c [E|[]]; discriminate. } apply G_name; [exact G|]. apply G_last. exact G.
Qed.

(* ---- where it fails ---- *)
Definition fs (names : list chars) : node := Dir true (map (fun n => (n, File)) names).
(* "*.rb" and "?rb" match the name .rb *)
Theorem C105_hidden_refuted : exists a b name, ~ name_fits a name /\ ~ name_fits b name /\ fits a name /\
  glob (fs []) (fs [name]) (write [Name a]) = Ok [name] /\ glob (fs []) (fs [name]) (write [Name b]) = Ok [name].
Proof.
  exists [Many; Char 46; Char 114; Char 98], [One; Char 114; Char 98], [46; 114; 98]. split; [intros [_ H]; destruct H as [r E]; [eexists; reflexivity|discriminate]|].
  split; [intros [_ H]; destruct H as [r E]; [eexists; reflexivity|discriminate]|]. split; [apply (F_many []); repeat constructor|]. split; reflexivity.
Qed.
(* **/**/x does not find x *)
Theorem C105_deep_refuted : exists segs p, path_fits segs p /\ exists_in (fs [[120]]) p /\ write segs = [42; 42; 47; 42; 42; 47; 120] /\ glob (fs []) (fs [[120]]) (write segs) = Ok [].
Proof.
  exists [Deep; Deep; Name [Char 120]], [[120]]. split; [|split; [|split; reflexivity]].
  - apply P_none, P_none. apply P_name; [|constructor]. split; [constructor; constructor|]. intros [r E]. discriminate.
  - eapply E_entry; [left; reflexivity|constructor].
Qed.
(* a slash at the end, or two slashes: nothing is found *)
Theorem C105_slash_refuted : exists tree, plain_tree tree /\ exists_in tree [[100]] /\ exists_in tree [[100]; [120]] /\ glob tree tree [100; 47; 120] = Ok [[100; 47; 120]] /\
  glob tree tree [100; 47] = Ok [] /\ glob tree tree [100; 47; 47; 120] = Ok [] /\ glob tree tree [42; 42; 47] = Ok [].
Proof.
  exists (Dir true [([100], Dir true [([120], File)])]). split; [|split; [|split; [|vm_compute; auto]]].
  - repeat (constructor; intros name child H; cbn in H; repeat (destruct H as [H|H]; [injection H as <- <-; split; [discriminate|]; split; [cbn; lia|]; split; [cbn; lia|]|]); try contradiction).
  - eapply E_entry; [left; reflexivity|constructor].
  - eapply E_entry; [left; reflexivity|]. eapply E_entry; [left; reflexivity|constructor].
Qed.
(* a bracket in the pattern is part of the regular expression: x( ends the interpreter *)
Theorem C105_bracket_refuted : exists a, fits a [120; 40] /\ write [Name a] = [120; 40] /\ forall root cwd, glob root cwd (write [Name a]) = Panic.
Proof. exists [Char 120; Char 40]. split; [repeat constructor|]. split; reflexivity. Qed.
(* one directory that cannot be read: an error, whatever else matches *)
Theorem C105_unreadable_refuted : exists tree, exists_in tree [[120]] /\ path_fits [Deep; Name [Char 120]] [[120]] /\ glob tree tree (write [Deep; Name [Char 120]]) = Err OtherErr.
Proof.
  exists (Dir true [([120], File); ([100], Dir false [])]). split; [eapply E_entry; [left; reflexivity|constructor]|]. split; [|reflexivity].
  apply P_none. apply P_name; [|constructor]. split; [constructor; constructor|]. intros [r E]. discriminate.
Qed.
Print Assumptions C105_hidden_refuted.
Print Assumptions C105_deep_refuted.
Print Assumptions C105_slash_refuted.
Print Assumptions C105_bracket_refuted.
Print Assumptions C105_unreadable_refuted.
