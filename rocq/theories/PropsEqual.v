(* Properties C86 (Comparable) and C87 (==, !=, when). [St] is any state of
   the program, [look] its heap, [eqm] and [ordm] say whether an object's ==
   and its <, <=, > and >= are written in the program, come from Comparable or
   from Object; [ueq], [ucmp], [uord], [umod] are what the methods ==, <=>, <
   .. >= and === written in the program do. [op_eq], [op_ne] are the operators
   == and !=, [op_eqi] is == with an integer literal on the right, [op_ord]
   the other comparison operators, [op_case] is `when`. *)
From Verif Require Import Base ModelValue ModelFloat ModelInt ModelArray ModelEqual SpecEqual ProofsEqual.

(* ---- C86 ---- *)
(* The operators say what <=> says, which is asked once. *)
Theorem C86_order : forall (St : Type) (ordm : St -> Z -> meth) (ucmp : St -> Z -> ev -> St * res ev)
    (uord : cop -> St -> Z -> ev -> St * res ev) (st st' : St) (a : Z) (b : ev) (i : Z),
  ordm st a = MComparable -> - 2 ^ 62 <= i < 2 ^ 62 -> ucmp st a b = (st', Ok (small i)) ->
  exists lt le ge gt,
    op_ord St ordm ucmp uord CLt st a b = (st', Ok lt) /\ op_ord St ordm ucmp uord CLe st a b = (st', Ok le) /\
    op_ord St ordm ucmp uord CGe st a b = (st', Ok ge) /\ op_ord St ordm ucmp uord CGt st a b = (st', Ok gt) /\
    (lt = true <-> i < 0) /\ (le = true <-> i <= 0) /\ (ge = true <-> 0 <= i) /\ (gt = true <-> 0 < i).
Proof.
  intros St ordm ucmp uord st st' a b i M R E. unfold op_ord, comparable. rewrite M, E, (small_fix i R). cbn [rbind].
  rewrite !ebool_truthy. do 4 eexists. repeat (split; [reflexivity|]).
  rewrite !Z.ltb_lt, !Z.leb_le. tauto.
Qed.
Print Assumptions C86_order.
(* Objects whose <=> compares keys are ordered as their keys are. *)
Theorem C86_laws : forall (St : Type) (look : St -> Z -> cell) (eqm ordm : St -> Z -> meth)
    (ueq ucmp : St -> Z -> ev -> St * res ev) (uord : cop -> St -> Z -> ev -> St * res ev)
    (key : Z -> Z) (objs : Z -> Prop),
  (forall st a, objs a -> look st a = CObj /\ eqm st a = MComparable /\ ordm st a = MComparable) ->
  (forall st a b, objs a -> objs b -> exists i, - 2 ^ 62 <= i < 2 ^ 62 /\ ucmp st a (EPtr b) = (st, Ok (small i)) /\
    (i < 0 <-> key a < key b) /\ (0 < i <-> key b < key a)) ->
  forall (n : nat) (st : St) (a b : Z), objs a -> objs b ->
  exists lt le eq ge gt,
    op_ord St ordm ucmp uord CLt st a (EPtr b) = (st, Ok lt) /\ op_ord St ordm ucmp uord CLe st a (EPtr b) = (st, Ok le) /\
    op_eq St look eqm ueq ucmp (S n) st (EPtr a) (EPtr b) = (st, Ok eq) /\
    op_ord St ordm ucmp uord CGe st a (EPtr b) = (st, Ok ge) /\ op_ord St ordm ucmp uord CGt st a (EPtr b) = (st, Ok gt) /\
    (lt = true <-> key a < key b) /\ (le = true <-> key a <= key b) /\ (eq = true <-> key a = key b) /\
    (ge = true <-> key a >= key b) /\ (gt = true <-> key a > key b).
Proof.
  intros St look eqm ordm ueq ucmp uord key objs HM HC n st a b Oa Ob.
  destruct (HM st a Oa) as (La & Ea & Ma). destruct (HM st b Ob) as (Lb & _ & _).
  destruct (HC st a b Oa Ob) as (i & R & E & H1 & H2).
  destruct (C86_order St ordm ucmp uord st st a (EPtr b) i Ma R E) as (lt & le & ge & gt & A1 & A2 & A3 & A4 & B1 & B2 & B3 & B4).
  exists lt, le, (key a =? key b), ge, gt. split; [exact A1|]. split; [exact A2|]. split.
  - unfold op_eq, eq2. destruct (Z.eqb_spec a b) as [<-|N].
    + rewrite Z.eqb_refl. reflexivity.
    + rewrite La. unfold send_eq, comparable. rewrite La, Ea, E, (small_fix i R), ebool_truthy. do 2 f_equal.
      destruct (Z.eqb_spec i 0), (Z.eqb_spec (key a) (key b)); try reflexivity; lia.
  - split; [exact A3|]. split; [exact A4|]. rewrite B1, B2, B3, B4, Z.eqb_eq. lia.
Qed.
Print Assumptions C86_laws.
(* What <=> raises comes out of <, <=, > and >=. *)
Theorem C86_raise : forall (St : Type) (ordm : St -> Z -> meth) (ucmp : St -> Z -> ev -> St * res ev)
    (uord : cop -> St -> Z -> ev -> St * res ev) (st st' : St) (a : Z) (b : ev) (e : rkind) (op : cop),
  ordm st a = MComparable -> ucmp st a b = (st', Err e) -> op_ord St ordm ucmp uord op st a b = (st', Err e).
Proof. intros St ordm ucmp uord st st' a b e op M E. unfold op_ord, comparable. rewrite M, E. reflexivity. Qed.
Print Assumptions C86_raise.

(* A program: objects 1 .. 9 with Comparable, ordered backwards. The state is
   the list of receivers of <=>. *)
Definition nocell (_ : list Z) (_ : Z) : cell := CObj.
Definition comps (_ : list Z) (_ : Z) : meth := MComparable.
Definition users (_ : list Z) (_ : Z) : meth := MUser.
Definition back (st : list Z) (a : Z) (b : ev) : list Z * res ev :=
  match b with
  | EPtr b => (st, Ok (small (if a <? b then 5 else if b <? a then -5 else 0)))
  | EImm _ => (a :: st, Ok (EImm NIL_VALUE))
  end.
Definition none (_ : cop) (st : list Z) (_ : Z) (_ : ev) : list Z * res ev := (st, Err NoMethodErr).
Example C86_ex : (forall st a b, 0 < a < 10 -> 0 < b < 10 ->
    exists i, - 2 ^ 62 <= i < 2 ^ 62 /\ back st a (EPtr b) = (st, Ok (small i)) /\
    (i < 0 <-> - a < - b) /\ (0 < i <-> - b < - a)) /\
  op_ord (list Z) comps back none CGt [] 3 (EPtr 4) = ([], Ok true) /\
  op_eq (list Z) nocell comps back back 1 [] (EPtr 3) (EPtr 4) = ([], Ok false).
Proof.
  split; [|split; reflexivity]. intros st a b Ha Hb. unfold back.
  destruct (Z.ltb_spec a b); [exists 5|destruct (Z.ltb_spec b a); [exists (-5)|exists 0]]; repeat split; try reflexivity; lia.
Qed.
Example C86_raise_ex : let raise (st : list Z) a (_ : ev) := (a :: st, @Err ev TypeErr) in
  op_ord (list Z) comps raise none CLt [] 3 (EPtr 4) = ([3], Err TypeErr).
Proof. reflexivity. Qed.

(* When <=> answers nil, == is false, and what <=> did stays done. *)
Theorem C86_incomparable : forall (St : Type) (look : St -> Z -> cell) (eqm : St -> Z -> meth)
    (ueq ucmp : St -> Z -> ev -> St * res ev) (n : nat) (st st' : St) (a b : Z),
  a <> b -> look st a = CObj -> eqm st a = MComparable -> ucmp st a (EPtr b) = (st', Ok (EImm 0x24)) ->
  op_eq St look eqm ueq ucmp (S n) st (EPtr a) (EPtr b) = (st', Ok false) /\
  op_ne St look eqm ueq ucmp (S n) st (EPtr a) (EPtr b) = (st', Ok true).
Proof.
  intros St look eqm ueq ucmp n st st' a b N L M E.
  assert (H : op_eq St look eqm ueq ucmp (S n) st (EPtr a) (EPtr b) = (st', Ok false)).
  { unfold op_eq, eq2. destruct (Z.eqb_spec a b); [contradiction|]. rewrite L. unfold send_eq, comparable. rewrite L, M, E.
    destruct (look st b); reflexivity. }
  split; [exact H|]. unfold op_ne. rewrite H. reflexivity.
Qed.
Print Assumptions C86_incomparable.
Example C86_incomparable_ex : let shy (st : list Z) a (_ : ev) := (a :: st, @Ok ev (EImm 0x24)) in
  op_eq (list Z) nocell comps shy shy 1 [] (EPtr 3) (EPtr 4) = ([3], Ok false).
Proof. reflexivity. Qed.

(* A <=> that answers nil (the two cannot be compared) aborts the interpreter
   in < and >; <= and >= answer false. Ruby raises ArgumentError. *)
Theorem C86_incomparable_refuted : exists (St : Type) (ordm : St -> Z -> meth) (ucmp : St -> Z -> ev -> St * res ev)
    (uord : cop -> St -> Z -> ev -> St * res ev) (st : St) (a : Z) (b : ev),
  ordm st a = MComparable /\ snd (ucmp st a b) = Ok (EImm 0x24) /\
  snd (op_ord St ordm ucmp uord CLt st a b) = Panic /\ snd (op_ord St ordm ucmp uord CGt st a b) = Panic /\
  snd (op_ord St ordm ucmp uord CLe st a b) = Ok false /\ snd (op_ord St ordm ucmp uord CGe st a b) = Ok false.
Proof. exists (list Z), comps, back, none, [], 3, (EImm 7). repeat split. Qed.
Print Assumptions C86_incomparable_refuted.
(* What <=> raises is lost in the operator ==. *)
Theorem C86_raise_eq_refuted : exists (St : Type) (look : St -> Z -> cell) (eqm : St -> Z -> meth)
    (ueq ucmp : St -> Z -> ev -> St * res ev) (st st' : St) (a b : Z) (e : rkind),
  look st a = CObj /\ eqm st a = MComparable /\ ucmp st a (EPtr b) = (st', Err e) /\
  op_eq St look eqm ueq ucmp 1 st (EPtr a) (EPtr b) = (st', Ok false).
Proof.
  exists (list Z), nocell, comps, back, (fun st a _ => (a :: st, Err TypeErr)), [], [3], 3, 4, TypeErr. repeat split.
Qed.
Print Assumptions C86_raise_eq_refuted.
(* A <=> that answers a big integer counts as one that cannot compare. *)
Theorem C86_big_refuted : exists (St : Type) (look : St -> Z -> cell) (ordm : St -> Z -> meth)
    (ucmp : St -> Z -> ev -> St * res ev) (uord : cop -> St -> Z -> ev -> St * res ev) (st : St) (a : Z) (b : ev) (v n : Z),
  ordm st a = MComparable /\ ucmp st a b = (st, Ok (EPtr v)) /\ look st v = CBig n /\ 0 < n /\
  op_ord St ordm ucmp uord CGe st a b = (st, Ok false) /\ op_ord St ordm ucmp uord CGt st a b = (st, Panic).
Proof.
  exists (list Z), (fun _ _ => CBig (2 ^ 70)), comps, (fun st _ _ => (st, Ok (EPtr 8))), none, [], 3, (EPtr 4), 8, (2 ^ 70).
  repeat split.
Qed.
Print Assumptions C86_big_refuted.

(* ---- C87 ---- *)
(* Data is equal exactly when it looks the same; nothing else happens. *)
Theorem C87_structure : forall (St : Type) (look : St -> Z -> cell) (eqm : St -> Z -> meth)
    (ueq ucmp : St -> Z -> ev -> St * res ev) (n : nat) (st : St) (l r : ev),
  data (look st) n l -> data (look st) n r ->
  exists b, op_eq St look eqm ueq ucmp (S n) st l r = (st, Ok b) /\ (b = true <-> alike (look st) l r).
Proof. intros. apply eq2_data; assumption. Qed.
Print Assumptions C87_structure.
Theorem C87_symmetric : forall (St : Type) (look : St -> Z -> cell) (eqm : St -> Z -> meth)
    (ueq ucmp : St -> Z -> ev -> St * res ev) (n : nat) (st : St) (l r : ev),
  data (look st) n l -> data (look st) n r ->
  op_eq St look eqm ueq ucmp (S n) st l r = op_eq St look eqm ueq ucmp (S n) st r l.
Proof.
  intros St look eqm ueq ucmp n st l r Dl Dr.
  destruct (C87_structure St look eqm ueq ucmp n st l r Dl Dr) as (b & E & H).
  destruct (C87_structure St look eqm ueq ucmp n st r l Dr Dl) as (b' & E' & H'). rewrite E, E'. do 2 f_equal.
  assert (b = true <-> b' = true) as X by (rewrite H, H'; split; apply alike_sym).
  destruct b, b'; try reflexivity; [symmetry; apply X|apply X]; reflexivity.
Qed.
Print Assumptions C87_symmetric.
Theorem C87_not_equal : forall (St : Type) (look : St -> Z -> cell) (eqm : St -> Z -> meth)
    (ueq ucmp : St -> Z -> ev -> St * res ev) (n : nat) (st st' : St) (l r : ev) (b : bool),
  op_eq St look eqm ueq ucmp n st l r = (st', Ok b) <-> op_ne St look eqm ueq ucmp n st l r = (st', Ok (negb b)).
Proof.
  intros. unfold op_ne. destruct (op_eq St look eqm ueq ucmp n st l r) as [s [x| |]]; cbn [rbind].
  - split; intros H; injection H as -> H; [subst; reflexivity|]. destruct x, b; try discriminate; reflexivity.
  - split; discriminate.
  - split; discriminate.
Qed.
Print Assumptions C87_not_equal.
(* `when` asks the pattern; data matches exactly what looks the same. *)
Theorem C87_when : forall (St : Type) (look : St -> Z -> cell) (eqm : St -> Z -> meth)
    (ueq ucmp umod : St -> Z -> ev -> St * res ev) (n : nat) (st : St) (pat v : ev),
  data (look st) n pat -> data (look st) n v ->
  exists b, op_case St look eqm ueq ucmp umod (S n) st pat v = (st, Ok b) /\ (b = true <-> alike (look st) pat v).
Proof.
  intros St look eqm ueq ucmp umod n st pat v Dp Dv.
  destruct (C87_structure St look eqm ueq ucmp n st pat v Dp Dv) as (b & E & H). exists b. split; [|exact H].
  unfold op_case. inversion Dp; subst; try exact E;
    match goal with A : look st _ = _ |- _ => rewrite A end; exact E.
Qed.
Print Assumptions C87_when.
(* include? finds an element that looks the same. *)
Theorem C87_include : forall (St : Type) (look : St -> Z -> cell) (eqm : St -> Z -> meth)
    (ueq ucmp : St -> Z -> ev -> St * res ev) (n : nat) (st : St) (l : list ev) (v : ev),
  (forall x, In x l -> data (look st) n x) -> data (look st) n v ->
  exists b, arr_include St look eqm ueq ucmp (S n) st l v = (st, Ok b) /\
    (b = true <-> exists x, In x l /\ alike (look st) v x).
Proof.
  intros St look eqm ueq ucmp n st l v Dl Dv. induction l as [|x l IH].
  - exists false. split; [reflexivity|]. split; [discriminate|]. intros (x & [] & _).
  - cbn [arr_include].
    destruct (C87_structure St look eqm ueq ucmp n st v x Dv (Dl x (or_introl eq_refl))) as (b & E & H).
    unfold op_eq in E. rewrite E. destruct b.
    + exists true. split; [reflexivity|]. split; [|reflexivity]. intros _. exists x. split; [left; reflexivity|]. apply H. reflexivity.
    + destruct IH as (b & E' & H'); [intros; apply Dl; right; assumption|]. exists b. split; [exact E'|]. rewrite H'. split.
      * intros (y & I & A). exists y. split; [right; exact I|exact A].
      * intros (y & [<-|I] & A); [|exists y; split; assumption]. apply H in A. discriminate.
Qed.
Print Assumptions C87_include.
(* Two different objects are equal when the left one says so. *)
Theorem C87_asked : forall (St : Type) (look : St -> Z -> cell) (eqm : St -> Z -> meth)
    (ueq ucmp : St -> Z -> ev -> St * res ev) (n : nat) (st st' : St) (a b : Z) (v : ev),
  a <> b -> look st a = CObj -> eqm st a = MUser -> ueq st a (EPtr b) = (st', Ok v) ->
  (yes v -> op_eq St look eqm ueq ucmp (S n) st (EPtr a) (EPtr b) = (st', Ok true)) /\
  (falsy v -> op_eq St look eqm ueq ucmp (S n) st (EPtr a) (EPtr b) = (st', Ok false)).
Proof.
  intros St look eqm ueq ucmp n st st' a b v N L M E. unfold op_eq, eq2.
  destruct (Z.eqb_spec a b); [contradiction|]. rewrite L. unfold send_eq. rewrite L, M, E.
  split; intros H; [rewrite (yes_truthy v H)|rewrite (falsy_not v H)]; destruct (look st b); reflexivity.
Qed.
Print Assumptions C87_asked.
(* Arrays of objects: the objects of the left array are asked in order, up to
   the first that says no. *)
Theorem C87_arrays_asked : forall (St : Type) (look : St -> Z -> cell) (eqm : St -> Z -> meth)
    (ueq ucmp : St -> Z -> ev -> St * res ev) (n : nat) (st st' : St) (a b : Z) (p : list (Z * Z)) (r : bool),
  a <> b -> look st a = CArr (map (fun x => EPtr (fst x)) p) -> look st b = CArr (map (fun x => EPtr (snd x)) p) ->
  (forall s x y, In (x, y) p -> x <> y /\ look s x = CObj /\ eqm s x = MUser) ->
  asked St ueq st p st' r -> op_eq St look eqm ueq ucmp (S (S n)) st (EPtr a) (EPtr b) = (st', Ok r).
Proof.
  intros St look eqm ueq ucmp n st st' a b p r N La Lb O H.
  pose proof (asked_all look eqm ueq ucmp n st p st' r H O) as E.
  remember (S n) as m eqn:Em. unfold op_eq. cbn [eq2]. destruct (Z.eqb_spec a b); [contradiction|].
  rewrite La, Lb. unfold zlen. rewrite !map_length, Z.eqb_refl. exact E.
Qed.
Print Assumptions C87_arrays_asked.

(* A heap: 1 = [7, "ab", 3..4], 2 the same made anew with 7.0, 3 and 4 "ab",
   5 and 6 the ranges, 7 = [7, "ab"]; 10 is 2^70, 11 and 12 are NaN; 13 = [13]
   and 14 = [14]; 21 .. 26 are objects, 31 = [21, 22, 23], 32 = [24, 25, 26]. *)
Definition seven_f : ev := match float 0x401c000000000000 with Imm w => EImm w | _ => EPtr 0 end.
Definition hx (_ : list Z) (a : Z) : cell :=
  if a =? 1 then CArr [small 7; EPtr 3; EPtr 5]
  else if a =? 2 then CArr [seven_f; EPtr 4; EPtr 6]
  else if (a =? 3) || (a =? 4) then CStr [97; 98]
  else if (a =? 5) || (a =? 6) then CRange (small 3) (small 4) false
  else if a =? 7 then CArr [small 7; EPtr 3]
  else if a =? 10 then CBig (2 ^ 70)
  else if (a =? 11) || (a =? 12) then CFloat 0x7ff8000000000000
  else if a =? 13 then CArr [EPtr 13]
  else if a =? 14 then CArr [EPtr 14]
  else if a =? 31 then CArr [EPtr 21; EPtr 22; EPtr 23]
  else if a =? 32 then CArr [EPtr 24; EPtr 25; EPtr 26]
  else CObj.
Lemma hx_data : data (hx []) 2 (EPtr 1) /\ data (hx []) 2 (EPtr 2) /\ data (hx []) 2 (EPtr 7).
Proof.
  assert (forall a, a = 3 \/ a = 4 -> data (hx []) 1 (EPtr a)) as Ds.
  { intros a [->| ->]; eapply d_str; reflexivity. }
  assert (forall a, a = 5 \/ a = 6 -> data (hx []) 1 (EPtr a)) as Dr.
  { intros a [->| ->]; eapply d_range; try reflexivity; apply d_imm. }
  repeat split; (eapply d_arr; [reflexivity|]); intros x; cbn; intuition (subst; try apply d_imm; auto).
Qed.
Example C87_ex : op_eq (list Z) hx users back back 3 [] (EPtr 1) (EPtr 2) = ([], Ok true) /\
  op_eq (list Z) hx users back back 3 [] (EPtr 1) (EPtr 7) = ([], Ok false) /\
  op_ne (list Z) hx users back back 3 [] (EPtr 1) (EPtr 7) = ([], Ok true) /\
  op_case (list Z) hx users back back back 3 [] (EPtr 2) (EPtr 1) = ([], Ok true) /\
  arr_include (list Z) hx users back back 3 [] [small 5; EPtr 7; EPtr 2] (EPtr 1) = ([], Ok true).
Proof. vm_compute. auto. Qed.
(* [says k]: the objects below k say yes; who was asked is remembered. *)
Definition says (k : Z) (st : list Z) (a : Z) (b : ev) : list Z * res ev :=
  (a :: st, Ok (EImm (if a <? k then TRUE_VALUE else NIL_VALUE))).
Example C87_asked_ex : op_eq (list Z) hx users (says 22) back 2 [] (EPtr 31) (EPtr 32) = ([22; 21], Ok false) /\
  asked (list Z) (says 22) [] [(21, 24); (22, 25); (23, 26)] [22; 21] false /\
  op_eq (list Z) hx users (says 30) back 2 [] (EPtr 31) (EPtr 32) = ([23; 22; 21], Ok true).
Proof.
  split; [reflexivity|]. split; [|reflexivity].
  eapply ask_yes; [reflexivity|vm_compute; repeat split; discriminate|]. eapply ask_no; [reflexivity|left; reflexivity].
Qed.

(* An object on the left of an integer literal is asked: its answer counts, and
   what it raises is raised. *)
Theorem C87_literal : forall (St : Type) (look : St -> Z -> cell) (eqm : St -> Z -> meth)
    (ueq ucmp : St -> Z -> ev -> St * res ev) (st st' : St) (a i : Z) (r : res ev),
  look st a = CObj -> eqm st a = MUser -> - 2 ^ 62 <= i < 2 ^ 62 -> ueq st a (small i) = (st', r) ->
  (forall v, r = Ok v -> yes v -> op_eqi St look eqm ueq ucmp st (EPtr a) i = (st', Ok true)) /\
  (forall v, r = Ok v -> falsy v -> op_eqi St look eqm ueq ucmp st (EPtr a) i = (st', Ok false)) /\
  (forall e, r = Err e -> op_eqi St look eqm ueq ucmp st (EPtr a) i = (st', Err e)).
Proof.
  intros St look eqm ueq ucmp st st' a i r L M R E.
  unfold op_eqi. rewrite L. unfold send_eq. rewrite L, M, (ProofsValue.fixnum_word i R).
  change (EImm (u64 (2 * i) + 1)) with (small i). rewrite E.
  split; [|split].
  - intros v -> Y. cbn [rbind]. rewrite (yes_truthy v Y). reflexivity.
  - intros v -> Y. cbn [rbind]. rewrite (falsy_not v Y). reflexivity.
  - intros e ->. reflexivity.
Qed.
Print Assumptions C87_literal.
Example C87_literal_ex : op_eqi (list Z) hx users (says 22) back [] (EPtr 21) 7 = ([21], Ok true) /\
  op_eqi (list Z) hx users (says 22) back [] (EPtr 23) 7 = ([23], Ok false) /\
  op_eqi (list Z) hx users (fun st a _ => (a :: st, Err TypeErr)) back [] (EPtr 23) 7 = ([23], Err TypeErr).
Proof. split; [reflexivity|]. split; reflexivity. Qed.

(* A value that is not a heap object is never handed to ==: the object would
   say yes. With an integer literal it is asked. *)
Theorem C87_immediate_refuted : exists (St : Type) (look : St -> Z -> cell) (eqm : St -> Z -> meth)
    (ueq ucmp : St -> Z -> ev -> St * res ev) (st st' : St) (a i : Z),
  look st a = CObj /\ eqm st a = MUser /\ st <> st' /\ ueq st a (small i) = (st', Ok (EImm 0x1c)) /\
  op_eq St look eqm ueq ucmp 1 st (EPtr a) (small i) = (st, Ok false) /\
  op_eqi St look eqm ueq ucmp st (EPtr a) i = (st', Ok true).
Proof. exists (list Z), hx, users, (says 30), back, [], [21], 21, 5. repeat split. discriminate. Qed.
Print Assumptions C87_immediate_refuted.
(* An error raised by == is lost. *)
Theorem C87_raise_refuted : exists (St : Type) (look : St -> Z -> cell) (eqm : St -> Z -> meth)
    (ueq ucmp : St -> Z -> ev -> St * res ev) (st st' : St) (a b : Z) (e : rkind),
  look st a = CObj /\ eqm st a = MUser /\ ueq st a (EPtr b) = (st', Err e) /\
  op_eq St look eqm ueq ucmp 1 st (EPtr a) (EPtr b) = (st', Ok false).
Proof. exists (list Z), hx, users, (fun st a _ => (a :: st, Err TypeErr)), back, [], [21], 21, 22, TypeErr. repeat split. Qed.
Print Assumptions C87_raise_refuted.
(* Comparing two arrays that hold themselves never ends: it runs out of any
   stack. *)
Theorem C87_cyclic_refuted : exists (St : Type) (look : St -> Z -> cell) (eqm : St -> Z -> meth)
    (ueq ucmp : St -> Z -> ev -> St * res ev) (st : St) (a b : Z),
  a <> b /\ look st a = CArr [EPtr a] /\ look st b = CArr [EPtr b] /\
  forall n, op_eq St look eqm ueq ucmp n st (EPtr a) (EPtr b) = (st, Panic).
Proof.
  exists (list Z), hx, users, back, back, [], 13, 14. split; [discriminate|]. split; [reflexivity|]. split; [reflexivity|].
  induction n as [|n IH]; [reflexivity|]. unfold op_eq in *. cbn. rewrite IH. reflexivity.
Qed.
Print Assumptions C87_cyclic_refuted.
(* NaN equals itself when it is the same object. *)
Theorem C87_nan_refuted : exists (St : Type) (look : St -> Z -> cell) (eqm : St -> Z -> meth)
    (ueq ucmp : St -> Z -> ev -> St * res ev) (st : St) (a b f : Z),
  look st a = CFloat f /\ look st b = CFloat f /\ f64_is_nan f = true /\
  op_eq St look eqm ueq ucmp 1 st (EPtr a) (EPtr a) = (st, Ok true) /\
  op_eq St look eqm ueq ucmp 1 st (EPtr a) (EPtr b) = (st, Ok false).
Proof. exists (list Z), hx, users, back, back, [], 11, 12, 0x7ff8000000000000. repeat split. Qed.
Print Assumptions C87_nan_refuted.
(* A big integer never equals a float of middle size, even one of the same
   value; the method == of the integer says they are equal. *)
Theorem C87_big_float_refuted : exists (St : Type) (look : St -> Z -> cell) (eqm : St -> Z -> meth)
    (ueq ucmp : St -> Z -> ev -> St * res ev) (st : St) (a n w f : Z),
  look st a = CBig n /\ number w = Some (inr f) /\ f = f64_of_Z n /\
  op_eq St look eqm ueq ucmp 1 st (EPtr a) (EImm w) = (st, Ok false) /\
  send_eq St look eqm ueq ucmp st a (EImm w) = (st, Ok (EImm 0x1c)).
Proof.
  exists (list Z), hx, users, back, back, [], 10, (2 ^ 70),
    (match float (f64_of_Z (2 ^ 70)) with Imm w => w | _ => 0 end), (f64_of_Z (2 ^ 70)).
  repeat split; vm_compute; reflexivity.
Qed.
Print Assumptions C87_big_float_refuted.
(* == called as a method (send, public_send, super) is identity for strings. *)
Theorem C87_method_refuted : exists (St : Type) (look : St -> Z -> cell) (eqm : St -> Z -> meth)
    (ueq ucmp : St -> Z -> ev -> St * res ev) (st : St) (a b : Z) (s : list Z),
  look st a = CStr s /\ look st b = CStr s /\
  op_eq St look eqm ueq ucmp 1 st (EPtr a) (EPtr b) = (st, Ok true) /\
  send_eq St look eqm ueq ucmp st a (EPtr b) = (st, Ok (EImm 0x14)).
Proof. exists (list Z), hx, users, back, back, [], 3, 4, [97; 98]. repeat split. Qed.
Print Assumptions C87_method_refuted.
(* grep, any? and all? with a pattern ask the element, `when` asks the pattern. *)
Theorem C87_pattern_refuted : exists (St : Type) (look : St -> Z -> cell) (eqm : St -> Z -> meth)
    (ueq ucmp umod : St -> Z -> ev -> St * res ev) (st : St) (pat v : Z),
  look st pat = CObj /\ eqm st pat = MUser /\
  snd (op_case St look eqm ueq ucmp umod 1 st (EPtr pat) (EPtr v)) = Ok true /\
  snd (eval_teq St look eqm ueq ucmp umod 1 st (EPtr v) (EPtr pat)) = Ok false.
Proof. exists (list Z), hx, users, (says 22), back, back, [], 21, 22. repeat split. Qed.
Print Assumptions C87_pattern_refuted.
