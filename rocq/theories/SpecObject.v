(** What a program expects of objects, in terms of what it did before.  Nothing
    here looks at the tables of the model. *)
From Coq Require Import ZArith List Bool.
From Verif Require Import Base ModelObject.
Import ListNotations.
Open Scope Z_scope.

(** nil, as a packed word *)
Definition nil_value : ov := Pk 36.
(** [@x] and [@@x] *)
Definition cvar (x : name) : Prop := exists r, x = 64 :: 64 :: r.
Definition ivar (x : name) : Prop := (exists r, x = 64 :: r) /\ ~ cvar x.

(** Class variables are written with two @ *)
Definition lexed (e : act * option out) : Prop :=
  match fst e with ACvSet _ x _ => cvar x | _ => True end.

(** The value last written to variable [x] of the object at [a]: a copy starts
    with the variables of its original.  [i] is what was there at the start *)
Fixpoint last_value (i : Z -> name -> option ov) (l : list (act * option out)) (a : Z) (x : name) : option ov :=
  match l with
  | [] => i a x
  | (AWrite _ (Rf b) y v, Some _) :: r =>
      if (a =? b) && name_eqb x y then Some v else last_value i r a x
  | (ADup (Rf b), Some (OV (Rf c))) :: r =>
      if a =? c then last_value i r b x else last_value i r a x
  | _ :: r => last_value i r a x
  end.

(** The content last given to the array at [a] *)
Fixpoint last_content (i : Z -> option (list ov)) (l : list (act * option out)) (a : Z) : option (list ov) :=
  match l with
  | [] => i a
  | (AReplace (Rf b) v, Some _) :: r => if a =? b then Some v else last_content i r a
  | (AArray _ v, Some (OV (Rf b))) :: r => if a =? b then Some v else last_content i r a
  | (ADup (Rf b), Some (OV (Rf c))) :: r => if a =? c then last_content i r b else last_content i r a
  | _ :: r => last_content i r a
  end.

(** The start: what a reader finds in [h] *)
Definition start_vars (h : heap) (a : Z) (x : name) : option ov :=
  match h_cells h a with Some c => tget (o_vars c) x | None => None end.
Definition start_content (h : heap) (a : Z) : option (list ov) :=
  match h_cells h a with Some (mkcell _ _ (KArr l)) => Some l | _ => None end.

(** A heap where objects are found below [h_next] only *)
Definition tidy (h : heap) : Prop := forall a, h_next h <= a -> h_cells h a = None.

(** The objects a program can have: all but the copies of a module that include
    puts between classes *)
Definition in_chain (k : kind) : bool := match k with KMod ci => ci_inc ci | _ => false end.
Definition held (h : heap) (a : Z) : Prop := exists c, h_cells h a = Some c /\ in_chain (o_kind c) = false.

(** An act that changes the variables or the content of [a] *)
Definition touches (a : Z) (e : act * option out) : Prop :=
  match fst e with AWrite _ (Rf b) _ _ | AReplace (Rf b) _ => b = a | _ => False end.

(** ** Singleton methods *)

(** Only the object at [a] has to do with the class at [s], whose methods are in
    table [e] *)
Record apart (h : heap) (a s e : Z) : Prop := mkapart {
  ap_class : forall b d, h_cells h b = Some d -> b <> a -> o_class d <> s;
  ap_up : forall b d di, h_cells h b = Some d -> o_kind d = KMod di -> ci_up di <> Some s;
  ap_ext : forall b d di, h_cells h b = Some d -> o_kind d = KMod di -> b <> s -> ci_ext di <> e;
  ap_pk : forall v, h_pk h v <> s;
  ap_builtin : h_class h <> s /\ h_module h <> s }.
(** [s] is the class of the object at [a], [e] its table, [b] says if it is a
    singleton class *)
Definition classed (h : heap) (a s e : Z) (b : bool) : Prop :=
  exists c k ci, h_cells h a = Some c /\ (forall ci, o_kind c <> KMod ci) /\ o_class c = s /\
    h_cells h s = Some k /\ o_kind k = KMod ci /\ ci_ext ci = e /\ x_single (h_exts h e) = b.
(** The object at [a] is no class, and if it has a singleton class then no
    other object or class has to do with that *)
Definition lone (h : heap) (a : Z) : Prop := exists s e b, classed h a s e b /\ (b = true -> apart h a s e).

(** Every pointer of the heap leads to an object *)
Record sound_heap (h : heap) : Prop := mksound {
  sh_tidy : tidy h;
  sh_class : forall b d, h_cells h b = Some d -> o_class d < h_next h;
  sh_up : forall b d di u, h_cells h b = Some d -> o_kind d = KMod di -> ci_up di = Some u -> u < h_next h;
  sh_ext : forall b d di, h_cells h b = Some d -> o_kind d = KMod di -> ci_ext di < h_nexte h;
  sh_pk : forall v, h_pk h v < h_next h;
  sh_builtin : h_class h < h_next h /\ h_module h < h_next h }.

(** Acts that leave the singleton class of [a] to [a]: while there is one, [a] is
    not copied, and the class is not copied, instantiated, inherited from or
    included *)
Definition uses (a s : Z) (e : act) : Prop :=
  match e with
  | ADup (Rf b) => b = a \/ b = s
  | AAlloc c | AArray c _ | AClass c => c = s
  | AInclude _ (Rf b) | AExtend _ (Rf b) => b = s
  | _ => False
  end.
Definition away (h : heap) (a : Z) (e : act) : Prop := forall s x, classed h a s x true -> ~ uses a s e.
Inductive runs_away (fuel : nat) (a : Z) (h0 : heap) : list (act * option out) -> heap -> Prop :=
| ANil : runs_away fuel a h0 [] h0
| AOk l h e o h' : runs_away fuel a h0 l h -> away h a e -> step fuel e h = Ok (o, h') -> runs_away fuel a h0 ((e, Some o) :: l) h'
| AErr l h e k : runs_away fuel a h0 l h -> away h a e -> step fuel e h = Err k -> runs_away fuel a h0 ((e, None) :: l) (after_err fuel e h).

(** Method [f] is defined nowhere but on [a] *)
Definition only_on (a f : Z) (e : act * option out) : Prop :=
  match fst e with ADefS o _ g => g = f -> o = Rf a | ADef _ _ g => g <> f | _ => True end.
Definition nowhere (h : heap) (f : Z) : Prop := forall e m, tget (x_meth (h_exts h e)) m <> Some (MFn f).

(** ** Class variables *)

(** [l] are the classes from [c] upwards *)
Inductive upwards (h : heap) : Z -> list Z -> Prop :=
| UTop c k ci : h_cells h c = Some k -> o_kind k = KMod ci -> ci_up ci = None -> upwards h c [c]
| UUp c k ci u l : h_cells h c = Some k -> o_kind k = KMod ci -> ci_up ci = Some u -> upwards h u l -> upwards h c (c :: l).
(** the first class of [l] with a class variable [x] *)
Definition has_var (h : heap) (x : name) (c : Z) : Prop := start_vars h c x <> None.
Definition first_with (h : heap) (x : name) (l : list Z) (o : Z) : Prop :=
  exists l1 l2, l = l1 ++ o :: l2 /\ has_var h x o /\ forall c, In c l1 -> ~ has_var h x c.
(** a class that is no singleton class and no copy of an included module *)
Definition plain (h : heap) (c : Z) : Prop :=
  exists k ci, h_cells h c = Some k /\ o_kind k = KMod ci /\ ci_inc ci = false /\ x_single (h_exts h (ci_ext ci)) = false.
(** [c] is the class whose variables [self] uses: a class uses its own, another
    object those of its class, past singleton classes *)
Definition holder (h : heap) (self : ov) (c : Z) : Prop :=
  match self with
  | Rf a => exists k, h_cells h a = Some k /\
      match o_kind k with
      | KMod _ => c = a
      | _ => exists s si l1 l2, h_cells h (o_class k) = Some s /\ o_kind s = KMod si /\ ci_inc si = false /\
               upwards h (o_class k) (l1 ++ c :: l2) /\ plain h c /\ forall b, In b l1 -> ~ plain h b
      end
  | v => c = h_pk h v
  end.
(** [h'] differs from [h] in variables only *)
Definition same_classes (h h' : heap) : Prop :=
  (forall a, match h_cells h a, h_cells h' a with
             | Some k, Some k' => o_class k' = o_class k /\ o_kind k' = o_kind k
             | None, None => True
             | _, _ => False
             end) /\ h_exts h' = h_exts h /\ h_pk h' = h_pk h /\ h_main h' = h_main h.
(** What a read or a write of a class variable does, the chains of classes being
    shorter than the fuel *)
Definition reads (h : heap) (self : ov) (x : name) (r : option ov) : Prop :=
  exists n, forall fuel, (n <= fuel)%nat ->
    step fuel (ACvGet self x) h = match r with Some v => Ok (OV v, h) | None => Err NameErr end.
Definition writes (h : heap) (self : ov) (x : name) (v : ov) (h' : heap) : Prop :=
  exists n, forall fuel, (n <= fuel)%nat -> step fuel (ACvSet self x v) h = Ok (OV v, h').

(** ** Struct *)

(** What a program does with the objects of a class made by Struct.new *)
Inductive sact : Set := SNew (args : list ov) | SSet (o : ov) (m : name) (v : ov) | SGet (o : ov) (m : name).
Definition sstep (fuel : nat) (c : Z) (e : sact) (h : heap) : res (ov * heap) :=
  match e with
  | SNew args => new_object fuel h c args
  | SSet o m v => send fuel h o (m ++ [61]) [v]
  | SGet o m => send fuel h o m []
  end.
Inductive sruns (fuel : nat) (c : Z) (h0 : heap) : list (sact * option ov) -> heap -> Prop :=
| SNil : sruns fuel c h0 [] h0
| SOk l h e v h' : sruns fuel c h0 l h -> sstep fuel c e h = Ok (v, h') -> sruns fuel c h0 ((e, Some v) :: l) h'
| SErr l h e k : sruns fuel c h0 l h -> sstep fuel c e h = Err k -> sruns fuel c h0 ((e, None) :: l) h.
(** the value of the member [m] among [args], nil if there are too few *)
Fixpoint arg_of (ms : list name) (args : list ov) (m : name) : ov :=
  match ms, args with
  | n :: ms, v :: args => if name_eqb m n then v else arg_of ms args m
  | _, _ => nil_value
  end.
(** the objects made, and the value of a member: what was last assigned, at
    first the argument *)
Definition made (l : list (sact * option ov)) (a : Z) : Prop := exists args, In (SNew args, Some (Rf a)) l.
Fixpoint member (ms : list name) (l : list (sact * option ov)) (a : Z) (m : name) : ov :=
  match l with
  | [] => nil_value
  | (SNew args, Some (Rf b)) :: r => if a =? b then arg_of ms args m else member ms r a m
  | (SSet (Rf b) n v, Some _) :: r => if (a =? b) && name_eqb m n then v else member ms r a m
  | _ :: r => member ms r a m
  end.
(** Acts on the objects made and on the members *)
Definition proper (ms : list name) (l : list (sact * option ov)) (e : sact) : Prop :=
  match e with
  | SNew _ => True
  | SSet (Rf a) m _ | SGet (Rf a) m => made l a /\ In m ms
  | _ => False
  end.
Fixpoint all_proper (ms : list name) (l : list (sact * option ov)) : Prop :=
  match l with [] => True | (e, _) :: r => proper ms r e /\ all_proper ms r end.

(** A run computed from a list of acts, the first to do first *)
Fixpoint exec (fuel : nat) (h : heap) (l : list (act * option out)) (acts : list act) : option (list (act * option out) * heap) :=
  match acts with
  | [] => Some (l, h)
  | a :: r => match step fuel a h with
              | Ok (o, h') => exec fuel h' ((a, Some o) :: l) r
              | Err _ => exec fuel (after_err fuel a h) ((a, None) :: l) r
              | Panic => None
              end
  end.
Lemma exec_runs fuel h0 acts : forall l h l' h', runs fuel h0 l h -> exec fuel h l acts = Some (l', h') -> runs fuel h0 l' h'.
Proof.
  induction acts as [|a r IH]; intros l h l' h' R E; cbn in E; [congruence|].
  destruct (step fuel a h) as [[o h1]|k|] eqn:S; [| |discriminate].
  - eapply IH; [|exact E]. eapply ROk; eauto.
  - eapply IH; [|exact E]. eapply RErr; eauto.
Qed.
(** what a list of acts answers, the last first *)
Definition answers (fuel : nat) (h : heap) (acts : list act) : option (list (option out)) :=
  match exec fuel h [] acts with Some (l, _) => Some (map snd l) | None => None end.
Fixpoint sexec (fuel : nat) (c : Z) (h : heap) (l : list (sact * option ov)) (acts : list sact) : option (list (sact * option ov) * heap) :=
  match acts with
  | [] => Some (l, h)
  | a :: r => match sstep fuel c a h with
              | Ok (o, h') => sexec fuel c h' ((a, Some o) :: l) r
              | Err _ => sexec fuel c h ((a, None) :: l) r
              | Panic => None
              end
  end.
Lemma sexec_runs fuel c h0 acts : forall l h l' h', sruns fuel c h0 l h -> sexec fuel c h l acts = Some (l', h') -> sruns fuel c h0 l' h'.
Proof.
  induction acts as [|a r IH]; intros l h l' h' R E; cbn in E; [congruence|].
  destruct (sstep fuel c a h) as [[o h1]|k|] eqn:S; [| |discriminate].
  - eapply IH; [|exact E]. eapply SOk; eauto.
  - eapply IH; [|exact E]. eapply SErr; eauto.
Qed.
