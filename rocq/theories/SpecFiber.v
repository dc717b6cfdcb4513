(** What fibers are to do, on what can be seen of them. *)
From Coq Require Import ZArith List Bool Arith.
From Verif Require Import ModelFiber.
Import ListNotations.

Section Spec.
Variable K G : Type.
Notation event := (event K).

(** *** Who runs, and who gets which value *)
(** a fiber does not exist yet; is new; runs or waits for a fiber it has resumed;
    waits in a yield; is finished; does not exist any more *)
Inductive phase : Type :=
| Absent | Fresh (b : kind K) | Active (b : kind K) | Waiting (b : kind K) | Finished | Gone.
Definition upd (f : fid) (p : phase) (ph : fid -> phase) : fid -> phase := fun j => if Nat.eqb j f then p else ph j.

(** the local variables of a block called with one value, by Ruby's rules for
    required parameters *)
Definition pad (n : nat) (l : list fval) : list fval := firstn n (l ++ repeat FNil n).
Definition bind_block (params lvars : nat) (v : fval) : list fval :=
  match params with
  | O => repeat FNil lvars
  | 1 => v :: repeat FNil (lvars - 1)
  | _ => pad params (match v with FArr l => l | _ => [v] end) ++ repeat FNil (lvars - params)
  end.
Definition first_values (b : kind K) (v : fval) : list fval :=
  match b with KFiber p l _ => bind_block p l v | KEnum _ => [] end.
(** what the last resume gives: the value of the block, or the exception that
    ended it; a jump out of the block is a LocalJumpError, and an enumerator ends
    with StopIteration *)
Definition last_result (b : kind K) (r : outcome) : outcome :=
  match r with
  | Value v => match b with KFiber _ _ _ => Value v | KEnum _ => Raise Stop end
  | Raise e => Raise e
  | Return _ | Break _ => Raise LocalJump
  end.

(** [obeys tr st ph]: everything in [tr] is as it should be; after it [st] are the
    fibers that were resumed and have not yielded yet, the running one first and
    the main program ([None]) last, and [ph] tells the phases of all fibers. *)
Inductive obeys : list event -> list vmid -> (fid -> phase) -> Prop :=
| O_start : obeys [] [None] (fun _ => Absent)
| O_new tr t st ph f b : obeys tr (t :: st) ph -> ph f = Absent ->
    obeys (tr ++ [ENew t f b]) (t :: st) (upd f (Fresh b) ph)
| O_drop tr t st ph f : obeys tr (t :: st) ph ->
    match ph f with Fresh _ | Waiting _ | Finished => True | _ => False end ->
    obeys (tr ++ [EDrop t f]) (t :: st) (upd f Gone ph)
| O_first tr t st ph f b n v : obeys tr (t :: st) ph -> ph f = Fresh b ->
    obeys (tr ++ [EResume t f n v; EStart f (first_values b v)]) (Some f :: t :: st) (upd f (Active b) ph)
| O_again tr t st ph f b n v : obeys tr (t :: st) ph -> ph f = Waiting b ->
    obeys (tr ++ [EResume t f n v; EBack f v]) (Some f :: t :: st) (upd f (Active b) ph)
| O_dead tr t st ph f n v : obeys tr (t :: st) ph -> ph f = Finished ->
    obeys (tr ++ [EResume t f n v; EReturn t f (Raise (if n then Stop else DeadFiber))]) (t :: st) ph
| O_yield tr f t st ph b v : obeys tr (Some f :: t :: st) ph -> ph f = Active b ->
    obeys (tr ++ [EYield f v; EReturn t f (Value v)]) (t :: st) (upd f (Waiting b) ph)
| O_end tr f t st ph b r : obeys tr (Some f :: t :: st) ph -> ph f = Active b ->
    obeys (tr ++ [EEnd f r; EReturn t f (last_result b r)]) (t :: st) (upd f Finished ph).

(** *** What the code of a fiber does *)
(** the events a VM takes part in *)
Definition vm_eqb (a b : vmid) : bool :=
  match a, b with None, None => true | Some x, Some y => Nat.eqb x y | _, _ => false end.
Definition takes_part (t : vmid) (e : event) : bool :=
  match e with
  | ENew t' _ _ | EDrop t' _ | EResume t' _ _ _ | EReturn t' _ _ => vm_eqb t t'
  | EStart f _ | EYield f _ | EBack f _ | EEnd f _ => vm_eqb t (Some f)
  end.
Definition events_of (t : vmid) (tr : list event) : list event := filter (takes_part t) tr.

(** Where code is: it runs, waits for a resume, waits in a yield, has ended. *)
Inductive place : Type :=
| At (k : K) | InResume (f : fid) (k : outcome -> K) | InYield (k : outcome -> K) | Ended.
Variable next : K -> G -> G * op K.
Definition given (args : list fval) : fval :=
  match args with [] => FNil | [v] => v | _ => FArr args end.
(** [does t k l p]: the code [k], run by [t] alone, does [l] and then is at [p]; what it
    is given by others, and what it finds in the shared heap, is arbitrary *)
Inductive does (t : vmid) (k0 : K) : list event -> place -> Prop :=
| D_start : does t k0 [] (At k0)
| D_tau l k k' g g' : does t k0 l (At k) -> next k g = (g', OTau k') -> does t k0 l (At k')
| D_new l k b k' g g' f : does t k0 l (At k) -> next k g = (g', ONew b k') -> does t k0 (l ++ [ENew t f b]) (At (k' f))
| D_drop l k f k' g g' : does t k0 l (At k) -> next k g = (g', ODrop f k') -> does t k0 (l ++ [EDrop t f]) (At k')
| D_resume l k f args k' g g' : does t k0 l (At k) -> next k g = (g', OResume f args k') -> length args <= 1 ->
    does t k0 (l ++ [EResume t f false (given args)]) (InResume f k')
| D_many l k f args k' g g' : does t k0 l (At k) -> next k g = (g', OResume f args k') -> 1 < length args ->
    does t k0 l (At (k' (Raise ArgError)))
| D_next l k f k' g g' : does t k0 l (At k) -> next k g = (g', ONext f k') ->
    does t k0 (l ++ [EResume t f true FNil]) (InResume f k')
| D_return l f k' r : does t k0 l (InResume f k') -> does t k0 (l ++ [EReturn t f r]) (At (k' r))
| D_yield l k f args k' g g' : t = Some f -> does t k0 l (At k) -> next k g = (g', OYield args k') ->
    does t k0 (l ++ [EYield f (given args)]) (InYield k')
| D_main l k args k' g g' : t = None -> does t k0 l (At k) -> next k g = (g', OYield args k') ->
    does t k0 l (At (k' (Raise MainYield)))
| D_back l f k' v : t = Some f -> does t k0 l (InYield k') -> does t k0 (l ++ [EBack f v]) (At (k' (Value v)))
| D_end l k f r g g' : t = Some f -> does t k0 l (At k) -> next k g = (g', OEnd r) ->
    does t k0 (l ++ [EEnd f r]) Ended.
Definition body (b : kind K) (vars : list fval) : K :=
  match b with KFiber _ _ start => start vars | KEnum start => start end.

(** *** Conditions *)
(** whether a fiber runs, or waits for one it has resumed *)
Fixpoint active (f : fid) (a : bool) (tr : list event) : bool :=
  match tr with
  | [] => a
  | e :: r =>
      active f match e with
               | EStart f' _ | EBack f' _ => if Nat.eqb f f' then true else a
               | EYield f' _ | EEnd f' _ => if Nat.eqb f f' then false else a
               | _ => a
               end r
  end.
(** no fiber ends its life while it is active (the garbage collector's duty: it is
    on the stack of the code that has resumed it) *)
Definition kept (tr : list event) : Prop :=
  forall l t f r, tr = l ++ EDrop t f :: r -> active f false l = false.
(** the blocks of fibers have one parameter, or no local variables *)
Definition plain_blocks (tr : list event) : Prop :=
  forall t f p l s, In (ENew t f (KFiber p l s)) tr -> p = 1 /\ 1 <= l \/ p = 0 /\ l = 0.
(** no fiber ends by `break` *)
Definition no_break (tr : list event) : Prop := forall f v, ~ In (EEnd f (Break v)) tr.
(** the fiber was never made or its life has ended *)
Definition missing (f : fid) (tr : list event) : Prop :=
  (forall t b, ~ In (ENew t f b) tr) \/ exists t, In (EDrop t f) tr.
(** the fiber an operation is about *)
Definition about (o : op K) : option fid :=
  match o with OResume f _ _ | ONext f _ | ODrop f _ => Some f | _ => None end.

(** *** Values going in and out of one fiber *)
(** the results of the calls of resume *)
Definition results (f : fid) (tr : list event) : list outcome :=
  flat_map (fun e => match e with EReturn _ f' r => if Nat.eqb f f' then [r] else [] | _ => [] end) tr.
(** what the fiber yields, and what it ends with *)
Definition yields (f : fid) (tr : list event) : list outcome :=
  flat_map (fun e => match e with EYield f' v => if Nat.eqb f f' then [Value v] else [] | _ => [] end) tr.
Definition ended (f : fid) (tr : list event) : list outcome :=
  flat_map (fun e => match e with EEnd f' r => if Nat.eqb f f' then [r] else [] | _ => [] end) tr.
(** the local variables its code starts with *)
Definition starts (f : fid) (tr : list event) : list (list fval) :=
  flat_map (fun e => match e with EStart f' l => if Nat.eqb f f' then [l] else [] | _ => [] end) tr.
(** the values given to resume, and those the yields of the fiber return *)
Definition sent (f : fid) (tr : list event) : list fval :=
  flat_map (fun e => match e with EResume _ f' _ v => if Nat.eqb f f' then [v] else [] | _ => [] end) tr.
Definition received (f : fid) (tr : list event) : list fval :=
  flat_map (fun e => match e with EBack f' v => if Nat.eqb f f' then [v] else [] | _ => [] end) tr.
End Spec.
Arguments Absent {K}. Arguments Fresh {K}. Arguments Active {K}. Arguments Waiting {K}. Arguments Finished {K}. Arguments Gone {K}.
Arguments upd {K}. Arguments first_values {K}. Arguments last_result {K}. Arguments obeys {K}. Arguments takes_part {K}.
Arguments events_of {K}. Arguments At {K}. Arguments InResume {K}. Arguments InYield {K}. Arguments Ended {K}.
Arguments does {K G}. Arguments body {K}. Arguments active {K}. Arguments kept {K}. Arguments plain_blocks {K}. Arguments no_break {K}.
Arguments missing {K}. Arguments about {K}. Arguments results {K}. Arguments yields {K}. Arguments ended {K}. Arguments sent {K}.
Arguments received {K}. Arguments starts {K}.
