(** What calls with all kinds of arguments should do (C94). *)
From Coq Require Import ZArith List Bool.
From Verif Require Import Base ModelValue ModelInst ModelCodegen ModelVM SpecCore ModelCall.
Import ListNotations.
Open Scope Z_scope.

(** Arguments in the order of the manual: positional ones ([true]: with a [*]), keyword
    arguments, [**] arguments, at most one [&] argument *)
Definition written (pos : list (bool * node)) (kw : list (Z * node)) (hs : list node)
  (amp : option node) : list arg :=
  map (fun p : bool * node => if fst p then ASplat (snd p) else APos (snd p)) pos
  ++ map (fun p : Z * node => AKey (fst p) (snd p)) kw ++ map AHash hs
  ++ match amp with Some b => [ABlock b] | None => [] end.

Section Call.
Context {W : Type}.
Variable P : prims W.
Variable ev : node -> sst (W:=W) -> outcome (W:=W).

(** positional arguments from left to right *)
Fixpoint eval_pos (pos : list (bool * node)) (acc : list value) (s : sst) : lres :=
  match pos with
  | [] => LVals acc s
  | (star, n) :: r =>
      match ev n s with
      | Val v s =>
          if star then
            match p_op P bSplat [v] (s_w s) with
            | POk v w => eval_pos r (acc ++ [v]) (mksst (s_rho s) w)
            | PRaise e w => LStop (Exn e (mksst (s_rho s) w))
            end
          else eval_pos r (acc ++ [v]) s
      | o => LStop o
      end
  end.

(** The hash of the keyword arguments: the keys with the values *)
Fixpoint keyed (kw : list (Z * node)) (vs : list value) : list value :=
  match kw, vs with
  | (k, _) :: kw, v :: vs => symbol k :: v :: keyed kw vs
  | _, _ => []
  end.
Definition with_keywords (kw : list (Z * node)) (s : sst) (k : list value -> sst -> outcome)
  : outcome :=
  match kw with
  | [] => k [] s
  | _ =>
      bindl (evals ev (map snd kw) [] s) (fun vs s =>
      bindv (prim (p_op P bHash (keyed kw vs) (s_w s)) s) (fun h s => k [h] s))
  end.
Definition with_hashes (hs : list node) (s : sst) (k : list value -> sst -> outcome) : outcome :=
  match hs with
  | [] => k [] s
  | _ =>
      bindl (evals ev hs [] s) (fun vs s =>
        let (v, w) := p_array P vs (s_w s) in k [v] (mksst (s_rho s) w))
  end.
Definition with_block (amp : option node) (s : sst) (k : list value -> sst -> outcome) : outcome :=
  match amp with
  | None => k [] s
  | Some b => bindv (ev b s) (fun v s => k [v] s)
  end.

Definition some_of {A} (l : list A) : bool := match l with [] => false | _ => true end.

(** The receiver, then the arguments in the order in which they are written, each once;
    then the call. *)
Definition eval_call (r : node) (id : Z) pos kw hs amp (s : sst) : outcome :=
  bindv (ev r s) (fun rv s =>
  bindl (eval_pos pos [] s) (fun vs s =>
  with_keywords kw s (fun kv s =>
  with_hashes hs s (fun hv s =>
  with_block amp s (fun bv s =>
    let spl := existsb fst pos in
    if some_of kw || some_of hs || some_of bv || spl
    then prim (p_op P (bCall id (Z.of_nat (length pos)) (some_of kw) (some_of bv) false
                             (some_of hs) spl)
                    (rv :: vs ++ kv ++ hv ++ bv) (s_w s)) s
    else prim (p_send P id rv vs (s_w s)) s))))).
End Call.
