(* What printing is to give: the data a value holds, and how data is written. *)
From Verif Require Import Base ModelArray ModelText ModelString ModelInspect SpecFormat.

(* the data a value holds: a finite tree *)
Inductive data : Set := DNil | DTrue | DFalse | DInt (n : Z) | DSym (name : list Z) | DStr (cs : list Z) | DArr (l : list data) | DHash (l : list (data * data)) | DRange (a b : data) (exclude : bool).
Inductive holds (h : heap) : ref -> data -> Prop :=
| H_nil : holds h RNil DNil
| H_true : holds h RTrue DTrue
| H_false : holds h RFalse DFalse
| H_int n : holds h (RInt n) (DInt n)
| H_sym s : holds h (RSym s) (DSym s)
| H_str a s cs : h a = Some (OStr s) -> (s = ModelString.Str cs \/ s = SmallStr cs) -> Forall (fun c => is_char c = true) cs -> holds h (RPtr a) (DStr cs)
| H_arr a l ds : h a = Some (OArr l) -> Forall2 (holds h) l ds -> holds h (RPtr a) (DArr ds)
| H_hash a l ds : h a = Some (OHash l) -> Forall2 (fun kv d => holds h (fst kv) (fst d) /\ holds h (snd kv) (snd d)) l ds -> holds h (RPtr a) (DHash ds)
| H_range a s e x d1 d2 : h a = Some (ORange s e x) -> holds h s d1 -> holds h e d2 -> holds h (RPtr a) (DRange d1 d2 x).

(* the escapes of a string literal *)
Definition escape (c : Z) : list Z :=
  match c with
  | 34 | 39 | 92 => [92; c]
  | 0 | 1 | 2 | 3 | 4 | 5 | 6 => [92; 120; 48; 48 + c]
  | 7 => [92; 97] | 8 => [92; 98] | 9 => [92; 116] | 10 => [92; 110] | 11 => [92; 118] | 12 => [92; 102] | 13 => [92; 114] | 27 => [92; 101]
  | _ => [c]
  end.
(* texts with commas between them *)
Fixpoint commas (l : list (list Z)) : list Z :=
  match l with [] => [] | [t] => t | t :: r => t ++ [44; 32] ++ commas r end.
Definition dots (exclude : bool) : list Z := if exclude then [46; 46; 46] else [46; 46].
Definition decimal (n : Z) (t : list Z) : Prop := exists ds, t = (if n <? 0 then [45] else []) ++ ds /\ digits_of Dec (Z.abs n) ds.
(* the notation of literals *)
Inductive shown : data -> list Z -> Prop :=
| S_nil : shown DNil [110; 105; 108]
| S_true : shown DTrue [116; 114; 117; 101]
| S_false : shown DFalse [102; 97; 108; 115; 101]
| S_int n t : decimal n t -> shown (DInt n) t
| S_sym s : shown (DSym s) (58 :: s)
| S_str cs : shown (DStr cs) ([34] ++ flat_map escape cs ++ [34])
| S_arr ds ts : Forall2 shown ds ts -> shown (DArr ds) ([91] ++ commas ts ++ [93])
| S_hash ds ts : Forall2 (fun d t => exists a b, shown (fst d) a /\ shown (snd d) b /\ t = a ++ [61; 62] ++ b) ds ts -> shown (DHash ds) ([123] ++ commas ts ++ [125])
| S_range a b x t u : shown a t -> shown b u -> shown (DRange a b x) (t ++ dots x ++ u).
(* symbols whose text has none of , ] } = . in it *)
Definition plain_name (s : list Z) : Prop := Forall (fun c => ~ In c [44; 93; 125; 61; 46]) s.
Definition is_range (d : data) : bool := match d with DRange _ _ _ => true | _ => false end.
(* data with such symbols only, and no ranges of ranges *)
Inductive plain : data -> Prop :=
| P_nil : plain DNil
| P_true : plain DTrue
| P_false : plain DFalse
| P_int n : plain (DInt n)
| P_sym s : plain_name s -> plain (DSym s)
| P_str cs : Forall (fun c => is_char c = true) cs -> plain (DStr cs)
| P_arr ds : Forall plain ds -> plain (DArr ds)
| P_hash ds : Forall (fun d => plain (fst d) /\ plain (snd d)) ds -> plain (DHash ds)
| P_range a b x : plain a -> plain b -> is_range a = false -> is_range b = false -> plain (DRange a b x).

(* to_s: strings, symbols and nil without ornament *)
Inductive told : data -> list Z -> Prop :=
| T_nil : told DNil []
| T_true : told DTrue [116; 114; 117; 101]
| T_false : told DFalse [102; 97; 108; 115; 101]
| T_int n t : decimal n t -> told (DInt n) t
| T_sym s : told (DSym s) s
| T_str cs : told (DStr cs) cs
| T_arr ds t : shown (DArr ds) t -> told (DArr ds) t
| T_hash ds t : shown (DHash ds) t -> told (DHash ds) t
| T_range a b x t u : told a t -> told b u -> told (DRange a b x) (t ++ dots x ++ u).
(* what puts writes on lines: the elements of arrays, at any depth *)
Fixpoint leaves (d : data) : list data :=
  match d with DArr l => flat_map leaves l | _ => [d] end.
Definition line (t : list Z) : list Z := if last t 0 =? 10 then t else t ++ [10].
