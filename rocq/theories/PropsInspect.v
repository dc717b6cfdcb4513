(* Property C111: printed values. *)
From Verif Require Import Base ProofsBase ModelArray ModelValue ModelInt ModelText ModelString ProofsString ModelConvert ModelFormat SpecFormat ModelClass SpecClass ModelInspect SpecInspect ProofsInspect.

(* inspect writes the notation of the data; there is one datum only it can be read as *)
Theorem C111_inspect : forall lossy h v d, holds h v d -> exists t, shown d t /\ eventually (fun f => val_inspect lossy h f v = Ok t).
Proof. intros lossy h v d H. destruct (inspect_ok lossy h d v H) as (t & S & n & E). exists t. split; [exact S|]. exists n. intros f L. eapply inspect_mono; eassumption. Qed.
Theorem C111_inspect_injective_partial : forall lossy h h' v v' d d' f f' t, holds h v d -> holds h' v' d' -> plain d -> plain d' ->
  val_inspect lossy h f v = Ok t -> val_inspect lossy h' f' v' = Ok t -> d = d'.
Proof.
  intros lossy h h' v v' d d' f f' t H H' P P' E E'. destruct (inspect_ok lossy h d v H) as (x & S & n & X). destruct (inspect_ok lossy h' d' v' H') as (x' & S' & n' & X').
  pose proof (inspect_mono lossy h n (n + f) v x ltac:(lia) X) as A. rewrite (inspect_mono lossy h f (n + f) v t ltac:(lia) E) in A. injection A as <-.
  pose proof (inspect_mono lossy h' n' (n' + f') v' x' ltac:(lia) X') as A. rewrite (inspect_mono lossy h' f' (n' + f') v' t ltac:(lia) E') in A. injection A as <-.
  eapply shown_inj; eassumption.
Qed.
Print Assumptions C111_inspect.
Print Assumptions C111_inspect_injective_partial.

(* to_s and interpolation *)
Theorem C111_to_s : forall lossy h v d, holds h v d -> exists t, told d t /\ eventually (fun f => val_to_s lossy h f v = Ok t /\ io_output lossy h f v = Ok (enc t)).
Proof. intros lossy h v d H. destruct (to_s_ok lossy h d v H) as (t & S & n & E). exists t. split; [exact S|]. exists n. intros f L. unfold io_output. rewrite (to_s_mono lossy h n f v t L E). auto. Qed.
Inductive part_text (h : heap) : part -> list Z -> Prop :=
| PT_lit cs : part_text h (Lit cs) cs
| PT_val v d t : holds h v d -> told d t -> part_text h (Val v) t.
Theorem C111_interpolation : forall lossy h parts, (forall v, In (Val v) parts -> exists d, holds h v d) ->
  exists ts, Forall2 (part_text h) parts ts /\ eventually (fun f => interpolate lossy h f [] parts = Ok (concat ts)).
Proof.
  intros lossy h parts H. assert (X : exists ts, Forall2 (part_text h) parts ts /\ exists n, forall f acc, (n <= f)%nat -> interpolate lossy h f acc parts = Ok (acc ++ concat ts)).
  { induction parts as [|[cs|v] parts IH]; [exists []; split; [constructor|]; exists 0%nat; intros; cbn; rewrite app_nil_r; reflexivity| |].
    - destruct IH as (ts & F & n & E); [intros; apply H; right; assumption|]. exists (cs :: ts). split; [constructor; [constructor|exact F]|]. exists n. intros f acc L. cbn [interpolate concat]. rewrite E by exact L. rewrite app_assoc. reflexivity.
    - destruct IH as (ts & F & n & E); [intros; apply H; right; assumption|]. destruct (H v (or_introl eq_refl)) as [d Hd]. destruct (to_s_ok lossy h d v Hd) as (t & S & m & Em). exists (t :: ts). split; [constructor; [econstructor; eassumption|exact F]|].
      exists (n + m)%nat. intros f acc L. cbn [interpolate concat]. rewrite (to_s_mono lossy h m f v t ltac:(lia) Em). cbn [rbind]. rewrite E by lia. rewrite app_assoc. reflexivity. }
  destruct X as (ts & F & n & E). exists ts. split; [exact F|]. exists n. intros f L. apply E. exact L.
Qed.
Print Assumptions C111_to_s.
Print Assumptions C111_interpolation.

(* p, print and puts *)
Lemma each_ok {A : Type} (f : nat -> ref -> res (list Z)) (R : A -> list Z -> Prop) (H : ref -> A -> Prop) :
  (forall v d, H v d -> exists t, R d t /\ exists n, forall m, (n <= m)%nat -> f m v = Ok t) ->
  forall vs ds, Forall2 H vs ds -> exists ts, Forall2 R ds ts /\ exists n, forall m, (n <= m)%nat -> each_out (f m) vs = Ok (concat ts).
Proof.
  intros K vs ds F. induction F as [|v d vs ds Hv F (ts & Fts & n & En)]; [exists []; split; [constructor|exists 0%nat; reflexivity]|]. destruct (K v d Hv) as (t & Rt & k & Ek). exists (t :: ts). split; [constructor; assumption|].
  exists (n + k)%nat. intros m L. cbn [each_out concat]. rewrite Ek, En by lia. reflexivity.
Qed.
Theorem C111_p : forall lossy h args ds, Forall2 (holds h) args ds -> exists ts, Forall2 shown ds ts /\
  eventually (fun f => p lossy h f args = Ok (flat_map (fun t => enc t ++ [10]) ts, match args with [] => PNil | [v] => POne v | _ => PMany args end)).
Proof.
  intros lossy h args ds F. destruct (each_ok (fun m v => t <- val_inspect lossy h m v ;; Ok (enc t ++ [10])) (fun d x => exists t, shown d t /\ x = enc t ++ [10]) (holds h)) with (vs := args) (ds := ds) as (xs & Fx & n & E); [|exact F|].
  - intros v d Hd. destruct (inspect_ok lossy h d v Hd) as (t & S & n & E). exists (enc t ++ [10]). split; [exists t; auto|]. exists n. intros m L. rewrite (inspect_mono lossy h n m v t L E). reflexivity.
  - assert (X : exists ts, Forall2 shown ds ts /\ concat xs = flat_map (fun t => enc t ++ [10]) ts).
    { clear - Fx. induction Fx as [|d x ds xs (t & S & ->) Fx (ts & F & E)]; [exists []; auto|]. exists (t :: ts). split; [constructor; assumption|]. cbn [concat flat_map]. rewrite E. reflexivity. }
    destruct X as (ts & Fts & Ets). exists ts. split; [exact Fts|]. exists n. intros f L. unfold p. rewrite E by exact L. rewrite Ets. reflexivity.
Qed.
Theorem C111_print : forall lossy h args ds, Forall2 (holds h) args ds -> exists ts, Forall2 told ds ts /\ eventually (fun f => print lossy h f args = Ok (flat_map enc ts)).
Proof.
  intros lossy h args ds F. 
  destruct (each_ok (fun m v => match (match v with RPtr a => match h a with Some (OStr s) => Some s | _ => None end | _ => None end) with Some s => Ok (as_bytes s) | None => t <- val_to_s lossy h m v ;; Ok (enc t) end)
    (fun d x => exists t, told d t /\ x = enc t) (holds h)) with (vs := args) (ds := ds) as (xs & Fx & n & E); [|exact F|].
  - intros v d Hd. destruct (to_s_ok lossy h d v Hd) as (t & S & n & E). exists (enc t). split; [exists t; auto|]. exists n. intros m L. pose proof (to_s_mono lossy h n m v t L E) as Em. rewrite Em. destruct v as [| | | | |a]; try reflexivity.
    destruct m as [|m]; [discriminate|]. cbn [val_to_s] in Em. destruct (h a) as [[s| | |]|] eqn:Ea; try reflexivity. inversion Hd as [| | | | |? s' cs Es Ec _|? ? ? Es _|? ? ? Es _|? ? ? ? ? ? Es _ _]; subst; rewrite Ea in Es; try discriminate. injection Es as <-. injection Em as <-. destruct Ec as [->| ->]; reflexivity.
  - assert (X : exists ts, Forall2 told ds ts /\ concat xs = flat_map enc ts).
    { clear - Fx. induction Fx as [|d x ds xs (t & S & ->) Fx (ts & F & E)]; [exists []; auto|]. exists (t :: ts). split; [constructor; assumption|]. cbn [concat flat_map]. rewrite E. reflexivity. }
    destruct X as (ts & Fts & Ets). exists ts. split; [exact Fts|]. exists n. intros f L. unfold print. rewrite E by exact L. rewrite Ets. reflexivity.
Qed.
Lemma flatten_ok lossy h : forall d v, holds h v d -> exists ts, Forall2 told (leaves d) ts /\ exists n, forall m, (n <= m)%nat -> flatten lossy h m v = Ok (flat_map (fun t => enc t ++ [10]) ts).
Proof.
  assert (K : forall d v, holds h v d -> (forall l, d <> DArr l) -> exists ts, Forall2 told [d] ts /\ exists n, forall m, (n <= m)%nat -> flatten lossy h m v = Ok (flat_map (fun t => enc t ++ [10]) ts)).
  { intros d v Hd N. destruct (to_s_ok lossy h d v Hd) as (t & S & n & E). exists [t]. split; [constructor; [exact S|constructor]|]. exists (Datatypes.S n). intros [|m] L; [lia|]. cbn [flatten flat_map]. rewrite app_nil_r.
    assert (X : (match v with RPtr a => match h a with Some (OArr l) => Some l | _ => None end | _ => None end) = None).
    { inversion Hd; subst; try reflexivity; try (match goal with A : h _ = Some _ |- _ => rewrite A end; reflexivity). exfalso. eapply N. reflexivity. }
    rewrite X, (to_s_mono lossy h n m v t ltac:(lia) E). reflexivity. }
  induction d using data_rec'; intros v Hv; try (apply K; [exact Hv|intros; discriminate]).
  inversion Hv as [| | | | | |a vs ? Ea F| |]; subst. cbn [leaves].
  assert (X : exists ts, Forall2 told (flat_map leaves l) ts /\ exists n, forall m, (n <= m)%nat -> each_out (flatten lossy h m) vs = Ok (flat_map (fun t => enc t ++ [10]) ts)).
  { clear - H F. induction F as [|v d vs ds Hd F IH]; [exists []; split; [constructor|exists 0%nat; reflexivity]|]. inversion H as [|? ? Hh Ht]; subst. destruct (Hh v Hd) as (t1 & F1 & n1 & E1). destruct (IH Ht) as (t2 & F2 & n2 & E2). exists (t1 ++ t2).
    split; [cbn [flat_map]; apply Forall2_app; assumption|]. exists (n1 + n2)%nat. intros m L. cbn [each_out]. rewrite E1, E2 by lia. cbn [rbind]. rewrite flat_map_app. reflexivity. }
  destruct X as (ts & Fts & n & E). exists ts. split; [exact Fts|]. exists (S n). intros [|m] L; [lia|]. cbn [flatten]. rewrite Ea. apply E. lia.
Qed.
(* puts: the leaves on lines of their own. Missing: texts that end with a newline *)
Theorem C111_puts_partial : forall lossy h args ds, Forall2 (holds h) args ds -> (forall d t, In d (flat_map leaves ds) -> told d t -> last t 0 <> 10) ->
  exists ts, Forall2 told (flat_map leaves ds) ts /\ eventually (fun f => puts lossy h f args = Ok (match args with [] => [10] | _ => flat_map (fun t => enc (line t)) ts end)).
Proof.
  intros lossy h args ds F NL.
  assert (X : exists ts, Forall2 told (flat_map leaves ds) ts /\ exists n, forall m, (n <= m)%nat -> each_out (flatten lossy h m) args = Ok (flat_map (fun t => enc t ++ [10]) ts)).
  { clear NL. induction F as [|v d vs ds Hd F IH]; [exists []; split; [constructor|exists 0%nat; reflexivity]|]. destruct (flatten_ok lossy h d v Hd) as (t1 & F1 & n1 & E1). destruct IH as (t2 & F2 & n2 & E2). exists (t1 ++ t2).
    split; [cbn [flat_map]; apply Forall2_app; assumption|]. exists (n1 + n2)%nat. intros m L. cbn [each_out]. rewrite E1, E2 by lia. cbn [rbind]. rewrite flat_map_app. reflexivity. }
  destruct X as (ts & Fts & n & E). exists ts. split; [exact Fts|]. exists n. intros f L. unfold puts. rewrite E by exact L. cbn [rbind].
  assert (Y : flat_map (fun t => enc t ++ [10]) ts = flat_map (fun t => enc (line t)) ts).
  { clear - Fts NL. induction Fts as [|d t l ts S F IH]; [reflexivity|]. cbn [flat_map]. rewrite IH by (intros; eapply NL; [right; eassumption|assumption]). f_equal. unfold line. destruct (Z.eqb_spec (last t 0) 10) as [Q|Q]; [exfalso; eapply NL; [left; reflexivity|exact S|exact Q]|].
    unfold enc. rewrite flat_map_app. reflexivity. }
  rewrite <- Y. inversion F; subst; [inversion Fts; subst; reflexivity|]. cbn [zlen]. reflexivity.
Qed.
Print Assumptions C111_p.
Print Assumptions C111_print.
Print Assumptions C111_puts_partial.

(* 1: "a" and a newline, 2: [1, :k, nil], 3: {"it" => [1, :k, nil], 7 => 1..2}, 4: a range, 5: "it", 6: the array that has itself as its element, 7 and 8: each the only element of the other *)
Definition h0 : heap := fun a =>
  match a with
  | 1 => Some (OStr (SmallStr [97; 10])) | 2 => Some (OArr [RInt (-1); RSym [107]; RNil]) | 3 => Some (OHash [(RPtr 5, RPtr 2); (RInt 7, RPtr 4)]) | 4 => Some (ORange (RInt 1) (RInt 2) true)
  | 5 => Some (OStr (SmallStr [105; 116])) | 6 => Some (OArr [RPtr 6]) | 7 => Some (OArr [RPtr 8]) | 8 => Some (OArr [RPtr 7]) | 9 => Some (OArr [RPtr 2; RTrue; RPtr 3])
  | 10 => Some (OArr [RSym [97; 44; 32; 58; 98]]) | 11 => Some (OArr [RSym [97]; RSym [98]])
  | _ => None end.
Definition id0 (l : list Z) : list Z := l.
Definition d2 : data := DArr [DInt (-1); DSym [107]; DNil].
Definition d3 : data := DHash [(DStr [105; 116], d2); (DInt 7, DRange (DInt 1) (DInt 2) true)].
Lemma h2 : holds h0 (RPtr 2) d2.
Proof. eapply H_arr; [reflexivity|]. repeat constructor. Qed.
Lemma h3 : holds h0 (RPtr 3) d3.
Proof. eapply H_hash; [reflexivity|]. repeat constructor; cbn; try constructor; [eapply H_str; [reflexivity|right; reflexivity|repeat constructor]|apply h2|eapply H_range; [reflexivity|constructor|constructor]]. Qed.
Example C111_inspect_example : holds h0 (RPtr 9) (DArr [d2; DTrue; d3]) /\ plain (DArr [d2; DTrue; d3]) /\
  val_inspect id0 h0 9 (RPtr 3) = Ok [123; 34; 105; 116; 34; 61; 62; 91; 45; 49; 44; 32; 58; 107; 44; 32; 110; 105; 108; 93; 44; 32; 55; 61; 62; 49; 46; 46; 46; 50; 125].
Proof.
  split; [eapply H_arr; [reflexivity|]; constructor; [exact h2|]; constructor; [constructor|]; constructor; [exact h3|constructor]|]. split; [|vm_compute; reflexivity].
  repeat constructor; cbn; try lia; intuition lia.
Qed.
Example C111_puts_example : Forall2 (holds h0) [RPtr 9; RPtr 5] [DArr [d2; DTrue; d3]; DStr [105; 116]] /\ (forall d t, In d (flat_map leaves [d2; DTrue; DStr [105; 116]]) -> told d t -> last t 0 <> 10) /\
  puts id0 h0 9 [RPtr 2; RTrue; RPtr 5] = Ok [45; 49; 10; 107; 10; 10; 116; 114; 117; 101; 10; 105; 116; 10] /\ puts id0 h0 9 [] = Ok [10] /\
  print id0 h0 9 [RPtr 5; RInt 1; RPtr 4] = Ok [105; 116; 49; 49; 46; 46; 46; 50] /\ p id0 h0 9 [RPtr 5; RNil] = Ok ([34; 105; 116; 34; 10; 110; 105; 108; 10], PMany [RPtr 5; RNil]) /\
  interpolate id0 h0 9 [] [Lit [120; 61]; Val (RPtr 2); Lit [46]; Val RNil] = Ok [120; 61; 91; 45; 49; 44; 32; 58; 107; 44; 32; 110; 105; 108; 93; 46].
Proof.
  split; [constructor; [apply C111_inspect_example|]; constructor; [|constructor]; eapply H_str; [reflexivity|right; reflexivity|repeat constructor]|].
  split; [|vm_compute; auto 10]. intros d t Hd Ht. cbn in Hd. repeat (destruct Hd as [<-|Hd]; [|]); try destruct Hd; inversion Ht; subst; cbn; try lia.
  match goal with A : decimal _ _ |- _ => destruct A as (ds & -> & P & N & _) end. apply digit_range in P. destruct (exists_last N) as (l & c & ->). rewrite app_assoc, last_last. apply Forall_app in P as [_ P]. inversion P; subst. lia.
Qed.

(* a symbol that needs quotes is written without: [:"a, :b"] and [:a, :b] look the same *)
Theorem C111_inspect_injective_refuted : exists h v v' d d' t, holds h v d /\ holds h v' d' /\ d <> d' /\ forall lossy, eventually (fun f => val_inspect lossy h f v = Ok t /\ val_inspect lossy h f v' = Ok t).
Proof.
  exists h0, (RPtr 10), (RPtr 11), (DArr [DSym [97; 44; 32; 58; 98]]), (DArr [DSym [97]; DSym [98]]), [91; 58; 97; 44; 32; 58; 98; 93].
  split; [eapply H_arr; [reflexivity|repeat constructor]|]. split; [eapply H_arr; [reflexivity|repeat constructor]|]. split; [discriminate|]. intros lossy. exists 2%nat. intros [|[|f]] L; try lia. split; reflexivity.
Qed.
(* an array that has itself as an element is written with [...]; two arrays that have each other are not: the stack overflows. puts overflows on both *)
Theorem C111_cyclic_refuted : (exists h v, forall lossy f, val_inspect lossy h f v = Panic /\ puts lossy h f [v] = Panic) /\ (exists h v t, forall lossy, val_inspect lossy h 2 v = Ok t /\ forall f, puts lossy h f [v] = Panic).
Proof.
  assert (I : forall lossy f, val_inspect lossy h0 f (RPtr 7) = Panic /\ val_inspect lossy h0 f (RPtr 8) = Panic).
  { intros lossy. induction f as [|f [A B]]; [split; reflexivity|]. cbn [val_inspect h0]. unfold array_inspect. cbn [same_id]. cbn -[val_inspect h0]. rewrite A, B. split; reflexivity. }
  assert (J : forall lossy f, flatten lossy h0 f (RPtr 7) = Panic /\ flatten lossy h0 f (RPtr 8) = Panic).
  { intros lossy. induction f as [|f [A B]]; [split; reflexivity|]. cbn [flatten h0 each_out]. rewrite A, B. split; reflexivity. }
  assert (K : forall lossy f, flatten lossy h0 f (RPtr 6) = Panic).
  { intros lossy. induction f as [|f A]; [reflexivity|]. cbn [flatten h0 each_out]. rewrite A. reflexivity. }
  split; [exists h0, (RPtr 7)|exists h0, (RPtr 6), [91; 91; 46; 46; 46; 93; 93]].
  - intros lossy f. split; [apply I|]. unfold puts. cbn [each_out]. destruct (J lossy f) as [-> _]. reflexivity.
  - intros lossy. split; [reflexivity|]. intros f. unfold puts. cbn [each_out]. rewrite K. reflexivity.
Qed.
(* puts adds a newline to a text that ends with one *)
Theorem C111_puts_refuted : exists h v cs, holds h v (DStr cs) /\ last cs 0 = 10 /\ forall lossy, eventually (fun f => puts lossy h f [v] = Ok (enc (cs ++ [10])) /\ puts lossy h f [v] <> Ok (enc (line cs))).
Proof.
  exists h0, (RPtr 1), [97; 10]. split; [eapply H_str; [reflexivity|right; reflexivity|repeat constructor]|]. split; [reflexivity|]. intros lossy. exists 2%nat. intros [|[|f]] L; try lia. split; [reflexivity|]. vm_compute. discriminate.
Qed.
Print Assumptions C111_inspect_injective_refuted.
Print Assumptions C111_cyclic_refuted.
Print Assumptions C111_puts_refuted.
