(* C22-C24, C69: the collector and the allocator. *)
From Verif Require Import Base ProofsBase ModelArray ProofsArray ModelGC ProofsGC ProofsGC2 ProofsGC3 ProofsGC4.

(* The specification: an abstract heap maps the addresses of live objects to
   their contents. [history] pairs every allocator state a program can reach
   with the abstract heap the program believes it has:
   - it starts on one page with arbitrary contents;
   - an allocation adds an object whose references are live;
   - a store replaces the contents of a live object;
   - a collection keeps exactly what is reachable from the roots.
   A page the system allocator returns is aligned and not already in use. *)
Definition layout_ok (off : Z) : Prop := 0 <= off /\ off + GCBOX_SIZE * DATA_LEN <= ALLOC_SIZE.
Definition aligned (p : Z) : Prop := 0 < p /\ p mod ALLOC_SIZE = 0.
Definition words_ok (b : Z -> list Z) : Prop := forall p, zlen (b p) = SIZE - 1 /\ Forall (fun w => 0 <= w < 2 ^ 64) (b p).
Definition in_use (h : heap) (p : Z) : Prop := p = current h \/ In p (pages h) \/ In p (free_pages h).
Definition live (A : Z -> option obj) (l : list Z) : Prop := forall x, In x l -> A x <> None.
Definition collected (A : Z -> option obj) (roots : list Z) (A' : Z -> option obj) : Prop :=
  forall a, (reach A roots a -> A' a = A a) /\ (~ reach A roots a -> A' a = None).
(* a cell that has been handed out at some time: any cell of a full page, the used part of the current page *)
Definition is_cell (off : Z) (h : heap) (a : Z) : Prop :=
  (exists p i, In p (pages h) /\ 0 <= i < DATA_LEN /\ a = p + off + GCBOX_SIZE * i) \/
  (exists i, 0 <= i < used h /\ a = current h + off + GCBOX_SIZE * i).
Definition on_page (off p a : Z) : Prop := exists i, 0 <= i < DATA_LEN /\ a = p + off + GCBOX_SIZE * i.
Definition enough (off : Z) (fuel : nat) (h : heap) : Prop := (length (cells off h) < fuel)%nat.

Inductive history (off : Z) : heap -> (Z -> option obj) -> Prop :=
  | h_new page m b : aligned page -> words_ok b -> history off (gc_new page m b) (fun _ => None)
  | h_alloc h A o np a h' : history off h A -> live A (refs o) -> aligned np -> ~ in_use h np ->
      alloc off h o np = Ok (a, h') -> history off h' (fun x => if x =? a then Some o else A x)
  | h_write h A a o : history off h A -> A a <> None -> live A (refs o) ->
      history off (write h a o) (fun x => if x =? a then Some o else A x)
  | h_gc h A roots fuel h' A' : history off h A -> live A roots -> enough off fuel h ->
      gc off fuel roots h = Ok h' -> collected A roots A' -> history off h' A'.

Lemma in_use_all h p : in_use h p <-> In p (all_pages h).
Proof. unfold in_use, all_pages. cbn [In]. rewrite in_app_iff. intuition congruence. Qed.
Lemma Inv_ext off h A A' fl : (forall a, A' a = A a) -> Inv off h A fl -> Inv off h A' fl.
Proof.
  intros E [P N U B C K FN FI [L1 L2] CL]. constructor; auto.
  - split; [intros a H1 H2; rewrite E; auto|intros a o; rewrite E; apply L2].
  - intros a o x H1 H2. rewrite E in *. eauto.
Qed.
Lemma history_inv off h A : layout_ok off -> history off h A -> exists fl, Inv off h A fl.
Proof.
  intros OFF H. induction H as [page m b Hp Hb|h A o np a h' H [fl IH] HL Hp Hn E|h A a o H [fl IH] Ha HL|h A roots fuel h' A' H [fl IH] HR HF E HC].
  - exists []. apply new_inv; assumption.
  - destruct (alloc_inv off OFF h A fl o np IH HL Hp) as (a' & h'' & fl' & E' & _ & I & _).
    { rewrite <- in_use_all. exact Hn. }
    rewrite E in E'. injection E' as <- <-. exists fl'. exact I.
  - exists fl. exact (write_inv off h A fl a o IH Ha HL).
  - destruct (gc_inv off OFF h A fl roots fuel IH HR HF) as (h'' & A'' & fl' & E' & I & HS & _ & _ & _ & (lv & _ & Hlv & _) & _).
    rewrite E in E'. injection E' as <-. exists fl'. eapply Inv_ext; [|exact I]. intros a. destruct (HS a) as [S1 S2], (HC a) as [T1 T2].
    destruct (in_dec Z.eq_dec a lv) as [Hi|Hi]; rewrite Hlv in Hi; [rewrite S1, T1 by exact Hi|rewrite S2, T2 by exact Hi]; reflexivity.
Qed.

(* C22: after any history, a collection succeeds, and every object reachable
   from the roots keeps its contents; the program can go on. *)
Lemma gc_keeps off h A roots fuel : layout_ok off -> history off h A -> live A roots -> enough off fuel h ->
  exists h' A', gc off fuel roots h = Ok h' /\ collected A roots A' /\ history off h' A' /\
    forall a, reach A roots a -> exists o, A a = Some o /\ mem h a = Obj o /\ mem h' a = Obj o.
Proof.
  intros OFF H HR HF. destruct (history_inv off h A OFF H) as [fl I].
  destruct (gc_inv off OFF h A fl roots fuel I HR HF) as (h' & A' & fl' & E & I' & HS & M & _).
  exists h', A'. split; [exact E|]. split; [exact HS|]. split; [exact (h_gc off h A roots fuel h' A' H HR HF E HS)|].
  intros a Ra. destruct (i_live _ _ _ _ I) as [_ L2].
  assert (HA : A a <> None) by (induction Ra as [a Ha|a o x Ra IH E' Hx]; [auto|exact (i_closed _ _ _ _ I a o x E' Hx)]).
  destruct (A a) as [o|] eqn:EA; [|congruence]. exists o. destruct (L2 a o EA) as (_ & _ & Em). rewrite (M a Ra). auto.
Qed.
Theorem C22_collection_keeps_reachable_objects : forall off h A roots fuel,
  layout_ok off -> history off h A -> live A roots -> enough off fuel h ->
  exists h' A', gc off fuel roots h = Ok h' /\ collected A roots A' /\ history off h' A' /\
    forall a, reach A roots a -> exists o, A a = Some o /\ mem h a = Obj o /\ mem h' a = Obj o.
Proof. exact (fun off h A roots fuel => gc_keeps off h A roots fuel). Qed.
Print Assumptions C22_collection_keeps_reachable_objects.

(* C23: after a collection the free list and the free pages together hold
   exactly the unreachable cells, each in one place; the counters are exact. *)
Lemma gc_reclaims off h A roots fuel h' : layout_ok off -> history off h A -> live A roots -> enough off fuel h ->
  gc off fuel roots h = Ok h' ->
  exists fl, chain (mem h') (free h') fl /\ NoDup fl /\
    (forall a, is_cell off h a -> ~ reach A roots a -> In a fl \/ exists p, In p (free_pages h') /\ on_page off p a) /\
    (forall a, In a fl -> is_cell off h' a /\ ~ reach A roots a) /\
    (forall p a, In p (free_pages h') -> on_page off p a -> ~ reach A roots a /\ ~ In a fl) /\
    NoDup (free_pages h') /\
    free_cnt h' = zlen fl /\ (exists l, NoDup l /\ (forall a, In a l <-> reach A roots a) /\ mark_cnt h' = zlen l) /\
    (forall p, in_use h p <-> in_use h' p).
Proof.
  intros OFF H HR HF E. destruct (history_inv off h A OFF H) as [fl I].
  destruct (gc_inv off OFF h A fl roots fuel I HR HF) as (h'' & A' & fl' & E' & I' & HS & M & AP & UN & (lv & LN & LI & LC & _) & _ & _ & CU & _).
  rewrite E in E'. injection E' as <-. pose proof (i_live _ _ _ _ I') as [L1 L2].
  assert (NF : forall a, In a fl' -> ~ reach A roots a).
  { intros a Ha Ra. destruct (HS a) as [S1 _].
    assert (HA : A a <> None) by (clear Ha; induction Ra as [a Ha|a o x Ra IH E' Hx]; [auto|exact (i_closed _ _ _ _ I a o x E' Hx)]).
    rewrite <- (S1 Ra) in HA. destruct (A' a) as [o|] eqn:EA; [|congruence]. apply (L2 a o EA); exact Ha. }
  pose proof (i_nodup _ _ _ _ I') as ND. pose proof (i_pages _ _ _ _ I') as PP. unfold all_pages in ND, PP.
  assert (FPN : forall p a, In p (free_pages h') -> on_page off p a -> ~ In a (cells off h')).
  { intros p a Hp (i & Hi & ->) Hin. apply in_cells in Hin. rewrite Forall_forall in PP. pose proof (i_used _ _ _ _ I') as HU.
    destruct Hin as [(q & j & Hq & Hj & Eq)|(j & Hj & Eq)]; apply (cell_addr_inj off OFF) in Eq; try assumption; try lia.
    - destruct Eq as [-> _]. inversion ND as [|? ? _ ND']; subst. clear - ND' Hp Hq. induction (pages h') as [|y l IH]; [exact Hq|].
      inversion ND' as [|? ? Hy ND'']; subst. destruct Hq as [->|Hq]; [apply Hy, in_or_app; right; exact Hp|auto].
    - apply PP. right. apply in_or_app. right. exact Hp.
    - apply PP. right. apply in_or_app. left. exact Hq.
    - destruct Eq as [-> _]. inversion ND as [|? ? Hn _]; subst. apply Hn, in_or_app. right. exact Hp.
    - apply PP. right. apply in_or_app. right. exact Hp.
    - apply PP. left. reflexivity. }
  exists fl'. split; [apply (i_chain _ _ _ _ I')|]. split; [apply (i_fnd _ _ _ _ I')|]. split; [|split; [|split; [|split; [|split; [|split]]]]].
  - intros a Ha Nr. destruct (UN a) as [Hf|(p & i & Hp & Hi & ->)]; [apply in_cells; exact Ha|exact Nr|left; exact Hf|].
    right. exists p. split; [exact Hp|]. exists i. auto.
  - intros a Ha. split; [apply in_cells; apply (i_fin _ _ _ _ I'); exact Ha|auto].
  - intros p a Hp Hon. split.
    + intros Ra. destruct (HS a) as [S1 _].
      assert (HA : A a <> None) by (clear Hon; induction Ra as [a Ha|a o x Ra IH E' Hx]; [auto|exact (i_closed _ _ _ _ I a o x E' Hx)]).
      rewrite <- (S1 Ra) in HA. destruct (A' a) as [o|] eqn:EA; [|congruence]. apply (FPN p a Hp Hon). apply (L2 a o EA).
    + intros Hf. apply (FPN p a Hp Hon). apply (i_fin _ _ _ _ I'). exact Hf.
  - inversion ND as [|? ? _ ND']; subst. clear - ND'. induction (pages h'); [exact ND'|]. inversion ND'; auto.
  - apply (i_cnt _ _ _ _ I').
  - exists lv. auto.
  - intros p. rewrite !in_use_all. apply AP.
Qed.
Theorem C23_collection_reclaims_exactly_the_unreachable : forall off h A roots fuel h',
  layout_ok off -> history off h A -> live A roots -> enough off fuel h -> gc off fuel roots h = Ok h' ->
  exists fl, chain (mem h') (free h') fl /\ NoDup fl /\
    (forall a, is_cell off h a -> ~ reach A roots a -> In a fl \/ exists p, In p (free_pages h') /\ on_page off p a) /\
    (forall a, In a fl -> is_cell off h' a /\ ~ reach A roots a) /\
    (forall p a, In p (free_pages h') -> on_page off p a -> ~ reach A roots a /\ ~ In a fl) /\
    NoDup (free_pages h') /\
    free_cnt h' = zlen fl /\ (exists l, NoDup l /\ (forall a, In a l <-> reach A roots a) /\ mark_cnt h' = zlen l) /\
    (forall p, in_use h p <-> in_use h' p).
Proof. exact (fun off h A roots fuel h' => gc_reclaims off h A roots fuel h'). Qed.
Print Assumptions C23_collection_reclaims_exactly_the_unreachable.

(* C24: after any history, allocation succeeds, hands out a cell that holds no
   live object, stores the object there and touches no other live object. *)
Lemma alloc_safe off h A o np : layout_ok off -> history off h A -> live A (refs o) -> aligned np -> ~ in_use h np ->
  exists a h', alloc off h o np = Ok (a, h') /\ A a = None /\ mem h' a = Obj o /\ is_cell off h' a /\
    (forall x ox, A x = Some ox -> mem h x = Obj ox /\ mem h' x = Obj ox) /\
    allocated h' = allocated h + 1.
Proof.
  intros OFF H HL Hp Hn. destruct (history_inv off h A OFF H) as [fl I].
  destruct (alloc_inv off OFF h A fl o np I HL Hp) as (a & h' & fl' & E & HA & I' & Al & Hc); [rewrite <- in_use_all; exact Hn|].
  exists a, h'. split; [exact E|]. split; [exact HA|]. pose proof (i_live _ _ _ _ I') as [_ L2]. pose proof (i_live _ _ _ _ I) as [_ L2'].
  split; [apply (L2 a o); apply upd_same|]. split; [apply in_cells; exact Hc|]. split; [|exact Al].
  intros x ox Ex. split; [apply (L2' x ox Ex)|]. apply (L2 x ox). rewrite upd_other; [exact Ex|]. intros ->. congruence.
Qed.
Theorem C24_allocation_never_reuses_a_live_cell : forall off h A o np,
  layout_ok off -> history off h A -> live A (refs o) -> aligned np -> ~ in_use h np ->
  exists a h', alloc off h o np = Ok (a, h') /\ A a = None /\ mem h' a = Obj o /\ is_cell off h' a /\
    (forall x ox, A x = Some ox -> mem h x = Obj ox /\ mem h' x = Obj ox) /\
    allocated h' = allocated h + 1.
Proof. exact (fun off h A o np => alloc_safe off h A o np). Qed.
Print Assumptions C24_allocation_never_reuses_a_live_cell.
(* ... and memory agrees with the program's view in every reachable state *)
Lemma history_faithful off h A : layout_ok off -> history off h A ->
  forall a o, A a = Some o -> mem h a = Obj o /\ is_cell off h a /\ live A (refs o).
Proof.
  intros OFF H a o E. destruct (history_inv off h A OFF H) as [fl I]. pose proof (i_live _ _ _ _ I) as [_ L2].
  destruct (L2 a o E) as (Hc & _ & Hm). split; [exact Hm|]. split; [apply in_cells; exact Hc|]. intros x Hx. exact (i_closed _ _ _ _ I a o x E Hx).
Qed.
Theorem C24_memory_holds_every_live_object : forall off h A, layout_ok off -> history off h A ->
  forall a o, A a = Some o -> mem h a = Obj o /\ is_cell off h a /\ live A (refs o).
Proof. exact (fun off h A => history_faithful off h A). Qed.
Print Assumptions C24_memory_holds_every_live_object.

(* C69: cells reclaimed by a collection are handed out again, every one of
   them, before the heap takes any further memory. *)
Fixpoint alloc_many (off : Z) (h : heap) (os : list obj) (np : Z) : res (list Z * heap) :=
  match os with
  | [] => Ok ([], h)
  | o :: r => x <- alloc off h o np ;; y <- alloc_many off (snd x) r np ;; Ok (fst x :: fst y, snd y)
  end.
Lemma alloc_many_chain off np os : forall h fl rest, chain (mem h) (free h) (fl ++ rest) -> NoDup (fl ++ rest) -> free_cnt h = zlen (fl ++ rest) -> length os = length fl ->
  exists h', alloc_many off h os np = Ok (fl, h') /\ current h' = current h /\ used h' = used h /\ pages h' = pages h /\ free_pages h' = free_pages h /\
    free_cnt h' = zlen rest.
Proof.
  induction os as [|o os IH]; intros h fl rest C ND K HL; (destruct fl as [|a fl]; [|try discriminate]); try discriminate.
  - exists h. cbn. auto 10.
  - cbn [app] in *. destruct C as (Ef & nx & Em & C). cbn [alloc_many]. unfold alloc at 1. rewrite Ef, Em. cbn [cell_next rbind].
    rewrite zlen_cons in K. pose proof (zlen_nonneg (fl ++ rest)). destruct (Z.eqb_spec (free_cnt h) 0); [lia|]. cbn [rbind fst snd].
    inversion ND as [|? ? Hn ND']; subst.
    match goal with |- context [alloc_many off ?hh os np] => destruct (IH hh fl rest) as (h' & E & H1 & H2 & H3 & H4 & H5) end;
      [| | | |rewrite E; cbn [rbind fst snd]; exists h'; split; [reflexivity|]; auto 10].
    + cbn [mem free]. eapply chain_ext; [|exact C]. intros x Hx. apply upd_other. intros ->. contradiction.
    + exact ND'.
    + cbn [free_cnt]. lia.
    + cbn in HL. lia.
Qed.
Lemma gc_then_alloc off h A roots fuel h' os np : layout_ok off -> history off h A -> live A roots -> enough off fuel h ->
  gc off fuel roots h = Ok h' -> zlen os = free_cnt h' ->
  exists l h'', alloc_many off h' os np = Ok (l, h'') /\ NoDup l /\
    (forall a, In a l -> is_cell off h a /\ ~ reach A roots a) /\ free_cnt h'' = 0 /\
    current h'' = current h' /\ used h'' = used h' /\ pages h'' = pages h' /\ free_pages h'' = free_pages h'.
Proof.
  intros OFF H HR HF E HO. destruct (history_inv off h A OFF H) as [fl I].
  destruct (gc_inv off OFF h A fl roots fuel I HR HF) as (h2 & A' & fl' & E' & I' & _ & _ & _ & _ & _ & _ & _ & HCu & HU & HP & _).
  rewrite E in E'. injection E' as <-.
  destruct (gc_reclaims off h A roots fuel h' OFF H HR HF E) as (f & C & ND & _ & F & _ & _ & K & _ & _).
  destruct (alloc_many_chain off np os h' f []) as (h'' & Ea & H1 & H2 & H3 & H4 & H5).
  { rewrite app_nil_r. exact C. } { rewrite app_nil_r. exact ND. } { rewrite app_nil_r. exact K. } { unfold zlen in *. lia. }
  exists f, h''. split; [exact Ea|]. split; [exact ND|]. split; [|split; [exact H5|auto]].
  intros a Ha. destruct (F a Ha) as [Hc Hr]. split; [|exact Hr].
  (* a cell after the collection was one before *)
  destruct Hc as [(p & i & Hp & Hi & ->)|(i & Hi & ->)].
  - left. exists p, i. auto.
  - right. exists i. rewrite HCu, HU in *. auto.
Qed.
Theorem C69_reclaimed_cells_are_all_reused_before_the_heap_grows : forall off h A roots fuel h' os np,
  layout_ok off -> history off h A -> live A roots -> enough off fuel h ->
  gc off fuel roots h = Ok h' -> zlen os = free_cnt h' ->
  exists l h'', alloc_many off h' os np = Ok (l, h'') /\ NoDup l /\
    (forall a, In a l -> is_cell off h a /\ ~ reach A roots a) /\ free_cnt h'' = 0 /\
    current h'' = current h' /\ used h'' = used h' /\ pages h'' = pages h' /\ free_pages h'' = free_pages h'.
Proof. exact (fun off h A roots fuel h' os np => gc_then_alloc off h A roots fuel h' os np). Qed.
Print Assumptions C69_reclaimed_cells_are_all_reused_before_the_heap_grows.

(* A concrete history: a cycle of two objects and two dead ones, one root. *)
Definition ex_page : Z := 2 ^ 20.
Definition ex_cell (i : Z) : Z := ex_page + GCBOX_SIZE * i.
Definition ex_h0 : heap := gc_new ex_page (fun _ => Invalid (Some 7)) (fun _ => repeat (2 ^ 64 - 1) 63).
Definition ex_np : Z := 2 ^ 21.
Definition ex_o (r : list Z) (d : Z) : obj := {| refs := r; data := d |}.
Definition ex_step (o : obj) (h : heap) : heap := match alloc 0 h o ex_np with Ok x => snd x | _ => h end.
Definition ex_h1 : heap :=
  write (ex_step (ex_o [] 4) (ex_step (ex_o [ex_cell 0] 3) (ex_step (ex_o [ex_cell 0] 2) (ex_step (ex_o [] 1) ex_h0)))) (ex_cell 0) (ex_o [ex_cell 2] 1).
Lemma ex_hist h A o a : alloc 0 h o ex_np = Ok (a, ex_step o h) -> ~ in_use h ex_np -> live A (refs o) -> history 0 h A ->
  history 0 (ex_step o h) (fun x => if x =? a then Some o else A x).
Proof. intros E Hn HL H. eapply h_alloc; [exact H|exact HL| |exact Hn|exact E]. split; reflexivity. Qed.
Example C22_applies : exists A, history 0 ex_h1 A /\ A (ex_cell 0) = Some (ex_o [ex_cell 2] 1) /\ live A [ex_cell 0] /\ enough 0 5 ex_h1 /\
  reach A [ex_cell 0] (ex_cell 2).
Proof.
  eexists. split.
  - unfold ex_h1. apply h_write; [| |].
    + eapply ex_hist; [reflexivity|intros [H|[[]|[]]]; discriminate| |
      eapply ex_hist; [reflexivity|intros [H|[[]|[]]]; discriminate| |eapply ex_hist; [reflexivity|intros [H|[[]|[]]]; discriminate| |
      eapply ex_hist; [reflexivity|intros [H|[[]|[]]]; discriminate| |apply h_new; [split; reflexivity|intros p; split; [reflexivity|]; apply Forall_forall; intros w Hw; apply repeat_spec in Hw; subst; lia]]]]].
      all: intros x Hx; cbn in Hx; repeat (destruct Hx as [<-|Hx]); try contradiction; discriminate.
    + discriminate.
    + intros x [<-|[]]. discriminate.
  - split; [reflexivity|]. split; [intros x [<-|[]]; discriminate|]. split; [apply Nat.ltb_lt; vm_compute; reflexivity|].
    eapply reach_ref with (a := ex_cell 0); [apply reach_root; left; reflexivity|reflexivity|left; reflexivity].
Qed.
Definition ex_gc : option (Z * Z * option Z * list cell) :=
  match gc 0 5 [ex_cell 0] ex_h1 with
  | Ok h => Some (mark_cnt h, free_cnt h, free h, map (fun i => mem h (ex_cell i)) [0; 1; 2; 3])
  | _ => None
  end.
Example C23_example : ex_gc = Some (2, 2, Some (ex_cell 1),
  [Obj (ex_o [ex_cell 2] 1); Invalid (Some (ex_cell 3)); Obj (ex_o [ex_cell 0] 3); Invalid None]).
Proof. vm_compute. reflexivity. Qed.
Example C24_example : match gc 0 5 [ex_cell 0] ex_h1 with
  | Ok h => match alloc_many 0 h [ex_o [] 8; ex_o [] 9; ex_o [] 10] ex_np with Ok (l, _) => l = [ex_cell 1; ex_cell 3; ex_cell 4] | _ => False end
  | _ => False end.
Proof. vm_compute. reflexivity. Qed.
