(* The object allocator and garbage collector: ruruby/src/alloc.rs, and the
   cell operations of value/rvalue.rs:449-545.
   An object is its list of references (addresses, in the order rvalue.rs:449
   marks them; packed values do not occur) and its other contents; ModelKinds says
   how each kind of object lists its references. Memory is a total map
   from addresses to cells, so a page fresh from the system has arbitrary
   contents. Not modelled: recursion depth of mark, GC timing (check_gc,
   malloc_threshold), gc_enabled = false. *)
From Verif Require Import Base ModelArray.

Record obj : Type := { refs : list Z; data : Z }.
Inductive cell : Type := Obj (o : obj) | Invalid (next : option Z).

(* 29-34 *)
Definition SIZE : Z := 64.
Definition GCBOX_SIZE : Z := 64.
Definition PAGE_LEN : Z := 64 * SIZE.
Definition DATA_LEN : Z := 64 * (SIZE - 1).
Definition THRESHOLD : Z := 64 * (SIZE - 2).
Definition ALLOC_SIZE : Z := PAGE_LEN * GCBOX_SIZE.

(* 56-80 Allocator, plus the memory it manages: cells by address, the mark
   bitmap of a page by page address *)
Record heap : Type := mkHeap {
  used : Z;
  allocated : Z;
  free_cnt : Z;
  current : Z;
  pages : list Z;
  mark_cnt : Z;
  free : option Z;
  free_pages : list Z;
  alloc_flag : bool;
  mem : Z -> cell;
  bits : Z -> list Z }.

Definition upd {A} (f : Z -> A) (a : Z) (v : A) : Z -> A := fun x => if x =? a then v else f x.

(* rvalue.rs:526 next: the flags word of a free cell; of a live object it is
   not a pointer (assert fails) *)
Definition cell_next (c : cell) : res (option Z) :=
  match c with Invalid n => Ok n | Obj _ => Panic end.
(* rvalue.rs:502 free: drops an object, leaves a free cell alone *)
Definition cell_free (c : cell) : cell :=
  match c with Obj _ => Invalid None | Invalid n => Invalid n end.

Section GC.
  (* offset of the data array in the Page struct (413-416) *)
  Variable off : Z.
  (* 494 get_data_ptr *)
  Definition data_ptr (page index : Z) : res Z :=
    if (0 <=? index) && (index <? DATA_LEN) then Ok (page + off + GCBOX_SIZE * index) else Panic.
  (* 488 from_inner *)
  Definition from_inner (ptr : Z) : Z := Z.land ptr (Z.lnot (ALLOC_SIZE - 1)).

  (* 82-101 new, on a page from the system *)
  Definition gc_new (page : Z) (m : Z -> cell) (b : Z -> list Z) : heap :=
    mkHeap 0 0 0 page [] 0 None [] false m b.

  (* 149-188 alloc; new_page is what the system allocator returns when asked *)
  Definition alloc (h : heap) (o : obj) (new_page : Z) : res (Z * heap) :=
    match free h with
    | Some gcbox =>
        nx <- cell_next (mem h gcbox) ;;
        if free_cnt h =? 0 then Panic else
        Ok (gcbox, mkHeap (used h) (allocated h + 1) (free_cnt h - 1) (current h) (pages h) (mark_cnt h) nx (free_pages h)
              (alloc_flag h) (upd (mem h) gcbox (Obj o)) (bits h))
    | None =>
        if used h =? DATA_LEN then
          let pgs := pages h ++ [current h] in
          let (cur, fps) := match rev (free_pages h) with [] => (new_page, []) | p :: r => (p, rev r) end in
          gcbox <- data_ptr cur 0 ;;
          Ok (gcbox, mkHeap 1 (allocated h + 1) (free_cnt h) cur pgs (mark_cnt h) None fps
                (alloc_flag h) (upd (mem h) gcbox (Obj o)) (bits h))
        else
          let flag := if used h =? THRESHOLD then true else alloc_flag h in
          gcbox <- data_ptr (current h) (used h) ;;
          Ok (gcbox, mkHeap (used h + 1) (allocated h + 1) (free_cnt h) (current h) (pages h) (mark_cnt h) None (free_pages h)
                flag (upd (mem h) gcbox (Obj o)) (bits h))
    end.

  (* 272-276 clear_mark, 508 clear_bits *)
  Definition clear_bits (b : Z -> list Z) (page : Z) : Z -> list Z := upd b page (repeat 0 (Z.to_nat (SIZE - 1))).
  Definition clear_mark (h : heap) : heap :=
    mkHeap (used h) (allocated h) (free_cnt h) (current h) (pages h) 0 (free h) (free_pages h) (alloc_flag h) (mem h)
      (fold_left clear_bits (pages h) (clear_bits (bits h) (current h))).

  (* 250-267 gc_check_and_mark, on the bitmaps and the counter *)
  Definition check_and_mark (ptr : Z) (s : (Z -> list Z) * Z) : res (bool * ((Z -> list Z) * Z)) :=
    let (b, cnt) := s in
    let page := from_inner ptr in
    let index := (ptr - (page + off)) / GCBOX_SIZE in
    if negb ((0 <=? index) && (index <? DATA_LEN)) then Panic else
    let mask := 2 ^ (index mod 64) in
    w <- v_get (b page) (index / 64) ;;
    let is_marked := negb (Z.land w mask =? 0) in
    words <- v_set (b page) (index / 64) (Z.lor w mask) ;;
    Ok (is_marked, (upd b page words, if is_marked then cnt else cnt + 1)).

  (* rvalue.rs:449 mark: depth first *)
  Fixpoint mark (m : Z -> cell) (fuel : nat) (ptr : Z) (s : (Z -> list Z) * Z) : res ((Z -> list Z) * Z) :=
    match fuel with
    | O => Panic
    | S n =>
        r <- check_and_mark ptr s ;;
        if fst r then Ok (snd r)
        else match m ptr with
             | Invalid _ => Panic
             | Obj o =>
                 (fix all (l : list Z) (s : (Z -> list Z) * Z) : res ((Z -> list Z) * Z) :=
                    match l with
                    | [] => Ok s
                    | x :: r => s' <- mark m n x s ;; all r s'
                    end) (refs o) (snd r)
             end
    end.
  Fixpoint mark_all (m : Z -> cell) (fuel : nat) (l : list Z) (s : (Z -> list Z) * Z) : res ((Z -> list Z) * Z) :=
    match l with
    | [] => Ok s
    | x :: r => s' <- mark m fuel x s ;; mark_all m fuel r s'
    end.

  (* 516 all_dead *)
  Definition all_dead (b : Z -> list Z) (page : Z) : bool := forallb (fun w => w =? 0) (b page).
  (* 475 free_page *)
  Definition free_page (m : Z -> cell) (page : Z) : Z -> cell :=
    fold_left (fun m i => let a := page + off + GCBOX_SIZE * i in upd m a (cell_free (m a))) (map Z.of_nat (seq 0 (Z.to_nat DATA_LEN))) m.
  (* 278-289 dealloc_empty_pages: i counts the pages still to be examined *)
  Fixpoint dealloc_loop (i : nat) (h : heap) : res heap :=
    match i with
    | O => Ok h
    | S k =>
        p <- v_get (pages h) (Z.of_nat k) ;;
        if all_dead (bits h) p then
          dealloc_loop k (mkHeap (used h) (allocated h) (free_cnt h) (current h)
            (zfirst (Z.of_nat k) (pages h) ++ zskip (Z.of_nat k + 1) (pages h)) (mark_cnt h) (free h) (free_pages h ++ [p])
            (alloc_flag h) (free_page (mem h) p) (bits h))
        else dealloc_loop k h
    end.
  Definition dealloc_empty_pages (h : heap) : res heap := dealloc_loop (length (pages h)) h.

  (* u64::trailing_ones *)
  Fixpoint trailing_ones (n : nat) (w : Z) : Z :=
    match n with
    | O => 0
    | S k => if Z.odd w then 1 + trailing_ones k (w / 2) else 0
    end.
  (* The sweep state: memory, next field of the stack anchor, head of the list
     under construction (None: the anchor), the cell pointer. *)
  Record sweeping : Type := mkSweep { smem : Z -> cell; sanchor : option Z; shead : option Z; sptr : Z }.
  (* 291-310 sweep_bits: returns the number of cells freed *)
  Fixpoint sweep_loop (n : nat) (map : Z) (s : sweeping) (c : Z) : Z * sweeping :=
    match n with
    | O => (c, s)
    | S k =>
        let p := sptr s in
        if Z.land map 1 =? 0 then
          let '(m1, anchor) := match shead s with
            | None => (smem s, Some p)
            | Some hd => (upd (smem s) hd (Invalid (Some p)), sanchor s)
            end in
          let m2 := upd m1 p (Invalid None) in
          sweep_loop k (map / 2) (mkSweep m2 anchor (Some p) (p + GCBOX_SIZE)) (c + 1)
        else sweep_loop k (map / 2) (mkSweep (smem s) (sanchor s) (shead s) (p + GCBOX_SIZE)) c
    end.
  Definition sweep_bits (bit : Z) (map : Z) (s : sweeping) : Z * sweeping :=
    let min := trailing_ones 64 map in
    let s1 := mkSweep (smem s) (sanchor s) (shead s) (sptr s + GCBOX_SIZE * min) in
    let map1 := if min =? 64 then 0 else map / 2 ^ min in
    sweep_loop (Z.to_nat (bit - min)) map1 s1 0.
  Fixpoint sweep_words (ws : list Z) (s : sweeping) (c : Z) : Z * sweeping :=
    match ws with
    | [] => (c, s)
    | w :: r => let (k, s') := sweep_bits 64 w s in sweep_words r s' (c + k)
    end.
  (* 312-340 sweep *)
  Fixpoint sweep_pages (b : Z -> list Z) (ps : list Z) (s : sweeping) (c : Z) : Z * sweeping :=
    match ps with
    | [] => (c, s)
    | p :: r =>
        let (c', s') := sweep_words (b p) (mkSweep (smem s) (sanchor s) (shead s) (p + off)) c in
        sweep_pages b r s' c'
    end.
  Definition sweep (h : heap) : res heap :=
    let (c1, s1) := sweep_pages (bits h) (pages h) (mkSweep (mem h) None None 0) 0 in
    if DATA_LEN <? used h then Panic else
    let i := used h / 64 in
    let bit := used h mod 64 in
    let bitmap := bits h (current h) in
    let (c2, s2) := sweep_words (zfirst i bitmap) (mkSweep (smem s1) (sanchor s1) (shead s1) (current h + off)) c1 in
    r <- (if i <? SIZE - 1 then
            w <- v_get bitmap i ;;
            let (k, s3) := sweep_bits bit w s2 in Ok (c2 + k, s3)
          else Ok (c2, s2)) ;;
    Ok (mkHeap (used h) (allocated h) (fst r) (current h) (pages h) (mark_cnt h) (sanchor (snd r)) (free_pages h)
          (alloc_flag h) (smem (snd r)) (bits h)).

  (* 210-245 gc *)
  Definition gc (fuel : nat) (roots : list Z) (h : heap) : res heap :=
    let h1 := clear_mark h in
    s <- mark_all (mem h1) fuel roots (bits h1, mark_cnt h1) ;;
    let h2 := mkHeap (used h1) (allocated h1) (free_cnt h1) (current h1) (pages h1) (snd s) (free h1) (free_pages h1)
                (alloc_flag h1) (mem h1) (fst s) in
    h3 <- dealloc_empty_pages h2 ;;
    h4 <- sweep h3 ;;
    Ok (mkHeap (used h4) (allocated h4) (free_cnt h4) (current h4) (pages h4) (mark_cnt h4) (free h4) (free_pages h4)
          false (mem h4) (bits h4)).
  (* a store into a live object *)
  Definition write (h : heap) (a : Z) (o : obj) : heap :=
    mkHeap (used h) (allocated h) (free_cnt h) (current h) (pages h) (mark_cnt h) (free h) (free_pages h)
      (alloc_flag h) (upd (mem h) a (Obj o)) (bits h).
End GC.
