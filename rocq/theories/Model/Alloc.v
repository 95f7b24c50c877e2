(* Memory of the tables: /repo/monotone/runtime/lib/{memory_mgr.h,heap.h}, engine/io/event.h
   event_allocate; and the pool of compression contexts: runtime/lib/{cache.h,compression_mgr.c}.
   A page is the number that mmap gave; the counts of pages are ints and stay below 2^31. *)
From Coq Require Import NArith ZArith List Bool.
Import ListNotations.
From Verif Require Import Model.Base.

(* memory_mgr.h:24-37; page_size is without the header of the page *)
Record mgr := mk_mgr { mm_count : Z; mm_free : list N; mm_fcount : Z; mm_psize : Z; mm_cache : Z;
                       mm_limit : bool; mm_lerr : bool; mm_wm : Z; mm_hits : Z }.
Definition mgr_pages (m : mgr) (count : Z) (free : list N) (fcount : Z) : mgr :=
  mk_mgr count free fcount (mm_psize m) (mm_cache m) (mm_limit m) (mm_lerr m) (mm_wm m) (mm_hits m).
Definition mgr_hit (m : mgr) : mgr :=
  mk_mgr (mm_count m) (mm_free m) (mm_fcount m) (mm_psize m) (mm_cache m) (mm_limit m) (mm_lerr m) (mm_wm m) (mm_hits m + 1).

(* memory_mgr.h:39-71 *)
Definition mgr_new (psize cache : Z) (limit lerr : bool) (wm : Z) : mgr := mk_mgr 0 [] 0 psize cache limit lerr wm 0.

(* memory_mgr.h:77-93: the pages that are unmapped *)
Definition memory_mgr_reset (m : mgr) : mgr * list N := (mgr_pages m (mm_count m - mm_fcount m) [] 0, mm_free m).

(* memory_mgr.h:112-122 *)
Definition memory_mgr_pop_cache (m : mgr) : option (N * mgr) :=
  match mm_free m with
  | [] => None
  | p :: t => Some (p, mgr_pages m (mm_count m) t (mm_fcount m - 1))
  end.

Inductive popped := PPage (p : N) | PError | PWait.
(* memory_mgr.h:124-168 up to the wait; [mmap] is the new page, or nothing if mmap fails *)
Definition memory_mgr_pop (mmap : option N) (m : mgr) : popped * mgr :=
  match memory_mgr_pop_cache m with
  | Some (p, m) => (PPage p, m)
  | None =>
    if mm_limit m && (mm_wm m <=? mm_count m * mm_psize m)%Z
    then (if mm_lerr m then PError else PWait, mgr_hit m)
    else let m := mgr_pages m (mm_count m + 1) (mm_free m) (mm_fcount m) in
         match mmap with
         | Some p => (PPage p, m)
         | None => (PError, m)
         end
  end.
(* memory_mgr.h:148-154: a waiting thread looks at the list of free pages again *)
Definition memory_mgr_wake (m : mgr) : popped * mgr :=
  match memory_mgr_pop_cache m with
  | Some (p, m) => (PPage p, m)
  | None => (PWait, m)
  end.

(* memory_mgr.h:170-193: the second result are the pages that are unmapped *)
Definition memory_mgr_push (pages : list N) (count : Z) (m : mgr) : mgr * list N :=
  if (mm_fcount m * mm_psize m <? mm_cache m)%Z
  then (mgr_pages m (mm_count m) (pages ++ mm_free m) (mm_fcount m + count), [])
  else (mgr_pages m (mm_count m - count) (mm_free m) (mm_fcount m), pages).

(* heap.h:18-24: the pages with what is used of them, the last one first *)
Definition heap := list (N * Z).

(* heap.h:35-47; the list of the code starts with the oldest page *)
Definition heap_reset (h : heap) (m : mgr) : mgr * list N :=
  match h with
  | [] => (m, [])
  | _ => memory_mgr_push (rev (map fst h)) (Z.of_nat (length h)) m
  end.

Inductive allocated := ABlock (p : N) (off : Z) | ANull | AError | AWait.
Definition add_page (h : heap) (size : Z) (r : popped * mgr) : allocated * heap * mgr :=
  match fst r with
  | PPage p => (ABlock p 0, (p, size) :: h, snd r)
  | PError => (AError, h, snd r)
  | PWait => (AWait, h, snd r)
  end.
(* heap.h:56-78; [size] is an int *)
Definition heap_allocate (h : heap) (size : Z) (mmap : option N) (m : mgr) : allocated * heap * mgr :=
  if (mm_psize m <? size)%Z then (ANull, h, m)
  else match h with
       | (p, used) :: t =>
         if (mm_psize m - used <? size)%Z then add_page h size (memory_mgr_pop mmap m)
         else (ABlock p used, (p, (used + size)%Z) :: t, m)
       | [] => add_page h size (memory_mgr_pop mmap m)
       end.
(* the rest of a call that waited *)
Definition heap_allocate_wake (h : heap) (size : Z) (m : mgr) : allocated * heap * mgr :=
  add_page h size (memory_mgr_wake m).

(* event.h:80-86: the size asked for, narrowed to int; event.h:62-73: the bytes written *)
Definition event_alloc_size (key value : N) : Z := i32_of_z (Z.of_N (w64 (14 + key + value))).
Definition event_bytes (key value : N) : N := (14 + key + value)%N.

(* several heaps on one pool. A heap with a waiting call is not used by anyone else (the caller
   holds the lock of the partition). [sy_blocks], [sy_failed] are for the statements only. *)
Record block := mk_block { bk_heap : nat; bk_page : N; bk_off : Z; bk_size : Z }.
Record sys := mk_sys { sy_mgr : mgr; sy_heaps : list heap; sy_wait : list (nat * Z); sy_blocks : list block; sy_failed : Z }.
Inductive sop :=
| SAlloc (h : nat) (size : Z) (mmap : option N)
| SWake (k : nat)
| SReset (h : nat)
| SGc.

Fixpoint set_nth {A} (n : nat) (a : A) (l : list A) : list A :=
  match l, n with
  | [], _ => []
  | _ :: t, O => a :: t
  | x :: t, S n => x :: set_nth n a t
  end.
Definition waits (s : sys) (h : nat) : bool := existsb (fun w => Nat.eqb (fst w) h) (sy_wait s).

Definition alloc_done (s : sys) (k : nat) (size : Z) (wait : list (nat * Z)) (failed : Z) (r : allocated * heap * mgr) : sys :=
  let '(a, h, m) := r in
  let blocks := match a with ABlock p off => mk_block k p off size :: sy_blocks s | _ => sy_blocks s end in
  let wait := match a with AWait => (k, size) :: wait | _ => wait end in
  mk_sys m (set_nth k h (sy_heaps s)) wait blocks failed.

Definition sstep (s : sys) (o : sop) : option sys :=
  match o with
  | SAlloc k size mmap =>
    match nth_error (sy_heaps s) k with
    | Some h =>
      if waits s k then None
      else let r := heap_allocate h size mmap (sy_mgr s) in
           (* the page was counted, but mmap failed *)
           let lost := (mm_count (snd r) - mm_count (sy_mgr s) - (match mmap with Some _ => 1 | None => 0 end))%Z in
           Some (alloc_done s k size (sy_wait s) (sy_failed s + Z.max 0 lost) r)
    | None => None
    end
  | SWake j =>
    match nth_error (sy_wait s) j with
    | Some (k, size) =>
      match nth_error (sy_heaps s) k with
      | Some h => Some (alloc_done s k size (firstn j (sy_wait s) ++ skipn (S j) (sy_wait s)) (sy_failed s)
                                   (heap_allocate_wake h size (sy_mgr s)))
      | None => None
      end
    | None => None
    end
  | SReset k =>
    match nth_error (sy_heaps s) k with
    | Some h =>
      if waits s k then None
      else Some (mk_sys (fst (heap_reset h (sy_mgr s))) (set_nth k [] (sy_heaps s)) (sy_wait s)
                        (filter (fun b => negb (Nat.eqb (bk_heap b) k)) (sy_blocks s)) (sy_failed s))
    | None => None
    end
  | SGc => Some (mk_sys (fst (memory_mgr_reset (sy_mgr s))) (sy_heaps s) (sy_wait s) (sy_blocks s) (sy_failed s))
  end.
Fixpoint srun (s : sys) (l : list sop) : option sys :=
  match l with
  | [] => Some s
  | o :: l => match sstep s o with Some s => srun s l | None => None end
  end.
Definition sys_new (n : nat) (m : mgr) : sys := mk_sys m (repeat [] n) [] [] 0.

(* compression_mgr.c; a context is its method *)
Inductive method := ZSTD | LZ4.
Record pool := mk_pool { pl_zstd : list method; pl_lz4 : list method }.
Definition method_eqb (a b : method) : bool := match a, b with ZSTD, ZSTD | LZ4, LZ4 => true | _, _ => false end.

(* cache.h:49-71: taken from the front, put at the end *)
(* compression_mgr.c:39-57 *)
Definition compression_mgr_pop (p : pool) (m : method) : method * pool :=
  match m with
  | ZSTD => match pl_zstd p with c :: t => (c, mk_pool t (pl_lz4 p)) | [] => (ZSTD, p) end
  | LZ4 => match pl_lz4 p with c :: t => (c, mk_pool (pl_zstd p) t) | [] => (LZ4, p) end
  end.
(* compression_mgr.c:59-73: both go to the list of zstd *)
Definition compression_mgr_push (p : pool) (c : method) : pool :=
  match c with
  | ZSTD => mk_pool (pl_zstd p ++ [c]) (pl_lz4 p)
  | LZ4 => mk_pool (pl_zstd p ++ [c]) (pl_lz4 p)
  end.

(* takes and returns; the results are what was asked for and what was given *)
Inductive pop_op := Take (m : method) | Give (k : nat).
Record pools := mk_pools { ps_pool : pool; ps_held : list method; ps_given : list (method * method) }.
Definition pstep (s : pools) (o : pop_op) : option pools :=
  match o with
  | Take m => let (c, p) := compression_mgr_pop (ps_pool s) m in
              Some (mk_pools p (c :: ps_held s) ((m, c) :: ps_given s))
  | Give k => match nth_error (ps_held s) k with
              | Some c => Some (mk_pools (compression_mgr_push (ps_pool s) c)
                                         (firstn k (ps_held s) ++ skipn (S k) (ps_held s)) (ps_given s))
              | None => None
              end
  end.
Fixpoint prun (s : pools) (l : list pop_op) : option pools :=
  match l with
  | [] => Some s
  | o :: l => match pstep s o with Some s => prun s l | None => None end
  end.
Definition pools_new : pools := mk_pools (mk_pool [] []) [] [].
