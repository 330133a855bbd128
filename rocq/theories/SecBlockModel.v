(** SecBlockModel: SecBlock and its two allocators
    (secblock.h:149-176 StandardReallocate, 186-280 AllocatorWithCleanup,
    355-721 FixedSizeAllocatorWithCleanup, 729-1240 SecBlock).

    One block lives in a small memory: heap blocks are numbered and never
    reused, a freed block is [None]; the fixed array of
    FixedSizeAllocatorWithCleanup is [m_stat].  Elements are integers.  Fresh
    memory has any content ([junk]), and any allocation may fail ([avail],
    which also stands for the test of the size in CheckSize,
    secblock.h:107-111).  Sizes are not bounded by a word. *)
From Coq Require Import ZArith List Arith Bool.
From Verif Require Import Base.
Import ListNotations.

Inductive ptr : Type := PNull | PStatic | PHeap (id : nat).

(** m_ptr, m_size, m_mark (None for ELEMS_MAX), m_alloc.m_array,
    m_alloc.m_allocated, and the heap.  [m_freed] collects the contents blocks
    had when they were given back. *)
Record st : Type := mkst
  { m_heap : list (option (list Z)); m_stat : list Z; m_used : bool;
    m_ptr : ptr; m_size : nat; m_mark : option nat; m_freed : list (list Z) }.

(** A call returns, throws, or has touched memory that is not there. *)
Inductive out (A : Type) : Type :=
| Done (a : A)
| Exn (s : st)
| Crash.
Arguments Done {A} _.
Arguments Exn {A} _.
Arguments Crash {A}.

Section Model.

(** The allocator: [None] for AllocatorWithCleanup, [Some n] for
    FixedSizeAllocatorWithCleanup<T, n, AllocatorWithCleanup<T> >, the
    allocator of SecBlockWithHint (secblock.h:1253-1260). *)
Variable fixed : option nat.
Variable junk : nat -> nat -> Z.
Variable avail : nat -> nat -> bool.

(** AllocatorWithCleanup::allocate (secblock.h:206-220). *)
Definition heap_allocate (s : st) (n : nat) : out (st * ptr) :=
  if n =? 0 then Done (s, PNull)
  else if avail (length (m_heap s)) n
  then Done (mkst (m_heap s ++ [Some (map (junk (length (m_heap s))) (seq 0 n))])
                  (m_stat s) (m_used s) (m_ptr s) (m_size s) (m_mark s) (m_freed s),
             PHeap (length (m_heap s)))
  else Exn s.

(** FixedSizeAllocatorWithCleanup::allocate (secblock.h:402-413, 640-651). *)
Definition allocate (s : st) (n : nat) : out (st * ptr) :=
  match fixed with
  | Some S_ =>
    if (n <=? S_) && negb (m_used s)
    then Done (mkst (m_heap s) (m_stat s) true (m_ptr s) (m_size s) (m_mark s) (m_freed s), PStatic)
    else heap_allocate s n
  | None => heap_allocate s n
  end.

(** What a pointer points to. *)
Definition cells (s : st) (p : ptr) : option (list Z) :=
  match p with
  | PNull => Some []
  | PStatic => match fixed with Some _ => Some (m_stat s) | None => None end
  | PHeap i => nth i (m_heap s) None
  end.

Definition set_cells (s : st) (p : ptr) (l : list Z) : st :=
  match p with
  | PNull => s
  | PStatic => mkst (m_heap s) l (m_used s) (m_ptr s) (m_size s) (m_mark s) (m_freed s)
  | PHeap i => mkst (upd i (Some l) (m_heap s)) (m_stat s) (m_used s) (m_ptr s) (m_size s) (m_mark s) (m_freed s)
  end.

(** Write [l] at [at_]: memcpy, memset, SecureWipeArray and the assignment
    loops. *)
Definition store (s : st) (p : ptr) (at_ : nat) (l : list Z) : out st :=
  match cells s p with
  | None => Crash
  | Some c =>
    if at_ + length l <=? length c
    then Done (set_cells s p (firstn at_ c ++ l ++ skipn (at_ + length l) c))
    else Crash
  end.

(** Read [n] elements at [at_]. *)
Definition fetch (s : st) (p : ptr) (at_ n : nat) : out (list Z) :=
  match cells s p with
  | None => Crash
  | Some c => if at_ + n <=? length c then Done (firstn n (skipn at_ c)) else Crash
  end.

(** AllocatorWithCleanup::deallocate (secblock.h:230-244): wipe [n] elements,
    then free. Freeing what is not allocated is a crash. *)
Definition heap_deallocate (s : st) (p : ptr) (n : nat) : out st :=
  match p with
  | PNull => Done s
  | PStatic => Crash
  | PHeap i =>
    match store s p 0 (repeat 0%Z n) with
    | Done s =>
      match nth i (m_heap s) None with
      | Some c => Done (mkst (upd i None (m_heap s)) (m_stat s) (m_used s) (m_ptr s) (m_size s)
                             (m_mark s) (m_freed s ++ [c]))
      | None => Crash
      end
    | Exn s => Exn s
    | Crash => Crash
    end
  end.

(** FixedSizeAllocatorWithCleanup::deallocate (secblock.h:424-443, 662-680). *)
Definition deallocate (s : st) (p : ptr) (n : nat) : out st :=
  match fixed, p with
  | Some _, PStatic =>
    store (mkst (m_heap s) (m_stat s) false (m_ptr s) (m_size s) (m_mark s) (m_freed s))
          PStatic 0 (repeat 0%Z n)
  | _, _ => heap_deallocate s p n
  end.

Definition is_null (p : ptr) : bool := match p with PNull => true | _ => false end.

(** The copy in both reallocate functions: memcpy of [n] elements if neither
    pointer is null. *)
Definition copy_over (s : st) (from to : ptr) (n : nat) : out st :=
  if negb (is_null from) && negb (is_null to)
  then match fetch s from 0 n with
       | Done l => store s to 0 l
       | Exn s => Exn s
       | Crash => Crash
       end
  else Done s.

(** StandardReallocate (secblock.h:149-176) for AllocatorWithCleanup, and
    FixedSizeAllocatorWithCleanup::reallocate (secblock.h:461-480, 682-701). *)
Definition reallocate (s : st) (old : ptr) (oldn newn : nat) (preserve : bool) : out (st * ptr) :=
  match fixed with
  | None =>
    if oldn =? newn then Done (s, old)
    else if preserve
    then match allocate s newn with
         | Done (s, p) =>
           match copy_over s old p (Nat.min oldn newn) with
           | Done s =>
             match deallocate s old oldn with
             | Done s => Done (s, p)
             | Exn s => Exn s
             | Crash => Crash
             end
           | Exn s => Exn s
           | Crash => Crash
           end
         | Exn s => Exn s
         | Crash => Crash
         end
    else match deallocate s old oldn with
         | Done s => allocate s newn
         | Exn s => Exn s
         | Crash => Crash
         end
  | Some S_ =>
    if match old with PStatic => newn <=? S_ | _ => false end
    then if newn <? oldn
         then match store s old newn (repeat 0%Z (oldn - newn)) with
              | Done s => Done (s, old)
              | Exn s => Exn s
              | Crash => Crash
              end
         else Done (s, old)
    else match allocate s newn with
         | Done (s, p) =>
           match (if preserve && negb (newn =? 0) then copy_over s old p (Nat.min oldn newn) else Done s) with
           | Done s =>
             match deallocate s old oldn with
             | Done s => Done (s, p)
             | Exn s => Exn s
             | Crash => Crash
             end
           | Exn s => Exn s
           | Crash => Crash
           end
         | Exn s => Exn s
         | Crash => Crash
         end
  end.

Definition set_block (s : st) (p : ptr) (n : nat) : st :=
  mkst (m_heap s) (m_stat s) (m_used s) p n None (m_freed s).
Definition reset_mark (s : st) : st := set_block s (m_ptr s) (m_size s).

(** SecBlock(size) (secblock.h:766-767), in a memory with nothing else;
    [arr] is what the fixed array holds. *)
Definition construct (arr : list Z) (n : nat) : out st :=
  match allocate (mkst [] arr false PNull 0 None []) n with
  | Done (s, p) => Done (set_block s p n)
  | Exn s => Exn s
  | Crash => Crash
  end.

(** resize (secblock.h:1203-1208) and, with [preserve] false, New
    (secblock.h:1126-1131). *)
Definition resize_ (s : st) (n : nat) (preserve : bool) : out st :=
  match reallocate s (m_ptr s) (m_size s) n preserve with
  | Done (s, p) => Done (set_block s p n)
  | Exn s => Exn s
  | Crash => Crash
  end.

(** Grow (secblock.h:1160-1168). *)
Definition grow (s : st) (n : nat) : out st :=
  if m_size s <? n then resize_ s n true else Done (reset_mark s).

Definition bind {A} (o : out st) (f : st -> out A) : out A :=
  match o with Done s => f s | Exn s => Exn s | Crash => Crash end.

(** [store] unless the pointer is null. *)
Definition store_if (s : st) (at_ : nat) (l : list Z) : out st :=
  if is_null (m_ptr s) then Done s else store s (m_ptr s) at_ l.

(** CleanNew (secblock.h:1143-1148). *)
Definition clean_new (s : st) (n : nat) : out st :=
  bind (resize_ s n false) (fun s => bind (store_if s 0 (repeat 0%Z (m_size s))) (fun s => Done (reset_mark s))).

(** CleanGrow (secblock.h:1179-1188); the memset is not guarded, but writes
    through the new pointer, which has room. *)
Definition clean_grow (s : st) (n : nat) : out st :=
  if m_size s <? n
  then match reallocate s (m_ptr s) (m_size s) n true with
       | Done (s, p) => bind (store s p (m_size s) (repeat 0%Z (n - m_size s)))
                             (fun s => Done (set_block s p n))
       | Exn s => Exn s
       | Crash => Crash
       end
  else Done (reset_mark s).

(** Assign(ptr, len), and Assign of another block (secblock.h:898-904,
    928-937); Assign(count, value) (secblock.h:913-919) is the same with
    [repeat value count]. The data come from elsewhere. *)
Definition assign (s : st) (l : list Z) : out st :=
  bind (resize_ s (length l) false) (fun s => bind (store_if s 0 l) (fun s => Done (reset_mark s))).

(** Append(ptr, len), Append of another block (secblock.h:952-962, 973-984)
    and Append(count, value) (secblock.h:1004-1014). *)
Definition append (s : st) (l : list Z) : out st :=
  let old := m_size s in
  bind (grow s (old + length l)) (fun s => bind (store_if s old l) (fun s => Done (reset_mark s))).

(** Append of the block itself, t += t (secblock.h:985-991). *)
Definition append_self (s : st) : out st :=
  let old := m_size s in
  bind (grow s (old * 2)) (fun s =>
    if is_null (m_ptr s) then Done (reset_mark s)
    else match fetch s (m_ptr s) 0 old with
         | Done l => bind (store s (m_ptr s) old l) (fun s => Done (reset_mark s))
         | Exn s => Exn s
         | Crash => Crash
         end).

(** The destructor (secblock.h:798-799). *)
Definition destroy (s : st) : out st :=
  deallocate s (m_ptr s) (match m_mark s with None => m_size s | Some k => Nat.min (m_size s) k end).

Inductive op : Type :=
| New (n : nat) | CleanNew (n : nat) | Grow (n : nat) | CleanGrow (n : nat) | Resize (n : nat)
| Assign (l : list Z) | Append (l : list Z) | AppendSelf
| SetMark (k : nat)                     (* secblock.h:1037 *)
| Write (i : nat) (v : Z).              (* operator T*: the user stores into the block *)

Definition step (s : st) (o : op) : out st :=
  match o with
  | New n => resize_ s n false
  | CleanNew n => clean_new s n
  | Grow n => grow s n
  | CleanGrow n => clean_grow s n
  | Resize n => resize_ s n true
  | Assign l => assign s l
  | Append l => append s l
  | AppendSelf => append_self s
  | SetMark k => Done (mkst (m_heap s) (m_stat s) (m_used s) (m_ptr s) (m_size s) (Some k) (m_freed s))
  | Write i v => if i <? m_size s then store s (m_ptr s) i [v] else Done s
  end.

(** What the user sees: begin() to end(). *)
Definition content (s : st) : option (list Z) :=
  match cells s (m_ptr s) with Some c => Some (firstn (m_size s) c) | None => None end.

Fixpoint run (s : st) (l : list op) : out st :=
  match l with
  | [] => Done s
  | o :: l => match step s o with Done s => run s l | Exn s => Exn s | Crash => Crash end
  end.

End Model.

(** Two blocks a and b with FixedSizeAllocatorWithCleanup, both small enough
    for the array in the allocator.  A pointer into an array says whose array it
    is: [true] for a's. *)
Record two : Type := mktwo
  { arr_a : list Z; arr_b : list Z; size_a : nat; size_b : nat; ptr_a : bool; ptr_b : bool }.

Definition two_fresh (ca cb : list Z) : two :=
  mktwo ca cb (length ca) (length cb) true false.

(** SecBlock::swap (secblock.h:1215-1222): std::swap of the allocators
    exchanges what the arrays hold, std::swap of m_ptr exchanges the pointers. *)
Definition two_swap (t : two) : two :=
  mktwo (arr_b t) (arr_a t) (size_b t) (size_a t) (ptr_b t) (ptr_a t).

Definition two_content (t : two) (a : bool) : list Z :=
  firstn (if a then size_a t else size_b t)
         (if (if a then ptr_a t else ptr_b t) then arr_a t else arr_b t).
