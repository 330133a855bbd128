(** SecBlockProperties: C60. *)
From Coq Require Import ZArith List Arith Bool Lia.
From Verif Require Import Base SecBlockModel SecBlockSpec SecBlockProofs.
Import ListNotations.

(** C60.  Make a block of any size, with either allocator, whatever fresh memory
    holds and whichever allocations fail, and do any operations.
    As long as no exception was thrown, nothing touched memory that is not
    there, the block has its content, and one more operation
    - changes the content as documented ([may]) if it returns,
    - leaves it as it was if it throws, provided it is one that keeps the old
      elements or the allocator is the fixed-size one,
    - and every heap block given back was zero all over. *)
Theorem C60_content : forall fixed junk avail arr n s0 l s o,
  (forall S_, fixed = Some S_ -> length arr = S_) ->
  construct fixed junk avail arr n = Done s0 ->
  run fixed junk avail s0 l = Done s ->
  exists c, content fixed s = Some c /\
  match step fixed junk avail s o with
  | Done s' => (exists c', content fixed s' = Some c' /\ may o c c') /\ Forall all_zero (m_freed s')
  | Exn s' => (preserving o \/ fixed <> None -> content fixed s' = Some c) /\ Forall all_zero (m_freed s')
  | Crash => False
  end.
Proof.
  intros fixed junk avail arr n s0 l s o HA HC HR.
  pose proof (construct_spec junk avail fixed arr n HA) as K. rewrite HC in K. destruct K as (I0 & _).
  destruct (content_size fixed s0 I0) as (c0 & C0 & _).
  pose proof (run_spec junk avail fixed l s0 c0 I0 C0) as R. rewrite HR in R. destruct R as (I & _).
  destruct (content_size fixed s I) as (c & C & _). exists c. split; auto.
  pose proof (step_spec junk avail fixed s o c I C) as T.
  destruct (step fixed junk avail s o) as [s'|s'|]; auto.
  - destruct T as ((G & A & B) & c' & C' & M & _). split; [eauto|apply B].
  - destruct T as (T1 & T2). split; auto. intros H. rewrite (T1 H). exact C.
Qed.

(** No history crashes, exceptions or not, up to the first exception; the block
    has the size asked for. *)
Theorem C60_no_crash : forall fixed junk avail arr n,
  (forall S_, fixed = Some S_ -> length arr = S_) ->
  match construct fixed junk avail arr n with
  | Done s0 => (exists c, content fixed s0 = Some c /\ length c = n)
               /\ forall l, run fixed junk avail s0 l <> Crash
  | Exn _ => True
  | Crash => False
  end.
Proof.
  intros fixed junk avail arr n HA.
  pose proof (construct_spec junk avail fixed arr n HA) as K.
  destruct (construct fixed junk avail arr n) as [s0|s0|]; auto.
  destruct K as (I0 & S0 & _). destruct (content_size fixed s0 I0) as (c0 & C0 & L0).
  split; [exists c0; split; auto; congruence|].
  intros l E. pose proof (run_spec junk avail fixed l s0 c0 I0 C0) as R. rewrite E in R. exact R.
Qed.

(** Such an exception leaves everything as it was, so that whatever is done next
    goes as if the call had not been made; and at any time the destructor can
    run. *)
Theorem C60_after_exception : forall fixed junk avail arr n s0 l s,
  (forall S_, fixed = Some S_ -> length arr = S_) ->
  construct fixed junk avail arr n = Done s0 ->
  run fixed junk avail s0 l = Done s ->
  destroy fixed s <> Crash
  /\ forall o s', step fixed junk avail s o = Exn s' -> preserving o \/ fixed <> None -> s' = s.
Proof.
  intros fixed junk avail arr n s0 l s HA HC HR.
  pose proof (construct_spec junk avail fixed arr n HA) as K. rewrite HC in K. destruct K as (I0 & _).
  destruct (content_size fixed s0 I0) as (c0 & C0 & _).
  pose proof (run_spec junk avail fixed l s0 c0 I0 C0) as R. rewrite HR in R. destruct R as (I & _).
  destruct (content_size fixed s I) as (c & C & _).
  split; [exact (destroy_no_crash fixed s I)|]. intros o s' HS HP.
  pose proof (step_spec junk avail fixed s o c I C) as T. rewrite HS in T. exact (proj1 T HP).
Qed.

(** When the block dies, unless SetMark was called since the last change of
    size, every heap block it ever had has been given back, was zero all over,
    and what it used of a fixed array is zero. *)
Theorem C60_destructor : forall fixed junk avail arr n s0 l s,
  (forall S_, fixed = Some S_ -> length arr = S_) ->
  construct fixed junk avail arr n = Done s0 ->
  run fixed junk avail s0 l = Done s ->
  Forall (fun o => ~ is_set_mark o) l ->
  exists s', destroy fixed s = Done s' /\ Forall all_zero (m_freed s')
    /\ (forall i, nth i (m_heap s') None = None)
    /\ (m_ptr s = PStatic -> all_zero (firstn (m_size s) (m_stat s'))).
Proof.
  intros fixed junk avail arr n s0 l s HA HC HR HM.
  pose proof (construct_spec junk avail fixed arr n HA) as K. rewrite HC in K. destruct K as (I0 & _ & M0).
  destruct (content_size fixed s0 I0) as (c0 & C0 & _).
  pose proof (run_spec junk avail fixed l s0 c0 I0 C0) as R. rewrite HR in R. destruct R as (I & M).
  pose proof (destroy_spec fixed s I (M HM M0)) as D.
  destruct (destroy fixed s) as [s'|s'|]; try contradiction. exists s'. auto.
Qed.

(** The hypothesis on the mark is needed: with SetMark(k) only k elements are
    wiped. *)
Theorem C60_mark_leaves_elements : exists avail s s',
  run None (fun _ _ => 0%Z) avail (mkst [] [] false PNull 0 None []) [Assign [7; 8; 9]%Z; SetMark 1] = Done s
  /\ destroy None s = Done s' /\ m_freed s' = [[0; 8; 9]]%Z.
Proof. exists (fun _ _ => true). eexists. eexists. vm_compute. auto. Qed.

(** Refuted for New, CleanNew and Assign with AllocatorWithCleanup: they free
    the old memory before they ask for the new (StandardReallocate with
    [preserve] false), so when the allocation throws, m_ptr points to freed
    memory and the destructor frees it a second time. *)
Theorem C60_new_exception_refuted : exists junk avail s0 s',
  construct None junk avail [] 4 = Done s0
  /\ step None junk avail s0 (New 8) = Exn s'
  /\ content None s' = None /\ destroy None s' = Crash.
Proof.
  exists (fun _ _ => 0%Z), (fun _ n => n <? 8). eexists. eexists. vm_compute. auto.
Qed.

(** Refuted for swap of blocks whose elements are in the allocators' arrays:
    arrays and pointers are both exchanged, so each block ends up reading the
    other's array, where its own elements went: the contents are not exchanged,
    and the blocks now live in each other's memory. *)
Theorem C60_swap_refuted : forall ca cb, length ca = length cb -> ca <> cb ->
  two_content (two_fresh ca cb) true = ca /\ two_content (two_fresh ca cb) false = cb
  /\ two_content (two_swap (two_fresh ca cb)) true <> cb
  /\ two_content (two_swap (two_fresh ca cb)) true = ca
  /\ ptr_a (two_swap (two_fresh ca cb)) = false.
Proof.
  intros ca cb L N. cbn. rewrite !firstn_all, <- L, firstn_all. auto.
Qed.

(** Both allocators, a fixed array of four: the block spills to the heap and
    comes back; resize keeps the prefix, CleanGrow zero-fills, t += t doubles. *)
Example C60_example :
  let ops := [Assign [1; 2; 3]; Append [4]; AppendSelf; Resize 3; CleanGrow 5; Write 4 9; Resize 2; Grow 2]%Z in
  let go fixed arr :=
    match construct fixed (fun i j => Z.of_nat (100 + j)) (fun _ _ => true) arr 2 with
    | Done s0 => match run fixed (fun i j => Z.of_nat (100 + j)) (fun _ _ => true) s0 ops with
                 | Done s => content fixed s | _ => None end
    | _ => None end in
  go None [] = Some [1; 2]%Z /\ go (Some 4) [0; 0; 0; 0]%Z = Some [1; 2]%Z
  /\ ~ preserving (New 3) /\ preserving (Resize 3)
  /\ exists s s', run None (fun _ _ => 0%Z) (fun i _ => i <? 1) (mkst [] [] false PNull 0 None [])
         [Assign [5; 6]%Z] = Done s
       /\ step None (fun _ _ => 0%Z) (fun i _ => i <? 1) s (Resize 9) = Exn s' /\ content None s' = Some [5; 6]%Z.
Proof.
  split; [reflexivity|]. split; [reflexivity|]. split; [intros []|]. split; [exact I|].
  eexists. eexists. vm_compute. auto.
Qed.

Print Assumptions C60_content.
Print Assumptions C60_no_crash.
Print Assumptions C60_after_exception.
Print Assumptions C60_destructor.
Print Assumptions C60_mark_leaves_elements.
Print Assumptions C60_new_exception_refuted.
Print Assumptions C60_swap_refuted.
