(** C06-C09: ByteQueue and MessageQueue. *)
From Coq Require Import ZArith List Lia Bool Arith.
From Verif Require Import Base QueueModel QueueSpec QueueProofs.
Import ListNotations.
Local Open Scope Z_scope.

(** C06: whatever the node sizes and whatever is done to two queues (put, lazy put, undo, put space,
    get, non-blocking transfer to a target that may block, unget, clear, assignment, swap, ...), every
    answer is the answer of a plain byte string. *)
Theorem C06_bytequeue_is_fifo : forall nodeSize1 nodeSize2 ops, Forall ok_pop ops ->
  spec_run (empty_aqueue, empty_aqueue) ops (p_run (q_new nodeSize1, q_new nodeSize2) ops).
Proof.
  intros n1 n2 ops H. destruct (q_new_inv n1) as [A1 B1], (q_new_inv n2) as [A2 B2].
  pose proof (p_run_spec ops (q_new n1, q_new n2) A1 A2 H) as G. cbn [fst snd] in G.
  rewrite B1, B2 in G. exact G.
Qed.

Example C06_case : exists ops, Forall ok_pop ops /\ (7 <= length ops)%nat /\
  p_run (q_new 2, q_new 3) ops =
  [RUnit; RUnit; RBytes [1; 2; 3] 3; RUnit; RUnit; RBytes [9; 4; 5; 6] 4; RBytes [7] 1; RInvalidArgument].
Proof.
  exists [P1 (QPut [1; 2; 3; 4; 5]); P1 (QLazyPut false [6; 7]); P1 (QGet 3); P1 (QUnget [9]); PSwap;
          P2 (QGet 4); P2 (QPeek 10); P2 (QUndoLazyPut 2)].
  split; [|split; [simpl; lia|vm_compute; reflexivity]].
  repeat constructor; unfold ok_pop, ok_qop, lword; try lia; auto.
Qed.

(** The node size cannot be observed through operations other than Spy, CreatePutSpace and a blocked
    non-blocking transfer. *)
Theorem C06_node_size_unobservable : forall a b c d ops, Forall ok_pop ops -> Forall det_pop ops ->
  p_run (q_new a, q_new b) ops = p_run (q_new c, q_new d) ops.
Proof.
  intros. eapply spec_run_det; eauto; apply C06_bytequeue_is_fifo; auto.
Qed.

Example C06_node_size_case : p_run (q_new 1, q_new 0) [P1 (QPut [1; 2; 3]); P1 (QGet 2)]
  = p_run (q_new 100, q_new 7) [P1 (QPut [1; 2; 3]); P1 (QGet 2)].
Proof.
  apply C06_node_size_unobservable; repeat constructor; unfold ok_pop, ok_qop, lword; auto; lia.
Qed.

(** The excluded operation: re-initialising an automatically sized queue with NodeSize 0 makes the next
    Put that does not fit in the current node loop for ever, however long one waits. *)
Theorem C06_nodesize_zero_refuted :
  (forall fuel len, (0 < len)%nat -> grow fuel 0 len = None) /\
  forall d, (256 < length d)%nat ->
    let q := q_init (Some 0%nat) (q_new 0) in
    snd (q_step q (QPut d)) = RDiverges.
Proof.
  assert (G : forall fuel len, (0 < len)%nat -> grow fuel 0 len = None).
  { induction fuel; intros; auto. cbn [grow Nat.mul]. destruct (Nat.ltb_spec 0 len); [|lia].
    replace (Nat.ltb 0 maxAutoNodeSize) with true. cbn [andb]. apply IHfuel; auto.
    symmetry. apply Nat.ltb_lt. unfold maxAutoNodeSize. apply Nat.neq_0_lt_0. apply Nat.pow_nonzero. lia. }
  split; auto. intros d Hd q. cbn [q_step]. unfold q_put.
  assert (Hq : qnodes q = [node_clear (node_new 256)]) by reflexivity.
  change (q_finalize q) with (Some q). cbv iota beta. unfold put_raw. rewrite Hq.
  change (qnsize q) with 0%nat. change (qauto q) with true.
  cbn [put_loop last]. unfold node_put, node_max, node_clear, node_new. cbn [nbuf ntl nhd].
  rewrite repeat_length, Nat.sub_0_r. rewrite Nat.min_r by lia.
  destruct (Nat.ltb_spec 256 (length d)); [|lia].
  replace (Nat.ltb 0 maxAutoNodeSize) with true.
  2:{ symmetry. apply Nat.ltb_lt. unfold maxAutoNodeSize. apply Nat.neq_0_lt_0. apply Nat.pow_nonzero. lia. }
  cbn [andb]. rewrite G. reflexivity. rewrite skipn_length. lia.
Qed.

(** C07: in every reachable queue, all observers describe the string that a full Get would return. *)
Theorem C07_observers_agree : forall nodeSize ops, Forall ok_qop ops ->
  let q := q_exec (q_new nodeSize) ops in
  let s := drained q in
  q_size q = Z.of_nat (length s) /\
  q_isempty q = Nat.eqb (length s) 0 /\
  q_peekbyte q = hd_error s /\
  (forall n, lword n -> q_peek q n = firstn (Z.to_nat n) s) /\
  (forall i, 0 <= i -> q_at q i = nth_error s (Z.to_nat i)) /\
  (forall p n, lword p -> lword n ->
     q_copyrange q p n = (let o := firstn (Z.to_nat n) (skipn (Z.to_nat p) s) in (o, Z.of_nat (length o)))) /\
  (exists k, q_spy q = firstn k s /\ (s <> [] -> (0 < k)%nat)).
Proof.
  intros ns ops Hok q s. assert (H : qinv q) by (apply q_exec_inv; auto; apply q_new_inv).
  subst s. rewrite drained_content by auto.
  split; [apply q_size_spec; auto|]. split; [apply q_isempty_spec; auto|]. split; [apply q_peekbyte_spec; auto|].
  split. { intros. unfold q_peek. rewrite q_copyrange_spec; auto. unfold lword; lia. }
  split. { intros. apply q_at_spec; auto. }
  split. { intros. rewrite q_copyrange_spec by auto. reflexivity. }
  destruct (q_spy_spec q H) as (n & N1 & N2 & N3). exists (Z.to_nat n). split; auto. intros X. specialize (N3 X). lia.
Qed.

Theorem C07_equality_decides : forall n1 n2 ops1 ops2, Forall ok_qop ops1 -> Forall ok_qop ops2 ->
  let a := q_exec (q_new n1) ops1 in let b := q_exec (q_new n2) ops2 in
  exists e, q_eq a b = Some e /\ (e = true <-> drained a = drained b).
Proof.
  intros. assert (qinv a) by (apply q_exec_inv; auto; apply q_new_inv).
  assert (qinv b) by (apply q_exec_inv; auto; apply q_new_inv).
  rewrite !drained_content by auto. apply q_eq_spec; auto.
Qed.

Example C07_case : let q := q_exec (q_new 3) [QPut [1; 2; 3; 4; 5]; QGet 2; QLazyPut true [6]] in
  drained q = [3; 4; 5; 6] /\ q_at q 3 = Some 6 /\ q_eq q (q_exec (q_new 1) [QPut [3; 4; 5; 6]]) = Some true.
Proof. vm_compute. auto. Qed.

(** A walker visits the content in order, and reports its position, as long as there are no lazy
    bytes ... *)
Theorem C07_walker_reads_content : forall nodeSize ops n, Forall ok_qop ops -> 0 <= n ->
  let q := q_exec (q_new nodeSize) ops in
  let '(w, out, tb) := w_transfer (w_new q) n None in
  out = firstn (Z.to_nat n) (drained q) /\ tb = Z.of_nat (length out).
Proof.
  intros ns ops n Hok Hn q. assert (H : qinv q) by (apply q_exec_inv; auto; apply q_new_inv).
  destruct (w_transfer (w_new q) n None) as [[w out] tb] eqn:E.
  destruct (w_transfer_spec _ _ _ _ _ _ (w_new_inv q H) Hn E) as (t & T1 & T2 & T3 & T4 & T5 & T6).
  rewrite drained_content by auto. rewrite T6 in T2 by auto. auto.
Qed.
(** ... but its MaxRetrievable is wrong once it has read lazy bytes: it is not the number of bytes that
    remain to be read. *)
Theorem C07_walker_max_retrievable_refuted :
  exists q w out tb, q = q_exec (q_new 0) [QPut [1]; QLazyPut false [2; 3]] /\
    w_transfer (w_new q) 3 None = (w, out, tb) /\ out = [1; 2; 3] /\
    w_maxretrievable w = 2 /\ snd (fst (w_transfer w 10 None)) = [].
Proof.
  set (q := q_exec (q_new 0) [QPut [1]; QLazyPut false [2; 3]]).
  exists q. destruct (w_transfer (w_new q) 3 None) as [[w out] tb] eqn:E.
  exists w, out, tb. vm_compute in E. inversion E; subst. repeat split; vm_compute; reflexivity.
Qed.

(** C08: every answer of a message queue is that of a list of messages. *)
Theorem C08_message_boundaries : forall nodeSize ops, Forall ok_mop ops ->
  spec_mrun (mkAM [] []) ops (m_run (mq_new nodeSize) ops).
Proof. intros. apply m_run_spec; auto. apply mq_new_abs. Qed.

Example C08_case :
  m_run (mq_new 2) [MPut [1; 2; 3] true; MPut [4] false; MGet 5; MGet 5; MNext; MGet 5; MCount]
  = [MUnit; MUnit; MBytes [1; 2; 3] 3; MBytes [] 0; MBool true; MBytes [4] 1; MNum 0].
Proof. vm_compute. reflexivity. Qed.

(** The restriction in [ok_mop] on CopyRangeTo matters: CopyRangeTo(target, 1) with the default limit
    copies bytes of the next message. *)
Theorem C08_copyrange_default_limit_refuted :
  let m := m_exec (mq_new 0) [MPut [1; 2] true; MPut [3; 4] true] in
  mq_maxretrievable m = 2 /\ mq_copyrange m 1 LWORD_MAX = ([2; 3; 4], 3).
Proof. vm_compute. auto. Qed.

(** C09. The number of messages of the current series should go down when a message is consumed; it
    never does: *)
Theorem C09_series_count_refuted :
  exists ops, let m := m_exec (mq_new 0) ops in
    (* both messages of the first series have been consumed, none is left anywhere *)
    mq_nmessages m = 0 /\ mq_totalbytes m = 0 /\
    mq_nmessages_series m = 2 /\ mq_nseries m = 1.
Proof.
  exists [MPut [1] true; MPut [2] true; MSeriesEnd; MGet 1; MNext; MGet 1; MNext].
  vm_compute. auto.
Qed.

(** What the counters do compute: the messages ever completed in the first series and the number of
    series ends, regardless of what has been consumed. *)
Theorem C09_series_counts_partial : forall nodeSize ops, Forall ok_mop ops -> nonempty_series false ops ->
  let m := m_exec (mq_new nodeSize) ops in
  mq_nseries m = series_ends ops /\ mq_nmessages_series m = first_series ops.
Proof.
  intros ns ops Hok Hne m.
  destruct (counts_run ops (mq_new ns) _ false (mq_new_abs ns)) as [A B]; auto.
  repeat split; try discriminate; repeat constructor; try lia; cbn; intros; try lia; try discriminate.
Qed.

Example C09_counts_case : Forall ok_mop [MPut [1] true; MSeriesEnd; MGet 1; MNext] /\
  nonempty_series false [MPut [1] true; MSeriesEnd; MGet 1; MNext].
Proof. split; [repeat constructor; unfold ok_mop, lword; auto; lia | cbn; auto]. Qed.

(** swap leaves the series counters behind. *)
Theorem C09_swap_refuted :
  exists opsA opsB, let a := m_exec (mq_new 0) opsA in let b := m_exec (mq_new 0) opsB in
    let '(a', b') := mq_swap a b in
    mq_nseries a' <> mq_nseries b /\ mq_nmessages_series a' <> mq_nmessages_series b.
Proof. exists [MPut [1] true; MSeriesEnd], []. vm_compute. split; discriminate. Qed.

(** swap does exchange the messages, the unread bytes and the lengths. *)
Theorem C09_swap_messages_partial : forall n1 n2 ops1 ops2 ops, Forall ok_mop ops1 -> Forall ok_mop ops2 ->
  let a := m_exec (mq_new n1) ops1 in let b := m_exec (mq_new n2) ops2 in
  Forall (fun op => ok_mop op /\ op <> MSeriesCount /\ op <> MInSeries) ops ->
  m_run (fst (mq_swap a b)) ops = m_run b ops /\ m_run (snd (mq_swap a b)) ops = m_run a ops.
Proof.
  assert (G : forall ops q l c1 c2, Forall (fun op => ok_mop op /\ op <> MSeriesCount /\ op <> MInSeries) ops ->
     m_run (mkMQ q l c1) ops = m_run (mkMQ q l c2) ops).
  { induction ops as [|op ops IH]; intros q l c1 c2 H; auto. inversion H as [|? ? (H1 & H2 & H3) H4]; subst.
    cbn [m_run]. destruct op; cbn [m_step]; try congruence.
    - unfold mq_put. cbn [mq_q mq_lengths mq_counts]. destruct (q_put q d); [|f_equal; auto].
      destruct messageEnd; f_equal; auto.
    - f_equal. apply IH; auto.
    - f_equal.
    - unfold mq_transfer, mq_maxretrievable. cbn [mq_q mq_lengths mq_counts].
      destruct (q_transfer q (Z.min (front l) n)) as [[q1 o] tb]. f_equal. auto.
    - unfold mq_next, mq_nmessages, mq_anyretrievable. cbn [mq_q mq_lengths mq_counts].
      destruct ((0 <? Z.of_nat (length l) - 1) && negb (0 <? front l)); f_equal; auto.
    - f_equal; auto. 
    - f_equal; auto.
    - f_equal; auto.
    - change (mq_copyrange (mkMQ q l c1) position copyMax) with (mq_copyrange (mkMQ q l c2) position copyMax).
      destruct (mq_copyrange (mkMQ q l c2) position copyMax). f_equal. auto.
    - f_equal; auto.
    - f_equal; auto. }
  intros n1 n2 ops1 ops2 ops H1 H2 a b H. destruct a, b. split; apply G; auto.
Qed.

Example C09_swap_case : let a := m_exec (mq_new 0) [MPut [1] true] in let b := m_exec (mq_new 0) [MPut [2] false] in
  m_run (fst (mq_swap a b)) [MGet 1; MCount] = [MBytes [2] 1; MNum 0].
Proof. vm_compute. reflexivity. Qed.

Print Assumptions C06_bytequeue_is_fifo.
Print Assumptions C06_node_size_unobservable.
Print Assumptions C06_nodesize_zero_refuted.
Print Assumptions C07_observers_agree.
Print Assumptions C07_equality_decides.
Print Assumptions C08_message_boundaries.
Print Assumptions C09_series_counts_partial.
Print Assumptions C09_swap_messages_partial.
