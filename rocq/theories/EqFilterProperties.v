(** Theorems about EqualityComparisonFilter. *)
From Coq Require Import ZArith List Lia Bool.
From Verif Require Import Base QueueModel QueueSpec QueueProofs EqFilterModel EqFilterSpec EqFilterProofs.
Import ListNotations.
Local Open Scope Z_scope.

(** C66.  For every interleaving of Puts, message ends and series ends on the two channels, where each
    channel carries one complete series, the filter produces exactly one output byte: 1 if the two
    channels carried the same bytes with the same message boundaries, 0 otherwise. *)
Theorem C66_equality_filter_decides : forall ns h,
  one_series false h -> one_series true h ->
  (forall ch, Z.of_nat (length (stream ch h)) < 2 ^ 64) ->
  exists s, ecf_run (ecf_new ns) h = Some s /\
    (stream false h = stream true h /\ eout s = [1] \/ stream false h <> stream true h /\ eout s = [0]).
Proof.
  intros ns h H1 H2 Hb.
  destruct (run_any h (ecf_new ns) (fun _ => [])) as (s & A & B); eauto.
  - split; [reflexivity|]. split; [reflexivity|]. exists (mkAM [] []), (mkAM [] []), false, false, [].
    pose proof (mq_new_abs ns) as Hn.
    assert (Hc : cinv (mq_new ns) (mkAM [] []) false) by (exists 0; cbn; split; [auto|lia]).
    repeat (split; [solve [auto]|]). intros [].
  - intros []; assumption.
Qed.

(** Interleaved, with different chunkings on the two channels. *)
Example C66_equal_example :
  let h := [EPut false [1;2] false; EPut true [1] false; EPut true [2;3] true; EPut false [3] true;
            EPut true [] true; ESeriesEnd true; EPut false [] true; ESeriesEnd false] in
  one_series false h /\ one_series true h /\ option_map eout (ecf_run (ecf_new 2) h) = Some [1].
Proof.
  split; [exists [[1;2;3];[]]; reflexivity|]. split; [exists [[1;2;3];[]]; reflexivity|]. vm_compute. reflexivity.
Qed.
Example C66_different_example :
  let h := [EPut false [1;2] true; EPut true [1] true; EPut true [2] true; ESeriesEnd true; ESeriesEnd false] in
  one_series false h /\ one_series true h /\ option_map eout (ecf_run (ecf_new 2) h) = Some [0].
Proof.
  split; [exists [[1;2]]; reflexivity|]. split; [exists [[1];[2]]; reflexivity|]. vm_compute. reflexivity.
Qed.

(** The filter cannot be relied on for a second series: it reports a mismatch although both channels have
    carried the same two series. *)
Theorem C66_second_series_refuted : exists h,
  stream false h = stream true h /\ option_map eout (ecf_run (ecf_new 4) h) = Some [1; 0].
Proof.
  exists [ESeriesEnd false; ESeriesEnd true; EPut true [] true; EPut false [] true; ESeriesEnd false; ESeriesEnd true].
  split; [reflexivity|]. vm_compute. reflexivity.
Qed.

(** If a channel ends its series in the middle of a message, the streams can differ and the filter still
    report that they are equal. *)
Theorem C66_unterminated_message_refuted : exists h,
  stream false h <> stream true h /\ option_map eout (ecf_run (ecf_new 4) h) = Some [1].
Proof.
  exists [ESeriesEnd true; EPut false [7] false; ESeriesEnd false].
  split; [discriminate|]. vm_compute. reflexivity.
Qed.

Print Assumptions C66_equality_filter_decides.
