(** WindowProperties: C63, the Inflator's window. *)
From Coq Require Import ZArith List Arith Lia Bool.
From Verif Require Import Base WindowModel WindowSpec WindowProofs.
Import ListNotations.

(** C63. For every window size, whatever was in the window's memory before,
    and for every sequence of literals, stored bytes, back references and
    flushes with references of at most one byte more than the window: no
    access leaves the window; an exception is thrown exactly when some
    reference goes back further than the output so far or than the window;
    otherwise the bytes handed out, with those a flush would add, are the
    output in the sense of RFC 1951. *)
Theorem C63_window : forall init l,
  (0 < length init) ->
  Forall (wop_ok (length init + 1)) l ->
  match wrun (win_new init) l with
  | Ok w => exists pending,
      hist (length init) [] l = Some (wsent w ++ pending)
      /\ wsent (flush_output w) = wsent w ++ pending
  | Throw => hist (length init) [] l = None
  | Oob => False
  end.
Proof.
  intros init l H HF.
  pose proof (wrun_rel (length init) l (win_new init) [] H (rel_new init H) HF) as R.
  destruct (hist (length init) [] l) as [h|].
  - destruct R as (w & E & R). rewrite E.
    destruct (flush_rel _ w h H R) as [_ F].
    exists (firstn (wcur w - wflush w) (skipn (wflush w) (wbuf w))).
    split; [|reflexivity]. f_equal. symmetry. exact F.
  - rewrite R. reflexivity.
Qed.

(** Deflate's references have at most 258 bytes, and the windows of Inflator,
    Gunzip and ZlibDecompressor have 2^k bytes, k at least 8
    (zinflate.h:120, zlib.cpp:79): the theorem covers all of them but the
    smallest one. *)
Corollary C63_deflate_windows : forall init l k,
  9 <= k -> length init = 2 ^ k ->
  Forall (wop_ok 258) l ->
  wrun (win_new init) l <> Oob
  /\ (wrun (win_new init) l = Throw <-> hist (length init) [] l = None).
Proof.
  intros init l k Hk HL HF.
  assert (H2 : 512 <= length init).
  { rewrite HL. replace 512 with (2 ^ 9) by reflexivity. apply Nat.pow_le_mono_r; lia. }
  pose proof (C63_window init l ltac:(lia)) as W.
  assert (HF' : Forall (wop_ok (length init + 1)) l).
  { eapply Forall_impl; [|exact HF]. intros [| | |] A; cbn in *; auto; lia. }
  specialize (W HF').
  destruct (wrun (win_new init) l) as [w| |].
  - destruct W as (p & E & _). rewrite E. split; [congruence|]. split; congruence.
  - rewrite W. split; [congruence|]. split; auto.
  - contradiction.
Qed.

(** The hypotheses are met, by requests that wrap around, overlap and refer to
    the far end of the window. *)
Example C63_window_example :
  wrun (win_new (repeat 99%Z 8))
    [OpString [1; 2; 3; 4; 5]%Z; OpPast 6 2; OpByte 7%Z; OpFlush; OpPast 9 8]
  = Ok (mkwin [5; 4; 5; 7; 5; 4; 5; 4]%Z 5 0 true
          [1; 2; 3; 4; 5; 4; 5; 4; 5; 4; 5; 7; 5; 4; 5; 4]%Z)
  /\ hist 8 [] [OpString [1; 2; 3; 4; 5]%Z; OpPast 6 2; OpByte 7%Z; OpFlush; OpPast 9 8]
     = Some ([1; 2; 3; 4; 5; 4; 5; 4; 5; 4; 5; 7; 5; 4; 5; 4]%Z ++ [5; 4; 5; 7; 5]%Z)
  /\ wrun (win_new (repeat 99%Z 8)) [OpByte 1%Z; OpPast 3 2] = Throw
  /\ wrun (win_new (repeat 99%Z 8)) [OpString (repeat 1%Z 20); OpPast 3 9] = Throw.
Proof. vm_compute. repeat split. Qed.

(** The smallest window a zlib header can ask for has 256 bytes
    (zlib.cpp:79, with the four bits 0).  A reference of 258 bytes then makes
    OutputPast read the byte behind the window: here after 256 literals and
    with distance 1. *)
Theorem C63_window_256_refuted :
  exists l, Forall (wop_ok 258) l
    /\ wrun (win_new (repeat 0%Z 256)) l = Oob
    /\ hist 256 [] l <> None.
Proof.
  exists [OpString (repeat 0%Z 256); OpPast 258 1]. split; [|split].
  - repeat constructor.
  - vm_compute. reflexivity.
  - vm_compute. discriminate.
Qed.

Print Assumptions C63_window.
Print Assumptions C63_deflate_windows.
Print Assumptions C63_window_256_refuted.
