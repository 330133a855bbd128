(** C103: the encoding of ECP points. *)
From Coq Require Import ZArith Znumtheory List Bool Lia.
From Verif Require Import Base EcCodecModel EcCodecSpec EcCodecProofs.
Import ListNotations.
Open Scope Z_scope.

(** For the examples, the integers modulo 7 and the curve y^2 = x^3 + x + 5 with the points (1, 0) and (2, 1). *)
Definition jac7 (v : Z) : Z := if v =? 0 then 0 else if (v =? 1) || (v =? 2) || (v =? 4) then 1 else -1.
Definition sqrt7 (v : Z) : Z := if v =? 1 then 1 else if v =? 2 then 4 else if v =? 4 then 2 else 0.
Lemma prime7 : prime 7.
Proof.
  apply prime_intro; [lia|]. intros n H. assert (C : n = 1 \/ n = 2 \/ n = 3 \/ n = 4 \/ n = 5 \/ n = 6) by lia. apply Zgcd_1_rel_prime.
  destruct C as [->|[->|[->|[->|[->| ->]]]]]; reflexivity.
Qed.
Lemma roots7 : roots_ok 7 jac7 sqrt7.
Proof.
  assert (SQ : forall r, (r * r) mod 7 = 0 \/ (r * r) mod 7 = 1 \/ (r * r) mod 7 = 2 \/ (r * r) mod 7 = 4).
  { intros r. rewrite Z.mul_mod by lia. pose proof (Z.mod_pos_bound r 7 ltac:(lia)) as B. assert (C : r mod 7 = 0 \/ r mod 7 = 1 \/ r mod 7 = 2 \/ r mod 7 = 3 \/ r mod 7 = 4 \/ r mod 7 = 5 \/ r mod 7 = 6) by lia.
    destruct C as [->|[->|[->|[->|[->|[->| ->]]]]]]; vm_compute; auto. }
  split; intros v V.
  - split.
    + intros J. assert (C : v = 1 \/ v = 2 \/ v = 4). { unfold jac7 in J. destruct (v =? 0); [discriminate|]. destruct ((v =? 1) || (v =? 2) || (v =? 4)) eqn:E; [|discriminate]. rewrite !orb_true_iff, !Z.eqb_eq in E. lia. }
      split; [lia|]. destruct C as [->|[->| ->]]; [exists 1|exists 4|exists 2]; reflexivity.
    + intros [N [r E]]. destruct (SQ r) as [H|[H|[H|H]]]; rewrite E in H; rewrite H in *; try reflexivity; lia.
  - intros [r E]. destruct (SQ r) as [H|[H|[H|H]]]; rewrite E in H; rewrite H; cbn; split; (lia || reflexivity).
Qed.

(** A point of the curve encoded without compression, and infinity in either form, is decoded again; so is every other point
    in compressed form, unless its y is 0.  The length is EncodedPointSize.  (For points with y = 0 see below.) *)
Theorem C103_round_trip_partial : forall p a b len jacobi msqrt is_prime compressed P,
  prime p -> p mod 2 = 1 -> p <= 256 ^ Z.of_nat len -> roots_ok p jacobi msqrt -> curve_point p a b P ->
  (compressed = true -> is_prime = true /\ forall x, P <> Some (x, 0)) ->
  length (encode_point len compressed P) = (if compressed then 1 + len else 1 + 2 * len)%nat /\
  decode_point p a b len jacobi msqrt is_prime (encode_point len compressed P) = Some P.
Proof.
  intros p a b len jacobi msqrt ip c P Pp Po Pl R C H. split; [|apply decode_encode; auto]. rewrite encode_len. unfold enc_size. destruct c; lia.
Qed.
Example C103_round_trip_partial_case : curve_point 7 1 5 (Some (2, 6)) /\ encode_point 1 true (Some (2, 6)) = [2; 2] /\ encode_point 1 true (Some (2, 1)) = [3; 2] /\
  decode_point 7 1 5 1 jac7 sqrt7 true [2; 2] = Some (Some (2, 6)) /\ decode_point 7 1 5 1 jac7 sqrt7 true [4; 2; 6] = Some (Some (2, 6)).
Proof. repeat split; cbn; lia. Qed.

(** A point with y = 0 is on the curve and VerifyPoint accepts it, but its compressed encoding is never decoded. *)
Theorem C103_round_trip_refuted : forall p a b len jacobi msqrt is_prime x,
  prime p -> p mod 2 = 1 -> p <= 256 ^ Z.of_nat len -> roots_ok p jacobi msqrt -> curve_point p a b (Some (x, 0)) ->
  verify_point p a b (Some (x, 0)) = true /\ decode_point p a b len jacobi msqrt is_prime (encode_point len true (Some (x, 0))) = None.
Proof. intros p a b len jacobi msqrt ip x Pp Po Pl R C. split; [apply verify_spec; auto|apply decode_zero; auto]. Qed.
Example C103_round_trip_refuted_case : curve_point 7 1 5 (Some (1, 0)) /\ 7 <= 256 ^ Z.of_nat 1 /\ 7 mod 2 = 1.
Proof. repeat split; cbn; lia. Qed.

(** What is decoded from a compressed encoding satisfies the equation of the curve modulo p, and y is reduced and has the
    parity asked for; x is the number encoded. *)
Theorem C103_decode_compressed : forall p a b len jacobi msqrt is_prime t r x y,
  prime p -> p mod 2 = 1 -> roots_ok p jacobi msqrt -> t <> 4 -> decode_point p a b len jacobi msqrt is_prime (t :: r) = Some (Some (x, y)) ->
  0 <= y < p /\ (y * y) mod p = (x * x * x + a * x + b) mod p /\ y mod 2 = t mod 2 /\ (t = 2 \/ t = 3) /\ length r = len /\ x = be_val r.
Proof. intros p a b len jacobi msqrt ip t r x y Pp Po R. apply decode_sound; auto. Qed.
(** But x need not be reduced: (9, 1) is decoded modulo 7, and VerifyPoint refuses it. *)
Theorem C103_decode_range_refuted : exists l P, decode_point 7 1 5 1 jac7 sqrt7 true l = Some P /\ verify_point 7 1 5 P = false.
Proof. exists [3; 9], (Some (9, 1)). split; reflexivity. Qed.
Example C103_decode_compressed_case : decode_point 7 1 5 1 jac7 sqrt7 true [3; 9] = Some (Some (9, 1)) /\ decode_point 7 1 5 1 jac7 sqrt7 true [2; 0] = None.
Proof. split; reflexivity. Qed.

(** VerifyPoint accepts exactly the points of the curve with reduced coordinates. *)
Theorem C103_verify : forall p a b P, prime p -> (verify_point p a b P = true <-> curve_point p a b P).
Proof. intros. apply (verify_spec p a b 0%nat); auto. Qed.
Example C103_verify_case : verify_point 7 1 5 (Some (2, 1)) = true /\ verify_point 7 1 5 (Some (2, 2)) = false /\ verify_point 7 1 5 (Some (2, 8)) = false.
Proof. repeat split. Qed.

Print Assumptions C103_round_trip_partial.
Print Assumptions C103_round_trip_refuted.
Print Assumptions C103_decode_compressed.
Print Assumptions C103_decode_range_refuted.
Print Assumptions C103_verify.
