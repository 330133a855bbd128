(** Proofs about the encoding of ECP points. *)
From Coq Require Import ZArith Znumtheory List Bool Lia.
From Verif Require Import Base EcCodecModel EcCodecSpec.
Import ListNotations.
Open Scope Z_scope.

Section EcC.
Variables (p a b : Z) (len : nat) (jacobi msqrt : Z -> Z).
Hypothesis Pp : prime p.
Hypothesis Po : p mod 2 = 1.
Hypothesis Pl : p <= 256 ^ Z.of_nat len.
Hypothesis R : roots_ok p jacobi msqrt.

Lemma p_pos : 1 < p. Proof. destruct Pp. auto. Qed.
Lemma rhs_eq x : (x * x + a) * x + b = x * x * x + a * x + b. Proof. ring. Qed.
Lemma same_square v y : 0 <= v < p -> 0 <= y < p -> (v * v) mod p = (y * y) mod p -> v = y \/ v + y = p \/ (v = 0 /\ y = 0).
Proof.
  intros V Y E. pose proof p_pos. assert (D : (p | (v - y) * (v + y))). { exists ((v * v) / p - (y * y) / p). pose proof (Z.div_mod (v * v) p ltac:(lia)). pose proof (Z.div_mod (y * y) p ltac:(lia)). nia. }
  apply prime_mult in D; auto. destruct D as [[k K]|[k K]]; [left; assert (k = 0) by nia; nia|]. assert (k = 0 \/ k = 1) as [->| ->] by nia; [right; right|right; left]; lia.
Qed.
Lemma type_bit y : Z.land (2 + y mod 2) 1 = y mod 2.
Proof. change 1 with (Z.ones 1). rewrite Z.land_ones by lia. change (2 ^ 1) with 2. replace (2 + y mod 2) with (y mod 2 + 1 * 2) by lia. rewrite Z.mod_add, Z.mod_mod by lia. reflexivity. Qed.
Lemma firstn_be n x r : firstn n (be_bytes n x ++ r) = be_bytes n x.
Proof. rewrite firstn_app, be_bytes_length, Nat.sub_diag, firstn_O, app_nil_r. apply firstn_all2. rewrite be_bytes_length. lia. Qed.
Lemma skipn_be n x r : skipn n (be_bytes n x ++ r) = r.
Proof. rewrite skipn_app, be_bytes_length, Nat.sub_diag. rewrite skipn_all2 by (rewrite be_bytes_length; lia). reflexivity. Qed.
Lemma be_in x : 0 <= x < p -> be_val (be_bytes len x) = x. Proof. intros. apply be_val_be_bytes. lia. Qed.

Lemma encode_len c P : length (encode_point len c P) = enc_size len c.
Proof. unfold encode_point, enc_size. destruct P as [[x y]|]; [destruct c; cbn [length]; rewrite ?app_length, !be_bytes_length; lia|apply repeat_length]. Qed.
Lemma decode_encode ip c P : curve_point p a b P -> (c = true -> ip = true /\ forall x, P <> Some (x, 0)) ->
  decode_point p a b len jacobi msqrt ip (encode_point len c P) = Some P.
Proof.
  intros C H. pose proof (encode_len c P) as L. pose proof p_pos. unfold decode_point. destruct P as [[x y]|]; [|destruct c; reflexivity]. destruct C as (X & Y & E). unfold encode_point in *. destruct c.
  - destruct (H eq_refl) as [-> NZ]. rewrite L. rewrite Nat.eqb_refl. cbn [negb]. assert (M : y mod 2 = 0 \/ y mod 2 = 1) by (pose proof (Z.mod_pos_bound y 2 ltac:(lia)); lia).
    assert (T : (2 + y mod 2 =? 0) = false /\ ((2 + y mod 2 =? 2) || (2 + y mod 2 =? 3)) = true). { destruct M as [-> | ->]; split; reflexivity. } destruct T as [-> ->].
    rewrite <- (app_nil_r (be_bytes len x)), firstn_be, be_in, rhs_eq, <- E, type_bit by auto. assert (Y0 : y <> 0) by (intros ->; apply (NZ x); auto).
    assert (V : 0 <= (y * y) mod p < p) by (apply Z.mod_pos_bound; lia). destruct R as [RJ RS]. assert (J : jacobi ((y * y) mod p) = 1). { apply RJ; auto. split; [|eauto]. intros Z0. destruct (same_square 0 y) as [Q|[Q|Q]]; try lia. rewrite Z0. reflexivity. }
    rewrite J. cbn [Z.eqb Pos.eqb negb]. destruct (RS ((y * y) mod p) V ltac:(eauto)) as [S1 S2]. set (s := msqrt _) in *. do 3 f_equal.
    destruct (same_square s y S1 Y S2) as [Q|[Q|Q]]; [rewrite Q, Z.eqb_refl; reflexivity| |lia].
    replace (y mod 2 =? s mod 2) with false; [cbn [negb]; lia|]. symmetry. apply Z.eqb_neq. intros Q'. assert (p mod 2 = 0); [|lia]. rewrite <- Q, Z.add_mod, <- Q' by lia. destruct M as [-> | ->]; reflexivity.
  - change (4 =? 0) with false. change ((4 =? 2) || (4 =? 3)) with false. change (4 =? 4) with true. cbv iota. rewrite L, Nat.eqb_refl. cbn [negb]. rewrite firstn_be, skipn_be. rewrite <- (app_nil_r (be_bytes len y)), firstn_be, !be_in by auto. reflexivity.
Qed.
Lemma decode_zero ip x : curve_point p a b (Some (x, 0)) -> decode_point p a b len jacobi msqrt ip (encode_point len true (Some (x, 0))) = None.
Proof.
  intros (X & Y & E). pose proof (encode_len true (Some (x, 0))) as L. pose proof p_pos. unfold decode_point, encode_point in *. rewrite L, Nat.eqb_refl. change (2 + 0 mod 2) with 2. cbn [Z.eqb Pos.eqb orb negb]. destruct ip; [|reflexivity]. cbn [negb].
  rewrite <- (app_nil_r (be_bytes len x)), firstn_be, be_in, rhs_eq, <- E by auto. change (0 * 0) with 0. rewrite Z.mod_0_l by lia. destruct (jacobi 0 =? 1) eqn:J; [|reflexivity]. apply Z.eqb_eq in J. destruct R as [RJ _]. apply RJ in J; [|lia]. tauto.
Qed.
Lemma decode_sound ip t r x y : t <> 4 -> decode_point p a b len jacobi msqrt ip (t :: r) = Some (Some (x, y)) ->
  0 <= y < p /\ (y * y) mod p = (x * x * x + a * x + b) mod p /\ y mod 2 = t mod 2 /\ (t = 2 \/ t = 3) /\ length r = len /\ x = be_val r.
Proof.
  intros T. pose proof p_pos. unfold decode_point. destruct (t =? 0); [discriminate|]. destruct ((t =? 2) || (t =? 3)) eqn:T2; [|replace (t =? 4) with false by (symmetry; apply Z.eqb_neq; auto); discriminate].
  destruct (length (t :: r) =? enc_size len true)%nat eqn:L; [|discriminate]. cbn [negb]. apply Nat.eqb_eq in L. unfold enc_size in L. cbn [length] in L. destruct ip; [|discriminate]. cbn [negb]. rewrite firstn_all2 by lia. set (u := be_val r). rewrite rhs_eq.
  set (v := (u * u * u + a * u + b) mod p). assert (V : 0 <= v < p) by (apply Z.mod_pos_bound; lia). destruct (jacobi v =? 1) eqn:J; [|discriminate]. cbn [negb]. apply Z.eqb_eq in J. destruct R as [RJ RS]. apply RJ in J; auto. destruct J as [V0 J]. destruct (RS v V J) as [S1 S2]. set (s := msqrt v) in *.
  assert (s <> 0) by (intros Q; rewrite Q in S2; change (0 * 0) with 0 in S2; rewrite Z.mod_0_l in S2; lia). intros E. injection E as <- <-. apply orb_true_iff in T2. rewrite !Z.eqb_eq in T2.
  assert (TL : Z.land t 1 = t mod 2). { change 1 with (Z.ones 1). rewrite Z.land_ones by lia. reflexivity. } rewrite TL. pose proof (Z.mod_pos_bound t 2 ltac:(lia)). pose proof (Z.mod_pos_bound s 2 ltac:(lia)).
  destruct (t mod 2 =? s mod 2) eqn:B; cbn [negb].
  - apply Z.eqb_eq in B. repeat split; auto; lia.
  - apply Z.eqb_neq in B. split; [lia|]. split. { fold v. rewrite <- S2. replace ((p - s) * (p - s)) with (s * s + (p - 2 * s) * p) by ring. apply Z.mod_add. lia. } split; [|repeat split; auto; lia].
    rewrite Zminus_mod, Po. assert (C : s mod 2 = 0 /\ t mod 2 = 1 \/ s mod 2 = 1 /\ t mod 2 = 0) by lia. destruct C as [[-> ->]|[-> ->]]; reflexivity.
Qed.
Lemma verify_spec P : verify_point p a b P = true <-> curve_point p a b P.
Proof.
  pose proof p_pos. destruct P as [[x y]|]; [|cbn; tauto]. cbn [verify_point curve_point]. rewrite !andb_true_iff, !negb_true_iff, !Z.ltb_ge, !Z.ltb_lt, Z.eqb_eq, Z.rem_divide, rhs_eq by lia.
  assert (E : (p | x * x * x + a * x + b - y * y) <-> (y * y) mod p = (x * x * x + a * x + b) mod p).
  { split; intros D. - destruct D as [k K]. replace (x * x * x + a * x + b) with (y * y + k * p) by lia. rewrite Z.mod_add by lia. reflexivity.
    - exists ((x * x * x + a * x + b) / p - (y * y) / p). pose proof (Z.div_mod (y * y) p ltac:(lia)). pose proof (Z.div_mod (x * x * x + a * x + b) p ltac:(lia)). nia. }
  rewrite E. split; intros; repeat split; try tauto; lia.
Qed.
End EcC.
