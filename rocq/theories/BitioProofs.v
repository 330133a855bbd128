(** BitioProofs. *)
From Coq Require Import ZArith List Bool Lia.
From Verif Require Import Base BitioModel BitioSpec.
Import ListNotations.
Open Scope Z_scope.

(** * BitReverse *)
Lemma tb_stage : forall v m1 m2 s k, 0 <= s -> 0 <= k < 32 ->
  Z.testbit (Z.lor (Z.shiftr (Z.land v m1) s) (Z.shiftl (Z.land v m2) s mod 2 ^ 32)) k
  = (Z.testbit v (k + s) && Z.testbit m1 (k + s)) || (Z.testbit v (k - s) && Z.testbit m2 (k - s)).
Proof.
  intros v m1 m2 s k Hs Hk.
  rewrite Z.lor_spec, Z.shiftr_spec, Z.mod_pow2_bits_low, Z.shiftl_spec, !Z.land_spec by lia. reflexivity.
Qed.

Lemma tb_rot16 : forall v k, 0 <= k < 32 ->
  Z.testbit (Z.lor (Z.shiftl v 16 mod 2 ^ 32) (Z.shiftr v 16)) k
  = Z.testbit v (k - 16) || Z.testbit v (k + 16).
Proof.
  intros v k Hk. rewrite Z.lor_spec, Z.shiftr_spec, Z.mod_pow2_bits_low, Z.shiftl_spec by lia. reflexivity.
Qed.

Lemma stage_range : forall v m1 m2 s, 0 <= s -> 0 <= v < 2 ^ 32 -> 0 <= m1 < 2 ^ 32 ->
  0 <= Z.lor (Z.shiftr (Z.land v m1) s) (Z.shiftl (Z.land v m2) s mod 2 ^ 32) < 2 ^ 32.
Proof.
  intros v m1 m2 s Hs Hv Hm. apply lor_range; [lia| |apply Z.mod_pos_bound; reflexivity].
  pose proof (land_range 32 v m1 ltac:(lia) ltac:(lia) Hm).
  rewrite Z.shiftr_div_pow2 by lia. assert (0 < 2 ^ s) by (apply Z.pow_pos_nonneg; lia).
  split; [apply Z.div_pos; lia|]. apply Z.div_lt_upper_bound; [lia|]. nia.
Qed.

Lemma bit_reverse_range : forall v, 0 <= v < 2 ^ 32 -> 0 <= bit_reverse32 v < 2 ^ 32.
Proof.
  intros v H. unfold bit_reverse32, byte_reverse32. cbv zeta.
  apply lor_range; [lia|apply Z.mod_pos_bound; reflexivity|].
  assert (K : forall x, 0 <= x < 2 ^ 32 -> 0 <= Z.shiftr x 16 < 2 ^ 32).
  { intros x Hx. rewrite Z.shiftr_div_pow2 by lia. split; [apply Z.div_pos; lia|].
    apply Z.div_lt_upper_bound; lia. }
  apply K. repeat (apply stage_range; [lia| |lia]). exact H.
Qed.

Lemma bit_reverse_spec : forall v k, 0 <= v < 2 ^ 32 -> 0 <= k < 32 ->
  Z.testbit (bit_reverse32 v) k = Z.testbit v (31 - k).
Proof.
  intros v k Hv Hk.
  assert (Hneg : forall j, j < 0 -> Z.testbit v j = false) by (intros; apply Z.testbit_neg_r; lia).
  assert (Hbig : forall j, 32 <= j -> Z.testbit v j = false) by (intros; apply (testbit_above 32); lia).
  assert (C : exists n, (n < 32)%nat /\ k = Z.of_nat n) by (exists (Z.to_nat k); lia).
  destruct C as (n & Hn & ->). clear Hk.
  unfold bit_reverse32, byte_reverse32. cbv zeta.
  do 32 (destruct n as [|n];
    [ cbn [Z.of_nat Pos.of_succ_nat Pos.succ];
      rewrite tb_rot16 by lia; cbn [Z.add Z.sub Z.opp Z.pos_sub Pos.add Pos.succ Pos.pred_double Z.double Z.succ_double Z.pred_double];
      repeat first
        [ rewrite tb_stage by lia
        | match goal with |- context [Z.testbit (Z.lor ?a ?b) ?j] =>
            first [ rewrite (Z.testbit_neg_r (Z.lor a b) j) by lia
                  | rewrite (testbit_above 32 (Z.lor a b) j) by (first [lia | repeat (apply stage_range; [lia| |lia]); exact Hv]) ] end ];
      cbn [Z.add Z.sub Z.opp Z.pos_sub Pos.add Pos.succ Pos.pred_double Z.double Z.succ_double Z.pred_double];
      repeat match goal with |- context [Z.testbit (Zpos ?p) ?j] =>
        let b := eval vm_compute in (Z.testbit (Zpos p) j) in change (Z.testbit (Zpos p) j) with b end;
      rewrite ?andb_true_r, ?andb_false_r, ?orb_false_l, ?orb_false_r; reflexivity
    | ]).
  lia.
Qed.
