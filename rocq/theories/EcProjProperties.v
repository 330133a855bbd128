(** C102: projective doubling and simultaneous inversion in ECP. *)
From Coq Require Import Field_theory Bool List.
From Verif Require Import EcModel EcSpec EcProofs EcProperties EcProjModel EcProjSpec EcProjProofs.
Import ListNotations.

(** A ProjectiveDoubling made from a point Q of the curve holds, after n calls of Double, coordinates of 2^n Q, for points of
    every order and infinity; and 2^n Q is on the curve. *)
Theorem C102_projective_doubling F f0 f1 fadd fsub fmul fdiv fopp finv fhalf (feqb : F -> F -> bool) :
  odd_field F f0 f1 fadd fsub fmul fdiv fopp finv -> (forall x y, feqb x y = true <-> x = y) -> (forall x, fadd (fhalf x) (fhalf x) = x) ->
  forall a b Q n, on_curve F fadd fmul a b (affine F Q) ->
  let d := Nat.iter n (pd_double F fadd fsub fmul fhalf) (pd_init F f0 f1 a Q) in
  exists R, doubled F fadd fsub fmul fopp a b (affine F Q) n R /\ stands_for F f0 fmul (pX d) (pY d) (pZ d) R /\ on_curve F fadd fmul a b R.
Proof.
  intros [FT N2] EQ HALF a b Q n C. destruct (doubles_inv F f0 f1 fadd fsub fmul fdiv fopp finv fhalf feqb FT N2 EQ HALF a b Q n C) as (R & D & S & O & _). exists R. auto.
Qed.
Definition f5_half (x : f5) : f5 := f5_mul x A3.
(** On y^2 = x^3 + x + 1 over five elements 2 (0, 1) = (4, 2) and 4 (0, 1) = (3, 4), held with Z = 2 and Z = 3. *)
Example C102_projective_doubling_case : (forall x, f5_add (f5_half x) (f5_half x) = x) /\
  on_curve f5 f5_add f5_mul A1 A1 (affine f5 (mkPoint false A0 A1)) /\
  (let d := Nat.iter 1 (pd_double f5 f5_add f5_sub f5_mul f5_half) (pd_init f5 A0 A1 A1 (mkPoint false A0 A1)) in
   stands_for f5 A0 f5_mul (pX d) (pY d) (pZ d) (Some (A4, A2))) /\
  (let d := Nat.iter 2 (pd_double f5 f5_add f5_sub f5_mul f5_half) (pd_init f5 A0 A1 A1 (mkPoint false A0 A1)) in
   stands_for f5 A0 f5_mul (pX d) (pY d) (pZ d) (Some (A3, A4))).
Proof. split; [intros x; destruct x; reflexivity|]. split; [reflexivity|]. split; (split; [discriminate|split; reflexivity]). Qed.
(** The point 2^n Q of the specification is only one. *)
Theorem C102_doubled_unique F f0 f1 fadd fsub fmul fdiv fopp finv (feqb : F -> F -> bool) :
  odd_field F f0 f1 fadd fsub fmul fdiv fopp finv -> (forall x y, feqb x y = true <-> x = y) ->
  forall a b P n R R', doubled F fadd fsub fmul fopp a b P n R -> doubled F fadd fsub fmul fopp a b P n R' -> R = R'.
Proof.
  intros HF EQ a b P n. induction n as [|n IH]; intros R R' H H'; inversion H; inversion H'; subst; auto.
  match goal with A : doubled _ _ _ _ _ _ _ _ n ?Q1, B : doubled _ _ _ _ _ _ _ _ n ?Q2 |- _ => pose proof (IH Q1 Q2 A B) end. subst.
  eapply (C100_sum_unique F f0 f1 fadd fsub fmul fdiv fopp finv feqb HF EQ); [eassumption|left; eassumption].
Qed.
Example C102_doubled_unique_case : exists R, doubled f5 f5_add f5_sub f5_mul f5_opp A1 A1 (Some (A0, A1)) 7 R.
Proof.
  destruct (C102_projective_doubling f5 A0 A1 f5_add f5_sub f5_mul f5_div f5_opp f5_inv f5_half f5_eqb f5_field f5_eqb_ok (proj1 C102_projective_doubling_case) A1 A1 (mkPoint false A0 A1) 7 eq_refl) as (R & D & _). exists R. exact D.
Qed.

(** ParallelInvert replaces every element of the range by its inverse, zeros by zero. *)
Theorem C102_parallel_invert F f0 f1 fadd fsub fmul fdiv fopp finv (feqb : F -> F -> bool) :
  field_theory f0 f1 fadd fmul fsub fopp fdiv finv eq -> (forall x y, feqb x y = true <-> x = y) -> finv f0 = f0 ->
  forall l, parallel_invert F f0 fmul finv feqb l = map finv l.
Proof. intros FT EQ Z l. apply (par_spec F f0 f1 fadd fsub fmul fdiv fopp finv feqb FT EQ Z). apply le_n. Qed.
Example C102_parallel_invert_case : f5_inv A0 = A0 /\ parallel_invert f5 A0 f5_mul f5_inv f5_eqb [A2; A0; A3; A4; A2] = [A3; A0; A2; A4; A3].
Proof. split; reflexivity. Qed.

Print Assumptions C102_projective_doubling.
Print Assumptions C102_doubled_unique.
Print Assumptions C102_parallel_invert.
