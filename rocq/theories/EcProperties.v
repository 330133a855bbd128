(** C100: the points of an ECP curve and their sums. *)
From Coq Require Import Field_theory Ring Field Bool.
From Verif Require Import EcModel EcSpec EcProofs.

(** A field of five elements for the examples. *)
Inductive f5 := A0 | A1 | A2 | A3 | A4.
Definition f5_next (x : f5) : f5 := match x with A0 => A1 | A1 => A2 | A2 => A3 | A3 => A4 | A4 => A0 end.
Definition f5_add (x y : f5) : f5 :=
  match y with A0 => x | A1 => f5_next x | A2 => f5_next (f5_next x) | A3 => f5_next (f5_next (f5_next x)) | A4 => f5_next (f5_next (f5_next (f5_next x))) end.
Definition f5_mul (x y : f5) : f5 :=
  match y with A0 => A0 | A1 => x | A2 => f5_add x x | A3 => f5_add x (f5_add x x) | A4 => f5_add (f5_add x x) (f5_add x x) end.
Definition f5_opp (x : f5) : f5 := f5_mul x A4.
Definition f5_inv (x : f5) : f5 := match x with A2 => A3 | A3 => A2 | _ => x end.
Definition f5_sub (x y : f5) : f5 := f5_add x (f5_opp y).
Definition f5_div (x y : f5) : f5 := f5_mul x (f5_inv y).
Definition f5_eqb (x y : f5) : bool := match x, y with A0, A0 | A1, A1 | A2, A2 | A3, A3 | A4, A4 => true | _, _ => false end.
Lemma f5_field : odd_field f5 A0 A1 f5_add f5_sub f5_mul f5_div f5_opp f5_inv.
Proof.
  split; [|discriminate]. constructor; [constructor; try (intros x y z; destruct x, y, z; reflexivity); try (intros x y; destruct x, y; reflexivity); intros x; destruct x; reflexivity|discriminate|reflexivity|].
  intros x N. destruct x; [congruence|reflexivity|reflexivity|reflexivity|reflexivity].
Qed.
Lemma f5_eqb_ok : forall x y, f5_eqb x y = true <-> x = y.
Proof. intros x y. destruct x, y; cbn; split; congruence. Qed.

(** Add gives the sum by chord and tangent of any two points of the curve, and it is on the curve; each argument may be a
    reference to the member that Add overwrites. *)
Theorem C100_add F f0 f1 fadd fsub fmul fdiv fopp finv (feqb : F -> F -> bool) :
  odd_field F f0 f1 fadd fsub fmul fdiv fopp finv -> (forall x y, feqb x y = true <-> x = y) ->
  forall a b mR P Q, on_curve F fadd fmul a b (affine F (deref mR P)) -> on_curve F fadd fmul a b (affine F (deref mR Q)) ->
  let '(r, mR') := ecp_add F f0 fadd fsub fmul fdiv feqb a mR P Q in
  is_sum F fadd fsub fmul fopp a b (affine F (deref mR P)) (affine F (deref mR Q)) (affine F (deref mR' r)) /\
  on_curve F fadd fmul a b (affine F (deref mR' r)).
Proof.
  intros [FT N2] EQ a b mR P Q C1 C2. pose proof (add_spec F f0 f1 fadd fsub fmul fdiv fopp finv feqb FT N2 EQ a b mR P Q C1 C2) as H. destruct (ecp_add F f0 fadd fsub fmul fdiv feqb a mR P Q) as [r mR']. split; auto.
  eapply (sum_on_curve F f0 f1 fadd fsub fmul fdiv fopp finv FT); [exact C1|exact C2|exact H].
Qed.
(** On y^2 = x^3 + x + 1 over the five elements: (0, 1) + (4, 2) = (2, 1), the first held in the member. *)
Example C100_add_case : let mR := mkPoint false A0 A1 in let Q := Own (mkPoint false A4 A2) in
  on_curve f5 f5_add f5_mul A1 A1 (affine f5 (deref mR Res)) /\ on_curve f5 f5_add f5_mul A1 A1 (affine f5 (deref mR Q)) /\
  (let '(r, mR') := ecp_add f5 A0 f5_add f5_sub f5_mul f5_div f5_eqb A1 mR Res Q in affine f5 (deref mR' r) = Some (A2, A1)).
Proof. repeat split. Qed.

(** Double gives the sum of a point with itself. *)
Theorem C100_double F f0 f1 fadd fsub fmul fdiv fopp finv (feqb : F -> F -> bool) :
  odd_field F f0 f1 fadd fsub fmul fdiv fopp finv -> (forall x y, feqb x y = true <-> x = y) ->
  forall a b mR P, on_curve F fadd fmul a b (affine F (deref mR P)) ->
  let '(r, mR') := ecp_double F f0 fadd fsub fmul fdiv feqb a mR P in
  is_sum F fadd fsub fmul fopp a b (affine F (deref mR P)) (affine F (deref mR P)) (affine F (deref mR' r)) /\
  on_curve F fadd fmul a b (affine F (deref mR' r)).
Proof.
  intros [FT N2] EQ a b mR P C. pose proof (double_spec F f0 f1 fadd fsub fmul fdiv fopp finv feqb FT N2 EQ a b mR P C) as H. destruct (ecp_double F f0 fadd fsub fmul fdiv feqb a mR P) as [r mR']. split; auto.
  eapply (sum_on_curve F f0 f1 fadd fsub fmul fdiv fopp finv FT); [exact C|exact C|exact H].
Qed.
Example C100_double_case : let mR := mkPoint false A0 A1 in
  (let '(r, mR') := ecp_double f5 A0 f5_add f5_sub f5_mul f5_div f5_eqb A1 mR Res in affine f5 (deref mR' r) = Some (A4, A2)).
Proof. reflexivity. Qed.

(** Inverse reflects a point; with it the sum is infinity.  Equal compares points. *)
Theorem C100_inverse F f0 f1 fadd fsub fmul fdiv fopp finv (feqb : F -> F -> bool) :
  odd_field F f0 f1 fadd fsub fmul fdiv fopp finv -> (forall x y, feqb x y = true <-> x = y) ->
  (forall a b mR P, on_curve F fadd fmul a b (affine F (deref mR P)) ->
   let '(r, mR') := ecp_inverse F fopp mR P in
   on_curve F fadd fmul a b (affine F (deref mR' r)) /\ is_sum F fadd fsub fmul fopp a b (affine F (deref mR P)) (affine F (deref mR' r)) None) /\
  (forall p q, ecp_equal F feqb p q = true <-> affine F p = affine F q).
Proof.
  intros [FT N2] EQ. split; [|intros; apply equal_spec; auto]. intros a b mR P C. pose proof (EcProofs.inverse_spec F fopp mR P) as H. destruct (ecp_inverse F fopp mR P) as [r mR']. rewrite H. destruct (affine F (deref mR P)) as [[x y]|]; cbn in *; [|auto]. split; [|left; auto].
  rewrite <- C. apply (opp_sq F f0 f1 fadd fsub fmul fdiv fopp finv FT).
Qed.
Example C100_inverse_case : (let '(r, mR') := ecp_inverse f5 f5_opp (mkPoint false A4 A2) Res in affine f5 (deref mR' r) = Some (A4, A3)) /\
  ecp_equal f5 f5_eqb (mkPoint true A4 A2) (mkPoint true A0 A0) = true.
Proof. split; reflexivity. Qed.

(** The specification has one sum for two points, and it does not depend on their order; hence neither does Add. *)
Theorem C100_sum_unique F f0 f1 fadd fsub fmul fdiv fopp finv (feqb : F -> F -> bool) :
  odd_field F f0 f1 fadd fsub fmul fdiv fopp finv -> (forall x y, feqb x y = true <-> x = y) ->
  forall a b P Q R R', is_sum F fadd fsub fmul fopp a b P Q R -> is_sum F fadd fsub fmul fopp a b P Q R' \/ is_sum F fadd fsub fmul fopp a b Q P R' -> R = R'.
Proof.
  intros [FT N2] EQ a b P Q R R' H [H'|H']; apply (sum_unique F f0 f1 fadd fsub fmul fdiv fopp finv feqb FT N2 EQ a b P Q R R' H); auto. apply (sum_comm F f0 f1 fadd fsub fmul fdiv fopp finv FT). auto.
Qed.
Theorem C100_add_commutes F f0 f1 fadd fsub fmul fdiv fopp finv (feqb : F -> F -> bool) :
  odd_field F f0 f1 fadd fsub fmul fdiv fopp finv -> (forall x y, feqb x y = true <-> x = y) ->
  forall a b mR P Q, on_curve F fadd fmul a b (affine F (deref mR P)) -> on_curve F fadd fmul a b (affine F (deref mR Q)) ->
  let '(r, m) := ecp_add F f0 fadd fsub fmul fdiv feqb a mR P Q in let '(r', m') := ecp_add F f0 fadd fsub fmul fdiv feqb a mR Q P in
  affine F (deref m r) = affine F (deref m' r').
Proof.
  intros HF EQ a b mR P Q C1 C2. pose proof (C100_add F f0 f1 fadd fsub fmul fdiv fopp finv feqb HF EQ a b mR P Q C1 C2) as H1. pose proof (C100_add F f0 f1 fadd fsub fmul fdiv fopp finv feqb HF EQ a b mR Q P C2 C1) as H2.
  destruct (ecp_add F f0 fadd fsub fmul fdiv feqb a mR P Q) as [r m]. destruct (ecp_add F f0 fadd fsub fmul fdiv feqb a mR Q P) as [r' m']. eapply (C100_sum_unique F f0 f1 fadd fsub fmul fdiv fopp finv feqb HF EQ); [apply H1|right; apply H2].
Qed.
Example C100_add_commutes_case : exists a b mR P Q, on_curve f5 f5_add f5_mul a b (affine f5 (deref mR P)) /\ on_curve f5 f5_add f5_mul a b (affine f5 (deref mR Q)) /\ affine f5 (deref mR P) <> affine f5 (deref mR Q).
Proof. exists A1, A1, (mkPoint false A0 A1), Res, (Own (mkPoint false A4 A2)). repeat split. discriminate. Qed.

Print Assumptions C100_add.
Print Assumptions C100_double.
Print Assumptions C100_inverse.
Print Assumptions C100_sum_unique.
Print Assumptions C100_add_commutes.
